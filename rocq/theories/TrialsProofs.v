(** Proofs about the model of the trial classes. *)
From Verif Require Export TrialsSpec MatProofs ListUtilsProofs StrFacts.
Open Scope list_scope.
Open Scope Z_scope.

Lemma index_of_nth (l : list string) k x : NoDup l -> nth_error l k = Some x -> index_of x l = Some k.
Proof.
  intros N E. destruct (index_of_in x l (nth_error_In _ _ E)) as (k' & E1 & L & E2). rewrite E1. f_equal.
  rewrite NoDup_nth_error in N. apply N; [exact L|congruence].
Qed.

Lemma index_of_nth_inv (l : list string) k x : index_of x l = Some k -> nth_error l k = Some x.
Proof. intros E. apply index_of_some in E. tauto. Qed.

Lemma cell_nth {A} mods segs (M : mat A) m s i j : NoDup mods -> NoDup segs ->
  nth_error mods i = Some m -> nth_error segs j = Some s -> cell mods segs M m s = mget M i j.
Proof. intros N1 N2 E1 E2. unfold cell. rewrite (index_of_nth _ _ _ N1 E1), (index_of_nth _ _ _ N2 E2). reflexivity. Qed.

Lemma cell_some_in {A} mods segs (M : mat A) m s v : cell mods segs M m s = Some v -> In m mods /\ In s segs.
Proof.
  unfold cell. destruct (index_of m mods) eqn:E1; [|discriminate]. destruct (index_of s segs) eqn:E2; [|discriminate].
  intros _. split; eapply nth_error_In; apply index_of_nth_inv; eassumption.
Qed.

Lemma cell_none {A} mods segs (M : mat A) m s : ~ (In m mods /\ In s segs) -> cell mods segs M m s = None.
Proof. intros H. destruct (cell mods segs M m s) eqn:E; [|reflexivity]. apply cell_some_in in E. tauto. Qed.

Lemma cell_total {A} mods segs (M : mat A) m s : has_shape M (len mods) (len segs) -> In m mods -> In s segs ->
  exists v, cell mods segs M m s = Some v.
Proof.
  intros H Hm Hs. unfold cell. destruct (index_of_in m mods Hm) as (i & -> & Li & _). destruct (index_of_in s segs Hs) as (j & -> & Lj & _).
  eapply mget_lt; eassumption.
Qed.

Lemma cell_ext {A} mods segs (M N : mat A) : NoDup mods -> NoDup segs ->
  has_shape M (len mods) (len segs) -> has_shape N (len mods) (len segs) ->
  (forall m s, In m mods -> In s segs -> cell mods segs M m s = cell mods segs N m s) -> M = N.
Proof.
  intros N1 N2 HM HN H. eapply mat_ext; [exact HM|exact HN|]. intros i j Hi Hj.
  destruct (nth_error mods i) as [m|] eqn:E1; [|apply nth_error_None in E1; lia].
  destruct (nth_error segs j) as [s|] eqn:E2; [|apply nth_error_None in E2; lia].
  rewrite <- (cell_nth mods segs M m s i j), <- (cell_nth mods segs N m s i j) by assumption.
  apply H; eapply nth_error_In; eassumption.
Qed.

Lemma cell_mmap {A B} (f : A -> B) mods segs M m s : cell mods segs (mmap f M) m s = option_map f (cell mods segs M m s).
Proof. unfold cell. destruct (index_of m mods), (index_of s segs); try reflexivity. apply mmap_get. Qed.

Lemma cell_mmap2 {A B C} (f : A -> B -> C) mods segs M N r c : has_shape M r c -> has_shape N r c ->
  exists K, mmap2 f M N = Ok K /\ has_shape K r c /\ forall m s,
    cell mods segs K m s = match cell mods segs M m s, cell mods segs N m s with Some x, Some y => Some (f x y) | _, _ => None end.
Proof.
  intros HM HN. destruct (mmap2_ok f M N r c HM HN) as (K & E & S & G). exists K. split; [exact E|]. split; [exact S|].
  intros m s. unfold cell. destruct (index_of m mods), (index_of s segs); try reflexivity. apply G.
Qed.

Lemma cell_full {A} (v : A) mods segs m s : In m mods -> In s segs -> cell mods segs (mfull (len mods) (len segs) v) m s = Some v.
Proof.
  intros Hm Hs. unfold cell. destruct (index_of_in m mods Hm) as (i & -> & Li & _). destruct (index_of_in s segs Hs) as (j & -> & Lj & _).
  apply mfull_get; assumption.
Qed.

(** ** Gathering *)

Lemma gather {A} (M : mat A) mods segs mi si mods' segs' : NoDup mods -> NoDup segs -> NoDup mods' -> NoDup segs' ->
  has_shape M (len mods) (len segs) -> locs mods mi mods' -> locs segs si segs' ->
  exists N, msel M mi si = Ok N /\ has_shape N (len mods') (len segs') /\
    forall m s, In m mods' -> In s segs' -> cell mods' segs' N m s = cell mods segs M m s.
Proof.
  intros N1 N2 N3 N4 H Lm Ls. destruct (msel_ok M mods segs mi si mods' segs' H Lm Ls) as (N & E & S & G).
  exists N. split; [exact E|]. split; [exact S|]. intros m s Hm Hs.
  apply In_nth_error in Hm as [i Hi]. apply In_nth_error in Hs as [j Hj].
  destruct (locs_nth _ _ _ _ _ Lm Hi) as (a & A1 & A2). destruct (locs_nth _ _ _ _ _ Ls Hj) as (b & B1 & B2).
  rewrite (cell_nth mods' segs' N m s i j), (cell_nth mods segs M m s a b) by assumption. apply G; assumption.
Qed.

Lemma locs_nat {A} (names : list A) mi sub : locs names mi sub ->
  exists mj, mi = map Z.of_nat mj /\ Forall2 (fun k x => nth_error names k = Some x) mj sub.
Proof.
  induction 1 as [|z x mi sub (k & -> & E) _ IH]; [exists []; split; constructor|].
  destruct IH as (mj & -> & F). exists (k :: mj). split; [reflexivity|]. constructor; assumption.
Qed.

Lemma Forall2_nth_l {A B} (R : A -> B -> Prop) l l' i x : Forall2 R l l' -> nth_error l i = Some x -> exists y, nth_error l' i = Some y /\ R x y.
Proof. intros H. revert i. induction H; intros [|i] E; cbn in *; try discriminate; [injection E as ->; eauto|auto]. Qed.

Lemma locs_nodup {A} (names sub : list A) mj : Forall2 (fun k x => nth_error names k = Some x) mj sub -> NoDup sub -> NoDup mj.
Proof.
  intros F N. apply NoDup_nth_error. intros i j Hi E. destruct (nth_error mj i) as [k|] eqn:Ei; [|apply nth_error_None in Ei; lia].
  destruct (Forall2_nth_l _ _ _ _ _ F Ei) as (x & X1 & X2). destruct (Forall2_nth_l _ _ _ _ _ F (eq_sym E)) as (y & Y1 & Y2).
  rewrite NoDup_nth_error in N. apply N; [apply nth_error_Some; congruence|congruence].
Qed.

(** the index lists of [intersect new old] when old is included in new *)
Lemma intersect_locs (new old : list string) : NoDup old ->
  let '(c, ia, ib) := intersect new old in
  locs new ia c /\ locs old ib c /\ NoDup c /\ (forall x, In x c <-> In x new /\ In x old).
Proof.
  intros N. pose proof (intersect_spec new old) as H. destruct (intersect new old) as ((c, ia), ib).
  destruct H as (S & I & La & Lb & P).
  assert (Q : locs new ia c /\ locs old ib c).
  { split.
    - clear - La P. assert (G : forall i x, nth_error c i = Some x -> exists k, nth_error ia i = Some (Z.of_nat k) /\ nth_error new k = Some x).
      { intros i x E. destruct (P i x E) as (ka & kb & ? & ? & ? & _). eauto. }
      clear P. revert ia La G. induction c as [|x c IH]; intros [|z ia] La G; try discriminate; constructor.
      + destruct (G 0%nat x eq_refl) as (k & E1 & E2). injection E1 as ->. eauto.
      + apply IH; [cbn in La; lia|]. intros i y E. apply (G (S i) y E).
    - clear - Lb P. assert (G : forall i x, nth_error c i = Some x -> exists k, nth_error ib i = Some (Z.of_nat k) /\ nth_error old k = Some x).
      { intros i x E. destruct (P i x E) as (ka & kb & ? & ? & ? & ? & ? & _). eauto. }
      clear P. revert ib Lb G. induction c as [|x c IH]; intros [|z ib] Lb G; try discriminate; constructor.
      + destruct (G 0%nat x eq_refl) as (k & E1 & E2). injection E1 as ->. eauto.
      + apply IH; [cbn in Lb; lia|]. intros i y E. apply (G (S i) y E). }
  destruct Q as (Q1 & Q2). split; [exact Q1|]. split; [exact Q2|]. split; [apply slt_sorted_nodup; exact S|exact I].
Qed.

Lemma scatter_ok {A} (zero : A) new_mods new_segs mods segs (M : mat A) cm cs ma mb sa sb :
  NoDup new_mods -> NoDup new_segs -> NoDup mods -> NoDup segs -> has_shape M (len mods) (len segs) ->
  locs new_mods ma cm -> locs mods mb cm -> NoDup cm -> (forall x, In x cm <-> In x new_mods /\ In x mods) ->
  locs new_segs sa cs -> locs segs sb cs -> NoDup cs -> (forall x, In x cs <-> In x new_segs /\ In x segs) ->
  exists V E, msel M mb sb = Ok V /\ mput (mfull (len new_mods) (len new_segs) zero) ma sa V = Ok E /\
    has_shape E (len new_mods) (len new_segs) /\
    forall m s, In m new_mods -> In s new_segs ->
      cell new_mods new_segs E m s = Some (match cell mods segs M m s with Some v => v | None => zero end).
Proof.
  intros N1 N2 N3 N4 H A1 A2 A3 A4 B1 B2 B3 B4.
  destruct (gather M mods segs mb sb cm cs N3 N4 A3 B3 H A2 B2) as (V & EV & SV & GV). exists V.
  destruct (locs_nat _ _ _ A1) as (mj & -> & Fm). destruct (locs_nat _ _ _ B1) as (sj & -> & Fs).
  assert (Bm : Forall (fun k => (k < len new_mods)%nat) mj).
  { clear - Fm. induction Fm; constructor; auto. apply nth_error_Some. congruence. }
  assert (Bs : Forall (fun k => (k < len new_segs)%nat) sj).
  { clear - Fs. induction Fs; constructor; auto. apply nth_error_Some. congruence. }
  assert (Lm : len mj = len cm) by (clear - Fm; induction Fm; cbn; congruence).
  assert (Ls : len sj = len cs) by (clear - Fs; induction Fs; cbn; congruence).
  destruct (mput_ok (mfull (len new_mods) (len new_segs) zero) V _ _ mj sj (mfull_shape _ _ _) ltac:(rewrite Lm, Ls; exact SV)
     (locs_nodup _ _ _ Fm A3) (locs_nodup _ _ _ Fs B3) Bm Bs) as (E & EE & SE & G1 & G2).
  exists E. split; [exact EV|]. split; [exact EE|]. split; [exact SE|]. intros m s Hm Hs.
  destruct (index_of_in m new_mods Hm) as (a & Ia & La & Na). destruct (index_of_in s new_segs Hs) as (b & Ib & Lb & Nb).
  assert (Fm' : forall k x, In k mj -> nth_error new_mods k = Some x -> In x cm).
  { clear - Fm. intros k x Hk E. induction Fm as [|k' y mj cm Hy _ IH]; [destruct Hk|]. destruct Hk as [->|Hk]; [left; congruence|right; auto]. }
  assert (Fs' : forall k x, In k sj -> nth_error new_segs k = Some x -> In x cs).
  { clear - Fs. intros k x Hk E. induction Fs as [|k' y mj cm Hy _ IH]; [destruct Hk|]. destruct Hk as [->|Hk]; [left; congruence|right; auto]. }
  rewrite (cell_nth new_mods new_segs E m s a b) by assumption.
  destruct (in_dec string_dec m mods) as [Im|Im]; [destruct (in_dec string_dec s segs) as [Is|Is]|].
  - assert (Cm : In m cm) by (apply A4; auto). assert (Cs : In s cs) by (apply B4; auto).
    rewrite <- (GV m s Cm Cs). apply In_nth_error in Cm as [i Hi]. apply In_nth_error in Cs as [j Hj].
    rewrite (cell_nth cm cs V m s i j) by assumption.
    destruct (nth_error mj i) as [a'|] eqn:Ea; [|apply nth_error_None in Ea; assert (i < len cm)%nat by (apply nth_error_Some; congruence); lia].
    destruct (nth_error sj j) as [b'|] eqn:Eb; [|apply nth_error_None in Eb; assert (j < len cs)%nat by (apply nth_error_Some; congruence); lia].
    destruct (Forall2_nth_l _ _ _ _ _ Fm Ea) as (x & X1 & X2). destruct (Forall2_nth_l _ _ _ _ _ Fs Eb) as (y & Y1 & Y2).
    assert (a' = a). { rewrite NoDup_nth_error in N1. apply N1; [apply nth_error_Some; congruence|congruence]. }
    assert (b' = b). { rewrite NoDup_nth_error in N2. apply N2; [apply nth_error_Some; congruence|congruence]. }
    subst a' b'. rewrite (G1 i j a b Ea Eb).
    destruct (mget_lt V _ _ i j SV) as (v & ->); [apply nth_error_Some; congruence|apply nth_error_Some; congruence|]. reflexivity.
  - rewrite (cell_none mods segs M m s) by tauto. rewrite G2, mfull_get by (lia || (right; intros Q; apply Is; apply (B4 s); eapply Fs'; eassumption)). reflexivity.
  - rewrite (cell_none mods segs M m s) by tauto. rewrite G2, mfull_get by (lia || (left; intros Q; apply Im; apply (A4 m); eapply Fm'; eassumption)). reflexivity.
Qed.

Lemma embed_ok {A} (zero : A) new_mods new_segs mods segs (M : mat A) :
  NoDup new_mods -> NoDup new_segs -> NoDup mods -> NoDup segs -> has_shape M (len mods) (len segs) ->
  incl mods new_mods -> incl segs new_segs ->
  exists E, embed zero new_mods new_segs mods segs M = Ok E /\ has_shape E (len new_mods) (len new_segs) /\
    forall m s, In m new_mods -> In s new_segs ->
      cell new_mods new_segs E m s = Some (match cell mods segs M m s with Some v => v | None => zero end).
Proof.
  intros N1 N2 N3 N4 H _ _. unfold embed.
  pose proof (intersect_locs new_mods mods N3) as Pm. destruct (intersect new_mods mods) as ((cm, ma), mb). destruct Pm as (A1 & A2 & A3 & A4).
  pose proof (intersect_locs new_segs segs N4) as Ps. destruct (intersect new_segs segs) as ((cs, sa), sb). destruct Ps as (B1 & B2 & B3 & B4).
  destruct (scatter_ok zero new_mods new_segs mods segs M cm cs ma mb sa sb) as (V & E & EV & EE & SE & G); auto.
  rewrite EV. cbn [bind]. eauto.
Qed.

(** ** Names *)

Lemma distinct_iff l : distinct l = true <-> NoDup l.
Proof.
  unfold distinct. rewrite Nat.eqb_eq. split.
  - intros E. apply (@NoDup_incl_NoDup _ (unique l) l); [apply unique_nodup|lia|]. intros x. apply unique_in.
  - intros N. apply Nat.le_antisymm; apply NoDup_incl_length; [apply unique_nodup|intros x; apply unique_in|exact N|intros x; apply unique_in].
Qed.

Lemma ndx_new_ok mods segs M : NoDup mods -> NoDup segs -> has_shape M (len mods) (len segs) ->
  ndx_new mods segs (Some M) = Ok (mk_ndx mods segs M).
Proof.
  intros N1 N2 H. unfold ndx_new. apply distinct_iff in N1, N2. rewrite N1, N2, (shape_is_ok _ _ _ H). reflexivity.
Qed.

Lemma union1d_sorted (a b : list string) : sorted_names (union1d a b).
Proof. apply unique_sorted. Qed.
Lemma sorted_nodup l : sorted_names l -> NoDup l.
Proof. apply slt_sorted_nodup. Qed.

(** ** Merge of trial lists *)

Lemma ndx_merge2_ok a b : ndx_ok a -> ndx_ok b -> exists r, ndx_merge2 a b = Ok r /\ ndx_ok r /\
  n_mod r = union1d (n_mod a) (n_mod b) /\ n_seg r = union1d (n_seg a) (n_seg b) /\
  (forall m s, trial r m s <-> trial a m s \/ trial b m s).
Proof.
  intros (A1 & A2 & A3) (B1 & B2 & B3). unfold ndx_merge2.
  set (nm := union1d (n_mod a) (n_mod b)). set (ns := union1d (n_seg a) (n_seg b)).
  assert (Nm : NoDup nm) by apply sorted_nodup, union1d_sorted. assert (Ns : NoDup ns) by apply sorted_nodup, union1d_sorted.
  assert (I1 : incl (n_mod a) nm) by (intros x Hx; apply union1d_in; auto). assert (I2 : incl (n_seg a) ns) by (intros x Hx; apply union1d_in; auto).
  assert (J1 : incl (n_mod b) nm) by (intros x Hx; apply union1d_in; auto). assert (J2 : incl (n_seg b) ns) by (intros x Hx; apply union1d_in; auto).
  destruct (embed_ok false nm ns _ _ (n_mask a) Nm Ns A1 A2 A3 I1 I2) as (E1 & Q1 & S1 & G1). rewrite Q1. cbn [bind].
  destruct (embed_ok false nm ns _ _ (n_mask b) Nm Ns B1 B2 B3 J1 J2) as (E2 & Q2 & S2 & G2). rewrite Q2. cbn [bind].
  destruct (cell_mmap2 orb nm ns E1 E2 _ _ S1 S2) as (K & EK & SK & GK). rewrite EK. cbn [bind].
  eexists. split; [reflexivity|]. split; [repeat split; cbn; auto; apply SK|]. cbn [n_mod n_seg n_mask]. split; [reflexivity|]. split; [reflexivity|].
  intros m s. unfold trial. cbn [n_mod n_seg n_mask]. split.
  - intros T. pose proof (cell_some_in _ _ _ _ _ _ T) as (Hm & Hs). rewrite GK, G1, G2 in T by assumption.
    destruct (cell (n_mod a) _ _ m s) as [[|]|]; destruct (cell (n_mod b) _ _ m s) as [[|]|]; auto; discriminate.
  - intros T. assert (Hms : In m nm /\ In s ns) by (destruct T as [T|T]; apply cell_some_in in T as [? ?]; auto).
    destruct Hms as (Hm & Hs). rewrite GK, G1, G2 by assumption. destruct T as [-> | ->]; [reflexivity|].
    destruct (cell (n_mod a) _ _ m s) as [[|]|]; reflexivity.
Qed.

Lemma ndx_fold l : forall a, ndx_ok a -> Forall ndx_ok l -> exists r, foldM ndx_merge2 a l = Ok r /\ ndx_ok r /\
  (l <> [] -> sorted_names (n_mod r) /\ sorted_names (n_seg r)) /\
  (forall x, In x (n_mod r) <-> In x (n_mod a) \/ exists o, In o l /\ In x (n_mod o)) /\
  (forall x, In x (n_seg r) <-> In x (n_seg a) \/ exists o, In o l /\ In x (n_seg o)) /\
  (forall m s, trial r m s <-> trial a m s \/ exists o, In o l /\ trial o m s) /\ (l = [] -> r = a).
Proof.
  induction l as [|b l IH]; intros a Ha F.
  - exists a. split; [reflexivity|]. split; [exact Ha|]. split; [congruence|]. repeat split; auto; intros [H|(o & [] & _)]; exact H.
  - inversion F as [|? ? Fb Fl]; subst. destruct (ndx_merge2_ok a b Ha Fb) as (c & E & Oc & Mc & Sc & Tc).
    destruct (IH c Oc Fl) as (r & E2 & Or & Sr & Mr & Gr & Tr & L0). exists r. cbn [foldM]. rewrite E. cbn [bind].
    split; [exact E2|]. split; [exact Or|].
    assert (X : forall (P : ndx -> Prop), (exists o, In o (b :: l) /\ P o) <-> P b \/ exists o, In o l /\ P o).
    { intros P. split; [intros (o & [<-|H] & Q); eauto|intros [Q|(o & H & Q)]; eauto with datatypes]. }
    split; [|split; [|split; [|split]]].
    + intros _. destruct l as [|d l]; [rewrite (L0 eq_refl), Mc, Sc; split; apply union1d_sorted|apply Sr; discriminate].
    + intros x. rewrite X, Mr, Mc, union1d_in. tauto.
    + intros x. rewrite X, Gr, Sc, union1d_in. tauto.
    + intros m s. rewrite X, Tr, Tc. tauto.
    + discriminate.
Qed.

Lemma ndx_ok_new o : ndx_ok o -> ndx_new (n_mod o) (n_seg o) (Some (n_mask o)) = Ok o.
Proof. intros (H1 & H2 & H3). rewrite ndx_new_ok by assumption. destruct o; reflexivity. Qed.

Lemma ndx_merge_ok l : Forall ndx_ok l -> (2 <= len l)%nat -> exists r, ndx_merge l = Ok r /\ ndx_ok r /\
  sorted_set (n_mod r) (fun x => exists o, In o l /\ In x (n_mod o)) /\
  sorted_set (n_seg r) (fun x => exists o, In o l /\ In x (n_seg o)) /\
  forall m s, trial r m s <-> exists o, In o l /\ trial o m s.
Proof.
  intros F L. destruct l as [|a l]; [cbn in L; lia|]. inversion F as [|? ? Fa Fl]; subst.
  destruct (ndx_fold l a Fa Fl) as (r & E & Or & Sr & Mr & Gr & Tr & _).
  assert (X : forall (P : ndx -> Prop), (exists o, In o (a :: l) /\ P o) <-> P a \/ exists o, In o l /\ P o).
  { intros P. split; [intros (o & [<-|H] & Q); eauto|intros [Q|(o & H & Q)]; eauto with datatypes]. }
  exists r. cbn [ndx_merge]. rewrite E. cbn [bind]. split; [apply ndx_ok_new; exact Or|]. split; [exact Or|].
  destruct Sr as (S1 & S2); [intros ->; cbn in L; lia|].
  split; [split; [exact S1|]; intros x; rewrite X; apply Mr|]. split; [split; [exact S2|]; intros x; rewrite X; apply Gr|].
  intros m s. rewrite X. apply Tr.
Qed.

Lemma bool_cell_ext mods segs (M N : mat bool) : NoDup mods -> NoDup segs ->
  has_shape M (len mods) (len segs) -> has_shape N (len mods) (len segs) ->
  (forall m s, cell mods segs M m s = Some true <-> cell mods segs N m s = Some true) -> M = N.
Proof.
  intros N1 N2 H1 H2 H. apply (cell_ext mods segs); auto. intros m s Hm Hs. specialize (H m s).
  destruct (cell_total mods segs M m s H1 Hm Hs) as (x & Ex). destruct (cell_total mods segs N m s H2 Hm Hs) as (y & Ey).
  rewrite Ex, Ey in *. destruct x, y; try reflexivity; [destruct H as (H & _)|destruct H as (_ & H)]; specialize (H eq_refl); discriminate.
Qed.

Lemma sorted_set_ext l l' P : sorted_set l P -> sorted_set l' P -> l = l'.
Proof. intros (A1 & A2) (B1 & B2). apply slt_sorted_ext; auto. intros x. rewrite A2, B2. reflexivity. Qed.

Lemma sorted_set_iff l P Q : (forall x, P x <-> Q x) -> sorted_set l P -> sorted_set l Q.
Proof. intros H (A1 & A2). split; auto. intros x. rewrite A2. apply H. Qed.

(** ** Conditions *)

Lemma mcols_msel {A} (C : mat A) si : mcols C si = msel C (map Z.of_nat (seq 0 (len (m_rows C)))) si.
Proof. unfold mcols, msel. rewrite take_seq. reflexivity. Qed.

Lemma locs_all {A} (l : list A) : locs l (map Z.of_nat (seq 0 (len l))) l.
Proof. apply take_locs. apply take_seq. Qed.

Lemma mcols_ok {A B} (C : mat A) (names : list B) mi names' K : has_shape C K (len names) -> locs names mi names' ->
  exists N, mcols C mi = Ok N /\ has_shape N K (len names') /\
    forall c j b, nth_error mi j = Some (Z.of_nat b) -> mget N c j = mget C c b.
Proof.
  intros H L. pose proof H as (K1 & _). rewrite mcols_msel, K1.
  assert (LR : locs (repeat tt K) (map Z.of_nat (seq 0 K)) (repeat tt K)) by (pose proof (locs_all (repeat tt K)) as Q; rewrite repeat_length in Q; exact Q).
  (* msel_ok with row names of another type: use positions *)
  unfold msel. rewrite <- K1, take_seq. cbn [bind]. pose proof H as (H1 & H2 & H3). clear K1 LR.
  assert (R : forall row, len row = len names -> exists row', take row mi = Ok row' /\ len row' = len names' /\
     forall j (b : nat), nth_error mi j = Some (Z.of_nat b) -> nth_error row' j = nth_error (A:=A) row b).
  { intros row Lr. clear - L Lr. induction L as [|z x si segs' (k & -> & E) _ IH]; [exists []; repeat split; intros [|j] b; discriminate|].
    destruct IH as (row' & T & L' & G). destruct (nth_error row k) as [v|] eqn:RK.
    2:{ apply nth_error_None in RK. assert (k < len names)%nat by (apply nth_error_Some; congruence). lia. }
    exists (v :: row'). unfold take in *. cbn [mapM]. rewrite (get_item_nat _ _ _ RK). cbn [bind]. rewrite T. cbn [bind].
    repeat split; [cbn; congruence|]. intros [|j] b Hb; cbn in *; [|apply G; exact Hb]. injection Hb as Hb. apply Nat2Z.inj in Hb as <-. congruence. }
  assert (Q : exists rs, mapM (fun row => take row mi) (m_rows C) = Ok rs /\ len rs = K /\ Forall (fun r => len r = len names') rs /\
     forall c j b, nth_error mi j = Some (Z.of_nat b) ->
       match nth_error rs c with Some r => nth_error r j | None => None end = match nth_error (m_rows C) c with Some r => nth_error r b | None => None end).
  { clear H2 H. revert K H1. induction H3 as [|row rows Hr _ IH]; intros K HK; cbn in HK.
    - exists []. split; [reflexivity|]. split; [exact HK|]. split; [constructor|]. intros [|c] j b _; reflexivity.
    - destruct (IH (len rows) eq_refl) as (rs & T & Lr & F & G). destruct (R row Hr) as (row' & T1 & L1 & G1). exists (row' :: rs). cbn [mapM]. rewrite T1. cbn [bind].
      rewrite T. cbn [bind]. repeat split; [cbn; lia|constructor; assumption|]. intros [|c] j b Hj; cbn; [apply G1; exact Hj|apply G; exact Hj]. }
  destruct Q as (rs & T & Lr & F & G). rewrite T. cbn [bind]. eexists. split; [reflexivity|]. rewrite (locs_len _ _ _ L).
  split; [repeat split; cbn; auto; congruence|]. intros c j b Hj. unfold mget. cbn [m_rows]. apply G. exact Hj.
Qed.

Lemma cond_nth names C c m i : NoDup names -> nth_error names i = Some m -> cond_of names (Some C) c m = mget C c i.
Proof. intros N E. unfold cond_of. rewrite (index_of_nth _ _ _ N E). reflexivity. Qed.

Lemma cond_none_name names C c m : ~ In m names -> cond_of names C c m = None.
Proof. intros H. unfold cond_of. rewrite (proj2 (index_of_none m names) H). destruct C; reflexivity. Qed.

Lemma cond_in names C c m v : cond_of names C c m = Some v -> In m names.
Proof. intros H. destruct (in_dec string_dec m names) as [I|I]; [exact I|]. rewrite cond_none_name in H by exact I. discriminate. Qed.

Lemma cond_gather C names mi names' K : NoDup names -> NoDup names' -> has_shape C K (len names) -> locs names mi names' ->
  exists N, mcols C mi = Ok N /\ has_shape N K (len names') /\
    forall c m, In m names' -> cond_of names' (Some N) c m = cond_of names (Some C) c m.
Proof.
  intros N1 N2 H L. destruct (mcols_ok C names mi names' K H L) as (N & E & S & G). exists N. split; [exact E|]. split; [exact S|].
  intros c m Hm. apply In_nth_error in Hm as [j Hj]. destruct (locs_nth _ _ _ _ _ L Hj) as (b & B1 & B2).
  rewrite (cond_nth names' N c m j), (cond_nth names C c m b) by assumption. apply G. exact B1.
Qed.

Lemma embed_cols_ok C new old K : NoDup new -> NoDup old -> has_shape C K (len old) -> incl old new ->
  let '(_, ia, ib) := intersect new old in
  exists E, embed_cols K (len new) ia ib C = Ok E /\ has_shape E K (len new) /\
    forall c m, (c < K)%nat -> In m new ->
      cond_of new (Some E) c m = Some (match cond_of old (Some C) c m with Some b => b | None => false end).
Proof.
  intros N1 N2 H I. pose proof (intersect_locs new old N2) as P. destruct (intersect new old) as ((cm, ia), ib).
  destruct P as (A1 & A2 & A3 & A4). unfold embed_cols.
  destruct (cond_gather C old ib cm K N2 A3 H A2) as (V & EV & SV & GV). rewrite EV. cbn [bind].
  destruct (locs_nat _ _ _ A1) as (mj & -> & Fm).
  assert (Bm : Forall (fun k => (k < len new)%nat) mj).
  { clear - Fm. induction Fm; constructor; auto. apply nth_error_Some. congruence. }
  assert (Lm : len mj = len cm) by (clear - Fm; induction Fm; cbn; congruence).
  pose proof (locs_nodup _ _ _ Fm A3) as NM.
  destruct SV as (V1 & V2 & V3).
  assert (Q : forall n rows, len rows = n -> Forall (fun r => len r = len cm) rows ->
     exists rs, mapM (fun p => set_items (fst p) (map Z.of_nat mj) (snd p)) (combine (repeat (repeat false (len new)) n) rows) = Ok rs /\
       len rs = n /\ Forall (fun r => len r = len new) rs /\
       forall c r, nth_error rows c = Some r -> exists r', nth_error rs c = Some r' /\
         (forall i k, nth_error mj i = Some k -> nth_error r' k = nth_error r i) /\
         (forall k, (k < len new)%nat -> ~ In k mj -> nth_error r' k = Some false)).
  { induction n as [|n IH]; intros rows L F.
    - exists []. destruct rows; [|discriminate]. repeat split; auto. intros [|c]; discriminate.
    - destruct rows as [|r rows]; [discriminate|]. inversion F as [|? ? F1 F2]; subst.
      destruct (IH rows ltac:(cbn in L; lia) F2) as (rs & E & Lr & Fr & G).
      destruct (set_items_ok mj (repeat false (len new)) r NM) as (r' & E' & L' & P1 & P2);
        [rewrite repeat_length; exact Bm|congruence|].
      exists (r' :: rs). cbn [repeat combine mapM fst snd]. rewrite E'. cbn [bind]. rewrite E. cbn [bind].
      split; [reflexivity|]. split; [cbn; lia|]. split; [constructor; [rewrite L', repeat_length; reflexivity|exact Fr]|].
      intros [|c] r0 Hc; cbn in Hc.
      + injection Hc as <-. exists r'. split; [reflexivity|]. split; [exact P1|]. intros k Hk Nk. rewrite P2 by exact Nk. apply nth_error_repeat_lt. exact Hk.
      + apply G. exact Hc. }
  destruct (Q K (m_rows V) V1 V3) as (rs & E & Lr & Fr & G). rewrite E. cbn [bind]. eexists. split; [reflexivity|].
  split; [repeat split; cbn; auto|]. intros c m Hc Hm.
  destruct (index_of_in m new Hm) as (a & Ia & La & Na). rewrite (cond_nth new _ c m a N1 Na). unfold mget. cbn [m_rows].
  destruct (nth_error (m_rows V) c) as [r|] eqn:Vr; [|apply nth_error_None in Vr; lia].
  destruct (G c r Vr) as (r' & R' & P1 & P2). rewrite R'.
  destruct (in_dec string_dec m old) as [Io|Io].
  - assert (Cm : In m cm) by (apply A4; auto). rewrite <- (GV c m Cm). apply In_nth_error in Cm as [i Hi].
    rewrite (cond_nth cm V c m i A3 Hi). unfold mget. rewrite Vr.
    destruct (nth_error mj i) as [a'|] eqn:Ea; [|apply nth_error_None in Ea; assert (i < len cm)%nat by (apply nth_error_Some; congruence); lia].
    destruct (Forall2_nth_l _ _ _ _ _ Fm Ea) as (x & X1 & X2).
    assert (a' = a) by (rewrite NoDup_nth_error in N1; apply N1; [apply nth_error_Some; congruence|congruence]). subst a'.
    rewrite (P1 i a Ea). destruct (nth_error r i) as [b|] eqn:Eb; [reflexivity|].
    apply nth_error_None in Eb. rewrite Forall_forall in V3. rewrite (V3 r) in Eb by (eapply nth_error_In; exact Vr).
    assert (i < len cm)%nat by (apply nth_error_Some; congruence). lia.
  - rewrite cond_none_name by exact Io. apply P2; [exact La|]. intros Hin.
    apply Io. apply (A4 m). clear - Fm Hin Na. induction Fm as [|k y mj cm Hy _ IH]; [destruct Hin|]. destruct Hin as [->|Hin]; [left; congruence|right; auto].
Qed.

(** ** Merge of keys *)

Lemma key_new_ok mods segs t n mc sc tc a b c :
  NoDup mods -> NoDup segs -> has_shape t (len mods) (len segs) -> has_shape n (len mods) (len segs) ->
  cond_ok (len mods) mc -> cond_ok (len segs) sc ->
  match tc with None => True | Some l => Forall (fun M => has_shape M (len mods) (len segs)) l end ->
  key_new mods segs (Some (t, n)) mc sc tc a b c = Ok (mk_key mods segs t n mc sc tc a b c).
Proof.
  intros N1 N2 H1 H2 Hm Hs Ht. unfold key_new. apply distinct_iff in N1, N2.
  rewrite N1, N2, (shape_is_ok _ _ _ H1), (shape_is_ok _ _ _ H2). cbn [assert bind].
  replace (opt_all (fun M : mat bool => (m_cols M =? len mods)%nat) mc) with true.
  2:{ destruct mc as [M|]; [|reflexivity]. destruct Hm as (_ & E & _). cbn. rewrite E, Nat.eqb_refl. reflexivity. }
  replace (opt_all (fun M : mat bool => (m_cols M =? len segs)%nat) sc) with true.
  2:{ destruct sc as [M|]; [|reflexivity]. destruct Hs as (_ & E & _). cbn. rewrite E, Nat.eqb_refl. reflexivity. }
  replace (opt_all (forallb (fun M : mat bool => shape_is M (len mods) (len segs))) tc) with true; [reflexivity|].
  destruct tc as [l|]; [|reflexivity]. cbn. symmetry. apply forallb_forall. intros M HM. apply shape_is_ok. rewrite Forall_forall in Ht. auto.
Qed.

(** all keys carry [K] model conditions, or the first carries none *)
Definition mconds_fit (a b : key) : Prop :=
  match k_mcond a with None => True | Some Ca => exists Cb, k_mcond b = Some Cb /\ len (m_rows Cb) = len (m_rows Ca) end.

Lemma or_cell_iff (x y : option bool) :
  (Some (match x with Some b => b | None => false end || match y with Some b => b | None => false end)%bool = Some true <-> x = Some true \/ y = Some true).
Proof. destruct x as [[|]|], y as [[|]|]; cbn; split; intros H; auto; try discriminate; destruct H; discriminate. Qed.

Lemma merge_cells nm ns am as_ (A : mat bool) bm bs (B : mat bool) : NoDup nm -> NoDup ns ->
  NoDup am -> NoDup as_ -> has_shape A (len am) (len as_) -> NoDup bm -> NoDup bs -> has_shape B (len bm) (len bs) ->
  incl am nm -> incl as_ ns -> incl bm nm -> incl bs ns ->
  exists E1 E2 K, embed false nm ns am as_ A = Ok E1 /\ embed false nm ns bm bs B = Ok E2 /\ mmap2 orb E1 E2 = Ok K /\
    has_shape K (len nm) (len ns) /\ forall m s, cell nm ns K m s = Some true <-> cell am as_ A m s = Some true \/ cell bm bs B m s = Some true.
Proof.
  intros Nm Ns A1 A2 A3 B1 B2 B3 I1 I2 J1 J2.
  destruct (embed_ok false nm ns _ _ A Nm Ns A1 A2 A3 I1 I2) as (E1 & Q1 & S1 & G1).
  destruct (embed_ok false nm ns _ _ B Nm Ns B1 B2 B3 J1 J2) as (E2 & Q2 & S2 & G2).
  destruct (cell_mmap2 orb nm ns E1 E2 _ _ S1 S2) as (K & EK & SK & GK). exists E1, E2, K. repeat split; auto; try apply SK.
  - intros T. pose proof (cell_some_in _ _ _ _ _ _ T) as (Hm & Hs). rewrite GK, G1, G2 in T by assumption. apply or_cell_iff. exact T.
  - intros T. assert (Hms : In m nm /\ In s ns) by (destruct T as [T|T]; apply cell_some_in in T as [? ?]; auto).
    destruct Hms as (Hm & Hs). rewrite GK, G1, G2 by assumption. apply or_cell_iff. exact T.
Qed.

Lemma key_merge2_ok ns a b : key_ok a -> key_ok b -> k_scond a = None -> k_tcond a = None -> mconds_fit a b ->
  exists r, key_merge2 (rows_of (k_mcond a)) ns a b = Ok r /\ key_ok r /\ k_scond r = None /\ k_tcond r = None /\
  k_mod r = union1d (k_mod a) (k_mod b) /\ k_seg r = union1d (k_seg a) (k_seg b) /\
  (forall m s, target r m s <-> target a m s \/ target b m s) /\
  (forall m s, nontarget r m s <-> nontarget a m s \/ nontarget b m s) /\
  rows_of (k_mcond r) = rows_of (k_mcond a) /\ (k_mcond a = None <-> k_mcond r = None) /\
  (k_mcond a <> None -> forall c m, cond_of (k_mod r) (k_mcond r) c m = Some true <-> cond_of (k_mod a) (k_mcond a) c m = Some true \/ cond_of (k_mod b) (k_mcond b) c m = Some true).
Proof.
  intros (A1 & A2 & A3 & A4 & A5 & A6 & A7) (B1 & B2 & B3 & B4 & B5 & B6 & B7) SC TC MF. unfold key_merge2.
  set (nm := union1d (k_mod a) (k_mod b)). set (nseg := union1d (k_seg a) (k_seg b)).
  assert (Nm : NoDup nm) by apply sorted_nodup, union1d_sorted. assert (Ns : NoDup nseg) by apply sorted_nodup, union1d_sorted.
  assert (I1 : incl (k_mod a) nm) by (intros x Hx; apply union1d_in; auto). assert (I2 : incl (k_seg a) nseg) by (intros x Hx; apply union1d_in; auto).
  assert (J1 : incl (k_mod b) nm) by (intros x Hx; apply union1d_in; auto). assert (J2 : incl (k_seg b) nseg) by (intros x Hx; apply union1d_in; auto).
  destruct (merge_cells nm nseg _ _ (k_tar a) _ _ (k_tar b) Nm Ns A1 A2 A3 B1 B2 B3 I1 I2 J1 J2) as (t1 & t2 & T & ET1 & ET2 & ET & ST & GT).
  destruct (merge_cells nm nseg _ _ (k_non a) _ _ (k_non b) Nm Ns A1 A2 A4 B1 B2 B4 I1 I2 J1 J2) as (n1 & n2 & N & EN1 & EN2 & EN & SN & GN).
  rewrite ET1, EN1. cbn [bind]. rewrite SC, TC.
  destruct (intersect nm (k_mod a)) as ((ca, mia), mib) eqn:IA. destruct (intersect nm (k_mod b)) as ((cb, mja), mjb) eqn:IB. cbn [opt_res bind].
  unfold mconds_fit in MF. destruct (k_mcond a) as [Ca|] eqn:MA.
  - destruct MF as (Cb & MB & LB). rewrite MB in *. cbn [cond_ok] in A5, B5. cbn [rows_of].
    rewrite LB in B5.
    pose proof (embed_cols_ok Ca nm (k_mod a) _ Nm A1 A5 I1) as P1. rewrite IA in P1. destruct P1 as (E1 & Q1 & S1 & G1).
    pose proof (embed_cols_ok Cb nm (k_mod b) _ Nm B1 B5 J1) as P2. rewrite IB in P2. destruct P2 as (E2 & Q2 & S2 & G2).
    cbn [opt_res bind]. rewrite Q1. cbn [bind]. rewrite ET2, EN2. cbn [bind need]. rewrite Q2. cbn [bind].
    destruct (mmap2_ok orb E1 E2 _ _ S1 S2) as (C & EC & SC' & GC). cbn [opt_res]. rewrite EC. cbn [bind]. rewrite ET, EN. cbn [bind].
    eexists. split; [reflexivity|]. pose proof SC' as (SC1 & SC2 & SC3).
    split; [unfold key_ok; cbn [k_mod k_seg k_tar k_non k_mcond k_scond k_tcond cond_ok]; rewrite SC1; auto 10|].
    cbn [k_mod k_seg k_tar k_non k_mcond k_scond k_tcond rows_of]. split; [reflexivity|]. split; [reflexivity|]. split; [reflexivity|]. split; [reflexivity|].
    split; [exact GT|]. split; [exact GN|]. split; [exact SC1|]. split; [split; discriminate|]. intros _ c m.
    destruct (Nat.lt_ge_cases c (len (m_rows Ca))) as [Hc|Hc].
    2:{ assert (Z : forall names X, has_shape X (len (m_rows Ca)) (len names) -> cond_of names (Some X) c m = None).
        { intros names X (X1 & _ & _). unfold cond_of. destruct (index_of m names); [|reflexivity]. unfold mget.
          rewrite (proj2 (nth_error_None (m_rows X) c)) by lia. reflexivity. }
        rewrite (Z nm C SC'), (Z _ _ A5), (Z _ _ B5). split; [discriminate|intros [?|?]; discriminate]. }
    assert (CC : In m nm -> cond_of nm (Some C) c m = Some (match cond_of (k_mod a) (Some Ca) c m with Some b0 => b0 | None => false end || match cond_of (k_mod b) (Some Cb) c m with Some b0 => b0 | None => false end)%bool).
    { intros Hm. pose proof (G1 c m Hc Hm) as g1. pose proof (G2 c m Hc Hm) as g2. unfold cond_of in g1, g2 |- *.
      destruct (index_of m nm); [|discriminate]. rewrite GC, g1, g2. reflexivity. }
    split.
    + intros T'. rewrite CC in T' by (eapply cond_in; exact T'). apply or_cell_iff. exact T'.
    + intros T'. rewrite CC by (destruct T' as [T'|T']; apply cond_in in T'; auto). apply or_cell_iff. exact T'.
  - cbn [opt_res bind rows_of]. rewrite ET2, EN2. cbn [bind]. rewrite ET, EN. cbn [bind].
    eexists. split; [reflexivity|].
    split; [unfold key_ok; cbn [k_mod k_seg k_tar k_non k_mcond k_scond k_tcond cond_ok]; auto 10|].
    cbn [k_mod k_seg k_tar k_non k_mcond k_scond k_tcond rows_of]. repeat split; auto; try apply GT; try apply GN; congruence.
Qed.

Lemma key_fold nsc l : forall a, key_ok a -> Forall key_ok l -> k_scond a = None -> k_tcond a = None -> Forall (mconds_fit a) l ->
  exists r, foldM (key_merge2 (rows_of (k_mcond a)) nsc) a l = Ok r /\ key_ok r /\ k_scond r = None /\ k_tcond r = None /\
  (l <> [] -> sorted_names (k_mod r) /\ sorted_names (k_seg r)) /\
  (forall x, In x (k_mod r) <-> In x (k_mod a) \/ exists o, In o l /\ In x (k_mod o)) /\
  (forall x, In x (k_seg r) <-> In x (k_seg a) \/ exists o, In o l /\ In x (k_seg o)) /\
  (forall m s, target r m s <-> target a m s \/ exists o, In o l /\ target o m s) /\
  (forall m s, nontarget r m s <-> nontarget a m s \/ exists o, In o l /\ nontarget o m s) /\
  (k_mcond a = None <-> k_mcond r = None) /\
  (k_mcond a <> None -> forall c m, cond_of (k_mod r) (k_mcond r) c m = Some true <->
     cond_of (k_mod a) (k_mcond a) c m = Some true \/ exists o, In o l /\ cond_of (k_mod o) (k_mcond o) c m = Some true) /\
  (l = [] -> r = a).
Proof.
  induction l as [|b l IH]; intros a Ha F SC TC MF.
  - exists a. split; [reflexivity|]. split; [exact Ha|]. split; [exact SC|]. split; [exact TC|]. split; [congruence|]. repeat split; auto; intros [?|(? & [] & _)]; assumption.
  - inversion F as [|? ? Fb Fl]; subst. inversion MF as [|? ? Mb Ml]; subst.
    destruct (key_merge2_ok nsc a b Ha Fb SC TC Mb) as (c & E & Oc & SCc & TCc & Mc & Sc & Tc & Nc & Rc & NNc & Cc).
    assert (MF' : Forall (mconds_fit c) l).
    { eapply Forall_impl; [|exact Ml]. intros o. unfold mconds_fit. destruct (k_mcond a) as [Ca|], (k_mcond c) as [Cc'|]; auto.
      - intros (Cb & Q1 & Q2). exists Cb. split; [exact Q1|]. cbn [rows_of] in Rc. congruence.
      - exfalso. destruct NNc as (Q & _). specialize (Q eq_refl). discriminate. }
    destruct (IH c Oc Fl SCc TCc MF') as (r & E2 & Or & SCr & TCr & Sr & Mr & Gr & Tr & Nr & NNr & Cr & L0). exists r. cbn [foldM]. rewrite E. cbn [bind].
    rewrite Rc in E2. split; [exact E2|]. split; [exact Or|]. split; [exact SCr|]. split; [exact TCr|].
    assert (X : forall (P : key -> Prop), (exists o, In o (b :: l) /\ P o) <-> P b \/ exists o, In o l /\ P o).
    { intros P. split; [intros (o & [<-|H] & Q); eauto|intros [Q|(o & H & Q)]; eauto with datatypes]. }
    split; [|split; [|split; [|split; [|split; [|split; [|split]]]]]].
    + intros _. destruct l as [|d l]; [rewrite (L0 eq_refl), Mc, Sc; split; apply union1d_sorted|apply Sr; discriminate].
    + intros x. rewrite X, Mr, Mc, union1d_in. tauto.
    + intros x. rewrite X, Gr, Sc, union1d_in. tauto.
    + intros m s. rewrite X, Tr, Tc. tauto.
    + intros m s. rewrite X, Nr, Nc. tauto.
    + rewrite NNc. exact NNr.
    + intros Q i m. rewrite X, Cr, Cc by (try rewrite <- NNc; exact Q). tauto.
    + discriminate.
Qed.
