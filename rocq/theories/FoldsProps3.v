(** C31, C32 continued: which creations are accepted, train/test parts, alignment, TrainValEvalList. *)
From Coq Require Import QArith Lqa.
From Verif Require Import Folds TrialsProofs TrialsProps TrialsTextProofs ListUtilsProofs FoldsProofs FoldsProps FoldsProps2.
Open Scope list_scope.
Open Scope Z_scope.

(** ** Accepted exactly when the parts in use are an initial segment *)

Definition in_use mask n folds (j : Z) : Prop := exists p, (p < n)%nat /\ keptb mask p = true /\ fold_of folds p = j.
Definition no_gap mask n folds : Prop := forall j, 0 <= j -> in_use mask n folds j -> forall i, 0 <= i < j -> in_use mask n folds i.

Lemma downward (l : list Z) : (forall x, In x l -> -1 <= x) -> (exists x, In x l /\ 0 <= x) ->
  (Z.of_nat (len (unique (filter (fun f => 0 <=? f) l))) = fold_right Z.max (-1) l + 1 <-> forall j, 0 <= j -> In j l -> forall i, 0 <= i < j -> In i l).
Proof.
  intros B (x0 & Hx0 & P0). set (M := fold_right Z.max (-1) l). pose proof (max_le l _ Hx0) as M0. fold M in M0.
  assert (IM : In M l) by (destruct (max_in l) as [E|E]; [fold M in E; lia|exact E]).
  set (S := map Z.of_nat (seq 0 (Z.to_nat (M + 1)))).
  assert (SN : NoDup S) by (apply (NoDup_map_inv Z.to_nat); unfold S; rewrite map_map; erewrite map_ext; [rewrite map_id; apply seq_NoDup|]; intros x; apply Nat2Z.id).
  assert (SI : forall x, In x S <-> 0 <= x <= M).
  { intros x. unfold S. rewrite in_map_iff. split; [intros (y & <- & Hy); apply in_seq in Hy; lia|intros H; exists (Z.to_nat x); split; [lia|apply in_seq; lia]]. }
  assert (LS : Z.of_nat (len S) = M + 1) by (unfold S; rewrite map_length, seq_length; lia).
  set (U := unique (filter (fun f => 0 <=? f) l)). assert (UI : forall x, In x U <-> In x l /\ 0 <= x) by (intros x; unfold U; rewrite unique_in, filter_In, Z.leb_le; tauto).
  assert (UN : NoDup U) by apply unique_nodup. assert (US : incl U S) by (intros x Hx; apply UI in Hx as (Hx & Px); apply SI; pose proof (max_le l x Hx) as Q; fold M in Q; lia).
  split.
  - intros E j Pj Hj i Hi. assert (incl S U) by (apply NoDup_length_incl; [exact UN|lia|exact US]). assert (In i S) by (apply SI; pose proof (max_le l j Hj) as Q; fold M in Q; lia). apply UI. auto.
  - intros H. assert (incl S U). { intros x Hx. apply SI in Hx. apply UI. split; [|lia]. destruct (Z.eq_dec x M) as [->|]; [exact IM|]. apply (H M); [lia|exact IM|lia]. }
    assert (len S <= len U)%nat by (apply NoDup_incl_length; assumption). assert (len U <= len S)%nat by (apply NoDup_incl_length; assumption). lia.
Qed.

(** whatever the assignment, creation returns it iff the parts in use leave no gap, and fails with an
    assertion otherwise *)
Theorem C31_create_iff : forall bd K segs balance group mask shuf folds, segs <> [] -> fits (len segs) mask ->
  assign_parts bd K segs balance group mask shuf = Ok folds -> len folds = len segs ->
  (exists p, (p < len segs)%nat /\ keptb mask p = true) ->
  (forall p, (p < len segs)%nat -> keptb mask p = true -> 0 <= fold_of folds p) ->
  (forall p, (p < len segs)%nat -> keptb mask p = false -> fold_of folds p = -1) ->
  (no_gap mask (len segs) folds /\ folds_create bd K segs balance group mask shuf = Ok (mk_folds folds segs mask)) \/
  (~ no_gap mask (len segs) folds /\ folds_create bd K segs balance group mask shuf = Err AssertionError).
Proof.
  intros bd K segs balance group mask shuf folds NE Fm E L (p0 & Lp0 & Kp0) P1 P2. unfold folds_create. rewrite E. cbn [bind].
  assert (CK : match mask with None => assert (forallb (fun f => 0 <=? f) folds) | Some m => fm <- Base.mask m folds ;; assert (forallb (fun f => 0 <=? f) fm) end = Ok tt).
  { destruct mask as [m|].
    - destruct (Base.mask m folds) as [fm|] eqn:EM; [|exfalso; unfold Base.mask in EM; cbn in Fm; rewrite Fm, L, Nat.eqb_refl in EM; discriminate]. cbn [bind].
      assert (FA : forallb (fun f => 0 <=? f) fm = true); [|rewrite FA; reflexivity]. apply forallb_forall. intros x Hx. apply (kept_mask m folds fm ltac:(cbn in Fm; congruence) EM) in Hx as (p & Np & Kp).
      apply Z.leb_le. assert (Lp : (p < len segs)%nat) by (rewrite <- L; apply nth_error_Some; congruence). specialize (P1 p Lp Kp). rewrite (fold_of_nth folds p) in Np by lia. injection Np as Np. lia.
    - assert (FA : forallb (fun f => 0 <=? f) folds = true); [|rewrite FA; reflexivity]. apply forallb_forall. intros x Hx. apply fold_of_in in Hx as (p & Lp & <-). apply Z.leb_le. rewrite L in Lp. specialize (P1 p Lp eq_refl). lia. }
  rewrite CK. cbn [bind]. rewrite folds_new_ok; [|intros ->; destruct segs; [congruence|discriminate L]|symmetry; exact L|rewrite L; exact Fm].
  assert (IU : forall j, 0 <= j -> (In j folds <-> in_use mask (len segs) folds j)).
  { intros j Pj. split.
    - intros H. apply fold_of_in in H as (p & Lp & Ep). rewrite L in Lp. exists p. split; [exact Lp|]. split; [|exact Ep]. destruct (keptb mask p) eqn:Kp; [reflexivity|]. specialize (P2 p Lp Kp). lia.
    - intros (p & Lp & Kp & <-). apply (nth_error_In _ p), fold_of_nth. lia. }
  assert (D : Z.of_nat (len (unique (filter (fun f => 0 <=? f) folds))) = fold_right Z.max (-1) folds + 1 <-> no_gap mask (len segs) folds).
  { rewrite downward.
    - unfold no_gap. split; intros H j Pj Hj i Hi.
      + apply IU; [lia|]. apply (H j Pj); [apply IU; assumption|exact Hi].
      + apply IU; [lia|]. apply (H j Pj); [apply IU; assumption|exact Hi].
    - intros x Hx. apply fold_of_in in Hx as (p & Lp & <-). rewrite L in Lp. destruct (keptb mask p) eqn:Kp; [specialize (P1 p Lp Kp); lia|rewrite (P2 p Lp Kp); lia].
    - exists (fold_of folds p0). split; [apply (nth_error_In _ p0), fold_of_nth; lia|apply P1; assumption]. }
  destruct (_ =? _) eqn:Q; [left; split; [apply D, Z.eqb_eq; exact Q|reflexivity]|right; split; [intros H; apply D, Z.eqb_eq in H; congruence|reflexivity]].
Qed.
Print Assumptions C31_create_iff.

(** ** Train and test parts *)

Definition pick {A} (d : A) (l : list A) (P : nat -> bool) : list A := map (fun p => nth p l d) (filter P (seq 0 (len l))).

Lemma sel_pick {A} (d : A) (l : list A) (P : nat -> bool) : sel (map P (seq 0 (len l))) l = pick d l P.
Proof.
  unfold pick. assert (G : forall a (l : list A) (full : list A), (forall k x, nth_error l k = Some x -> nth (a + k) full d = x) -> sel (map P (seq a (len l))) l = map (fun p => nth p full d) (filter P (seq a (len l)))).
  { intros a l0. revert a. induction l0 as [|x l0 IH]; intros a full H; cbn [len seq map sel filter]; [reflexivity|]. rewrite (IH (S a) full).
    - destruct (P a); [|reflexivity]. cbn [map]. f_equal. specialize (H 0%nat x eq_refl). rewrite Nat.add_0_r in H. symmetry. exact H.
    - intros k y Hk. specialize (H (S k) y Hk). rewrite <- H. f_equal. lia. }
  apply (G 0%nat l l). intros k x Hk. apply nth_error_nth. exact Hk.
Qed.

Lemma zip_andb_seq (n : nat) (f : nat -> bool) (m : list bool) : len m = n -> zip_with andb (map f (seq 0 n)) m = map (fun p => f p && nth p m false) (seq 0 n).
Proof.
  intros <-. apply nth_error_ext. intros i. rewrite zip_with_nth, !nth_error_map. destruct (nth_error m i) as [b|] eqn:E.
  - assert (H : (i < len m)%nat) by (apply nth_error_Some; congruence). rewrite seq_nth_error by exact H. cbn. rewrite (nth_error_nth m i false E). reflexivity.
  - apply nth_error_None in E. rewrite (proj2 (nth_error_None (seq 0 (len m)) i)) by (rewrite seq_length; exact E). reflexivity.
Qed.

Lemma map_fold_seq {B} (f : Z -> B) (l : list Z) : map f l = map (fun p => f (fold_of l p)) (seq 0 (len l)).
Proof. unfold fold_of. symmetry. apply (map_nth_seq f). Qed.

(** Every fold: train and test are the kept keys outside and inside the fold, in order; each kept
    position is in exactly one of them and masked positions are in neither. *)
Theorem C31_get_fold : forall o fold, len (f_key o) = len (f_fold o) -> fits (len (f_fold o)) (f_mask o) ->
  get_fold o fold = Ok (pick EmptyString (f_key o) (fun p => keptb (f_mask o) p && negb (fold_of (f_fold o) p =? fold)),
                        pick EmptyString (f_key o) (fun p => keptb (f_mask o) p && (fold_of (f_fold o) p =? fold))).
Proof.
  intros [fd key mask] fold L F. cbn in *. unfold get_fold, get_fold_idx. cbn [f_fold f_mask f_key].
  rewrite (map_fold_seq (fun f => f =? fold)), map_map. set (n := len fd) in *.
  assert (X : forall P, Base.mask (map P (seq 0 n)) key = Ok (pick EmptyString key P)).
  { intros P. unfold Base.mask. rewrite map_length, seq_length, L, Nat.eqb_refl. rewrite <- L. f_equal. apply sel_pick. }
  destruct mask as [m|]; cbn [keptb].
  - cbn in F. rewrite !zip_andb_seq by exact F. rewrite !X. cbn [bind]. do 2 f_equal; unfold pick; f_equal; apply filter_ext; intros p; apply andb_comm.
  - rewrite !X. reflexivity.
Qed.
Print Assumptions C31_get_fold.

(** no leak: if each group lies in one balance class, no group is split between train and test of any fold *)
Theorem C31_no_leak : forall bd K segs balance group mask shuf o fold p q, segs <> [] ->
  fits (len segs) balance -> fits (len segs) group -> fits (len segs) mask ->
  no_class_masked (len segs) balance mask -> shuffles_ok segs balance group mask shuf ->
  (forall n, (1 <= n)%nat -> bounds (bd n) K (Z.of_nat n)) ->
  folds_create bd K segs balance group mask shuf = Ok o ->
  (forall p q, (p < len segs)%nat -> (q < len segs)%nat -> group_of segs group p = group_of segs group q -> label balance p = label balance q) ->
  nth p (fst (get_fold_idx o fold)) false = true -> nth q (snd (get_fold_idx o fold)) false = true ->
  group_of segs group p <> group_of segs group q.
Proof.
  intros bd K segs balance group mask shuf o fold p q NE Fb Fg Fm NM SH BD C ONE Hp Hq EG.
  destruct (C31_assign bd K segs balance group mask shuf NE Fb Fg Fm NM SH BD) as (folds & E & L & P1 & P2 & P3 & _).
  unfold folds_create in C. rewrite E in C. cbn [bind] in C. destruct (match mask with None => _ | Some m => _ end); [|discriminate C]. cbn [bind] in C.
  unfold folds_new in C. destruct (assert _); [|discriminate C]. cbn [bind] in C. destruct (np_max folds); [|discriminate C]. cbn [bind] in C. destruct (assert _); [|discriminate C]. cbn [bind] in C. destruct (assert _); [|discriminate C]. cbn [bind] in C. injection C as <-.
  unfold get_fold_idx in Hp, Hq. cbn [f_fold f_mask] in Hp, Hq. rewrite (map_fold_seq (fun f => f =? fold)), map_map in Hp. rewrite (map_fold_seq (fun f => f =? fold)) in Hq. rewrite L in Hp, Hq. set (n := len segs) in *.
  assert (NT : forall P r, nth r (map P (seq 0 n)) false = true -> (r < n)%nat /\ P r = true).
  { intros P r H. destruct (le_lt_dec n r) as [Lr|Lr]; [rewrite nth_overflow in H by (rewrite map_length, seq_length; exact Lr); discriminate|]. split; [exact Lr|].
    assert (X : nth_error (map P (seq 0 n)) r = Some (P r)) by (rewrite nth_error_map, seq_nth_error by exact Lr; reflexivity). rewrite (nth_error_nth _ _ false X) in H. exact H. }
  assert (R : (p < n)%nat /\ keptb mask p = true /\ negb (fold_of folds p =? fold) = true /\ (q < n)%nat /\ keptb mask q = true /\ (fold_of folds q =? fold) = true).
  { destruct mask as [m|].
    - cbn in Fm. cbn [fst snd] in Hp, Hq. rewrite zip_andb_seq in Hp by exact Fm. rewrite zip_andb_seq in Hq by exact Fm. apply NT in Hp as (Lp & Hp). apply NT in Hq as (Lq & Hq). apply andb_true_iff in Hp as (A1 & A2). apply andb_true_iff in Hq as (B1 & B2). cbn [keptb]. tauto.
    - cbn [fst snd] in Hp, Hq. apply NT in Hp as (Lp & Hp). apply NT in Hq as (Lq & Hq). cbn [keptb]. tauto. }
  destruct R as (Lp & Kp & Tp & Lq & Kq & Tq). apply Z.eqb_eq in Tq. apply negb_true_iff, Z.eqb_neq in Tp.
  apply Tp. rewrite <- Tq. apply P3; try assumption. apply ONE; assumption.
Qed.
Print Assumptions C31_no_leak.

(** ** Alignment with a key *)
Theorem C31_align : forall o key, len (f_key o) = len (f_fold o) -> fits (len (f_fold o)) (f_mask o) ->
  (incl key (f_key o) -> exists o', folds_align o key = Ok o' /\ f_key o' = key /\ len (f_fold o') = len key /\ fits (len key) (f_mask o') /\
     forall i k, nth_error key i = Some k -> exists p, nth_error (f_key o) p = Some k /\ (forall p', (p' < p)%nat -> nth_error (f_key o) p' <> Some k) /\
       fold_of (f_fold o') i = fold_of (f_fold o) p /\ keptb (f_mask o') i = keptb (f_mask o) p) /\
  (~ incl key (f_key o) -> folds_align o key = Err BareException).
Proof.
  intros [fd ky mask] key L F. cbn [f_key f_fold f_mask] in *. unfold folds_align. cbn [f_key f_fold f_mask].
  pose proof (ismember_spec key ky) as (L1 & L2 & SP). destruct (ismember key ky) as [f idx] eqn:EI. cbn [fst snd] in *.
  split.
  - intros I. assert (FA : forallb (fun b => b) f = true).
    { apply forallb_forall. intros b Hb. apply In_nth_error in Hb as (i & Hi). assert (Li : (i < len key)%nat) by (rewrite <- L1; apply nth_error_Some; congruence).
      destruct (nth_error key i) as [x|] eqn:Ex; [|apply nth_error_None in Ex; lia]. destruct (SP i x Ex) as (S1 & _). assert (nth_error f i = Some true) by (apply S1, I; eapply nth_error_In; exact Ex). congruence. }
    rewrite FA. assert (IX : exists js, idx = map Z.of_nat js /\ len js = len key /\ forall i x j, nth_error key i = Some x -> nth_error js i = Some j -> nth_error ky j = Some x /\ (forall p', (p' < j)%nat -> nth_error ky p' <> Some x)).
    { exists (map Z.to_nat idx). assert (PZ : forall i z, nth_error idx i = Some z -> exists x j, nth_error key i = Some x /\ z = Z.of_nat j /\ nth_error ky j = Some x /\ forall p', (p' < j)%nat -> nth_error ky p' <> Some x).
      { intros i z Hz. assert (Li : (i < len key)%nat) by (rewrite <- L2; apply nth_error_Some; congruence). destruct (nth_error key i) as [x|] eqn:Ex; [|apply nth_error_None in Ex; lia].
        destruct (SP i x Ex) as (_ & _ & S3). destruct (S3 (I x (nth_error_In _ _ Ex))) as (k & Hk & Hk1 & Hk2). exists x, k. split; [reflexivity|]. split; [congruence|]. split; assumption. }
      split; [|split].
      - apply nth_error_ext. intros i. rewrite map_map, nth_error_map. destruct (nth_error idx i) as [z|] eqn:Hz; [|reflexivity]. destruct (PZ i z Hz) as (x & j & _ & -> & _). cbn. rewrite Nat2Z.id. reflexivity.
      - rewrite map_length. exact L2.
      - intros i x j Hx Hj. rewrite nth_error_map in Hj. destruct (nth_error idx i) as [z|] eqn:Hz; [|discriminate Hj]. destruct (PZ i z Hz) as (x' & j' & Hx' & -> & A & B). cbn in Hj. rewrite Nat2Z.id in Hj. injection Hj as ->. assert (x' = x) by congruence. subst x'. split; assumption. }
    destruct IX as (js & -> & Lj & IX).
    assert (JB : forall j, In j js -> (j < len ky)%nat).
    { intros j Hj. apply In_nth_error in Hj as (i & Hi). assert (Li : (i < len key)%nat) by (rewrite <- Lj; apply nth_error_Some; congruence). destruct (nth_error key i) as [x|] eqn:Ex; [|apply nth_error_None in Ex; lia].
      destruct (IX i x j Ex Hi) as (A & _). apply nth_error_Some. congruence. }
    destruct (take_total ky js JB) as (k' & Tk). destruct (take_total fd js ltac:(intros j Hj; rewrite <- L; apply JB; exact Hj)) as (fd' & Tf). rewrite Tk, Tf. cbn [bind].
    assert (KE : k' = key).
    { apply nth_error_ext. intros i. destruct (nth_error key i) as [x|] eqn:Ex.
      - assert (Li : (i < len js)%nat) by (rewrite Lj; apply nth_error_Some; congruence). destruct (nth_error js i) as [j|] eqn:Ej; [|apply nth_error_None in Ej; lia]. rewrite (take_nth _ _ _ i j Tk Ej). apply (IX i x j Ex Ej).
      - apply nth_error_None. apply take_length in Tk. rewrite map_length in Tk. apply nth_error_None in Ex. lia. }
    subst k'. assert (LF : len fd' = len key) by (apply take_length in Tf; rewrite map_length in Tf; lia).
    assert (FN : forall i x j, nth_error key i = Some x -> nth_error js i = Some j -> fold_of fd' i = fold_of fd j).
    { intros i x j Ex Ej. unfold fold_of. pose proof (take_nth _ _ _ i j Tf Ej) as T. assert (Lj' : (j < len fd)%nat) by (rewrite <- L; apply JB; eapply nth_error_In; exact Ej). rewrite (nth_error_nth' fd (-1)) in T by exact Lj'. apply nth_error_nth with (d := -1) in T. exact T. }
    destruct mask as [m|].
    + cbn in F. destruct (take_total m js ltac:(intros j Hj; rewrite F, <- L; apply JB; exact Hj)) as (m' & Tm). rewrite Tm. cbn [bind]. exists (mk_folds fd' key (Some m')). cbn [f_key f_fold f_mask fits keptb].
      split; [reflexivity|]. split; [reflexivity|]. split; [exact LF|]. split; [apply take_length in Tm; rewrite map_length in Tm; lia|]. intros i x Ex.
      assert (Li : (i < len js)%nat) by (rewrite Lj; apply nth_error_Some; congruence). destruct (nth_error js i) as [j|] eqn:Ej; [|apply nth_error_None in Ej; lia]. exists j. destruct (IX i x j Ex Ej) as (A & B). split; [exact A|]. split; [exact B|]. split; [eapply FN; eassumption|].
      pose proof (take_nth _ _ _ i j Tm Ej) as T. assert (Lj' : (j < len m)%nat) by (rewrite F, <- L; apply JB; eapply nth_error_In; exact Ej). rewrite (nth_error_nth' m false) in T by exact Lj'. apply nth_error_nth with (d := false) in T. exact T.
    + cbn [bind]. exists (mk_folds fd' key None). cbn [f_key f_fold f_mask fits keptb].
      split; [reflexivity|]. split; [reflexivity|]. split; [exact LF|]. split; [exact Logic.I|]. intros i x Ex.
      assert (Li : (i < len js)%nat) by (rewrite Lj; apply nth_error_Some; congruence). destruct (nth_error js i) as [j|] eqn:Ej; [|apply nth_error_None in Ej; lia]. exists j. destruct (IX i x j Ex Ej) as (A & B). split; [exact A|]. split; [exact B|]. split; [eapply FN; eassumption|reflexivity].
  - intros NI. destruct (forallb (fun b => b) f) eqn:FA; [|reflexivity]. exfalso. apply NI. intros x Hx. apply In_nth_error in Hx as (i & Hi). destruct (SP i x Hi) as (S1 & S2 & _).
    assert (Lf : (i < len f)%nat) by (rewrite L1; apply nth_error_Some; congruence). destruct (nth_error f i) as [b|] eqn:Eb; [|apply nth_error_None in Eb; lia]. rewrite forallb_forall in FA. specialize (FA b (nth_error_In _ _ Eb)). subst b. apply S1. reflexivity.
Qed.
Print Assumptions C31_align.

(** ** TrainValEvalList *)

Lemma round_even_tie a b : 1 <= b -> 2 * Z.abs (b * round_half_even a b - a) = b -> Z.even (round_half_even a b) = true.
Proof.
  intros Hb. unfold round_half_even. cbv zeta. pose proof (Z.div_mod a b ltac:(lia)) as D. pose proof (Z.mod_pos_bound a b ltac:(lia)) as M.
  set (q := a / b) in *. set (r := a mod b) in *. clearbody q r. subst a.
  destruct (2 * r <? b) eqn:E1; [apply Z.ltb_lt in E1; lia|]. apply Z.ltb_ge in E1.
  destruct (b <? 2 * r) eqn:E2; [apply Z.ltb_lt in E2; lia|]. apply Z.ltb_ge in E2. destruct (Z.even q) eqn:EV; [auto|].
  intros _. rewrite Z.even_add, EV. reflexivity.
Qed.

(** rounding is monotone in the rational number [a/b] *)
Lemma round_mono a b c d : 1 <= b -> 1 <= d -> a * d <= c * b -> round_half_even a b <= round_half_even c d.
Proof.
  intros Hb Hd H. pose proof (round_half_even_near a b Hb) as N1. pose proof (round_half_even_near c d Hd) as N2.
  pose proof (round_even_tie a b Hb) as T1. pose proof (round_even_tie c d Hd) as T2.
  set (r := round_half_even a b) in *. set (s := round_half_even c d) in *. clearbody r s.
  destruct (Z_le_gt_dec r s) as [|G]; [assumption|exfalso].
  assert (U1 : 2 * (b * r) <= 2 * a + b) by lia. assert (U2 : 2 * c - d <= 2 * (d * s)) by lia.
  assert (V1 : 2 * (b * r) * d <= (2 * a + b) * d) by (apply Z.mul_le_mono_nonneg_r; lia).
  assert (V2 : (2 * c - d) * b <= 2 * (d * s) * b) by (apply Z.mul_le_mono_nonneg_r; lia).
  assert (W : 2 * (b * d) * (r - s) <= 2 * (b * d)) by nia. assert (BD : 1 <= b * d) by nia.
  assert (R : r = s + 1) by nia. subst r.
  assert (X1 : 2 * a + b = 2 * (b * (s + 1))). { assert (2 * (b * (s + 1)) * d = (2 * a + b) * d) by nia. nia. }
  assert (X2 : 2 * c - d = 2 * (d * s)). { assert (2 * (d * s) * b = (2 * c - d) * b) by nia. nia. }
  assert (E1 : Z.even (s + 1) = true) by (apply T1; lia). assert (E2 : Z.even s = true) by (apply T2; lia).
  rewrite Z.even_add, E2 in E1. discriminate.
Qed.

(** cumulative proportions: nondecreasing from 0 to 1, one more than the parts *)
Definition proportions (cp : list Q) (K : nat) : Prop :=
  len cp = S K /\ Qeq (nth 0 cp 1%Q) 0 /\ Qeq (nth K cp 1%Q) 1 /\ forall j, (j < K)%nat -> Qle (nth j cp 1%Q) (nth (S j) cp 1%Q).

(** [b] is the nearest integer to the rational [x], ties to even *)
Definition rounds_to (x : Q) (b : Z) : Prop :=
  Qle (inject_Z b - (1 # 2)) x /\ Qle x (inject_Z b + (1 # 2)) /\ (Qeq x (inject_Z b - (1 # 2)) \/ Qeq x (inject_Z b + (1 # 2)) -> Z.even b = true).

Lemma part_bound_rounds cp n j : rounds_to (nth j cp 1%Q * inject_Z (Z.of_nat n)) (part_bound cp n j).
Proof.
  unfold part_bound. set (c := nth j cp 1%Q). cbv zeta. pose proof (round_half_even_near (Qnum c * Z.of_nat n) (Zpos (Qden c)) ltac:(lia)) as N.
  pose proof (round_even_tie (Qnum c * Z.of_nat n) (Zpos (Qden c)) ltac:(lia)) as T. set (b := round_half_even _ _) in *. clearbody b.
  unfold rounds_to, Qle, Qeq, Qminus, Qplus, Qopp, Qmult, inject_Z. cbn [Qnum Qden]. split; [|split].
  - nia.
  - nia.
  - intros H. apply T. destruct H as [H|H]; nia.
Qed.

Lemma part_bounds cp K : proportions cp K -> forall n, bounds (part_bound cp n) K (Z.of_nat n).
Proof.
  intros (L & Z0 & Z1 & M) n. split; [|split].
  - unfold part_bound. cbv zeta. unfold Qeq in Z0. cbn [Qnum Qden] in Z0. replace (Qnum (nth 0 cp 1%Q)) with 0 by lia. cbn [Z.mul]. unfold round_half_even. rewrite Z.div_0_l, Z.mod_0_l by lia. reflexivity.
  - unfold part_bound. cbv zeta. unfold Qeq in Z1. cbn [Qnum Qden] in Z1. replace (Qnum (nth K cp 1%Q)) with (Zpos (Qden (nth K cp 1%Q))) by lia. unfold round_half_even. cbv zeta. rewrite (Z.mul_comm _ (Z.of_nat n)), Z.div_mul, Z.mod_mul by lia. reflexivity.
  - intros j Hj. unfold part_bound. cbv zeta. specialize (M j Hj). unfold Qle in M. apply round_mono; [lia|lia|nia].
Qed.

Lemma cumsum_length a l : len (cumsum a l) = len l.
Proof. revert a. induction l; intros; cbn; [reflexivity|]. f_equal. apply IHl. Qed.
Lemma cumsum_props a l : Forall (fun x => Qle 0 x) l -> Qle (fold_right Qplus a l) 1 ->
  forall j, (j < S (len l))%nat -> Qle (nth j (a :: cumsum a l ++ [1%Q]) 1%Q) (nth (S j) (a :: cumsum a l ++ [1%Q]) 1%Q).
Proof.
  revert a. induction l as [|x l IH]; intros a P S j Hj.
  - cbn in Hj, S |- *. destruct j; [exact S|lia].
  - inversion P as [|? ? Px P']; subst. destruct j as [|j].
    + cbn. lra.
    + cbn [cumsum app]. change (nth (Datatypes.S j) (a :: (let a0 := (a + x)%Q in a0 :: cumsum a0 l) ++ [1%Q]) 1%Q) with (nth j (((a + x)%Q :: cumsum (a + x)%Q l) ++ [1%Q]) 1%Q).
      change (nth (Datatypes.S (Datatypes.S j)) (a :: (let a0 := (a + x)%Q in a0 :: cumsum a0 l) ++ [1%Q]) 1%Q) with (nth (Datatypes.S j) (((a + x)%Q :: cumsum (a + x)%Q l) ++ [1%Q]) 1%Q).
      apply IH; [exact P'| |cbn in Hj; lia]. cbn in S. clear -S. 
      assert (H : Qeq (fold_right Qplus (a + x)%Q l) (x + fold_right Qplus a l)%Q). { clear S. induction l as [|y l IH]; cbn; [ring|]. rewrite IH. ring. }
      rewrite H. exact S.
Qed.

(** nonnegative proportions with sum at most 1 give valid cumulative proportions *)
Lemma cum_prop_ok props : Forall (fun x => Qle 0 x) props -> Qle (fold_right Qplus 0%Q props) 1 -> proportions (cum_prop props) (S (len props)).
Proof.
  intros P S. unfold proportions, cum_prop. split; [cbn [len]; rewrite app_length, cumsum_length; cbn [len]; lia|]. split; [reflexivity|]. split.
  - change (nth (Datatypes.S (len props)) (0%Q :: cumsum 0 props ++ [1%Q]) 1%Q) with (nth (len props) (cumsum 0 props ++ [1%Q]) 1%Q). rewrite app_nth2 by (rewrite cumsum_length; lia). rewrite cumsum_length, Nat.sub_diag. reflexivity.
  - intros j Hj. apply cumsum_props; assumption.
Qed.

(** the [j]-th cumulative proportion: the sum of the first [j] proportions, 1 for the last boundary *)
Definition share (props : list Q) (j : nat) : Q := if Nat.leb j (len props) then fold_right Qplus 0%Q (firstn j props) else 1%Q.

Lemma cumsum_nth a l j : (j < len l)%nat -> Qeq (nth j (cumsum a l) 1%Q) (a + fold_right Qplus 0%Q (firstn (S j) l))%Q.
Proof.
  revert a j. induction l as [|x l IH]; intros a j Hj; [cbn in Hj; lia|]. destruct j as [|j]; cbn [cumsum nth firstn fold_right].
  - cbn. ring.
  - cbn in Hj. rewrite IH by lia. cbn [firstn fold_right]. ring.
Qed.
Lemma cum_prop_nth props j : (j <= S (len props))%nat -> Qeq (nth j (cum_prop props) 1%Q) (share props j).
Proof.
  intros Hj. unfold share, cum_prop. destruct j as [|j]; [reflexivity|]. cbn [nth]. destruct (Nat.leb (S j) (len props)) eqn:E.
  - apply Nat.leb_le in E. rewrite app_nth1 by (rewrite cumsum_length; lia). rewrite cumsum_nth by lia. ring.
  - apply Nat.leb_gt in E. rewrite app_nth2 by (rewrite cumsum_length; lia). rewrite cumsum_length. replace (j - len props)%nat with 0%nat by lia. reflexivity.
Qed.
Lemma rounds_ext x y b : Qeq x y -> rounds_to x b -> rounds_to y b.
Proof. unfold rounds_to. intros E. rewrite E. auto. Qed.

(** TrainValEvalList.create: every kept segment is in one part, masked ones in none, segments of one
    group and label together; part [j] gets the groups between the rounded cumulative shares. *)
Theorem C32_assign : forall props segs balance group mask shuf, segs <> [] ->
  Forall (fun x => Qle 0 x) props -> Qle (fold_right Qplus 0%Q props) 1 ->
  fits (len segs) balance -> fits (len segs) group -> fits (len segs) mask ->
  no_class_masked (len segs) balance mask -> shuffles_ok segs balance group mask shuf ->
  exists parts, len parts = len segs /\
    ((no_gap mask (len segs) parts /\ parts_create props segs balance group mask shuf = Ok (mk_folds parts segs mask)) \/
     (~ no_gap mask (len segs) parts /\ parts_create props segs balance group mask shuf = Err AssertionError)) /\
    (forall p, (p < len segs)%nat -> keptb mask p = true -> 0 <= fold_of parts p <= Z.of_nat (len props)) /\
    (forall p, (p < len segs)%nat -> keptb mask p = false -> fold_of parts p = -1) /\
    (forall p q, (p < len segs)%nat -> (q < len segs)%nat -> keptb mask p = true -> keptb mask q = true ->
       label balance p = label balance q -> group_of segs group p = group_of segs group q -> fold_of parts p = fold_of parts q) /\
    (forall l j, In l (labels (len segs) balance) -> (j <= len props)%nat ->
       let n := inject_Z (Z.of_nat (len (groups_where segs group (class_of balance mask l)))) in
       exists b1 b2, rounds_to (share props j * n) b1 /\ rounds_to (share props (S j) * n) b2 /\
       Z.of_nat (len (groups_where segs group (fun p => class_of balance mask l p && (fold_of parts p =? Z.of_nat j)))) = b2 - b1).
Proof.
  intros props segs balance group mask shuf NE PP PS Fb Fg Fm NM SH.
  pose proof (part_bounds _ _ (cum_prop_ok props PP PS)) as BD.
  destruct (C31_assign (part_bound (cum_prop props)) (S (len props)) segs balance group mask shuf NE Fb Fg Fm NM SH (fun n _ => BD n)) as (folds & E & L & P1 & P2 & P3 & P4).
  exists folds. split; [exact L|]. split.
  { unfold parts_create. apply C31_create_iff; try assumption.
    - destruct (NM 0%nat) as (q & Lq & Kq & _); [destruct segs; [congruence|cbn; lia]|]. exists q. split; assumption.
    - intros p Lp Kp. apply P1; assumption. }
  split; [intros p Lp Kp; specialize (P1 p Lp Kp); lia|]. split; [exact P2|]. split; [exact P3|].
  intros l j Hl Hj n. destruct (P4 l j Hl ltac:(lia)) as (_ & C). eexists _, _. split; [|split; [|exact C]].
  - eapply rounds_ext; [|apply part_bound_rounds]. rewrite cum_prop_nth by lia. reflexivity.
  - eapply rounds_ext; [|apply part_bound_rounds]. rewrite cum_prop_nth by lia. reflexivity.
Qed.
Print Assumptions C32_assign.

(** The index masks of the parts: each kept position is in the mask of its own part only; masked
    positions are in none. *)
Theorem C32_part_masks : forall o part p, fits (len (f_fold o)) (f_mask o) -> (p < len (f_fold o))%nat ->
  len (get_part_idx o part) = len (f_fold o) /\
  (nth p (get_part_idx o part) false = true <-> keptb (f_mask o) p = true /\ fold_of (f_fold o) p = part).
Proof.
  intros [fd key mask] part p F Lp. cbn [f_fold f_mask] in *. unfold get_part_idx. cbn [f_fold f_mask]. rewrite (map_fold_seq (fun f => f =? part)).
  assert (NT : forall P, nth p (map P (seq 0 (len fd))) false = P p) by (intros P; apply nth_error_nth; rewrite nth_error_map, seq_nth_error by exact Lp; reflexivity).
  destruct mask as [m|]; cbn [keptb].
  - cbn in F. rewrite zip_andb_seq by exact F. rewrite NT, map_length, seq_length, andb_true_iff, Z.eqb_eq. tauto.
  - rewrite NT, map_length, seq_length, Z.eqb_eq. tauto.
Qed.
Print Assumptions C32_part_masks.

(** ** What does not hold *)

(** a group with two balance labels can be split between train and test of the same fold *)
Theorem C31_group_across_classes_refuted : exists segs balance group o p q,
  folds_create (fold_bound 2) 2 segs (Some balance) (Some group) None None = Ok o /\
  len balance = len segs /\ len group = len segs /\
  group_of segs (Some group) p = group_of segs (Some group) q /\
  nth p (fst (get_fold_idx o 0)) false = true /\ nth q (snd (get_fold_idx o 0)) false = true.
Proof.
  exists ["u1"; "u2"; "u3"; "u4"]%string, ["a"; "a"; "b"; "b"]%string, ["s1"; "s2"; "s2"; "s3"]%string. eexists. exists 1%nat, 2%nat.
  split; [vm_compute; reflexivity|]. repeat split.
Qed.
Print Assumptions C31_group_across_classes_refuted.

(** with fewer groups than folds creation can fail on a valid request *)
Theorem C31_few_groups_refuted : exists segs, segs <> [] /\ NoDup segs /\ folds_create (fold_bound 3) 3 segs None None None None = Err AssertionError.
Proof. exists ["u1"]%string. split; [discriminate|]. split; [constructor; [intros []|constructor]|]. vm_compute. reflexivity. Qed.
Print Assumptions C31_few_groups_refuted.

(** masking a whole balance class makes creation fail *)
Theorem C31_masked_class_refuted : exists segs balance mask, len balance = len segs /\ len mask = len segs /\
  folds_create (fold_bound 1) 1 segs (Some balance) None (Some mask) None = Err ValueError.
Proof. exists ["u1"; "u2"]%string, ["a"; "b"]%string, [false; true]. repeat split. Qed.
Print Assumptions C31_masked_class_refuted.

(** saving a non-empty fold list always fails; get_part fails except for lists of two segments *)
Theorem C31_save_refuted : forall o, f_fold o <> [] -> f_key o <> [] -> folds_save o = Err AttributeError.
Proof. intros [[|a fd] [|k key] m] H1 H2; cbn in H1, H2; first [exfalso; congruence|reflexivity]. Qed.
Print Assumptions C31_save_refuted.
Theorem C32_get_part_refuted : forall o part, fits (len (f_fold o)) (f_mask o) -> len (f_fold o) <> 2%nat -> get_part_unpack o part = Err ValueError.
Proof.
  intros o part F N. unfold get_part_unpack. destruct (f_fold o) as [|x fd] eqn:E.
  - unfold get_part_idx. rewrite E. cbn. destruct (f_mask o) as [m|]; [|reflexivity]. cbn in F. destruct m; [reflexivity|discriminate F].
  - rewrite <- E in *. assert (Lp : (0 < len (f_fold o))%nat) by (rewrite E; cbn; lia). destruct (C32_part_masks o part 0 F Lp) as (L & _). destruct (get_part_idx o part) as [|a [|b [|c l]]]; try reflexivity. cbn in L. lia.
Qed.
Print Assumptions C32_get_part_refuted.

(** ** Witnesses *)
Example C31_create_witness : exists o,
  folds_create (fold_bound 2) 2 ["u1"; "u2"; "u3"; "u4"; "u5"]%string (Some ["a"; "a"; "b"; "b"; "a"]%string) (Some ["s1"; "s2"; "s3"; "s4"; "s1"]%string) (Some [true; true; true; true; true]) (Some (fun _ => [1; 0]%nat)) = Ok o
  /\ f_fold o = [1; 0; 1; 0; 1] /\ get_fold o 0 = Ok (["u1"; "u3"; "u5"], ["u2"; "u4"])%string.
Proof. eexists. split; [vm_compute; reflexivity|]. split; vm_compute; reflexivity. Qed.
Example C31_hyps_witness : no_class_masked 5 (Some ["a"; "a"; "b"; "b"; "a"]%string) (Some [true; true; true; true; false]) /\
  shuffles_ok ["u1"; "u2"; "u3"; "u4"; "u5"]%string (Some ["a"; "a"; "b"; "b"; "a"]%string) (Some ["s1"; "s2"; "s3"; "s4"; "s1"]%string) (Some [true; true; true; true; false]) (Some (fun _ => [1; 0]%nat)).
Proof.
  split.
  - intros p Hp. exists (if Nat.leb 2 p then if Nat.leb p 3 then 2 else 0 else 0)%nat. do 5 (destruct p as [|p]; [cbn; repeat split; lia|]). lia.
  - intros [|[|i]] l Hl; cbn in Hl.
    + injection Hl as <-. vm_compute. constructor.
    + injection Hl as <-. vm_compute. constructor.
    + destruct i; discriminate Hl.
Qed.
Example C32_create_witness : exists o, parts_create [4 # 5; 1 # 10]%Q ["u0"; "u1"; "u2"; "u3"; "u4"; "u5"; "u6"; "u7"; "u8"; "u9"]%string None None None None = Ok o
  /\ f_fold o = [0; 0; 0; 0; 0; 0; 0; 0; 1; 2].
Proof. eexists. split; vm_compute; reflexivity. Qed.

Lemma nth_error_rev_at {A} (l : list A) i : (i < len l)%nat -> nth_error (rev l) i = nth_error l (len l - 1 - i).
Proof.
  intros L. destruct (nth_error l (len l - 1 - i)) as [x|] eqn:E; [|apply nth_error_None in E; lia]. assert (X : nth (len l - 1 - i) l x = x) by (apply nth_error_nth; exact E).
  rewrite (nth_error_nth' _ x) by (rewrite rev_length; exact L). rewrite rev_nth by exact L. f_equal. replace (len l - S i)%nat with (len l - 1 - i)%nat by lia. exact X.
Qed.
(** A part name stands for the last position where it occurs in the list of names; an unknown name is a KeyError. *)
Theorem C32_part_names : forall names name,
  (~ In name names -> part_number names name = Err KeyError) /\
  (In name names -> exists k, part_number names name = Ok (Z.of_nat k) /\ nth_error names k = Some name /\
     forall j, (k < j)%nat -> nth_error names j <> Some name).
Proof.
  intros names name. split.
  - intros N. unfold part_number. destruct (index_of name (rev names)) as [k|] eqn:E; [|reflexivity]. exfalso. apply N, in_rev. apply index_of_some in E. eapply nth_error_In. apply E.
  - intros I. unfold part_number. destruct (index_of name (rev names)) as [k|] eqn:E.
    + apply index_of_some in E. destruct E as [E1 E2]. assert (L : (k < len names)%nat) by (rewrite <- rev_length; apply nth_error_Some; congruence).
      exists (len names - 1 - k)%nat. split; [reflexivity|]. split.
      * rewrite <- (rev_involutive names) at 1. rewrite nth_error_rev_at by (rewrite rev_length; lia). rewrite rev_length. replace (len names - 1 - (len names - 1 - k))%nat with k by lia. exact E1.
      * intros j J H. assert (Lj : (j < len names)%nat) by (apply nth_error_Some; congruence).
        apply (E2 (len names - 1 - j)%nat); [lia|]. rewrite nth_error_rev_at by lia. replace (len names - 1 - (len names - 1 - j))%nat with j by lia. exact H.
    + exfalso. apply index_of_none in E. apply E. apply -> in_rev. exact I.
Qed.
Example C32_part_names_witness : part_number ["train"; "val"; "eval"; "val"]%string "val"%string = Ok 3 /\ part_number ["train"; "val"]%string "test"%string = Err KeyError.
Proof. split; reflexivity. Qed.
