(** Lemmas on score matrices (trial_scores.py), used by ScoresProps.v *)
From Verif Require Import TrialsProofs TrialsProps.
Open Scope list_scope.
Open Scope Z_scope.

Lemma mall_iff (M : mat bool) : mall M = true <-> forall i j b, mget M i j = Some b -> b = true.
Proof.
  unfold mall, mget. split.
  - intros H i j b E. destruct (nth_error (m_rows M) i) as [row|] eqn:R; [|discriminate].
    rewrite forallb_forall in H. specialize (H row (nth_error_In _ _ R)). rewrite forallb_forall in H. apply H. eapply nth_error_In; eassumption.
  - intros H. apply forallb_forall. intros row Hr. apply forallb_forall. intros b Hb.
    apply In_nth_error in Hr as (i & Hi). apply In_nth_error in Hb as (j & Hj). apply (H i j b). rewrite Hi. exact Hj.
Qed.

Lemma many_iff (M : mat bool) : many M = true <-> exists i j, mget M i j = Some true.
Proof.
  unfold many, mget. rewrite existsb_exists. split.
  - intros (row & Hr & H). apply existsb_exists in H as (b & Hb & ->). apply In_nth_error in Hr as (i & Hi). apply In_nth_error in Hb as (j & Hj).
    exists i, j. rewrite Hi. exact Hj.
  - intros (i & j & E). destruct (nth_error (m_rows M) i) as [row|] eqn:R; [|discriminate].
    exists row. split; [eapply nth_error_In; eassumption|]. apply existsb_exists. exists true. split; [eapply nth_error_In; eassumption|reflexivity].
Qed.

Lemma mget_cell {A} mods segs (M : mat A) i j x : NoDup mods -> NoDup segs -> has_shape M (len mods) (len segs) ->
  mget M i j = Some x -> exists m s, nth_error mods i = Some m /\ nth_error segs j = Some s /\ cell mods segs M m s = Some x.
Proof.
  intros N1 N2 H E. destruct (mget_some M _ _ _ _ _ H E) as (Hi & Hj).
  destruct (nth_error mods i) as [m|] eqn:Em; [|apply nth_error_None in Em; lia].
  destruct (nth_error segs j) as [s|] eqn:Es; [|apply nth_error_None in Es; lia].
  exists m, s. split; [reflexivity|]. split; [reflexivity|]. rewrite (cell_nth mods segs M m s i j) by assumption. exact E.
Qed.

Lemma cell_mget {A} mods segs (M : mat A) m s x : cell mods segs M m s = Some x -> exists i j, mget M i j = Some x.
Proof. unfold cell. destruct (index_of m mods), (index_of s segs); try discriminate. eauto. Qed.

Lemma many_cell mods segs (M : mat bool) : NoDup mods -> NoDup segs -> has_shape M (len mods) (len segs) ->
  (many M = true <-> exists m s, cell mods segs M m s = Some true).
Proof.
  intros N1 N2 H. rewrite many_iff. split.
  - intros (i & j & E). destruct (mget_cell mods segs M i j true N1 N2 H E) as (m & s & _ & _ & C). eauto.
  - intros (m & s & C). apply cell_mget in C. exact C.
Qed.

(** shape part of [scores_ok] *)
Definition scores_shape {A} (o : scores A) : Prop :=
  NoDup (s_mod o) /\ NoDup (s_seg o) /\
  has_shape (s_scr o) (len (s_mod o)) (len (s_seg o)) /\ has_shape (s_mask o) (len (s_mod o)) (len (s_seg o)).

Lemma scores_ok_iff {A} (F : sops A) o : scores_ok F o <-> scores_shape o /\ forall m s x, score_of o m s = Some x -> s_fin F x = true.
Proof.
  unfold scores_ok, scores_shape. split.
  - intros (H1 & H2 & H3 & H4 & H5). split; [auto|]. intros m s x E. unfold score_of in E. apply cell_mget in E as (i & j & E). eauto.
  - intros ((H1 & H2 & H3 & H4) & H5). split; [exact H1|]. split; [exact H2|]. split; [exact H3|]. split; [exact H4|]. intros i j x E.
    destruct (mget_cell _ _ _ _ _ _ H1 H2 H3 E) as (m & s & _ & _ & C). eapply H5. exact C.
Qed.

Lemma scores_new_ok {A} (F : sops A) mods segs S M : scores_ok F (mk_scores mods segs S M) -> scores_new F mods segs S M = Ok (mk_scores mods segs S M).
Proof.
  intros (H1 & H2 & H3 & H4 & H5). cbn [s_mod s_seg s_scr s_mask] in *. unfold scores_new.
  apply distinct_iff in H1, H2. rewrite H1, H2, (shape_is_ok _ _ _ H3), (shape_is_ok _ _ _ H4). cbn [assert bind].
  assert (Q : mall (mmap (s_fin F) S) = true).
  { apply mall_iff. intros i j b E. rewrite mmap_get in E. destruct (mget S i j) as [x|] eqn:X; [|discriminate]. cbn in E. injection E as <-. eauto. }
  rewrite Q. reflexivity.
Qed.

Lemma scores_ok_new {A} (F : sops A) o : scores_ok F o -> scores_new F (s_mod o) (s_seg o) (s_scr o) (s_mask o) = Ok o.
Proof. destruct o. apply scores_new_ok. Qed.

(** ** filter *)

Lemma nonzero_locs {A} (p : A -> bool) (l : list A) : forall k pre, len pre = k ->
  locs (pre ++ l) (map Z.of_nat (nonzero_from k (map p l))) (filter p l).
Proof.
  induction l as [|x l IH]; intros k pre L; cbn [map nonzero_from filter]; [constructor|].
  assert (Q : locs (pre ++ x :: l) (map Z.of_nat (nonzero_from (S k) (map p l))) (filter p l)).
  { replace (pre ++ x :: l) with ((pre ++ [x]) ++ l) by (rewrite <- app_assoc; reflexivity). apply IH. rewrite app_length; cbn; lia. }
  destruct (p x); [|exact Q]. cbn [map]. constructor; [|exact Q]. exists k. split; [reflexivity|].
  rewrite nth_error_app2 by lia. replace (k - len pre)%nat with 0%nat by lia. reflexivity.
Qed.

Lemma ismember_part (a b : list string) : exists la lb, map Z.of_nat (nonzero (fst (ismember a b))) = la /\
  Base.mask (fst (ismember a b)) (snd (ismember a b)) = Ok lb /\
  locs a la (filter (fun x => inb x b) a) /\ locs b lb (filter (fun x => inb x b) a).
Proof.
  eexists _, _. split; [reflexivity|]. rewrite ismember_f, ismember_loc.
  pose proof (mask_rows a (fun x => x) (fun x => match index_of x b with Some k => Z.of_nat k | None => bad_idx end) (fun x => inb x b)) as M.
  rewrite map_id in M. split; [exact M|]. split.
  - apply (nonzero_locs (fun x => inb x b) a 0%nat []). reflexivity.
  - clear M. induction a as [|x a IH]; cbn [filter]; [constructor|]. destruct (inb x b) eqn:E; [|exact IH].
    cbn [map]. constructor; [|exact IH]. apply inb_iff in E. destruct (index_of_in x b E) as (k & E1 & _ & N). rewrite E1. eauto.
Qed.

Definition or_zero {A} (F : sops A) (x : option A) : A := match x with Some v => v | None => s_zero F end.

(** keep=True: the result of [filter] *)
Lemma scores_filter_ok {A} (F : sops A) o mods segs rm : scores_ok F o -> s_fin F (s_zero F) = true -> NoDup mods -> NoDup segs ->
  (incl mods (s_mod o) /\ incl segs (s_seg o)) \/ rm = false ->
  exists r, scores_filter F o mods segs true rm = Ok r /\ scores_ok F r /\ s_mod r = mods /\ s_seg r = segs /\
    forall m s, In m mods -> In s segs -> score_of r m s = Some (or_zero F (score_of o m s)) /\ (scored r m s <-> scored o m s).
Proof.
  intros O Z N1 N2 H. pose proof O as (O1 & O2 & O3 & O4 & O5). pose proof (proj2 (proj1 (scores_ok_iff F o) O)) as FO.
  unfold scores_filter.
  pose proof (ismember_all mods (s_mod o)) as A1. pose proof (ismember_all segs (s_seg o)) as A2.
  pose proof (ismember_locs mods (s_mod o)) as L1. pose proof (ismember_locs segs (s_seg o)) as L2.
  destruct (ismember_part mods (s_mod o)) as (ma & mb & Ma & Mb & Lma & Lmb). destruct (ismember_part segs (s_seg o)) as (sa & sb & Sa & Sb & Lsa & Lsb).
  destruct (ismember mods (s_mod o)) as (f1, mi). destruct (ismember segs (s_seg o)) as (f2, si). cbn [fst snd] in *.
  destruct (forallb (fun b => b) f1 && forallb (fun b => b) f2) eqn:AF.
  - apply andb_true_iff in AF as (F1 & F2). pose proof (proj1 A1 F1) as I1. pose proof (proj1 A2 F2) as I2. specialize (L1 I1). specialize (L2 I2).
    rewrite (locs_take _ _ _ L1), (locs_take _ _ _ L2). cbn [bind].
    destruct (gather (s_scr o) _ _ mi si mods segs O1 O2 N1 N2 O3 L1 L2) as (S & ES & SS & GS).
    destruct (gather (s_mask o) _ _ mi si mods segs O1 O2 N1 N2 O4 L1 L2) as (M & EM & SM & GM). rewrite ES, EM. cbn [bind].
    assert (OK : scores_ok F (mk_scores mods segs S M)).
    { apply scores_ok_iff. split; [split; [exact N1|]; split; [exact N2|]; split; assumption|]. intros m s x E. unfold score_of in E. cbn [s_mod s_seg s_scr] in E.
      pose proof (cell_some_in _ _ _ _ _ _ E) as (Im & Is). rewrite GS in E by assumption. eapply FO. exact E. }
    eexists. split; [apply scores_new_ok; exact OK|]. split; [exact OK|]. split; [reflexivity|]. split; [reflexivity|].
    intros m s Hm Hs. unfold score_of, scored. cbn [s_mod s_seg s_scr s_mask]. rewrite GS, GM by assumption. split; [|reflexivity].
    destruct (cell_total _ _ _ m s O3 (I1 _ Hm) (I2 _ Hs)) as (v & ->). reflexivity.
  - assert (rm = false) as ->.
    { destruct H as [(I1 & I2)|H]; [|exact H]. rewrite (proj2 A1 I1), (proj2 A2 I2) in AF. discriminate. }
    rewrite Ma, Sa, Mb, Sb. cbn [bind].
    set (cm := filter (fun x => inb x (s_mod o)) mods) in *. set (cs := filter (fun x => inb x (s_seg o)) segs) in *.
    assert (Ncm : NoDup cm) by (apply NoDup_filter; exact N1). assert (Ncs : NoDup cs) by (apply NoDup_filter; exact N2).
    assert (Icm : forall x, In x cm <-> In x mods /\ In x (s_mod o)) by (intros x; unfold cm; rewrite filter_In, inb_iff; reflexivity).
    assert (Ics : forall x, In x cs <-> In x segs /\ In x (s_seg o)) by (intros x; unfold cs; rewrite filter_In, inb_iff; reflexivity).
    destruct (scatter_ok (s_zero F) mods segs _ _ (s_scr o) cm cs ma mb sa sb N1 N2 O1 O2 O3 Lma Lmb Ncm Icm Lsa Lsb Ncs Ics) as (V & S & EV & ES & SS & GS).
    destruct (scatter_ok false mods segs _ _ (s_mask o) cm cs ma mb sa sb N1 N2 O1 O2 O4 Lma Lmb Ncm Icm Lsa Lsb Ncs Ics) as (W & M & EW & EM & SM & GM).
    rewrite EV. cbn [bind]. rewrite ES. cbn [bind]. rewrite EW. cbn [bind]. rewrite EM. cbn [bind].
    assert (OK : scores_ok F (mk_scores mods segs S M)).
    { apply scores_ok_iff. split; [split; [exact N1|]; split; [exact N2|]; split; assumption|]. intros m s x E. unfold score_of in E. cbn [s_mod s_seg s_scr] in E.
      pose proof (cell_some_in _ _ _ _ _ _ E) as (Im & Is). rewrite GS in E by assumption. injection E as <-.
      destruct (cell (s_mod o) (s_seg o) (s_scr o) m s) eqn:C; [eapply FO; exact C|exact Z]. }
    eexists. split; [apply scores_new_ok; exact OK|]. split; [exact OK|]. split; [reflexivity|]. split; [reflexivity|].
    intros m s Hm Hs. unfold score_of, scored. cbn [s_mod s_seg s_scr s_mask]. rewrite GS, GM by assumption. split; [reflexivity|].
    destruct (cell (s_mod o) (s_seg o) (s_mask o) m s) as [[|]|]; split; intros; congruence.
Qed.

Lemma scores_filter_missing {A} (F : sops A) o mods segs : ~ (incl mods (s_mod o) /\ incl segs (s_seg o)) ->
  scores_filter F o mods segs true true = Err BareException.
Proof.
  intros H. unfold scores_filter.
  pose proof (ismember_all mods (s_mod o)) as A1. pose proof (ismember_all segs (s_seg o)) as A2.
  destruct (ismember mods (s_mod o)) as (f1, mi). destruct (ismember segs (s_seg o)) as (f2, si). cbn [fst snd] in *.
  destruct (forallb (fun b => b) f1 && forallb (fun b => b) f2) eqn:AF; [|reflexivity].
  apply andb_true_iff in AF as (F1 & F2). exfalso. apply H. split; [apply A1|apply A2]; assumption.
Qed.

(** ** merge *)

Lemma scores_merge2_ok {A} (F : sops A) a b : scores_shape a -> scores_shape b ->
  ((forall m s, ~ (scored a m s /\ scored b m s)) ->
   exists r, scores_merge2 F a b = Ok r /\ scores_shape r /\
     s_mod r = union1d (s_mod a) (s_mod b) /\ s_seg r = union1d (s_seg a) (s_seg b) /\
     (forall m s, scored r m s <-> scored a m s \/ scored b m s) /\
     (forall m s, In m (s_mod r) -> In s (s_seg r) ->
        score_of r m s = Some (s_add F (or_zero F (score_of a m s)) (or_zero F (score_of b m s))))) /\
  ((exists m s, scored a m s /\ scored b m s) -> scores_merge2 F a b = Err AssertionError) /\
  ((exists r, scores_merge2 F a b = Ok r) \/ scores_merge2 F a b = Err AssertionError).
Proof.
  intros (A1 & A2 & A3 & A4) (B1 & B2 & B3 & B4). unfold scores_merge2.
  set (nm := union1d (s_mod a) (s_mod b)). set (ns := union1d (s_seg a) (s_seg b)).
  assert (Nm : NoDup nm) by apply sorted_nodup, union1d_sorted. assert (Ns : NoDup ns) by apply sorted_nodup, union1d_sorted.
  assert (I1 : incl (s_mod a) nm) by (intros x Hx; apply union1d_in; auto). assert (I2 : incl (s_seg a) ns) by (intros x Hx; apply union1d_in; auto).
  assert (J1 : incl (s_mod b) nm) by (intros x Hx; apply union1d_in; auto). assert (J2 : incl (s_seg b) ns) by (intros x Hx; apply union1d_in; auto).
  destruct (embed_ok (s_zero F) nm ns _ _ (s_scr a) Nm Ns A1 A2 A3 I1 I2) as (S1 & ES1 & SS1 & GS1).
  destruct (embed_ok false nm ns _ _ (s_mask a) Nm Ns A1 A2 A4 I1 I2) as (M1 & EM1 & SM1 & GM1).
  destruct (embed_ok (s_zero F) nm ns _ _ (s_scr b) Nm Ns B1 B2 B3 J1 J2) as (S2 & ES2 & SS2 & GS2).
  destruct (embed_ok false nm ns _ _ (s_mask b) Nm Ns B1 B2 B4 J1 J2) as (M2 & EM2 & SM2 & GM2).
  rewrite ES1, EM1, ES2, EM2. cbn [bind].
  destruct (cell_mmap2 (s_add F) nm ns S1 S2 _ _ SS1 SS2) as (S & ES & SS & GS).
  destruct (cell_mmap2 andb nm ns M1 M2 _ _ SM1 SM2) as (B & EB & SB & GB).
  destruct (cell_mmap2 orb nm ns M1 M2 _ _ SM1 SM2) as (M & EM & SM & GM).
  rewrite ES, EB, EM. cbn [bind].
  assert (SC : forall m s, scored a m s -> In m nm /\ In s ns) by (intros m s H; unfold scored in H; apply cell_some_in in H as (X & Y); auto).
  assert (SC' : forall m s, scored b m s -> In m nm /\ In s ns) by (intros m s H; unfold scored in H; apply cell_some_in in H as (X & Y); auto).
  assert (BC : forall m s, cell nm ns B m s = Some true <-> scored a m s /\ scored b m s).
  { intros m s. split.
    - intros E. pose proof (cell_some_in _ _ _ _ _ _ E) as (Im & Is). rewrite GB, GM1, GM2 in E by assumption. unfold scored.
      destruct (cell (s_mod a) (s_seg a) (s_mask a) m s) as [[|]|], (cell (s_mod b) (s_seg b) (s_mask b) m s) as [[|]|]; try discriminate; auto.
    - intros (Ha & Hb). destruct (SC m s Ha) as (Im & Is). rewrite GB, GM1, GM2 by assumption. unfold scored in Ha, Hb. rewrite Ha, Hb. reflexivity. }
  pose proof (many_cell nm ns B Nm Ns SB) as MC. split; [|split].
  - intros D. assert (Q : many B = false).
    { destruct (many B); [|reflexivity]. destruct (proj1 MC eq_refl) as (m & s & C). apply BC in C. exfalso. exact (D m s C). }
    rewrite Q. cbn [negb assert bind]. eexists. split; [reflexivity|]. cbn [s_mod s_seg s_scr s_mask].
    split; [split; [exact Nm|]; split; [exact Ns|]; split; assumption|]. split; [reflexivity|]. split; [reflexivity|]. split.
    + intros m s. unfold scored at 1. cbn [s_mod s_seg s_mask]. split.
      * intros E. pose proof (cell_some_in _ _ _ _ _ _ E) as (Im & Is). rewrite GM, GM1, GM2 in E by assumption. apply or_cell_iff in E. exact E.
      * intros E. assert (In m nm /\ In s ns) as (Im & Is) by (destruct E; auto). rewrite GM, GM1, GM2 by assumption. apply or_cell_iff. exact E.
    + intros m s Hm Hs. unfold score_of at 1. cbn [s_mod s_seg s_scr]. rewrite GS, GS1, GS2 by assumption. reflexivity.
  - intros (m & s & H). assert (Q : many B = true) by (apply MC; exists m, s; apply BC; exact H). rewrite Q. reflexivity.
  - destruct (many B); [right; reflexivity|left; eexists; reflexivity].
Qed.

(** scores are zero where there is no trial *)
Definition clean {A} (F : sops A) (o : scores A) : Prop := forall m s x, score_of o m s = Some x -> ~ scored o m s -> x = s_zero F.

(** no pair is scored in two of the objects *)
Definition disjoint_scores {A} (l : list (scores A)) : Prop :=
  ForallOrdPairs (fun a b => forall m s, ~ (scored a m s /\ scored b m s)) l.

Record add_laws {A} (F : sops A) : Prop := mk_add_laws {
  al_fin : s_fin F (s_zero F) = true;
  al_l : forall x, s_add F (s_zero F) x = x;
  al_r : forall x, s_add F x (s_zero F) = x }.

Lemma clean_zero {A} (F : sops A) o m s : clean F o -> ~ scored o m s -> or_zero F (score_of o m s) = s_zero F.
Proof. intros C N. destruct (score_of o m s) as [x|] eqn:E; [|reflexivity]. exact (C m s x E N). Qed.

Lemma scored_score {A} (o : scores A) m s : scores_shape o -> scored o m s -> exists x, score_of o m s = Some x.
Proof. intros (H1 & H2 & H3 & H4) H. unfold scored in H. apply cell_some_in in H as (Hm & Hs). apply cell_total; assumption. Qed.

Lemma scores_fold {A} (F : sops A) l : add_laws F -> forall a, scores_ok F a -> clean F a -> Forall (scores_ok F) l -> Forall (clean F) l ->
  disjoint_scores (a :: l) -> exists r, foldM (scores_merge2 F) a l = Ok r /\ scores_ok F r /\ clean F r /\
  (l <> [] -> sorted_names (s_mod r) /\ sorted_names (s_seg r)) /\
  (forall x, In x (s_mod r) <-> In x (s_mod a) \/ exists o, In o l /\ In x (s_mod o)) /\
  (forall x, In x (s_seg r) <-> In x (s_seg a) \/ exists o, In o l /\ In x (s_seg o)) /\
  (forall m s, scored r m s <-> scored a m s \/ exists o, In o l /\ scored o m s) /\
  (forall m s, scored a m s -> score_of r m s = score_of a m s) /\
  (forall o m s, In o l -> scored o m s -> score_of r m s = score_of o m s).
Proof.
  intros LW. induction l as [|b l IH]; intros a Ha Ca Hl Cl D.
  - exists a. cbn [foldM]. split; [reflexivity|]. split; [exact Ha|]. split; [exact Ca|]. split; [congruence|].
    assert (X : forall P : scores A -> Prop, (exists o, In o [] /\ P o) <-> False) by (intros P; split; [intros (o & [] & _)|tauto]).
    split; [intros x; rewrite X; tauto|]. split; [intros x; rewrite X; tauto|]. split; [intros m s; rewrite X; tauto|]. split; [reflexivity|]. intros o m s [].
  - inversion Hl as [|? ? Hb Hl']; subst. inversion Cl as [|? ? Cb Cl']; subst. unfold disjoint_scores in D. inversion D as [|? ? D1 D2]; subst.
    inversion D1 as [|? ? Dab Dal]; subst.
    pose proof (proj1 (scores_ok_iff F a) Ha) as (Sa & Fa). pose proof (proj1 (scores_ok_iff F b) Hb) as (Sb & Fb).
    destruct (scores_merge2_ok F a b Sa Sb) as (Q & _). destruct (Q Dab) as (c & E & Sc & Mc & Gc & Tc & Vc). clear Q.
    assert (Va : forall m s, scored a m s -> score_of c m s = score_of a m s).
    { intros m s H. destruct (scored_score a m s Sa H) as (x & X).
      assert (Im : In m (s_mod c) /\ In s (s_seg c)) by (apply (cell_some_in _ _ (s_mask c) m s true); apply Tc; auto). destruct Im as (Im & Is).
      rewrite Vc by assumption. rewrite X. cbn [or_zero]. rewrite (clean_zero F b m s Cb) by (intros H'; exact (Dab m s (conj H H'))). rewrite (al_r F LW). reflexivity. }
    assert (Vb : forall m s, scored b m s -> score_of c m s = score_of b m s).
    { intros m s H. destruct (scored_score b m s Sb H) as (x & X).
      assert (Im : In m (s_mod c) /\ In s (s_seg c)) by (apply (cell_some_in _ _ (s_mask c) m s true); apply Tc; auto). destruct Im as (Im & Is).
      rewrite Vc by assumption. rewrite X. cbn [or_zero]. rewrite (clean_zero F a m s Ca) by (intros H'; exact (Dab m s (conj H' H))). rewrite (al_l F LW). reflexivity. }
    assert (Cc : clean F c).
    { intros m s x X N. pose proof (cell_some_in _ _ _ _ _ _ X) as (Im & Is). rewrite Vc in X by assumption. rewrite Tc in N.
      rewrite (clean_zero F a m s Ca), (clean_zero F b m s Cb) in X by tauto. rewrite (al_l F LW) in X. congruence. }
    assert (Oc : scores_ok F c).
    { apply scores_ok_iff. split; [exact Sc|]. intros m s x X. destruct (bool_dec (match cell (s_mod c) (s_seg c) (s_mask c) m s with Some true => true | _ => false end) true) as [Q|Q].
      - assert (H : scored c m s) by (unfold scored; destruct (cell (s_mod c) (s_seg c) (s_mask c) m s) as [[|]|]; congruence).
        apply Tc in H as [H|H]; [rewrite Va in X by exact H; eapply Fa; exact X|rewrite Vb in X by exact H; eapply Fb; exact X].
      - assert (H : ~ scored c m s) by (unfold scored; destruct (cell (s_mod c) (s_seg c) (s_mask c) m s) as [[|]|]; congruence).
        rewrite (Cc m s x X H). apply (al_fin F LW). }
    assert (Dc : disjoint_scores (c :: l)).
    { constructor; [|inversion D2; assumption]. apply Forall_forall. intros o Ho m s (H1 & H2). apply Tc in H1 as [H1|H1].
      - rewrite Forall_forall in Dal. exact (Dal o Ho m s (conj H1 H2)).
      - inversion D2 as [|? ? D3 _]; subst. rewrite Forall_forall in D3. exact (D3 o Ho m s (conj H1 H2)). }
    destruct (IH c Oc Cc Hl' Cl' Dc) as (r & Er & Or & Cr & Sr & Mr & Gr & Tr & V1 & V2).
    exists r. cbn [foldM]. rewrite E. cbn [bind]. split; [exact Er|]. split; [exact Or|]. split; [exact Cr|].
    assert (X : forall P : scores A -> Prop, (exists o, In o (b :: l) /\ P o) <-> P b \/ exists o, In o l /\ P o).
    { intros P. split; [intros (o & [<-|H] & Q); eauto|intros [Q|(o & H & Q)]; eauto with datatypes]. }
    split; [intros _; destruct l as [|b' l]; [cbn [foldM] in Er; injection Er as <-; rewrite Mc, Gc; split; apply union1d_sorted|apply Sr; discriminate]|].
    split; [intros x; rewrite X, Mr, Mc, union1d_in; tauto|]. split; [intros x; rewrite X, Gr, Gc, union1d_in; tauto|].
    split; [intros m s; rewrite X, Tr, Tc; tauto|].
    split; [intros m s H; rewrite V1 by (apply Tc; auto); apply Va; exact H|].
    intros o m s [<-|Ho] H; [rewrite V1 by (apply Tc; auto); apply Vb; exact H|apply V2; assumption].
Qed.

Lemma scores_fold_overlap {A} (F : sops A) l : forall a, scores_shape a -> Forall scores_shape l -> ~ disjoint_scores (a :: l) ->
  foldM (scores_merge2 F) a l = Err AssertionError.
Proof.
  induction l as [|b l IH]; intros a Ha Hl D.
  - exfalso. apply D. constructor; constructor.
  - inversion Hl as [|? ? Hb Hl']; subst. destruct (scores_merge2_ok F a b Ha Hb) as (Q1 & Q2). cbn [foldM].
    destruct Q2 as (Q2 & [(c & E)|E]); [|rewrite E; reflexivity]. rewrite E. cbn [bind].
    assert (Dab : forall m s, ~ (scored a m s /\ scored b m s)) by (intros m s H; rewrite Q2 in E by eauto; discriminate).
    destruct (Q1 Dab) as (c' & E' & Sc & _ & _ & Tc & _). assert (c' = c) by congruence. subst c'. apply IH; [exact Sc|exact Hl'|].
    intros Dc. apply D. inversion Dc as [|? ? D1 D2]; subst. rewrite Forall_forall in D1. constructor.
    + constructor; [exact Dab|]. apply Forall_forall. intros o Ho m s (H1 & H2). apply (D1 o Ho m s). split; [apply Tc; auto|exact H2].
    + constructor; [|exact D2]. apply Forall_forall. intros o Ho m s (H1 & H2). apply (D1 o Ho m s). split; [apply Tc; auto|exact H2].
Qed.
