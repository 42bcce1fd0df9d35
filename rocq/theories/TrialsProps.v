(** C24, C25, C26: trial lists and keys -- merge, filter, split, sort. *)
From Verif Require Import TrialsProofs.
Open Scope list_scope.
Open Scope Z_scope.

(** ** C24: merge is set union *)

(** Merging two or more trial lists gives the increasing union of the names; a pair is a trial of
    the result iff it is a trial of an input. *)
Theorem C24_ndx_merge : forall l, Forall ndx_ok l -> (2 <= len l)%nat ->
  exists r, ndx_merge l = Ok r /\ ndx_ok r /\
    sorted_set (n_mod r) (fun x => exists o, In o l /\ In x (n_mod o)) /\
    sorted_set (n_seg r) (fun x => exists o, In o l /\ In x (n_seg o)) /\
    forall m s, trial r m s <-> exists o, In o l /\ trial o m s.
Proof. exact ndx_merge_ok. Qed.
Print Assumptions C24_ndx_merge.

(** With a single list the result is that list, in its own order; with none it fails. *)
Theorem C24_ndx_merge_single : forall o, ndx_ok o -> ndx_merge [o] = Ok o.
Proof. intros o H. cbn [ndx_merge foldM bind]. apply ndx_ok_new. exact H. Qed.

(** The order of the inputs does not matter: the results are the same object. *)
Theorem C24_ndx_merge_order : forall l l', Forall ndx_ok l -> (2 <= len l)%nat -> Permutation l l' -> ndx_merge l = ndx_merge l'.
Proof.
  intros l l' F L P. assert (F' : Forall ndx_ok l') by (eapply Permutation_Forall; eassumption).
  assert (L' : (2 <= len l')%nat) by (rewrite <- (Permutation_length P); exact L).
  destruct (ndx_merge_ok l F L) as (r & E & (O1 & O2 & O3) & M & S & T). destruct (ndx_merge_ok l' F' L') as (r' & E' & (O1' & O2' & O3') & M' & S' & T').
  rewrite E, E'. f_equal.
  assert (X : forall (Q : ndx -> Prop), (exists o, In o l' /\ Q o) <-> (exists o, In o l /\ Q o)).
  { intros Q. split; intros (o & H & HQ); exists o; (split; [|exact HQ]); [eapply Permutation_in; [symmetry; exact P|exact H]|eapply Permutation_in; eassumption]. }
  assert (EM : n_mod r = n_mod r') by (eapply sorted_set_ext; [exact M|]; eapply sorted_set_iff; [|exact M']; intros x; apply X).
  assert (ES : n_seg r = n_seg r') by (eapply sorted_set_ext; [exact S|]; eapply sorted_set_iff; [|exact S']; intros x; apply X).
  destruct r as [rm rs rk], r' as [rm' rs' rk']. cbn [n_mod n_seg n_mask] in *. subst rm' rs'. f_equal.
  apply (bool_cell_ext rm rs); auto. intros m s. specialize (T m s). specialize (T' m s). unfold trial in *. cbn [n_mod n_seg n_mask] in *.
  rewrite T, T'. symmetry. apply X.
Qed.
Print Assumptions C24_ndx_merge_order.

(** Keys: the same for targets and non-targets, and for model conditions.  Segment or trial
    conditions must be absent (see the two theorems after). *)
Theorem C24_key_merge : forall a l, Forall key_ok (a :: l) -> l <> [] -> k_scond a = None -> k_tcond a = None ->
  (k_mcond a <> None -> forall o, In o l -> k_mcond o <> None /\ rows_of (k_mcond o) = rows_of (k_mcond a)) ->
  exists r, key_merge (a :: l) = Ok r /\ key_ok r /\
    sorted_set (k_mod r) (fun x => exists o, In o (a :: l) /\ In x (k_mod o)) /\
    sorted_set (k_seg r) (fun x => exists o, In o (a :: l) /\ In x (k_seg o)) /\
    (forall m s, target r m s <-> exists o, In o (a :: l) /\ target o m s) /\
    (forall m s, nontarget r m s <-> exists o, In o (a :: l) /\ nontarget o m s) /\
    (k_mcond a = None -> k_mcond r = None) /\
    (k_mcond a <> None -> forall c m, cond_of (k_mod r) (k_mcond r) c m = Some true <->
       exists o, In o (a :: l) /\ cond_of (k_mod o) (k_mcond o) c m = Some true).
Proof.
  intros a l F NE SC TC MF. inversion F as [|? ? Fa Fl]; subst.
  assert (MF' : Forall (mconds_fit a) l).
  { apply Forall_forall. intros o Ho. unfold mconds_fit. destruct (k_mcond a) as [Ca|]; [|exact I].
    destruct (MF ltac:(discriminate) o Ho) as (Q1 & Q2). destruct (k_mcond o) as [Cb|]; [|congruence]. exists Cb. auto. }
  destruct (key_fold (rows_of (k_scond a)) l a Fa Fl SC TC MF') as (r & E & Or & SCr & TCr & Sr & Mr & Gr & Tr & Nr & NNr & Cr & _).
  assert (X : forall (P : key -> Prop), (exists o, In o (a :: l) /\ P o) <-> P a \/ exists o, In o l /\ P o).
  { intros P. split; [intros (o & [<-|H] & Q); eauto|intros [Q|(o & H & Q)]; eauto with datatypes]. }
  destruct (Sr NE) as (S1 & S2). pose proof Or as (O1 & O2 & O3 & O4 & O5 & O6 & O7).
  eexists. cbn [key_merge]. rewrite E. cbn [bind]. split; [apply key_new_ok; assumption|].
  unfold target, nontarget, key_ok. cbn [k_mod k_seg k_tar k_non k_mcond k_scond k_tcond]. split; [auto 10|].
  split; [split; [exact S1|]; intros x; rewrite X; apply Mr|]. split; [split; [exact S2|]; intros x; rewrite X; apply Gr|].
  split; [intros m s; rewrite X; apply Tr|]. split; [intros m s; rewrite X; apply Nr|].
  split; [intros Q; apply NNr; exact Q|]. intros Q c m. rewrite X. apply Cr. exact Q.
Qed.
Print Assumptions C24_key_merge.

(** A first key with trial conditions cannot be merged with anything. *)
Theorem C24_key_trial_cond_merge_refuted : forall a b l tc, key_ok a -> key_ok b -> k_tcond a = Some tc ->
  exists e, key_merge (a :: b :: l) = Err e.
Proof.
  intros a b l tc (A1 & A2 & A3 & A4 & _) (B1 & B2 & B3 & B4 & _) TC. cbn [key_merge foldM]. unfold key_merge2 at 1. rewrite TC.
  destruct (embed false _ _ _ _ (k_tar a)); cbn [bind]; [|eauto]. destruct (embed false _ _ _ _ (k_non a)); cbn [bind]; [|eauto].
  destruct (intersect _ (k_mod a)) as ((? & ?) & ?). destruct (opt_res _ (k_mcond a)); cbn [bind]; [|eauto].
  destruct (opt_res _ (k_scond a)); cbn [bind]; eauto.
Qed.

(** ** C25: filter and split *)

Lemma ismember_all (a b : list string) : forallb (fun x => x) (fst (ismember a b)) = true <-> incl a b.
Proof.
  rewrite ismember_f, forallb_forall. split.
  - intros H x Hx. apply inb_iff. apply H. apply in_map_iff. eauto.
  - intros H x Hx. apply in_map_iff in Hx as (y & <- & Hy). apply inb_iff. auto.
Qed.

Lemma ismember_locs (a b : list string) : incl a b -> locs b (snd (ismember a b)) a.
Proof.
  intros H. rewrite ismember_loc. unfold locs. induction a as [|x a IH]; cbn; constructor.
  - destruct (index_of_in x b (H x (or_introl eq_refl))) as (k & E & _ & N). rewrite E. eauto.
  - apply IH. intros y Hy. apply H. right. exact Hy.
Qed.

(** keep=True: the requested names in the requested order, with the original entries; it fails iff
    a name is absent (or repeated). *)
Theorem C25_ndx_filter : forall o mods segs, ndx_ok o ->
  (incl mods (n_mod o) -> incl segs (n_seg o) -> NoDup mods -> NoDup segs ->
   exists r, ndx_filter o mods segs true = Ok r /\ ndx_ok r /\ n_mod r = mods /\ n_seg r = segs /\
     forall m s, In m mods -> In s segs -> (trial r m s <-> trial o m s)) /\
  (~ (incl mods (n_mod o) /\ incl segs (n_seg o) /\ NoDup mods /\ NoDup segs) -> ndx_filter o mods segs true = Err AssertionError).
Proof.
  intros o mods segs (O1 & O2 & O3). unfold ndx_filter.
  pose proof (ismember_all mods (n_mod o)) as A1. pose proof (ismember_all segs (n_seg o)) as A2.
  pose proof (ismember_locs mods (n_mod o)) as L1. pose proof (ismember_locs segs (n_seg o)) as L2.
  destruct (ismember mods (n_mod o)) as (f1, mi). destruct (ismember segs (n_seg o)) as (f2, si). cbn [fst snd] in *. split.
  - intros I1 I2 N1 N2. rewrite (proj2 A1 I1), (proj2 A2 I2). cbn [assert bind].
    rewrite (locs_take _ _ _ (L1 I1)), (locs_take _ _ _ (L2 I2)). cbn [bind].
    destruct (gather (n_mask o) _ _ mi si mods segs O1 O2 N1 N2 O3 (L1 I1) (L2 I2)) as (N & E & S & G). rewrite E. cbn [bind].
    rewrite ndx_new_ok by assumption. eexists. split; [reflexivity|]. split; [repeat split; auto; apply S|]. split; [reflexivity|]. split; [reflexivity|].
    intros m s Hm Hs. unfold trial. cbn [n_mod n_seg n_mask]. rewrite G by assumption. reflexivity.
  - intros H. destruct (forallb _ f1) eqn:F1; [|reflexivity]. pose proof (proj1 A1 eq_refl) as I1. cbn [assert bind].
    destruct (forallb _ f2) eqn:F2; [|reflexivity]. pose proof (proj1 A2 eq_refl) as I2. cbn [assert bind].
    rewrite (locs_take _ _ _ (L1 I1)), (locs_take _ _ _ (L2 I2)). cbn [bind].
    destruct (msel_ok (n_mask o) _ _ mi si mods segs O3 (L1 I1) (L2 I2)) as (N & E & _). rewrite E. cbn [bind]. unfold ndx_new.
    destruct (distinct mods) eqn:D1; [|reflexivity]. destruct (distinct segs) eqn:D2; [|reflexivity].
    apply distinct_iff in D1, D2. exfalso. auto.
Qed.
Print Assumptions C25_ndx_filter.

(** keep=False: the increasing lists of the other names, with the original entries; it never fails. *)
Theorem C25_ndx_remove : forall o mods segs, ndx_ok o ->
  exists r, ndx_filter o mods segs false = Ok r /\ ndx_ok r /\
    sorted_set (n_mod r) (fun x => In x (n_mod o) /\ ~ In x mods) /\ sorted_set (n_seg r) (fun x => In x (n_seg o) /\ ~ In x segs) /\
    forall m s, ~ In m mods -> ~ In s segs -> (trial r m s <-> trial o m s).
Proof.
  intros o mods segs H. destruct (C25_ndx_filter o (setdiff (n_mod o) mods) (setdiff (n_seg o) segs) H) as (P & _).
  destruct P as (r & E & O & M & S & T).
  1,2: intros x Hx; apply setdiff_in in Hx; tauto. 1,2: apply slt_sorted_nodup, setdiff_sorted.
  exists r. split; [exact E|]. split; [exact O|]. split; [rewrite M; split; [apply setdiff_sorted|intros x; apply setdiff_in]|].
  split; [rewrite S; split; [apply setdiff_sorted|intros x; apply setdiff_in]|]. intros m s Hm Hs.
  destruct (in_dec string_dec m (n_mod o)) as [Im|Im]; [destruct (in_dec string_dec s (n_seg o)) as [Is|Is]|].
  - apply T; apply setdiff_in; auto.
  - unfold trial. rewrite !cell_none; [split; discriminate|tauto|rewrite S, setdiff_in; tauto].
  - unfold trial. rewrite !cell_none; [split; discriminate|tauto|rewrite M, setdiff_in; tauto].
Qed.
Print Assumptions C25_ndx_remove.

(** Keys: the same for targets, non-targets, model and segment conditions. *)
Theorem C25_key_filter : forall o mods segs, key_ok o -> k_tcond o = None ->
  (incl mods (k_mod o) -> incl segs (k_seg o) -> NoDup mods -> NoDup segs ->
   exists r, key_filter o mods segs true = Ok r /\ key_ok r /\ k_mod r = mods /\ k_seg r = segs /\
     (forall m s, In m mods -> In s segs -> (target r m s <-> target o m s) /\ (nontarget r m s <-> nontarget o m s)) /\
     (forall c m, In m mods -> cond_of mods (k_mcond r) c m = cond_of (k_mod o) (k_mcond o) c m) /\
     (forall c s, In s segs -> cond_of segs (k_scond r) c s = cond_of (k_seg o) (k_scond o) c s)) /\
  (~ (incl mods (k_mod o) /\ incl segs (k_seg o) /\ NoDup mods /\ NoDup segs) -> key_filter o mods segs true = Err AssertionError).
Proof.
  intros o mods segs (O1 & O2 & O3 & O4 & O5 & O6 & _) TC. unfold key_filter. rewrite TC.
  pose proof (ismember_all mods (k_mod o)) as A1. pose proof (ismember_all segs (k_seg o)) as A2.
  pose proof (ismember_locs mods (k_mod o)) as L1. pose proof (ismember_locs segs (k_seg o)) as L2.
  destruct (ismember mods (k_mod o)) as (f1, mi). destruct (ismember segs (k_seg o)) as (f2, si). cbn [fst snd] in *.
  assert (CG : forall names mi names' C, cond_ok (len names) C -> locs names mi names' -> exists C', opt_res (fun C => mcols C mi) C = Ok C' /\
     cond_ok (len names') C' /\ (NoDup names -> NoDup names' -> forall c m, In m names' -> cond_of names' C' c m = cond_of names C c m)).
  { intros names mi' names' [C|] OC L; [|exists None; repeat split; auto].
    destruct (mcols_ok C names mi' names' _ OC L) as (N & E & S & _). exists (Some N). cbn [opt_res]. rewrite E. split; [reflexivity|].
    split; [cbn; pose proof S as (S1 & _); rewrite S1; exact S|]. intros N1 N2 c m Hm.
    destruct (cond_gather C names mi' names' _ N1 N2 OC L) as (N' & E' & _ & G). assert (N' = N) by congruence. subst. apply G. exact Hm. }
  split.
  - intros I1 I2 N1 N2. rewrite (proj2 A1 I1), (proj2 A2 I2). cbn [assert bind].
    rewrite (locs_take _ _ _ (L1 I1)), (locs_take _ _ _ (L2 I2)). cbn [bind].
    destruct (gather (k_tar o) _ _ mi si mods segs O1 O2 N1 N2 O3 (L1 I1) (L2 I2)) as (T & ET & ST & GT). rewrite ET. cbn [bind].
    destruct (gather (k_non o) _ _ mi si mods segs O1 O2 N1 N2 O4 (L1 I1) (L2 I2)) as (N & EN & SN & GN). rewrite EN. cbn [bind].
    destruct (CG _ _ _ _ O5 (L1 I1)) as (mc & EC1 & OC1 & G1). rewrite EC1. cbn [bind].
    destruct (CG _ _ _ _ O6 (L2 I2)) as (sc & EC2 & OC2 & G2). rewrite EC2. cbn [tcond_ix bind].
    rewrite key_new_ok by auto. eexists. split; [reflexivity|]. unfold key_ok, target, nontarget. cbn [k_mod k_seg k_tar k_non k_mcond k_scond k_tcond].
    split; [auto 10|]. split; [reflexivity|]. split; [reflexivity|]. split; [|split].
    + intros m s Hm Hs. rewrite GT, GN by assumption. tauto.
    + apply G1; assumption.
    + apply G2; assumption.
  - intros H. destruct (forallb _ f1) eqn:F1; [|reflexivity]. pose proof (proj1 A1 eq_refl) as I1. cbn [assert bind].
    destruct (forallb _ f2) eqn:F2; [|reflexivity]. pose proof (proj1 A2 eq_refl) as I2. cbn [assert bind].
    rewrite (locs_take _ _ _ (L1 I1)), (locs_take _ _ _ (L2 I2)). cbn [bind].
    destruct (msel_ok (k_tar o) _ _ mi si mods segs O3 (L1 I1) (L2 I2)) as (T & ET & _). rewrite ET. cbn [bind].
    destruct (msel_ok (k_non o) _ _ mi si mods segs O4 (L1 I1) (L2 I2)) as (N & EN & _). rewrite EN. cbn [bind].
    destruct (CG _ _ _ _ O5 (L1 I1)) as (mc & EC1 & _). rewrite EC1. cbn [bind].
    destruct (CG _ _ _ _ O6 (L2 I2)) as (sc & EC2 & _). rewrite EC2. cbn [tcond_ix bind]. unfold key_new.
    destruct (distinct mods) eqn:D1; [|reflexivity]. destruct (distinct segs) eqn:D2; [|reflexivity].
    apply distinct_iff in D1, D2. exfalso. auto.
Qed.
Print Assumptions C25_key_filter.

Theorem C25_key_remove : forall o mods segs, key_ok o -> k_tcond o = None ->
  exists r, key_filter o mods segs false = Ok r /\ key_ok r /\
    sorted_set (k_mod r) (fun x => In x (k_mod o) /\ ~ In x mods) /\ sorted_set (k_seg r) (fun x => In x (k_seg o) /\ ~ In x segs) /\
    (forall m s, ~ In m mods -> ~ In s segs -> (target r m s <-> target o m s) /\ (nontarget r m s <-> nontarget o m s)) /\
    (forall c m, ~ In m mods -> cond_of (k_mod r) (k_mcond r) c m = cond_of (k_mod o) (k_mcond o) c m) /\
    (forall c s, ~ In s segs -> cond_of (k_seg r) (k_scond r) c s = cond_of (k_seg o) (k_scond o) c s).
Proof.
  intros o mods segs H TC. destruct (C25_key_filter o (setdiff (k_mod o) mods) (setdiff (k_seg o) segs) H TC) as (P & _).
  destruct P as (r & E & O & M & S & T & C1 & C2).
  1,2: intros x Hx; apply setdiff_in in Hx; tauto. 1,2: apply slt_sorted_nodup, setdiff_sorted.
  exists r. split; [exact E|]. split; [exact O|]. split; [rewrite M; split; [apply setdiff_sorted|intros x; apply setdiff_in]|].
  split; [rewrite S; split; [apply setdiff_sorted|intros x; apply setdiff_in]|]. split; [|split].
  - intros m s Hm Hs. destruct (in_dec string_dec m (k_mod o)) as [Im|Im]; [destruct (in_dec string_dec s (k_seg o)) as [Is|Is]|].
    + apply T; apply setdiff_in; auto.
    + unfold target, nontarget. rewrite !(cell_none (k_mod r)), !(cell_none (k_mod o)) by (try rewrite S, setdiff_in; tauto). split; split; discriminate.
    + unfold target, nontarget. rewrite !(cell_none (k_mod r)), !(cell_none (k_mod o)) by (try rewrite M, setdiff_in; tauto). split; split; discriminate.
  - intros c m Hm. destruct (in_dec string_dec m (k_mod o)) as [Im|Im].
    + rewrite M. apply C1. apply setdiff_in; auto.
    + rewrite !cond_none_name by (try rewrite M, setdiff_in; tauto). reflexivity.
  - intros c m Hm. destruct (in_dec string_dec m (k_seg o)) as [Im|Im].
    + rewrite S. apply C2. apply setdiff_in; auto.
    + rewrite !cond_none_name by (try rewrite S, setdiff_in; tauto). reflexivity.
Qed.
Print Assumptions C25_key_remove.

(** *** split *)

Lemma split_loc (mods : list string) i P : 1 <= i <= P ->
  exists mods' mi, split_list mods i P = Ok (mods', mi) /\ locs mods mi mods' /\ (NoDup mods -> NoDup mods').
Proof.
  intros Hi. unfold split_list, split_list_with. replace (P =? 0) with false by lia.
  set (n := Z.of_nat (len mods)). set (lo := bound (i - 1) n P). set (hi := bound i n P).
  assert (H0 : 0 <= lo) by (apply bound_nonneg; lia).
  assert (H1 : lo <= hi) by (apply bound_mono; lia).
  assert (H2 : hi <= n) by (unfold hi; rewrite <- (bound_last n P) at 2 by lia; apply bound_mono; lia).
  rewrite arange_nat by exact H0.
  destruct (take_total mods (seq (Z.to_nat lo) (Z.to_nat (hi - lo)))) as (x & E).
  { intros k Hk. apply in_seq in Hk. lia. }
  rewrite E. cbn [bind]. eexists _, _. split; [reflexivity|]. split; [apply take_locs; exact E|].
  intros N. apply take_locs in E. destruct (locs_nat _ _ _ E) as (mj & Q & F).
  assert (mj = seq (Z.to_nat lo) (Z.to_nat (hi - lo))).
  { clear - Q. revert mj Q. generalize (seq (Z.to_nat lo) (Z.to_nat (hi - lo))). induction l as [|k l IH]; intros [|k' mj] Q; try discriminate; [reflexivity|].
    cbn [map] in Q. injection Q as Q1 Q2. apply Nat2Z.inj in Q1 as ->. f_equal. apply IH. exact Q2. }
  subst mj. pose proof (seq_NoDup (Z.to_nat (hi - lo)) (Z.to_nat lo)) as NS. apply NoDup_nth_error. intros a b Ha Eab.
  assert (La : forall j y, nth_error x j = Some y -> exists k, nth_error (seq (Z.to_nat lo) (Z.to_nat (hi - lo))) j = Some k /\ nth_error mods k = Some y).
  { clear - F. intros j y. revert j. induction F as [|k z l l' H _ IH]; intros [|j] Hj; cbn in *; try discriminate; [injection Hj as ->; eauto|auto]. }
  destruct (nth_error x a) as [y|] eqn:Xa; [|apply nth_error_None in Xa; lia].
  destruct (La a y Xa) as (k1 & K1 & Y1). destruct (La b y (eq_sym Eab)) as (k2 & K2 & Y2).
  rewrite NoDup_nth_error in N, NS. apply NS; [apply nth_error_Some; congruence|]. rewrite K1, K2. f_equal. apply N; [apply nth_error_Some; congruence|congruence].
Qed.

Lemma nodup_concat_unique {A} (ls : list (list A)) : NoDup (concat ls) -> forall i j li lj x,
  nth_error ls i = Some li -> nth_error ls j = Some lj -> In x li -> In x lj -> i = j.
Proof.
  induction ls as [|l ls IH]; intros N [|i] [|j] li lj x Hi Hj Xi Xj; cbn in *; try discriminate; try reflexivity.
  - injection Hi as ->. exfalso. apply nth_error_In in Hj. assert (In x (concat ls)) by (apply in_concat; eauto).
    clear - N Xi H. induction li as [|y li IH]; [destruct Xi|]. cbn in N. inversion N; subst. destruct Xi as [->|Xi]; [apply H2; apply in_or_app; auto|auto].
  - injection Hj as ->. exfalso. apply nth_error_In in Hi. assert (In x (concat ls)) by (apply in_concat; eauto).
    clear - N Xj H. induction lj as [|y li IH]; [destruct Xj|]. cbn in N. inversion N; subst. destruct Xj as [->|Xj]; [apply H2; apply in_or_app; auto|auto].
  - f_equal. apply (IH ltac:(clear - N; induction l; cbn in N; [exact N|inversion N; auto]) i j li lj x); assumption.
Qed.

Lemma mapM_nth {A B} (f : A -> res B) l r i x : mapM f l = Ok r -> nth_error l i = Some x -> exists y, nth_error r i = Some y /\ f x = Ok y.
Proof.
  revert r i. induction l as [|a l IH]; intros r [|i] E Hi; cbn in *; try discriminate;
    (destruct (f a) as [b|] eqn:Fa; [|discriminate]; cbn in E; destruct (mapM f l) as [bs|]; [|discriminate]; cbn in E; injection E as <-).
  - injection Hi as <-. cbn. eauto.
  - cbn. apply IH; auto.
Qed.

(** each name goes to exactly one part *)
Lemma split_unique (mods : list string) P m : 1 <= P -> NoDup mods -> In m mods ->
  exists i, 1 <= i <= P /\ forall i' mods' mi, 1 <= i' <= P -> split_list mods i' P = Ok (mods', mi) -> (In m mods' <-> i' = i).
Proof.
  intros HP N Hm. destruct (split_list_partition_lemma mods P HP) as (parts & E & C & _).
  rewrite <- C in Hm. apply in_concat in Hm as (l & Hl & Hm). apply In_nth_error in Hl as (k & Hk).
  assert (Lp : len parts = Z.to_nat P) by (rewrite (mapM_length _ _ _ E), arange_length; f_equal; lia).
  assert (Hkl : (k < Z.to_nat P)%nat) by (rewrite <- Lp, <- (map_length fst); apply nth_error_Some; congruence).
  assert (AR : forall j : nat, (j < Z.to_nat P)%nat -> nth_error (arange 1 (P + 1)) j = Some (1 + Z.of_nat j)).
  { intros j Hj. unfold arange. rewrite nth_error_map. replace (P + 1 - 1) with P by lia.
    rewrite (nth_error_nth' (seq 0 (Z.to_nat P)) 0%nat) by (rewrite seq_length; exact Hj). rewrite seq_nth by exact Hj. reflexivity. }
  assert (PT : forall i' mods' mi, 1 <= i' <= P -> split_list mods i' P = Ok (mods', mi) -> nth_error (map fst parts) (Z.to_nat (i' - 1)) = Some mods').
  { intros i' mods' mi Hi' E'. destruct (mapM_nth _ _ _ (Z.to_nat (i' - 1)) i' E) as (y & Y1 & Y2).
    { rewrite AR by lia. f_equal. lia. }
    rewrite nth_error_map, Y1. cbn. rewrite E' in Y2. injection Y2 as <-. reflexivity. }
  exists (1 + Z.of_nat k). split; [lia|]. intros i' mods' mi Hi' E'. pose proof (PT i' mods' mi Hi' E') as Q. split.
  - intros Hin. rewrite <- C in N. pose proof (nodup_concat_unique _ N _ _ _ _ m Q Hk Hin Hm). lia.
  - intros ->. replace (Z.to_nat (1 + Z.of_nat k - 1)) with k in Q by lia. congruence.
Qed.

(** Every part is a sub-matrix with the original entries; every pair of names of the object belongs
    to exactly one part. *)
Theorem C25_ndx_split : forall o P Q, ndx_ok o -> 1 <= P -> 1 <= Q ->
  (forall i j, 1 <= i <= P -> 1 <= j <= Q -> exists p, ndx_split o i P j Q = Ok p /\ ndx_ok p /\
     incl (n_mod p) (n_mod o) /\ incl (n_seg p) (n_seg o) /\
     forall m s, In m (n_mod p) -> In s (n_seg p) -> (trial p m s <-> trial o m s)) /\
  (forall m s, In m (n_mod o) -> In s (n_seg o) -> exists i j, 1 <= i <= P /\ 1 <= j <= Q /\
     forall i' j' p, 1 <= i' <= P -> 1 <= j' <= Q -> ndx_split o i' P j' Q = Ok p ->
       (In m (n_mod p) /\ In s (n_seg p) <-> i' = i /\ j' = j)).
Proof.
  intros o P Q (O1 & O2 & O3) HP HQ.
  assert (SP : forall i j, 1 <= i <= P -> 1 <= j <= Q -> exists p mi si, split_list (n_mod o) i P = Ok (n_mod p, mi) /\ split_list (n_seg o) j Q = Ok (n_seg p, si) /\
     ndx_split o i P j Q = Ok p /\ ndx_ok p /\ incl (n_mod p) (n_mod o) /\ incl (n_seg p) (n_seg o) /\
     forall m s, In m (n_mod p) -> In s (n_seg p) -> (trial p m s <-> trial o m s)).
  { intros i j Hi Hj. destruct (split_loc (n_mod o) i P Hi) as (ms & mi & E1 & L1 & N1). destruct (split_loc (n_seg o) j Q Hj) as (ss & si & E2 & L2 & N2).
    specialize (N1 O1). specialize (N2 O2).
    destruct (gather (n_mask o) _ _ mi si ms ss O1 O2 N1 N2 O3 L1 L2) as (N & E & S & G).
    exists (mk_ndx ms ss N), mi, si. unfold ndx_split. rewrite E1, E2. cbn [bind]. rewrite E. cbn [bind]. rewrite ndx_new_ok by assumption.
    cbn [n_mod n_seg n_mask]. split; [reflexivity|]. split; [reflexivity|]. split; [reflexivity|]. split; [repeat split; auto; apply S|].
    split; [apply (locs_incl _ _ _ L1)|]. split; [apply (locs_incl _ _ _ L2)|]. intros m s Hm Hs. unfold trial. cbn [n_mod n_seg n_mask]. rewrite G by assumption. reflexivity. }
  split.
  - intros i j Hi Hj. destruct (SP i j Hi Hj) as (p & _ & _ & _ & _ & H). eauto.
  - intros m s Hm Hs. destruct (split_unique _ P m HP O1 Hm) as (i & Hi & Ui). destruct (split_unique _ Q s HQ O2 Hs) as (j & Hj & Uj).
    exists i, j. split; [exact Hi|]. split; [exact Hj|]. intros i' j' p Hi' Hj' E. destruct (SP i' j' Hi' Hj') as (p' & mi & si & S1 & S2 & E' & _).
    assert (p' = p) by congruence. subst p'. rewrite (Ui i' _ mi Hi' S1), (Uj j' _ si Hj' S2). reflexivity.
Qed.
Print Assumptions C25_ndx_split.

(** all parts, in any order of enumeration *)
Definition all_parts (P Q : Z) : list (Z * Z) := list_prod (arange 1 (P + 1)) (arange 1 (Q + 1)).

(** Merging the parts of a split gives back the names (sorted) and exactly the trials. *)
Theorem C25_ndx_split_merge : forall o P Q, ndx_ok o -> 1 <= P -> 1 <= Q -> 2 <= P * Q ->
  exists parts r, mapM (fun ij => ndx_split o (fst ij) P (snd ij) Q) (all_parts P Q) = Ok parts /\ ndx_merge parts = Ok r /\
    sorted_set (n_mod r) (fun x => In x (n_mod o)) /\ sorted_set (n_seg r) (fun x => In x (n_seg o)) /\
    forall m s, trial r m s <-> trial o m s.
Proof.
  intros o P Q O HP HQ H2. destruct (C25_ndx_split o P Q O HP HQ) as (S1 & S2).
  assert (HA : forall i j, In (i, j) (all_parts P Q) <-> 1 <= i <= P /\ 1 <= j <= Q).
  { intros i j. unfold all_parts. rewrite in_prod_iff, !arange_in. lia. }
  assert (PARTS : exists parts, mapM (fun ij => ndx_split o (fst ij) P (snd ij) Q) (all_parts P Q) = Ok parts /\
     Forall2 (fun ij p => ndx_split o (fst ij) P (snd ij) Q = Ok p) (all_parts P Q) parts).
  { assert (G : forall l, (forall ij, In ij l -> 1 <= fst ij <= P /\ 1 <= snd ij <= Q) ->
      exists parts, mapM (fun ij => ndx_split o (fst ij) P (snd ij) Q) l = Ok parts /\ Forall2 (fun ij p => ndx_split o (fst ij) P (snd ij) Q = Ok p) l parts).
    { induction l as [|(i, j) l IH]; intros Hl; [exists []; split; [reflexivity|constructor]|].
      destruct (Hl (i, j) (or_introl eq_refl)) as (Hi & Hj). destruct (S1 i j Hi Hj) as (p & E & _). destruct IH as (ps & E2 & F); [intros; apply Hl; right; assumption|].
      exists (p :: ps). cbn [mapM fst snd]. cbn [fst snd] in E. rewrite E. cbn [bind]. rewrite E2. split; [reflexivity|]. constructor; [exact E|exact F]. }
    apply G. intros (i, j) H. apply HA in H. exact H. }
  destruct PARTS as (parts & E & F).
  assert (L : (2 <= len parts)%nat).
  { rewrite (mapM_length _ _ _ E). unfold all_parts. rewrite prod_length, !arange_length. nia. }
  assert (OK : Forall ndx_ok parts).
  { apply Forall_forall. intros p Hp. apply In_nth_error in Hp as (k & Hk).
    assert (X : exists ij, In ij (all_parts P Q) /\ ndx_split o (fst ij) P (snd ij) Q = Ok p).
    { clear - F Hk. revert k Hk. induction F as [|a b l l' H _ IH]; intros [|k] Hk; cbn in *; try discriminate; [injection Hk as <-; eauto|]. destruct (IH k Hk) as (ij & ? & ?). eauto. }
    destruct X as ((i, j) & I & Ep). apply HA in I as (Hi & Hj). destruct (S1 i j Hi Hj) as (p' & E' & O' & _). cbn [fst snd] in Ep. congruence. }
  destruct (ndx_merge_ok parts OK L) as (r & Er & Or & (M1 & M2) & (G1 & G2) & T). exists parts, r. split; [exact E|]. split; [exact Er|].
  assert (PIN : forall p, In p parts -> exists i j, 1 <= i <= P /\ 1 <= j <= Q /\ ndx_split o i P j Q = Ok p).
  { intros p Hp. apply In_nth_error in Hp as (k & Hk). clear - F Hk HA.
    assert (X : exists ij, In ij (all_parts P Q) /\ ndx_split o (fst ij) P (snd ij) Q = Ok p).
    { clear HA. revert k Hk. induction F as [|a b l l' H _ IH]; intros [|k] Hk; cbn in *; try discriminate; [injection Hk as <-; eauto|]. destruct (IH k Hk) as (ij & ? & ?). eauto. }
    destruct X as ((i, j) & I & Ep). apply HA in I as (Hi & Hj). eauto. }
  assert (INP : forall i j p, 1 <= i <= P -> 1 <= j <= Q -> ndx_split o i P j Q = Ok p -> In p parts).
  { intros i j p Hi Hj Ep. assert (I : In (i, j) (all_parts P Q)) by (apply HA; auto). clear - F I Ep.
    induction F as [|a b l l' H _ IH]; [destruct I|]. destruct I as [->|I]; [left; cbn [fst snd] in H; congruence|right; auto]. }
  assert (SUB : forall p, In p parts -> incl (n_mod p) (n_mod o) /\ incl (n_seg p) (n_seg o) /\ forall m s, In m (n_mod p) -> In s (n_seg p) -> (trial p m s <-> trial o m s)).
  { intros p Hp. destruct (PIN p Hp) as (i & j & Hi & Hj & Ep). destruct (S1 i j Hi Hj) as (p' & E' & _ & H). assert (p' = p) by congruence. subst. exact H. }
  assert (O1 : NoDup (n_mod o)) by apply O. assert (O2 : NoDup (n_seg o)) by apply O.
  split; [|split].
  - split; [exact M1|]. intros x. rewrite M2. split.
    + intros (p & Hp & Hx). apply (proj1 (SUB p Hp)). exact Hx.
    + intros Hx. destruct (split_unique _ P x HP O1 Hx) as (i & Hi & Ui). destruct (S1 i 1 Hi ltac:(lia)) as (p & Ep & _).
      exists p. split; [apply (INP i 1 p Hi ltac:(lia) Ep)|]. unfold ndx_split in Ep.
      destruct (split_list (n_mod o) i P) as [(ms, mi)|] eqn:Es; [|discriminate]. cbn [bind] in Ep.
      destruct (split_list (n_seg o) 1 Q) as [(ss, si)|]; [|discriminate]. cbn [bind] in Ep. destruct (msel _ mi si); [|discriminate]. cbn [bind] in Ep.
      unfold ndx_new in Ep. destruct (distinct ms); [|discriminate]. destruct (distinct ss); [|discriminate]. cbn [assert bind] in Ep. destruct (shape_is _ _ _); [|discriminate]. injection Ep as <-. cbn.
      apply (Ui i ms mi Hi Es). reflexivity.
  - split; [exact G1|]. intros x. rewrite G2. split.
    + intros (p & Hp & Hx). apply (proj1 (proj2 (SUB p Hp))). exact Hx.
    + intros Hx. destruct (split_unique _ Q x HQ O2 Hx) as (j & Hj & Uj). destruct (S1 1 j ltac:(lia) Hj) as (p & Ep & _).
      exists p. split; [apply (INP 1 j p ltac:(lia) Hj Ep)|]. unfold ndx_split in Ep.
      destruct (split_list (n_mod o) 1 P) as [(ms, mi)|]; [|discriminate]. cbn [bind] in Ep.
      destruct (split_list (n_seg o) j Q) as [(ss, si)|] eqn:Es; [|discriminate]. cbn [bind] in Ep. destruct (msel _ mi si); [|discriminate]. cbn [bind] in Ep.
      unfold ndx_new in Ep. destruct (distinct ms); [|discriminate]. destruct (distinct ss); [|discriminate]. cbn [assert bind] in Ep. destruct (shape_is _ _ _); [|discriminate]. injection Ep as <-. cbn.
      apply (Uj j ss si Hj Es). reflexivity.
  - intros m s. rewrite T. split.
    + intros (p & Hp & Tp). pose proof (cell_some_in _ _ _ _ _ _ Tp) as (Hm & Hs). apply (SUB p Hp); assumption.
    + intros To. pose proof (cell_some_in _ _ _ _ _ _ To) as (Hm & Hs). destruct (S2 m s Hm Hs) as (i & j & Hi & Hj & U).
      destruct (S1 i j Hi Hj) as (p & Ep & _ & _ & _ & Tp). destruct (proj2 (U i j p Hi Hj Ep) (conj eq_refl eq_refl)) as (Im & Is).
      exists p. split; [apply (INP i j p Hi Hj Ep)|]. apply Tp; assumption.
Qed.
Print Assumptions C25_ndx_split_merge.

(** Keys: parts are sub-matrices with the original labels and conditions; every pair of names is in
    exactly one part. *)
Theorem C25_key_split : forall o P Q, key_ok o -> k_tcond o = None -> 1 <= P -> 1 <= Q ->
  (forall i j, 1 <= i <= P -> 1 <= j <= Q -> exists p, key_split o i P j Q = Ok p /\ key_ok p /\
     incl (k_mod p) (k_mod o) /\ incl (k_seg p) (k_seg o) /\
     (forall m s, In m (k_mod p) -> In s (k_seg p) -> (target p m s <-> target o m s) /\ (nontarget p m s <-> nontarget o m s)) /\
     (forall c m, In m (k_mod p) -> cond_of (k_mod p) (k_mcond p) c m = cond_of (k_mod o) (k_mcond o) c m) /\
     (forall c s, In s (k_seg p) -> cond_of (k_seg p) (k_scond p) c s = cond_of (k_seg o) (k_scond o) c s)) /\
  (forall m s, In m (k_mod o) -> In s (k_seg o) -> exists i j, 1 <= i <= P /\ 1 <= j <= Q /\
     forall i' j' p, 1 <= i' <= P -> 1 <= j' <= Q -> key_split o i' P j' Q = Ok p ->
       (In m (k_mod p) /\ In s (k_seg p) <-> i' = i /\ j' = j)).
Proof.
  intros o P Q (O1 & O2 & O3 & O4 & O5 & O6 & _) TC HP HQ.
  assert (CG : forall names mi names' C, NoDup names -> NoDup names' -> cond_ok (len names) C -> locs names mi names' -> exists C', opt_res (fun C => mcols C mi) C = Ok C' /\
     cond_ok (len names') C' /\ (forall c m, In m names' -> cond_of names' C' c m = cond_of names C c m)).
  { intros names mi' names' [C|] N1 N2 OC L; [|exists None; repeat split; auto].
    destruct (cond_gather C names mi' names' _ N1 N2 OC L) as (N & E & S & G). exists (Some N). cbn [opt_res]. rewrite E. split; [reflexivity|].
    split; [cbn; pose proof S as (S1 & _); rewrite S1; exact S|]. exact G. }
  assert (SP : forall i j, 1 <= i <= P -> 1 <= j <= Q -> exists p mi si, split_list (k_mod o) i P = Ok (k_mod p, mi) /\ split_list (k_seg o) j Q = Ok (k_seg p, si) /\
     key_split o i P j Q = Ok p /\ key_ok p /\ incl (k_mod p) (k_mod o) /\ incl (k_seg p) (k_seg o) /\
     (forall m s, In m (k_mod p) -> In s (k_seg p) -> (target p m s <-> target o m s) /\ (nontarget p m s <-> nontarget o m s)) /\
     (forall c m, In m (k_mod p) -> cond_of (k_mod p) (k_mcond p) c m = cond_of (k_mod o) (k_mcond o) c m) /\
     (forall c s, In s (k_seg p) -> cond_of (k_seg p) (k_scond p) c s = cond_of (k_seg o) (k_scond o) c s)).
  { intros i j Hi Hj. destruct (split_loc (k_mod o) i P Hi) as (ms & mi & E1 & L1 & N1). destruct (split_loc (k_seg o) j Q Hj) as (ss & si & E2 & L2 & N2).
    specialize (N1 O1). specialize (N2 O2).
    destruct (gather (k_tar o) _ _ mi si ms ss O1 O2 N1 N2 O3 L1 L2) as (T & ET & ST & GT).
    destruct (gather (k_non o) _ _ mi si ms ss O1 O2 N1 N2 O4 L1 L2) as (N & EN & SN & GN).
    destruct (CG _ _ _ _ O1 N1 O5 L1) as (mc & EC1 & OC1 & G1). destruct (CG _ _ _ _ O2 N2 O6 L2) as (sc & EC2 & OC2 & G2).
    exists (mk_key ms ss T N mc sc None (k_mname o) (k_sname o) (k_tname o)), mi, si. unfold key_split. rewrite E1, E2. cbn [bind]. rewrite ET, EN. cbn [bind].
    rewrite EC1. cbn [bind]. rewrite EC2, TC. cbn [bind tcond_ix]. rewrite key_new_ok by auto.
    unfold key_ok, target, nontarget. cbn [k_mod k_seg k_tar k_non k_mcond k_scond k_tcond].
    split; [reflexivity|]. split; [reflexivity|]. split; [reflexivity|]. split; [auto 10|].
    split; [apply (locs_incl _ _ _ L1)|]. split; [apply (locs_incl _ _ _ L2)|]. split; [|split; assumption].
    intros m s Hm Hs. rewrite GT, GN by assumption. tauto. }
  split.
  - intros i j Hi Hj. destruct (SP i j Hi Hj) as (p & _ & _ & _ & _ & H). eauto.
  - intros m s Hm Hs. destruct (split_unique _ P m HP O1 Hm) as (i & Hi & Ui). destruct (split_unique _ Q s HQ O2 Hs) as (j & Hj & Uj).
    exists i, j. split; [exact Hi|]. split; [exact Hj|]. intros i' j' p Hi' Hj' E. destruct (SP i' j' Hi' Hj') as (p' & mi & si & S1 & S2 & E' & _).
    assert (p' = p) by congruence. subst p'. rewrite (Ui i' _ mi Hi' S1), (Uj j' _ si Hj' S2). reflexivity.
Qed.
Print Assumptions C25_key_split.

(** Keys with trial conditions can be neither filtered nor split. *)
Theorem C25_key_trial_cond_refuted : forall o tc, key_ok o -> k_tcond o = Some tc ->
  (forall mods segs keep, exists e, key_filter o mods segs keep = Err e) /\
  (forall i P j Q, exists e, key_split o i P j Q = Err e).
Proof.
  intros o tc _ TC. split.
  - intros mods segs keep. unfold key_filter. rewrite TC. destruct (ismember _ (k_mod o)) as (f, mi). destruct (ismember _ (k_seg o)) as (g, si).
    cbn [tcond_ix bind]. repeat (match goal with |- context [bind ?x _] => destruct x; cbn [bind]; [|eauto] end). eauto.
  - intros i P j Q. unfold key_split. rewrite TC. destruct (split_list (k_mod o) i P) as [(a, b)|]; cbn [bind]; [|eauto].
    destruct (split_list (k_seg o) j Q) as [(c, d)|]; cbn [bind]; [|eauto].
    cbn [tcond_ix bind]. repeat (match goal with |- context [bind ?x _] => destruct x; cbn [bind]; [|eauto] end). eauto.
Qed.

(** ** C26: sort *)

Lemma argsort_names (names : list string) idx : NoDup names -> is_argsort names idx ->
  exists s, sort_index idx names false = Ok (s, map Z.of_nat idx) /\ locs names (map Z.of_nat idx) s /\ sorted_set s (fun x => In x names).
Proof.
  intros N (P & s & T & S). exists s. unfold sort_index. rewrite T. cbn [bind]. split; [reflexivity|]. split; [apply take_locs; exact T|].
  assert (PS : Permutation s names) by (eapply take_perm; eassumption).
  assert (NS : NoDup s) by (eapply Permutation_NoDup; [symmetry; exact PS|exact N]). split.
  - clear - S NS. unfold sorted_names. induction S as [|x s S IH H]; [constructor|]. inversion NS; subst. constructor; [auto|].
    assert (SS : StronglySorted (fun x y : string => leb x y = true) (x :: s)).
    { apply Sorted_StronglySorted; [intros a b c; apply leb_trans|]. constructor; assumption. }
    inversion SS as [|? ? _ F]; subst. apply Forall_forall. intros y Hy. rewrite Forall_forall in F. split; [apply F; exact Hy|]. intros ->. contradiction.
  - intros x. split; apply Permutation_in; [exact PS|symmetry; exact PS].
Qed.

(** Sorting gives the increasing name lists and leaves the entry of every pair as it was. *)
Theorem C26_ndx_sort : forall o mi si, ndx_ok o -> is_argsort (n_mod o) mi -> is_argsort (n_seg o) si ->
  exists r, ndx_sort mi si o = Ok r /\ ndx_ok r /\ sorted_set (n_mod r) (fun x => In x (n_mod o)) /\ sorted_set (n_seg r) (fun x => In x (n_seg o)) /\
    forall m s, trial r m s <-> trial o m s.
Proof.
  intros o mi si (O1 & O2 & O3) Am As. destruct (argsort_names _ _ O1 Am) as (ms & E1 & L1 & S1). destruct (argsort_names _ _ O2 As) as (ss & E2 & L2 & S2).
  assert (N1 : NoDup ms) by apply sorted_nodup, S1. assert (N2 : NoDup ss) by apply sorted_nodup, S2.
  destruct (gather (n_mask o) _ _ _ _ ms ss O1 O2 N1 N2 O3 L1 L2) as (N & E & S & G).
  unfold ndx_sort. rewrite E1. cbn [bind]. rewrite E2. cbn [bind]. rewrite E. cbn [bind]. eexists. split; [reflexivity|].
  split; [repeat split; auto; apply S|]. cbn [n_mod n_seg]. split; [exact S1|]. split; [exact S2|]. intros m s. unfold trial. cbn [n_mod n_seg n_mask].
  destruct (in_dec string_dec m (n_mod o)) as [Im|Im]; [destruct (in_dec string_dec s (n_seg o)) as [Is|Is]|].
  - rewrite G; [reflexivity|apply S1; exact Im|apply S2; exact Is].
  - rewrite !cell_none; [split; discriminate|tauto|]. rewrite (proj2 S2 s). tauto.
  - rewrite !cell_none; [split; discriminate|tauto|]. rewrite (proj2 S1 m). tauto.
Qed.
Print Assumptions C26_ndx_sort.

(** Scores: the same for the score and the validity of every pair. *)
Theorem C26_scores_sort : forall A (F : sops A) o mi si, scores_ok F o -> is_argsort (s_mod o) mi -> is_argsort (s_seg o) si ->
  exists r, scores_sort mi si o = Ok r /\ scores_ok F r /\ sorted_set (s_mod r) (fun x => In x (s_mod o)) /\ sorted_set (s_seg r) (fun x => In x (s_seg o)) /\
    forall m s, (scored r m s <-> scored o m s) /\ score_of r m s = score_of o m s.
Proof.
  intros A F o mi si (O1 & O2 & O3 & O4 & O5) Am As. destruct (argsort_names _ _ O1 Am) as (ms & E1 & L1 & S1). destruct (argsort_names _ _ O2 As) as (ss & E2 & L2 & S2).
  assert (N1 : NoDup ms) by apply sorted_nodup, S1. assert (N2 : NoDup ss) by apply sorted_nodup, S2.
  destruct (gather (s_scr o) _ _ _ _ ms ss O1 O2 N1 N2 O3 L1 L2) as (X & EX & SX & GX).
  destruct (gather (s_mask o) _ _ _ _ ms ss O1 O2 N1 N2 O4 L1 L2) as (N & E & S & G).
  unfold scores_sort. rewrite E1. cbn [bind]. rewrite E2. cbn [bind]. rewrite EX. cbn [bind]. rewrite E. cbn [bind]. eexists. split; [reflexivity|].
  split.
  { unfold scores_ok. cbn [s_mod s_seg s_scr s_mask]. split; [exact N1|]. split; [exact N2|]. split; [exact SX|]. split; [exact S|].
    intros i j x Hx. destruct (mget_some _ _ _ _ _ _ SX Hx) as (Hi & Hj).
    destruct (nth_error ms i) as [m|] eqn:Em; [|apply nth_error_None in Em; lia]. destruct (nth_error ss j) as [s|] eqn:Es; [|apply nth_error_None in Es; lia].
    rewrite <- (cell_nth ms ss X m s i j N1 N2 Em Es) in Hx. rewrite GX in Hx by (eapply nth_error_In; eassumption).
    unfold cell in Hx. destruct (index_of m (s_mod o)); [|discriminate]. destruct (index_of s (s_seg o)); [|discriminate]. eapply O5; exact Hx. }
  cbn [s_mod s_seg]. split; [exact S1|]. split; [exact S2|]. intros m s. unfold scored, score_of. cbn [s_mod s_seg s_mask s_scr].
  destruct (in_dec string_dec m (s_mod o)) as [Im|Im]; [destruct (in_dec string_dec s (s_seg o)) as [Is|Is]|].
  - rewrite G, GX by (apply S1, Im || apply S2, Is). split; reflexivity.
  - rewrite !(cell_none ms), !(cell_none (s_mod o)) by (try rewrite (proj2 S2 s); tauto). split; reflexivity.
  - rewrite !(cell_none ms), !(cell_none (s_mod o)) by (try rewrite (proj2 S1 m); tauto). split; reflexivity.
Qed.
Print Assumptions C26_scores_sort.

(** Keys without conditions: the same for the labels.  Missing: keys with conditions, for which the
    claim is false (next theorem). *)
Theorem C26_key_sort_partial : forall o mi si, key_ok o -> k_mcond o = None -> k_scond o = None -> k_tcond o = None ->
  is_argsort (k_mod o) mi -> is_argsort (k_seg o) si ->
  exists r, key_sort mi si o = Ok r /\ key_ok r /\ sorted_set (k_mod r) (fun x => In x (k_mod o)) /\ sorted_set (k_seg r) (fun x => In x (k_seg o)) /\
    forall m s, (target r m s <-> target o m s) /\ (nontarget r m s <-> nontarget o m s).
Proof.
  intros o mi si (O1 & O2 & O3 & O4 & _) MC SC TC Am As. destruct (argsort_names _ _ O1 Am) as (ms & E1 & L1 & S1). destruct (argsort_names _ _ O2 As) as (ss & E2 & L2 & S2).
  assert (N1 : NoDup ms) by apply sorted_nodup, S1. assert (N2 : NoDup ss) by apply sorted_nodup, S2.
  destruct (gather (k_tar o) _ _ _ _ ms ss O1 O2 N1 N2 O3 L1 L2) as (T & ET & ST & GT).
  destruct (gather (k_non o) _ _ _ _ ms ss O1 O2 N1 N2 O4 L1 L2) as (N & EN & SN & GN).
  unfold key_sort. rewrite E1. cbn [bind]. rewrite E2. cbn [bind]. rewrite ET. cbn [bind]. rewrite EN, MC, SC, TC. cbn [bind opt_res tcond_ix]. eexists. split; [reflexivity|].
  unfold key_ok, target, nontarget. cbn [k_mod k_seg k_tar k_non k_mcond k_scond k_tcond cond_ok]. split; [auto 10|].
  split; [exact S1|]. split; [exact S2|]. intros m s.
  destruct (in_dec string_dec m (k_mod o)) as [Im|Im]; [destruct (in_dec string_dec s (k_seg o)) as [Is|Is]|].
  - rewrite GT, GN by (apply S1, Im || apply S2, Is). tauto.
  - rewrite !(cell_none ms), !(cell_none (k_mod o)) by (try rewrite (proj2 S2 s); tauto). split; split; discriminate.
  - rewrite !(cell_none ms), !(cell_none (k_mod o)) by (try rewrite (proj2 S1 m); tauto). split; split; discriminate.
Qed.
Print Assumptions C26_key_sort_partial.

Definition bm (r : nat) (l : list (list bool)) : mat bool := mk_mat r l.
Definition key_c26 : key := mk_key ["b"; "a"]%string ["t"]%string (bm 1 [[true]; [false]]) (bm 1 [[false]; [true]])
  (Some (bm 2 [[true; false]; [false; false]])) None None None None None.

(** Sorting a legal key with model conditions can attach a condition to the wrong model (the
    condition rows are permuted instead of the columns), or fail when there are fewer conditions
    than models. *)
Theorem C26_key_conditions_refuted :
  (exists o mi si r c m, key_ok o /\ is_argsort (k_mod o) mi /\ is_argsort (k_seg o) si /\ key_sort mi si o = Ok r /\
     cond_of (k_mod r) (k_mcond r) c m <> cond_of (k_mod o) (k_mcond o) c m) /\
  (exists o mi si, key_ok o /\ is_argsort (k_mod o) mi /\ is_argsort (k_seg o) si /\ key_sort mi si o = Err IndexError).
Proof.
  assert (AM : is_argsort (k_mod key_c26) [1; 0]%nat).
  { split; [apply perm_swap|]. eexists. split; [vm_compute; reflexivity|]. repeat constructor. }
  assert (AS : is_argsort (k_seg key_c26) [0]%nat).
  { split; [reflexivity|]. eexists. split; [vm_compute; reflexivity|]. repeat constructor. }
  assert (ND : NoDup (k_mod key_c26)) by (constructor; [intros [H|[]]; discriminate|constructor; [intros []|constructor]]).
  split.
  - exists key_c26, [1; 0]%nat, [0]%nat. eexists. exists 0%nat, "b"%string. split; [|split; [exact AM|split; [exact AS|split; [vm_compute; reflexivity|vm_compute; discriminate]]]].
    split; [exact ND|]. split; [repeat constructor; intros []|]. repeat split; repeat constructor.
  - exists (mk_key ["b"; "a"]%string ["t"]%string (bm 1 [[true]; [false]]) (bm 1 [[false]; [true]]) (Some (bm 2 [[true; false]])) None None None None None), [1; 0]%nat, [0]%nat.
    split; [|split; [exact AM|split; [exact AS|vm_compute; reflexivity]]].
    split; [exact ND|]. split; [repeat constructor; intros []|]. repeat split; repeat constructor.
Qed.
Print Assumptions C26_key_conditions_refuted.

(** to_ndx: the trials of a key are its targets and non-targets. *)
Theorem C24_key_to_ndx : forall o, key_ok o -> exists r, key_to_ndx o = Ok r /\ n_mod r = k_mod o /\ n_seg r = k_seg o /\
  forall m s, trial r m s <-> target o m s \/ nontarget o m s.
Proof.
  intros o (O1 & O2 & O3 & O4 & _). unfold key_to_ndx. destruct (cell_mmap2 orb (k_mod o) (k_seg o) _ _ _ _ O3 O4) as (K & E & S & G).
  rewrite E. cbn [bind]. rewrite ndx_new_ok by assumption. eexists. split; [reflexivity|]. split; [reflexivity|]. split; [reflexivity|].
  intros m s. unfold trial, target, nontarget. cbn [n_mod n_seg n_mask]. rewrite G.
  destruct (in_dec string_dec m (k_mod o)) as [Im|Im]; [destruct (in_dec string_dec s (k_seg o)) as [Is|Is]|];
    [|rewrite !cell_none by tauto; split; [discriminate|intros [H|H]; discriminate]..].
  destruct (cell_total _ _ (k_tar o) m s O3 Im Is) as (x & ->). destruct (cell_total _ _ (k_non o) m s O4 Im Is) as (y & ->).
  destruct x, y; cbn; split; intros H; auto; try discriminate; destruct H; discriminate.
Qed.

(** *** Segment conditions in merge *)

Definition key_c24a : key := mk_key ["m1"; "m2"]%string ["t1"]%string (bm 1 [[true]; [false]]) (bm 1 [[false]; [true]]) None (Some (bm 1 [[true]])) None None None None.
Definition key_c24b : key := mk_key ["m1"]%string ["t2"]%string (bm 1 [[true]]) (bm 1 [[false]]) None (Some (bm 1 [[false]])) None None None None.
Definition key_c24c : key := mk_key ["m2"]%string ["t1"]%string (bm 1 [[true]]) (bm 1 [[false]]) None (Some (bm 1 [[true]])) None None None None.
Definition key_c24d : key := mk_key ["m1"]%string ["t2"]%string (bm 1 [[true]]) (bm 1 [[false]]) None (Some (bm 1 [[false]])) None None None None.

(** Merging legal keys with segment conditions can fail, and can give a segment a condition no input
    gave it (the conditions are re-indexed with the model positions). *)
Theorem C24_key_seg_cond_refuted :
  (exists a b e, key_ok a /\ key_ok b /\ rows_of (k_scond a) = rows_of (k_scond b) /\ key_merge [a; b] = Err e) /\
  (exists a b r c s, key_ok a /\ key_ok b /\ key_merge [a; b] = Ok r /\ cond_of (k_seg r) (k_scond r) c s = Some true /\
     cond_of (k_seg a) (k_scond a) c s <> Some true /\ cond_of (k_seg b) (k_scond b) c s <> Some true).
Proof.
  assert (D : NoDup ["m1"; "m2"]%string) by (constructor; [intros [H|[]]; discriminate|constructor; [intros []|constructor]]).
  assert (D1 : forall x : string, NoDup [x]) by (intros; repeat constructor; intros []).
  assert (OA : key_ok key_c24a) by (split; [exact D|]; split; [apply D1|]; repeat split; repeat constructor).
  assert (OB : key_ok key_c24b) by (split; [apply D1|]; split; [apply D1|]; repeat split; repeat constructor).
  assert (OC : key_ok key_c24c) by (split; [apply D1|]; split; [apply D1|]; repeat split; repeat constructor).
  assert (OD : key_ok key_c24d) by (split; [apply D1|]; split; [apply D1|]; repeat split; repeat constructor).
  split.
  - exists key_c24a, key_c24b, IndexError. split; [exact OA|]. split; [exact OB|]. split; [reflexivity|]. vm_compute; reflexivity.
  - exists key_c24c, key_c24d. eexists. exists 0%nat, "t2"%string. split; [exact OC|]. split; [exact OD|]. split; [vm_compute; reflexivity|]. repeat split; vm_compute; congruence.
Qed.

(** ** Examples *)

Definition ndx_e1 : ndx := mk_ndx ["m2"; "m1"]%string ["t1"; "t2"]%string (bm 2 [[true; false]; [false; true]]).
Definition ndx_e2 : ndx := mk_ndx ["m3"; "m1"]%string ["t2"]%string (bm 1 [[true]; [false]]).

Lemma ndx_e1_ok : ndx_ok ndx_e1.
Proof. split; [|split; [|repeat split; repeat constructor]]; (constructor; [intros [H|[]]; discriminate|constructor; [intros []|constructor]]). Qed.
Lemma ndx_e2_ok : ndx_ok ndx_e2.
Proof. split; [|split; [|repeat split; repeat constructor]]; [constructor; [intros [H|[]]; discriminate|constructor; [intros []|constructor]]|constructor; [intros []|constructor]]. Qed.

Example C24_witness : Forall ndx_ok [ndx_e1; ndx_e2] /\ exists r, ndx_merge [ndx_e1; ndx_e2] = Ok r /\
  n_mod r = ["m1"; "m2"; "m3"]%string /\ n_mask r = bm 2 [[false; true]; [true; false]; [false; true]].
Proof. split; [constructor; [apply ndx_e1_ok|constructor; [apply ndx_e2_ok|constructor]]|]. eexists. split; [vm_compute; reflexivity|]. split; reflexivity. Qed.

Example C25_witness : ndx_ok ndx_e1 /\ exists r p, ndx_filter ndx_e1 ["m1"]%string ["t2"; "t1"]%string true = Ok r /\
  n_mask r = bm 2 [[true; false]] /\ ndx_split ndx_e1 2 2 1 2 = Ok p /\ p = mk_ndx ["m1"]%string ["t1"]%string (bm 1 [[false]]).
Proof. split; [apply ndx_e1_ok|]. eexists _, _. split; [vm_compute; reflexivity|]. split; [reflexivity|]. split; [vm_compute; reflexivity|reflexivity]. Qed.

Example C26_witness : ndx_ok ndx_e1 /\ is_argsort (n_mod ndx_e1) [1; 0]%nat /\ is_argsort (n_seg ndx_e1) [0; 1]%nat /\
  ndx_sort [1; 0]%nat [0; 1]%nat ndx_e1 = Ok (mk_ndx ["m1"; "m2"]%string ["t1"; "t2"]%string (bm 2 [[false; true]; [true; false]])).
Proof.
  split; [apply ndx_e1_ok|]. split; [|split; [|vm_compute; reflexivity]].
  - split; [apply perm_swap|]. eexists. split; [vm_compute; reflexivity|]. repeat constructor.
  - split; [reflexivity|]. eexists. split; [vm_compute; reflexivity|]. repeat constructor.
Qed.
