(** C112: the sparse posteriors of compute-gmm-post keep the largest components, renormalised, and go back to the dense form. *)
From Coq Require Import Reals Lra Lia Permutation Sorting.Sorted.
From Verif Require Import Base BaseFacts ScoreNorm ScoreNormProps VaeProps SparsePost.
Open Scope list_scope.

(** ** Specification *)
(** an order of the columns of [r] by increasing value (np.argsort; equal values come in any order) *)
Definition at_ (r : list R) (j : nat) : R := nth j r 0%R.
Definition is_argsort (argsort : list R -> list nat) : Prop := forall r,
  Permutation (argsort r) (seq 0 (List.length r)) /\ StronglySorted (fun i j => (at_ r i <= at_ r j)%R) (argsort r).
(** the mass of a set of components *)
Definition mass (r : list R) (l : list nat) : R := Rsum (map (at_ r) l).
(** posteriors: non negative and not all zero *)
Definition post (r : list R) : Prop := Forall (fun x => 0 <= x)%R r /\ (0 < Rsum r)%R.

(** ** Proofs *)
Lemma Rsum_app l1 : forall l2, Rsum (l1 ++ l2) = (Rsum l1 + Rsum l2)%R.
Proof. induction l1 as [|x l1 IH]; intro l2; cbn [app]; rewrite ?Rsum_cons; [cbn; ring|rewrite IH; ring]. Qed.
Lemma all_at r : map (at_ r) (seq 0 (List.length r)) = r.
Proof. apply nth_ext with (d := at_ r 0) (d' := 0%R); [rewrite map_length, seq_length; reflexivity|].
  intros n Hn. rewrite map_length, seq_length in Hn. rewrite map_nth, seq_nth by exact Hn. reflexivity. Qed.
Lemma mass_perm r l l' : Permutation l l' -> mass r l = mass r l'.
Proof. intro P. unfold mass. apply Rsum_perm, Permutation_map, P. Qed.
Lemma mass_all r l : Permutation l (seq 0 (List.length r)) -> mass r l = Rsum r.
Proof. intro P. rewrite (mass_perm _ _ _ P). unfold mass. rewrite all_at. reflexivity. Qed.
Lemma sorted_app {A} (le : A -> A -> Prop) l1 : forall l2, StronglySorted le (l1 ++ l2) -> forall x y, In x l1 -> In y l2 -> le x y.
Proof. induction l1 as [|a l1 IH]; intros l2 S x y Hx Hy; [destruct Hx|]. cbn in S. inversion S as [|? ? S' F]; subst.
  destruct Hx as [<-|Hx]; [|eapply IH; eauto]. rewrite Forall_forall in F. apply F, in_or_app. right; exact Hy. Qed.
Lemma sorted_app_r {A} (le : A -> A -> Prop) l1 : forall l2, StronglySorted le (l1 ++ l2) -> StronglySorted le l2.
Proof. induction l1 as [|a l1 IH]; intros l2 S; [exact S|]. inversion S; subst. apply IH; assumption. Qed.
Lemma sub_perm (l p : list nat) : NoDup l -> incl l p -> exists q, Permutation p (l ++ q).
Proof. revert p. induction l as [|x l IH]; intros p N I; [exists p; reflexivity|]. inversion N; subst.
  destruct (in_split x p (I x (or_introl eq_refl))) as (p1 & p2 & ->).
  destruct (IH (p1 ++ p2)) as [q Q]; [assumption| |].
  - intros y Hy. assert (Hp : In y (p1 ++ x :: p2)) by (apply I; right; exact Hy). apply in_app_or in Hp. apply in_or_app.
    destruct Hp as [Hp|[->|Hp]]; [left; exact Hp|contradiction|right; exact Hp].
  - exists q. cbn. rewrite <- Permutation_middle. constructor. exact Q. Qed.
Lemma mapM_at r l : Forall (fun j => j < List.length r)%nat l -> mapM (fun j => match nth_error r j with Some x => Ok x | None => Err IndexError end) l = Ok (map (at_ r) l).
Proof. intro F. apply mapM_pure. intros j Hj. rewrite Forall_forall in F. specialize (F _ Hj). unfold at_.
  destruct (nth_error r j) as [x|] eqn:E; [|apply nth_error_None in E; lia]. rewrite (nth_error_nth _ _ 0%R E). reflexivity. Qed.

Section P.
Variable argsort : list R -> list nat.
Hypothesis AS : is_argsort argsort.
(** the split of the order of columns *)
Lemma split_order num r : (0 < num <= List.length r)%nat -> exists a idx t, argsort r = a ++ idx /\ last_cols num (argsort r) = idx /\ List.length idx = num /\
  Permutation (a ++ idx) (seq 0 (List.length r)) /\ (forall i, In i a -> at_ r i <= t)%R /\ (forall j, In j idx -> t <= at_ r j)%R /\ (exists j, In j idx /\ t = at_ r j).
Proof. intros [H0 HK]. destruct (AS r) as [P S]. assert (L : List.length (argsort r) = List.length r) by (rewrite (Permutation_length P), seq_length; reflexivity).
  set (k := (List.length (argsort r) - num)%nat). assert (E := firstn_skipn k (argsort r)).
  set (a := firstn k (argsort r)) in *. set (idx := skipn k (argsort r)) in *.
  assert (Li : List.length idx = num) by (unfold idx, k; rewrite skipn_length; lia).
  rewrite <- E in S. assert (EL : last_cols num (argsort r) = idx) by (unfold last_cols; destruct (Nat.eqb_spec num 0); [lia|reflexivity]).
  clearbody a idx. assert (X : exists j0 idx', idx = j0 :: idx') by (destruct idx as [|j0 idx']; [cbn in Li; lia|eauto]). destruct X as (j0 & idx' & EI).
  exists a, idx, (at_ r j0). split; [congruence|]. split; [exact EL|].
  split; [exact Li|]. split; [rewrite E; exact P|]. assert (J0 : In j0 idx) by (rewrite EI; left; reflexivity).
  split; [|split; [|exists j0; split; [exact J0|reflexivity]]].
  - intros i Hi. apply (sorted_app _ _ _ S i j0 Hi J0).
  - intros j Hj. assert (S2 := sorted_app_r _ _ _ S). rewrite EI in S2, Hj. inversion S2 as [|? ? _ F]; subst. rewrite Forall_forall in F.
    destruct Hj as [<-|Hj]; [lra|apply F, Hj]. Qed.
Lemma mass_bounds (r : list R) t l : (forall i, In i l -> at_ r i <= t)%R -> (mass r l <= INR (List.length l) * t)%R.
Proof. induction l as [|i l IH]; intro H; [unfold mass; cbn; lra|]. unfold mass in *. cbn [map List.length]. rewrite Rsum_cons, S_INR.
  assert (A := H i (or_introl eq_refl)). assert (B := IH (fun j Hj => H j (or_intror Hj))). lra. Qed.
Lemma mass_bounds' (r : list R) t l : (forall i, In i l -> t <= at_ r i)%R -> (INR (List.length l) * t <= mass r l)%R.
Proof. induction l as [|i l IH]; intro H; [unfold mass; cbn; lra|]. unfold mass in *. cbn [map List.length]. rewrite Rsum_cons, S_INR.
  assert (A := H i (or_introl eq_refl)). assert (B := IH (fun j Hj => H j (or_intror Hj))). lra. Qed.
Lemma at_nonneg r j : Forall (fun x => 0 <= x)%R r -> (0 <= at_ r j)%R.
Proof. intro F. unfold at_. destruct (Nat.lt_ge_cases j (List.length r)) as [H|H]; [|rewrite nth_overflow by lia; lra].
  rewrite Forall_forall in F. apply F, nth_In, H. Qed.
Lemma mass_share num (r : list R) (a idx : list nat) t : (0 < num <= List.length r)%nat -> List.length idx = num -> Permutation (a ++ idx) (seq 0 (List.length r)) ->
  (forall i, In i a -> at_ r i <= t)%R -> (forall j, In j idx -> t <= at_ r j)%R -> (INR num * Rsum r <= INR (List.length r) * mass r idx)%R.
Proof. intros [H0 HK] Li P HA HI. assert (B := mass_bounds r t a HA). assert (B' := mass_bounds' r t idx HI).
  assert (T := mass_all r _ P). unfold mass in T. rewrite map_app, Rsum_app in T. fold (mass r a) in T. fold (mass r idx) in T.
  assert (LA : (List.length a + num = List.length r)%nat) by (rewrite <- Li, <- app_length, (Permutation_length P), seq_length; reflexivity).
  rewrite <- T, <- LA, plus_INR. rewrite Li in B'. assert (0 <= INR num)%R by apply pos_INR. assert (0 <= INR (List.length a))%R by apply pos_INR.
  assert (C1 : (INR num * mass r a <= INR num * (INR (List.length a) * t))%R) by (apply Rmult_le_compat_l; assumption).
  assert (C2 : (INR (List.length a) * (INR num * t) <= INR (List.length a) * mass r idx)%R) by (apply Rmult_le_compat_l; assumption).
  lra. Qed.
Lemma mass_pos num (r : list R) (a idx : list nat) t : post r -> (0 < num <= List.length r)%nat -> List.length idx = num -> Permutation (a ++ idx) (seq 0 (List.length r)) ->
  (forall i, In i a -> at_ r i <= t)%R -> (forall j, In j idx -> t <= at_ r j)%R -> (0 < mass r idx)%R.
Proof. intros [_ PS] HN Li P HA HI. assert (B := mass_share num r a idx t HN Li P HA HI).
  assert (0 < INR num)%R by (apply (lt_INR 0); lia). assert (0 < INR (List.length r))%R by (apply (lt_INR 0); lia).
  assert (0 < INR num * Rsum r)%R by (apply Rmult_lt_0_compat; assumption).
  apply Rmult_lt_reg_l with (INR (List.length r)); [assumption|]. lra. Qed.
Lemma idx_facts (r : list R) a idx : Permutation (a ++ idx) (seq 0 (List.length r)) ->
  NoDup idx /\ (forall j, In j idx -> j < List.length r)%nat /\ (forall i, (i < List.length r)%nat -> ~ In i idx -> In i a) /\ (forall i, In i a -> ~ In i idx).
Proof. intro P. assert (N : NoDup (a ++ idx)) by (eapply Permutation_NoDup; [symmetry; exact P|apply seq_NoDup]). clear AS.
  assert (NI : NoDup idx /\ forall i, In i a -> ~ In i idx).
  { clear P. induction a as [|x a IH]; cbn in N; [split; [exact N|intros i []]|]. inversion N as [|? ? NX N']; subst. destruct (IH N') as [A B].
    split; [exact A|]. intros i [->|Hi]; [intro H; apply NX, in_or_app; right; exact H|apply B, Hi]. }
  split; [apply NI|]. split; [|split; [|apply NI]].
  - intros j Hj. assert (H : In j (seq 0 (List.length r))) by (eapply Permutation_in; [exact P|apply in_or_app; right; exact Hj]). apply in_seq in H. lia.
  - intros i Hi HN. assert (H : In i (a ++ idx)) by (eapply Permutation_in; [symmetry; exact P|apply in_seq; lia]). apply in_app_or in H. tauto. Qed.
Lemma Rsum_div l m : Rsum (map (fun x => x / m)%R l) = (Rsum l / m)%R.
Proof. induction l as [|x l IH]; [cbn; unfold Rdiv; ring|]. cbn [map]. rewrite !Rsum_cons, IH. unfold Rdiv; ring. Qed.
Lemma sparse_E num r : post r -> (0 < num <= List.length r)%nat -> exists (a idx : list nat) t, List.length idx = num /\
  Permutation (a ++ idx) (seq 0 (List.length r)) /\ (forall i, In i a -> at_ r i <= t)%R /\ (forall j, In j idx -> t <= at_ r j)%R /\ (0 < mass r idx)%R /\ (exists j, In j idx /\ t = at_ r j) /\
  sparse_row argsort num r = Ok (Some (map (fun j => at_ r j / mass r idx)%R idx), idx).
Proof. intros PR HN. destruct (split_order num r HN) as (a & idx & t & E & EL & Li & P & HA & HI & HT). exists a, idx, t.
  assert (M := mass_pos num r a idx t PR HN Li P HA HI). repeat (split; [assumption|]). unfold sparse_row. rewrite EL.
  destruct (idx_facts r a idx P) as (_ & LT & _). rewrite mapM_at by (apply Forall_forall; exact LT). cbn [bind].
  unfold assign_row. rewrite map_length, Li, Nat.eqb_refl. cbn [bind]. unfold normalize. fold (mass r idx). rewrite map_map.
  destruct idx as [|j idx']; [cbn in Li; lia|]. cbn [map]. destruct (Req_EM_T _ _) as [Z|]; [|reflexivity]. exfalso. change (mass r (j :: idx') = 0%R) in Z. lra. Qed.

(** to_sparse keeps [num] different components, none smaller than one it drops, with their values divided by their sum: they are non negative and sum to one *)
Theorem C112_sparse num r : post r -> (0 < num <= List.length r)%nat -> exists w idx, sparse_row argsort num r = Ok (Some w, idx) /\
  List.length w = num /\ List.length idx = num /\ NoDup idx /\ (forall j, In j idx -> j < List.length r)%nat /\
  (forall j i, In j idx -> (i < List.length r)%nat -> ~ In i idx -> at_ r i <= at_ r j)%R /\
  Forall (fun x => 0 <= x)%R w /\ Rsum w = 1%R /\ (0 < mass r idx)%R /\ map (fun x => x * mass r idx)%R w = map (at_ r) idx.
Proof. intros PR HN. destruct (sparse_E num r PR HN) as (a & idx & t & Li & P & HA & HI & M & _ & E). destruct (idx_facts r a idx P) as (ND & LT & IA & _).
  eexists; exists idx. split; [exact E|]. split; [rewrite map_length; exact Li|]. split; [exact Li|]. split; [exact ND|]. split; [exact LT|].
  split; [intros j i Hj Hi HNi; specialize (HA i (IA i Hi HNi)); specialize (HI j Hj); lra|].
  split; [|split; [|split; [exact M|]]].
  - apply Forall_forall. intros x Hx. apply in_map_iff in Hx. destruct Hx as (j & <- & _). assert (A := at_nonneg r j (proj1 PR)).
    apply Rmult_le_pos; [exact A|left; apply Rinv_0_lt_compat, M].
  - rewrite <- (map_map (at_ r) (fun x => x / mass r idx)%R), Rsum_div. fold (mass r idx). field. lra.
  - rewrite map_map. apply map_ext. intro j. field. lra. Qed.
(** the components kept have the largest mass of all sets of [num] components, and at least num/K of the whole mass *)
Theorem C112_mass num r : post r -> (0 < num <= List.length r)%nat -> exists w idx, sparse_row argsort num r = Ok (Some w, idx) /\
  (forall l, NoDup l -> (forall j, In j l -> j < List.length r)%nat -> List.length l = num -> (mass r l <= mass r idx)%R) /\
  (INR num * Rsum r <= INR (List.length r) * mass r idx)%R /\ (mass r idx <= Rsum r)%R.
Proof. intros PR HN. destruct (sparse_E num r PR HN) as (a & idx & t & Li & P & HA & HI & M & _ & E). destruct (idx_facts r a idx P) as (ND & LT & IA & AI).
  eexists; exists idx. split; [exact E|]. split; [|split].
  - intros l NL LL Ll. assert (I : incl l (a ++ idx)) by (intros j Hj; eapply Permutation_in; [symmetry; exact P|apply in_seq; specialize (LL j Hj); lia]).
    destruct (sub_perm l (a ++ idx) NL I) as [q Q]. set (h := fun j => Rmax (at_ r j - t) 0).
    assert (S : Rsum (map h (a ++ idx)) = Rsum (map h (l ++ q))) by (apply Rsum_perm, Permutation_map, Q). rewrite !map_app, !Rsum_app in S.
    assert (Sq : (0 <= Rsum (map h q))%R) by (apply Rsum_nonneg; intros x Hx; apply in_map_iff in Hx; destruct Hx as (? & <- & _); apply Rmax_r).
    assert (Sa : Rsum (map h a) = 0%R). { clear - HA. induction a as [|x a IH]; [reflexivity|]. cbn [map]. rewrite Rsum_cons, IH by (intros; apply HA; right; assumption).
      unfold h at 1. rewrite Rmax_right; [ring|]. specialize (HA x (or_introl eq_refl)). lra. }
    assert (Si : Rsum (map h idx) = (mass r idx - INR num * t)%R). { rewrite <- Li. clear - HI. unfold mass. induction idx as [|x l IH]; [cbn; ring|].
      cbn [map List.length]. rewrite !Rsum_cons, S_INR, (IH (fun j Hj => HI j (or_intror Hj))). unfold h at 1. rewrite Rmax_left; [ring|].
      specialize (HI x (or_introl eq_refl)). lra. }
    assert (Sl : (mass r l - INR num * t <= Rsum (map h l))%R). { rewrite <- Ll. clear. unfold mass. induction l as [|x l IH]; [cbn; lra|].
      cbn [map List.length]. rewrite !Rsum_cons, S_INR. assert (A : (at_ r x - t <= h x)%R) by apply Rmax_l. lra. }
    lra.
  - exact (mass_share num r a idx t HN Li P HA HI).
  - rewrite <- (mass_all r _ P). unfold mass at 2. rewrite map_app, Rsum_app. fold (mass r a). fold (mass r idx).
    assert (0 <= mass r a)%R; [|lra]. apply Rsum_nonneg. intros x Hx. apply in_map_iff in Hx. destruct Hx as (j & <- & _). apply at_nonneg, PR. Qed.
Lemma put_spec d j x : (j < List.length d)%nat -> exists d', put d j x = Ok d' /\ List.length d' = List.length d /\ (forall c, nth c d' 0 = if Nat.eqb c j then x else nth c d 0)%R.
Proof. intro H. unfold put. destruct (Nat.ltb_spec j (List.length d)); [|lia]. eexists. split; [reflexivity|]. split.
  - rewrite app_length, firstn_length. cbn [List.length]. rewrite skipn_length. lia.
  - intro c. assert (F : List.length (firstn j d) = j) by (rewrite firstn_length; lia). destruct (Nat.eqb_spec c j) as [->|NE].
    + rewrite app_nth2 by lia. rewrite F, Nat.sub_diag. reflexivity.
    + destruct (Nat.lt_ge_cases c j) as [L|L].
      * rewrite app_nth1 by lia. rewrite <- (firstn_skipn j d) at 2. rewrite (app_nth1 (firstn j d)) by lia. reflexivity.
      * rewrite app_nth2 by lia. rewrite F. destruct (c - j)%nat as [|m] eqn:EM; [lia|]. cbn [nth]. rewrite <- (firstn_skipn (S j) d) at 2.
        rewrite app_nth2; rewrite firstn_length; [|lia]. f_equal. lia. Qed.
Lemma puts_spec (f : nat -> R) idx : forall d, NoDup idx -> (forall j, In j idx -> j < List.length d)%nat ->
  exists d', puts d idx (map f idx) = Ok d' /\ List.length d' = List.length d /\ (forall c, In c idx -> nth c d' 0 = f c)%R /\ (forall c, ~ In c idx -> nth c d' 0 = nth c d 0)%R.
Proof. induction idx as [|j idx IH]; intros d N LT; [exists d; repeat split; intros; try contradiction; reflexivity|]. inversion N as [|? ? NJ N']; subst.
  cbn [map puts]. destruct (put_spec d j (f j) (LT j (or_introl eq_refl))) as (d1 & E1 & L1 & V1). rewrite E1. cbn [bind].
  destruct (IH d1 N') as (d' & E & L & VI & VO); [intros c Hc; rewrite L1; apply LT; right; exact Hc|]. exists d'. split; [exact E|]. split; [congruence|]. split.
  - intros c [->|Hc]; [|apply VI, Hc]. rewrite VO by exact NJ. rewrite V1, Nat.eqb_refl. reflexivity.
  - intros c Hc. rewrite VO by (intro; apply Hc; right; assumption). rewrite V1. destruct (Nat.eqb_spec c j) as [->|]; [exfalso; apply Hc; left; reflexivity|reflexivity]. Qed.
(** to_dense gives the kept values back in their columns and zero in the others: the row sums to one, and is twice the dropped share away from the
    posteriors (in the sum of absolute differences) *)
Theorem C112_dense num r : post r -> (0 < num <= List.length r)%nat -> exists w idx d, sparse_row argsort num r = Ok (Some w, idx) /\
  dense_row (List.length r) idx w = Ok d /\ List.length d = List.length r /\
  (forall c, In c idx -> at_ d c = at_ r c / mass r idx)%R /\ (forall c, ~ In c idx -> at_ d c = 0)%R /\ Rsum d = 1%R /\
  (Rsum r = 1 -> Rsum (map (fun c => Rabs (at_ d c - at_ r c)) (seq 0 (List.length r))) = 2 * (1 - mass r idx))%R.
Proof. intros PR HN. destruct (sparse_E num r PR HN) as (a & idx & t & Li & P & HA & HI & M & _ & E). destruct (idx_facts r a idx P) as (ND & LT & IA & AI).
  destruct (puts_spec (fun j => at_ r j / mass r idx)%R idx (repeat 0%R (List.length r)) ND) as (d & ED & LD & VI & VO); [rewrite repeat_length; exact LT|].
  eexists; exists idx, d. split; [exact E|]. split; [unfold dense_row; rewrite map_length, Nat.eqb_refl; exact ED|]. rewrite repeat_length in LD. split; [exact LD|].
  assert (V0 : (forall c, ~ In c idx -> at_ d c = 0)%R).
  { intros c Hc. unfold at_. rewrite VO by exact Hc. destruct (Nat.lt_ge_cases c (List.length r)) as [L|L].
    - apply nth_repeat.
    - apply nth_overflow. rewrite repeat_length. exact L. }
  split; [exact VI|]. split; [exact V0|].
  assert (SA : forall f g : nat -> R, (forall i, In i a -> f i = g i) -> Rsum (map f a) = Rsum (map g a)) by (intros; f_equal; apply map_ext_in; assumption).
  assert (SI : forall f g : nat -> R, (forall i, In i idx -> f i = g i) -> Rsum (map f idx) = Rsum (map g idx)) by (intros; f_equal; apply map_ext_in; assumption).
  split.
  - rewrite <- LD in P. rewrite <- (mass_all d _ P). unfold mass. rewrite map_app, Rsum_app.
    rewrite (SA _ (fun _ => 0%R)) by (intros i Hi; apply V0, AI, Hi). rewrite (SI _ (fun j => at_ r j / mass r idx)%R) by (intros; apply VI; assumption).
    rewrite <- (map_map (at_ r) (fun x => x / mass r idx)%R), Rsum_div. fold (mass r idx).
    replace (Rsum (map (fun _ => 0%R) a)) with 0%R by (clear; induction a as [|x a IH]; [reflexivity|cbn [map]; rewrite Rsum_cons, <- IH; ring]). field. lra.
  - intro S1. rewrite (Rsum_perm _ _ (Permutation_map _ (Permutation_sym P))). rewrite map_app, Rsum_app.
    rewrite (SA _ (at_ r)), (SI _ (fun j => at_ r j / mass r idx - at_ r j)%R).
    + assert (T := mass_all r _ P). unfold mass in T. rewrite map_app, Rsum_app in T.
      assert (Q : Rsum (map (fun j => at_ r j / mass r idx - at_ r j)%R idx) = (mass r idx / mass r idx - mass r idx)%R).
      { generalize (mass r idx) at 1 3. intro m. unfold mass. clear. induction idx as [|x l IH]; [cbn; unfold Rdiv; ring|]. cbn [map]. rewrite !Rsum_cons, IH. unfold Rdiv. ring. }
      rewrite Q. fold (mass r idx) in T. replace (mass r idx / mass r idx)%R with 1%R by (field; lra). lra.
    + intros i Hi. change (nth i d 0%R) with (at_ d i) in *. unfold at_ at 1. rewrite (VI i Hi). apply Rabs_right. apply Rle_ge.
      assert (A := at_nonneg r i (proj1 PR)). assert (ML : (mass r idx <= 1)%R).
      { assert (T := mass_all r _ P). unfold mass in T. rewrite map_app, Rsum_app in T. fold (mass r idx) in T.
        assert (0 <= Rsum (map (at_ r) a))%R; [|lra]. apply Rsum_nonneg. intros x Hx. apply in_map_iff in Hx. destruct Hx as (j & <- & _). apply at_nonneg, PR. }
      assert (B : (1 <= / mass r idx)%R) by (rewrite <- Rinv_1; apply Rinv_le_contravar; assumption). unfold Rdiv.
      assert (at_ r i * 1 <= at_ r i * / mass r idx)%R by (apply Rmult_le_compat_l; assumption). lra.
    + intros i Hi. rewrite V0 by (apply AI, Hi). rewrite Rminus_0_l, Rabs_Ropp. apply Rabs_right, Rle_ge, at_nonneg, PR. Qed.
(** keeping all the components loses nothing *)
Theorem C112_all r : post r -> Rsum r = 1%R -> exists w idx, sparse_row argsort (List.length r) r = Ok (Some w, idx) /\ Permutation idx (seq 0 (List.length r)) /\ dense_row (List.length r) idx w = Ok r.
Proof. intros PR S1. assert (L0 : (0 < List.length r)%nat) by (destruct r; [cbn in S1; lra|cbn; lia]).
  destruct (C112_dense (List.length r) r PR) as (w & idx & d & E & ED & LD & VI & _ & _ & _); [lia|]. exists w, idx. split; [exact E|].
  destruct (sparse_E (List.length r) r PR) as (a & idx' & t & Li & P & _ & _ & _ & _ & E'); [lia|]. rewrite E in E'. injection E' as -> ->.
  assert (a = []) as ->. { apply Permutation_length in P. rewrite app_length, seq_length, Li in P. destruct a; [reflexivity|cbn in P; lia]. }
  cbn [app] in P. split; [exact P|]. rewrite ED. f_equal. apply nth_ext with (d := 0%R) (d' := 0%R); [exact LD|]. intros c Hc. rewrite LD in Hc.
  change (at_ d c = at_ r c). rewrite VI by (eapply Permutation_in; [symmetry; exact P|apply in_seq; lia]). rewrite (mass_all r _ P), S1. field. Qed.
(** a number of components larger than the model's, or 0, is an error (unless the row has one component); a row of zeros has no sparse form *)
Theorem C112_num_refuted num r : (2 <= List.length r)%nat -> num = 0%nat \/ (List.length r < num)%nat -> sparse_row argsort num r = Err ValueError.
Proof. intros L H. destruct (AS r) as [P _]. assert (LA : List.length (argsort r) = List.length r) by (rewrite (Permutation_length P), seq_length; reflexivity).
  assert (EL : last_cols num (argsort r) = argsort r). { unfold last_cols. destruct (Nat.eqb_spec num 0); [reflexivity|]. replace (List.length (argsort r) - num)%nat with 0%nat by lia. reflexivity. }
  unfold sparse_row. rewrite EL, mapM_at by (apply Forall_forall; intros j Hj; apply (Permutation_in _ P), in_seq in Hj; lia). cbn [bind].
  unfold assign_row. rewrite map_length, LA. destruct (Nat.eqb_spec (List.length r) num); [lia|]. destruct (map (at_ r) (argsort r)) as [|x [|y l]] eqn:E; try reflexivity.
  apply (f_equal (@List.length R)) in E. rewrite map_length in E. cbn in E. lia. Qed.
Theorem C112_zeros_refuted num K : (0 < num <= K)%nat -> exists idx, sparse_row argsort num (repeat 0%R K) = Ok (None, idx).
Proof. intros HN. set (r := repeat 0%R K). assert (LR : List.length r = K) by apply repeat_length. rewrite <- LR in HN.
  destruct (split_order num r HN) as (a & idx & t & E & EL & Li & P & _). exists idx. destruct (idx_facts r a idx P) as (_ & LT & _).
  unfold sparse_row. rewrite EL, mapM_at by (apply Forall_forall; exact LT). cbn [bind]. unfold assign_row. rewrite map_length, Li, Nat.eqb_refl. cbn [bind].
  assert (Z : forall l, Rsum (map (at_ r) l) = 0%R) by (induction l as [|j l IH]; [reflexivity|]; cbn [map]; rewrite Rsum_cons, IH; unfold at_, r; rewrite nth_repeat; ring).
  unfold normalize. destruct (map (at_ r) idx) as [|x l] eqn:EM; [destruct idx; [cbn in Li; lia|discriminate]|]. rewrite <- EM. destruct (Req_EM_T _ _) as [|NZ]; [reflexivity|].
  exfalso. apply NZ, Z. Qed.
(** the whole matrix, there and back *)
Theorem C112_matrix num K rs : (0 < num <= K)%nat -> Forall (fun r => post r /\ List.length r = K) rs -> exists ws ixs ds, to_sparse argsort num rs = Ok (map Some ws, ixs) /\
  to_dense ws ixs K = Ok ds /\ List.length ds = List.length rs /\
  (forall i r, nth_error rs i = Some r -> exists idx d, nth_error ixs i = Some idx /\ nth_error ds i = Some d /\ List.length idx = num /\ Rsum d = 1%R /\
     (forall c, In c idx -> at_ d c = at_ r c / mass r idx)%R /\ (forall c, ~ In c idx -> at_ d c = 0)%R).
Proof. intros HN F. assert (X : exists l : list (list R * list nat * list R), Forall2 (fun r y => sparse_row argsort num r = Ok (Some (fst (fst y)), snd (fst y)) /\
     dense_row K (snd (fst y)) (fst (fst y)) = Ok (snd y) /\ List.length (snd (fst y)) = num /\ Rsum (snd y) = 1%R /\
     (forall c, In c (snd (fst y)) -> at_ (snd y) c = at_ r c / mass r (snd (fst y)))%R /\ (forall c, ~ In c (snd (fst y)) -> at_ (snd y) c = 0)%R) rs l).
  { induction F as [|r rs [PR LR] _ IH]; [exists []; constructor|]. destruct IH as [l IH]. subst K.
    destruct (C112_dense num r PR HN) as (w & idx & d & E & ED & _ & VI & VO & S1 & _). exists ((w, idx, d) :: l). constructor; [|exact IH]. cbn [fst snd].
    split; [exact E|]. split; [exact ED|]. split; [|split; [exact S1|split; assumption]].
    destruct (C112_sparse num r PR HN) as (w' & idx' & E' & _ & Li & _). rewrite E in E'. injection E' as -> ->. exact Li. }
  destruct X as [l X]. exists (map (fun y => fst (fst y)) l), (map (fun y => snd (fst y)) l), (map snd l).
  assert (LL : List.length l = List.length rs) by (clear - X; induction X; cbn; congruence).
  split; [|split; [|split]].
  - unfold to_sparse. replace (mapM (sparse_row argsort num) rs) with (Ok (map (fun y : list R * list nat * list R => (Some (fst (fst y)), snd (fst y))) l)).
    + cbn [bind]. rewrite !map_map. reflexivity.
    + symmetry. apply mapM_ok_iff. clear - X. induction X as [|r y rs l Y _ IH]; cbn [map]; constructor; [apply Y|exact IH].
  - unfold to_dense. rewrite map_length. apply mapM_ok_iff. clear - X.
    assert (G : forall pre, Forall2 (fun i d => match nth_error (map (fun y : list R * list nat * list R => fst (fst y)) (pre ++ l)) i, nth_error (map (fun y => snd (fst y)) (pre ++ l)) i with
       Some v, Some ix => dense_row K ix v | _, _ => Err IndexError end = Ok d) (seq (List.length pre) (List.length l)) (map snd l)); [|exact (G [])].
    induction X as [|r y rs l Y _ IH]; intro pre; cbn [map List.length seq]; constructor.
    + rewrite !nth_error_map, nth_error_app2, Nat.sub_diag by lia. cbn. apply Y.
    + specialize (IH (pre ++ [y])). rewrite app_length in IH. cbn [List.length] in IH. rewrite Nat.add_1_r in IH. rewrite <- app_assoc in IH. exact IH.
  - rewrite map_length. exact LL.
  - intros i r Hr. clear - X Hr. revert i Hr. induction X as [|r0 y rs l Y _ IH]; intros [|i] Hr; cbn in Hr; try discriminate.
    + injection Hr as ->. exists (snd (fst y)), (snd y). cbn. repeat (split; [first [reflexivity|apply Y]|]). apply Y.
    + apply IH in Hr. exact Hr. Qed.
End P.
Print Assumptions C112_sparse. Print Assumptions C112_mass. Print Assumptions C112_dense. Print Assumptions C112_all.
Print Assumptions C112_num_refuted. Print Assumptions C112_zeros_refuted. Print Assumptions C112_matrix.

(** ** Witnesses: an order of the columns by insertion, and posteriors *)
Fixpoint ins (r : list R) (j : nat) (l : list nat) : list nat :=
  match l with [] => [j] | i :: l' => if Rle_dec (at_ r j) (at_ r i) then j :: i :: l' else i :: ins r j l' end.
Definition insertion (r : list R) : list nat := fold_right (ins r) [] (seq 0 (List.length r)).
Lemma ins_perm r j l : Permutation (ins r j l) (j :: l).
Proof. induction l as [|i l IH]; cbn; [reflexivity|]. destruct (Rle_dec _ _); [reflexivity|]. rewrite IH. apply perm_swap. Qed.
Lemma ins_sorted r j l : StronglySorted (fun i j => (at_ r i <= at_ r j)%R) l -> StronglySorted (fun i j => (at_ r i <= at_ r j)%R) (ins r j l).
Proof. induction l as [|i l IH]; intro S; cbn; [repeat constructor|]. inversion S as [|? ? S' F]; subst. destruct (Rle_dec _ _) as [L|L].
  - constructor; [exact S|]. constructor; [exact L|]. rewrite Forall_forall in F |- *. intros x Hx. specialize (F x Hx). lra.
  - constructor; [apply IH, S'|]. rewrite Forall_forall in F |- *. intros x Hx. apply (Permutation_in _ (ins_perm r j l)) in Hx. destruct Hx as [<-|Hx]; [lra|apply F, Hx]. Qed.
Theorem C112_order : is_argsort insertion.
Proof. intro r. unfold insertion. induction (seq 0 (List.length r)) as [|j l [P S]]; cbn [fold_right]; [split; constructor|]. split; [rewrite ins_perm, P; reflexivity|apply ins_sorted, S]. Qed.
Example C112_witness : post [1 / 4; 1 / 2; 1 / 4]%R /\ (0 < 2 <= 3)%nat /\ Rsum [1 / 4; 1 / 2; 1 / 4]%R = 1%R.
Proof. unfold post. repeat constructor; cbn; lra. Qed.
