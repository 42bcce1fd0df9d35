(** C98: accuracy metrics and fully connected networks in torch. *)
From Coq Require Import Reals List Bool Arith String Lra Lia Permutation.
From Verif Require Import Base BaseFacts Mat MatProofs TorchNets ScoreNorm ScoreNormProps.
Import ListNotations.
Open Scope list_scope. Open Scope R_scope.

(** ** Accuracy *)
(** k is a position of a maximum of the row *)
Definition top_of (row : list R) (k : nat) : Prop := exists v, nth_error row k = Some v /\ forall x, In x row -> x <= v.
Definition is_argmax (amax : list R -> nat) : Prop := forall row, row <> [] -> top_of row (amax row).
(** the class of a target: given as a number, or as the row of scores whose maximum it is *)
Definition class_of (amax : list R -> nat) (t : target) (i : nat) (k : nat) : Prop :=
  match t with Ids l => nth_error l i = Some k | Scores l => exists row, nth_error l i = Some row /\ k = amax row end.
Definition hit (amax : list R -> nat) (input : list (list R)) (t : target) (i : nat) : Prop := exists row k, nth_error input i = Some row /\ class_of amax t i k /\ amax row = k.
Definition weight_at (w : option (list R)) (i : nat) : R := match w with None => 1 | Some w => nth i w 0 end.
Definition sum_over (n : nat) (f : nat -> R) : R := Rsum (map f (seq 0 n)).
Definition size_of (t : target) : nat := match t with Ids l => len l | Scores l => len l end.

Lemma zip_seq {A B C} (f : A -> B -> C) : forall a b, len a = len b -> forall d d', zip_with f a b = map (fun i => f (nth i a d) (nth i b d')) (seq 0 (len a)).
Proof.
  induction a as [|x a IH]; intros [|y b] L d d'; cbn in L; try discriminate; [reflexivity|]. cbn [zip_with length seq map]. f_equal. rewrite (IH b ltac:(lia) d d'). rewrite <- seq_shift, map_map. reflexivity.
Qed.
Lemma mean_form l : l <> [] -> mean l = Some (Rsum l / INR (len l)).
Proof. intros H. unfold mean, odiv. destruct (Req_EM_T (INR (len l)) 0) as [E|E]; [|reflexivity]. exfalso. destruct l; [congruence|]. cbn [length] in E. pose proof (pos_INR (len l)). rewrite S_INR in E. lra. Qed.
Lemma Rsum_seq l : Rsum l = sum_over (len l) (fun i => nth i l 0).
Proof. unfold sum_over. f_equal. induction l as [|x l IH]; [reflexivity|]. cbn [length seq map nth]. f_equal. rewrite <- seq_shift, map_map. exact IH. Qed.
(** Categorical accuracy is the weighted fraction of the samples whose predicted class is the target; 'sum' is the weighted number of them, 'none' the
    flags without the weights. *)
Theorem C98_categorical : forall amax input t w, input <> [] -> size_of t = len input -> (forall l, w = Some l -> len l = len input) ->
  exists ok : nat -> R, (forall i, (i < len input)%nat -> (hit amax input t i /\ ok i = 1) \/ (~ hit amax input t i /\ ok i = 0)) /\
  categorical_accuracy amax input t w RNone = Ok (Vector (map ok (seq 0 (len input)))) /\
  categorical_accuracy amax input t w RSum = Ok (Scalar (Some (sum_over (len input) (fun i => weight_at w i * ok i)))) /\
  (sum_over (len input) (weight_at w) <> 0 ->
   categorical_accuracy amax input t w RMean = Ok (Scalar (Some (sum_over (len input) (fun i => weight_at w i * ok i) / sum_over (len input) (weight_at w))))).
Proof.
  intros amax input t w NE SZ LW. assert (LT : len (target_ids amax t) = len input) by (destruct t; cbn [target_ids size_of] in *; rewrite ?map_length; exact SZ).
  set (ok := fun i => if Nat.eqb (nth i (map amax input) 0%nat) (nth i (target_ids amax t) 0%nat) then 1 else 0). exists ok.
  assert (CL : forall i k, (i < len input)%nat -> class_of amax t i k <-> nth i (target_ids amax t) 0%nat = k).
  { intros i k Hi. destruct t as [l|l]; cbn [class_of target_ids size_of] in *.
    - rewrite (nth_error_nth' l 0%nat) by lia. split; congruence.
    - destruct (nth_error l i) as [row|] eqn:E; [|apply nth_error_None in E; lia]. assert (Q : nth i (map amax l) 0%nat = amax row) by (apply nth_error_nth; rewrite nth_error_map, E; reflexivity). rewrite Q.
      split; [intros (r & R1 & ->); congruence|intros <-; eauto]. }
  assert (HT : forall i, (i < len input)%nat -> hit amax input t i <-> nth i (map amax input) 0%nat = nth i (target_ids amax t) 0%nat).
  { intros i Hi. unfold hit. destruct (nth_error input i) as [row|] eqn:E; [|apply nth_error_None in E; lia]. assert (Q : nth i (map amax input) 0%nat = amax row) by (apply nth_error_nth; rewrite nth_error_map, E; reflexivity). rewrite Q. split.
    - intros (r & k & E1 & C & A). apply (CL i k Hi) in C. congruence.
    - intros A. exists row, (amax row). split; [reflexivity|]. split; [apply CL; [exact Hi|symmetry; exact A]|reflexivity]. }
  assert (EQ : (len input =? len (target_ids amax t))%nat = true) by (rewrite LT; apply Nat.eqb_refl).
  assert (OKV : zip_with (fun p q : nat => if Nat.eqb p q then 1 else 0) (map amax input) (target_ids amax t) = map ok (seq 0 (len input))).
  { rewrite (zip_seq _ _ _ ltac:(rewrite map_length; symmetry; exact LT) 0%nat 0%nat). rewrite map_length. reflexivity. }
  assert (NL : map ok (seq 0 (len input)) <> []) by (destruct input; [congruence|discriminate]).
  assert (NP : 0 < INR (len input)) by (apply lt_0_INR; destruct input; [congruence|cbn; lia]).
  split; [intros i Hi; unfold ok; destruct (Nat.eqb_spec (nth i (map amax input) 0%nat) (nth i (target_ids amax t) 0%nat)) as [E|E]; [left; split; [apply HT; assumption|reflexivity]|right; split; [intros H; apply E; apply HT; assumption|reflexivity]]|].
  unfold categorical_accuracy. rewrite EQ. cbn [negb]. rewrite OKV. split; [reflexivity|].
  assert (WZ : forall l, w = Some l -> zip_with Rmult (map ok (seq 0 (len input))) l = map (fun i => weight_at w i * ok i) (seq 0 (len input))).
  { intros l ->. rewrite (zip_seq _ _ _ ltac:(rewrite map_length, seq_length; symmetry; apply LW; reflexivity) 0 0). rewrite map_length, seq_length. apply map_ext_in. intros i Hi. apply in_seq in Hi.
    assert (Q : nth i (map ok (seq 0 (len input))) 0 = ok i) by (apply nth_error_nth; rewrite nth_error_map, (nth_error_nth' (seq 0 (len input)) 0%nat), seq_nth by (rewrite ?seq_length; lia); reflexivity). rewrite Q. cbn [weight_at]. ring. }
  split.
  - destruct w as [l|].
    + rewrite (LW l eq_refl), Nat.eqb_refl. cbn [bind]. rewrite (WZ l eq_refl). reflexivity.
    + cbn [bind]. unfold sum_over. do 3 f_equal. f_equal. apply map_ext. intros i. cbn [weight_at]. ring.
  - intros SW. destruct w as [l|].
    + rewrite (LW l eq_refl), Nat.eqb_refl. cbn [bind]. rewrite (WZ l eq_refl).
      assert (LL : l <> []) by (intros ->; specialize (LW [] eq_refl); destruct input; [congruence|discriminate]). rewrite (mean_form l LL), (LW l eq_refl). rewrite mean_form by (destruct input; [congruence|discriminate]). rewrite map_length, seq_length. cbn [obind].
      assert (SL : Rsum l = sum_over (len input) (weight_at (Some l))) by (rewrite Rsum_seq, (LW l eq_refl); reflexivity). rewrite SL. unfold odiv. destruct (Req_EM_T _ 0) as [E|E].
      * exfalso. apply SW. apply Rmult_integral in E as [E|E]; [exact E|]. exfalso. apply (Rinv_neq_0_compat (INR (len input))); [lra|exact E].
      * do 3 f_equal. fold (sum_over (len input) (fun i => weight_at (Some l) i * ok i)). field. split; [exact SW|lra].
    + cbn [bind]. rewrite mean_form by exact NL. rewrite map_length, seq_length. cbn [obind]. unfold odiv. destruct (Req_EM_T 1 0); [lra|]. do 3 f_equal.
      assert (A : sum_over (len input) (weight_at None) = INR (len input)) by (unfold sum_over; clear; rewrite (map_ext (weight_at None) (fun _ => 1)) by reflexivity; rewrite Rsum_const, seq_length; ring). rewrite A. replace (Rsum (map ok (seq 0 (len input))) / INR (len input) / 1) with (Rsum (map ok (seq 0 (len input))) / INR (len input)) by (field; lra). f_equal. unfold sum_over. f_equal. apply map_ext. intros i. cbn [weight_at]. ring.
Qed.
Print Assumptions C98_categorical.
(** With weights that are not negative the accuracy lies between 0 and 1, it is 1 exactly when every sample of positive weight is right, and multiplying all
    the weights by one positive number changes nothing. *)
Lemma sum_over_ext n f g : (forall i, (i < n)%nat -> f i = g i) -> sum_over n f = sum_over n g.
Proof. intros H. unfold sum_over. apply Rsum_ext. intros i Hi. apply in_seq in Hi. apply H. lia. Qed.
Lemma sum_over_scale n f c : sum_over n (fun i => c * f i) = c * sum_over n f.
Proof. unfold sum_over. apply Rsum_map_mul. Qed.
Lemma sum_over_nonneg n f : (forall i, (i < n)%nat -> 0 <= f i) -> 0 <= sum_over n f.
Proof. intros H. unfold sum_over. apply Rsum_nonneg. intros x Hx. apply in_map_iff in Hx as (i & <- & Hi). apply in_seq in Hi. apply H. lia. Qed.
Lemma sum_over_sub n f g : sum_over n f - sum_over n g = sum_over n (fun i => f i - g i).
Proof. unfold sum_over. rewrite (Rsum_ext (fun i => f i - g i) (fun i => f i + (-1) * g i)) by (intros; ring). rewrite Rsum_map_add, Rsum_map_mul. ring. Qed.
Lemma sum_over_zero n f : (forall i, (i < n)%nat -> 0 <= f i) -> sum_over n f = 0 -> forall i, (i < n)%nat -> f i = 0.
Proof.
  revert f. induction n as [|n IH]; intros f H E i Hi; [lia|]. unfold sum_over in E. cbn [seq map] in E. change (f 0%nat + Rsum (map f (seq 1 n)) = 0) in E.
  rewrite <- seq_shift, map_map in E. change (f 0%nat + sum_over n (fun j => f (S j)) = 0) in E. assert (A : 0 <= sum_over n (fun j => f (S j))) by (apply sum_over_nonneg; intros j Hj; apply H; lia). pose proof (H 0%nat ltac:(lia)).
  destruct i as [|i]; [lra|]. apply (IH (fun j => f (S j))); [intros j Hj; apply H; lia|lra|lia].
Qed.
Theorem C98_accuracy_range : forall amax input t w, input <> [] -> size_of t = len input -> (forall l, w = Some l -> len l = len input) ->
  (forall i, (i < len input)%nat -> 0 <= weight_at w i) -> 0 < sum_over (len input) (weight_at w) ->
  exists a, categorical_accuracy amax input t w RMean = Ok (Scalar (Some a)) /\ 0 <= a <= 1 /\ (a = 1 <-> forall i, (i < len input)%nat -> 0 < weight_at w i -> hit amax input t i).
Proof.
  intros amax input t w NE SZ LW NN SP. destruct (C98_categorical amax input t w NE SZ LW) as (ok & OK & _ & _ & M). specialize (M ltac:(lra)).
  set (n := len input) in *. set (num := sum_over n (fun i => weight_at w i * ok i)) in *. set (den := sum_over n (weight_at w)) in *. exists (num / den). split; [exact M|].
  assert (O01 : forall i, (i < n)%nat -> 0 <= ok i <= 1) by (intros i Hi; destruct (OK i Hi) as [[_ ->]|[_ ->]]; lra).
  assert (N0 : 0 <= num) by (apply sum_over_nonneg; intros i Hi; apply Rmult_le_pos; [apply NN; exact Hi|apply O01; exact Hi]).
  assert (GP : forall i, (i < n)%nat -> 0 <= weight_at w i - weight_at w i * ok i) by (intros i Hi; specialize (NN i Hi); specialize (O01 i Hi); nra).
  assert (D : den - num = sum_over n (fun i => weight_at w i - weight_at w i * ok i)) by apply sum_over_sub.
  assert (ND : num <= den) by (pose proof (sum_over_nonneg n _ GP); lra).
  split; [split|split].
  - apply Rmult_le_pos; [exact N0|]. apply Rlt_le, Rinv_0_lt_compat; lra.
  - apply Rmult_le_reg_r with den; [lra|]. replace (num / den * den) with num by (field; lra). lra.
  - intros E i Hi WP. assert (num = den) by (replace num with (num / den * den) by (field; lra); rewrite E; ring). assert (Z0 := sum_over_zero n _ GP ltac:(lra) i Hi). cbv beta in Z0.
    destruct (OK i Hi) as [[Ht _]|[_ E0]]; [exact Ht|]. rewrite E0 in Z0. lra.
  - intros All. assert (E : num = den); [|rewrite E; field; lra]. apply sum_over_ext. intros i Hi. destruct (OK i Hi) as [[_ ->]|[Nh _]]; [ring|].
    destruct (Rle_lt_or_eq_dec 0 (weight_at w i) (NN i Hi)) as [L|L]; [exfalso; apply Nh; apply All; assumption|]. rewrite <- L. ring.
Qed.
Print Assumptions C98_accuracy_range.
Theorem C98_weight_scale : forall amax input t w c, input <> [] -> size_of t = len input -> len w = len input -> c <> 0 -> sum_over (len input) (weight_at (Some w)) <> 0 ->
  categorical_accuracy amax input t (Some (map (fun q => c * q) w)) RMean = categorical_accuracy amax input t (Some w) RMean.
Proof.
  intros amax input t w c NE SZ LW C0 SW. destruct (C98_categorical amax input t (Some w) NE SZ ltac:(intros l [= <-]; exact LW)) as (ok & OK & Q & _ & M). specialize (M SW).
  destruct (C98_categorical amax input t (Some (map (fun q => c * q) w)) NE SZ ltac:(intros l [= <-]; rewrite map_length; exact LW)) as (ok' & OK' & Q' & _ & M').
  assert (WE : forall i, (i < len input)%nat -> weight_at (Some (map (fun q => c * q) w)) i = c * weight_at (Some w) i).
  { intros i Hi. cbn [weight_at]. rewrite (nth_indep _ 0 (c * 0)) by (rewrite map_length; lia). apply (map_nth (fun q => c * q)). }
  assert (OE : forall i, (i < len input)%nat -> ok' i = ok i) by (intros i Hi; destruct (OK i Hi) as [[H ->]|[H ->]], (OK' i Hi) as [[H' ->]|[H' ->]]; tauto || reflexivity).
  assert (SE : sum_over (len input) (weight_at (Some (map (fun q => c * q) w))) = c * sum_over (len input) (weight_at (Some w))) by (rewrite <- sum_over_scale; apply sum_over_ext; exact WE).
  rewrite M, M'; [|rewrite SE; intros E; apply Rmult_integral in E as [E|E]; tauto]. rewrite SE. do 3 f_equal.
  rewrite (sum_over_ext _ _ (fun i => c * (weight_at (Some w) i * ok i))) by (intros i Hi; rewrite (WE i Hi), (OE i Hi); ring). rewrite sum_over_scale. field. split; assumption.
Qed.
Print Assumptions C98_weight_scale.

(** Binary accuracy: 'none' and 'sum' are the flags and their weighted number. *)
Definition right_at (thr : R) (input target : list (list R)) (i j : nat) : Prop :=
  exists x t, (exists r, nth_error input i = Some r /\ nth_error r j = Some x) /\ (exists r, nth_error target i = Some r /\ nth_error r j = Some t) /\ ((thr < x /\ t = 1) \/ (x <= thr /\ t = 0)).
Definition sized (n d : nat) (m : list (list R)) : Prop := len m = n /\ forall r, In r m -> len r = d.
Lemma same_size_ok n d a b : sized n d a -> sized n d b -> same_size a b = true.
Proof.
  intros [La Ha] [Lb Hb]. unfold same_size. rewrite La, Lb, Nat.eqb_refl. cbn [andb]. apply forallb_forall. intros [u v] Hp. cbn [fst snd]. rewrite (Ha u (in_combine_l _ _ _ _ Hp)), (Hb v (in_combine_r _ _ _ _ Hp)). apply Nat.eqb_refl.
Qed.
Lemma sized_nth n d m i : sized n d m -> (i < n)%nat -> len (nth i m []) = d.
Proof. intros [L H] Hi. apply H. apply nth_In. lia. Qed.
Lemma Rsum_app a b : Rsum (a ++ b) = Rsum a + Rsum b.
Proof. induction a as [|v a IH]; [change (Rsum [] ) with 0; cbn [app]; lra|]. change (v + Rsum (a ++ b) = v + Rsum a + Rsum b). rewrite IH. lra. Qed.
Lemma concat_sum (f : nat -> list R) n : Rsum (concat (map f (seq 0 n))) = sum_over n (fun i => Rsum (f i)).
Proof. unfold sum_over. induction (seq 0 n) as [|i l IH]; [reflexivity|]. cbn [map concat]. rewrite Rsum_app. rewrite IH. reflexivity. Qed.
Theorem C98_binary : forall n d thr input target w, sized n d input -> sized n d target -> (forall l, w = Some l -> len l = n) ->
  exists ok : nat -> nat -> R, (forall i j, (i < n)%nat -> (j < d)%nat -> (right_at thr input target i j /\ ok i j = 1) \/ (~ right_at thr input target i j /\ ok i j = 0)) /\
  binary_accuracy input target w RNone thr = Ok (Vector (concat (map (fun i => map (ok i) (seq 0 d)) (seq 0 n)))) /\
  binary_accuracy input target w RSum thr = Ok (Scalar (Some (sum_over n (fun i => weight_at w i * sum_over d (ok i))))).
Proof.
  intros n d thr input target w SI ST LW.
  set (fl := fun x t => if Req_EM_T (if Rlt_dec thr x then 1 else 0) t then 1 else 0).
  set (ok := fun i j => fl (nth j (nth i input []) 0) (nth j (nth i target []) 0)). exists ok.
  assert (FL : flags thr input target = map (fun i => map (ok i) (seq 0 d)) (seq 0 n)).
  { unfold flags. rewrite (zip_seq _ input target ltac:(rewrite (proj1 SI), (proj1 ST); reflexivity) [] []). rewrite (proj1 SI). apply map_ext_in. intros i Hi. apply in_seq in Hi.
    rewrite (zip_seq _ (nth i input []) (nth i target []) ltac:(rewrite (sized_nth n d _ i SI), (sized_nth n d _ i ST) by lia; reflexivity) 0 0). rewrite (sized_nth n d _ i SI) by lia. reflexivity. }
  split; [|split].
  - intros i j Hi Hj. assert (L1 := sized_nth n d _ i SI Hi). assert (L2 := sized_nth n d _ i ST Hi).
    assert (R1 : nth_error input i = Some (nth i input [])) by (apply nth_error_nth'; rewrite (proj1 SI); lia). assert (R2 : nth_error target i = Some (nth i target [])) by (apply nth_error_nth'; rewrite (proj1 ST); lia).
    assert (X1 : nth_error (nth i input []) j = Some (nth j (nth i input []) 0)) by (apply nth_error_nth'; lia). assert (X2 : nth_error (nth i target []) j = Some (nth j (nth i target []) 0)) by (apply nth_error_nth'; lia).
    assert (IFF : right_at thr input target i j <-> (thr < nth j (nth i input []) 0 /\ nth j (nth i target []) 0 = 1) \/ (nth j (nth i input []) 0 <= thr /\ nth j (nth i target []) 0 = 0)).
    { split; [intros (x & t & (r & A1 & A2) & (r' & B1 & B2) & C); rewrite R1 in A1; rewrite R2 in B1; injection A1 as <-; injection B1 as <-; rewrite X1 in A2; rewrite X2 in B2; injection A2 as <-; injection B2 as <-; exact C|].
      intros C. exists (nth j (nth i input []) 0), (nth j (nth i target []) 0). split; [exists (nth i input []); split; assumption|]. split; [exists (nth i target []); split; assumption|exact C]. }
    rewrite IFF. unfold ok, fl. destruct (Rlt_dec thr (nth j (nth i input []) 0)) as [L|L]; match goal with |- context [Req_EM_T ?a ?b] => destruct (Req_EM_T a b) as [E|E] end; [left|right|left|right]; (split; [lra|reflexivity]).
  - unfold binary_accuracy. rewrite (same_size_ok n d _ _ ST SI). cbn [negb]. rewrite FL. reflexivity.
  - unfold binary_accuracy. rewrite (same_size_ok n d _ _ ST SI). cbn [negb]. rewrite FL. destruct w as [l|].
    + rewrite (LW l eq_refl), (proj1 SI), Nat.eqb_refl. cbn [bind]. rewrite (zip_seq _ _ l ltac:(rewrite map_length, seq_length, (LW l eq_refl); reflexivity) [] 0). rewrite map_length, seq_length. rewrite concat_sum. do 3 f_equal. apply sum_over_ext. intros i Hi.
      assert (Q : nth i (map (fun i0 => map (ok i0) (seq 0 d)) (seq 0 n)) [] = map (ok i) (seq 0 d)) by (apply nth_error_nth; rewrite nth_error_map, (nth_error_nth' (seq 0 n) 0%nat), seq_nth by (rewrite ?seq_length; lia); reflexivity). rewrite Q. rewrite map_map. cbn [weight_at]. unfold sum_over. rewrite <- Rsum_map_mul. apply Rsum_ext. intros j _. ring.
    + cbn [bind]. rewrite concat_sum. do 3 f_equal. apply sum_over_ext. intros i Hi. cbn [weight_at]. unfold sum_over. ring.
Qed.
Print Assumptions C98_binary.
(** 'mean', the default, does not work: with more than one decision it raises, and with one it returns the flag times its weight, where the accuracy is
    the flag. *)
Theorem C98_binary_mean_refuted :
  (forall n d thr input target w, sized n d input -> sized n d target -> (forall l, w = Some l -> len l = n) -> (n * d <> 1)%nat -> binary_accuracy input target w RMean thr = Err ValueError) /\
  (forall thr x q, thr < x -> binary_accuracy [[x]] [[1]] (Some [q]) RMean thr = Ok (Scalar (Some q))).
Proof.
  split.
  - intros n d thr input target w SI ST LW ND. destruct (C98_binary n d thr input target w SI ST LW) as (ok & _ & Q & _).
    assert (CL : forall m : list (list R), len m = n -> (forall r, In r m -> len r = d) -> item m = Err ValueError).
    { intros m L H. unfold item. assert (LC : len (concat m) = (n * d)%nat) by (rewrite <- L; clear -H; induction m as [|r m IH]; [reflexivity|]; cbn [concat length]; rewrite app_length, IH by (intros; apply H; right; assumption); rewrite (H r) by (left; reflexivity); lia).
      destruct (concat m) as [|v [|v' rr]]; cbn [length] in LC; [reflexivity|lia|reflexivity]. }
    assert (SF : len (flags thr input target) = n /\ forall r, In r (flags thr input target) -> len r = d).
    { unfold flags. rewrite (zip_seq _ input target ltac:(rewrite (proj1 SI), (proj1 ST); reflexivity) [] []). rewrite map_length, seq_length, (proj1 SI). split; [reflexivity|]. intros r Hr. apply in_map_iff in Hr as (i & <- & Hi). apply in_seq in Hi.
      rewrite (zip_seq _ (nth i input []) (nth i target []) ltac:(rewrite (sized_nth n d _ i SI), (sized_nth n d _ i ST) by lia; reflexivity) 0 0). rewrite map_length, seq_length. apply (sized_nth n d _ i SI). lia. }
    unfold binary_accuracy. rewrite (same_size_ok n d _ _ ST SI). cbn [negb]. destruct w as [l|].
    + rewrite (LW l eq_refl), (proj1 SI), Nat.eqb_refl. cbn [bind]. rewrite CL; [reflexivity| |].
      * rewrite (zip_seq _ _ l ltac:(rewrite (proj1 SF), (LW l eq_refl); reflexivity) [] 0). rewrite map_length, seq_length. apply SF.
      * intros r Hr. rewrite (zip_seq _ _ l ltac:(rewrite (proj1 SF), (LW l eq_refl); reflexivity) [] 0) in Hr. apply in_map_iff in Hr as (i & <- & Hi). apply in_seq in Hi. rewrite map_length. apply SF. apply nth_In. lia.
    + cbn [bind]. rewrite (CL _ (proj1 SF) (proj2 SF)). reflexivity.
  - intros thr x q H. unfold binary_accuracy. cbn. destruct (Rlt_dec thr x); [|lra]. destruct (Req_EM_T 1 1); [|congruence]. cbn. do 3 f_equal. ring.
Qed.
Print Assumptions C98_binary_mean_refuted.
(** The metric for logits decides at 0.5 by default: a logit between 0 and 0.5 means a probability over one half, but counts as a miss for the target 1. *)
Theorem C98_logits_refuted : forall x, 0 < x <= 1 / 2 -> 1 / 2 < 1 / (1 + exp (- x)) /\ binary_accuracy [[x]] [[1]] None RSum logits_default_thr = Ok (Scalar (Some 0)).
Proof.
  intros x Hx. split.
  - assert (exp (- x) < 1) by (rewrite <- exp_0; apply exp_increasing; lra). pose proof (exp_pos (- x)). unfold Rdiv. rewrite !Rmult_1_l. apply Rinv_lt_contravar; [|lra]. apply Rmult_lt_0_compat; lra.
  - unfold binary_accuracy, logits_default_thr. cbn. destruct (Rlt_dec (1 / 2) x); [lra|]. destruct (Req_EM_T 0 1); [lra|]. cbn. do 3 f_equal. ring.
Qed.
Print Assumptions C98_logits_refuted.

(** ** Fully connected networks *)
Section Nets.
Context {V : Type}.
Notation vec := (list V).
Variable lin : nat -> nat -> nat -> vec -> vec.
Variable bn : nat -> nat -> vec -> vec.
Variable act : vec -> vec.
Variable drop : nat -> vec -> vec.
Variable oact : option (vec -> vec).
Variable obn : nat -> vec -> vec.
Variable odrop : vec -> vec.
(** the layers keep to their sizes *)
Definition sizes_ok : Prop :=
  (forall i a b x, len x = a -> len (lin i a b x) = b) /\ (forall i d x, len x = d -> len (bn i d x) = d) /\ (forall x, len (act x) = len x) /\ (forall i x, len (drop i x) = len x) /\
  (forall f x, oact = Some f -> len (f x) = len x) /\ (forall d x, len x = d -> len (obn d x) = d) /\ (forall x, len (odrop x) = len x).
Definition when (b : bool) (f : vec -> vec) (x : vec) : vec := if b then f x else x.
(** the hidden layer i from a to b units: normalise, project, activate, drop *)
Definition hidden (c : fc_conf) (i a b : nat) (x : vec) : vec := when (f_drop c) (drop i) (when (f_act c) act (lin i a b (when (f_bn c) (bn i a) x))).
Fixpoint through (c : fc_conf) (i : nat) (a : nat) (dims : list nat) (x : vec) : vec := match dims with [] => x | b :: dims => through c (S i) b dims (hidden c i a b x) end.
Definition output (c : fc_conf) (i a : nat) (x : vec) : vec := let y := lin i a (f_out c) (when (f_bn c) (bn i a) x) in match oact with Some f => f y | None => y end.
Definition hidden_dims (num : nat) (h : nat + list nat) (dims : list nat) : Prop := len dims = num /\ match h with inl u => forall d, In d dims -> d = u | inr l => dims = l end.

Lemma units_ok num inp h dims : hidden_dims num h dims -> units num inp h = Ok (inp :: dims).
Proof.
  intros [L H]. unfold units. destruct h as [u|l].
  - f_equal. f_equal. subst num. clear -H. induction dims as [|d dims IH]; [reflexivity|]. cbn [length repeat]. rewrite (H d) by (left; reflexivity). f_equal. apply IH. intros; apply H; right; assumption.
  - subst l. rewrite L, Nat.eqb_refl. reflexivity.
Qed.
Lemma pairs_len a dims : len (pairs (a :: dims)) = len dims.
Proof. revert a. induction dims as [|b dims IH]; intros a; [reflexivity|]. change (S (len (pairs (b :: dims))) = S (len dims)). f_equal. apply IH. Qed.
Lemma pairs_nth a dims i : (i < len dims)%nat -> nth_error (pairs (a :: dims)) i = Some (nth i (a :: dims) 0%nat, nth i dims 0%nat).
Proof. revert a i. induction dims as [|b dims IH]; intros a i Hi; [cbn in Hi; lia|]. change (nth_error ((a, b) :: pairs (b :: dims)) i = Some (nth i (a :: b :: dims) 0%nat, nth i (b :: dims) 0%nat)). destruct i as [|i]; [reflexivity|]. cbn [nth_error]. rewrite IH by (cbn in Hi; lia). reflexivity. Qed.
Lemma removelast_cons (a : nat) dims : len (removelast (a :: dims)) = len dims.
Proof. revert a. induction dims as [|b dims IH]; intros a; [reflexivity|]. change (S (len (removelast (b :: dims))) = S (len dims)). f_equal. apply IH. Qed.
Lemma removelast_nth a dims i : (i < len dims)%nat -> nth_error (removelast (a :: dims)) i = Some (nth i (a :: dims) 0%nat).
Proof. revert a i. induction dims as [|b dims IH]; intros a i Hi; [cbn in Hi; lia|]. change (nth_error (a :: removelast (b :: dims)) i = Some (nth i (a :: b :: dims) 0%nat)). destruct i as [|i]; [reflexivity|]. cbn [nth_error]. rewrite IH by (cbn in Hi; lia). reflexivity. Qed.
Lemma last_nth a dims : last (a :: dims) 0%nat = nth (len dims) (a :: dims) 0%nat.
Proof. revert a. induction dims as [|b dims IH]; intros a; [reflexivity|]. change (last (b :: dims) 0%nat = nth (len dims) (b :: dims) 0%nat). apply IH. Qed.
(** one row of a layer *)
Definition dims_at (dims : list nat) (i : nat) : nat := nth i dims 0%nat.
Definition layer_at (c : fc_conf) (n : fc_net) (i a b : nat) : Prop := nth_error (k_lin n) i = Some (a, b) /\ (f_bn c = true -> exists l, k_bn n = Some l /\ nth_error l i = Some a).
Lemma hidden_len (SO : sizes_ok) c i a b x : len x = a -> len (hidden c i a b x) = b.
Proof.
  destruct SO as (S1 & S2 & S3 & S4 & _). intros L. unfold hidden, when. destruct (f_drop c); rewrite ?S4; destruct (f_act c); rewrite ?S3; apply S1; destruct (f_bn c); try exact L; apply S2; exact L.
Qed.
Lemma run_layer_ok (SO : sizes_ok) c n i a b x : layer_at c n i a b -> len x = a -> run_layer lin bn act drop n c i x = Ok (hidden c i a b x).
Proof.
  intros [H1 H2] L. destruct SO as (S1 & S2 & S3 & S4 & _). unfold run_layer, hidden, when. destruct (f_bn c).
  - destruct (H2 eq_refl) as (l & -> & ->). unfold run_bn. rewrite L, Nat.eqb_refl. cbn [bind]. rewrite H1. unfold run_lin. cbn [fst snd]. rewrite (S2 i a x L), Nat.eqb_refl. reflexivity.
  - cbn [bind]. rewrite H1. unfold run_lin. cbn [fst snd]. rewrite L, Nat.eqb_refl. reflexivity.
Qed.
Lemma run_layer_bad c n i a b x : layer_at c n i a b -> len x <> a -> run_layer lin bn act drop n c i x = Err RuntimeErr.
Proof.
  intros [H1 H2] L. apply Nat.eqb_neq in L. unfold run_layer. destruct (f_bn c).
  - destruct (H2 eq_refl) as (l & -> & ->). unfold run_bn. rewrite L. reflexivity.
  - cbn [bind]. rewrite H1. unfold run_lin. cbn [fst snd]. rewrite L. reflexivity.
Qed.
Lemma run_layers_ok (SO : sizes_ok) c n : forall dims i a x, (forall k, (k < len dims)%nat -> layer_at c n (i + k) (nth k (a :: dims) 0%nat) (nth k dims 0%nat)) -> len x = a ->
  run_layers lin bn act drop n c (seq i (len dims)) x = Ok (through c i a dims x) /\ len (through c i a dims x) = last (a :: dims) 0%nat.
Proof.
  induction dims as [|b dims IH]; intros i a x H L; [split; [reflexivity|exact L]|]. cbn [length seq run_layers through]. assert (H0 := H 0%nat ltac:(cbn; lia)). rewrite Nat.add_0_r in H0. cbn [nth] in H0.
  rewrite (run_layer_ok SO c n i a b x H0 L). cbn [bind]. assert (LH := hidden_len SO c i a b x L).
  destruct (IH (S i) b (hidden c i a b x)) as (Q1 & Q2); [|exact LH|split; [exact Q1|exact Q2]].
  intros k Hk. specialize (H (S k) ltac:(cbn; lia)). rewrite Nat.add_succ_r in H. exact H.
Qed.
Lemma through_app c i a dims b x : through c i a (dims ++ [b]) x = hidden c (i + len dims) (last (a :: dims) 0%nat) b (through c i a dims x).
Proof. revert i a x. induction dims as [|e dims IH]; intros i a x; cbn [app through length]; [rewrite Nat.add_0_r; reflexivity|]. rewrite IH. rewrite Nat.add_succ_r. reflexivity. Qed.
Lemma nth_app_at {A} (l : list A) v : nth_error (l ++ [v]) (len l) = Some v.
Proof. rewrite nth_error_app2, Nat.sub_diag by lia. reflexivity. Qed.

(** FCNetV1 without output batch normalisation and output dropout computes the composition of its hidden layers, then of its output layer unless it was made
    without one; its output has output_units numbers, or those of the last hidden layer. An input of another size raises. *)
Theorem C98_fcnet : forall c dims, sizes_ok -> (1 <= f_num c)%nat -> hidden_dims (f_num c) (f_hid c) dims -> f_out_bn c = false -> f_out_drop c && f_drop c = false ->
  exists n, fc_new c = Ok n /\
  (forall x, len x = f_in c ->
    let h := through c 0 (f_in c) dims x in
    exists y, fc_forward lin bn act drop oact c n x = Ok y /\ y = (if f_without_out c then h else output c (f_num c) (last dims 0%nat) h) /\ len y = (if f_without_out c then last dims 0%nat else f_out c)) /\
  (forall x, len x <> f_in c -> fc_forward lin bn act drop oact c n x = Err RuntimeErr).
Proof.
  intros c dims SO N1 HD OB OD. assert (Ld := proj1 HD). assert (LST : last (f_in c :: dims) 0%nat = last dims 0%nat) by (destruct dims; [cbn in Ld; lia|reflexivity]).
  unfold fc_new. rewrite (proj2 (Nat.ltb_ge _ _) N1), (units_ok _ _ _ _ HD). cbn [bind]. rewrite OB, OD. set (dd := f_in c :: dims) in *.
  destruct (f_without_out c) eqn:WO; (eexists; split; [reflexivity|]); match goal with |- context [fc_forward _ _ _ _ _ _ ?nn] => set (n := nn) end.
  - assert (LA : forall k, (k < len dims)%nat -> layer_at c n (0 + k) (nth k dd 0%nat) (nth k dims 0%nat)).
    { intros k Hk. split; [apply pairs_nth; exact Hk|]. intros B. exists (removelast dd). split; [unfold n; cbn [k_bn]; rewrite B; reflexivity|]. apply removelast_nth. exact Hk. }
    split.
    + intros x Lx. set (h := through c 0 (f_in c) dims x). exists h. destruct (run_layers_ok SO c n dims 0 (f_in c) x LA Lx) as (Q1 & Q2). unfold fc_forward. rewrite <- Ld, Q1. cbn [bind]. rewrite WO. cbn [bind]. rewrite OB. split; [reflexivity|]. split; [reflexivity|]. rewrite <- LST. exact Q2.
    + intros x Lx. unfold fc_forward. assert (E : exists m, f_num c = S m) by (exists (f_num c - 1)%nat; lia). destruct E as (m & E). rewrite E. cbn [seq run_layers]. specialize (LA 0%nat ltac:(lia)). cbn [nth Nat.add] in LA. unfold dd in LA. cbn [nth] in LA.
      rewrite (run_layer_bad c n 0 _ _ x LA Lx). reflexivity.
  - assert (NB : f_bn c = true -> k_bn n = Some (removelast dd ++ [last dd 0%nat])) by (intros B; unfold n; cbn [k_bn]; rewrite B; reflexivity).
    assert (LA : forall k, (k < len dims)%nat -> layer_at c n (0 + k) (nth k dd 0%nat) (nth k dims 0%nat)).
    { intros k Hk. split; [unfold n; cbn [k_lin]; rewrite nth_error_app1 by (unfold dd; rewrite pairs_len; exact Hk); apply pairs_nth; exact Hk|]. intros B. exists (removelast dd ++ [last dd 0%nat]). split; [apply NB; exact B|].
      rewrite nth_error_app1 by (unfold dd; rewrite removelast_cons; exact Hk). apply removelast_nth. exact Hk. }
    split.
    + intros x Lx. set (h := through c 0 (f_in c) dims x). destruct (run_layers_ok SO c n dims 0 (f_in c) x LA Lx) as (Q1 & Q2). exists (output c (f_num c) (last dims 0%nat) h).
      assert (NL : nth_error (k_lin n) (f_num c) = Some (last dims 0%nat, f_out c)) by (unfold n; cbn [k_lin]; rewrite <- Ld, <- (pairs_len (f_in c) dims), nth_app_at, LST; reflexivity).
      assert (NBn : f_bn c = true -> nth_error (removelast dd ++ [last dd 0%nat]) (f_num c) = Some (last dims 0%nat)) by (intros _; rewrite <- Ld, <- (removelast_cons (f_in c) dims); fold dd; rewrite nth_app_at, LST; reflexivity).
      fold dd in Q2. rewrite LST in Q2. fold h in Q1, Q2. assert (KO : k_odrop n = false) by reflexivity. destruct SO as (S1 & S2 & S3 & S4 & S5 & _).
      assert (LW : len (when (f_bn c) (bn (f_num c) (last dims 0%nat)) h) = last dims 0%nat) by (unfold when; destruct (f_bn c); [apply S2; exact Q2|exact Q2]).
      assert (BN : match k_bn n with Some b => match nth_error b (f_num c) with Some d => run_bn bn (f_num c) d h | None => Err IndexError end | None => Ok h end = Ok (when (f_bn c) (bn (f_num c) (last dims 0%nat)) h)).
      { unfold when. destruct (f_bn c) eqn:B; [rewrite (NB eq_refl), (NBn eq_refl); unfold run_bn; rewrite Q2, Nat.eqb_refl; reflexivity|unfold n; cbn [k_bn]; reflexivity]. }
      unfold fc_forward. rewrite <- Ld at 1. rewrite Q1. cbn [bind]. rewrite WO. cbv zeta. rewrite BN. cbn [bind]. rewrite NL. unfold run_lin. cbn [fst snd]. rewrite LW, Nat.eqb_refl. cbn [bind]. rewrite KO. cbn [bind]. rewrite OB. split; [reflexivity|]. split; [reflexivity|].
      unfold output. cbv zeta. destruct oact as [f|]; [rewrite (S5 f _ eq_refl)|]; apply S1; exact LW.
    + intros x Lx. unfold fc_forward. assert (E : exists m, f_num c = S m) by (exists (f_num c - 1)%nat; lia). destruct E as (m & E). rewrite E. cbn [seq run_layers]. specialize (LA 0%nat ltac:(lia)). cbn [nth Nat.add] in LA. unfold dd in LA. cbn [nth] in LA.
      rewrite (run_layer_bad c n 0 _ _ x LA Lx). reflexivity.
Qed.

(** FFNetV1: num_layers counts the output layer, and there output dropout and batch normalisation work. *)
Lemma ff_app ys zs x : ff_forward lin bn act drop oact obn odrop (ys ++ zs) x = (y <- ff_forward lin bn act drop oact obn odrop ys x ;; ff_forward lin bn act drop oact obn odrop zs y).
Proof. revert x. induction ys as [|y ys IH]; intros x; [reflexivity|]. cbn [app ff_forward]. destruct (run1 lin bn act drop oact obn odrop y x); cbn [bind]; [apply IH|reflexivity]. Qed.
Lemma ff_hidden_ok (SO : sizes_ok) c i a b x : len x = a -> ff_forward lin bn act drop oact obn odrop (ff_hidden c i (a, b)) x = Ok (hidden c i a b x).
Proof.
  intros L. destruct SO as (S1 & S2 & _). unfold ff_hidden, hidden, when. destruct (f_bn c), (f_act c), (f_drop c); cbn [app ff_forward run1]; unfold run_bn, run_lin; cbn [fst snd]; rewrite ?L, ?Nat.eqb_refl; cbn [bind]; rewrite ?(S2 _ _ _ L), ?L, ?Nat.eqb_refl; reflexivity.
Qed.
Lemma ff_layers_ok (SO : sizes_ok) c : forall dims i a x, len x = a -> ff_forward lin bn act drop oact obn odrop (ff_layers c i (pairs (a :: dims))) x = Ok (through c i a dims x) /\ len (through c i a dims x) = last (a :: dims) 0%nat.
Proof.
  induction dims as [|b dims IH]; intros i a x L; [split; [reflexivity|exact L]|]. change (pairs (a :: b :: dims)) with ((a, b) :: pairs (b :: dims)). cbn [ff_layers through]. rewrite ff_app, (ff_hidden_ok SO c i a b x L). cbn [bind]. apply IH. apply hidden_len; assumption.
Qed.
Theorem C98_ffnet : forall c dims, sizes_ok -> (1 <= f_num c)%nat -> hidden_dims (f_num c - 1) (f_hid c) dims ->
  exists n, ff_new oact c = Ok n /\
  (forall x, len x = f_in c ->
    let h := through c 0 (f_in c) dims x in
    let y := when (f_out_bn c) (obn (f_out c)) (when (f_out_drop c && f_drop c) odrop (output c (f_num c - 1) (last (f_in c :: dims) 0%nat) h)) in
    ff_forward lin bn act drop oact obn odrop n x = Ok y /\ len y = f_out c) /\
  (forall x, len x <> f_in c -> ff_forward lin bn act drop oact obn odrop n x = Err RuntimeErr).
Proof.
  intros c dims SO N1 HD. unfold ff_new. rewrite (proj2 (Nat.ltb_ge _ _) N1), (units_ok _ _ _ _ HD). cbn [bind]. eexists. split; [reflexivity|]. split.
  - intros x Lx. set (h := through c 0 (f_in c) dims x). cbv zeta. match goal with |- ff_forward _ _ _ _ _ _ _ _ _ = Ok ?v /\ _ => set (y := v) end. rewrite ff_app. destruct (ff_layers_ok SO c dims 0 (f_in c) x Lx) as (Q1 & Q2). rewrite Q1. cbn [bind]. fold h in Q2 |- *. set (top := last (f_in c :: dims) 0%nat) in *. destruct SO as (S1 & S2 & S3 & S4 & S5 & S6 & S7).
    set (w := when (f_bn c) (bn (f_num c - 1) top) h). assert (LW : len w = top) by (unfold w, when; destruct (f_bn c); [apply S2; exact Q2|exact Q2]).
    assert (BN : ff_forward lin bn act drop oact obn odrop (if f_bn c then [LBn (f_num c - 1) top] else []) h = Ok w) by (unfold w, when; destruct (f_bn c); [cbn [ff_forward run1]; unfold run_bn; rewrite Q2, Nat.eqb_refl; reflexivity|reflexivity]).
    set (o := output c (f_num c - 1) top h) in *. assert (LO : len o = f_out c) by (unfold o, output; cbv zeta; fold w; destruct oact as [f|]; [rewrite (S5 f _ eq_refl)|]; apply S1; exact LW).
    assert (LD : len (when (f_out_drop c && f_drop c) odrop o) = f_out c) by (unfold when; destruct (f_out_drop c && f_drop c); [rewrite S7|]; exact LO).
    rewrite ff_app, BN. cbn [bind]. rewrite ff_app. cbn [ff_forward run1]. unfold run_lin. cbn [fst snd]. rewrite LW, Nat.eqb_refl. cbn [bind]. cbn [ff_forward].
    assert (OUT : ff_forward lin bn act drop oact obn odrop match oact with Some _ => [LOut] | None => [] end (lin (f_num c - 1) top (f_out c) w) = Ok o).
    { unfold o, output. cbv zeta. fold w. destruct oact as [f|]; reflexivity. }
    rewrite ff_app, OUT. cbn [bind]. rewrite ff_app. assert (DR : ff_forward lin bn act drop oact obn odrop (if f_out_drop c && f_drop c then [LODrop] else []) o = Ok (when (f_out_drop c && f_drop c) odrop o)) by (unfold when; destruct (f_out_drop c && f_drop c); reflexivity). rewrite DR. cbn [bind].
    split; [unfold y, when; destruct (f_out_bn c); [cbn [ff_forward run1]; unfold when in LD; rewrite LD, Nat.eqb_refl; reflexivity|reflexivity]|]. unfold y. unfold when at 1. destruct (f_out_bn c); [apply S6; exact LD|exact LD].
  - intros x Lx. apply Nat.eqb_neq in Lx. destruct dims as [|b dims].
    + cbn [pairs ff_layers app last]. destruct (f_bn c); cbn [app ff_forward run1]; unfold run_bn, run_lin; cbn [fst snd]; rewrite Lx; reflexivity.
    + change (pairs (f_in c :: b :: dims)) with ((f_in c, b) :: pairs (b :: dims)). cbn [ff_layers]. rewrite <- app_assoc, ff_app. unfold ff_hidden. destruct (f_bn c); cbn [app ff_forward run1]; unfold run_bn, run_lin; cbn [fst snd]; rewrite Lx; reflexivity.
Qed.

(** In FCNetV1 output batch normalisation calls the output dropout, which is None or was never reached, so that every forward pass raises; so does output
    dropout. Neither class can give its configuration. *)
Theorem C98_output_refuted : forall c dims, (1 <= f_num c)%nat -> hidden_dims (f_num c) (f_hid c) dims ->
  f_out_bn c = true \/ (f_without_out c = false /\ f_out_drop c && f_drop c = true) ->
  exists n, fc_new c = Ok n /\ forall x, exists e, fc_forward lin bn act drop oact c n x = Err e.
Proof.
  intros c dims N1 HD B. unfold fc_new. rewrite (proj2 (Nat.ltb_ge _ _) N1), (units_ok _ _ _ _ HD). cbn [bind].
  destruct (f_without_out c) eqn:WO; (eexists; split; [reflexivity|]); intros x; unfold fc_forward; match goal with |- context [run_layers _ _ _ _ ?nn c ?l x] => destruct (run_layers lin bn act drop nn c l x) as [h|e]; cbn [bind]; [|eauto] end; rewrite WO.
  - destruct B as [->|[E _]]; [cbn [bind]; eauto|congruence].
  - cbn [k_odrop k_bn k_lin]. match goal with |- context [bind (bind ?m _) _] => destruct m as [u|e]; cbn [bind]; [|eauto] end. match goal with |- context [bind (bind ?m _) _] => destruct m as [v|e]; cbn [bind]; [|eauto] end.
    destruct (f_out_drop c && f_drop c); [cbn [bind]; eauto|]. cbn [bind]. destruct B as [->|[_ E]]; [eauto|discriminate].
Qed.
Theorem C98_config_refuted : (forall c n, fc_get_config c n = Err AttributeError) /\ (forall ys, ff_get_config ys = Err AttributeError).
Proof. split; reflexivity. Qed.
End Nets.
Print Assumptions C98_fcnet.
Print Assumptions C98_ffnet.
Print Assumptions C98_output_refuted.
Print Assumptions C98_config_refuted.
(** The TDNN and E-TDNN encoders cannot be constructed. *)
Theorem C98_tdnn_refuted : forall num_td num_fc td fc k, exists e, tdnn_new num_td num_fc td fc k = Err e.
Proof.
  intros. unfold tdnn_new, list_ok. destruct (num_td <? 1)%nat; [eauto|]. destruct td as [|l1]; cbn [bind]; [|destruct (num_td =? len l1)%nat; cbn [bind]; [|eauto]]; (destruct fc as [|l2]; cbn [bind]; [|destruct (num_fc =? len l2)%nat; cbn [bind]; [|eauto]]; (destruct k as [|l3]; cbn [bind]; [eauto|destruct (num_td =? len l3)%nat; cbn [bind]; eauto])).
Qed.
Print Assumptions C98_tdnn_refuted.
(** An activation is found by its name; one given as a dictionary with its parameters always raises. *)
Theorem C98_activation : forall known, NoDup (map fst known) ->
  (forall name i, In (name, i) known -> act_create known (AName name) = Ok i) /\ (forall name, ~ In name (map fst known) -> act_create known (AName name) = Err KeyError) /\
  (forall name args, act_create known (ADict name args) = Err AttributeError).
Proof.
  intros known ND. split; [|split; [|reflexivity]].
  - intros name i H. cbn [act_create]. destruct (find _ known) as [[n' j]|] eqn:E.
    + apply find_some in E as [H1 H2]. cbn [fst snd] in *. apply eqb_eq in H2. subst n'. f_equal. apply in_split in H as (l1 & l2 & ->). rewrite map_app in ND. cbn [map fst] in ND. apply NoDup_remove_2 in ND.
      apply in_app_or in H1 as [H1|[H1|H1]]; [|congruence|]; exfalso; apply ND; apply in_or_app; [left|right]; apply (in_map fst) in H1; exact H1.
    + exfalso. apply (find_none _ _ E) in H. cbn [fst] in H. assert (eqb name name = true) by (apply eqb_eq; reflexivity). congruence.
  - intros name H. cbn [act_create]. destruct (find _ known) as [[n' j]|] eqn:E; [|reflexivity]. exfalso. apply find_some in E as [H1 H2]. cbn [fst] in *. apply eqb_eq in H2. subst. apply H. apply (in_map fst) in H1. exact H1.
Qed.
Print Assumptions C98_activation.

(** Witnesses *)
Example categorical_w : exists amax, is_argmax amax /\ hit amax [[0; 1]; [1; 0]] (Ids [1%nat; 1%nat]) 0 /\ ~ hit amax [[0; 1]; [1; 0]] (Ids [1%nat; 1%nat]) 1.
Proof.
  exists (fun row => match row with [] => 0%nat | x :: r => snd (fold_left (fun s v => let '(b, k, i) := (fst (fst s), snd s, snd (fst s)) in if Rlt_dec b v then (v, S i, i) else (b, S i, k)) r (x, 1%nat, 0%nat)) end).
  split; [|split].
  - intros [|x r] H; [congruence|]. clear H.
    set (f := fun (s : R * nat * nat) (v : R) => let '(b, k, i) := (fst (fst s), snd s, snd (fst s)) in if Rlt_dec b v then (v, S i, i) else (b, S i, k)).
    assert (G : forall r pre b k, (k < len pre)%nat -> nth_error pre k = Some b -> (forall y, In y pre -> y <= b) -> top_of (pre ++ r) (snd (fold_left f r (b, len pre, k)))).
    { clear. induction r as [|v r IH]; intros pre b k Hk E M; cbn [fold_left].
      - rewrite app_nil_r. exists b. split; [exact E|exact M].
      - replace (pre ++ v :: r) with ((pre ++ [v]) ++ r) by (rewrite <- app_assoc; reflexivity). unfold f at 2. cbn [fst snd].
        replace (S (len pre)) with (len (pre ++ [v])) by (rewrite app_length; cbn; lia). destruct (Rlt_dec b v) as [L|L]; apply IH.
        + rewrite app_length. cbn. lia.
        + apply nth_app_at.
        + intros y Hy. apply in_app_or in Hy as [Hy|[<-|[]]]; [specialize (M y Hy); lra|lra].
        + rewrite app_length. lia.
        + rewrite nth_error_app1 by exact Hk. exact E.
        + intros y Hy. apply in_app_or in Hy as [Hy|[<-|[]]]; [apply M; exact Hy|lra]. }
    apply (G r [x] x 0%nat); [cbn; lia|reflexivity|]. intros y [<-|[]]. lra.
  - exists [0; 1], 1%nat. split; [reflexivity|]. split; [reflexivity|]. cbn. destruct (Rlt_dec 0 1); [reflexivity|lra].
  - intros (row & k & E & C & A). cbn in E, C. injection E as <-. injection C as <-. cbn in A. destruct (Rlt_dec 1 0); [lra|discriminate].
Qed.
Example fcnet_w : exists y, let c := mk_fc 2 3 (inr [4; 2]%nat) 5 true true false false false false in
  (n <- fc_new c ;; fc_forward (fun i a b x => repeat (i + fold_left Nat.add x 0%nat)%nat b) (fun i d x => x) (map S) (fun _ x => x) None c n [1; 2; 3]%nat) = Ok y /\ len y = 5%nat.
Proof. eexists. split; [vm_compute; reflexivity|reflexivity]. Qed.
Example ffnet_w : exists y, let c := mk_fc 3 3 (inl 4%nat) 5 true true true false true true in
  (n <- ff_new (Some (map S)) c ;; ff_forward (fun i a b x => repeat (i + fold_left Nat.add x 0%nat)%nat b) (fun i d x => x) (map S) (fun _ x => x) (Some (map S)) (fun _ x => x) (fun x => x) n [1; 2; 3]%nat) = Ok y /\ len y = 5%nat.
Proof. eexists. split; [vm_compute; reflexivity|reflexivity]. Qed.
