(** C62: k-means clustering (hyperion/clustering/kmeans.py). *)
From Coq Require Import QArith Qabs Lqa Lia.
From Verif Require Import Base BaseFacts Mat Metrics DcfProps KMeans.
Open Scope list_scope.
Open Scope Q_scope.

(** ** Specification *)
(** squared Euclidean distance in D dimensions *)
Fixpoint dist2 (D : nat) (p c : list Q) : Q :=
  match D with O => 0 | S D => dist2 D p c + (nth D p 0 - nth D c 0) * (nth D p 0 - nth D c 0) end.
(** [i] is the number of the centroid [c] closest to [p]; among equally close ones, the first *)
Definition closest (D : nat) (mu : list (list Q)) (p : list Q) (i : nat) (c : list Q) : Prop :=
  nth_error mu i = Some c /\ (forall j d, nth_error mu j = Some d -> dist2 D p c <= dist2 D p d) /\
  (forall j d, (j < i)%nat -> nth_error mu j = Some d -> dist2 D p c < dist2 D p d).
(** [index] and [errs] are the assignment and the squared errors of the rows of [x] *)
Definition assignment (D : nat) (mu x : list (list Q)) (index : list nat) (errs : list Q) : Prop :=
  List.length index = List.length x /\ List.length errs = List.length x /\
  forall n p, nth_error x n = Some p -> exists i c e,
    nth_error index n = Some i /\ nth_error errs n = Some e /\ closest D mu p i c /\ e == dist2 D p c.
Definition average (l : list Q) : Q := fold_right Qplus 0 l / inject_Z (Z.of_nat (List.length l)).
(** the relative improvement from loss [a] to loss [b] is below [rtol] *)
Definition small_step (rtol a b : Q) : Prop := 0 < a /\ (a - b) < rtol * a.

(** ** Sums *)
Lemma qsum_app a b : qsum (a ++ b) == qsum a + qsum b.
Proof. induction a as [|x a IH]; unfold qsum in *; simpl; [lra|]. rewrite IH. lra. Qed.
Lemma qsum_map_ext {A} (f g : A -> Q) l : (forall x, In x l -> f x == g x) -> qsum (map f l) == qsum (map g l).
Proof.
  induction l as [|x l IH]; intros H; unfold qsum in *; simpl; [reflexivity|]. rewrite (H x (or_introl eq_refl)). rewrite IH; [reflexivity|].
  intros y Y. apply H. right. exact Y.
Qed.
Lemma qsum_map_le {A} (f g : A -> Q) l : (forall x, In x l -> f x <= g x) -> qsum (map f l) <= qsum (map g l).
Proof.
  induction l as [|x l IH]; intros H; unfold qsum in *; simpl; [apply Qle_refl|]. apply Qplus_le_compat; [apply H; left; reflexivity|].
  apply IH. intros y Y. apply H. right. exact Y.
Qed.
Lemma qsum_map_add {A} (f g : A -> Q) l : qsum (map (fun x => f x + g x) l) == qsum (map f l) + qsum (map g l).
Proof. induction l as [|x l IH]; unfold qsum in *; simpl; [lra|]. rewrite IH. lra. Qed.
Lemma qsum_map_zero {A} (l : list A) : qsum (map (fun _ => 0) l) == 0.
Proof. induction l as [|x l IH]; unfold qsum in *; simpl; [reflexivity|]. rewrite IH. lra. Qed.
Lemma qsum_swap {A B} (f : A -> B -> Q) la lb :
  qsum (map (fun a => qsum (map (f a) lb)) la) == qsum (map (fun b => qsum (map (fun a => f a b) la)) lb).
Proof.
  induction la as [|a la IH]; simpl.
  - rewrite qsum_map_zero. reflexivity.
  - change (qsum (map (f a) lb) + qsum (map (fun a => qsum (map (f a) lb)) la) == qsum (map (fun b => f a b + qsum (map (fun a => f a b) la)) lb)).
    rewrite IH, qsum_map_add. reflexivity.
Qed.
Lemma qsum_nonneg l : Forall (fun x => 0 <= x) l -> 0 <= qsum l.
Proof. induction 1 as [|x l X L IH]; unfold qsum in *; simpl; [lra|]. lra. Qed.

Section KM.
Variable D : nat.
Lemma sqdist_dist2 p c : sqdist D p c == dist2 D p c.
Proof.
  unfold sqdist. induction D as [|d IH]; [reflexivity|]. rewrite seq_S, map_app, qsum_app, IH. cbn [dist2]. unfold coord, qsum. simpl. lra.
Qed.
Lemma sqdist_nonneg p c : 0 <= sqdist D p c.
Proof. apply qsum_nonneg, Forall_forall. intros y Y. apply in_map_iff in Y. destruct Y as (j & <- & _). cbv beta. generalize (coord p j - coord c j). intros t. nra. Qed.

(** ** first minimum *)
Lemma argmin_from_first l : forall best k i, exists b, 
  (k < i)%nat ->
  (argmin_from best k i l = k /\ b = best /\ (forall j x, nth_error l j = Some x -> best <= x) \/
   exists j, argmin_from best k i l = (i + j)%nat /\ nth_error l j = Some b /\ b < best /\
     (forall j' x, nth_error l j' = Some x -> b <= x) /\ (forall j' x, (j' < j)%nat -> nth_error l j' = Some x -> b < x)).
Proof.
  induction l as [|x l IH]; intros best k i.
  - exists best. intros K. left. split; [reflexivity|]. split; [reflexivity|]. intros [|j] x J; discriminate J.
  - simpl. destruct (Qle_bool best x) eqn:E.
    + destruct (IH best k (S i)) as (b & B). exists b. intros K. apply Qle_bool_iff in E.
      destruct (B ltac:(lia)) as [(B1 & B2 & B3)|(j & B1 & B2 & B3 & B4 & B5)].
      * left. split; [exact B1|]. split; [exact B2|]. intros [|j] y J; [injection J as <-; exact E|]. exact (B3 j y J).
      * right. exists (S j). rewrite B1. split; [lia|]. split; [exact B2|]. split; [exact B3|]. split.
        -- intros [|j'] y J; [injection J as <-; lra|]. exact (B4 j' y J).
        -- intros [|j'] y J Y; [injection Y as <-; lra|]. apply (B5 j' y ltac:(lia) Y).
    + assert (X : x < best). { apply Qnot_le_lt. intros X. apply Qle_bool_iff in X. congruence. }
      destruct (IH x i (S i)) as (b & B). exists b. intros K.
      destruct (B ltac:(lia)) as [(B1 & B2 & B3)|(j & B1 & B2 & B3 & B4 & B5)]; right.
      * exists O. rewrite B1. split; [lia|]. subst b. split; [reflexivity|]. split; [exact X|]. split.
        -- intros [|j'] y J; [injection J as <-; apply Qle_refl|]. exact (B3 j' y J).
        -- intros j' y J. lia.
      * exists (S j). rewrite B1. split; [lia|]. split; [exact B2|]. split; [lra|]. split.
        -- intros [|j'] y J; [injection J as <-; lra|]. exact (B4 j' y J).
        -- intros [|j'] y J Y; [injection Y as <-; lra|]. apply (B5 j' y ltac:(lia) Y).
Qed.
Lemma argmin_first l : l <> [] -> exists i b, argmin l = Ok i /\ nth_error l i = Some b /\ (forall j x, nth_error l j = Some x -> b <= x) /\
  (forall j x, (j < i)%nat -> nth_error l j = Some x -> b < x).
Proof.
  intros N. destruct l as [|x l]; [congruence|]. unfold argmin. destruct (argmin_from_first l x 0 1) as (b & B). destruct (B ltac:(lia)) as [(B1 & B2 & B3)|(j & B1 & B2 & B3 & B4 & B5)].
  - exists O, b. rewrite B1. split; [reflexivity|]. subst b. split; [reflexivity|]. split.
    + intros [|j] y J; [injection J as <-; apply Qle_refl|]. exact (B3 j y J).
    + intros j y J. lia.
  - exists (S j), b. rewrite B1. split; [reflexivity|]. split; [exact B2|]. split.
    + intros [|j'] y J; [injection J as <-; lra|]. exact (B4 j' y J).
    + intros [|j'] y J Y; [injection Y as <-; lra|]. apply (B5 j' y ltac:(lia) Y).
Qed.

Lemma predict1_ok mu p : mu <> [] -> exists i c e, predict1 D mu p = Ok (i, e) /\ closest D mu p i c /\ e == dist2 D p c.
Proof.
  intros N. destruct (argmin_first (map (sqdist D p) mu)) as (i & b & B1 & B2 & B3 & B4).
  { destruct mu; [congruence|discriminate]. }
  pose proof B2 as C. rewrite nth_error_map in C. destruct (nth_error mu i) as [c|] eqn:E; [|discriminate C]. injection C as C.
  exists i, c, b. unfold predict1. rewrite B1. cbn [bind]. unfold rd. rewrite B2. cbn [bind]. split; [reflexivity|].
  assert (X : forall d, sqdist D p d == dist2 D p d) by (intros; apply sqdist_dist2).
  split; [|rewrite <- C; apply X]. split; [exact E|]. split.
  - intros j d J. rewrite <- !X, C. apply (B3 j). rewrite nth_error_map, J. reflexivity.
  - intros j d L J. rewrite <- !X, C. apply (B4 j); [exact L|]. rewrite nth_error_map, J. reflexivity.
Qed.

Lemma predict_assignment mu x : mu <> [] -> exists index errs, predict D mu x = Ok (index, errs) /\ assignment D mu x index errs.
Proof.
  intros N. unfold predict.
  assert (H : exists r, mapM (predict1 D mu) x = Ok r /\ List.length r = List.length x /\
    forall n p, nth_error x n = Some p -> exists i c e, nth_error r n = Some (i, e) /\ closest D mu p i c /\ e == dist2 D p c).
  { induction x as [|p x IH].
    - exists []. split; [reflexivity|]. split; [reflexivity|]. intros [|n] p P; discriminate P.
    - destruct IH as (r & R1 & R2 & R3). destruct (predict1_ok mu p N) as (i & c & e & P1 & P2 & P3).
      exists ((i, e) :: r). simpl. rewrite P1. cbn [bind]. rewrite R1. cbn [bind]. split; [reflexivity|]. split; [simpl; congruence|].
      intros [|n] q Q; [injection Q as <-; exists i, c, e; split; [reflexivity|]; split; assumption|]. exact (R3 n q Q). }
  destruct H as (r & R1 & R2 & R3). rewrite R1. cbn [bind]. eexists _, _. split; [reflexivity|].
  split; [rewrite map_length; exact R2|]. split; [rewrite map_length; exact R2|].
  intros n p P. destruct (R3 n p P) as (i & c & e & E1 & E2 & E3). exists i, c, e. rewrite !nth_error_map, E1. split; [reflexivity|]. split; [reflexivity|]. split; assumption.
Qed.

(** ** one iteration never increases the total error *)
Lemma class_sum (f : nat -> point -> Q) K x : forall index, List.length index = List.length x -> Forall (fun i => (i < K)%nat) index ->
  qsum (map (fun q => f (fst q) (snd q)) (combine index x)) == qsum (map (fun k => qsum (map (f k) (members_of x index k))) (seq 0 K)).
Proof.
  induction x as [|p x IH]; intros [|i index] L F; try discriminate L.
  - unfold members_of. simpl. rewrite qsum_map_zero. reflexivity.
  - injection L as L. pose proof (Forall_inv F) as I. simpl in I. pose proof (Forall_inv_tail F) as F'. specialize (IH index L F').
    simpl combine. simpl map at 1. change (f i p + qsum (map (fun q => f (fst q) (snd q)) (combine index x)) == qsum (map (fun k => qsum (map (f k) (members_of (p :: x) (i :: index) k))) (seq 0 K))).
    rewrite IH. 
    rewrite (qsum_map_ext (fun k => qsum (map (f k) (members_of (p :: x) (i :: index) k))) (fun k => (if Nat.eqb k i then f i p else 0) + qsum (map (f k) (members_of x index k)))).
    + rewrite qsum_map_add. apply Qplus_comp; [|reflexivity].
      clear - I. assert (H : forall a n, qsum (map (fun k => if Nat.eqb k i then f i p else 0) (seq a n)) == (if ((a <=? i) && (i <? a + n))%nat then f i p else 0)).
      { intros a n. revert a. induction n as [|n IH]; intros a.
        - simpl. destruct (a <=? i)%nat eqn:E, (i <? a + 0)%nat eqn:E2; simpl; try reflexivity. apply Nat.leb_le in E. apply Nat.ltb_lt in E2. lia.
        - simpl seq. simpl map. unfold qsum in *. simpl fold_right. rewrite IH. destruct (Nat.eqb_spec a i) as [->|NE].
          + assert (E1 : ((S i <=? i)%nat = false)) by (apply Nat.leb_gt; lia). assert (E2 : ((i <=? i) && (i <? i + S n))%nat = true). { apply andb_true_intro. split; [apply Nat.leb_le|apply Nat.ltb_lt]; lia. }
            rewrite E1, E2. simpl. lra.
          + assert (E : ((S a <=? i) && (i <? S a + n))%nat = ((a <=? i) && (i <? a + S n))%nat).
            { f_equal; [|f_equal; lia]. destruct (Nat.leb_spec (S a) i), (Nat.leb_spec a i); try reflexivity; lia. }
            rewrite E. lra. }
      rewrite H. assert (E : ((0 <=? i) && (i <? 0 + K))%nat = true). { apply andb_true_intro. split; [apply Nat.leb_le|apply Nat.ltb_lt]; lia. } rewrite E. reflexivity.
    + intros k _. unfold members_of. simpl. destruct (Nat.eqb_spec k i) as [->|NE]; simpl; [unfold qsum; simpl; reflexivity|lra].
Qed.

Lemma mean_best (l : list Q) (c : Q) : l <> [] -> qsum (map (fun v => (v - qmean l) * (v - qmean l)) l) <= qsum (map (fun v => (v - c) * (v - c)) l).
Proof.
  intros N. set (m := qmean l). set (n := inject_Z (Z.of_nat (List.length l))).
  assert (P : 0 < n). { unfold n. destruct l; [congruence|]. unfold Qlt. simpl. lia. }
  assert (S1 : qsum l == n * m). { unfold m, qmean. fold n. field. intros X. rewrite X in P. discriminate P. }
  assert (G : forall a, qsum (map (fun v => (v - a) * (v - a)) l) == qsum (map (fun v => v * v) l) - 2 * a * qsum l + n * a * a).
  { intros a. unfold n. clear. induction l as [|v l IH]; [unfold qsum; cbn [map fold_right List.length]; change (inject_Z (Z.of_nat 0)) with 0; ring|]. unfold qsum in *. simpl map. cbn [fold_right]. rewrite IH. simpl List.length. rewrite Nat2Z.inj_succ, <- Z.add_1_r, inject_Z_plus. change (inject_Z 1) with 1. ring. }
  rewrite !G, S1. clearbody m n. assert (H0 : 0 <= n * ((c - m) * (c - m))) by (generalize (c - m); intros t; apply Qmult_le_0_compat; [lra|nra]). generalize dependent (qsum (map (fun v => v * v) l)). intros q _. lra.
Qed.
Lemma centroid_coord pts j : pts <> [] -> (j < D)%nat -> coord (centroid D pts) j = qmean (map (fun p => coord p j) pts).
Proof.
  intros N J. unfold centroid. destruct pts as [|p pts]; [congruence|]. unfold coord at 1. rewrite nth_indep with (d' := (fun j => qmean (map (fun q => coord q j) (p :: pts))) O); [|rewrite map_length, seq_length; exact J].
  rewrite map_nth with (f := fun j => qmean (map (fun q => coord q j) (p :: pts))). rewrite seq_nth by exact J. reflexivity.
Qed.
Lemma centroid_best pts c : pts <> [] -> qsum (map (fun p => sqdist D p (centroid D pts)) pts) <= qsum (map (fun p => sqdist D p c) pts).
Proof.
  intros N. unfold sqdist. rewrite (qsum_swap (fun p j => (coord p j - coord (centroid D pts) j) * (coord p j - coord (centroid D pts) j))).
  rewrite (qsum_swap (fun p j => (coord p j - coord c j) * (coord p j - coord c j))). apply qsum_map_le. intros j J. apply in_seq in J.
  rewrite centroid_coord by (auto; lia). set (l := map (fun p => coord p j) pts).
  assert (H : forall a, qsum (map (fun p => (coord p j - a) * (coord p j - a)) pts) == qsum (map (fun v => (v - a) * (v - a)) l)).
  { intros a. unfold l. rewrite map_map. reflexivity. }
  rewrite !H. apply mean_best. unfold l. destruct pts; [congruence|discriminate].
Qed.

Lemma nth_error_combine {A B} (a : list A) (b : list B) n x y : nth_error (combine a b) n = Some (x, y) -> nth_error a n = Some x /\ nth_error b n = Some y.
Proof. revert b n. induction a as [|u a IH]; intros [|v b] [|n] H; try discriminate H; [injection H as <- <-; split; reflexivity|exact (IH b n H)]. Qed.

Lemma assignment_bound mu x index errs : assignment D mu x index errs -> Forall (fun i => (i < List.length mu)%nat) index.
Proof.
  intros (L1 & L2 & A). apply Forall_forall. intros i I. destruct (In_nth_error _ _ I) as (n & N).
  assert (X : (n < List.length x)%nat) by (rewrite <- L1; apply nth_error_Some; congruence). destruct (nth_error x n) as [p|] eqn:P; [|apply nth_error_None in P; lia].
  destruct (A n p P) as (i' & c & e & E1 & E2 & (E3 & _) & _). rewrite N in E1. injection E1 as <-. apply nth_error_Some. congruence.
Qed.
Lemma assignment_total mu x index errs : assignment D mu x index errs -> qsum errs == qsum (map (fun q => sqdist D (snd q) (nth (fst q) mu [])) (combine index x)).
Proof.
  revert index errs. induction x as [|p x IH]; intros index errs (L1 & L2 & A).
  - destruct errs; [|discriminate L2]. destruct index; [|discriminate L1]. reflexivity.
  - destruct errs as [|e errs]; [discriminate L2|]. destruct index as [|i index]; [discriminate L1|]. injection L1 as L1. injection L2 as L2.
    unfold qsum in *. simpl. rewrite (IH index errs).
    + destruct (A O p eq_refl) as (i' & c & e' & E1 & E2 & (E3 & _) & E4). injection E1 as <-. injection E2 as <-. rewrite (nth_error_nth mu i [] E3), sqdist_dist2, E4. reflexivity.
    + split; [exact L1|]. split; [exact L2|]. intros n q Q. exact (A (S n) q Q).
Qed.
Lemma assignment_le mu x index errs g : assignment D mu x index errs -> List.length g = List.length x -> Forall (fun i => (i < List.length mu)%nat) g ->
  qsum errs <= qsum (map (fun q => sqdist D (snd q) (nth (fst q) mu [])) (combine g x)).
Proof.
  revert index errs g. induction x as [|p x IH]; intros index errs g (L1 & L2 & A) L F.
  - destruct errs; [|discriminate L2]. destruct g; [|discriminate L]. apply Qle_refl.
  - destruct errs as [|e errs]; [discriminate L2|]. destruct index as [|i index]; [discriminate L1|]. destruct g as [|j g]; [discriminate L|]. injection L1 as L1. injection L2 as L2. injection L as L.
    unfold qsum in *. simpl. apply Qplus_le_compat.
    + destruct (A O p eq_refl) as (i' & c & e' & E1 & E2 & (E3 & E5 & _) & E4). injection E1 as <-. injection E2 as <-. rewrite E4, sqdist_dist2. apply (E5 j). apply nth_error_nth'. exact (Forall_inv F).
    + apply (IH index errs g); [|exact L|exact (Forall_inv_tail F)]. split; [exact L1|]. split; [exact L2|]. intros n q Q. exact (A (S n) q Q).
Qed.

Lemma centroids_nth K x index k : (k < K)%nat -> nth k (compute_centroids D K x index) [] = centroid D (members_of x index k).
Proof.
  intros H. unfold compute_centroids. rewrite nth_indep with (d' := centroid D (members_of x index O)) by (rewrite map_length, seq_length; exact H).
  rewrite map_nth with (f := fun k => centroid D (members_of x index k)), seq_nth by exact H. reflexivity.
Qed.

Lemma descent mu x index errs index' errs' : assignment D mu x index errs -> 
  assignment D (compute_centroids D (List.length mu) x index) x index' errs' -> qsum errs' <= qsum errs.
Proof.
  intros A A'. set (K := List.length mu) in *. pose proof (assignment_bound _ _ _ _ A) as F. fold K in F.
  assert (LI : List.length index = List.length x) by apply A.
  apply Qle_trans with (qsum (map (fun q => sqdist D (snd q) (nth (fst q) (compute_centroids D K x index) [])) (combine index x))).
  - apply (assignment_le _ _ _ _ index A' LI). unfold compute_centroids. rewrite map_length, seq_length. exact F.
  - rewrite (assignment_total _ _ _ _ A).
    rewrite (class_sum (fun i p => sqdist D p (nth i (compute_centroids D K x index) [])) K x index LI F), (class_sum (fun i p => sqdist D p (nth i mu [])) K x index LI F).
    apply qsum_map_le. intros k Hk. apply in_seq in Hk. rewrite centroids_nth by lia. destruct (members_of x index k) as [|q l] eqn:E; [apply Qle_refl|]. rewrite <- E. apply centroid_best. congruence.
Qed.
End KM.

(** ** The whole of fit *)
Section Fit.
Variables (D K : nat) (rtol : Q) (x : list (list Q)).
Hypothesis HK : (0 < K)%nat.
Hypothesis HX : x <> [].

Lemma npos : 0 < inject_Z (Z.of_nat (List.length x)).
Proof. destruct x; [congruence|]. unfold Qlt. simpl. lia. Qed.
Lemma mean_le (a b : list Q) : List.length a = List.length x -> List.length b = List.length x -> qsum a <= qsum b -> qmean a <= qmean b.
Proof. intros A B H. unfold qmean. rewrite A, B. pose proof npos as P. apply Qmult_le_compat_r; [exact H|]. apply Qinv_le_0_compat. lra. Qed.

Lemma errs_nonneg mu index errs : assignment D mu x index errs -> 0 <= qmean errs.
Proof.
  intros A. unfold qmean. apply Qmult_le_0_compat; [|apply Qinv_le_0_compat; destruct errs; unfold Qle; simpl; lia].
  apply qsum_nonneg, Forall_forall. intros e E. destruct (In_nth_error _ _ E) as (n & N). destruct A as (L1 & L2 & A).
  assert (X : (n < List.length x)%nat) by (rewrite <- L2; apply nth_error_Some; congruence). destruct (nth_error x n) as [p|] eqn:P; [|apply nth_error_None in P; lia].
  destruct (A n p P) as (i & c & e' & _ & E2 & _ & E4). rewrite N in E2. injection E2 as <-. rewrite E4, <- sqdist_dist2. apply sqdist_nonneg.
Qed.

Lemma small_converged a b : 0 <= a -> b <= a -> converged rtol a b = true <-> small_step rtol a b.
Proof.
  intros A B. unfold converged, small_step. destruct (Qeq_bool a 0) eqn:E.
  - apply Qeq_bool_iff in E. split; [discriminate|]. intros (X & _). rewrite E in X. discriminate X.
  - assert (P : 0 < a). { apply Qle_lt_or_eq in A. destruct A as [A|A]; [exact A|]. symmetry in A. apply Qeq_bool_iff in A. congruence. }
    assert (E2 : Qabs (a - b) == a - b) by (apply Qabs_pos; lra).
    assert (E3 : Qle_bool rtol (Qabs (a - b) / a) = true <-> rtol * a <= a - b).
    { rewrite Qle_bool_iff, E2. split; intros H.
      - apply Qmult_le_compat_r with (z := a) in H; [|lra]. setoid_replace ((a - b) / a * a) with (a - b) in H by (field; intros Z0; rewrite Z0 in P; discriminate P). exact H.
      - apply Qle_shift_div_l; assumption. }
    destruct (Qle_bool rtol (Qabs (a - b) / a)) eqn:G; simpl.
    + split; [discriminate|]. intros (_ & X). pose proof (proj1 E3 eq_refl). lra.
    + split; [|reflexivity]. intros _. split; [exact P|]. apply Qnot_le_lt. intros X. apply E3 in X. discriminate X.
Qed.

Definition good (prev : option Q) (losses : list Q) : Prop :=
  Forall (fun l => 0 <= l) losses /\
  (forall a b l1 l2, (match prev with Some p => [p] | None => [] end ++ losses)%list = (l1 ++ a :: b :: l2)%list -> b <= a /\ (small_step rtol a b -> l2 = [])).

Lemma seeds_ok : forall n mu, exists more, more_seeds D x n mu = Ok (mu ++ more) /\ List.length more = n /\ Forall (fun p => In p x) more.
Proof.
  induction n as [|n IH]; intros mu.
  - exists []. rewrite app_nil_r. split; [reflexivity|]. split; [reflexivity|constructor].
  - simpl. set (d := map (fun p => qsum (map (sqdist D p) mu)) x). destruct (argmin_ok (map Qopp d)) as (i & b & B1 & B2 & _).
    { unfold d. destruct x; [congruence|discriminate]. }
    unfold argmax. rewrite B1. cbn [bind]. unfold d in B2. rewrite map_map, nth_error_map in B2. unfold rd. destruct (nth_error x i) as [p|] eqn:P; [|discriminate B2]. cbn [bind].
    destruct (IH (mu ++ [p])) as (more & M1 & M2 & M3). exists (p :: more). rewrite M1, <- app_assoc. split; [reflexivity|]. split; [simpl; congruence|]. constructor; [exact (nth_error_In _ _ P)|exact M3].
Qed.
Lemma choose_ok : exists mu, choose_seeds D K x = Ok mu /\ List.length mu = K /\ Forall (fun p => In p x) mu.
Proof.
  unfold choose_seeds. destruct K as [|n]; [lia|]. assert (E : exists p, nth_error x 0 = Some p) by (destruct x as [|p l]; [congruence|exists p; reflexivity]). destruct E as (p & E). unfold rd. rewrite E. cbn [bind].
  destruct (seeds_ok n [p]) as (more & M1 & M2 & M3). exists ([p] ++ more)%list. split; [exact M1|]. split; [simpl; congruence|]. constructor; [exact (nth_error_In _ _ E)|exact M3].
Qed.

Lemma loop_ok : forall n prev mu index errs, List.length mu = K -> assignment D mu x index errs ->
  (match prev with Some p => p == qmean errs | None => True end) ->
  exists losses index' mu' errs', epochs_loop D K rtol x n prev mu index = Ok (losses, index', mu') /\
    List.length mu' = K /\ assignment D mu' x index' errs' /\ (List.length losses <= n)%nat /\ good prev losses /\
    (n = O -> errs' = errs) /\
    (n <> O -> exists l v, losses = l ++ [v] /\ v == qmean errs' /\ exists index0, mu' = compute_centroids D K x index0 /\ Forall (fun i => (i < K)%nat) index0) /\
    ((List.length losses < n)%nat -> exists l1 a b, (match prev with Some p => [p] | None => [] end ++ losses)%list = (l1 ++ [a; b])%list /\ small_step rtol a b).
Proof.
  induction n as [|n IH]; intros prev mu index errs L A P.
  - exists [], index, mu, errs. split; [reflexivity|]. split; [exact L|]. split; [exact A|]. split; [simpl; lia|]. split; [|split; [reflexivity|split; [congruence|simpl; lia]]].
    split; [constructor|]. intros a b l1 l2 E. destruct prev; destruct l1 as [|? [|? l1]]; discriminate E.
  - cbn [epochs_loop]. set (mu1 := compute_centroids D K x index).
    assert (L1 : List.length mu1 = K) by (unfold mu1, compute_centroids; rewrite map_length, seq_length; reflexivity).
    destruct (predict_assignment D mu1 x) as (index1 & errs1 & P1 & A1). { intros Z0. rewrite Z0 in L1. simpl in L1. lia. }
    rewrite P1. cbn [bind].
    assert (DS : qmean errs1 <= qmean errs).
    { apply mean_le; [apply A1|apply A|]. apply (descent D mu x index errs index1 errs1 A). rewrite L. exact A1. }
    pose proof (errs_nonneg _ _ _ A1) as NN1. pose proof (errs_nonneg _ _ _ A) as NN.
    assert (FI : Forall (fun i => (i < K)%nat) index) by (rewrite <- L; exact (assignment_bound D _ _ _ _ A)).
    destruct (match prev with None => false | Some p => converged rtol p (qmean errs1) end) eqn:C.
    + destruct prev as [p|]; [|discriminate C]. exists [qmean errs1], index1, mu1, errs1. split; [reflexivity|]. split; [exact L1|]. split; [exact A1|].
      apply small_converged in C; [|rewrite P; exact NN|rewrite P; exact DS].
      split; [simpl; lia|]. split; [|split; [discriminate|split]].
      * split; [constructor; [exact NN1|constructor]|]. intros a b l1 l2 E. destruct l1 as [|? [|? l1]]; simpl in E; [injection E as <- <- <-|discriminate E|destruct l1; discriminate E].
        split; [rewrite P; exact DS|reflexivity].
      * intros _. exists [], (qmean errs1). split; [reflexivity|]. split; [reflexivity|]. exists index. split; [reflexivity|exact FI].
      * intros _. exists [], p, (qmean errs1). split; [reflexivity|exact C].
    + destruct (IH (Some (qmean errs1)) mu1 index1 errs1 L1 A1 ltac:(reflexivity)) as (losses & index' & mu' & errs' & E1 & E2 & E3 & E4 & (E5 & E6) & E0 & E7 & E8).
      rewrite E1. cbn [bind]. exists (qmean errs1 :: losses), index', mu', errs'. split; [reflexivity|]. split; [exact E2|]. split; [exact E3|]. split; [simpl; lia|]. split; [|split; [discriminate|split]].
      * split; [constructor; [exact NN1|exact E5]|]. intros a b l1 l2 E. destruct prev as [p|].
        -- destruct l1 as [|c l1]; simpl in E.
           ++ injection E as <- <- <-. split; [rewrite P; exact DS|]. intros SM. apply small_converged in SM; [congruence|rewrite P; exact NN|rewrite P; exact DS].
           ++ injection E as <- E. apply (E6 a b l1 l2). exact E.
        -- apply (E6 a b l1 l2). exact E.
      * intros _. destruct n as [|n].
        -- simpl in E1. injection E1 as <- <- <-. exists [], (qmean errs1). split; [reflexivity|]. split; [rewrite (E0 eq_refl); reflexivity|]. exists index. split; [reflexivity|exact FI].
        -- destruct (E7 ltac:(discriminate)) as (l & v & Q1 & Q2). exists (qmean errs1 :: l), v. split; [rewrite Q1; reflexivity|exact Q2].
      * intros LT. destruct (E8 ltac:(simpl in LT; lia)) as (l1 & a & b & Q1 & Q2). destruct prev as [p|].
        -- exists (p :: l1), a, b. simpl in Q1 |- *. rewrite Q1. split; [reflexivity|exact Q2].
        -- exists l1, a, b. split; [exact Q1|exact Q2].
Qed.
End Fit.

(** ** Theorems *)
(** predict gives every row the number of its closest centroid (the first one in a tie) and its squared distance. *)
Theorem C62_predict_closest D mu x : mu <> [] ->
  exists index errs, predict D mu x = Ok (index, errs) /\ assignment D mu x index errs.
Proof. apply predict_assignment. Qed.
Example C62_predict_witness : predict 2 [[0; 0]; [4; 0]] [[1; 1]; [3; 0]; [2; 5]] = Ok ([0; 1; 0]%nat, [2; 1; 29]).
Proof. vm_compute. reflexivity. Qed.

(** fit, for any data with at least one row, any number of clusters above zero and any number of epochs: it returns; the assignment
    belongs to the final centroids; the losses are the non-negative average squared errors, never increase (even when clusters become
    empty), the last one is that of the returned model; when there are fewer losses than epochs the last relative improvement was
    below rtol and it was the first such one. *)
Theorem C62_fit D K rtol x epochs : (0 < K)%nat -> x <> [] ->
  exists losses index mu errs, fit D K rtol x epochs = Ok (losses, index, mu) /\ List.length mu = K /\ assignment D mu x index errs /\
    (List.length losses <= epochs)%nat /\ Forall (fun l => 0 <= l) losses /\
    (forall l1 a b l2, losses = l1 ++ a :: b :: l2 -> b <= a /\ (small_step rtol a b -> l2 = [])) /\
    (epochs <> O -> exists l v, losses = l ++ [v] /\ v == average errs) /\
    ((List.length losses < epochs)%nat -> exists l a b, losses = l ++ [a; b] /\ small_step rtol a b).
Proof.
  intros HK HX. destruct (choose_ok D K x HK HX) as (mu0 & M1 & M2 & _). unfold fit. rewrite M1. cbn [bind].
  destruct (predict_assignment D mu0 x) as (index0 & errs0 & P & A). { intros E. rewrite E in M2. simpl in M2. lia. }
  rewrite P. cbn [bind].
  destruct (loop_ok D K rtol x HK HX epochs None mu0 index0 errs0 M2 A I) as (losses & index & mu & errs & E1 & E2 & E3 & E4 & (E5 & E6) & _ & E7 & E8).
  exists losses, index, mu, errs. split; [exact E1|]. split; [exact E2|]. split; [exact E3|]. split; [exact E4|]. split; [exact E5|]. split; [|split].
  - intros l1 a b l2 H. exact (E6 a b l1 l2 H).
  - intros N. destruct (E7 N) as (l & v & V1 & V2 & _). exists l, v. split; [exact V1|exact V2].
  - exact E8.
Qed.

(** the losses can only go down from the error of the seeds, and every centroid returned after at least one epoch is the mean of a
    group of rows or, for an empty group, the origin *)
Theorem C62_centroids D K rtol x epochs losses index mu : (0 < K)%nat -> x <> [] -> epochs <> O ->
  fit D K rtol x epochs = Ok (losses, index, mu) ->
  exists groups : list nat, forall k c, nth_error mu k = Some c ->
    let pts := map snd (filter (fun q => Nat.eqb k (fst q)) (combine groups x)) in
    (pts = [] -> c = repeat 0 D) /\
    (pts <> [] -> forall j, (j < D)%nat -> nth j c 0 == average (map (fun p => nth j p 0) pts)).
Proof.
  intros HK HX HE F. destruct (choose_ok D K x HK HX) as (mu0 & M1 & M2 & _). unfold fit in F. rewrite M1 in F. cbn [bind] in F.
  destruct (predict_assignment D mu0 x) as (index0 & errs0 & P & A). { intros E. rewrite E in M2. simpl in M2. lia. }
  rewrite P in F. cbn [bind] in F.
  destruct (loop_ok D K rtol x HK HX epochs None mu0 index0 errs0 M2 A I) as (losses' & index' & mu' & errs & E1 & _ & _ & _ & _ & _ & E7 & _).
  rewrite E1 in F. injection F as -> -> ->. destruct (E7 HE) as (_ & _ & _ & _ & g & G & _). exists g. intros k c C pts.
  assert (EP : members_of x g k = pts).
  { unfold pts, members_of. clear. revert g. induction x as [|p x IH]; intros [|i g]; try reflexivity.
    - simpl. destruct (Nat.eqb k i); simpl; rewrite IH; reflexivity. }
  rewrite G in C. unfold compute_centroids in C. rewrite nth_error_map in C. destruct (nth_error (seq 0 K) k) as [k'|] eqn:S0; [|discriminate C]. injection C as <-.
  assert (k' = k). { pose proof (nth_error_nth _ _ 0%nat S0) as S1. rewrite seq_nth in S1; [simpl in S1; congruence|]. rewrite <- (seq_length K 0). apply nth_error_Some. congruence. }
  subst k'. rewrite EP. split.
  - intros ->. reflexivity.
  - intros N j J. pose proof (centroid_coord D pts j N J) as CC. unfold coord in CC. rewrite CC. reflexivity.
Qed.
Definition demo_x : list (list Q) := [[0; 0]; [10; 0]; [0; 1]; [11; 1]; [1; 1]].
Example C62_fit_witness : match fit 2 2 (1 # 1000) demo_x 100 with
  | Ok (l, i, mu) => map Qred l = [7 # 15; 7 # 15] /\ i = [0; 1; 0; 1; 0]%nat /\ map (map Qred) mu = [[1 # 3; 2 # 3]; [21 # 2; 1 # 2]]
  | Err _ => False
  end.
Proof. vm_compute. repeat split. Qed.

(** The seeds need not be different and clusters can be left empty although there are enough different points: with three
    different points and three clusters, the third seed repeats the first one, the third cluster is empty and its centroid is the
    origin, which is not a data point. *)
Theorem C62_clusters_nonempty_refuted : exists x K losses index mu, NoDup x /\ List.length x = K /\
  fit 1 K (1 # 1000) x 10 = Ok (losses, index, mu) /\ ~ In 2%nat index /\ nth_error mu 2 = Some [0] /\ ~ In [0] x /\
  exists s, choose_seeds 1 K x = Ok s /\ ~ NoDup s.
Proof.
  exists [[5]; [6]; [15]], 3%nat. destruct (fit 1 3 (1 # 1000) [[5]; [6]; [15]] 10) as [[[l i] mu]|e] eqn:E; vm_compute in E; [|discriminate E].
  exists l, i, mu. injection E as <- <- <-. split; [repeat constructor; simpl; intuition discriminate|]. split; [reflexivity|]. split; [reflexivity|].
  split; [simpl; intuition discriminate|]. split; [reflexivity|]. split; [simpl; intuition discriminate|].
  eexists. split; [vm_compute; reflexivity|]. intros N. inversion N as [|? ? H _]. apply H. simpl. auto.
Qed.

(** When the loss reaches zero the convergence test divides zero by zero and never succeeds: all the epochs are run. *)
Theorem C62_zero_loss_runs_on D K rtol x epochs losses index mu l1 z l2 : (0 < K)%nat -> x <> [] ->
  fit D K rtol x epochs = Ok (losses, index, mu) -> losses = l1 ++ z :: l2 -> z == 0 -> l2 <> [] -> List.length losses = epochs.
Proof.
  intros HK HX F L ZZ N2. destruct (C62_fit D K rtol x epochs HK HX) as (losses' & index' & mu' & errs & E1 & _ & _ & E2 & E3 & E4 & _ & E5).
  rewrite F in E1. injection E1 as <- <- <-. destruct (Nat.lt_ge_cases (List.length losses) epochs) as [LT|GE]; [|lia]. exfalso.
  destruct (E5 LT) as (l & a & b & Q & (S1 & S2)). subst losses.
  assert (G : forall l2 z l1, z == 0 -> (forall l1' a b l2', (l1 ++ z :: l2 = l1' ++ a :: b :: l2')%list -> b <= a) -> Forall (fun q => 0 <= q) (l1 ++ z :: l2) -> Forall (fun q => q == 0) l2).
  { clear. induction l2 as [|q l2 IH]; intros z l1 Z H F; constructor.
    - pose proof (H l1 z q l2 eq_refl). apply Forall_app in F. destruct F as (_ & F). apply Forall_inv_tail, Forall_inv in F. lra.
    - assert (Q0 : q == 0). { pose proof (H l1 z q l2 eq_refl). apply Forall_app in F. destruct F as (_ & F). apply Forall_inv_tail, Forall_inv in F. lra. }
      apply (IH q (l1 ++ [z])%list Q0); rewrite <- app_assoc; simpl; assumption. }
  assert (Z1 : Forall (fun q => q == 0) l2). { apply (G l2 z l1 ZZ); [|exact E3]. intros l1' a' b' l2' H. exact (proj1 (E4 l1' a' b' l2' H)). }
  destruct (exists_last N2) as (l3 & y & ->). rewrite app_comm_cons, app_assoc in Q. change [a; b] with ([a] ++ [b])%list in Q. rewrite app_assoc in Q. apply app_inj_tail in Q. destruct Q as (Q & _).
  assert (A0 : a == 0).
  { destruct l3 as [|w l3] using rev_ind.
    - change (l1 ++ [z] = l ++ [a])%list in Q. apply app_inj_tail in Q. destruct Q as (_ & <-). exact ZZ.
    - rewrite app_comm_cons, app_assoc in Q. apply app_inj_tail in Q. destruct Q as (_ & <-). apply Forall_app in Z1. destruct Z1 as (Z1 & _). apply Forall_app in Z1. destruct Z1 as (_ & Z1). exact (Forall_inv Z1). }
  rewrite A0 in S1. discriminate S1.
Qed.
Example C62_zero_loss_witness : match fit 1 2 (1 # 1000) [[1]; [3]] 4 with Ok (l, _, _) => map Qred l = [0; 0; 0; 0] | Err _ => False end.
Proof. vm_compute. reflexivity. Qed.
Print Assumptions C62_predict_closest. Print Assumptions C62_fit. Print Assumptions C62_centroids. Print Assumptions C62_clusters_nonempty_refuted. Print Assumptions C62_zero_loss_runs_on.
