(** C64: confusion matrices (hyperion/metrics/confusion_matrix.py). *)
From Coq Require Import QArith Lqa Lia ZArith.
From Verif Require Import Base BaseFacts Confusion.
Open Scope list_scope.

(** ** Specification: total weight of the samples with true label [a] and predicted label [b] *)
Fixpoint tally {L} `{Ord L} (a b : L) (yt yp : list L) (w : list Q) : Q :=
  match yt, yp, w with
  | x :: yt, y :: yp, q :: w => if eqb x a && eqb y b then (q + tally a b yt yp w)%Q else tally a b yt yp w
  | _, _, _ => 0%Q
  end.
Definition cell {A} (C : list (list A)) (i j : nat) : option A := match nth_error C i with Some r => nth_error r j | None => None end.
Definition total (l : list Q) : Q := fold_right Qplus 0%Q l.
Definition weight_list (n : nat) (w : option (list Q)) : list Q := match w with Some w => w | None => repeat 1%Q n end.

Section Sk.
Context {L : Type} `{OL : Ord L}.
Lemma label_number_ok (labels : list L) i a y : NoDup labels -> nth_error labels i = Some a -> is_num (label_number labels y) i = eqb y a.
Proof.
  intros N E. unfold label_number. destruct (index_of y (rev labels)) as [k|] eqn:X.
  - apply index_of_some in X. destruct X as (X & _). assert (LK : (k < List.length labels)%nat). { rewrite <- rev_length. apply nth_error_Some. congruence. }
    assert (Y : nth_error labels (List.length labels - 1 - k) = Some y).
    { rewrite <- X. replace (List.length labels - 1 - k)%nat with (List.length labels - S k)%nat by lia. clear - LK.
      rewrite <- (rev_involutive labels) at 1. rewrite <- (rev_length labels). set (r := rev labels). assert (Q : (k < List.length r)%nat) by (unfold r; rewrite rev_length; exact LK). clearbody r. clear - Q.
      destruct (nth_error r k) as [v|] eqn:E; [|apply nth_error_None in E; lia].
      rewrite (nth_error_nth' (rev r) v) by (rewrite rev_length; lia). rewrite rev_nth by lia. replace (List.length r - S (List.length r - S k))%nat with k by lia. f_equal. apply nth_error_nth with (d := v) in E. exact E. }
    simpl. destruct (Nat.eqb_spec i (List.length labels - 1 - k)) as [->|NE].
    + rewrite Y in E. injection E as <-. symmetry. apply eqb_eq. reflexivity.
    + destruct (eqb_spec y a) as [->|D]; [|reflexivity]. exfalso. apply NE. rewrite NoDup_nth_error in N. apply N; [apply nth_error_Some; congruence|congruence].
  - simpl. apply index_of_none in X. destruct (eqb_spec y a) as [->|D]; [|reflexivity]. exfalso. apply X. rewrite <- in_rev. exact (nth_error_In _ _ E).
Qed.
Lemma sk_cell_tally (labels : list L) i j a b : NoDup labels -> nth_error labels i = Some a -> nth_error labels j = Some b ->
  forall yt yp w, List.length yt = List.length yp -> List.length yt = List.length w -> (sk_cell labels yt yp w i j == tally a b yt yp w)%Q.
Proof.
  intros N A B. unfold sk_cell. induction yt as [|x yt IH]; intros [|y yp] [|q w] L1 L2; try discriminate L1; try discriminate L2; [reflexivity|].
  injection L1 as L1. injection L2 as L2. simpl. rewrite (label_number_ok labels i a x N A), (label_number_ok labels j b y N B).
  destruct (eqb x a && eqb y b); simpl; rewrite (IH yp w L1 L2); reflexivity.
Qed.

Lemma sk_ok (yt yp labels : list L) w : List.length yt = List.length yp -> List.length yt = List.length (weight_list (List.length yt) w) ->
  (exists l, In l labels /\ In l yt) ->
  sk_confusion yt yp labels w = Ok (map (fun i => map (sk_cell labels yt yp (weight_list (List.length yt) w) i) (seq 0 (List.length labels))) (seq 0 (List.length labels))).
Proof.
  intros L1 L2 (l & I1 & I2). unfold sk_confusion. change (weights (List.length yt) w) with (weight_list (List.length yt) w).
  rewrite <- L1, <- L2, Nat.eqb_refl. simpl. assert (E : existsb (fun l => inb l yt) labels = true). { apply existsb_exists. exists l. split; [exact I1|]. apply inb_iff. exact I2. }
  rewrite E. reflexivity.
Qed.
Lemma cell_map {A} (f : nat -> nat -> A) n m i j : (i < n)%nat -> (j < m)%nat -> cell (map (fun i => map (f i) (seq 0 m)) (seq 0 n)) i j = Some (f i j).
Proof.
  intros I J. unfold cell. rewrite nth_error_map, (nth_error_nth' (seq 0 n) 0%nat) by (rewrite seq_length; exact I). rewrite seq_nth by exact I. simpl.
  rewrite nth_error_map, (nth_error_nth' (seq 0 m) 0%nat) by (rewrite seq_length; exact J). rewrite seq_nth by exact J. reflexivity.
Qed.

(** ** Counts *)
(** with a list of different labels, one of which occurs among the true labels *)
Theorem C64_counts (yt yp labels : list L) w : NoDup labels -> List.length yt = List.length yp ->
  List.length yt = List.length (weight_list (List.length yt) w) -> (exists l, In l labels /\ In l yt) ->
  exists C, compute_confusion_matrix yt yp (Some labels) false w = Ok C /\ List.length C = List.length labels /\
    forall i j a b, nth_error labels i = Some a -> nth_error labels j = Some b ->
      exists v, cell C i j = Some (Some v) /\ (v == tally a b yt yp (weight_list (List.length yt) w))%Q.
Proof.
  intros N L1 L2 E. unfold compute_confusion_matrix. rewrite (sk_ok yt yp labels w L1 L2 E). cbn [bind]. eexists. split; [reflexivity|]. split.
  - unfold finish. rewrite !map_length, seq_length. reflexivity.
  - intros i j a b A B. exists (sk_cell labels yt yp (weight_list (List.length yt) w) i j). split.
    + unfold finish. rewrite map_map. rewrite (map_ext _ (fun i => map (fun j => Some (sk_cell labels yt yp (weight_list (List.length yt) w) i j)) (seq 0 (List.length labels)))) by (intros; apply map_map).
      apply cell_map with (f := fun i j => Some (sk_cell labels yt yp (weight_list (List.length yt) w) i j)); apply nth_error_Some; congruence.
    + apply sk_cell_tally; assumption.
Qed.

(** ** Nothing is lost when no label list is given *)
Lemma tally_row (ls : list L) (x y : L) q : NoDup ls -> In y ls -> (total (map (fun b => if eqb x x && eqb y b then q else 0) ls) == q)%Q.
Proof.
  unfold total. induction ls as [|b ls IH]; intros N I; [destruct I|]. inversion N as [|? ? N1 N2]; subst. simpl. rewrite (proj2 (eqb_eq x x) eq_refl) in *. simpl in *.
  destruct (eqb_spec y b) as [->|D].
  - assert (Z0 : (fold_right Qplus 0 (map (fun b0 : L => if eqb b b0 then q else 0) ls) == 0)%Q).
    { clear - N1. induction ls as [|c ls IH]; [reflexivity|]. simpl. destruct (eqb_spec b c) as [->|D]; [exfalso; apply N1; left; reflexivity|]. rewrite IH; [lra|]. intros X. apply N1. right. exact X. }
    rewrite Z0. lra.
  - destruct I as [->|I]; [congruence|]. rewrite (IH N2 I). lra.
Qed.
Lemma total_app a b : (total (a ++ b) == total a + total b)%Q.
Proof. unfold total. induction a as [|x a IH]; simpl; [lra|]. rewrite IH. lra. Qed.
Lemma total_add {A} (f g : A -> Q) l : (total (map (fun x => f x + g x) l) == total (map f l) + total (map g l))%Q.
Proof. unfold total. induction l as [|x l IH]; simpl; [lra|]. rewrite IH. lra. Qed.
Lemma total_ext {A} (f g : A -> Q) l : (forall x, In x l -> f x == g x)%Q -> (total (map f l) == total (map g l))%Q.
Proof. unfold total. induction l as [|x l IH]; intros E; [reflexivity|]. simpl. rewrite (E x (or_introl eq_refl)), IH; [reflexivity|]. intros y Y. apply E. right. exact Y. Qed.
Lemma total_zero {A} (l : list A) : (total (map (fun _ => 0) l) == 0)%Q.
Proof. unfold total. induction l as [|x l IH]; simpl; [reflexivity|]. rewrite IH. lra. Qed.
Lemma tally_total (ls : list L) : NoDup ls -> forall yt yp w, List.length yt = List.length yp -> List.length yt = List.length w ->
  (forall y, In y yt -> In y ls) -> (forall y, In y yp -> In y ls) ->
  (total (map (fun a => total (map (fun b => tally a b yt yp w) ls)) ls) == total w)%Q.
Proof.
  intros N. induction yt as [|x yt IH]; intros [|y yp] [|q w] L1 L2 I1 I2; try discriminate L1; try discriminate L2.
  - simpl. rewrite (total_ext _ (fun _ => 0%Q)) by (intros; apply total_zero). apply total_zero.
  - injection L1 as L1. injection L2 as L2. change (total (q :: w)) with (q + total w)%Q.
    rewrite (total_ext _ (fun a => total (map (fun b => if eqb x a && eqb y b then q else 0) ls) + total (map (fun b => tally a b yt yp w) ls))%Q).
    2:{ intros a _. rewrite <- total_add. apply total_ext. intros b _. simpl. destruct (eqb x a && eqb y b); lra. }
    rewrite total_add, (IH yp w L1 L2); [|intros z Z0; apply I1; right; exact Z0|intros z Z0; apply I2; right; exact Z0]. apply Qplus_comp; [|reflexivity].
    assert (IX : In x ls) by (apply I1; left; reflexivity). assert (IY : In y ls) by (apply I2; left; reflexivity).
    rewrite (total_ext _ (fun a => if eqb x x && eqb x a then q else 0)%Q).
    + apply tally_row; assumption.
    + intros a _. rewrite (proj2 (eqb_eq x x) eq_refl). simpl. destruct (eqb_spec x a) as [->|D]; simpl; [|apply total_zero].
      rewrite (total_ext _ (fun b => if eqb a a && eqb y b then q else 0)%Q); [apply tally_row; assumption|]. intros b _. rewrite (proj2 (eqb_eq a a) eq_refl). reflexivity.
Qed.
Theorem C64_all_labels (yt yp : list L) w : yt <> [] -> List.length yt = List.length yp -> List.length yt = List.length (weight_list (List.length yt) w) ->
  exists labels C, compute_confusion_matrix yt yp None false w = Ok C /\ compute_confusion_matrix yt yp (Some labels) false w = Ok C /\
    NoDup labels /\ (forall y, In y labels <-> In y yt \/ In y yp) /\
    exists D, C = map (map Some) D /\ (total (map total D) == total (weight_list (List.length yt) w))%Q.
Proof.
  intros NE L1 L2. exists (unique (yt ++ yp)). set (labels := unique (yt ++ yp)).
  assert (N : NoDup labels) by apply unique_nodup.
  assert (IN : forall y, In y labels <-> In y yt \/ In y yp).
  { intros y. rewrite <- in_app_iff. split; [apply (proj1 (unique_in _ _))|apply (proj2 (unique_in _ _))]. }
  assert (E : exists l, In l labels /\ In l yt). { destruct yt as [|x yt]; [congruence|]. exists x. split; [apply IN; left; left; reflexivity|left; reflexivity]. }
  unfold compute_confusion_matrix. fold labels. rewrite (sk_ok yt yp labels w L1 L2 E). cbn [bind]. eexists. split; [reflexivity|]. split; [reflexivity|]. split; [exact N|]. split; [exact IN|].
  eexists. split; [reflexivity|]. rewrite map_map. set (W := weight_list (List.length yt) w) in *.
  rewrite <- (tally_total labels N yt yp W L1 L2); [|intros y Y; apply IN; tauto|intros y Y; apply IN; tauto].
  assert (G : forall (f : nat -> Q) (g : L -> Q), (forall i a, nth_error labels i = Some a -> f i == g a)%Q -> (total (map f (seq 0 (List.length labels))) == total (map g labels))%Q).
  { clearbody labels. clear. intros f g. revert f. induction labels as [|a l IH]; intros f F; [reflexivity|]. simpl seq. simpl map. change (f 0%nat + total (map f (seq 1 (List.length l))) == g a + total (map g l))%Q.
    rewrite <- seq_shift, map_map. rewrite (IH (fun i => f (S i))); [|intros i b B; apply F; exact B]. rewrite (F 0%nat a eq_refl). reflexivity. }
  apply G. intros i a A. apply G. intros j b B. apply sk_cell_tally; assumption.
Qed.

(** ** Normalised rows *)
Theorem C64_normalized (yt yp labels : list L) w C i r : compute_confusion_matrix yt yp (Some labels) false w = Ok C -> nth_error C i = Some r ->
  exists r0 C' r', r = map Some r0 /\ compute_confusion_matrix yt yp (Some labels) true w = Ok C' /\ nth_error C' i = Some r' /\
    ((total r0 == 0)%Q -> r' = map (fun _ => None) r0) /\
    (~ (total r0 == 0)%Q -> r' = map (fun c => Some (c / total r0)%Q) r0 /\ (total (map (fun c => c / total r0)%Q r0) == 1)%Q).
Proof.
  unfold compute_confusion_matrix. destruct (sk_confusion yt yp labels w) as [D|e]; [|discriminate]. cbn [bind]. intros E R. injection E as <-. unfold finish in R. rewrite nth_error_map in R.
  destruct (nth_error D i) as [r0|] eqn:DI; [|discriminate R]. injection R as <-. exists r0. eexists _, _. split; [reflexivity|]. split; [reflexivity|]. unfold finish. rewrite nth_error_map, DI.
  split; [reflexivity|]. unfold normalize_row. fold (total r0). split.
  - intros Z0. apply Qeq_bool_iff in Z0. rewrite Z0. reflexivity.
  - intros NZ. destruct (Qeq_bool (total r0) 0) eqn:B; [apply Qeq_bool_iff in B; contradiction|]. split; [reflexivity|].
    assert (S : forall s l, (total (map (fun c => c / s) l) == total l / s)%Q). { intros s l. unfold total, Qdiv. induction l as [|x l IH]; simpl; [ring|]. rewrite IH. ring. }
    rewrite S. field. exact NZ.
Qed.
End Sk.
Example C64_counts_witness : match compute_confusion_matrix [1; 2; 2; 3]%Z [1; 2; 1; 1]%Z None false None with
  Ok C => C = [[Some 1; Some 0; Some 0]; [Some 1; Some 1; Some 0]; [Some 1; Some 0; Some 0]]%Q | Err _ => False end.
Proof. vm_compute. reflexivity. Qed.

(** ** Different label sets for training and test *)
Definition xlabel_sets (yt yp : arg) (ltr lte : option arg) : list Z * list Z :=
  (match ltr with None => unique (arg_val yp) | Some l => arg_val l end, match lte with None => unique (arg_val yt) | Some l => arg_val l end).
Lemma seq_shift_add k : forall n, seq (0 + k) n = map (fun j => (k + j)%nat) (seq 0 n).
Proof. intros n. simpl. revert k. induction n as [|n IH]; intros k; [reflexivity|]. simpl. rewrite Nat.add_0_r. f_equal. rewrite (IH (S k)), <- (seq_shift n 0), map_map. apply map_ext. intros; lia. Qed.
Lemma tally_shift d a b : forall yt yp w, tally a (b + d)%Z yt (map (fun y => (y + d)%Z) yp) w = tally a b yt yp w.
Proof.
  induction yt as [|x yt IH]; intros [|y yp] [|q w]; try reflexivity. simpl. rewrite IH.
  assert (E : eqb (y + d)%Z (b + d)%Z = eqb y b). { destruct (eqb_spec (y + d)%Z (b + d)%Z), (eqb_spec y b); try reflexivity; lia. } simpl in E. rewrite E. reflexivity.
Qed.
(** entry (i, j) counts the samples of test label i predicted as training label j, provided the test labels are below their number
    (0, 1, 2, ...) and the training labels are not negative *)
Theorem C64_xlabel yt yp ltr lte w : let train := fst (xlabel_sets yt yp ltr lte) in let test := snd (xlabel_sets yt yp ltr lte) in
  NoDup train -> NoDup test -> (forall t, In t test -> t < Z.of_nat (List.length test))%Z -> (forall t, In t train -> 0 <= t)%Z ->
  List.length (arg_val yt) = List.length (arg_val yp) -> List.length (arg_val yt) = List.length (weight_list (List.length (arg_val yt)) w) ->
  (exists l, In l test /\ In l (arg_val yt)) ->
  exists C yp' ltr', xlabel_int yt yp ltr lte false w = Ok (C, yp', ltr') /\ List.length C = List.length test /\
    forall i j a b, nth_error test i = Some a -> nth_error train j = Some b ->
      exists v, cell C i j = Some (Some v) /\ (v == tally a b (arg_val yt) (arg_val yp) (weight_list (List.length (arg_val yt)) w))%Q.
Proof.
  intros train test N1 N2 B1 B2 L1 L2 (l & I1 & I2). unfold xlabel_int.
  change (match ltr with None => unique (arg_val yp) | Some l0 => arg_val l0 end) with train. change (match lte with None => unique (arg_val yt) | Some l0 => arg_val l0 end) with test.
  clearbody train test. set (nt := List.length test) in *. set (f := fun y => (y + Z.of_nat nt)%Z) in *. set (W := weight_list (List.length (arg_val yt)) w) in *.
  rewrite (sk_ok (arg_val yt) (map f (arg_val yp)) (test ++ map f train) w); [|rewrite map_length; exact L1|exact L2|exists l; split; [apply in_app_iff; left; exact I1|exact I2]].
  cbn [bind]. fold W. set (labels := (test ++ map f train)%list). eexists _, _, _. split; [reflexivity|].
  assert (LL : List.length labels = (nt + List.length train)%nat) by (unfold labels; rewrite app_length, map_length; reflexivity).
  assert (EQ : firstn nt (map (fun i => map (sk_cell labels (arg_val yt) (map f (arg_val yp)) W i) (seq 0 (List.length labels))) (seq 0 (List.length labels))) =
               map (fun i => map (sk_cell labels (arg_val yt) (map f (arg_val yp)) W i) (seq 0 (List.length labels))) (seq 0 nt)).
  { rewrite firstn_map. f_equal. rewrite LL, seq_app, firstn_app, seq_length, Nat.sub_diag, firstn_O, app_nil_r. apply firstn_all2. rewrite seq_length. lia. }
  assert (EQ2 : forall i, skipn nt (map (sk_cell labels (arg_val yt) (map f (arg_val yp)) W i) (seq 0 (List.length labels))) =
                map (fun j => sk_cell labels (arg_val yt) (map f (arg_val yp)) W i (nt + j)%nat) (seq 0 (List.length train))).
  { intros i. rewrite skipn_map, LL, seq_app, skipn_app, seq_length, Nat.sub_diag, skipn_all2 by (rewrite seq_length; lia). simpl skipn. rewrite app_nil_l.
    rewrite (seq_shift_add nt), map_map. reflexivity. }
  rewrite EQ. split.
  - unfold finish. rewrite !map_length, seq_length. reflexivity.
  - intros i j a b A B. 
    assert (NL : NoDup labels).
    { assert (NF : NoDup (map f train)). { clear - N1. induction N1 as [|x l X N IH]; [constructor|]. simpl. constructor; [|exact IH]. intros H. apply in_map_iff in H. destruct H as (y & E & Y). unfold f in E. assert (y = x) by lia. subst y. contradiction. }
      unfold labels. clear - N2 NF B1 B2. assert (DJ : forall x, In x test -> ~ In x (map f train)). { intros x X H. apply in_map_iff in H. destruct H as (y & E & Y). specialize (B1 x X). specialize (B2 y Y). unfold f in E. lia. }
      clear B1 B2. revert NF DJ. generalize (map f train). intros m NF DJ. clear f nt. induction N2 as [|x l X N IH]; [exact NF|]. simpl. constructor.
      - rewrite in_app_iff. intros [H|H]; [contradiction|]. exact (DJ x (or_introl eq_refl) H).
      - apply IH. intros y Y. apply DJ. right. exact Y. }
    exists (sk_cell labels (arg_val yt) (map f (arg_val yp)) W i (nt + j)). split.
    + unfold finish. rewrite !map_map.
      rewrite (map_ext _ (fun i => map (fun j => Some (sk_cell labels (arg_val yt) (map f (arg_val yp)) W i (nt + j)%nat)) (seq 0 (List.length train)))).
      * apply cell_map with (f := fun i j => Some (sk_cell labels (arg_val yt) (map f (arg_val yp)) W i (nt + j)%nat)); apply nth_error_Some; congruence.
      * intros k. rewrite EQ2, map_map. reflexivity.
    + rewrite (sk_cell_tally labels i (nt + j) a (f b) NL).
      * unfold f. rewrite tally_shift. reflexivity.
      * unfold labels. rewrite nth_error_app1 by (apply nth_error_Some; congruence). exact A.
      * unfold labels. rewrite nth_error_app2 by (fold nt; lia). fold nt. replace (nt + j - nt)%nat with j by lia. rewrite nth_error_map, B. reflexivity.
      * rewrite map_length. exact L1.
      * exact L2.
Qed.
Example C64_xlabel_witness : exists a b, xlabel_int (PyList [0; 1; 1]%Z) (PyList [5; 3; 5]%Z) None None false None = Ok ([[Some 0; Some 1]; [Some 1; Some 1]]%Q, a, b).
Proof. eexists _, _. vm_compute. reflexivity. Qed.

(** With test labels that are not 0, 1, ..., n-1 a shifted training label can coincide with a test label; the samples of that test label
    are then counted nowhere. *)
Theorem C64_xlabel_any_labels_refuted : exists yt yp train C a b, NoDup yt /\ xlabel_int (PyList yt) (PyList yp) None None false None = Ok (C, a, b) /\
  train = unique yp /\ nth_error (unique yt) 1 = Some 7%Z /\ nth_error train 0 = Some 5%Z /\
  cell C 1 0 = Some (Some 0%Q) /\ (tally 7%Z 5%Z yt yp [1; 1] == 1)%Q.
Proof.
  exists [0; 7]%Z, [5; 5]%Z. eexists _, _, _, _. split; [repeat constructor; simpl; intuition discriminate|]. split; [vm_compute; reflexivity|]. split; [reflexivity|]. repeat split.
Qed.
(** The function changes the caller's arrays: repeating the call with the same arguments gives another matrix when y_pred is an array
    and labels_train a list. *)
Theorem C64_xlabel_repeatable_refuted : exists yt yp ltr C1 C2 yp' ltr' x y, xlabel_int yt yp (Some ltr) None false None = Ok (C1, yp', Some ltr') /\
  xlabel_int yt yp' (Some ltr') None false None = Ok (C2, x, y) /\ C1 <> C2.
Proof.
  exists (NpArray [0; 1]%Z), (NpArray [0; 1]%Z), (PyList [0; 1]%Z). eexists _, _, _, _, _, _. split; [vm_compute; reflexivity|]. split; [vm_compute; reflexivity|]. discriminate.
Qed.
(** string labels never work *)
Theorem C64_xlabel_strings_refuted yt yp n : xlabel_str yt yp n = Err TypeError.
Proof. reflexivity. Qed.
Print Assumptions C64_counts. Print Assumptions C64_all_labels. Print Assumptions C64_normalized. Print Assumptions C64_xlabel.
