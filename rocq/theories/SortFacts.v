(** Facts about the stable sort of [Metrics.v]. *)
From Coq Require Import QArith.
From Verif Require Import Metrics MatProofs.
Open Scope list_scope.
Open Scope nat_scope.

Section Sort.
Context {S : Type} `{Ord S}.
Implicit Types key : list S.

Lemma sort_in_perm key i l : Permutation (sort_in key i l) (i :: l).
Proof.
  induction l as [|j l IH]; cbn [sort_in]; [reflexivity|]. destruct (nth_error key i); [|reflexivity]. destruct (nth_error key j); [|reflexivity]. destruct (leb s s0); [reflexivity|].
  rewrite IH. apply perm_swap.
Qed.
Lemma argsort_perm key : Permutation (argsort key) (seq 0 (len key)).
Proof. unfold argsort. induction (seq 0 (len key)) as [|i l IH]; [reflexivity|]. cbn [fold_right]. rewrite sort_in_perm, IH. reflexivity. Qed.
Lemma argsort_len key : len (argsort key) = len key.
Proof. rewrite (Permutation_length (argsort_perm key)), seq_length. reflexivity. Qed.
Lemma argsort_nodup key : NoDup (argsort key).
Proof. eapply Permutation_NoDup; [symmetry; apply argsort_perm|apply seq_NoDup]. Qed.
Lemma argsort_in key i : In i (argsort key) <-> i < len key.
Proof. split; intros X; [apply (Permutation_in _ (argsort_perm key)), in_seq in X; lia|apply (Permutation_in _ (Permutation_sym (argsort_perm key))), in_seq; lia]. Qed.

(** position i is before position j in a stable sort *)
Definition before key (i j : nat) : Prop := exists a b, nth_error key i = Some a /\ nth_error key j = Some b /\ (ltb a b = true \/ (a = b /\ i < j)).

Lemma ltb_leb (a b : S) : ltb a b = true -> leb a b = true.
Proof. unfold ltb. intros X. apply negb_true_iff in X. destruct (leb_total a b) as [Y|Y]; [exact Y|congruence]. Qed.
Lemma ltb_trans (a b c : S) : ltb a b = true -> ltb b c = true -> ltb a c = true.
Proof.
  unfold ltb. intros X Y. apply negb_true_iff in X, Y. apply negb_true_iff. destruct (leb c a) eqn:E; [|reflexivity].
  destruct (leb_total b c) as [Z|Z]; [|congruence]. rewrite (leb_trans b c a Z E) in X. discriminate.
Qed.
Lemma ltb_irrefl (a : S) : ltb a a = false.
Proof. unfold ltb. rewrite leb_refl. reflexivity. Qed.
Lemma leb_ltb (a b : S) : leb a b = true -> ltb b a = false.
Proof. unfold ltb. intros ->. reflexivity. Qed.
Lemma leb_cases (a b : S) : leb a b = true -> ltb a b = true \/ a = b.
Proof. intros X. unfold ltb. destruct (leb b a) eqn:E; [right; apply leb_antisym; assumption|left; reflexivity]. Qed.
Lemma ltb_leb_trans (a b c : S) : ltb a b = true -> leb b c = true -> ltb a c = true.
Proof. intros X Y. apply leb_cases in Y as [Y| <-]; [apply (ltb_trans a b c); assumption|exact X]. Qed.
Lemma leb_ltb_trans (a b c : S) : leb a b = true -> ltb b c = true -> ltb a c = true.
Proof. intros X Y. apply leb_cases in X as [X| ->]; [apply (ltb_trans a b c); assumption|exact Y]. Qed.

Lemma before_trans key i j k : before key i j -> before key j k -> before key i k.
Proof.
  intros (a & b & A & B & X) (b' & c & B' & C & Y). rewrite B in B'. injection B' as <-. exists a, c. split; [exact A|]. split; [exact C|].
  destruct X as [X|[-> X]], Y as [Y|[-> Y]]; [left; apply (ltb_trans a b c); assumption|left; assumption|left; assumption|right; split; [reflexivity|lia]].
Qed.
Lemma before_irrefl key i : ~ before key i i.
Proof. intros (a & b & A & B & X). rewrite A in B. injection B as <-. rewrite ltb_irrefl in X. destruct X as [X|[_ X]]; [discriminate|lia]. Qed.
Lemma before_total key i j : i < len key -> j < len key -> i <> j -> before key i j \/ before key j i.
Proof.
  intros Hi Hj N. destruct (nth_error key i) as [a|] eqn:A; [|apply nth_error_None in A; lia]. destruct (nth_error key j) as [b|] eqn:B; [|apply nth_error_None in B; lia].
  destruct (leb_total a b) as [X|X]; apply leb_cases in X as [X|X].
  - left. exists a, b. auto.
  - subst b. destruct (lt_dec i j); [left|right]; exists a, a; repeat split; try assumption; right; split; try reflexivity; lia.
  - right. exists b, a. auto.
  - subst b. destruct (lt_dec i j); [left|right]; exists a, a; repeat split; try assumption; right; split; try reflexivity; lia.
Qed.

Lemma sort_in_sorted key i l : StronglySorted (before key) l -> i < len key -> (forall j, In j l -> i < j < len key) -> StronglySorted (before key) (sort_in key i l).
Proof.
  intros X Hi. induction X as [|j l X1 IH X2]; intros B; cbn [sort_in]; [repeat constructor|].
  destruct (nth_error key i) as [a|] eqn:A; [|apply nth_error_None in A; lia]. destruct (B j ltac:(left; reflexivity)) as (B1 & B2).
  destruct (nth_error key j) as [b|] eqn:E; [|apply nth_error_None in E; lia]. destruct (leb a b) eqn:L.
  - assert (Q : before key i j). { exists a, b. repeat split; try assumption. apply leb_cases in L as [L|L]; [left; exact L|right; split; assumption]. }
    constructor; [constructor; assumption|]. constructor; [exact Q|]. eapply Forall_impl; [|exact X2]. intros k. apply before_trans. exact Q.
  - constructor; [apply IH; intros k Hk; apply B; right; exact Hk|]. apply Forall_forall. intros k Hk. apply (Permutation_in _ (sort_in_perm key i l)) in Hk as [<-|Hk].
    + exists b, a. split; [exact E|]. split; [exact A|]. left. unfold ltb. rewrite L. reflexivity.
    + rewrite Forall_forall in X2. apply X2. exact Hk.
Qed.
Lemma argsort_sorted key : StronglySorted (before key) (argsort key).
Proof.
  unfold argsort. assert (G : forall n k, k + n = len key -> StronglySorted (before key) (fold_right (sort_in key) [] (seq k n)) /\ Permutation (fold_right (sort_in key) [] (seq k n)) (seq k n)).
  { induction n as [|n IH]; intros k E; [split; constructor|]. cbn [seq fold_right]. destruct (IH (k + 1)) as (I1 & I2); [lia|]. rewrite Nat.add_1_r in I1, I2. split.
    - apply sort_in_sorted; [exact I1|lia|]. intros j Hj. apply (Permutation_in _ I2), in_seq in Hj. lia.
    - rewrite sort_in_perm, I2. reflexivity. }
  apply (G (len key) 0). reflexivity.
Qed.

(** the number of positions that satisfy a test *)
Definition count_pos (p : nat -> bool) (n : nat) : nat := len (filter p (seq 0 n)).

(** in a list sorted for a strict order, the elements before position k are those before its k-th *)
Lemma sorted_prefix (R : nat -> nat -> Prop) l k i : (forall x, ~ R x x) -> (forall x y z, R x y -> R y z -> R x z) -> StronglySorted R l -> nth_error l k = Some i ->
  forall j, In j l -> (In j (firstn k l) <-> R j i).
Proof.
  intros IR TR X. revert k. induction X as [|x l X1 IH X2]; intros k Hk j Hj; [destruct Hj|]. rewrite Forall_forall in X2. destruct k as [|k].
  - injection Hk as ->. split; [intros []|]. intros Q. destruct Hj as [->|Hj]; [destruct (IR _ Q)|]. destruct (IR i). apply (TR i j i); [apply X2; exact Hj|exact Q].
  - cbn [nth_error] in Hk. rewrite firstn_cons. destruct Hj as [->|Hj].
    + split; [|intros _; left; reflexivity]. intros _. apply X2. eapply nth_error_In. exact Hk.
    + rewrite <- (IH k Hk j Hj). split; [|intros Q; right; exact Q]. intros [->|Q]; [|exact Q]. destruct (IR j). apply X2. exact Hj.
Qed.

Lemma firstn_nodup {A} (l : list A) k : NoDup l -> NoDup (firstn k l).
Proof. intros N. revert k. induction N as [|x l N1 N2 IH]; intros [|k]; cbn; try constructor; [|apply IH]. intros Q. apply N1. rewrite <- (firstn_skipn k l). apply in_or_app. left. exact Q. Qed.
Lemma firstn_incl {A} (l : list A) k x : In x (firstn k l) -> In x l.
Proof. intros Q. rewrite <- (firstn_skipn k l). apply in_or_app. left. exact Q. Qed.

(** Two duplicate-free lists with the same elements have the same length. *)
Lemma nodup_same_len {A} (a b : list A) : NoDup a -> NoDup b -> (forall x, In x a <-> In x b) -> len a = len b.
Proof. intros Na Nb E. apply Nat.le_antisymm; apply NoDup_incl_length; try assumption; intros x Hx; apply E; exact Hx. Qed.
End Sort.
