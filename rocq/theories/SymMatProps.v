(** Round trips of vectorised matrices. *)
From Coq Require Import Lia.
From Verif Require Import BaseFacts SymMat.
Open Scope list_scope.
Open Scope nat_scope.

Lemma triu_in n i j : In (i, j) (triu n) <-> i <= j < n.
Proof.
  unfold triu. rewrite in_flat_map. split.
  - intros (k & K & I). apply in_map_iff in I. destruct I as (l & E & L). injection E as <- <-. apply in_seq in K, L. lia.
  - intros L. exists i. split; [apply in_seq; lia|]. apply in_map_iff. exists j. split; [reflexivity|apply in_seq; lia].
Qed.
Lemma tril_in n i j : In (i, j) (tril n) <-> j <= i < n.
Proof.
  unfold tril. rewrite in_flat_map. split.
  - intros (k & K & I). apply in_map_iff in I. destruct I as (l & E & L). injection E as <- <-. apply in_seq in K, L. lia.
  - intros L. exists i. split; [apply in_seq; lia|]. apply in_map_iff. exists j. split; [reflexivity|apply in_seq; lia].
Qed.
Lemma nodup_rows (f : nat -> list nat) l : NoDup l -> (forall i, NoDup (f i)) -> NoDup (flat_map (fun i => map (fun j => (i, j)) (f i)) l).
Proof.
  intros N F. induction N as [|i l NI N IH]; [constructor|]. cbn. assert (X1 : forall l1 l2 : list (nat * nat), NoDup l1 -> NoDup l2 -> (forall a, In a l1 -> ~ In a l2) -> NoDup (l1 ++ l2)). { clear. induction l1 as [|a l IH]; intros l2 A B C; [exact B|]. inversion A; subst. cbn. constructor; [intros I; apply in_app_or in I; destruct I as [I|I]; [contradiction|exact (C a (or_introl eq_refl) I)]|]. apply IH; [assumption|exact B|]. intros x I. apply C. right. exact I. }
  apply X1; [|exact IH|].
  - specialize (F i). clear - F. induction F as [|j m Nj F IH]; [constructor|]. cbn. constructor; [intros I; apply in_map_iff in I; destruct I as (q & Q & I); injection Q as ->; contradiction|exact IH].
  - intros (a, b) I J. apply in_map_iff in I. destruct I as (q & Q & _). injection Q as <- <-. apply in_flat_map in J. destruct J as (k & K & J). apply in_map_iff in J. destruct J as (q' & Q' & _). injection Q' as -> ->. contradiction.
Qed.
Lemma triu_nodup n : NoDup (triu n).
Proof. unfold triu. apply (nodup_rows (fun i => seq i (n - i))); intros; apply seq_NoDup. Qed.
Lemma tril_nodup n : NoDup (tril n).
Proof. unfold tril. apply (nodup_rows (fun i => seq 0 (S i))); intros; apply seq_NoDup. Qed.
Lemma tril_length n : 2 * List.length (tril n) = n * (n + 1).
Proof.
  induction n as [|n IH]; [reflexivity|]. unfold tril in *. rewrite seq_S, flat_map_app, app_length. cbn [flat_map]. rewrite app_nil_r, map_length, seq_length. lia.
Qed.
Lemma triu_length n : 2 * List.length (triu n) = n * (n + 1).
Proof.
  unfold triu. assert (H : forall m s k, 2 * List.length (flat_map (fun i => map (fun j => (i, j)) (seq i (s + m + k - i))) (seq s m)) = m * (m + 1) + 2 * m * k). { induction m as [|m IH]; intros s k; [reflexivity|]. cbn [seq flat_map]. rewrite app_length, map_length, seq_length. specialize (IH (S s) k). replace (s + S m + k) with (S s + m + k) by lia. lia. }
  specialize (H n 0 0). cbn [Nat.add] in H. replace (n + 0) with n in H by lia. lia.
Qed.
Lemma tri_dim_ok d n : 2 * n = d * (d + 1) -> tri_dim n = d.
Proof. intros E. unfold tri_dim. replace (1 + 8 * n) with ((2 * d + 1) * (2 * d + 1)) by nia. rewrite Nat.sqrt_square. replace (2 * d + 1 - 1) with (d * 2) by lia. apply Nat.div_mul. lia. Qed.

Section S.
Context {X : Type} (zero : X) (mulX : X -> X -> X).

Lemma scatter_spec (f : nat -> nat -> X) idx v : NoDup idx -> List.length v = List.length idx ->
  exists g, scatter2 f idx v = Ok g /\ (forall k i j x, nth_error idx k = Some (i, j) -> nth_error v k = Some x -> g i j = x) /\ (forall i j, ~ In (i, j) idx -> g i j = f i j).
Proof.
  intros N L. unfold scatter2. rewrite (proj2 (Nat.eqb_eq _ _) L). eexists. split; [reflexivity|].
  revert f v L. induction N as [|(a, b) idx NI N IH]; intros f v L; [split; [intros [|k]; discriminate|intros; reflexivity]|]. destruct v as [|y v]; [discriminate|]. injection L as L. cbn [combine fold_left fst snd].
  destruct (IH (fun i j => if (i =? a) && (j =? b) then y else f i j) v L) as (A & B). split.
  - intros [|k] i j x E V; cbn in E, V; [|apply (A k); assumption]. injection E as -> ->. injection V as ->. rewrite B by exact NI. rewrite !Nat.eqb_refl. reflexivity.
  - intros i j H. rewrite B by (intros I; apply H; right; exact I). destruct (Nat.eqb_spec i a) as [->|]; [|reflexivity]. destruct (Nat.eqb_spec j b) as [->|]; [|reflexivity]. destruct H. left. reflexivity.
Qed.
Lemma scatter_gather (f h : nat -> nat -> X) idx : NoDup idx -> exists g, scatter2 f idx (gather2 h idx) = Ok g /\ (forall i j, In (i, j) idx -> g i j = h i j) /\ (forall i j, ~ In (i, j) idx -> g i j = f i j).
Proof.
  intros N. destruct (scatter_spec f idx (gather2 h idx) N) as (g & E & A & B); [unfold gather2; apply map_length|]. exists g. split; [exact E|]. split; [|exact B]. intros i j I. apply In_nth_error in I. destruct I as (k & K). apply (A k i j); [exact K|]. unfold gather2. rewrite nth_error_map, K. reflexivity.
Qed.
Lemma gather_scatter (f : nat -> nat -> X) idx v g : NoDup idx -> List.length v = List.length idx -> scatter2 f idx v = Ok g -> gather2 g idx = v.
Proof.
  intros N L E. destruct (scatter_spec f idx v N L) as (g' & E' & A & _). rewrite E in E'. injection E' as <-. unfold gather2. apply nth_error_ext. intros k. rewrite nth_error_map. destruct (nth_error idx k) as [(i, j)|] eqn:K; cbn.
  - destruct (nth_error v k) as [x|] eqn:V; [rewrite (A k i j x K V); reflexivity|]. apply nth_error_None in V. assert (k < List.length idx) by (apply nth_error_Some; congruence). lia.
  - apply nth_error_None in K. symmetry. apply nth_error_None. lia.
Qed.

Lemma in_pair_dec (i j : nat) l : {In (i, j) l} + {~ In (i, j) l}.
Proof. apply in_dec. decide equality; apply Nat.eq_dec. Qed.

(** rebuilding from the chosen triangle of any matrix *)
Lemma vec2symmat_of (f : nat -> nat -> X) n lower c :
  exists B, vec2symmat zero mulX (gather2 f (if lower : bool then tril n else triu n)) lower c = Ok B /\ m_dim B = n /\
    forall i j, i < n -> j < n -> m_at B i j = scale_diag mulX c (fun i j => if lower then f (max i j) (min i j) else f (min i j) (max i j)) i j.
Proof.
  unfold vec2symmat. assert (D : tri_dim (List.length (gather2 f (if lower then tril n else triu n))) = n) by (unfold gather2; rewrite map_length; apply tri_dim_ok; destruct lower; [apply tril_length|apply triu_length]). rewrite D. cbv zeta.
  destruct lower.
  - destruct (scatter_gather (fun _ _ => zero) f (tril n) (tril_nodup n)) as (g & E & A & B). rewrite E. cbn [bind]. destruct (scatter_gather g (fun i j => g j i) (triu n) (triu_nodup n)) as (g2 & E2 & A2 & B2). rewrite E2. cbn [bind]. eexists. split; [reflexivity|]. split; [reflexivity|]. intros i j Li Lj. cbn [m_at].
    assert (V : g2 i j = f (max i j) (min i j)). { destruct (le_lt_dec i j) as [Q|Q]; [rewrite A2 by (apply triu_in; lia); rewrite A by (apply tril_in; lia); f_equal; lia|rewrite B2 by (rewrite triu_in; lia); rewrite A by (apply tril_in; lia); f_equal; lia]. }
    unfold scale_diag. destruct c; [destruct (i =? j); rewrite V; reflexivity|exact V].
  - destruct (scatter_gather (fun _ _ => zero) f (triu n) (triu_nodup n)) as (g & E & A & B). rewrite E. cbn [bind]. destruct (scatter_gather g (fun i j => g j i) (tril n) (tril_nodup n)) as (g2 & E2 & A2 & B2). rewrite E2. cbn [bind]. eexists. split; [reflexivity|]. split; [reflexivity|]. intros i j Li Lj. cbn [m_at].
    assert (V : g2 i j = f (min i j) (max i j)). { destruct (le_lt_dec j i) as [Q|Q]; [rewrite A2 by (apply tril_in; lia); rewrite A by (apply triu_in; lia); f_equal; lia|rewrite B2 by (rewrite tril_in; lia); rewrite A by (apply triu_in; lia); f_equal; lia]. }
    unfold scale_diag. destruct c; [destruct (i =? j); rewrite V; reflexivity|exact V].
Qed.
End S.

(** The vector of a matrix of dimension n has n(n+1)/2 entries, and rebuilding a symmetric matrix from its vector gives it
    back, for the upper and the lower half. *)
Theorem C47_symmetric : forall X zero mulX (A : sqmat X) lower, (forall i j, i < m_dim A -> j < m_dim A -> m_at A i j = m_at A j i) ->
  2 * List.length (symmat2vec mulX A lower None) = m_dim A * (m_dim A + 1) /\
  exists B, vec2symmat zero mulX (symmat2vec mulX A lower None) lower None = Ok B /\ m_dim B = m_dim A /\
    forall i j, i < m_dim A -> j < m_dim A -> m_at B i j = m_at A i j.
Proof.
  intros X zero mulX A lower S. split; [unfold symmat2vec, gather2; rewrite map_length; destruct lower; [apply tril_length|apply triu_length]|].
  destruct (vec2symmat_of zero mulX (m_at A) (m_dim A) lower None) as (B & E & D & V). exists B. split; [exact E|]. split; [exact D|]. intros i j Li Lj. rewrite V by assumption. cbn [scale_diag].
  destruct lower; destruct (le_lt_dec i j) as [Q|Q]; rewrite ?(Nat.max_r i j), ?(Nat.min_l i j), ?(Nat.max_l i j), ?(Nat.min_r i j) by lia; try reflexivity; apply S; assumption.
Qed.

(** Scaling the diagonal by c on the way out and by d on the way in, with c d = 1, changes nothing. *)
Theorem C47_diag_factor : forall X zero mulX (A : sqmat X) lower c d, (forall x, mulX (mulX x c) d = x) ->
  (forall i j, i < m_dim A -> j < m_dim A -> m_at A i j = m_at A j i) ->
  exists B, vec2symmat zero mulX (symmat2vec mulX A lower (Some c)) lower (Some d) = Ok B /\ m_dim B = m_dim A /\
    forall i j, i < m_dim A -> j < m_dim A -> m_at B i j = m_at A i j.
Proof.
  intros X zero mulX A lower c d CD S. destruct (vec2symmat_of zero mulX (scale_diag mulX (Some c) (m_at A)) (m_dim A) lower (Some d)) as (B & E & D & V). exists B. split; [exact E|]. split; [exact D|]. intros i j Li Lj. rewrite V by assumption. unfold scale_diag.
  destruct (Nat.eqb_spec i j) as [->|N].
  - rewrite Nat.max_id, Nat.min_id, Nat.eqb_refl. destruct lower; apply CD.
  - destruct lower; destruct (le_lt_dec i j) as [Q|Q]; rewrite ?(Nat.max_r i j), ?(Nat.min_l i j), ?(Nat.max_l i j), ?(Nat.min_r i j) by lia; rewrite (proj2 (Nat.eqb_neq _ _)) by lia; try reflexivity; apply S; assumption.
Qed.

(** A triangular matrix comes back from its vector; of any other matrix, the chosen triangle and zeros come back. *)
Theorem C47_triangular : forall X zero mulX (A : sqmat X) lower,
  exists B, vec2trimat zero (trimat2vec mulX A lower) lower = Ok B /\ m_dim B = m_dim A /\
    forall i j, i < m_dim A -> j < m_dim A -> m_at B i j = if (if lower : bool then j <=? i else i <=? j) then m_at A i j else zero.
Proof.
  intros X zero mulX A lower. unfold vec2trimat, trimat2vec, symmat2vec. cbn [scale_diag]. set (n := m_dim A).
  assert (D : tri_dim (List.length (gather2 (m_at A) (if lower then tril n else triu n))) = n) by (unfold gather2; rewrite map_length; apply tri_dim_ok; destruct lower; [apply tril_length|apply triu_length]). rewrite D. cbv zeta.
  destruct (scatter_gather (fun _ _ => zero) (m_at A) (if lower then tril n else triu n)) as (g & E & V1 & V2); [destruct lower; [apply tril_nodup|apply triu_nodup]|]. rewrite E. cbn [bind]. eexists. split; [reflexivity|]. split; [reflexivity|]. intros i j Li Lj. cbn [m_at].
  destruct lower.
  - destruct (Nat.leb_spec j i) as [Q|Q]; [apply V1, tril_in; lia|apply V2; rewrite tril_in; lia].
  - destruct (Nat.leb_spec i j) as [Q|Q]; [apply V1, triu_in; lia|apply V2; rewrite triu_in; lia].
Qed.

(** The other way round: a vector of n(n+1)/2 entries becomes an n x n matrix, symmetric for vec2symmat, whose vector is
    the same; any other length raises ValueError. *)
Theorem C47_vector : forall X zero mulX (v : list X) lower n, 2 * List.length v = n * (n + 1) ->
  (exists A, vec2symmat zero mulX v lower None = Ok A /\ m_dim A = n /\ symmat2vec mulX A lower None = v /\ forall i j, i < n -> j < n -> m_at A i j = m_at A j i) /\
  (exists A, vec2trimat zero v lower = Ok A /\ m_dim A = n /\ trimat2vec mulX A lower = v).
Proof.
  intros X zero mulX v lower n L.
  assert (LI : List.length v = List.length (if lower then tril n else triu n)) by (pose proof (tril_length n); pose proof (triu_length n); destruct lower; lia).
  assert (ND : NoDup (if lower then tril n else triu n)) by (destruct lower; [apply tril_nodup|apply triu_nodup]).
  destruct (scatter_spec (fun _ _ => zero) _ v ND LI) as (g & E & _ & _). assert (G : gather2 g (if lower then tril n else triu n) = v) by (eapply gather_scatter; eassumption).
  split.
  - destruct (vec2symmat_of zero mulX g n lower None) as (B & EB & DB & VB). rewrite G in EB. exists B. split; [exact EB|]. split; [exact DB|]. split.
    + unfold symmat2vec. rewrite DB. cbn [scale_diag]. rewrite <- G. unfold gather2. apply map_ext_in. intros (i, j) I. cbn [fst snd]. destruct lower.
      * apply tril_in in I. rewrite VB by lia. cbn [scale_diag]. rewrite Nat.max_l, Nat.min_r by lia. reflexivity.
      * apply triu_in in I. rewrite VB by lia. cbn [scale_diag]. rewrite Nat.min_l, Nat.max_r by lia. reflexivity.
    + intros i j Li Lj. rewrite !VB by assumption. cbn [scale_diag]. rewrite (Nat.max_comm i j), (Nat.min_comm i j). reflexivity.
  - unfold vec2trimat. rewrite (tri_dim_ok n _ L). rewrite E. cbn [bind]. eexists. split; [reflexivity|]. split; [reflexivity|]. unfold trimat2vec, symmat2vec. cbn [m_dim m_at scale_diag]. exact G.
Qed.
Theorem C47_bad_length : forall X zero mulX (v : list X) lower c, (forall n, 2 * List.length v <> n * (n + 1)) ->
  vec2symmat zero mulX v lower c = Err ValueError /\ vec2trimat zero v lower = Err ValueError.
Proof.
  intros X zero mulX v lower c L. set (d := tri_dim (List.length v)).
  assert (NE : forall idx, 2 * List.length idx = d * (d + 1) -> forall f, scatter2 (X := X) f idx v = Err ValueError). { intros idx LI f. unfold scatter2. rewrite (proj2 (Nat.eqb_neq _ _)); [reflexivity|]. intros Q. apply (L d). lia. }
  unfold vec2symmat, vec2trimat. fold d. cbv zeta. split; destruct lower; rewrite NE by first [apply tril_length|apply triu_length]; reflexivity.
Qed.

(** ** One-hot vectors *)
(** With ids in [0, num_classes), row i has a one at position class_ids[i] and zeros elsewhere. *)
Theorem C58_onehot : forall ids k, (forall c, In c ids -> (0 <= c < Z.of_nat k)%Z) ->
  exists p, int2onehot ids (Some k) = Ok p /\ List.length p = List.length ids /\
    forall i c, nth_error ids i = Some c -> exists r, nth_error p i = Some r /\ List.length r = k /\ forall j, j < k -> nth_error r j = Some (if (Z.of_nat j =? c)%Z then 1%Z else 0%Z).
Proof.
  intros ids k H. unfold int2onehot. cbn [bind]. exists (map (fun c => map (fun i => if i =? Z.to_nat c then 1%Z else 0%Z) (seq 0 k)) ids). split.
  - apply mapM_pure. intros c I. specialize (H c I). unfold py_index. destruct (Z.leb_spec 0 c); [|lia]. destruct (Z.ltb_spec c (Z.of_nat k)); [|lia]. reflexivity.
  - split; [apply map_length|]. intros i c E. eexists. rewrite nth_error_map, E. split; [reflexivity|]. split; [rewrite map_length, seq_length; reflexivity|]. intros j J. rewrite nth_error_map, (nth_error_nth' _ 0) by (rewrite seq_length; exact J). rewrite seq_nth by exact J. cbn. f_equal. apply nth_error_In in E. specialize (H c E). destruct (Nat.eqb_spec j (Z.to_nat c)), (Z.eqb_spec (Z.of_nat j) c); try reflexivity; lia.
Qed.
(** Without num_classes it is the largest id plus one. *)
Theorem C58_onehot_default : forall ids, ids <> [] -> (forall c, In c ids -> (0 <= c)%Z) ->
  exists m, In m ids /\ (forall c, In c ids -> (c <= m)%Z) /\ int2onehot ids None = int2onehot ids (Some (Z.to_nat (m + 1))).
Proof.
  intros [|a l] N P; [congruence|]. exists (fold_left Z.max l a).
  assert (M : forall l a, (In (fold_left Z.max l a) (a :: l)) /\ (forall c, In c (a :: l) -> (c <= fold_left Z.max l a)%Z)).
  { clear. induction l as [|b l IH]; intros a; [split; [left; reflexivity|intros c [<-|[]]; cbn; lia]|]. cbn [fold_left]. destruct (IH (Z.max a b)) as (A & B). split.
    - destruct A as [A|A]; [|right; right; exact A]. rewrite <- A. destruct (Z.max_spec a b) as [(_ & ->)|(_ & ->)]; [right; left; reflexivity|left; reflexivity].
    - intros c [<-|[<-|I]]; [specialize (B (Z.max a b) (or_introl eq_refl)); lia|specialize (B (Z.max a b) (or_introl eq_refl)); lia|apply B; right; exact I]. }
  destruct (M l a) as (A & B). split; [exact A|]. split; [exact B|]. unfold int2onehot. cbv zeta. destruct (Z.ltb_spec (fold_left Z.max l a + 1) 0) as [Q|Q]; [specialize (P _ A); lia|]. reflexivity.
Qed.
(** An id of num_classes or more raises IndexError; an id in [-num_classes, 0) silently counts from the end; no ids and no
    number of classes raises ValueError. *)
Theorem C58_onehot_errors : (forall ids k c, In c ids -> (Z.of_nat k <= c)%Z -> exists e, int2onehot ids (Some k) = Err e) /\
  (forall k c, (- Z.of_nat k <= c < 0)%Z -> int2onehot [c] (Some k) = int2onehot [(c + Z.of_nat k)%Z] (Some k)) /\
  int2onehot [] None = Err ValueError.
Proof.
  split; [|split; [|reflexivity]].
  - intros ids k c I L. unfold int2onehot. cbn [bind]. induction ids as [|a ids IH]; [destruct I|]. cbn [mapM]. destruct I as [->|I].
    + assert (PI : py_index k c = None) by (unfold py_index; destruct (Z.leb_spec 0 c); [|lia]; destruct (Z.ltb_spec c (Z.of_nat k)); [lia|]; destruct (Z.ltb_spec c 0); [lia|]; rewrite !andb_false_r; reflexivity). rewrite PI. eexists. reflexivity.
    + destruct (py_index k a); [|eexists; reflexivity]. cbn [bind]. destruct (IH I) as (e & E). rewrite E. eexists. reflexivity.
  - intros k c L. assert (PI : py_index k c = py_index k (c + Z.of_nat k)). { unfold py_index. destruct (Z.leb_spec 0 c); [lia|]. destruct (Z.leb_spec 0 (c + Z.of_nat k)); [|lia]. destruct (Z.ltb_spec (c + Z.of_nat k) (Z.of_nat k)); [|lia]. destruct (Z.leb_spec (- Z.of_nat k) c); [|lia]. destruct (Z.ltb_spec c 0); [|lia]. cbn [andb]. f_equal. f_equal. lia. }
    unfold int2onehot. cbn [bind mapM]. rewrite PI. reflexivity.
Qed.

Example C47_witness : symmat2vec Z.mul (mk_sqmat 3 (fun i j => Z.of_nat (i + j))) true None = [0; 1; 2; 2; 3; 4]%Z /\
  (exists A, vec2symmat 0%Z Z.mul [0; 1; 2; 2; 3; 4]%Z true None = Ok A /\ m_at A 0 2 = 2%Z) /\ int2onehot [1; 0; 2]%Z None = Ok [[0; 1; 0]; [1; 0; 0]; [0; 0; 1]]%Z.
Proof. split; [reflexivity|]. split; [eexists; split; vm_compute; reflexivity|reflexivity]. Qed.
Print Assumptions C47_symmetric. Print Assumptions C47_vector. Print Assumptions C58_onehot.
