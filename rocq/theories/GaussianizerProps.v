(** The Gaussianizer transform (C69). *)
From Coq Require Import QArith Lia Permutation Sorted.
From Verif Require Import Base BaseFacts Mat Folds FoldsProps2 FoldsProps3 SortFacts Gaussianizer.
Open Scope list_scope. Open Scope Z_scope.

Section P.
Context {A : Type} `{Ord A} (zero : A) {Y : Type} (phi : Q -> Y).
Notation searchsorted := (searchsorted zero). Notation fit := (fit zero). Notation predict := (predict zero phi).

(** ** Specification *)
(** number of elements of [l] below [x] *)
Definition below (l : list A) (x : A) : nat := len (filter (fun v => ltb v x) l).
Definition sorted (l : list A) : Prop := StronglySorted (fun a b => leb a b = true) l.
(** the value of rank k among m training values *)
Definition rank_prob (m k : nat) : Q := Z.of_nat (k + 1) # Pos.of_nat (m + 2).
(** what training must keep of a column: sorted values of it, its smallest and its largest *)
Definition keeps (col kept : list A) : Prop :=
  sorted kept /\ incl kept col /\ (exists rest, Permutation (kept ++ rest) col) /\
  (forall v, In v col -> exists a, nth_error kept 0 = Some a /\ leb a v = true) /\
  (forall v, In v col -> exists b, nth_error kept (len kept - 1) = Some b /\ leb v b = true).

(** ** Proofs *)
Lemma ins_perm x l : Permutation (ins x l) (x :: l).
Proof. induction l as [|y l IH]; [reflexivity|]. simpl. destruct (leb x y); [reflexivity|]. rewrite IH. apply perm_swap. Qed.
Lemma sort_perm l : Permutation (np_sort l) l.
Proof. induction l as [|x l IH]; [reflexivity|]. simpl. rewrite ins_perm, IH. reflexivity. Qed.
Lemma ins_sorted x l : sorted l -> sorted (ins x l).
Proof.
  unfold sorted. induction l as [|y l IH]; intros S; [repeat constructor|]. simpl. inversion S as [|? ? S1 S2]; subst. destruct (leb x y) eqn:E.
  - constructor; [exact S|]. constructor; [exact E|]. rewrite Forall_forall in *. intros z I. exact (leb_trans _ _ _ E (S2 z I)).
  - constructor; [apply IH; exact S1|]. rewrite Forall_forall in *. intros z I. apply (Permutation_in _ (ins_perm x l)) in I. destruct I as [<-|I]; [|auto].
    destruct (leb_total x y); congruence.
Qed.
Lemma sort_sorted l : sorted (np_sort l).
Proof. induction l as [|x l IH]; [constructor|]. apply ins_sorted. exact IH. Qed.
Lemma sorted_nth l d i j : sorted l -> (i <= j < len l)%nat -> leb (nth i l d) (nth j l d) = true.
Proof.
  intros S. revert i j. induction S as [|x l S IH F]; intros i j L; [simpl in L; lia|]. rewrite Forall_forall in F. destruct i, j; simpl in *; try lia.
  - apply leb_refl.
  - apply F, nth_In. lia.
  - apply IH. lia.
Qed.
Lemma below_split (l : list A) x k : sorted l -> (k <= len l)%nat -> (forall i, (i < k)%nat -> ltb (nth i l zero) x = true) -> (forall i, (k <= i < len l)%nat -> ltb (nth i l zero) x = false) -> below l x = k.
Proof.
  intros S K H1 H2. unfold below. rewrite <- (firstn_skipn k l) at 1. rewrite filter_app, app_length.
  assert (E1 : filter (fun v => ltb v x) (firstn k l) = firstn k l).
  { clear H2 S. revert l K H1. induction k as [|k IH]; intros [|a l] K H1; simpl in *; try reflexivity; try lia. assert (Q := H1 O ltac:(lia)); simpl in Q; rewrite Q. rewrite IH; [reflexivity|lia|]. intros i I. apply (H1 (Datatypes.S i)). lia. }
  assert (E2 : filter (fun v => ltb v x) (skipn k l) = []).
  { clear H1 S E1. revert l K H2. induction k as [|k IH]; intros l K H2.
    - simpl. clear K. induction l as [|a l IH]; [reflexivity|]. simpl. assert (Q := H2 O ltac:(simpl; lia)); simpl in Q; rewrite Q. apply IH. intros i I. apply (H2 (Datatypes.S i)). simpl. lia.
    - destruct l as [|a l]; [reflexivity|]. simpl. apply IH; [simpl in K; lia|]. intros i I. apply (H2 (Datatypes.S i)). simpl. lia. }
  rewrite E1, E2, firstn_length. simpl. lia.
Qed.
Lemma bsearch_ok fuel r x : sorted r -> forall lo hi, (hi - lo <= fuel)%nat -> (lo <= hi <= len r)%nat ->
  (forall i, (i < lo)%nat -> ltb (nth i r zero) x = true) -> (forall i, (hi <= i < len r)%nat -> ltb (nth i r zero) x = false) ->
  bsearch zero fuel r x lo hi = below r x.
Proof.
  intros S. induction fuel as [|f IH]; intros lo hi F B H1 H2.
  - simpl. symmetry. apply below_split; [exact S|lia|exact H1|]. intros i I. apply H2. lia.
  - cbn [bsearch]. cbv zeta. destruct (Nat.ltb_spec lo hi) as [L|L].
    + set (mid := (lo + (hi - lo) / 2)%nat). assert (M : (lo <= mid < hi)%nat). { unfold mid. pose proof (Nat.div_lt (hi - lo) 2 ltac:(lia) ltac:(lia)). lia. } clearbody mid.
      destruct (ltb (nth mid r zero) x) eqn:E.
      * apply IH; [lia|lia| |exact H2]. intros i I. destruct (Nat.eq_dec i mid) as [->|]; [exact E|]. destruct (Nat.lt_ge_cases i lo); [auto|].
        apply (leb_ltb_trans _ (nth mid r zero)); [|exact E]. apply sorted_nth; [exact S|lia].
      * apply IH; [lia|lia|exact H1|]. intros i I. destruct (ltb (nth i r zero) x) eqn:E2; [|reflexivity]. exfalso.
        enough (ltb (nth mid r zero) x = true) by congruence. apply (leb_ltb_trans _ (nth i r zero)); [|exact E2]. apply sorted_nth; [exact S|lia].
    + symmetry. apply below_split; [exact S|lia|exact H1|]. intros i I. apply H2. lia.
Qed.
Lemma searchsorted_ok r x : sorted r -> searchsorted r x = below r x.
Proof. intros S. apply bsearch_ok; [exact S|lia|lia|intros; lia|intros; lia]. Qed.

(** index of the sub-sample *)
Definition lidx (n mv i : Z) : Z := if mv =? 1 then 0 else round_half_even (i * (n - 1)) (mv - 1).
Lemma lidx_range n mv i : 1 <= mv < n -> 0 <= i < mv -> 0 <= lidx n mv i < n.
Proof.
  intros M I. unfold lidx. destruct (Z.eqb_spec mv 1); [lia|]. pose proof (round_half_even_near (i * (n - 1)) (mv - 1) ltac:(lia)) as N.
  set (k := round_half_even _ _) in *. clearbody k. nia.
Qed.
Lemma lidx_strict n mv i j : 1 <= mv < n -> 0 <= i < j -> j < mv -> lidx n mv i < lidx n mv j.
Proof.
  intros M I J. unfold lidx. destruct (Z.eqb_spec mv 1); [lia|].
  pose proof (round_half_even_near (i * (n - 1)) (mv - 1) ltac:(lia)) as N1. pose proof (round_half_even_near (j * (n - 1)) (mv - 1) ltac:(lia)) as N2.
  set (k := round_half_even (i * (n - 1)) _) in *. set (l := round_half_even (j * (n - 1)) _) in *. clearbody k l.
  destruct (Z.le_gt_cases l k) as [L|L]; [|lia]. exfalso.
  assert ((mv - 1) * (j - i) < (n - 1) * (j - i)) by nia. nia.
Qed.
Lemma lidx_first n mv : 1 <= mv < n -> lidx n mv 0 = 0.
Proof. intros M. pose proof (lidx_range n mv 0 M ltac:(lia)). unfold lidx in *. destruct (Z.eqb_spec mv 1); [reflexivity|]. pose proof (round_half_even_near (0 * (n - 1)) (mv - 1) ltac:(lia)) as N. set (k := round_half_even _ _) in *. clearbody k. nia. Qed.
Lemma lidx_last n mv : 2 <= mv < n -> lidx n mv (mv - 1) = n - 1.
Proof. intros M. unfold lidx. destruct (Z.eqb_spec mv 1); [lia|]. pose proof (round_half_even_near ((mv - 1) * (n - 1)) (mv - 1) ltac:(lia)) as N. set (k := round_half_even _ _) in *. clearbody k. nia. Qed.
Lemma take_sub (c : list A) idx : (forall i, In i idx -> 0 <= i < Z.of_nat (len c)) -> take c idx = Ok (map (fun i => nth (Z.to_nat i) c zero) idx).
Proof.
  intros R. unfold take. apply mapM_ok_iff. induction idx as [|i idx IH]; [constructor|]. simpl. constructor; [|apply IH; intros; apply R; right; assumption].
  destruct (R i (or_introl eq_refl)). rewrite <- (Z2Nat.id i) at 1 by lia. apply get_item_nat. apply nth_error_nth'. lia.
Qed.
Lemma sorted_map (c : list A) (idx : list Z) : sorted c -> (forall i, In i idx -> 0 <= i < Z.of_nat (len c)) -> StronglySorted Z.lt idx -> sorted (map (fun i => nth (Z.to_nat i) c zero) idx).
Proof.
  intros S R SI. induction SI as [|i idx SI IH F]; [constructor|]. simpl. constructor; [apply IH; intros; apply R; right; assumption|]. rewrite Forall_forall in *. intros v V. apply in_map_iff in V. destruct V as (j & <- & J).
  apply sorted_nth; [exact S|]. pose proof (F j J). pose proof (R i (or_introl eq_refl)). pose proof (R j (or_intror J)). lia.
Qed.
Lemma lin_sorted n mv : 1 <= mv < n -> StronglySorted Z.lt (lin_index n mv).
Proof.
  intros M. unfold lin_index. fold (lidx n mv). rewrite arange_nat by lia. rewrite map_map.
  assert (G : forall k s, Z.of_nat (s + k) <= mv -> StronglySorted Z.lt (map (fun i => lidx n mv (Z.of_nat i)) (seq s k))).
  { induction k as [|k IH]; intros s L; [constructor|]. simpl. constructor; [apply IH; lia|]. rewrite Forall_forall. intros v V. apply in_map_iff in V. destruct V as (j & <- & J). apply in_seq in J. apply lidx_strict; lia. }
  apply (G (Z.to_nat (mv - 0)) (Z.to_nat 0)). lia.
Qed.
Lemma lin_in n mv i : 1 <= mv < n -> In i (lin_index n mv) -> 0 <= i < n.
Proof. intros M I. unfold lin_index in I. apply in_map_iff in I. destruct I as (k & <- & K). apply arange_in in K. apply (lidx_range n mv k M K). Qed.
Lemma sub_perm_nth (c : list A) idx : NoDup idx -> (forall i, In i idx -> 0 <= i < Z.of_nat (len c)) -> exists rest, Permutation (map (fun i => nth (Z.to_nat i) c zero) idx ++ rest) c.
Proof.
  intros N R.
  assert (SE : c = map (fun i => nth i c zero) (seq 0 (len c))).
  { clear. induction c as [|a c IH]; [reflexivity|]. simpl. f_equal. rewrite <- seq_shift, map_map. exact IH. }
  assert (P : exists more, Permutation (map Z.to_nat idx ++ more) (seq 0 (len c))).
  { assert (N' : NoDup (map Z.to_nat idx)). { clear - N R. induction N as [|i idx NI N IH]; [constructor|]. simpl. constructor; [|apply IH; intros; apply R; right; assumption]. intros I. apply in_map_iff in I. destruct I as (j & E & J). apply NI.
      pose proof (R i (or_introl eq_refl)). pose proof (R j (or_intror J)). replace i with j by lia. exact J. }
    exists (filter (fun k => negb (existsb (Nat.eqb k) (map Z.to_nat idx))) (seq 0 (len c))).
    apply NoDup_Permutation.
    - assert (ND : forall (a b : list nat), NoDup a -> NoDup b -> (forall v, In v a -> ~ In v b) -> NoDup (a ++ b)).
      { clear. induction a as [|v a IH]; intros b Na Nb D; [exact Nb|]. simpl. inversion Na; subst. constructor; [rewrite in_app_iff; intros [|]; [contradiction|]; apply (D v); [left; reflexivity|assumption]|]. apply IH; [assumption|assumption|]. intros w W. apply D. right. exact W. }
      apply ND; [exact N'|apply NoDup_filter, seq_NoDup|]. intros v V F. apply filter_In in F. destruct F as [_ F]. apply Bool.negb_true_iff in F. assert (existsb (Nat.eqb v) (map Z.to_nat idx) = true) by (apply existsb_exists; exists v; split; [exact V|apply Nat.eqb_refl]). congruence.
    - apply seq_NoDup.
    - intros v. rewrite in_app_iff, filter_In, in_seq. split.
      + intros [V|[V _]]; [|exact V]. apply in_map_iff in V. destruct V as (i & <- & I). pose proof (R i I). lia.
      + intros V. destruct (existsb (Nat.eqb v) (map Z.to_nat idx)) eqn:E; [left|right; split; [exact V|reflexivity]]. apply existsb_exists in E. destruct E as (w & W & E). apply Nat.eqb_eq in E. subst. exact W. }
  destruct P as (more & P). exists (map (fun i => nth i c zero) more). apply (Permutation_trans (l' := map (fun i => nth i c zero) (seq 0 (len c)))); [|rewrite <- SE; reflexivity]. rewrite <- (Permutation_map _ P), map_app, map_map. reflexivity.
Qed.
Lemma StronglySorted_lt_nodup l : StronglySorted Z.lt l -> NoDup l.
Proof. induction 1 as [|a l S IH F]; constructor; [|exact IH]. intros I. rewrite Forall_forall in F. specialize (F a I). lia. Qed.

Lemma keeps_sorted col : keeps col (np_sort col).
Proof.
  pose proof (sort_perm col) as P. pose proof (sort_sorted col) as S. split; [exact S|]. split; [intros v V; exact (Permutation_in _ P V)|]. split; [exists []; rewrite app_nil_r; exact P|].
  assert (Q : forall v, In v col -> exists k, (k < len (np_sort col))%nat /\ nth k (np_sort col) zero = v). { intros v V. apply (Permutation_in v (Permutation_sym P)) in V. destruct (In_nth _ _ zero V) as (k & K & E). exists k. split; assumption. }
  split; intros v V; destruct (Q v V) as (k & K & E).
  - exists (nth 0 (np_sort col) zero). split; [apply nth_error_nth'; lia|]. rewrite <- E. apply sorted_nth; [exact S|lia].
  - exists (nth (len (np_sort col) - 1) (np_sort col) zero). split; [apply nth_error_nth'; lia|]. rewrite <- E. apply sorted_nth; [exact S|lia].
Qed.
Lemma keeps_sub col n mv : len col = n -> 2 <= mv < Z.of_nat n -> keeps col (map (fun i => nth (Z.to_nat i) (np_sort col) zero) (lin_index (Z.of_nat n) mv)).
Proof.
  intros L M. destruct (keeps_sorted col) as (S & I & (rest & P) & MN & MX).
  assert (LS : len (np_sort col) = n) by (rewrite (Permutation_length (sort_perm col)); exact L).
  assert (R : forall i, In i (lin_index (Z.of_nat n) mv) -> 0 <= i < Z.of_nat (len (np_sort col))) by (intros i J; rewrite LS; apply (lin_in _ mv); [lia|exact J]).
  pose proof (lin_sorted (Z.of_nat n) mv ltac:(lia)) as SL. split; [apply sorted_map; assumption|].
  destruct (sub_perm_nth _ _ (StronglySorted_lt_nodup _ SL) R) as (rest2 & P2).
  assert (LL : len (lin_index (Z.of_nat n) mv) = Z.to_nat mv) by (unfold lin_index; rewrite map_length, arange_length; f_equal; lia).
  split; [|split; [|split]].
  - intros v V. apply I. apply (Permutation_in v P2). apply in_app_iff. left. exact V.
  - exists rest2. rewrite P2. apply sort_perm.
  - intros v V. destruct (MN v V) as (a & A1 & A2). exists a. split; [|exact A2]. rewrite nth_error_map.
    assert (F : nth_error (lin_index (Z.of_nat n) mv) 0 = Some 0).
    { unfold lin_index. rewrite nth_error_map, arange_nat by lia. rewrite nth_error_map. destruct (Z.to_nat (mv - 0)) eqn:E; [lia|]. cbn [seq nth_error option_map]. change (Some (lidx (Z.of_nat n) mv 0) = Some 0). f_equal. apply lidx_first. lia. }
    rewrite F. cbn [option_map]. rewrite <- A1. symmetry. apply nth_error_nth'. simpl. rewrite LS. lia.
  - intros v V. destruct (MX v V) as (a & A1 & A2). exists a. split; [|exact A2]. rewrite map_length, LL, nth_error_map.
    assert (F : nth_error (lin_index (Z.of_nat n) mv) (Z.to_nat mv - 1) = Some (Z.of_nat n - 1)).
    { unfold lin_index. rewrite nth_error_map, arange_nat by lia. rewrite nth_error_map.
      assert (E : nth_error (seq (Z.to_nat 0) (Z.to_nat (mv - 0))) (Z.to_nat mv - 1) = Some (Z.to_nat (mv - 1))). { rewrite (nth_error_nth' _ 0%nat) by (rewrite seq_length; lia). rewrite seq_nth by lia. f_equal. lia. }
      rewrite E. cbn [option_map]. rewrite Z2Nat.id by lia. change (Some (lidx (Z.of_nat n) mv (mv - 1)) = Some (Z.of_nat n - 1)). f_equal. apply lidx_last. lia. }
    rewrite F. cbn [option_map]. rewrite <- A1. rewrite LS. replace (Z.to_nat (Z.of_nat n - 1)) with (n - 1)%nat by lia. symmetry. apply nth_error_nth'. lia.
Qed.

(** ** Theorems *)
(** Without a maximum number of vectors, the default of the constructor and of the command line, training fails. *)
Theorem C69_fit_default_refuted n x : fit None n x = Err TypeError.
Proof. reflexivity. Qed.
(** Training keeps, per column, a sorted sub-sample of min(n, max_vectors) values with the smallest and the largest; a row of zeros goes on top. *)
Theorem C69_fit mv n x : 2 <= mv -> Forall (fun c => len c = n) x ->
  exists kept, fit (Some mv) n x = Ok (map (cons zero) kept) /\ Forall2 keeps x kept /\ Forall (fun c => len c = Nat.min n (Z.to_nat mv)) kept /\
    (Z.of_nat n <= mv -> Forall2 (@Permutation A) x kept).
Proof.
  intros M L. unfold Gaussianizer.fit. destruct (Z.ltb_spec mv (Z.of_nat n)) as [B|B].
  - destruct (Z.ltb_spec mv 0); [lia|].
    exists (map (fun c => map (fun i => nth (Z.to_nat i) (np_sort c) zero) (lin_index (Z.of_nat n) mv)) x).
    assert (E : mapM (fun c => take c (lin_index (Z.of_nat n) mv)) (map np_sort x) = Ok (map (fun c => map (fun i => nth (Z.to_nat i) (np_sort c) zero) (lin_index (Z.of_nat n) mv)) x)).
    { apply mapM_ok_iff. induction L as [|c x L _ IH]; [constructor|]. simpl. constructor; [|exact IH]. apply take_sub. intros i I. rewrite (Permutation_length (sort_perm c)), L. apply (lin_in _ mv); [lia|exact I]. }
    rewrite E. cbn [bind]. split; [reflexivity|]. split; [|split; [|lia]].
    + clear E. induction L as [|c x L _ IH]; [constructor|]. simpl. constructor; [apply keeps_sub; [exact L|lia]|exact IH].
    + rewrite Forall_forall. intros c C. apply in_map_iff in C. destruct C as (c' & <- & _). unfold lin_index. rewrite !map_length, arange_length. lia.
  - exists (map np_sort x). cbn [bind]. split; [reflexivity|]. split; [|split].
    + clear - zero. induction x as [|c x IH]; [constructor|]. simpl. constructor; [apply keeps_sorted|exact IH].
    + rewrite Forall_forall in *. intros c C. apply in_map_iff in C. destruct C as (c' & <- & C). rewrite (Permutation_length (sort_perm c')), (L c' C). lia.
    + intros _. clear - zero. induction x as [|c x IH]; [constructor|]. simpl. constructor; [symmetry; apply sort_perm|exact IH].
Qed.
(** Each value is replaced by phi((k+1)/(m+2)), k the number of kept training values of its column below it; the lookup never fails. *)
Theorem C69_predict m kept x : Forall sorted kept -> Forall (fun c => len c = m) kept -> (len x <= len kept)%nat ->
  predict (m + 1) (map (cons zero) kept) x = Ok (map (fun '(xc, rc) => map (fun v => phi (rank_prob m (below rc v))) xc) (combine x kept)).
Proof.
  intros S L. unfold Gaussianizer.predict. revert x. induction kept as [|rc kept IH]; intros [|xc x] X; try (simpl in X; lia); try reflexivity.
  inversion S; inversion L; subst. cbn [map predict_cols combine tl].
  assert (E : mapM (fun v => get_item (y_map phi (len rc + 1)) (Z.of_nat (searchsorted rc v))) xc = Ok (map (fun v => phi (rank_prob (len rc) (below rc v))) xc)).
  { apply mapM_ok_iff. clear X. induction xc as [|v xc IHx]; [constructor|]. simpl. constructor; [|exact IHx]. apply get_item_nat. rewrite searchsorted_ok by assumption. unfold y_map. rewrite nth_error_map.
    assert (B : (below rc v <= len rc)%nat). { unfold below. clear. induction rc as [|a rc IH]; [simpl; lia|]. simpl. destruct (ltb a v); simpl; lia. }
    rewrite (nth_error_nth' _ 0%nat) by (rewrite seq_length; lia). rewrite seq_nth by lia. cbn [option_map Nat.add]. unfold rank_prob. do 4 f_equal. lia. }
  rewrite E. cbn [bind]. rewrite IH; [reflexivity|assumption|assumption|simpl in X; lia].
Qed.
(** The probabilities are inside (0, 1) and grow with the value: if phi is increasing so is the transform. *)
Theorem C69_prob_range m rc v : len rc = m -> (0 < rank_prob m (below rc v) < 1)%Q.
Proof.
  intros L. assert (B : (below rc v <= m)%nat). { subst m. unfold below. clear. induction rc as [|a rc IH]; [simpl; lia|]. simpl. destruct (ltb a v); simpl; lia. }
  unfold rank_prob, Qlt. simpl. split; [lia|]. rewrite Z.mul_1_r. rewrite <- positive_nat_Z, Nat2Pos.id by lia. lia.
Qed.
Lemma below_mono rc v w : leb v w = true -> (below rc v <= below rc w)%nat.
Proof.
  intros V. unfold below. induction rc as [|a rc IH]; [simpl; lia|]. simpl. destruct (ltb a v) eqn:E; [|destruct (ltb a w); simpl; lia]. assert (E2 : ltb a w = true). { unfold ltb in *. destruct (leb w a) eqn:F; [|reflexivity]. rewrite (leb_trans _ _ _ V F) in E. discriminate. }
  rewrite E2. simpl. lia.
Qed.
Theorem C69_monotone (le : Y -> Y -> Prop) m rc v w : (forall p q, (p <= q)%Q -> le (phi p) (phi q)) -> leb v w = true ->
  le (phi (rank_prob m (below rc v))) (phi (rank_prob m (below rc w))).
Proof. intros I V. apply I. unfold rank_prob, Qle. simpl. pose proof (below_mono rc v w V). nia. Qed.
(** a value is moved strictly iff a kept training value separates them *)
Theorem C69_separates m rc v w : ltb v w = true -> ((rank_prob m (below rc v) < rank_prob m (below rc w))%Q <-> exists t, In t rc /\ leb v t = true /\ ltb t w = true).
Proof.
  intros V. assert (LV : leb v w = true) by (apply ltb_leb; exact V).
  assert (E : (below rc v < below rc w)%nat <-> exists t, In t rc /\ leb v t = true /\ ltb t w = true).
  { unfold below. induction rc as [|a rc IH]; [simpl; split; [lia|intros (t & [] & _)]|]. pose proof (below_mono rc v w LV) as M. unfold below in M. simpl. destruct (ltb a v) eqn:E1.
    - assert (E2 : ltb a w = true) by (apply (ltb_leb_trans _ v); assumption). rewrite E2. simpl. rewrite <- Nat.succ_lt_mono, IH. split; [intros (t & T & H1); exists t; auto|]. intros (t & [<-|T] & H1 & H2); [unfold ltb in E1; rewrite H1 in E1; discriminate|exists t; auto].
    - assert (L2 : leb v a = true) by (unfold ltb in E1; apply Bool.negb_false_iff; exact E1). destruct (ltb a w) eqn:E2; simpl.
      + split; [intros _; exists a; auto|lia].
      + rewrite IH. split; [intros (t & T & H1); exists t; auto|]. intros (t & [<-|T] & H1 & H2); [congruence|exists t; auto]. }
  rewrite <- E. unfold rank_prob, Qlt. simpl. rewrite <- Z.mul_lt_mono_pos_r by reflexivity. lia.
Qed.
End P.
Example C69_witness : exists r, fit (0 : Z) (Some 3) 5 [[4; 1; 3; 9; 2]] = Ok r /\ r = [[0; 1; 3; 9]] /\
  predict 0 (fun q => Qred q) 4 r [[-5; 1; 2; 3; 9; 10]] = Ok [[1#5; 1#5; 2#5; 2#5; 3#5; 4#5]]%Q.
Proof. eexists. split; [vm_compute; reflexivity|]. split; vm_compute; reflexivity. Qed.
Print Assumptions C69_fit. Print Assumptions C69_predict. Print Assumptions C69_separates.
