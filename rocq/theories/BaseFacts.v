(** Lemmas about the primitives of Base.v. *)
From Verif Require Import Base.

(** ** Results *)

Lemma mapM_ok_iff {A B} (f : A -> res B) l r :
  mapM f l = Ok r <-> Forall2 (fun x y => f x = Ok y) l r.
Proof.
  revert r. induction l as [|x l IH]; intros r; simpl.
  - split; intros E.
    + inversion E. constructor.
    + inversion E. reflexivity.
  - split; intros E.
    + destruct (f x) as [y|e] eqn:Ef; simpl in E; [|discriminate].
      destruct (mapM f l) as [ys|e] eqn:Em; simpl in E; [|discriminate].
      inversion E; subst. constructor; [exact Ef|]. apply IH. reflexivity.
    + inversion E as [|? y ? ys Ef Er]; subst. rewrite Ef. simpl.
      apply IH in Er. rewrite Er. reflexivity.
Qed.

Lemma mapM_pure {A B} (f : A -> res B) (g : A -> B) l :
  (forall x, In x l -> f x = Ok (g x)) -> mapM f l = Ok (map g l).
Proof.
  induction l as [|x l IH]; intros E; simpl; [reflexivity|].
  rewrite E by (left; reflexivity). simpl.
  rewrite IH by (intros; apply E; right; assumption). reflexivity.
Qed.

Lemma mapM_length {A B} (f : A -> res B) l r : mapM f l = Ok r -> List.length r = List.length l.
Proof.
  intros E. apply mapM_ok_iff in E. induction E; simpl; congruence.
Qed.

Lemma mapM_app {A B} (f : A -> res B) l1 l2 :
  mapM f (l1 ++ l2) = (x <- mapM f l1 ;; y <- mapM f l2 ;; Ok (x ++ y)).
Proof.
  induction l1 as [|a l1 IH]; simpl.
  - destruct (mapM f l2); reflexivity.
  - rewrite IH. destruct (f a); simpl; [|reflexivity].
    destruct (mapM f l1); simpl; [|reflexivity].
    destruct (mapM f l2); reflexivity.
Qed.

(** ** Indexing *)

Lemma get_item_nat {A} (a : list A) k x :
  nth_error a k = Some x -> get_item a (Z.of_nat k) = Ok x.
Proof.
  intros E. unfold get_item, py_index.
  assert (k < List.length a)%nat by (apply nth_error_Some; congruence).
  replace ((0 <=? Z.of_nat k)%Z && (Z.of_nat k <? Z.of_nat (List.length a))%Z) with true by lia.
  rewrite Nat2Z.id, E. reflexivity.
Qed.

Lemma get_item_nat_inv {A} (a : list A) k x :
  get_item a (Z.of_nat k) = Ok x -> nth_error a k = Some x.
Proof.
  unfold get_item, py_index. intros E.
  destruct ((0 <=? Z.of_nat k)%Z && (Z.of_nat k <? Z.of_nat (List.length a))%Z) eqn:B.
  - rewrite Nat2Z.id in E. destruct (nth_error a k); congruence.
  - destruct ((- Z.of_nat (List.length a) <=? Z.of_nat k)%Z && (Z.of_nat k <? 0)%Z) eqn:B2;
      [lia|discriminate].
Qed.

Lemma take_nat_iff {A} (a : list A) idx r :
  take a (map Z.of_nat idx) = Ok r <-> Forall2 (fun k x => nth_error a k = Some x) idx r.
Proof.
  unfold take. rewrite mapM_ok_iff. revert r.
  induction idx as [|k idx IH]; intros r; simpl.
  - split; inversion 1; constructor.
  - split; inversion 1; subst; constructor; try (apply IH; assumption).
    + apply get_item_nat_inv. assumption.
    + apply get_item_nat. assumption.
Qed.

Lemma take_length {A} (a : list A) loc r : take a loc = Ok r -> List.length r = List.length loc.
Proof. apply mapM_length. Qed.

Lemma get_item_map {A B} (f : A -> B) (a : list A) i :
  get_item (map f a) i = (x <- get_item a i ;; Ok (f x)).
Proof.
  unfold get_item. rewrite map_length.
  destruct (py_index (List.length a) i) as [k|]; simpl; [|reflexivity].
  rewrite nth_error_map. destruct (nth_error a k); reflexivity.
Qed.

Lemma take_map {A B} (f : A -> B) (a : list A) loc :
  take (map f a) loc = (r <- take a loc ;; Ok (map f r)).
Proof.
  unfold take. induction loc as [|i loc IH]; simpl; [reflexivity|].
  rewrite IH, get_item_map.
  destruct (get_item a i); simpl; [|reflexivity].
  destruct (mapM (get_item a) loc); reflexivity.
Qed.

Lemma take_total {A} (a : list A) idx :
  (forall k, In k idx -> (k < List.length a)%nat) ->
  exists r, take a (map Z.of_nat idx) = Ok r.
Proof.
  induction idx as [|k idx IH]; intros Hb; simpl; [eexists; reflexivity|].
  assert (Hk : (k < List.length a)%nat) by (apply Hb; left; reflexivity).
  apply nth_error_Some in Hk. destruct (nth_error a k) as [x|] eqn:E; [|congruence].
  destruct IH as [r Hr]; [intros; apply Hb; right; assumption|].
  exists (x :: r). unfold take in *. simpl. rewrite (get_item_nat _ _ _ E). simpl.
  rewrite Hr. reflexivity.
Qed.

Lemma take_seq {A} (a : list A) : take a (map Z.of_nat (seq 0 (List.length a))) = Ok a.
Proof.
  apply take_nat_iff.
  assert (H : forall pre, Forall2 (fun k x => nth_error (pre ++ a) k = Some x)
                            (seq (List.length pre) (List.length a)) a).
  { induction a as [|x a IH]; intros pre; simpl; constructor.
    - rewrite nth_error_app2 by lia. rewrite Nat.sub_diag. reflexivity.
    - specialize (IH (pre ++ [x])). rewrite app_length in IH. simpl in IH.
      rewrite Nat.add_1_r in IH. rewrite <- app_assoc in IH. exact IH. }
  exact (H []).
Qed.

Lemma take_perm {A} (a r : list A) idx :
  Permutation idx (seq 0 (List.length a)) ->
  take a (map Z.of_nat idx) = Ok r -> Permutation r a.
Proof.
  intros Hp Ht.
  assert (G : forall i1 i2 r1 r2, Permutation i1 i2 ->
            take a (map Z.of_nat i1) = Ok r1 -> take a (map Z.of_nat i2) = Ok r2 ->
            Permutation r1 r2).
  { intros i1 i2 r1 r2 P. revert r1 r2. induction P; intros r1 r2 E1 E2.
    - rewrite take_nat_iff in E1, E2. inversion E1; inversion E2; subst; constructor.
    - rewrite take_nat_iff in E1, E2. inversion E1 as [|? y1 ? r1' N1 F1]; inversion E2 as [|? y2 ? r2' N2 F2]; subst.
      rewrite N1 in N2. inversion N2; subst. constructor. apply IHP; apply take_nat_iff; assumption.
    - rewrite take_nat_iff in E1, E2.
      inversion E1 as [|? y1 ? r1' N1 F1]; inversion E2 as [|? y2 ? r2' N2 F2]; subst.
      inversion F1 as [|? z1 ? r1'' N1' F1']; inversion F2 as [|? z2 ? r2'' N2' F2']; subst.
      rewrite N1 in N2'. rewrite N2 in N1'. inversion N1'; inversion N2'; subst.
      assert (r1'' = r2'').
      { clear - F1' F2'. revert r2'' F2'. induction F1' as [|k y l r N F IH]; intros r2 F2; inversion F2; subst; [reflexivity|].
        f_equal; [congruence|]. apply IH. assumption. }
      subst. apply perm_swap.
    - assert (B : forall k, In k l -> (k < List.length a)%nat).
      { intros k Hk. rewrite take_nat_iff in E1. clear - E1 Hk. induction E1; [contradiction|].
        destruct Hk as [->|Hk]; [apply nth_error_Some; congruence| auto]. }
      destruct (take_total a l') as [r' Hr'].
      { intros k Hk. apply B. eapply Permutation_in; [symmetry; eassumption|assumption]. }
      transitivity r'; eauto. }
  eapply G; [exact Hp|exact Ht|apply take_seq].
Qed.

Lemma take_nat_in {A} (a : list A) idx r x :
  take a (map Z.of_nat idx) = Ok r -> In x r -> In x a.
Proof.
  intros E. rewrite take_nat_iff in E. induction E; simpl; [tauto|].
  intros [->|Hi]; [eapply nth_error_In; eassumption|auto].
Qed.

Lemma take_nth {A} (a r : list A) idx j k :
  take a (map Z.of_nat idx) = Ok r -> nth_error idx j = Some k ->
  nth_error r j = nth_error a k.
Proof.
  intros E. rewrite take_nat_iff in E. revert j.
  induction E as [|k0 x0 idx0 r0 N F IH]; intros [|j] Hj; simpl in *; try discriminate.
  - inversion Hj; subst. symmetry. exact N.
  - apply IH. exact Hj.
Qed.

Lemma take_app {A} (a : list A) l1 l2 :
  take a (l1 ++ l2) = (x <- take a l1 ;; y <- take a l2 ;; Ok (x ++ y)).
Proof. apply mapM_app. Qed.

(** ** Ranges *)

Lemma arange_nat lo hi : (0 <= lo)%Z ->
  arange lo hi = map Z.of_nat (seq (Z.to_nat lo) (Z.to_nat (hi - lo))).
Proof.
  intros Hlo. unfold arange.
  assert (G : forall n s, map (fun k => (lo + Z.of_nat k)%Z) (seq s n) =
                     map Z.of_nat (seq (Z.to_nat lo + s) n)).
  { induction n as [|n IH]; intros s; simpl; [reflexivity|].
    f_equal; [lia|]. rewrite IH. f_equal. f_equal. lia. }
  rewrite G. rewrite Nat.add_0_r. reflexivity.
Qed.

Lemma arange_app lo mid hi : (lo <= mid)%Z -> (mid <= hi)%Z ->
  arange lo hi = arange lo mid ++ arange mid hi.
Proof.
  intros H1 H2. unfold arange.
  replace (Z.to_nat (hi - lo)) with (Z.to_nat (mid - lo) + Z.to_nat (hi - mid))%nat by lia.
  rewrite seq_app, map_app. f_equal.
  rewrite Nat.add_0_l.
  assert (G : forall n s, map (fun k => (lo + Z.of_nat k)%Z) (seq (Z.to_nat (mid - lo) + s) n) =
                     map (fun k => (mid + Z.of_nat k)%Z) (seq s n)).
  { induction n as [|n IH]; intros s; simpl; [reflexivity|].
    f_equal; [lia|]. rewrite <- IH. f_equal. f_equal. lia. }
  specialize (G (Z.to_nat (hi - mid)) 0%nat). rewrite Nat.add_0_r in G. exact G.
Qed.

Lemma arange_length lo hi : List.length (arange lo hi) = Z.to_nat (hi - lo).
Proof. unfold arange. rewrite map_length, seq_length. reflexivity. Qed.

Lemma arange_in lo hi x : In x (arange lo hi) <-> (lo <= x < hi)%Z.
Proof.
  unfold arange. rewrite in_map_iff. split.
  - intros [k [E Hk]]. apply in_seq in Hk. lia.
  - intros Hx. exists (Z.to_nat (x - lo)). split; [lia|]. apply in_seq. lia.
Qed.

Lemma arange_empty lo hi : (hi <= lo)%Z -> arange lo hi = [].
Proof. intros. unfold arange. replace (Z.to_nat (hi - lo)) with 0%nat by lia. reflexivity. Qed.

(** ** Membership *)

Section OrdFacts.
Context {A : Type} `{Ord A}.

Lemma inb_iff x (l : list A) : inb x l = true <-> In x l.
Proof.
  unfold inb. rewrite existsb_exists. split.
  - intros [y [Hy E]]. apply eqb_eq in E. subst. exact Hy.
  - intros Hx. exists x. split; [exact Hx|apply eqb_refl].
Qed.

Lemma inb_false x (l : list A) : inb x l = false <-> ~ In x l.
Proof. rewrite <- not_true_iff_false, inb_iff. reflexivity. Qed.

Lemma index_of_some x (l : list A) k :
  index_of x l = Some k <->
  nth_error l k = Some x /\ forall j, (j < k)%nat -> nth_error l j <> Some x.
Proof.
  revert k. induction l as [|y l IH]; intros k; simpl.
  - split; [discriminate|]. intros [E _]. destruct k; discriminate.
  - destruct (eqb_spec x y) as [->|N].
    + split.
      * intros E. inversion E; subst. split; [reflexivity|]. intros; lia.
      * intros [E M]. destruct k as [|k]; [reflexivity|].
        exfalso. apply (M 0%nat); [lia|reflexivity].
    + destruct (index_of x l) as [j|] eqn:E.
      * split.
        -- intros Ek. inversion Ek; subst. destruct (proj1 (IH j) eq_refl) as [E1 M1].
           split; [exact E1|]. intros [|i] Hi; simpl; [congruence|]. apply M1. lia.
        -- intros [Ek M]. destruct k as [|k]; simpl in Ek; [congruence|].
           f_equal. f_equal. assert (Some j = Some k); [|congruence].
           apply IH. split; [exact Ek|]. intros i Hi. apply (M (S i)). lia.
      * split; [discriminate|]. intros [Ek M]. destruct k as [|k]; simpl in Ek; [congruence|].
        exfalso. assert (None = Some k); [|discriminate]. apply IH.
        split; [exact Ek|]. intros i Hi. apply (M (S i)). lia.
Qed.

Lemma index_of_none x (l : list A) : index_of x l = None <-> ~ In x l.
Proof.
  induction l as [|y l IH]; simpl; [tauto|].
  destruct (eqb_spec x y) as [->|N].
  - split; [discriminate|tauto].
  - destruct (index_of x l).
    + split; [discriminate|]. intros C. exfalso. assert (Some n = None) by (apply IH; tauto). discriminate.
    + split; [|reflexivity]. intros _ [->|Hi]; [congruence|]. apply (proj1 IH); tauto.
Qed.

Lemma index_of_in x (l : list A) : In x l -> exists k, index_of x l = Some k /\ (k < List.length l)%nat /\ nth_error l k = Some x.
Proof.
  intros Hi. destruct (index_of x l) as [k|] eqn:E.
  - exists k. apply index_of_some in E as [E _]. split; [reflexivity|]. split; [|exact E].
    apply nth_error_Some. congruence.
  - apply index_of_none in E. contradiction.
Qed.

(** *** unique *)

Definition slt (x y : A) : Prop := leb x y = true /\ x <> y.

Lemma insert_u_in x y (l : list A) : In y (insert_u x l) <-> y = x \/ In y l.
Proof.
  induction l as [|z l IH]; simpl; [intuition|].
  destruct (eqb_spec x z) as [->|N]; simpl; [intuition|].
  destruct (leb x z); simpl; [intuition|]. rewrite IH. tauto.
Qed.

Lemma unique_in y (l : list A) : In y (unique l) <-> In y l.
Proof.
  induction l as [|x l IH]; simpl; [tauto|]. rewrite insert_u_in, IH. intuition.
Qed.

Lemma slt_trans x y z : slt x y -> slt y z -> slt x z.
Proof.
  intros [L1 N1] [L2 N2]. split; [eapply leb_trans; eassumption|].
  intros ->. apply N1. apply leb_antisym; assumption.
Qed.

Lemma insert_u_sorted x (l : list A) : StronglySorted slt l -> StronglySorted slt (insert_u x l).
Proof.
  induction l as [|z l IH]; simpl; intros S; [repeat constructor|].
  inversion S as [|? ? S' F]; subst.
  destruct (eqb_spec x z) as [->|N]; [exact S|].
  destruct (leb x z) eqn:L.
  - constructor; [exact S|]. constructor; [split; assumption|].
    eapply Forall_impl; [|exact F]. intros w Hw. eapply slt_trans; [|exact Hw]. split; assumption.
  - constructor; [apply IH; exact S'|].
    apply Forall_forall. intros w Hw. apply insert_u_in in Hw as [->|Hw].
    + split; [|congruence]. destruct (leb_total z x); [assumption|congruence].
    + eapply Forall_forall in F; eassumption.
Qed.

Lemma unique_sorted (l : list A) : StronglySorted slt (unique l).
Proof. induction l as [|x l IH]; simpl; [constructor|]. apply insert_u_sorted. exact IH. Qed.

Lemma slt_sorted_nodup (l : list A) : StronglySorted slt l -> NoDup l.
Proof.
  induction 1 as [|x l S IH F]; constructor; [|exact IH].
  intros Hi. eapply Forall_forall in F; [|exact Hi]. destruct F. congruence.
Qed.

Lemma unique_nodup (l : list A) : NoDup (unique l).
Proof. apply slt_sorted_nodup, unique_sorted. Qed.

(** A strictly increasing list is determined by its elements. *)
Lemma slt_sorted_ext (l1 l2 : list A) :
  StronglySorted slt l1 -> StronglySorted slt l2 -> (forall x, In x l1 <-> In x l2) -> l1 = l2.
Proof.
  intros S1. revert l2. induction S1 as [|x l1 S1 IH F1]; intros l2 S2 E.
  - destruct l2 as [|y l2]; [reflexivity|]. exfalso. apply (E y). left; reflexivity.
  - destruct S2 as [|y l2 S2 F2].
    + exfalso. apply (E x). left; reflexivity.
    + assert (x = y).
      { destruct (proj1 (E x) (or_introl eq_refl)) as [->|Hx]; [reflexivity|].
        destruct (proj2 (E y) (or_introl eq_refl)) as [->|Hy]; [reflexivity|].
        eapply Forall_forall in F2; [|exact Hx]. eapply Forall_forall in F1; [|exact Hy].
        destruct F1 as [L1 N1], F2 as [L2 N2]. apply leb_antisym; assumption. }
      subst y. f_equal. apply IH; [exact S2|].
      intros z. split; intros Hz.
      * destruct (proj1 (E z) (or_intror Hz)) as [->|]; [|assumption].
        eapply Forall_forall in F1; [|exact Hz]. destruct F1; congruence.
      * destruct (proj2 (E z) (or_intror Hz)) as [->|]; [|assumption].
        eapply Forall_forall in F2; [|exact Hz]. destruct F2; congruence.
Qed.

Lemma unique_of_sorted (l : list A) : StronglySorted slt l -> unique l = l.
Proof.
  intros S. apply slt_sorted_ext; [apply unique_sorted|exact S|]. intros; apply unique_in.
Qed.

Lemma unique_ext (l1 l2 : list A) : (forall x, In x l1 <-> In x l2) -> unique l1 = unique l2.
Proof.
  intros E. apply slt_sorted_ext; try apply unique_sorted. intros x. rewrite !unique_in. apply E.
Qed.

Lemma filter_sorted (f : A -> bool) l : StronglySorted slt l -> StronglySorted slt (filter f l).
Proof.
  induction 1 as [|x l S IH F]; simpl; [constructor|].
  destruct (f x); [|exact IH]. constructor; [exact IH|].
  apply Forall_forall. intros y Hy. apply filter_In in Hy as [Hy _].
  eapply Forall_forall in F; eassumption.
Qed.

Lemma setdiff_in x (a b : list A) : In x (setdiff a b) <-> In x a /\ ~ In x b.
Proof.
  unfold setdiff. rewrite filter_In, unique_in, negb_true_iff, inb_false. reflexivity.
Qed.

Lemma setdiff_sorted (a b : list A) : StronglySorted slt (setdiff a b).
Proof. apply filter_sorted, unique_sorted. Qed.

Lemma intersect1d_in x (a b : list A) : In x (intersect1d a b) <-> In x a /\ In x b.
Proof. unfold intersect1d. rewrite filter_In, unique_in, inb_iff. reflexivity. Qed.

Lemma intersect1d_sorted (a b : list A) : StronglySorted slt (intersect1d a b).
Proof. apply filter_sorted, unique_sorted. Qed.

Lemma union1d_in x (a b : list A) : In x (union1d a b) <-> In x a \/ In x b.
Proof. unfold union1d. rewrite unique_in, in_app_iff. reflexivity. Qed.

(** *** inverse *)

Lemma inverse_length (key : list A) : List.length (inverse key) = List.length key.
Proof. apply map_length. Qed.

Lemma inverse_nth (key : list A) i k :
  nth_error key i = Some k ->
  exists d, nth_error (inverse key) i = Some d /\ nth_error (unique key) d = Some k.
Proof.
  intros E. unfold inverse. rewrite nth_error_map, E. simpl.
  destruct (index_of_in k (unique key)) as [d [D [_ N]]].
  - apply unique_in. eapply nth_error_In; eassumption.
  - exists d. rewrite D. split; [reflexivity|exact N].
Qed.

Lemma inverse_bound (key : list A) d : In d (inverse key) -> (d < List.length (unique key))%nat.
Proof.
  intros Hd. unfold inverse in Hd. apply in_map_iff in Hd as [k [E Hk]].
  destruct (index_of_in k (unique key)) as [j [J [L _]]]; [apply unique_in; exact Hk|].
  rewrite J in E. subst. exact L.
Qed.

Lemma inverse_onto (key : list A) d : (d < List.length (unique key))%nat -> In d (inverse key).
Proof.
  intros Hd. apply nth_error_Some in Hd. destruct (nth_error (unique key) d) as [k|] eqn:E; [|congruence].
  unfold inverse. apply in_map_iff. exists k. split.
  - assert (index_of k (unique key) = Some d) as ->; [|reflexivity].
    apply index_of_some. split; [exact E|]. intros j Hj C.
    pose proof (unique_nodup key) as ND. rewrite NoDup_nth_error in ND.
    assert (j = d); [|lia]. apply ND; [apply nth_error_Some; congruence|congruence].
  - apply unique_in. eapply nth_error_In; eassumption.
Qed.

Lemma inverse_max (key : list A) : key <> [] ->
  (list_max (inverse key) + 1 = List.length (unique key))%nat.
Proof.
  intros Hne.
  assert (L : (0 < List.length (unique key))%nat).
  { destruct key as [|k key]; [congruence|].
    assert (In k (unique (k :: key))) by (apply unique_in; left; reflexivity).
    destruct (unique (k :: key)); [contradiction|simpl; lia]. }
  assert (U : (list_max (inverse key) <= List.length (unique key) - 1)%nat).
  { apply list_max_le. apply Forall_forall. intros d Hd. apply inverse_bound in Hd. lia. }
  assert (In (List.length (unique key) - 1)%nat (inverse key)) as Hin by (apply inverse_onto; lia).
  assert ((List.length (unique key) - 1 <= list_max (inverse key))%nat).
  { assert (F : Forall (fun k => (k <= list_max (inverse key))%nat) (inverse key)) by (apply list_max_le; lia).
    rewrite Forall_forall in F. apply F. exact Hin. }
  lia.
Qed.

End OrdFacts.

(** ** nonzero, masks *)

Lemma nonzero_from_in f : forall k i, In i (nonzero_from k f) <-> (k <= i)%nat /\ nth_error f (i - k) = Some true.
Proof.
  induction f as [|b f IH]; intros k i; simpl.
  - split; [contradiction|]. intros [_ E]. destruct (i - k)%nat; discriminate.
  - destruct b; simpl; rewrite ?IH.
    + split.
      * intros [->|[L E]].
        -- split; [lia|]. rewrite Nat.sub_diag. reflexivity.
        -- split; [lia|]. replace (i - k)%nat with (S (i - S k)) by lia. exact E.
      * intros [L E]. destruct (Nat.eq_dec i k) as [->|N]; [left; reflexivity|right].
        split; [lia|]. replace (i - k)%nat with (S (i - S k)) in E by lia. exact E.
    + split.
      * intros [L E]. split; [lia|]. replace (i - k)%nat with (S (i - S k)) by lia. exact E.
      * intros [L E]. destruct (Nat.eq_dec i k) as [->|N].
        -- rewrite Nat.sub_diag in E. discriminate.
        -- split; [lia|]. replace (i - k)%nat with (S (i - S k)) in E by lia. exact E.
Qed.

Lemma nonzero_in f i : In i (nonzero f) <-> nth_error f i = Some true.
Proof. unfold nonzero. rewrite nonzero_from_in, Nat.sub_0_r. intuition lia. Qed.

Lemma nonzero_from_sorted f : forall k, StronglySorted lt (nonzero_from k f).
Proof.
  induction f as [|b f IH]; intros k; simpl; [constructor|].
  destruct b; [|apply IH]. constructor; [apply IH|].
  apply Forall_forall. intros i Hi. apply nonzero_from_in in Hi. lia.
Qed.

Lemma nonzero_sorted f : StronglySorted lt (nonzero f).
Proof. apply nonzero_from_sorted. Qed.

Lemma lt_sorted_nodup l : StronglySorted lt l -> NoDup l.
Proof.
  induction 1 as [|x l S IH F]; constructor; [|exact IH].
  intros Hi. eapply Forall_forall in F; [|exact Hi]. lia.
Qed.

Lemma nonzero_nodup f : NoDup (nonzero f).
Proof. apply lt_sorted_nodup, nonzero_sorted. Qed.

Lemma sel_map_fst {A B} (f : list bool) (a : list A) (g : A -> B) : sel f (map g a) = map g (sel f a).
Proof.
  revert a. induction f as [|b f IH]; intros [|x a]; simpl; try reflexivity.
  rewrite IH. destruct b; reflexivity.
Qed.

Lemma sel_filter {A} (p : A -> bool) (a : list A) : sel (map p a) a = filter p a.
Proof. induction a as [|x a IH]; simpl; [reflexivity|]. rewrite IH. destruct (p x); reflexivity. Qed.

Lemma mask_map_filter {A} (p : A -> bool) (a : list A) : mask (map p a) a = Ok (filter p a).
Proof. unfold mask. rewrite map_length, Nat.eqb_refl, sel_filter. reflexivity. Qed.

(** Selecting one column by a mask computed from another, through the row list. *)
Lemma mask_rows {R A K} (rows : list R) (key : R -> K) (col : R -> A) (p : K -> bool) :
  mask (map p (map key rows)) (map col rows) = Ok (map col (filter (fun r => p (key r)) rows)).
Proof.
  unfold mask. rewrite !map_length, Nat.eqb_refl, map_map, sel_map_fst, sel_filter. reflexivity.
Qed.

(** ** Sorted permutations *)

Lemma NoDup_perm_seq l n :
  NoDup l -> (forall i, In i l <-> (i < n)%nat) -> Permutation l (seq 0 n).
Proof.
  intros ND E. apply NoDup_Permutation; [exact ND|apply seq_NoDup|].
  intros i. rewrite E, in_seq. lia.
Qed.

Lemma Sorted_perm_unique {A} (le : A -> A -> Prop) l1 l2 :
  (forall x y, le x y -> le y x -> x = y) ->
  StronglySorted le l1 -> StronglySorted le l2 -> Permutation l1 l2 -> l1 = l2.
Proof.
  intros AS S1. revert l2. induction S1 as [|x l1 S1 IH F1]; intros l2 S2 P.
  - apply Permutation_nil in P. congruence.
  - destruct S2 as [|y l2 S2 F2]; [symmetry in P; apply Permutation_nil in P; discriminate|].
    assert (x = y).
    { assert (Hx : In x (y :: l2)) by (eapply Permutation_in; [exact P|left; reflexivity]).
      assert (Hy : In y (x :: l1)) by (eapply Permutation_in; [symmetry; exact P|left; reflexivity]).
      destruct Hx as [->|Hx]; [reflexivity|]. destruct Hy as [->|Hy]; [reflexivity|].
      rewrite Forall_forall in F1, F2. apply AS; [apply F1|apply F2]; assumption. }
    subst y. f_equal. apply IH; [exact S2|]. eapply Permutation_cons_inv; exact P.
Qed.

(** ** Slices *)

Lemma nth_error_firstn {A} (l : list A) m j :
  nth_error (firstn m l) j = if (j <? m)%nat then nth_error l j else None.
Proof.
  revert m j. induction l as [|x l IH]; intros m j.
  - rewrite firstn_nil. destruct (j <? m)%nat; destruct j; reflexivity.
  - destruct m as [|m]; simpl.
    + destruct j; reflexivity.
    + destruct j as [|j]; simpl; [reflexivity|]. rewrite IH. reflexivity.
Qed.

Lemma nth_error_skipn {A} (l : list A) s j : nth_error (skipn s l) j = nth_error l (s + j).
Proof.
  revert s. induction l as [|x l IH]; intros s.
  - rewrite skipn_nil. destruct j, (s + _)%nat; reflexivity.
  - destruct s as [|s]; simpl; [reflexivity|]. apply IH.
Qed.

Lemma in_slice {A} (l : list A) s m x :
  In x (firstn m (skipn s l)) <-> exists d, nth_error l d = Some x /\ (s <= d < s + m)%nat.
Proof.
  split.
  - intros Hx. apply In_nth_error in Hx as [j Hj]. rewrite nth_error_firstn, nth_error_skipn in Hj.
    destruct (Nat.ltb_spec j m); [|discriminate]. exists (s + j)%nat. split; [exact Hj|lia].
  - intros [d [Hd Hr]]. apply nth_error_In with (n := (d - s)%nat).
    rewrite nth_error_firstn, nth_error_skipn.
    replace (d - s <? m)%nat with true by lia. replace (s + (d - s))%nat with d by lia. exact Hd.
Qed.

Lemma StronglySorted_firstn {A} (R : A -> A -> Prop) l m : StronglySorted R l -> StronglySorted R (firstn m l).
Proof.
  intros S. revert m. induction S as [|z l S IH F]; intros [|m]; simpl; try constructor; [apply IH|].
  rewrite Forall_forall in *. intros w Hw. apply F.
  apply (in_slice l 0 m) in Hw. destruct Hw as [d [Hd _]]. eapply nth_error_In; exact Hd.
Qed.

Lemma StronglySorted_skipn {A} (R : A -> A -> Prop) l m : StronglySorted R l -> StronglySorted R (skipn m l).
Proof.
  intros S. revert m. induction S as [|z l S IH F]; intros [|m]; simpl; try constructor; auto.
Qed.

Lemma nth_error_ext {A} (l1 l2 : list A) : (forall i, nth_error l1 i = nth_error l2 i) -> l1 = l2.
Proof.
  revert l2. induction l1 as [|x l1 IH]; intros [|y l2] E.
  - reflexivity.
  - specialize (E 0%nat). discriminate.
  - specialize (E 0%nat). discriminate.
  - pose proof (E 0%nat) as E0. inversion E0; subst. f_equal. apply IH. intros i. apply (E (S i)).
Qed.
