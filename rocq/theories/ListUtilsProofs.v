(** Proofs about the model of list_utils.py. *)
From Verif Require Import Base BaseFacts ListUtils.
Open Scope Z_scope.

(** ** ismember *)

Lemma dict_get_first {A} `{Ord A} (b : list A) : forall i d x,
  dict_get (first_index_dict i b d) x bad_idx =
  if existsb (fun p => eqb x (fst p)) d then dict_get d x bad_idx
  else match index_of x b with Some k => i + Z.of_nat k | None => bad_idx end.
Proof.
  induction b as [|y b IH]; intros i d x; simpl.
  - destruct (existsb (fun p => eqb x (fst p)) d) eqn:E; [reflexivity|].
    unfold dict_get. destruct (find (fun p => eqb x (fst p)) d) as [p|] eqn:F; [|reflexivity].
    apply find_some in F as [F1 F2].
    exfalso. rewrite <- not_true_iff_false in E. apply E. apply existsb_exists. eauto.
  - destruct (existsb (fun p => eqb y (fst p)) d) eqn:Ey; rewrite IH.
    + destruct (existsb (fun p => eqb x (fst p)) d) eqn:E; [reflexivity|].
      destruct (eqb_spec x y) as [->|N]; [congruence|].
      destruct (index_of x b); [lia|reflexivity].
    + simpl. destruct (eqb_spec x y) as [->|N]; simpl.
      * rewrite Ey. unfold dict_get. simpl. rewrite eqb_refl. simpl. lia.
      * destruct (existsb (fun p => eqb x (fst p)) d) eqn:E.
        -- unfold dict_get. simpl. destruct (eqb_spec x y); [congruence|]. reflexivity.
        -- destruct (index_of x b); [lia|reflexivity].
Qed.

Lemma ismember_loc {A} `{Ord A} (a b : list A) :
  snd (ismember a b) = map (fun x => match index_of x b with Some k => Z.of_nat k | None => bad_idx end) a.
Proof.
  unfold ismember. simpl. apply map_ext. intros x. rewrite dict_get_first. simpl.
  destruct (index_of x b); lia.
Qed.

Lemma ismember_f {A} `{Ord A} (a b : list A) :
  fst (ismember a b) = map (fun x => inb x b) a.
Proof.
  pose proof (ismember_loc a b) as L. unfold ismember in *. simpl in *. rewrite L, map_map.
  apply map_ext. intros x. destruct (index_of x b) as [k|] eqn:E.
  - replace (inb x b) with true; [unfold bad_idx; lia|].
    symmetry. apply inb_iff. apply index_of_some in E as [E _]. eapply nth_error_In; eassumption.
  - apply index_of_none in E. apply inb_false in E. rewrite E. rewrite Z.eqb_refl. reflexivity.
Qed.

(** Specification of ismember in terms of positions only. *)
Lemma ismember_spec {A} `{Ord A} (a b : list A) :
  List.length (fst (ismember a b)) = List.length a /\
  List.length (snd (ismember a b)) = List.length a /\
  forall i x, nth_error a i = Some x ->
    (nth_error (fst (ismember a b)) i = Some true <-> In x b) /\
    (nth_error (fst (ismember a b)) i = Some false <-> ~ In x b) /\
    (In x b -> exists k, nth_error (snd (ismember a b)) i = Some (Z.of_nat k) /\
                         nth_error b k = Some x /\
                         forall j, (j < k)%nat -> nth_error b j <> Some x).
Proof.
  rewrite ismember_f, ismember_loc, !map_length. split; [reflexivity|]. split; [reflexivity|].
  intros i x E. rewrite !nth_error_map, E. simpl. split; [|split].
  - rewrite <- inb_iff. split; congruence.
  - rewrite <- inb_false. split; congruence.
  - intros Hx. destruct (index_of_in x b Hx) as [k [K [_ N]]]. exists k. rewrite K.
    split; [reflexivity|]. apply index_of_some in K as [K1 K2]. split; assumption.
Qed.

Lemma intersect_spec {A} `{Ord A} (a b : list A) :
  let '(c, ia, ib) := intersect a b in
  StronglySorted slt c /\
  (forall x, In x c <-> In x a /\ In x b) /\
  List.length ia = List.length c /\ List.length ib = List.length c /\
  (forall i x, nth_error c i = Some x ->
     exists ka kb, nth_error ia i = Some (Z.of_nat ka) /\ nth_error ib i = Some (Z.of_nat kb) /\
       nth_error a ka = Some x /\ (forall j, (j < ka)%nat -> nth_error a j <> Some x) /\
       nth_error b kb = Some x /\ (forall j, (j < kb)%nat -> nth_error b j <> Some x)).
Proof.
  unfold intersect. split; [apply intersect1d_sorted|]. split; [intros x; apply intersect1d_in|].
  destruct (ismember_spec (intersect1d a b) a) as [_ [La Sa]].
  destruct (ismember_spec (intersect1d a b) b) as [_ [Lb Sb]].
  split; [exact La|]. split; [exact Lb|]. intros i x E.
  assert (In x (intersect1d a b)) as Hi by (eapply nth_error_In; eassumption).
  apply intersect1d_in in Hi as [Hxa Hxb].
  destruct (Sa i x E) as [_ [_ Fa]]. destruct (Sb i x E) as [_ [_ Fb]].
  destruct (Fa Hxa) as [ka [A1 [A2 A3]]]. destruct (Fb Hxb) as [kb [B1 [B2 B3]]].
  exists ka, kb. repeat split; assumption.
Qed.

(** ** Boundaries *)

Lemma bound_0 n P : bound 0 n P = 0.
Proof. unfold bound. rewrite Z.mul_0_l. apply Zdiv_0_l. Qed.

Lemma bound_last n P : 1 <= P -> bound P n P = n.
Proof. intros. unfold bound. rewrite Z.mul_comm. apply Z.div_mul. lia. Qed.

Lemma bound_mono k1 k2 n P : 1 <= P -> 0 <= n -> k1 <= k2 -> bound k1 n P <= bound k2 n P.
Proof. intros. unfold bound. apply Z.div_le_mono; nia. Qed.

Lemma bound_nonneg k n P : 1 <= P -> 0 <= n -> 0 <= k -> 0 <= bound k n P.
Proof. intros. unfold bound. apply Z.div_pos; nia. Qed.

Lemma bound_step k n P : 1 <= P ->
  n / P <= bound k n P - bound (k - 1) n P <= n / P + 1.
Proof.
  intros HP. unfold bound.
  pose proof (Z.div_mod n P ltac:(lia)). pose proof (Z.mod_pos_bound n P ltac:(lia)).
  pose proof (Z.div_mod (k * n) P ltac:(lia)). pose proof (Z.mod_pos_bound (k * n) P ltac:(lia)).
  pose proof (Z.div_mod ((k - 1) * n) P ltac:(lia)). pose proof (Z.mod_pos_bound ((k - 1) * n) P ltac:(lia)).
  set (q := n / P) in *. set (r := n mod P) in *.
  set (q1 := (k * n) / P) in *. set (r1 := (k * n) mod P) in *.
  set (q2 := ((k - 1) * n) / P) in *. set (r2 := ((k - 1) * n) mod P) in *.
  assert (P * (q1 - q2 - q) = r + r2 - r1) by nia.
  nia.
Qed.

(** Gluing consecutive ranges. *)
Lemma concat_ranges (b : Z -> Z) (P : nat) :
  (forall k, b k <= b (k + 1)) ->
  concat (map (fun i => arange (b (i - 1)) (b i)) (arange 1 (Z.of_nat P + 1))) =
  arange (b 0) (b (Z.of_nat P)).
Proof.
  intros M. induction P as [|P IH].
  - rewrite (arange_empty 1) by lia. simpl. rewrite arange_empty by lia. reflexivity.
  - rewrite (arange_app 1 (Z.of_nat P + 1)) by lia.
    rewrite map_app, concat_app, IH.
    replace (Z.of_nat (S P) + 1) with (Z.of_nat P + 1 + 1) by lia.
    assert (Hs : arange (Z.of_nat P + 1) (Z.of_nat P + 1 + 1) = [Z.of_nat P + 1]).
    { unfold arange. replace (Z.to_nat (Z.of_nat P + 1 + 1 - (Z.of_nat P + 1))) with 1%nat by lia.
      simpl. f_equal. lia. }
    rewrite Hs. simpl. rewrite app_nil_r.
    replace (Z.of_nat P + 1 - 1) with (Z.of_nat P) by lia.
    rewrite <- arange_app.
    + f_equal. f_equal. lia.
    + clear - M. induction P as [|P IH]; [simpl; lia|].
      etransitivity; [exact IH|]. replace (Z.of_nat (S P)) with (Z.of_nat P + 1) by lia. apply M.
    + apply M.
Qed.

Lemma take_arange {A} (a : list A) lo hi :
  0 <= lo -> hi <= Z.of_nat (List.length a) ->
  exists x, take a (arange lo hi) = Ok x.
Proof.
  intros H1 H2. rewrite arange_nat by assumption. apply take_total.
  intros k Hk. apply in_seq in Hk. lia.
Qed.

Lemma mapM_fst_concat {A} (a : list A) (locs : list (list Z)) parts :
  Forall2 (fun l p => take a l = Ok (fst p) /\ snd p = l) locs parts ->
  exists x, take a (concat locs) = Ok x /\ concat (map fst parts) = x /\ concat (map snd parts) = concat locs.
Proof.
  induction 1 as [|l p locs parts [E1 E2] F IH]; simpl.
  - exists []. repeat split; reflexivity.
  - destruct IH as [x [T [C1 C2]]]. exists (fst p ++ x). rewrite take_app, E1. simpl. rewrite T. simpl.
    rewrite C1, C2, E2. repeat split; reflexivity.
Qed.

Lemma split_list_partition_lemma {A} (a : list A) (P : Z) : 1 <= P ->
  exists parts,
    mapM (fun i => split_list a i P) (arange 1 (P + 1)) = Ok parts /\
    concat (map fst parts) = a /\
    concat (map snd parts) = arange 0 (Z.of_nat (List.length a)) /\
    (forall p, In p parts -> take a (snd p) = Ok (fst p)) /\
    (forall p q, In p parts -> In q parts ->
       Z.abs (Z.of_nat (List.length (fst p)) - Z.of_nat (List.length (fst q))) <= 1).
Proof.
  intros HP. set (n := Z.of_nat (List.length a)).
  assert (Hn : 0 <= n) by (unfold n; lia).
  assert (Hex : forall i, 1 <= i <= P -> exists x, split_list a i P = Ok (x, arange (bound (i-1) n P) (bound i n P))
                 /\ take a (arange (bound (i-1) n P) (bound i n P)) = Ok x).
  { intros i Hi. unfold split_list, split_list_with. replace (P =? 0) with false by lia. fold n.
    destruct (take_arange a (bound (i-1) n P) (bound i n P)) as [x Hx].
    - apply bound_nonneg; lia.
    - fold n. rewrite <- (bound_last n P) at 2 by lia. apply bound_mono; lia.
    - exists x. rewrite Hx. split; reflexivity. }
  assert (Hparts : forall l, (forall i, In i l -> 1 <= i <= P) ->
     exists parts, mapM (fun i => split_list a i P) l = Ok parts /\
       Forall2 (fun lc p => take a lc = Ok (fst p) /\ snd p = lc)
         (map (fun i => arange (bound (i-1) n P) (bound i n P)) l) parts /\
       Forall (fun p => n / P <= Z.of_nat (List.length (fst p)) <= n / P + 1) parts).
  { induction l as [|i l IH]; intros Hl; simpl.
    - exists []. repeat split; constructor.
    - destruct (Hex i) as [x [E T]]; [apply Hl; left; reflexivity|].
      destruct IH as [parts [M [F B]]]; [intros; apply Hl; right; assumption|].
      eexists. rewrite E. simpl. rewrite M. simpl. split; [reflexivity|].
      split; constructor; try assumption.
      + simpl. split; [exact T|reflexivity].
      + simpl. rewrite (take_length _ _ _ T), arange_length.
        pose proof (bound_step i n P HP).
        assert (0 <= n / P) by (apply Z.div_pos; lia). lia. }
  destruct (Hparts (arange 1 (P + 1))) as [parts [M [F B]]].
  { intros i Hi. apply arange_in in Hi. lia. }
  exists parts. split; [exact M|].
  assert (C : concat (map (fun i => arange (bound (i-1) n P) (bound i n P)) (arange 1 (P+1))) = arange 0 n).
  { pose proof (concat_ranges (fun k => bound k n P) (Z.to_nat P)) as C.
    rewrite Z2Nat.id in C by lia. cbn beta in C. rewrite C.
    - rewrite bound_0, bound_last by lia. reflexivity.
    - intros k. apply bound_mono; lia. }
  destruct (mapM_fst_concat _ _ _ F) as [x [T [C1 C2]]]. rewrite C in T, C2.
  split; [|split; [|split]].
  - rewrite C1. rewrite arange_nat in T by lia. unfold n in T.
    replace (Z.to_nat (Z.of_nat (List.length a) - 0)) with (List.length a) in T by lia.
    replace (Z.to_nat 0) with 0%nat in T by lia.
    rewrite (take_seq a) in T. congruence.
  - exact C2.
  - intros p Hp. clear - F Hp. induction F as [|l q ls ps [E1 E2] F IH]; [contradiction|].
    destruct Hp as [->|Hp]; [congruence|auto].
  - intros p q Hp Hq. rewrite Forall_forall in B. specialize (B p Hp) as Bp. specialize (B q Hq) as Bq. lia.
Qed.

(** ** Grouped split *)

Definition grp (ids : list nat) (i : Z) : list nat :=
  nonzero (map (fun d => Z.of_nat d =? i) ids).

Lemma grp_in ids i k : In k (grp ids i) <-> exists d, nth_error ids k = Some d /\ Z.of_nat d = i.
Proof.
  unfold grp. rewrite nonzero_in, nth_error_map. destruct (nth_error ids k) as [d|]; simpl.
  - split.
    + intros E. exists d. split; [reflexivity|]. inversion E. lia.
    + intros [d' [E1 E2]]. inversion E1; subst. rewrite Z.eqb_refl. reflexivity.
  - split; [discriminate|]. intros [d [E _]]. discriminate.
Qed.

Definition id_lt (ids : list nat) (k1 k2 : nat) : Prop :=
  exists d1 d2, nth_error ids k1 = Some d1 /\ nth_error ids k2 = Some d2 /\
    ((d1 < d2)%nat \/ d1 = d2 /\ (k1 < k2)%nat).

Lemma StronglySorted_app {A} (R : A -> A -> Prop) l1 l2 :
  StronglySorted R l1 -> StronglySorted R l2 ->
  (forall x y, In x l1 -> In y l2 -> R x y) -> StronglySorted R (l1 ++ l2).
Proof.
  intros S1 S2 C. induction S1 as [|x l1 S1 IH F]; simpl; [exact S2|].
  constructor.
  - apply IH. intros; apply C; [right; assumption|assumption].
  - apply Forall_app. split; [exact F|]. apply Forall_forall. intros y Hy. apply C; [left; reflexivity|exact Hy].
Qed.

Lemma StronglySorted_impl_in {A} (R R' : A -> A -> Prop) l :
  (forall x y, In x l -> In y l -> R x y -> R' x y) -> StronglySorted R l -> StronglySorted R' l.
Proof.
  intros I S. induction S as [|x l S IH F]; constructor.
  - apply IH. intros; apply I; try (right; assumption); assumption.
  - rewrite Forall_forall in *. intros y Hy. apply I; [left; reflexivity|right; exact Hy|apply F; exact Hy].
Qed.

Lemma grp_sorted ids i : StronglySorted (id_lt ids) (grp ids i).
Proof.
  eapply StronglySorted_impl_in; [|apply nonzero_sorted].
  intros x y Hx Hy L. apply grp_in in Hx as [d1 [E1 I1]]. apply grp_in in Hy as [d2 [E2 I2]].
  exists d1, d2. split; [exact E1|]. split; [exact E2|]. right. split; [lia|exact L].
Qed.

Lemma groups_sorted ids lo hi :
  StronglySorted (id_lt ids) (concat (map (grp ids) (arange lo hi))).
Proof.
  unfold arange. generalize 0%nat as s. induction (Z.to_nat (hi - lo)) as [|n IH]; intros s; simpl; [constructor|].
  apply StronglySorted_app; [apply grp_sorted|apply IH|].
  intros x y Hx Hy. apply grp_in in Hx as [d1 [E1 I1]].
  apply in_concat in Hy as [l [Hl Hy]]. apply in_map_iff in Hl as [i [<- Hi]].
  apply in_map_iff in Hi as [k [<- Hk]]. apply in_seq in Hk.
  apply grp_in in Hy as [d2 [E2 I2]]. exists d1, d2. split; [exact E1|]. split; [exact E2|]. lia.
Qed.

Lemma groups_in ids lo hi k :
  In k (concat (map (grp ids) (arange lo hi))) <->
  exists d, nth_error ids k = Some d /\ lo <= Z.of_nat d < hi.
Proof.
  rewrite in_concat. split.
  - intros [l [Hl Hk]]. apply in_map_iff in Hl as [i [<- Hi]]. apply arange_in in Hi.
    apply grp_in in Hk as [d [E I]]. exists d. split; [exact E|lia].
  - intros [d [E I]]. exists (grp ids (Z.of_nat d)). split.
    + apply in_map. apply arange_in. lia.
    + apply grp_in. exists d. split; [exact E|reflexivity].
Qed.

Lemma id_lt_nodup ids l : StronglySorted (id_lt ids) l -> NoDup l.
Proof.
  induction 1 as [|x l S IH F]; constructor; [|exact IH].
  intros Hi. rewrite Forall_forall in F. destruct (F x Hi) as [d1 [d2 [E1 [E2 [L|[_ L]]]]]].
  - rewrite E1 in E2. inversion E2. lia.
  - lia.
Qed.

Lemma groups_length ids lo hi :
  (List.length (concat (map (grp ids) (arange lo hi))) <= List.length ids)%nat.
Proof.
  rewrite <- (seq_length (List.length ids) 0). apply NoDup_incl_length.
  - eapply id_lt_nodup. apply groups_sorted.
  - intros k Hk. apply groups_in in Hk as [d [E _]]. apply in_seq.
    split; [lia|]. apply nth_error_Some. congruence.
Qed.

Lemma fill_groups_ok ids cap gs : forall loc,
  (List.length (loc ++ concat (map (grp ids) gs)) <= cap)%nat ->
  fill_groups ids cap gs loc = Ok (loc ++ concat (map (grp ids) gs)).
Proof.
  induction gs as [|i gs IH]; intros loc L; simpl.
  - rewrite app_nil_r. reflexivity.
  - simpl in L. rewrite !app_length in L. fold (grp ids i).
    replace (cap <? List.length loc + List.length (grp ids i))%nat with false by lia.
    rewrite IH.
    + rewrite <- app_assoc. reflexivity.
    + rewrite !app_length. lia.
Qed.

Lemma split_group_unfold {A K} `{Ord K} (a : list A) (key : list K) idx P : key <> [] -> P <> 0 ->
  split_list_group_by_key a key idx P =
  (loc <- fill_groups (inverse key) (List.length a)
            (arange (bound (idx - 1) (Z.of_nat (list_max (inverse key)) + 1) P)
                    (bound idx (Z.of_nat (list_max (inverse key)) + 1) P)) [] ;;
   x <- take a (map Z.of_nat loc) ;; Ok (x, map Z.of_nat loc)).
Proof.
  intros Hne HP. unfold split_list_group_by_key, split_list_group_by_key_with. destruct key; [congruence|].
  replace (P =? 0) with false by lia. reflexivity.
Qed.

Section Grouped.
Context {A K : Type} `{Ord K}.
Variable a : list A.
Variable key : list K.
Hypothesis Hne : key <> [].
Hypothesis Hlen : List.length a = List.length key.
Let ids := inverse key.
Let n := Z.of_nat (List.length (unique key)).

Lemma split_group_ok i P : 1 <= i <= P ->
  exists x, split_list_group_by_key a key i P =
     Ok (x, map Z.of_nat (concat (map (grp ids) (arange (bound (i-1) n P) (bound i n P))))) /\
     take a (map Z.of_nat (concat (map (grp ids) (arange (bound (i-1) n P) (bound i n P))))) = Ok x.
Proof.
  intros Hi. rewrite split_group_unfold by (assumption || lia).
  fold ids. replace (Z.of_nat (list_max ids) + 1) with n
    by (unfold n, ids; pose proof (inverse_max key Hne); lia).
  assert (Li : List.length ids = List.length key) by apply inverse_length.
  rewrite fill_groups_ok.
  2: { simpl. etransitivity; [apply groups_length|]. lia. }
  simpl. set (loc := concat _).
  destruct (take_total a loc) as [x Hx].
  - intros k Hk. apply groups_in in Hk as [d [E _]]. rewrite Hlen, <- Li. apply nth_error_Some. congruence.
  - exists x. rewrite Hx. split; reflexivity.
Qed.

Lemma group_concat P : 1 <= P ->
  concat (map (fun i => map Z.of_nat (concat (map (grp ids) (arange (bound (i-1) n P) (bound i n P)))))
              (arange 1 (P + 1))) =
  map Z.of_nat (concat (map (grp ids) (arange 0 n))).
Proof.
  intros HP.
  pose proof (concat_ranges (fun k => bound k n P) (Z.to_nat P)) as C.
  rewrite Z2Nat.id in C by lia. cbn beta in C. rewrite bound_0, bound_last in C by lia.
  rewrite <- C by (intros k; apply bound_mono; unfold n; lia).
  generalize (arange 1 (P + 1)) as l. clear C. induction l as [|i l IH]; simpl; [reflexivity|].
  rewrite map_app, concat_app, map_app, IH. reflexivity.
Qed.

Definition key_at (i : Z) (k : K) : Prop := get_item key i = Ok k.

Definition key_pos_lt (i j : Z) : Prop :=
  forall ki kj, key_at i ki -> key_at j kj ->
    (leb ki kj = true /\ ki <> kj) \/ (ki = kj /\ i < j).

Lemma slt_nth (l : list K) i j x y : StronglySorted slt l -> (i < j)%nat ->
  nth_error l i = Some x -> nth_error l j = Some y -> slt x y.
Proof.
  intros S. revert i j. induction S as [|z l S IH F]; intros [|i] [|j] L E1 E2; simpl in *; try discriminate; try lia.
  - inversion E1; subst. rewrite Forall_forall in F. apply F. eapply nth_error_In; eassumption.
  - eapply IH; [|eassumption|eassumption]. lia.
Qed.

Lemma ids_key i d k : nth_error ids i = Some d -> nth_error key i = Some k -> nth_error (unique key) d = Some k.
Proof.
  intros E1 E2. destruct (inverse_nth key i k E2) as [d' [E3 E4]]. fold ids in E3. congruence.
Qed.

Lemma id_lt_key_pos_lt x y : id_lt ids x y -> key_pos_lt (Z.of_nat x) (Z.of_nat y).
Proof.
  intros [d1 [d2 [E1 [E2 C]]]] k1 k2 K1 K2.
  apply get_item_nat_inv in K1. apply get_item_nat_inv in K2.
  pose proof (ids_key _ _ _ E1 K1) as U1. pose proof (ids_key _ _ _ E2 K2) as U2.
  destruct C as [L|[-> L]].
  - left. exact (slt_nth _ _ _ _ _ (unique_sorted key) L U1 U2).
  - right. split; [congruence|lia].
Qed.

Lemma StronglySorted_map {X Y} (R : X -> X -> Prop) (R' : Y -> Y -> Prop) (f : X -> Y) l :
  (forall x y, R x y -> R' (f x) (f y)) -> StronglySorted R l -> StronglySorted R' (map f l).
Proof.
  intros I S. induction S as [|x l S IH F]; simpl; constructor; [exact IH|].
  rewrite Forall_forall in *. intros y Hy. apply in_map_iff in Hy as [z [<- Hz]]. apply I, F, Hz.
Qed.

(* number of distinct keys of one part *)
Lemma group_distinct lo hi ks : 0 <= lo <= hi -> hi <= n ->
  take key (map Z.of_nat (concat (map (grp ids) (arange lo hi)))) = Ok ks ->
  Z.of_nat (List.length (unique ks)) = hi - lo.
Proof.
  intros Hb Hh T.
  (* unique ks = slice of unique key *)
  assert (E : unique ks = firstn (Z.to_nat (hi - lo)) (skipn (Z.to_nat lo) (unique key))).
  { apply slt_sorted_ext; [apply unique_sorted|apply StronglySorted_firstn, StronglySorted_skipn, unique_sorted|].
    intros k. rewrite unique_in.
    rewrite in_slice. split.
    - intros Hk. apply In_nth_error in Hk as [q Hq].
      assert (Hq' : (q < List.length (concat (map (grp ids) (arange lo hi))))%nat).
      { pose proof (take_length _ _ _ T) as L. rewrite map_length in L. rewrite <- L. apply nth_error_Some. congruence. }
      apply nth_error_Some in Hq'. destruct (nth_error (concat (map (grp ids) (arange lo hi))) q) as [pos|] eqn:Ep; [|congruence].
      rewrite (take_nth _ _ _ _ _ T Ep) in Hq.
      assert (In pos (concat (map (grp ids) (arange lo hi)))) as Hpos by (eapply nth_error_In; exact Ep).
      apply groups_in in Hpos as [d [Ed Hd]]. exists d. split; [eapply ids_key; eassumption|lia].
    - intros [d [Hd Hr]].
      assert (In d ids) as Hdi.
      { apply inverse_onto. apply nth_error_Some. congruence. }
      apply In_nth_error in Hdi as [pos Hpos].
      assert (Hk : exists k', nth_error key pos = Some k').
      { assert (pos < List.length key)%nat. { rewrite <- (inverse_length key). apply nth_error_Some. fold ids. congruence. }
        apply nth_error_Some in H0. destruct (nth_error key pos); [eauto|congruence]. }
      destruct Hk as [k' Hk']. pose proof (ids_key _ _ _ Hpos Hk') as U. assert (k' = k) by congruence. subst k'.
      assert (In pos (concat (map (grp ids) (arange lo hi)))) as Hp by (apply groups_in; exists d; split; [exact Hpos|lia]).
      apply In_nth_error in Hp as [q Hq]. pose proof (take_nth _ _ _ _ _ T Hq) as N. rewrite Hk' in N.
      eapply nth_error_In; exact N. }
  rewrite E. rewrite firstn_length, skipn_length. unfold n in Hh. lia.
Qed.

Lemma split_group_partition_lemma P : 1 <= P ->
  exists parts,
    mapM (fun i => split_list_group_by_key a key i P) (arange 1 (P + 1)) = Ok parts /\
    (forall p, In p parts -> take a (snd p) = Ok (fst p)) /\
    Permutation (concat (map snd parts)) (arange 0 (Z.of_nat (List.length a))) /\
    StronglySorted key_pos_lt (concat (map snd parts)) /\
    (forall p i j k, In p parts -> In i (snd p) -> key_at i k -> key_at j k ->
        0 <= j < Z.of_nat (List.length a) -> In j (snd p)) /\
    (forall p q kp kq, In p parts -> In q parts -> take key (snd p) = Ok kp -> take key (snd q) = Ok kq ->
       Z.abs (Z.of_nat (List.length (unique kp)) - Z.of_nat (List.length (unique kq))) <= 1).
Proof.
  intros HP.
  set (L := fun i => map Z.of_nat (concat (map (grp ids) (arange (bound (i-1) n P) (bound i n P))))).
  assert (Hparts : forall l, (forall i, In i l -> 1 <= i <= P) ->
     exists parts, mapM (fun i => split_list_group_by_key a key i P) l = Ok parts /\
       Forall2 (fun lc p => take a lc = Ok (fst p) /\ snd p = lc) (map L l) parts).
  { induction l as [|i l IH]; intros Hl; simpl.
    - exists []. repeat split; constructor.
    - destruct (split_group_ok i P) as [x [E T]]; [apply Hl; left; reflexivity|].
      destruct IH as [parts [M F]]; [intros; apply Hl; right; assumption|].
      eexists. rewrite E. simpl. rewrite M. simpl. split; [reflexivity|].
      constructor; [|assumption]. simpl. split; [exact T|reflexivity]. }
  destruct (Hparts (arange 1 (P + 1))) as [parts [M F]].
  { intros i Hi. apply arange_in in Hi. lia. }
  exists parts. split; [exact M|].
  destruct (mapM_fst_concat _ _ _ F) as [x [T [C1 C2]]].
  unfold L in C2. rewrite group_concat in C2 by exact HP.
  assert (Hpart : forall p, In p parts -> take a (snd p) = Ok (fst p) /\
             exists i, 1 <= i <= P /\ snd p = L i).
  { intros p Hp. clear - F Hp.
    assert (Hall : forall i, In i (arange 1 (P+1)) -> 1 <= i <= P) by (intros i Hi; apply arange_in in Hi; lia).
    revert F Hall. generalize (arange 1 (P+1)) as l. intros l. revert Hp.
    generalize dependent parts. intros ps. revert l.
    induction ps as [|q ps IH]; intros l Hp F Hall; [contradiction|].
    destruct l as [|i l]; simpl in F; inversion F as [|? ? ? ? [E1 E2] F']; subst.
    destruct Hp as [->|Hp].
    - rewrite E2. split; [exact E1|]. exists i. split; [apply Hall; left; reflexivity|reflexivity].
    - eapply IH; [exact Hp|exact F'|]. intros; apply Hall; right; assumption. }
  split; [intros p Hp; apply Hpart; exact Hp|].
  split; [|split; [|split]].
  - rewrite C2. rewrite (arange_nat 0 (Z.of_nat (List.length a))) by lia. apply Permutation_map.
    replace (Z.to_nat 0) with 0%nat by lia. replace (Z.to_nat (Z.of_nat (List.length a) - 0)) with (List.length a) by lia.
    apply NoDup_perm_seq.
    + eapply id_lt_nodup. apply groups_sorted.
    + intros k. rewrite groups_in. rewrite Hlen. rewrite <- (inverse_length key). fold ids. split.
      * intros [d [E _]]. apply nth_error_Some. congruence.
      * intros Hk. apply nth_error_Some in Hk. destruct (nth_error ids k) as [d|] eqn:E; [|congruence].
        exists d. split; [reflexivity|]. split; [lia|]. unfold n.
        pose proof (inverse_bound key d (nth_error_In _ _ E)). lia.
  - rewrite C2. eapply StronglySorted_map; [|apply groups_sorted]. apply id_lt_key_pos_lt.
  - intros p i j k Hp Hi Ki Kj Hj. destruct (Hpart p Hp) as [_ [b [Hb E]]]. rewrite E in *. unfold L in *.
    apply in_map_iff in Hi as [i' [<- Hi']]. apply groups_in in Hi' as [d [Ed Hd]].
    apply in_map_iff. exists (Z.to_nat j). split; [lia|]. apply groups_in. exists d. split; [|exact Hd].
    apply get_item_nat_inv in Ki. unfold key_at in Kj. replace j with (Z.of_nat (Z.to_nat j)) in Kj by lia.
    apply get_item_nat_inv in Kj.
    destruct (inverse_nth key _ _ Kj) as [d' [E1 E2]]. fold ids in E1.
    pose proof (ids_key _ _ _ Ed Ki) as U.
    assert (d = d'); [|congruence].
    pose proof (unique_nodup key) as ND. rewrite NoDup_nth_error in ND. apply ND; [|congruence].
    apply nth_error_Some. congruence.
  - intros p q kp kq Hp Hq Tp Tq.
    destruct (Hpart p Hp) as [_ [b1 [Hb1 E1]]]. destruct (Hpart q Hq) as [_ [b2 [Hb2 E2]]].
    rewrite E1 in Tp. rewrite E2 in Tq. unfold L in *.
    assert (Hn : 0 <= n) by (unfold n; lia).
    assert (B : forall b ks, 1 <= b <= P ->
      take key (map Z.of_nat (concat (map (grp ids) (arange (bound (b-1) n P) (bound b n P))))) = Ok ks ->
      Z.of_nat (List.length (unique ks)) = bound b n P - bound (b - 1) n P).
    { intros b ks Hb T'. eapply group_distinct; [| |exact T'].
      - split; [apply bound_nonneg; lia|apply bound_mono; lia].
      - rewrite <- (bound_last n P HP) at 2. apply bound_mono; lia. }
    rewrite (B _ _ Hb1 Tp), (B _ _ Hb2 Tq).
    pose proof (bound_step b1 n P HP). pose proof (bound_step b2 n P HP). lia.
Qed.
End Grouped.
