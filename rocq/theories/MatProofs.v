(** Facts about the 2-D array primitives of Mat.v. *)
From Verif Require Export BaseFacts Mat.
Open Scope list_scope.
Open Scope Z_scope.

Lemma mget_some {A} (M : mat A) r c i j v : has_shape M r c -> mget M i j = Some v -> (i < r /\ j < c)%nat.
Proof.
  intros (H1 & H2 & H3) E. unfold mget in E. destruct (nth_error (m_rows M) i) as [row|] eqn:R; [|discriminate].
  assert (i < len (m_rows M))%nat by (apply nth_error_Some; congruence).
  assert (j < len row)%nat by (apply nth_error_Some; congruence).
  rewrite Forall_forall in H3. rewrite (H3 row) in H0 by (eapply nth_error_In; exact R). lia.
Qed.

Lemma mget_lt {A} (M : mat A) r c i j : has_shape M r c -> (i < r)%nat -> (j < c)%nat -> exists v, mget M i j = Some v.
Proof.
  intros (H1 & H2 & H3) Hi Hj. unfold mget. destruct (nth_error (m_rows M) i) as [row|] eqn:R; [|apply nth_error_None in R; lia].
  rewrite Forall_forall in H3. assert (len row = c) by (apply H3; eapply nth_error_In; exact R).
  destruct (nth_error row j) as [v|] eqn:E; [eauto|apply nth_error_None in E; lia].
Qed.

Lemma mat_ext {A} (M N : mat A) r c : has_shape M r c -> has_shape N r c ->
  (forall i j, (i < r)%nat -> (j < c)%nat -> mget M i j = mget N i j) -> M = N.
Proof.
  intros HM HN H. destruct M as [mc mr], N as [nc nr]. pose proof HM as (A1 & A2 & A3). pose proof HN as (B1 & B2 & B3).
  cbn [m_rows m_cols] in *. subst mc nc. f_equal. apply nth_error_ext. intros i.
  destruct (nth_error mr i) as [row|] eqn:E.
  - assert (i < r)%nat by (rewrite <- A1; apply nth_error_Some; congruence).
    destruct (nth_error nr i) as [row'|] eqn:E'; [|apply nth_error_None in E'; lia]. f_equal.
    rewrite Forall_forall in A3, B3. assert (L1 : len row = c) by (apply A3; eapply nth_error_In; exact E).
    assert (L2 : len row' = c) by (apply B3; eapply nth_error_In; exact E').
    apply nth_error_ext. intros j. destruct (Nat.lt_ge_cases j c) as [Hj|Hj].
    + specialize (H i j ltac:(lia) Hj). unfold mget in H. cbn [m_rows] in H. rewrite E, E' in H. exact H.
    + rewrite (proj2 (nth_error_None row j)), (proj2 (nth_error_None row' j)) by lia. reflexivity.
  - apply nth_error_None in E. symmetry. apply nth_error_None. lia.
Qed.

Lemma shape_is_ok {A} (M : mat A) r c : has_shape M r c -> shape_is M r c = true.
Proof. intros (H1 & H2 & _). unfold shape_is. rewrite H1, H2, !Nat.eqb_refl. reflexivity. Qed.

Lemma shape_is_iff {A} (M : mat A) r c r' c' : has_shape M r c -> (shape_is M r' c' = true <-> r' = r /\ c' = c).
Proof. intros (H1 & H2 & _). unfold shape_is. rewrite andb_true_iff, !Nat.eqb_eq. lia. Qed.

Lemma mfull_shape {A} r c (v : A) : has_shape (mfull r c v) r c.
Proof.
  repeat split; cbn; [apply repeat_length|]. apply Forall_forall. intros x H. apply repeat_spec in H as ->. apply repeat_length.
Qed.

Lemma nth_error_repeat_lt {A} (v : A) n i : (i < n)%nat -> nth_error (repeat v n) i = Some v.
Proof. revert i. induction n as [|n IH]; intros [|i] H; cbn; try lia; auto. apply IH. lia. Qed.

Lemma mfull_get {A} r c (v : A) i j : (i < r)%nat -> (j < c)%nat -> mget (mfull r c v) i j = Some v.
Proof. intros. unfold mget, mfull. cbn. rewrite !nth_error_repeat_lt by assumption. reflexivity. Qed.

Lemma mmap_shape {A B} (f : A -> B) M r c : has_shape M r c -> has_shape (mmap f M) r c.
Proof.
  intros (H1 & H2 & H3). repeat split; cbn; [rewrite map_length; exact H1|exact H2|].
  apply Forall_map. eapply Forall_impl; [|exact H3]. intros x. cbn. rewrite map_length. auto.
Qed.

Lemma mmap_get {A B} (f : A -> B) M i j : mget (mmap f M) i j = option_map f (mget M i j).
Proof.
  unfold mget, mmap. cbn. rewrite nth_error_map. destruct (nth_error (m_rows M) i); cbn; [apply nth_error_map|reflexivity].
Qed.

Lemma zip_with_nth {A B C} (f : A -> B -> C) a : forall b i,
  nth_error (zip_with f a b) i = match nth_error a i, nth_error b i with Some x, Some y => Some (f x y) | _, _ => None end.
Proof.
  induction a as [|x a IH]; intros [|y b] [|i]; cbn; try reflexivity; [destruct (nth_error a i); reflexivity|apply IH].
Qed.

Lemma zip_with_length {A B C} (f : A -> B -> C) a : forall b, len a = len b -> len (zip_with f a b) = len a.
Proof. induction a as [|x a IH]; intros [|y b] H; cbn in *; try lia. f_equal. apply IH. lia. Qed.

Lemma zip_rows_shape {A B C} (f : A -> B -> C) c : forall (a : list (list A)) b, len a = len b ->
  Forall (fun row => len row = c) a -> Forall (fun row => len row = c) b ->
  Forall (fun row => len row = c) (zip_with (zip_with f) a b).
Proof.
  induction a as [|x a IH]; intros [|y b] L Ha Hb; cbn; constructor; inversion Ha; inversion Hb; subst; cbn in *; try lia.
  - rewrite zip_with_length; congruence.
  - apply IH; auto.
Qed.

Lemma zip_get {A B C} (f : A -> B -> C) M N i j :
  match nth_error (zip_with (zip_with f) M N) i with Some row => nth_error row j | None => None end =
  match (match nth_error M i with Some row => nth_error row j | None => None end),
        (match nth_error N i with Some row => nth_error row j | None => None end) with
  | Some x, Some y => Some (f x y) | _, _ => None end.
Proof.
  rewrite zip_with_nth. destruct (nth_error M i) as [a|], (nth_error N i) as [b|]; cbn; try reflexivity.
  - apply zip_with_nth.
  - destruct (nth_error a j); reflexivity.
Qed.

Lemma mmap2_ok {A B C} (f : A -> B -> C) M N r c : has_shape M r c -> has_shape N r c ->
  exists K, mmap2 f M N = Ok K /\ has_shape K r c /\
    forall i j, mget K i j = match mget M i j, mget N i j with Some x, Some y => Some (f x y) | _, _ => None end.
Proof.
  intros HM (N1 & N2 & N3). pose proof HM as (M1 & M2 & M3). unfold mmap2. rewrite N1, N2, (shape_is_ok M r c HM).
  eexists. split; [reflexivity|]. split.
  - repeat split; cbn; [rewrite zip_with_length; congruence|exact M2|]. apply zip_rows_shape; congruence.
  - intros i j. apply zip_get.
Qed.

(** ** Positions *)

(** [mi] lists the positions in [names] of the elements of [sub] *)
Definition locs {A} (names : list A) (mi : list Z) (sub : list A) : Prop :=
  Forall2 (fun z x => exists k, z = Z.of_nat k /\ nth_error names k = Some x) mi sub.

Lemma locs_take {A} (names : list A) mi sub : locs names mi sub -> take names mi = Ok sub.
Proof.
  induction 1 as [|z x mi sub (k & -> & E) _ IH]; [reflexivity|]. unfold take in *. cbn [mapM].
  rewrite (get_item_nat _ _ _ E). cbn [bind]. rewrite IH. reflexivity.
Qed.

Lemma take_locs {A} (names : list A) idx sub : take names (map Z.of_nat idx) = Ok sub -> locs names (map Z.of_nat idx) sub.
Proof.
  revert sub. induction idx as [|k idx IH]; intros sub E; unfold take in *; cbn [map mapM] in E.
  - injection E as <-. constructor.
  - destruct (get_item names (Z.of_nat k)) as [x|] eqn:G; [|discriminate]. cbn [bind] in E.
    destruct (mapM (get_item names) (map Z.of_nat idx)) as [xs|] eqn:G2; [|discriminate]. injection E as <-.
    constructor; [exists k; split; [reflexivity|apply get_item_nat_inv; exact G]|]. apply IH. reflexivity.
Qed.

Lemma locs_len {A} (names : list A) mi sub : locs names mi sub -> len mi = len sub.
Proof. intros H. induction H; cbn; congruence. Qed.

Lemma locs_nth {A} (names : list A) mi sub i x : locs names mi sub -> nth_error sub i = Some x ->
  exists k, nth_error mi i = Some (Z.of_nat k) /\ nth_error names k = Some x.
Proof.
  intros H. revert i. induction H as [|z y mi sub (k & -> & E) _ IH]; intros [|i] Hi; cbn in *; try discriminate.
  - injection Hi as <-. eauto.
  - apply IH. exact Hi.
Qed.

Lemma locs_incl {A} (names : list A) mi sub : locs names mi sub -> incl sub names.
Proof.
  intros H x Hx. apply In_nth_error in Hx as [i Hi]. destruct (locs_nth _ _ _ _ _ H Hi) as (k & _ & E). eapply nth_error_In; exact E.
Qed.

Lemma msel_ok {A B} (M : mat A) (mods segs : list B) mi si (mods' segs' : list B) :
  has_shape M (len mods) (len segs) -> locs mods mi mods' -> locs segs si segs' ->
  exists N, msel M mi si = Ok N /\ has_shape N (len mods') (len segs') /\
    forall i j a b, nth_error mi i = Some (Z.of_nat a) -> nth_error si j = Some (Z.of_nat b) -> mget N i j = mget M a b.
Proof.
  intros (M1 & M2 & M3) Hm Hs. unfold msel.
  assert (R : exists rows, take (m_rows M) mi = Ok rows /\ len rows = len mods' /\ Forall (fun row => len row = len segs) rows /\
     forall i a, nth_error mi i = Some (Z.of_nat a) -> nth_error rows i = nth_error (m_rows M) a).
  { clear Hs. induction Hm as [|z x mi mods' (k & -> & E) _ IH]; [exists []; repeat split; [constructor|intros [|i] a; discriminate]|].
    destruct IH as (rows & T & L & F & G). destruct (nth_error (m_rows M) k) as [row|] eqn:RK.
    2:{ apply nth_error_None in RK. assert (k < len mods)%nat by (apply nth_error_Some; congruence). lia. }
    exists (row :: rows). unfold take in *. cbn [mapM]. rewrite (get_item_nat _ _ _ RK). cbn [bind]. rewrite T. cbn [bind].
    repeat split; [cbn; congruence|constructor; [|exact F]; rewrite Forall_forall in M3; apply M3; eapply nth_error_In; exact RK|].
    intros [|i] a Ha; cbn in *; [|apply G; exact Ha]. injection Ha as Ha. apply Nat2Z.inj in Ha as <-. congruence. }
  destruct R as (rows & T & L & F & G). rewrite T. cbn [bind].
  assert (C : forall row, len row = len segs -> exists row', take row si = Ok row' /\ len row' = len segs' /\
     forall j (b : nat), nth_error si j = Some (Z.of_nat b) -> nth_error row' j = nth_error (A:=A) row b).
  { intros row Lr. clear - Hs Lr. induction Hs as [|z x si segs' (k & -> & E) _ IH]; [exists []; repeat split; intros [|j] b; discriminate|].
    destruct IH as (row' & T & L & G). destruct (nth_error row k) as [v|] eqn:RK.
    2:{ apply nth_error_None in RK. assert (k < len segs)%nat by (apply nth_error_Some; congruence). lia. }
    exists (v :: row'). unfold take in *. cbn [mapM]. rewrite (get_item_nat _ _ _ RK). cbn [bind]. rewrite T. cbn [bind].
    repeat split; [cbn; congruence|]. intros [|j] b Hb; cbn in *; [|apply G; exact Hb]. injection Hb as Hb. apply Nat2Z.inj in Hb as <-. congruence. }
  assert (R : exists rs, mapM (fun row => take row si) rows = Ok rs /\ len rs = len rows /\ Forall (fun row => len row = len segs') rs /\
     forall i row j b, nth_error rows i = Some row -> nth_error si j = Some (Z.of_nat b) ->
       exists row', nth_error rs i = Some row' /\ nth_error row' j = nth_error row b).
  { clear - F C. induction F as [|row rows Hr _ IH]; [exists []; repeat split; [constructor|intros [|i]; discriminate]|].
    destruct IH as (rs & T & L & F & G). destruct (C row Hr) as (row' & T1 & L1 & G1). exists (row' :: rs). cbn [mapM]. rewrite T1. cbn [bind].
    rewrite T. cbn [bind]. repeat split; [cbn; congruence|constructor; assumption|]. intros [|i] row0 j b Hi Hj; cbn in *.
    - injection Hi as <-. exists row'. auto.
    - eapply G; eassumption. }
  destruct R as (rs & T2 & L2 & F2 & G2). rewrite T2. cbn [bind]. eexists. split; [reflexivity|].
  rewrite (locs_len _ _ _ Hs). split; [repeat split; cbn; [lia|exact F2]|].
  intros i j a b Hi Hj. unfold mget. cbn [m_rows]. pose proof (G i a Hi) as Ga.
  destruct (nth_error rows i) as [row|] eqn:Ri.
  - destruct (G2 i row j b Ri Hj) as (row' & E1 & E2). rewrite E1, E2, <- Ga. reflexivity.
  - rewrite <- Ga. apply nth_error_None in Ri. rewrite (proj2 (nth_error_None rs i)) by lia. reflexivity.
Qed.

(** ** Assignment *)

Lemma set_nth_length {A} (a : list A) i v : len (set_nth a i v) = len a.
Proof. revert i. induction a as [|x a IH]; intros [|i]; cbn; auto. Qed.

Lemma set_nth_same {A} (a : list A) i v : (i < len a)%nat -> nth_error (set_nth a i v) i = Some v.
Proof. revert i. induction a as [|x a IH]; intros [|i] H; cbn in *; try lia; auto. apply IH. lia. Qed.

Lemma set_nth_other {A} (a : list A) i j v : i <> j -> nth_error (set_nth a i v) j = nth_error a j.
Proof. revert i j. induction a as [|x a IH]; intros [|i] [|j] H; cbn; try reflexivity; try lia. apply IH. lia. Qed.

Lemma set_item_nat {A} (a : list A) k v : (k < len a)%nat -> set_item a (Z.of_nat k) v = Ok (set_nth a k v).
Proof.
  intros H. unfold set_item, py_index. replace ((0 <=? Z.of_nat k) && (Z.of_nat k <? Z.of_nat (len a))) with true by lia.
  rewrite Nat2Z.id. reflexivity.
Qed.

Lemma set_items_ok {A} (idx : list nat) : forall (a vs : list A), NoDup idx -> Forall (fun k => (k < len a)%nat) idx -> len vs = len idx ->
  exists a', set_items a (map Z.of_nat idx) vs = Ok a' /\ len a' = len a /\
    (forall i k, nth_error idx i = Some k -> nth_error a' k = nth_error vs i) /\
    (forall k, ~ In k idx -> nth_error a' k = nth_error a k).
Proof.
  induction idx as [|k idx IH]; intros a vs N F L.
  - destruct vs; [|discriminate]. exists a. repeat split; auto. intros [|i] k; discriminate.
  - destruct vs as [|v vs]; [discriminate|]. inversion N as [|? ? N1 N2]; subst. inversion F as [|? ? F1 F2]; subst.
    destruct (IH (set_nth a k v) vs N2) as (a' & E & L' & P1 & P2).
    { eapply Forall_impl; [|exact F2]. intros x. rewrite set_nth_length. auto. }
    { cbn in L. lia. }
    exists a'. cbn [map set_items]. rewrite set_item_nat by exact F1. cbn [bind]. split; [exact E|]. split; [rewrite L', set_nth_length; reflexivity|].
    split.
    + intros [|i] k' Hi; cbn in Hi.
      * injection Hi as <-. cbn. rewrite P2 by exact N1. apply set_nth_same. exact F1.
      * cbn. apply P1. exact Hi.
    + intros k' Hk. rewrite P2 by (intros Q; apply Hk; right; exact Q). apply set_nth_other. intros ->. apply Hk. left. reflexivity.
Qed.

Lemma put_rows_ok {A} c (sj : list nat) : NoDup sj -> Forall (fun k => (k < c)%nat) sj ->
  forall (mj : list nat) (rows vs : list (list A)), NoDup mj -> Forall (fun k => (k < len rows)%nat) mj ->
  Forall (fun r => len r = c) rows -> Forall (fun r => len r = len sj) vs -> len vs = len mj ->
  exists rows', put_rows rows (map Z.of_nat mj) (map Z.of_nat sj) vs = Ok rows' /\ len rows' = len rows /\
    Forall (fun r => len r = c) rows' /\
    (forall i k v row, nth_error mj i = Some k -> nth_error vs i = Some v -> nth_error rows k = Some row ->
       exists row', nth_error rows' k = Some row' /\
         (forall j l, nth_error sj j = Some l -> nth_error row' l = nth_error v j) /\
         (forall l, ~ In l sj -> nth_error row' l = nth_error row l)) /\
    (forall k, ~ In k mj -> nth_error rows' k = nth_error rows k).
Proof.
  intros NS FS. induction mj as [|k mj IH]; intros rows vs N F R V L.
  - destruct vs; [|discriminate]. exists rows. repeat split; auto. intros [|i]; discriminate.
  - destruct vs as [|v vs]; [discriminate|]. inversion N as [|? ? N1 N2]; subst. inversion F as [|? ? F1 F2]; subst.
    inversion V as [|? ? V1 V2]; subst.
    destruct (nth_error rows k) as [row|] eqn:RK; [|apply nth_error_None in RK; lia].
    assert (Lr : len row = c) by (rewrite Forall_forall in R; apply R; eapply nth_error_In; exact RK).
    destruct (set_items_ok sj row v NS) as (row' & E & Lr' & P1 & P2); [rewrite Lr; exact FS|exact V1|].
    assert (R' : Forall (fun r => len r = c) (set_nth rows k row')).
    { apply Forall_forall. intros x Hx. apply In_nth_error in Hx as [i Hi]. destruct (Nat.eq_dec k i) as [<-|Ne].
      - rewrite set_nth_same in Hi by exact F1. injection Hi as <-. congruence.
      - rewrite set_nth_other in Hi by exact Ne. rewrite Forall_forall in R. apply R. eapply nth_error_In; exact Hi. }
    destruct (IH (set_nth rows k row') vs N2) as (rows' & E' & L' & F' & Q1 & Q2);
      [eapply Forall_impl; [|exact F2]; intros x; rewrite set_nth_length; auto|exact R'|exact V2|cbn in L; lia|].
    exists rows'. cbn [map put_rows]. rewrite (get_item_nat _ _ _ RK). cbn [bind]. rewrite E. cbn [bind].
    rewrite set_item_nat by exact F1. cbn [bind]. split; [exact E'|]. split; [rewrite L', set_nth_length; reflexivity|].
    split; [exact F'|]. split.
    + intros [|i] k' v' row0 Hi Hv Hr; cbn in Hi, Hv.
      * injection Hi as <-. injection Hv as <-. assert (row0 = row) by congruence. subst row0.
        exists row'. rewrite Q2 by exact N1. rewrite set_nth_same by exact F1. auto.
      * apply (Q1 i k' v' row0 Hi Hv). rewrite set_nth_other; [exact Hr|]. intros ->. apply N1. eapply nth_error_In; exact Hi.
    + intros k' Hk. rewrite Q2 by (intros Q; apply Hk; right; exact Q). apply set_nth_other. intros ->. apply Hk. left. reflexivity.
Qed.

Lemma mput_ok {A} (M V : mat A) r c (mj sj : list nat) : has_shape M r c -> has_shape V (len mj) (len sj) ->
  NoDup mj -> NoDup sj -> Forall (fun k => (k < r)%nat) mj -> Forall (fun k => (k < c)%nat) sj ->
  exists N, mput M (map Z.of_nat mj) (map Z.of_nat sj) V = Ok N /\ has_shape N r c /\
    (forall i j a b, nth_error mj i = Some a -> nth_error sj j = Some b -> mget N a b = mget V i j) /\
    (forall a b, ~ In a mj \/ ~ In b sj -> mget N a b = mget M a b).
Proof.
  intros (M1 & M2 & M3) (V1 & V2 & V3) Nm Ns Fm Fs. unfold mput.
  destruct (put_rows_ok c sj Ns Fs mj (m_rows M) (m_rows V) Nm ltac:(rewrite M1; exact Fm) M3 V3 V1) as (rows & E & L & F & P1 & P2).
  rewrite E. cbn [bind]. eexists. split; [reflexivity|]. split; [repeat split; cbn; congruence|]. split.
  - intros i j a b Hi Hj. unfold mget. cbn [m_rows].
    assert (i < len mj)%nat by (apply nth_error_Some; congruence).
    destruct (nth_error (m_rows V) i) as [v|] eqn:Vi; [|apply nth_error_None in Vi; lia].
    assert (a < r)%nat by (rewrite Forall_forall in Fm; apply Fm; eapply nth_error_In; exact Hi).
    destruct (nth_error (m_rows M) a) as [row|] eqn:Ra; [|apply nth_error_None in Ra; lia].
    destruct (P1 i a v row Hi Vi Ra) as (row' & R' & Q & _). rewrite R'. apply Q. exact Hj.
  - intros a b Hab. unfold mget. cbn [m_rows]. destruct (in_dec Nat.eq_dec a mj) as [I|I]; [|rewrite P2 by exact I; reflexivity].
    destruct Hab as [Ha|Hb]; [tauto|]. pose proof I as I'. apply In_nth_error in I' as [i Hi].
    assert (i < len mj)%nat by (apply nth_error_Some; congruence).
    destruct (nth_error (m_rows V) i) as [v|] eqn:Vi; [|apply nth_error_None in Vi; lia].
    assert (a < r)%nat by (rewrite Forall_forall in Fm; apply Fm; exact I).
    destruct (nth_error (m_rows M) a) as [row|] eqn:Ra; [|apply nth_error_None in Ra; lia].
    destruct (P1 i a v row Hi Vi Ra) as (row' & R' & _ & Q). rewrite R'. apply Q. exact Hb.
Qed.

Lemma mset1_ok {A} (M : mat A) r c i j v : has_shape M r c -> (i < r)%nat -> (j < c)%nat ->
  exists N, mset1 M i j v = Ok N /\ has_shape N r c /\ mget N i j = Some v /\
    forall a b, (a, b) <> (i, j) -> mget N a b = mget M a b.
Proof.
  intros (M1 & M2 & M3) Hi Hj. unfold mset1.
  destruct (nth_error (m_rows M) i) as [row|] eqn:R; [|apply nth_error_None in R; lia].
  rewrite (get_item_nat _ _ _ R). cbn [bind].
  assert (L : len row = c) by (rewrite Forall_forall in M3; apply M3; eapply nth_error_In; exact R).
  rewrite set_item_nat by lia. cbn [bind]. rewrite set_item_nat by lia. cbn [bind].
  eexists. split; [reflexivity|]. split; [|split].
  - repeat split; cbn; [rewrite set_nth_length; exact M1|exact M2|]. apply Forall_forall. intros x Hx.
    apply In_nth_error in Hx as [k Hk]. destruct (Nat.eq_dec i k) as [<-|Ne].
    + rewrite set_nth_same in Hk by lia. injection Hk as <-. rewrite set_nth_length. exact L.
    + rewrite set_nth_other in Hk by exact Ne. rewrite Forall_forall in M3. apply M3. eapply nth_error_In; exact Hk.
  - unfold mget. cbn [m_rows]. rewrite set_nth_same by lia. apply set_nth_same. lia.
  - intros a b Hab. unfold mget. cbn [m_rows]. destruct (Nat.eq_dec i a) as [<-|Ne].
    + rewrite set_nth_same by lia. rewrite R. apply set_nth_other. congruence.
    + rewrite set_nth_other by exact Ne. reflexivity.
Qed.
