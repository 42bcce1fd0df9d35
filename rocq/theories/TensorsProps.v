(** Padding to three dimensions. *)
From Coq Require Import Lia.
From Verif Require Import BaseFacts Tensors.
Open Scope list_scope.
Open Scope nat_scope.

Section T.
Context {X : Type} (zero one : X).

Lemma nth_error_repeat_if {A} (a : A) n k : nth_error (repeat a n) k = if k <? n then Some a else None.
Proof. destruct (Nat.ltb_spec k n) as [L|L]; [apply nth_error_repeat; exact L|apply nth_error_None; rewrite repeat_length; exact L]. Qed.
Lemma plane_ok len dim (a : arr2 X) : a_dim a = dim -> List.length (a_rows a) <= len ->
  exists p, fill_plane zero len dim a = Ok p /\ List.length p = len /\
    forall t, t < len -> nth_error p t = match nth_error (a_rows a) t with Some r => Some r | None => Some (repeat zero dim) end.
Proof.
  intros D L. unfold fill_plane. cbv zeta. rewrite (Nat.min_l _ _ L), Nat.eqb_refl, D, Nat.eqb_refl. cbn [negb orb]. eexists. split; [reflexivity|]. split; [rewrite app_length, repeat_length; lia|].
  intros t T. destruct (nth_error (a_rows a) t) as [r|] eqn:E; [rewrite nth_error_app1 by (apply nth_error_Some; congruence); exact E|]. apply nth_error_None in E. rewrite nth_error_app2 by exact E. rewrite nth_error_repeat_if. destruct (Nat.ltb_spec (t - List.length (a_rows a)) (len - List.length (a_rows a))); [reflexivity|lia].
Qed.
Lemma weight_ok len n : n <= len -> List.length (fill_weight zero one len n) = len /\ forall t, t < len -> nth_error (fill_weight zero one len n) t = Some (if t <? n then one else zero).
Proof.
  intros L. unfold fill_weight. rewrite (Nat.min_l _ _ L). split; [rewrite app_length, !repeat_length; lia|]. intros t T. destruct (Nat.ltb_spec t n) as [Q|Q].
  - rewrite nth_error_app1 by (rewrite repeat_length; exact Q). apply nth_error_repeat. exact Q.
  - rewrite nth_error_app2 by (rewrite repeat_length; exact Q). rewrite repeat_length. apply nth_error_repeat. lia.
Qed.
Lemma plane_long len dim (a : arr2 X) : 1 <= len -> len < List.length (a_rows a) -> fill_plane zero len dim a = Err ValueError.
Proof. intros L1 L. unfold fill_plane. cbv zeta. rewrite Nat.min_r by lia. rewrite (proj2 (Nat.eqb_neq _ len)) by lia. rewrite (proj2 (Nat.eqb_neq _ 1)) by lia. reflexivity. Qed.

Lemma foldmax {A} (f : A -> nat) l : forall m, exists n, fold_left (fun m a => Z.max m (Z.of_nat (f a))) l (Z.of_nat m) = Z.of_nat n /\ (m <= n) /\ (forall a, In a l -> f a <= n) /\ (n = m \/ exists a, In a l /\ f a = n).
Proof.
  induction l as [|a l IH]; intros m; [exists m; split; [reflexivity|]; split; [lia|]; split; [intros a []|auto]|]. cbn [fold_left]. replace (Z.max (Z.of_nat m) (Z.of_nat (f a))) with (Z.of_nat (Nat.max m (f a))) by lia. destruct (IH (Nat.max m (f a))) as (n & E & L & B & W). exists n. split; [exact E|]. split; [lia|]. split; [intros b [<-|I]; [lia|apply B; exact I]|].
  destruct W as [->|(b & I & Eb)]; [|right; exists b; split; [right; exact I|exact Eb]]. destruct (Nat.max_spec m (f a)) as [(Q & ->)|(Q & ->)]; [right; exists a; split; [left; reflexivity|reflexivity]|left; reflexivity].
Qed.
End T.

(** Sequences with the same number of columns, none longer than max_length (0: the longest one): frame t of sequence i is at
    (i, t) with weight one, everything else is zero with weight zero, and the padded length is max_length or the longest. *)
Theorem C48_by_seq : forall X (zero one : X) (x : list (arr2 X)) dim max_length, x <> [] ->
  (forall a, In a x -> a_dim a = dim) -> (max_length = 0 \/ forall a, In a x -> List.length (a_rows a) <= max_length) ->
  exists x3d w len, to3D_by_seq zero one x (Z.of_nat max_length) = Ok (x3d, w) /\
    List.length x3d = List.length x /\ List.length w = List.length x /\
    (if max_length =? 0 then (forall a, In a x -> List.length (a_rows a) <= len) /\ (exists a, In a x /\ List.length (a_rows a) = len) else len = max_length) /\
    forall i a, nth_error x i = Some a -> exists p wi, nth_error x3d i = Some p /\ nth_error w i = Some wi /\ List.length p = len /\ List.length wi = len /\
      forall t, t < len -> nth_error p t = Some (match nth_error (a_rows a) t with Some r => r | None => repeat zero dim end) /\
                           nth_error wi t = Some (match nth_error (a_rows a) t with Some _ => one | None => zero end).
Proof.
  intros X zero one x dim ml N D L. unfold to3D_by_seq. destruct x as [|x0 x'] eqn:Ex; [congruence|]. rewrite <- Ex in *. rewrite (D x0) by (rewrite Ex; left; reflexivity).
  assert (H : exists len, (if (Z.of_nat ml =? 0)%Z then fold_left (fun m (a : arr2 X) => Z.max m (Z.of_nat (List.length (a_rows a)))) x (Z.of_nat ml) else Z.of_nat ml) = Z.of_nat len /\ (forall a, In a x -> List.length (a_rows a) <= len) /\ (if ml =? 0 then (forall a, In a x -> List.length (a_rows a) <= len) /\ (exists a, In a x /\ List.length (a_rows a) = len) else len = ml)).
  { destruct (Nat.eqb_spec ml 0) as [->|NZ].
    - cbn [Z.of_nat Z.eqb]. destruct (foldmax (fun a : arr2 X => List.length (a_rows a)) x 0) as (n & E & _ & B & W). exists n. split; [exact E|]. split; [exact B|]. split; [exact B|]. destruct W as [->|W]; [|exact W]. exists x0. assert (I : In x0 x) by (rewrite Ex; left; reflexivity). split; [exact I|]. specialize (B x0 I). lia.
    - destruct (Z.eqb_spec (Z.of_nat ml) 0); [lia|]. exists ml. split; [reflexivity|]. destruct L as [L|L]; [lia|]. split; [exact L|reflexivity]. }
  destruct H as (len & E & B & W). cbv zeta. rewrite E. destruct (Z.ltb_spec (Z.of_nat len) 0); [lia|]. rewrite Nat2Z.id.
  assert (P : exists ps, mapM (fill_plane zero len dim) x = Ok ps /\ List.length ps = List.length x /\ forall i a, nth_error x i = Some a -> exists p, nth_error ps i = Some p /\ fill_plane zero len dim a = Ok p).
  { clear - B D. induction x as [|a x IH]; [exists []; split; [reflexivity|]; split; [reflexivity|]; intros [|i] a; discriminate|]. destruct (plane_ok zero len dim a (D a (or_introl eq_refl)) (B a (or_introl eq_refl))) as (p & Ep & _). destruct IH as (ps & E & Ln & G); [intros b I; apply D; right; exact I|intros b I; apply B; right; exact I|].
    exists (p :: ps). cbn [mapM]. rewrite Ep, E. cbn [bind]. split; [reflexivity|]. split; [cbn; lia|]. intros [|i] b Eb; [injection Eb as <-; exists p; auto|apply (G i b Eb)]. }
  destruct P as (ps & Ep & Ln & G). rewrite Ep. cbn [bind]. eexists _, _, len. split; [reflexivity|]. split; [exact Ln|]. split; [apply map_length|]. split; [exact W|].
  intros i a Ea. destruct (G i a Ea) as (p & Pi & Pa). pose proof (nth_error_In _ _ Ea) as I. destruct (plane_ok zero len dim a (D a I) (B a I)) as (p' & Pa' & Lp & V). rewrite Pa in Pa'. injection Pa' as <-. destruct (weight_ok zero one len (List.length (a_rows a)) (B a I)) as (Lw & Vw).
  exists p, (fill_weight zero one len (List.length (a_rows a))). split; [exact Pi|]. split; [rewrite nth_error_map, Ea; reflexivity|]. split; [exact Lp|]. split; [exact Lw|]. intros t T. rewrite (V t T), (Vw t T). destruct (nth_error (a_rows a) t) as [r|] eqn:R.
  - split; [reflexivity|]. assert (t < List.length (a_rows a)) by (apply nth_error_Some; congruence). destruct (Nat.ltb_spec t (List.length (a_rows a))); [reflexivity|lia].
  - split; [reflexivity|]. apply nth_error_None in R. destruct (Nat.ltb_spec t (List.length (a_rows a))); [lia|reflexivity].
Qed.
(** A sequence longer than a given max_length is not truncated: ValueError. *)
Theorem C48_by_seq_too_long : forall X (zero one : X) (x : list (arr2 X)) dim max_length a, 1 <= max_length ->
  (forall b, In b x -> a_dim b = dim) -> In a x -> max_length < List.length (a_rows a) ->
  to3D_by_seq zero one x (Z.of_nat max_length) = Err ValueError.
Proof.
  intros X zero one x dim ml a L1 D I L. unfold to3D_by_seq. destruct x as [|x0 x'] eqn:Ex; [destruct I|]. rewrite <- Ex in *. rewrite (D x0) by (rewrite Ex; left; reflexivity). cbv zeta. destruct (Z.eqb_spec (Z.of_nat ml) 0); [lia|]. destruct (Z.ltb_spec (Z.of_nat ml) 0); [lia|]. rewrite Nat2Z.id.
  assert (M : mapM (fill_plane zero ml dim) x = Err ValueError).
  { clear Ex. induction x as [|b x IH]; [destruct I|]. cbn [mapM]. destruct (le_lt_dec (List.length (a_rows b)) ml) as [Q|Q].
    - destruct (plane_ok zero ml dim b (D b (or_introl eq_refl)) Q) as (p & E & _). rewrite E. cbn [bind]. destruct I as [->|I]; [lia|]. rewrite IH; [reflexivity| |exact I]. intros c Ic. apply D. right. exact Ic.
    - rewrite (plane_long zero ml dim b L1 Q). reflexivity. }
  rewrite M. reflexivity.
Qed.

(** ** By class *)
(** the vectors of class i, in their order *)
Definition vectors_of {X} (x : list (list X)) (ids : list Z) (i : nat) : list (list X) :=
  map snd (filter (fun p => (fst p =? Z.of_nat i)%Z) (combine ids x)).
Lemma sel_vectors {X} (x : list (list X)) ids i : List.length ids = List.length x -> sel (map (fun c => (c =? Z.of_nat i)%Z) ids) x = vectors_of x ids i.
Proof.
  unfold vectors_of. revert x. induction ids as [|c ids IH]; intros [|r x] L; try discriminate; [reflexivity|]. injection L as L. cbn. rewrite IH by exact L. destruct (c =? Z.of_nat i)%Z; reflexivity.
Qed.
Lemma count_vectors {X} (x : list (list X)) ids i : List.length ids = List.length x -> List.length (filter (fun c => (c =? Z.of_nat i)%Z) ids) = List.length (vectors_of x ids i).
Proof.
  unfold vectors_of. revert x. induction ids as [|c ids IH]; intros [|r x] L; try discriminate; [reflexivity|]. injection L as L. cbn. specialize (IH x L). destruct (c =? Z.of_nat i)%Z; cbn; lia.
Qed.

(** Plane i holds the vectors of class i, in order and with weight one, then zeros with weight zero. *)
Theorem C48_by_class : forall X (zero one : X) (x : arr2 X) ids max_length, ids <> [] -> List.length ids = List.length (a_rows x) -> (exists c, In c ids /\ (-1 <= c)%Z) ->
  (max_length = 0 \/ forall i, List.length (vectors_of (a_rows x) ids i) <= max_length) ->
  exists x3d w len num, to3D_by_class zero one x ids (Z.of_nat max_length) = Ok (x3d, w) /\ List.length x3d = num /\ List.length w = num /\
    (forall c, In c ids -> (c < Z.of_nat num)%Z) /\ (0 < num -> In (Z.of_nat num - 1)%Z ids) /\
    (if max_length =? 0 then forall i, i < num -> List.length (vectors_of (a_rows x) ids i) <= len else len = max_length) /\
    forall i, i < num -> exists p wi, nth_error x3d i = Some p /\ nth_error w i = Some wi /\ List.length p = len /\ List.length wi = len /\
      forall t, t < len -> nth_error p t = Some (match nth_error (vectors_of (a_rows x) ids i) t with Some r => r | None => repeat zero (a_dim x) end) /\
                           nth_error wi t = Some (match nth_error (vectors_of (a_rows x) ids i) t with Some _ => one | None => zero end).
Proof.
  intros X zero one x ids ml N L (c0 & I0 & C0) H. unfold to3D_by_class. destruct ids as [|c l] eqn:Eids; [congruence|]. rewrite <- Eids in *.
  assert (M : In (fold_left Z.max l c) ids /\ forall d, In d ids -> (d <= fold_left Z.max l c)%Z).
  { rewrite Eids. clear. revert c. induction l as [|b l IH]; intros a; [split; [left; reflexivity|intros c [<-|[]]; cbn; lia]|]. cbn [fold_left]. destruct (IH (Z.max a b)) as (A & B). split.
    - destruct A as [A|A]; [|right; right; exact A]. rewrite <- A. destruct (Z.max_spec a b) as [(_ & ->)|(_ & ->)]; [right; left; reflexivity|left; reflexivity].
    - intros c [<-|[<-|I]]; [specialize (B (Z.max a b) (or_introl eq_refl)); lia|specialize (B (Z.max a b) (or_introl eq_refl)); lia|apply B; right; exact I]. }
  destruct M as (M1 & M2). set (mx := fold_left Z.max l c) in *. cbv zeta. set (num := Z.to_nat (mx + 1)).
  assert (MX : (-1 <= mx)%Z) by (specialize (M2 c0 I0); lia).
  set (cnt := fun i => List.length (filter (fun c => (c =? Z.of_nat i)%Z) ids)).
  assert (E : exists len, (if (Z.of_nat ml =? 0)%Z then fold_left (fun m i => Z.max m (Z.of_nat (cnt i))) (seq 0 num) (Z.of_nat ml) else Z.of_nat ml) = Z.of_nat len /\ (forall i, i < num -> List.length (vectors_of (a_rows x) ids i) <= len) /\ (if ml =? 0 then (forall i, i < num -> List.length (vectors_of (a_rows x) ids i) <= len) else len = ml)).
  { destruct (Nat.eqb_spec ml 0) as [->|NZ].
    - cbn [Z.of_nat Z.eqb]. destruct (foldmax cnt (seq 0 num) 0) as (n & E & _ & B & _). exists n. assert (B' : forall i, i < num -> List.length (vectors_of (a_rows x) ids i) <= n) by (intros i Li; rewrite <- (count_vectors (a_rows x) ids i L); apply B, in_seq; lia). split; [exact E|]. split; exact B'.
    - destruct (Z.eqb_spec (Z.of_nat ml) 0); [lia|]. exists ml. split; [reflexivity|]. destruct H as [H|H]; [lia|]. split; [intros; apply H|reflexivity]. }
  destruct E as (len & El & B & W). unfold cnt in El. cbv beta in El. rewrite El. destruct (Z.ltb_spec (mx + 1) 0); [lia|]. destruct (Z.ltb_spec (Z.of_nat len) 0); [lia|]. cbn [orb]. rewrite Nat2Z.id.
  assert (P : exists ps, mapM (fun i => if List.length ids =? List.length (a_rows x) then fill_plane zero len (a_dim x) (rows_of x ids i) else Err IndexError) (seq 0 num) = Ok ps /\ List.length ps = num /\ forall i, i < num -> exists p, nth_error ps i = Some p /\ fill_plane zero len (a_dim x) (rows_of x ids i) = Ok p).
  { rewrite L, Nat.eqb_refl. assert (Q : forall m s, s + m <= num -> exists ps, mapM (fun i => fill_plane zero len (a_dim x) (rows_of x ids i)) (seq s m) = Ok ps /\ List.length ps = m /\ forall i, i < m -> exists p, nth_error ps i = Some p /\ fill_plane zero len (a_dim x) (rows_of x ids (s + i)) = Ok p).
    { induction m as [|m IH]; intros s Ls; [exists []; split; [reflexivity|]; split; [reflexivity|intros; lia]|]. destruct (plane_ok zero len (a_dim x) (rows_of x ids s) eq_refl) as (p & Ep & _); [cbn [rows_of a_rows]; rewrite sel_vectors by exact L; apply B; lia|]. destruct (IH (S s) ltac:(lia)) as (ps & E & Ln & G). exists (p :: ps). cbn [seq mapM]. rewrite Ep, E. cbn [bind]. split; [reflexivity|]. split; [cbn; lia|].
      intros [|i] Li; [exists p; rewrite Nat.add_0_r; auto|]. destruct (G i ltac:(lia)) as (q & Q1 & Q2). exists q. split; [exact Q1|]. replace (s + S i) with (S s + i) by lia. exact Q2. }
    destruct (Q num 0 ltac:(lia)) as (ps & E & Ln & G). exists ps. auto. }
  destruct P as (ps & Ep & Ln & G). rewrite Ep. cbn [bind]. eexists _, _, len, num. split; [reflexivity|]. split; [exact Ln|]. split; [rewrite map_length, seq_length; reflexivity|]. split; [intros d Id; specialize (M2 d Id); unfold num; lia|]. split; [intros Pn; replace (Z.of_nat num - 1)%Z with mx by (unfold num in *; lia); exact M1|]. split; [exact W|].
  intros i Li. destruct (G i Li) as (p & Pi & Pa). destruct (plane_ok zero len (a_dim x) (rows_of x ids i) eq_refl) as (p' & Pa' & Lp & V); [cbn [rows_of a_rows]; rewrite sel_vectors by exact L; apply B; exact Li|]. rewrite Pa in Pa'. injection Pa' as <-. cbn [rows_of a_rows] in V. rewrite sel_vectors in V by exact L.
  destruct (weight_ok zero one len (cnt i)) as (Lw & Vw); [unfold cnt; rewrite (count_vectors (a_rows x) ids i L); apply B; exact Li|].
  exists p, (fill_weight zero one len (cnt i)). split; [exact Pi|]. split; [rewrite nth_error_map, (nth_error_nth' _ 0) by (rewrite seq_length; exact Li); rewrite seq_nth by exact Li; reflexivity|]. split; [exact Lp|]. split; [exact Lw|]. intros t T. rewrite (V t T), (Vw t T). unfold cnt. rewrite (count_vectors (a_rows x) ids i L). destruct (nth_error (vectors_of (a_rows x) ids i) t) as [r|] eqn:R.
  - split; [reflexivity|]. assert (t < List.length (vectors_of (a_rows x) ids i)) by (apply nth_error_Some; congruence). destruct (Nat.ltb_spec t (List.length (vectors_of (a_rows x) ids i))); [reflexivity|lia].
  - split; [reflexivity|]. apply nth_error_None in R. destruct (Nat.ltb_spec t (List.length (vectors_of (a_rows x) ids i))); [lia|reflexivity].
Qed.

(** Vectors with a negative class id are dropped without a word. *)
Theorem C48_negative_class_refuted : to3D_by_class 0%Z 1%Z (mk_arr2 1 [[5%Z]; [7%Z]]) [0; -1]%Z 0 = Ok ([[[5%Z]]], [[1%Z]]).
Proof. reflexivity. Qed.

Example C48_witness : to3D_by_seq 0%Z 1%Z [mk_arr2 1 [[5%Z]; [7%Z]]; mk_arr2 1 [[3%Z]]] 0 = Ok ([[[5]; [7]]; [[3]; [0]]], [[1; 1]; [1; 0]])%Z /\
  to3D_by_class 0%Z 1%Z (mk_arr2 1 [[5]; [7]; [9]]%Z) [1; 0; 1]%Z 3 = Ok ([[[7]; [0]; [0]]; [[5]; [9]; [0]]], [[1; 0; 0]; [1; 1; 0]])%Z.
Proof. split; reflexivity. Qed.
Print Assumptions C48_by_seq. Print Assumptions C48_by_class.
