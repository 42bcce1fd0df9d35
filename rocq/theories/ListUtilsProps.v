(** Properties C01, C02, C03, C04 (hyperion/utils/list_utils.py). *)
From Verif Require Import Base BaseFacts ListUtils ListUtilsProofs FloatSplit.
Open Scope Z_scope.

(** C01.  The parts 1..P of any list, in order, concatenate to the list; positions are
    returned exactly once and in order; every part's index array locates its elements; part
    lengths differ by at most one. *)
Theorem C01_split_list_partitions :
  forall (A : Type) (a : list A) (P : Z), 1 <= P ->
  exists parts : list (list A * list Z),
    mapM (fun i => split_list a i P) (arange 1 (P + 1)) = Ok parts /\
    concat (map fst parts) = a /\
    concat (map snd parts) = arange 0 (Z.of_nat (List.length a)) /\
    (forall p, In p parts -> take a (snd p) = Ok (fst p)) /\
    (forall p q, In p parts -> In q parts ->
       Z.abs (Z.of_nat (List.length (fst p)) - Z.of_nat (List.length (fst q))) <= 1).
Proof. exact @split_list_partition_lemma. Qed.
Print Assumptions C01_split_list_partitions.

(** a list of 7 in 3 parts: sizes 2,2,3 *)
Example C01_witness :
  mapM (fun i => split_list [10;11;12;13;14;15;16] i 3) (arange 1 4)
  = Ok [([10;11],[0;1]); ([12;13],[2;3]); ([14;15;16],[4;5;6])].
Proof. reflexivity. Qed.

(** C02.  Order on positions: by key, then by position. *)
Definition by_key_then_position {K} `{Ord K} (key : list K) (i j : Z) : Prop :=
  forall ki kj, get_item key i = Ok ki -> get_item key j = Ok kj ->
    (leb ki kj = true /\ ki <> kj) \/ (ki = kj /\ i < j).

Theorem C02_split_group_by_key_partitions :
  forall (A K : Type) (HK : Ord K) (a : list A) (key : list K),
  key <> [] -> List.length a = List.length key ->
  forall P : Z, 1 <= P ->
  exists parts : list (list A * list Z),
    mapM (fun i => split_list_group_by_key a key i P) (arange 1 (P + 1)) = Ok parts /\
    (forall p, In p parts -> take a (snd p) = Ok (fst p)) /\
    Permutation (concat (map snd parts)) (arange 0 (Z.of_nat (List.length a))) /\
    StronglySorted (by_key_then_position key) (concat (map snd parts)) /\
    (forall p i j k, In p parts -> In i (snd p) ->
        get_item key i = Ok k -> get_item key j = Ok k ->
        0 <= j < Z.of_nat (List.length a) -> In j (snd p)) /\
    (forall p q kp kq, In p parts -> In q parts ->
       take key (snd p) = Ok kp -> take key (snd q) = Ok kq ->
       Z.abs (Z.of_nat (List.length (unique kp)) - Z.of_nat (List.length (unique kq))) <= 1).
Proof. exact @split_group_partition_lemma. Qed.
Print Assumptions C02_split_group_by_key_partitions.

Example C02_witness :
  mapM (fun i => split_list_group_by_key [0;1;2;3;4] ["b";"a";"b";"c";"a"]%string i 2) (arange 1 3)
  = Ok [([1;4],[1;4]); ([0;2;3],[0;2;3])].
Proof. reflexivity. Qed.

(** The empty list is rejected by the grouped split (ids.max() of an empty array), unlike by
    split_list: C02's hypothesis key <> [] is needed. *)
Theorem C02_split_group_empty_raises :
  forall (A K : Type) (HK : Ord K) (a : list A) (idx P : Z),
    split_list_group_by_key a (@nil K) idx P = Err ValueError.
Proof. reflexivity. Qed.
Print Assumptions C02_split_group_empty_raises.

(** C03 *)
Theorem C03_ismember_spec :
  forall (A : Type) (HA : Ord A) (a b : list A),
  List.length (fst (ismember a b)) = List.length a /\
  List.length (snd (ismember a b)) = List.length a /\
  forall i x, nth_error a i = Some x ->
    (nth_error (fst (ismember a b)) i = Some true <-> In x b) /\
    (nth_error (fst (ismember a b)) i = Some false <-> ~ In x b) /\
    (In x b -> exists k, nth_error (snd (ismember a b)) i = Some (Z.of_nat k) /\
                         nth_error b k = Some x /\
                         forall j, (j < k)%nat -> nth_error b j <> Some x).
Proof. exact @ismember_spec. Qed.
Print Assumptions C03_ismember_spec.

Theorem C03_intersect_spec :
  forall (A : Type) (HA : Ord A) (a b : list A),
  let '(c, ia, ib) := intersect a b in
  StronglySorted (fun x y => leb x y = true /\ x <> y) c /\
  (forall x, In x c <-> In x a /\ In x b) /\
  List.length ia = List.length c /\ List.length ib = List.length c /\
  (forall i x, nth_error c i = Some x ->
     exists ka kb, nth_error ia i = Some (Z.of_nat ka) /\ nth_error ib i = Some (Z.of_nat kb) /\
       nth_error a ka = Some x /\ (forall j, (j < ka)%nat -> nth_error a j <> Some x) /\
       nth_error b kb = Some x /\ (forall j, (j < kb)%nat -> nth_error b j <> Some x)).
Proof. exact @intersect_spec. Qed.
Print Assumptions C03_intersect_spec.

Example C03_witness :
  ismember ["x";"b";"a";"b"]%string ["b";"a";"b"]%string = ([false;true;true;true], [bad_idx;0;1;0])
  /\ intersect ["c";"b";"a";"b"]%string ["b";"a";"b";"z"]%string = (["a";"b"]%string, [2;1], [1;0]).
Proof. split; reflexivity. Qed.

(** C04.  The binary64 evaluation of the part boundary is the exact integer quotient. *)
Theorem C04_float_boundaries_exact :
  forall k n P : Z, 0 <= k -> 0 <= n -> 1 <= P -> k <= P -> k * n + P <= 2 ^ 53 ->
    fbound k n P = (k * n) / P.
Proof. exact fbound_exact_lemma. Qed.
Print Assumptions C04_float_boundaries_exact.

Example C04_witness : fbound 3 1000000007 7 = 428571431.
Proof. rewrite C04_float_boundaries_exact; vm_compute; congruence. Qed.

(** Hence the two split functions, evaluated with binary64 boundaries, are the ones C01 and
    C02 speak about. *)
Theorem C04_float_split_list :
  forall (A : Type) (a : list A) (idx P : Z),
  1 <= idx <= P -> P * Z.of_nat (List.length a) + P <= 2 ^ 53 ->
  split_list_with fbound a idx P = split_list a idx P.
Proof. exact @split_list_f64_lemma. Qed.
Print Assumptions C04_float_split_list.

Theorem C04_float_split_list_group_by_key :
  forall (A K : Type) (HK : Ord K) (a : list A) (key : list K) (idx P : Z),
  1 <= idx <= P -> P * Z.of_nat (List.length key) + P <= 2 ^ 53 ->
  split_list_group_by_key_with fbound a key idx P = split_list_group_by_key a key idx P.
Proof. exact @split_group_f64_lemma. Qed.
Print Assumptions C04_float_split_list_group_by_key.
