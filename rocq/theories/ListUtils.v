(** Model of hyperion/utils/list_utils.py. *)
From Verif Require Export Base.
Open Scope Z_scope.

(** list_utils.py:26-45 [ismember].  The dictionary [d] maps an element of [b] to its first
    index (l.38-40: only inserted when absent).  [bad_idx] is [np.iinfo(int32).min].
    Simplification: locations are unbounded integers (the code stores int32; a list [b]
    of 2^31 or more elements is not representable in the code). *)
Definition bad_idx : Z := - 2 ^ 31.

Fixpoint first_index_dict {A} `{Ord A} (i : Z) (b : list A) (d : list (A * Z)) : list (A * Z) :=
  match b with
  | [] => d
  | elt :: b' =>
      if existsb (fun p => eqb elt (fst p)) d
      then first_index_dict (i + 1) b' d
      else first_index_dict (i + 1) b' ((elt, i) :: d)
  end.

Definition dict_get {A V} `{Ord A} (d : list (A * V)) (x : A) (dflt : V) : V :=
  match find (fun p => eqb x (fst p)) d with Some p => snd p | None => dflt end.

Definition ismember {A} `{Ord A} (a b : list A) : list bool * list Z :=
  let d := first_index_dict 0 b [] in
  let loc := map (fun x => dict_get d x bad_idx) a in
  (map (fun l => negb (l =? bad_idx)) loc, loc).

(** list_utils.py:49-72 [sort].  [np.argsort] is not stable (default quicksort), so the index
    array it returns is an argument [idx]; [is_argsort] is what numpy documents about it. *)
Definition is_argsort {A} `{Ord A} (a : list A) (idx : list nat) : Prop :=
  Permutation idx (seq 0 (List.length a)) /\
  exists s, take a (map Z.of_nat idx) = Ok s /\ Sorted (fun x y => leb x y = true) s.

Definition sort_index {A} `{Ord A} (idx : list nat) (a : list A) (reverse : bool)
  : res (list A * list Z) :=
  let idx := if reverse then rev idx else idx in
  s_a <- take a (map Z.of_nat idx) ;;
  Ok (s_a, map Z.of_nat idx).

(** list_utils.py:76-99 [intersect] with return_index=True. *)
Definition intersect {A} `{Ord A} (a b : list A) : list A * list Z * list Z :=
  let c := intersect1d a b in
  let ia := snd (ismember c a) in
  let ib := snd (ismember c b) in
  (c, ia, ib).

(** list_utils.py:117-118 and 144-145: [int(np.floor(k*n/num_parts))].  The code evaluates it
    in binary64; here it is the exact quotient.  ListUtilsProps.v (C04) proves both equal when
    [k*n + num_parts <= 2^53]. *)
Definition bound (k n num_parts : Z) : Z := (k * n) / num_parts.

(** list_utils.py:103-120 [split_list].  [n/num_parts] with num_parts = 0 raises.
    [bnd] is the evaluation of the boundary expression (exact or binary64). *)
Definition split_list_with {A} (bnd : Z -> Z -> Z -> Z) (a : list A) (idx num_parts : Z)
  : res (list A * list Z) :=
  if num_parts =? 0 then Err ZeroDivisionError
  else
    let n := Z.of_nat (List.length a) in
    let idx_1 := bnd (idx - 1) n num_parts in
    let idx_2 := bnd idx n num_parts in
    let loc := arange idx_1 idx_2 in
    x <- take a loc ;; Ok (x, loc).

Definition split_list {A} (a : list A) (idx num_parts : Z) : res (list A * list Z) :=
  split_list_with bound a idx num_parts.

(** list_utils.py:148-152: the filling loop.  [loc] has [len(a)] slots; assigning more
    elements than fit raises ValueError (numpy broadcasting error). *)
Fixpoint fill_groups (ids : list nat) (cap : nat) (gs : list Z) (loc : list nat) : res (list nat) :=
  match gs with
  | [] => Ok loc
  | i :: gs' =>
      let loc_i := nonzero (map (fun d => Z.of_nat d =? i) ids) in
      if (cap <? List.length loc + List.length loc_i)%nat then Err ValueError
      else fill_groups ids cap gs' (loc ++ loc_i)
  end.

(** list_utils.py:124-153 [split_list_group_by_key].  [ids.max()] of an empty array raises
    ValueError. *)
Definition split_list_group_by_key_with {A K} `{Ord K} (bnd : Z -> Z -> Z -> Z)
    (a : list A) (key : list K) (idx num_parts : Z) : res (list A * list Z) :=
  match key with
  | [] => Err ValueError
  | _ =>
    if num_parts =? 0 then Err ZeroDivisionError
    else
      let ids := inverse key in
      let n := Z.of_nat (list_max ids) + 1 in
      let idx_1 := bnd (idx - 1) n num_parts in
      let idx_2 := bnd idx n num_parts in
      loc <- fill_groups ids (List.length a) (arange idx_1 idx_2) [] ;;
      let loc := map Z.of_nat loc in
      x <- take a loc ;; Ok (x, loc)
  end.

Definition split_list_group_by_key {A K} `{Ord K} (a : list A) (key : list K)
    (idx num_parts : Z) : res (list A * list Z) :=
  split_list_group_by_key_with bound a key idx num_parts.
