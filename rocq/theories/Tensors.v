(** Model of hyperion/utils/tensors.py. A two-dimensional array is its number of columns and its rows. *)
From Verif Require Export Base.
Open Scope list_scope.
Open Scope nat_scope.

Section Tensors.
Context {X : Type} (zero one : X).
Record arr2 := mk_arr2 { a_dim : nat; a_rows : list (list X) }.

(** x3d[i,:n,:] = src on a plane of [len] zero rows: the slice has min(n, len) rows; numpy needs the same number of rows and
    columns, or one (which it repeats) *)
Definition fill_plane (len dim : nat) (src : arr2) : res (list (list X)) :=
  let n := List.length (a_rows src) in
  let t := Nat.min n len in
  if negb ((n =? t) || (n =? 1)) then Err ValueError else
  if negb ((a_dim src =? dim) || (a_dim src =? 1)) then Err ValueError else
  let rows := if n =? t then a_rows src else List.concat (repeat (a_rows src) t) in
  let rows := if a_dim src =? dim then rows else map (fun r => List.concat (repeat r dim)) rows in
  Ok (rows ++ repeat (repeat zero dim) (len - t)).
(** sample_weight[i,:n] = 1 *)
Definition fill_weight (len n : nat) : list X := repeat one (Nat.min n len) ++ repeat zero (len - Nat.min n len).

(** tensors.py:31-46 *)
Definition to3D_by_seq (x : list arr2) (max_length : Z) : res (list (list (list X)) * list (list X)) :=
  match x with
  | [] => Err IndexError
  | x0 :: _ =>
    let dim := a_dim x0 in
    let len := if (max_length =? 0)%Z then fold_left (fun m a => Z.max m (Z.of_nat (List.length (a_rows a)))) x max_length else max_length in
    if (len <? 0)%Z then Err ValueError else
    x3d <- mapM (fill_plane (Z.to_nat len) dim) x ;;
    Ok (x3d, map (fun a => fill_weight (Z.to_nat len) (List.length (a_rows a))) x)
  end.

(** x[idx, :] for idx = (class_ids == i) *)
Definition rows_of (x : arr2) (class_ids : list Z) (i : nat) : arr2 :=
  mk_arr2 (a_dim x) (sel (map (fun c => (c =? Z.of_nat i)%Z) class_ids) (a_rows x)).
(** tensors.py:12-28; a mask of another length raises IndexError *)
Definition to3D_by_class (x : arr2) (class_ids : list Z) (max_length : Z) : res (list (list (list X)) * list (list X)) :=
  match class_ids with
  | [] => Err ValueError
  | c :: l =>
    let num_classes := (fold_left Z.max l c + 1)%Z in
    let count := fun i => List.length (filter (fun c => (c =? Z.of_nat i)%Z) class_ids) in
    let classes := seq 0 (Z.to_nat num_classes) in
    let len := if (max_length =? 0)%Z then fold_left (fun m i => Z.max m (Z.of_nat (count i))) classes max_length else max_length in
    if (num_classes <? 0)%Z || (len <? 0)%Z then Err ValueError else
    x3d <- mapM (fun i => if List.length class_ids =? List.length (a_rows x) then fill_plane (Z.to_nat len) (a_dim x) (rows_of x class_ids i) else Err IndexError) classes ;;
    Ok (x3d, map (fun i => fill_weight (Z.to_nat len) (count i)) classes)
  end.
End Tensors.
Arguments arr2 : clear implicits.
