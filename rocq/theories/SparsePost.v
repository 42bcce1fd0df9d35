(** Model of the sparse posteriors of hyperion/bin/compute-gmm-post.py:31-45: to_sparse and to_dense, on exact reals. The matrices are lists of
    rows; a quotient by 0 (numpy: nan or inf) makes the row None. *)
From Coq Require Import Reals.
From Verif Require Import Base ScoreNorm.
Open Scope list_scope.

Section Sparse.
(** np.argsort of one row (the order of equal values is not specified): an argument; the theorems state what is assumed of it *)
Variable argsort : list R -> list nat.

(** lines 32-36 for one row; [index[:, -num:]] is the whole row when num is 0 or larger than the row. The assignment into a row of num zeros needs num
    values, or one, which is repeated. *)
Definition last_cols {A} (num : nat) (l : list A) : list A := if Nat.eqb num 0 then l else skipn (List.length l - num) l.
Definition assign_row (num : nat) (v : list R) : res (list R) :=
  if Nat.eqb (List.length v) num then Ok v else match v with [x] => Ok (repeat x num) | _ => Err ValueError end.
Definition normalize (v : list R) : option (list R) := match v with [] => Some [] | _ => if Req_EM_T (Rsum v) 0 then None else Some (map (fun x => x / Rsum v)%R v) end.
Definition sparse_row (num : nat) (r : list R) : res (option (list R) * list nat) :=
  let index := last_cols num (argsort r) in
  v <- mapM (fun j => match nth_error r j with Some x => Ok x | None => Err IndexError end) index ;;
  row <- assign_row num v ;;
  Ok (normalize row, index).
Definition to_sparse (num : nat) (r : list (list R)) : res (list (option (list R)) * list (list nat)) :=
  l <- mapM (sparse_row num) r ;; Ok (map fst l, map snd l).
(** lines 40-45 for one row: num_comp zeros, then [r[i, index[i]] = r_sparse[i]], one value after the other *)
Definition put (d : list R) (j : nat) (x : R) : res (list R) := if Nat.ltb j (List.length d) then Ok (firstn j d ++ x :: skipn (S j) d) else Err IndexError.
Fixpoint puts (d : list R) (index : list nat) (v : list R) : res (list R) :=
  match index, v with j :: index, x :: v => d <- put d j x ;; puts d index v | _, _ => Ok d end.
Definition dense_row (num_comp : nat) (index : list nat) (v : list R) : res (list R) :=
  let d := repeat 0%R num_comp in
  if Nat.eqb (List.length v) (List.length index) then puts d index v
  else match v with [x] => puts d index (repeat x (List.length index)) | _ => Err ValueError end.
(** [to_dense]; it goes through the rows of r_sparse *)
Definition to_dense (r_sparse : list (list R)) (index : list (list nat)) (num_comp : nat) : res (list (list R)) :=
  mapM (fun i => match nth_error r_sparse i, nth_error index i with Some v, Some ix => dense_row num_comp ix v | _, _ => Err IndexError end) (seq 0 (List.length r_sparse)).
End Sparse.
