(** Model of hyperion/utils/math.py: symmat2vec, vec2symmat, trimat2vec, vec2trimat (lines 190-271) and int2onehot (345-361).
    A square matrix is its dimension and its entries; entries outside the dimension are never read. The vector
    dimension int((-1+sqrt(1+8*n))/2) is computed with the integer square root, which equals the float result as long as
    1+8n is exactly representable (n < 2^50). *)
From Verif Require Export Base.
Open Scope list_scope.
Open Scope nat_scope.

Section SymMat.
Context {X : Type} (zero : X) (mulX : X -> X -> X).
Record sqmat := mk_sqmat { m_dim : nat; m_at : nat -> nat -> X }.

(** np.triu_indices(n), np.tril_indices(n): row by row *)
Definition triu (n : nat) : list (nat * nat) := flat_map (fun i => map (fun j => (i, j)) (seq i (n - i))) (seq 0 n).
Definition tril (n : nat) : list (nat * nat) := flat_map (fun i => map (fun j => (i, j)) (seq 0 (S i))) (seq 0 n).
(** A[idx] *)
Definition gather2 (f : nat -> nat -> X) (idx : list (nat * nat)) : list X := map (fun p => f (fst p) (snd p)) idx.
(** A[idx] = v: the last value wins; a vector of another length raises ValueError (a length of one cannot be broadcast here) *)
Definition scatter2 (f : nat -> nat -> X) (idx : list (nat * nat)) (v : list X) : res (nat -> nat -> X) :=
  if List.length v =? List.length idx then
    Ok (fold_left (fun f pv => fun i j => if (i =? fst (fst pv)) && (j =? snd (fst pv)) then snd pv else f i j) (combine idx v) f)
  else Err ValueError.
(** A[np.diag_indices(n)] *= c *)
Definition scale_diag (c : option X) (f : nat -> nat -> X) : nat -> nat -> X :=
  match c with None => f | Some c => fun i j => if i =? j then mulX (f i j) c else f i j end.

(** math.py:190-207 *)
Definition symmat2vec (A : sqmat) (lower : bool) (diag_factor : option X) : list X :=
  gather2 (scale_diag diag_factor (m_at A)) (if lower then tril (m_dim A) else triu (m_dim A)).
(** int((-1+np.sqrt(1+8*n))/2) *)
Definition tri_dim (n : nat) : nat := Nat.div (Nat.sqrt (1 + 8 * n) - 1) 2.
(** math.py:211-236 *)
Definition vec2symmat (v : list X) (lower : bool) (diag_factor : option X) : res sqmat :=
  let dim := tri_dim (List.length v) in
  let idx_u := triu dim in
  let idx_l := tril dim in
  let A := fun _ _ => zero in
  A <- (if lower then A <- scatter2 A idx_l v ;; scatter2 A idx_u (gather2 (fun i j => A j i) idx_u)
        else A <- scatter2 A idx_u v ;; scatter2 A idx_l (gather2 (fun i j => A j i) idx_l)) ;;
  Ok (mk_sqmat dim (scale_diag diag_factor A)).
(** math.py:239-251 *)
Definition trimat2vec (A : sqmat) (lower : bool) : list X := symmat2vec A lower None.
(** math.py:254-271 *)
Definition vec2trimat (v : list X) (lower : bool) : res sqmat :=
  let dim := tri_dim (List.length v) in
  A <- scatter2 (fun _ _ => zero) (if lower then tril dim else triu dim) v ;; Ok (mk_sqmat dim A).
End SymMat.
Arguments sqmat : clear implicits.

(** math.py:345-361 int2onehot: p[np.arange(n), class_ids] = 1; an index is taken modulo once when negative *)
Definition int2onehot (class_ids : list Z) (num_classes : option nat) : res (list (list Z)) :=
  k <- (match num_classes with
        | Some k => Ok k
        | None => match class_ids with
                  | [] => Err ValueError
                  | c :: l => let k := (fold_left Z.max l c + 1)%Z in if (k <? 0)%Z then Err ValueError else Ok (Z.to_nat k)
                  end
        end) ;;
  mapM (fun c => match py_index k c with Some j => Ok (map (fun i => if i =? j then 1%Z else 0%Z) (seq 0 k)) | None => Err IndexError end) class_ids.
