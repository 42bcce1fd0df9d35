(** numpy 2-D arrays and the indexing primitives used by the trial classes.  These are library
    functions (trusted base): a matrix is its number of columns and its list of rows. *)
From Verif Require Export ListUtils.
Open Scope list_scope.
Open Scope Z_scope.

Notation len := List.length.

Record mat (A : Type) : Type := mk_mat { m_cols : nat; m_rows : list (list A) }.
Arguments mk_mat {A} _ _.
Arguments m_cols {A} _.
Arguments m_rows {A} _.

(** [a.shape == (r, c)] *)
Definition shape_is {A} (M : mat A) (r c : nat) : bool := (len (m_rows M) =? r)%nat && (m_cols M =? c)%nat.

(** the array object is rectangular (always true of a numpy array) and has shape (r, c) *)
Definition has_shape {A} (M : mat A) (r c : nat) : Prop :=
  len (m_rows M) = r /\ m_cols M = c /\ Forall (fun row => len row = c) (m_rows M).

(** [a[i, j]] for non-negative [i], [j] *)
Definition mget {A} (M : mat A) (i j : nat) : option A :=
  match nth_error (m_rows M) i with Some row => nth_error row j | None => None end.

(** [np.zeros((r, c))], [np.ones((r, c))] *)
Definition mfull {A} (r c : nat) (v : A) : mat A := mk_mat c (repeat (repeat v c) r).

(** [a[np.ix_(mi, si)]] *)
Definition msel {A} (M : mat A) (mi si : list Z) : res (mat A) :=
  rows <- take (m_rows M) mi ;;
  rows <- mapM (fun row => take row si) rows ;;
  Ok (mk_mat (len si) rows).

(** [a[:, si]] *)
Definition mcols {A} (M : mat A) (si : list Z) : res (mat A) :=
  rows <- mapM (fun row => take row si) (m_rows M) ;;
  Ok (mk_mat (len si) rows).

(** [a[i] = v] *)
Fixpoint set_nth {A} (a : list A) (i : nat) (v : A) : list A :=
  match a, i with
  | [], _ => []
  | _ :: a', O => v :: a'
  | x :: a', S i' => x :: set_nth a' i' v
  end.

Definition set_item {A} (a : list A) (i : Z) (v : A) : res (list A) :=
  match py_index (len a) i with None => Err IndexError | Some k => Ok (set_nth a k v) end.

(** [a[idx] = vs]; arrays of another length are rejected (no broadcasting) *)
Fixpoint set_items {A} (a : list A) (idx : list Z) (vs : list A) : res (list A) :=
  match idx, vs with
  | [], [] => Ok a
  | i :: idx', v :: vs' => a' <- set_item a i v ;; set_items a' idx' vs'
  | _, _ => Err ValueError
  end.

Fixpoint put_rows {A} (rows : list (list A)) (mi si : list Z) (vs : list (list A)) : res (list (list A)) :=
  match mi, vs with
  | [], [] => Ok rows
  | i :: mi', v :: vs' =>
      row <- get_item rows i ;;
      row' <- set_items row si v ;;
      rows' <- set_item rows i row' ;;
      put_rows rows' mi' si vs'
  | _, _ => Err ValueError
  end.

(** [a[np.ix_(mi, si)] = V] *)
Definition mput {A} (M : mat A) (mi si : list Z) (V : mat A) : res (mat A) :=
  rows <- put_rows (m_rows M) mi si (m_rows V) ;; Ok (mk_mat (m_cols M) rows).

(** [a[i, j] = v] *)
Definition mset1 {A} (M : mat A) (i j : nat) (v : A) : res (mat A) :=
  row <- get_item (m_rows M) (Z.of_nat i) ;;
  row' <- set_item row (Z.of_nat j) v ;;
  rows' <- set_item (m_rows M) (Z.of_nat i) row' ;;
  Ok (mk_mat (m_cols M) rows').

(** [f(a)] elementwise; [f(a, b)] elementwise on arrays of the same shape (no broadcasting) *)
Definition mmap {A B} (f : A -> B) (M : mat A) : mat B := mk_mat (m_cols M) (map (map f) (m_rows M)).

Fixpoint zip_with {A B C} (f : A -> B -> C) (a : list A) (b : list B) : list C :=
  match a, b with x :: a', y :: b' => f x y :: zip_with f a' b' | _, _ => [] end.

Definition mmap2 {A B C} (f : A -> B -> C) (M : mat A) (N : mat B) : res (mat C) :=
  if shape_is M (len (m_rows N)) (m_cols N)
  then Ok (mk_mat (m_cols M) (zip_with (zip_with f) (m_rows M) (m_rows N)))
  else Err ValueError.

(** [np.any(a)] / [np.all(a)] *)
Definition many (M : mat bool) : bool := existsb (existsb (fun b => b)) (m_rows M).
Definition mall (M : mat bool) : bool := forallb (forallb (fun b => b)) (m_rows M).

(** [(a.T == True).nonzero()] as the list of (i, j) = (row, column) of [a], in column-major order *)
Definition nonzeroT (M : mat bool) : list (nat * nat) :=
  concat (map (fun j => map (fun i => (i, j))
     (filter (fun i => match mget M i j with Some b => b | None => false end) (seq 0 (len (m_rows M)))))
     (seq 0 (m_cols M))).

(** [a[mask]]: the selected elements in row-major order *)
Definition msel_mask {A} (M : mat A) (K : mat bool) : res (list A) :=
  if shape_is K (len (m_rows M)) (m_cols M)
  then Ok (concat (zip_with sel (m_rows K) (m_rows M))) else Err IndexError.

(** [row[mask] = vs] for one row; returns the unused values *)
Fixpoint put_mask_row {A} (k : list bool) (row : list A) (vs : list A) : res (list A * list A) :=
  match k, row with
  | b :: k', x :: row' =>
      if b then match vs with
                | [] => Err ValueError
                | v :: vs' => '(r, rest) <- put_mask_row k' row' vs' ;; Ok (v :: r, rest)
                end
      else '(r, rest) <- put_mask_row k' row' vs ;; Ok (x :: r, rest)
  | _, _ => Ok (row, vs)
  end.

Fixpoint put_mask_rows {A} (ks : list (list bool)) (rows : list (list A)) (vs : list A) : res (list (list A)) :=
  match ks, rows with
  | k :: ks', row :: rows' =>
      '(r, rest) <- put_mask_row k row vs ;; rs <- put_mask_rows ks' rows' rest ;; Ok (r :: rs)
  | _, _ => match vs with [] => Ok rows | _ => Err ValueError end
  end.

(** [a[mask] = vs], [vs] a vector with one value per selected element *)
Definition mput_mask {A} (M : mat A) (K : mat bool) (vs : list A) : res (mat A) :=
  if shape_is K (len (m_rows M)) (m_cols M)
  then rows <- put_mask_rows (m_rows K) (m_rows M) vs ;; Ok (mk_mat (m_cols M) rows)
  else Err IndexError.

(** [a[mask] = v], [v] a scalar *)
Definition mfill_mask {A} (M : mat A) (K : mat bool) (v : A) : res (mat A) :=
  if shape_is K (len (m_rows M)) (m_cols M)
  then Ok (mk_mat (m_cols M) (zip_with (zip_with (fun (b : bool) x => if b then v else x)) (m_rows K) (m_rows M)))
  else Err IndexError.
