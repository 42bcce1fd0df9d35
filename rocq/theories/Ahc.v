(** Model of hyperion/clustering/ahc.py (AHC). The merge table Z, made by scipy's linkage (not modelled), is a list of rows
    (first node, second node, height); node x < N is item x and node N + i is the result of row i. *)
From Coq Require Import QArith.
From Verif Require Export Base.
Open Scope list_scope.

Record row := mk_row { r_a : nat; r_b : nat; r_h : Q }.

(** ahc.py:31-50: x[idx] with idx the strict upper triangle, row by row, after the masked entries are set to -1e10 *)
Definition masked (m : option (list (list bool))) (x : list (list Q)) : list (list Q) :=
  match m with
  | None => x
  | Some m => map (fun p => map (fun q => if snd q : bool then fst q else (-10000000000 # 1)%Q) (combine (fst p) (snd p))) (combine x m)
  end.
Definition condensed (x : list (list Q)) : list Q :=
  flat_map (fun p => skipn (S (fst p)) (snd p)) (combine (seq 0 (List.length x)) x).
Inductive metric := Llr | Prob | Other.
Definition qmax (x : Q) (l : list Q) : Q := fold_left (fun a b => if Qle_bool a b then b else a) l x.
(** ahc.py:31-50 fit; [linkage] is scipy's function *)
Definition fit (linkage : list Q -> list row) (mt : metric) (m : option (list (list bool))) (x : list (list Q)) : res (list row) :=
  let scores := condensed (masked m x) in
  match mt with
  | Llr => match scores with
           | [] => Err ValueError
           | s :: l => let top := qmax s l in
             Ok (map (fun r => mk_row (r_a r) (r_b r) (- r_h r + top)%Q) (linkage (map (fun s => - s + top)%Q scores)))
           end
  | Prob => Ok (map (fun r => mk_row (r_a r) (r_b r) (1 - r_h r)%Q) (linkage (map (fun s => 1 - s)%Q scores)))
  | Other => Ok (linkage scores)
  end.

(** ahc.py:62-76, one step of the loop *)
Definition merge_step (N i : nat) (r : row) (flat : list nat) : list nat :=
  map (fun c => if (c =? r_a r) || (c =? r_b r) then N + i else c)%nat flat.
(** the loop over range(p_idx); Z[i] raises IndexError past the last row *)
Fixpoint merge_loop (N : nat) (tbl : list row) (p : nat) : res (list nat) :=
  match p with
  | O => Ok (seq 0 N)
  | S i => flat <- merge_loop N tbl i ;; match nth_error tbl i with Some r => Ok (merge_step N i r flat) | None => Err IndexError end
  end.
(** ahc.py:62-76 get_flat_clusters_from_num_clusters with self.flat_clusters None (it is always None: compute_flat_clusters
    cannot be called) *)
Definition from_num_clusters (tbl : list row) (k : Z) : res (list nat) :=
  let N := S (List.length tbl) in
  let k := Z.min (Z.of_nat N) k in
  flat <- merge_loop N tbl (Z.to_nat (Z.of_nat N - k)) ;; Ok (inverse flat).
(** ahc.py:80-86 *)
Definition from_thr (mt : metric) (tbl : list row) (thr : Q) : res (list nat) :=
  let ok := fun r => match mt with Other => Qle_bool (r_h r) thr | _ => Qle_bool thr (r_h r) end in
  from_num_clusters tbl (Z.of_nat (List.length tbl) + 1 - Z.of_nat (List.length (filter ok tbl))).
(** ahc.py:54-58 *)
Definition get_flat_clusters (mt : metric) (tbl : list row) (t : Q + Z) : res (list nat) :=
  match t with inl thr => from_thr mt tbl thr | inr k => from_num_clusters tbl k end.
(** ahc.py:90-119: compute_flat_clusters is declared without self, so that the call in evaluate_impurity_det raises TypeError *)
Definition evaluate_impurity_det (tbl : list row) (labels : list Z) : res (list Q * list Q) := Err TypeError.
