(** Model of hyperion/clustering/kmeans.py (KMeans).
    Numbers are exact rationals (the code has float32/float64; rounding is not modelled). A point is the list of its D
    coordinates, the data [x] the list of its rows (shape (len x, D)). *)
From Coq Require Import QArith Qabs.
From Verif Require Export Base.
From Verif Require Import Mat Metrics.
Open Scope list_scope.
Open Scope Q_scope.

Notation point := (list Q).
Definition qsum (l : list Q) : Q := fold_right Qplus 0 l.
Definition coord (p : point) (j : nat) : Q := nth j p 0.

Section KMeans.
Variable D : nat.

(** [np.sum(np.square(x-mu[k]), axis=-1)] for one row (lines 52, 71) *)
Definition sqdist (p c : point) : Q := qsum (map (fun j => (coord p j - coord c j) * (coord p j - coord c j)) (seq 0 D)).

(** [np.argmax] of one row: the first greatest element *)
Definition argmax (l : list Q) : res nat := argmin (map Qopp l).

(** kmeans.py:46-55 [_choose_seeds]; the loop over i, starting with [mu] holding the first seeds *)
Fixpoint more_seeds (x : list point) (n : nat) (mu : list point) : res (list point) :=
  match n with
  | O => Ok mu
  | S n =>
    index <- argmax (map (fun p => qsum (map (sqdist p) mu)) x) ;;
    p <- rd x index ;;
    more_seeds x n (mu ++ [p])
  end.
Definition choose_seeds (K : nat) (x : list point) : res (list point) :=
  match K with
  | O => Err IndexError                                  (* mu[0] of an array without rows *)
  | S n => p <- rd x 0 ;; more_seeds x n [p]
  end.

(** kmeans.py:59-65 [_compute_centroids]; a cluster without points keeps the zeros it was initialised with *)
Definition members_of (x : list point) (index : list nat) (k : nat) : list point := sel (map (Nat.eqb k) index) x.
Definition qmean (l : list Q) : Q := qsum l / inject_Z (Z.of_nat (List.length l)).
Definition centroid (pts : list point) : point :=
  match pts with
  | [] => repeat 0 D
  | _ => map (fun j => qmean (map (fun p => coord p j) pts)) (seq 0 D)
  end.
Definition compute_centroids (K : nat) (x : list point) (index : list nat) : list point :=
  map (fun k => centroid (members_of x index k)) (seq 0 K).

(** kmeans.py:68-74 [predict]: for each row, the number of the closest centroid and the squared distance *)
Definition predict1 (mu : list point) (p : point) : res (nat * Q) :=
  let err2 := map (sqdist p) mu in
  index <- argmin err2 ;;
  e <- rd err2 index ;;
  Ok (index, e).
Definition predict (mu : list point) (x : list point) : res (list nat * list Q) :=
  r <- mapM (predict1 mu) x ;; Ok (map fst r, map snd r).

(** kmeans.py:32-40: the loop over the epochs. [prev] is the previous loss if there is one. The division by a loss of zero
    gives nan or inf, which is not smaller than rtol. Returns the losses, the assignment and the final self.mu. *)
Definition converged (rtol prev cur : Q) : bool :=
  if Qeq_bool prev 0 then false else negb (Qle_bool rtol (Qabs (prev - cur) / prev)).
Fixpoint epochs_loop (K : nat) (rtol : Q) (x : list point) (n : nat) (prev : option Q) (mu : list point) (index : list nat)
  : res (list Q * list nat * list point) :=
  match n with
  | O => Ok ([], index, mu)
  | S n =>
    let mu := compute_centroids K x index in
    '(index, err2) <- predict mu x ;;
    let loss := qmean err2 in
    if match prev with None => false | Some p => converged rtol p loss end then Ok ([loss], index, mu)
    else '(l, index, mu) <- epochs_loop K rtol x n (Some loss) mu index ;; Ok (loss :: l, index, mu)
  end.

(** kmeans.py:28-42 [fit] *)
Definition fit (K : nat) (rtol : Q) (x : list point) (epochs : nat) : res (list Q * list nat * list point) :=
  mu <- choose_seeds K x ;;
  '(index, _) <- predict mu x ;;
  epochs_loop K rtol x epochs None mu index.
End KMeans.
