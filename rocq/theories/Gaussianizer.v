(** Model of hyperion/transforms/gaussianizer.py (fit, predict). The values are an ordered type [A] with a zero; matrices are lists of
    columns. The map [p -> sqrt(2) erfinv(2p-1)] (the standard Normal quantile) is the parameter [phi] on rationals.
    The rounding of np.linspace is not modelled (index positions are exact fractions, rounded half to even). *)
From Coq Require Import QArith.
From Verif Require Export Base.
From Verif Require Import Mat Folds.
Open Scope list_scope. Open Scope Z_scope.

Section G.
Context {A : Type} `{Ord A} (zero : A) {Y : Type} (phi : Q -> Y).

(** np.sort of one column *)
Fixpoint ins (x : A) (l : list A) : list A := match l with [] => [x] | y :: l' => if leb x y then x :: l else y :: ins x l' end.
Definition np_sort (l : list A) : list A := fold_right ins [] l.
(** gaussianizer.py:54: np.round(np.linspace(0, n-1, mv)).astype(int) *)
Definition lin_index (n mv : Z) : list Z :=
  map (fun i => if mv =? 1 then 0 else round_half_even (i * (n - 1)) (mv - 1)) (arange 0 mv).
(** gaussianizer.py:47-57: n rows; the comparison with None is a TypeError *)
Definition fit (mv : option Z) (n : nat) (x : list (list A)) : res (list (list A)) :=
  match mv with
  | None => Err TypeError
  | Some mv =>
    let r := map np_sort x in
    r <- (if mv <? Z.of_nat n then
            if mv <? 0 then Err ValueError else mapM (fun c => take c (lin_index (Z.of_nat n) mv)) r
          else Ok r) ;;
    Ok (map (cons zero) r)
  end.

(** np.searchsorted(r, x), side left: numpy's binary search *)
Fixpoint bsearch (fuel : nat) (r : list A) (x : A) (lo hi : nat) : nat :=
  match fuel with
  | O => lo
  | S f => if (lo <? hi)%nat then
             let mid := (lo + (hi - lo) / 2)%nat in
             if ltb (nth mid r zero) x then bsearch f r x (mid + 1) hi else bsearch f r x lo mid
           else lo
  end.
Definition searchsorted (r : list A) (x : A) : nat := bsearch (len r) r x 0 (len r).
(** gaussianizer.py:33-34: px_cum and y_map for R rows of self.r *)
Definition y_map (R : nat) : list Y := map (fun k => phi (Z.of_nat (k + 1) # Pos.of_nat (R + 1))) (seq 0 R).
(** gaussianizer.py:36-43: column by column; a column of x without a column of r is an IndexError *)
Fixpoint predict_cols (ym : list Y) (r x : list (list A)) : res (list (list Y)) :=
  match x, r with
  | [], _ => Ok []
  | _ :: _, [] => Err IndexError
  | xc :: x, rc :: r =>
    yc <- mapM (fun v => get_item ym (Z.of_nat (searchsorted (tl rc) v))) xc ;;
    ys <- predict_cols ym r x ;; Ok (yc :: ys)
  end.
Definition predict (rows : nat) (r x : list (list A)) : res (list (list Y)) := predict_cols (y_map rows) r x.
End G.
