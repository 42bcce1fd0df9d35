(** Model of the statistics of segments and sliding windows, hyperion/pdfs/mixtures/exp_family_mixture.py:212-360, in exact real
    arithmetic, on the objects of GmmDiag.v. Frame lengths and shifts are positive integers; the number of windows is the exact floor. *)
From Coq Require Import Reals.
From Verif Require Export Base MathFns ScoreNorm NormalDiag GmmDiag.
Open Scope list_scope. Open Scope R_scope.

Notation mat := (nat -> nat -> R) (only parsing).
(** Python x[a:b] for 0 <= a *)
Definition zslice {X} (a b : Z) (x : list X) : list X := slice (Z.to_nat a) (Z.to_nat b) x.
(** exp_family_mixture.py:212-232 (start >= 0): each segment is x[start:end+1] *)
Fixpoint g_segments (g : gmm) (x : list vec) (segs : list (Z * Z)) (w : option (list R)) (batch : option Z) : res (list (vec * mat) * gmm) :=
  match segs with
  | [] => Ok ([], g)
  | (a, b) :: segs =>
    let e := (b + 1)%Z in
    '(N, u, g) <- g_estep g (zslice a e x) (option_map (zslice a e) w) batch ;;
    '(l, g) <- g_segments g x segs w batch ;;
    Ok ((N, u) :: l, g)
  end.
(** the posteriors of all rows, times the row weights (exp_family_mixture.py:183-185, 249-251, 307-309) *)
Definition g_post (g : gmm) (u : list vec) (w : option (list R)) : res (list (list R) * gmm) :=
  let '(lp, g) := get_logpi g in
  z <- mapM (fun r => softmax (logr g lp r)) u ;;
  w <- row_weights u w ;;
  Ok (map (fun '(zi, v) => map (fun p => p * v) zi) (combine z w), g).
(** exp_family_mixture.py:246-263: column i of prob weighs the rows of segment i; all rows of prob have S entries *)
Definition g_prob_1 (g : gmm) (x : list vec) (prob : list (nat -> R)) (S : nat) (w : option (list R)) : res (list (vec * mat) * gmm) :=
  let u := map (suff (g_d g)) x in
  '(z, g) <- g_post g u w ;;
  if (List.length prob =? List.length x)%nat then
    Ok (map (fun i =>
      let zi := map (fun '(zt, p) => map (fun v => v * p i) zt) (combine z prob) in
      (fun k => Rsum (map (fun zt => nth k zt 0) zi), fun k j => Rsum (map (fun '(zt, r) => nth k zt 0 * r j) (combine zi u)))) (seq 0 S), g)
  else Err ValueError.
(** exp_family_mixture.py:267-283 *)
Definition add_stats (l m : list (vec * mat)) : list (vec * mat) :=
  map (fun '((N, u), (N', u')) => ((fun k => N k + N' k), (fun k j => u k j + u' k j))) (combine l m).
Definition g_prob_n (g : gmm) (x : list vec) (prob : list (nat -> R)) (S : nat) (w : option (list R)) (batch : Z) : res (list (vec * mat) * gmm) :=
  if (batch =? 0)%Z then Err ValueError else if (batch <? 0)%Z then Err UnboundLocalError else
  let b := Z.to_nat batch in
  '(acc, g) <- fold_left (fun st i1 =>
      '(acc, g) <- st ;;
      let i2 := Nat.min (i1 + b) (List.length x) in
      '(l, g) <- g_prob_1 g (slice i1 i2 x) (slice i1 i2 prob) S (option_map (slice i1 i2) w) ;;
      match acc with None => Ok (Some l, g) | Some l0 => Ok (Some (add_stats l0 l), g) end) (range_step (List.length x) b) (Ok (None, g)) ;;
  match acc with Some l => Ok (l, g) | None => Err UnboundLocalError end.
Definition g_prob (g : gmm) (x : list vec) (prob : list (nat -> R)) (S : nat) (w : option (list R)) (batch : option Z) : res (list (vec * mat) * gmm) :=
  match batch with None => g_prob_1 g x prob S w | Some b => g_prob_n g x prob S w b end.

(** np.cumsum over the rows *)
Fixpoint cums (acc : R) (l : list R) : list R := match l with [] => [] | v :: l => (acc + v) :: cums (acc + v) l end.
(** Python l[a:b:s] for a, b >= 0, s > 0 *)
Definition step_slice (a b s : nat) (l : list R) : list R :=
  map (fun i => nth (a + i * s) l 0) (seq 0 ((Nat.min b (List.length l) - a + s - 1) / s)).
(** exp_family_mixture.py:314-327 for one column c of values: N[0] = cum[L-1]; N[1:] = cum[start2:end2:s] - cum[start1:end1:s] *)
Definition win (ns : nat) (L s : nat) (c : list R) : res (list R) :=
  let start1 := (s - 1)%nat in let end1 := ((ns - 1) * s)%nat in
  let start2 := (start1 + L)%nat in let end2 := (end1 + L)%nat in
  let cum := cums 0 c in
  first <- match nth_error cum (L - 1) with Some v => Ok v | None => Err IndexError end ;;
  let a := step_slice start2 end2 s cum in let b := step_slice start1 end1 s cum in
  if ((List.length a =? ns - 1) && (List.length b =? ns - 1))%nat then Ok (first :: map (fun '(p, q) => p - q) (combine a b)) else Err ValueError.
(** exp_family_mixture.py:301 *)
Definition num_windows (n L s : nat) : Z := ((Z.of_nat n - Z.of_nat L) / Z.of_nat s + 1)%Z.
(** exp_family_mixture.py:297-329: K columns of counts and K (2d) columns of sums. With one window the call at line 303 passes self twice. *)
Definition g_sort_1 (g : gmm) (x : list vec) (L s : nat) (w : option (list R)) : res (list (vec * mat) * gmm) :=
  let nz := num_windows (List.length x) L s in
  if (nz =? 1)%Z then Err TypeError else
  let us := map (suff (g_d g)) x in
  '(z, g) <- g_post g us w ;;
  if (nz <? 0)%Z then Err ValueError else
  let ns := Z.to_nat nz in
  N <- mapM (fun k => win ns L s (map (fun zt => nth k zt 0) z)) (seq 0 (g_K g)) ;;
  u <- mapM (fun k => mapM (fun j => win ns L s (map (fun '(zt, r) => nth k zt 0 * r j) (combine z us))) (seq 0 (2 * g_d g))) (seq 0 (g_K g)) ;;
  Ok (map (fun i => ((fun k => nth i (nth k N []) 0), (fun k j => nth i (nth j (nth k u []) []) 0))) (seq 0 ns), g).
(** exp_family_mixture.py:333-360: the batch size given by the caller is not used *)
Definition g_sort_n (g : gmm) (x : list vec) (L s : nat) (w : option (list R)) : res (list (vec * mat) * gmm) :=
  let n := List.length x in
  let nz := num_windows n L s in
  if (nz =? 1)%Z then Err NameError else
  if (nz <? 0)%Z then Err ValueError else
  let ns := Z.to_nat nz in
  if (ns =? 0)%nat then Err ValueError (* range step 0 *) else
  let bs := ((ns - 1) * s + L)%nat in let shift := (ns * s)%nat in
  '(l, g) <- fold_left (fun st i1 =>
      '(l, g) <- st ;;
      let i2 := Nat.min (i1 + bs) n in
      '(li, g) <- g_sort_1 g (slice i1 i2 x) L s (option_map (slice i1 i2) w) ;;
      if (List.length l + List.length li <=? ns)%nat then Ok ((l ++ li)%list, g) else Err ValueError) (range_step n shift) (Ok ([], g)) ;;
  Ok (l, g).
