(** Model of hyperion/feats/feature_normalization.py: MeanVarianceNorm. Every operation of the code works column by column (axis=0), so a
    feature matrix is modelled by one of its columns, a list of reals; None stands for nan/inf (a division by zero). Reals are exact.
    [left_context] and [right_context] are non-negative. *)
From Coq Require Import Reals.
From Verif Require Export Base ScoreNorm.
From Verif Require Mat.
Open Scope list_scope.
Open Scope R_scope.

Fixpoint oall {A} (l : list (option A)) : option (list A) := match l with [] => Some [] | o :: l => obind o (fun x => obind (oall l) (fun r => Some (x :: r))) end.
Notation zip_with := Mat.zip_with.

Record mvn := mk_mvn { norm_mean : bool; norm_var : bool; left_context : option nat; right_context : option nat }.

(** feature_normalization.py:40-50 [normalize_global] *)
Definition normalize_global (o : mvn) (x : list R) : option (list R) :=
  obind (if norm_mean o then obind (mean x) (fun m => Some (map (fun v => v - m) x)) else Some x) (fun x =>
  if norm_var o then obind (std x) (fun s => oall (map (fun v => odiv v s) x)) else Some x).

(** lines 69-77, 125-133, 178-186: an absent context is the number of frames *)
Definition ctx (c : option nat) (n : nat) : nat := match c with Some k => k | None => n end.
(** np.cumsum *)
Fixpoint rcumsum (acc : R) (l : list R) : list R := match l with [] => [] | v :: l => (acc + v) :: rcumsum (acc + v) l end.
(** a[i:i+len(v)] = v *)
Definition set_slice (a : list R) (i : nat) (v : list R) : list R := firstn i a ++ v ++ skipn (i + List.length v) a.
(** a[T:] - a[:-T] *)
Definition lag_diff (T : nat) (a : list R) : list R := zip_with Rminus (skipn T a) (firstn (List.length a - T) a).
(** lines 141-152: zeros, the cumulative sums from position left+1 on, then the last of them *)
Definition padded_cumsum (n l T : nat) (x : list R) : list R :=
  let c := set_slice (repeat 0 (n + T)) (l + 1) (rcumsum 0 x) in set_slice c (l + n + 1) (repeat (nth (l + n) c 0) (T - l - 1)).
Definition padded_counts (n l T : nat) : list R :=
  let c := set_slice (repeat 0 (n + T)) (l + 1) (map INR (seq 1 n)) in set_slice c (l + n + 1) (repeat (INR n) (T - l - 1)).

Definition var_floor : R := / 100000.
(** s2_x[s2_x<1e-5] = 1e-5 *)
Definition floor_var (v : R) : R := if Rlt_dec v var_floor then var_floor else v.
(** lines 90-106 / 154-167, shared by the two fast versions: from the windowed sums to the output *)
Definition finish (o : mvn) (x sums sums2 counts : list R) : option (list R) :=
  obind (oall (zip_with odiv sums counts)) (fun m =>
  let x' := if norm_mean o then zip_with Rminus x m else x in
  if norm_var o then obind (oall (zip_with odiv sums2 counts)) (fun m2 => oall (zip_with odiv x' (map (fun v => sqrt (floor_var v)) (zip_with Rminus m2 (map Rsqr m)))))
  else Some x').

(** lines 110-167 [normalize_cumsum] *)
Definition normalize_cumsum (o : mvn) (x : list R) : option (list R) :=
  obind (normalize_global o x) (fun x =>
  match left_context o, right_context o with
  | None, None => Some x
  | lc, rc =>
    let n := List.length x in let l := ctx lc n in let r := ctx rc n in let T := (l + r + 1)%nat in
    if (n <=? Nat.min r l + 1)%nat then Some x
    else finish o x (lag_diff T (padded_cumsum n l T x)) (lag_diff T (padded_cumsum n l T (map Rsqr x))) (lag_diff T (padded_counts n l T))
  end).

(** scipy convolve2d of columns, mode 'full' *)
Definition conv (x h : list R) : list R := map (fun k => Rsum (map (fun j => nth j x 0 * nth (k - j) h 0) (seq 0 (Nat.min (k + 1) (List.length x))))) (seq 0 (List.length x + List.length h - 1)).
Definition slice (i n : nat) (a : list R) : list R := firstn n (skipn i a).
(** lines 54-106 [normalize_conv] *)
Definition normalize_conv (o : mvn) (x : list R) : option (list R) :=
  obind (normalize_global o x) (fun x =>
  match left_context o, right_context o with
  | None, None => Some x
  | lc, rc =>
    let n := List.length x in let l := ctx lc n in let r := ctx rc n in let T := (l + r + 1)%nat in
    if (n <=? Nat.min r l + 1)%nat then Some x
    else let h := repeat 1 T in finish o x (slice r n (conv x h)) (slice r n (conv (map Rsqr x) h)) (slice r n (conv (repeat 1 n) h))
  end).

(** lines 171-205 [normalize_slow] *)
Definition normalize_slow (o : mvn) (x : list R) : option (list R) :=
  obind (normalize_global o x) (fun x =>
  match left_context o, right_context o with
  | None, None => Some x
  | lc, rc =>
    let n := List.length x in let l := ctx lc n in let r := ctx rc n in
    let win i := (let idx1 := (i - l)%nat in let idx2 := (Nat.min (i + r) (n - 1) + 1)%nat in firstn (idx2 - idx1) (skipn idx1 x)) in
    obind (oall (map (fun i => mean (win i)) (seq 0 n))) (fun m => obind (oall (map (fun i => std (win i)) (seq 0 n))) (fun s =>
    let x' := if norm_mean o then zip_with Rminus x m else x in
    if norm_var o then oall (zip_with odiv x' (map (fun v => if Rlt_dec v (sqrt var_floor) then sqrt var_floor else v) s)) else Some x'))
  end).
(** lines 36-37 [normalize] *)
Definition normalize := normalize_cumsum.
