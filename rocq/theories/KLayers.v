(** Model of the small keras layers: keras/layers/core.py (Bias, ExpTaylor, the elementwise layers), keras/layers/advanced_activations.py (Swish,
    SwishBeta), keras/layers/masking.py (CreateMask), keras/layers/tensor_manipulation.py (ExpandAndTile, ExpandDim: shapes) and keras/layers/feats.py
    (MelFB, DCT, Liftering), on exact reals. A tensor is given by its rows along the last axis. None: the value is nan or infinite. *)
From Coq Require Import Reals List.
From Verif Require Import Base ScoreNorm NormalDiag Mfcc.
Import ListNotations.
Open Scope list_scope.
Open Scope R_scope.

(** ** core.py *)
(** core.py:218-225, 250-280: the elementwise layers *)
Definition k_log (x : R) : option R := if Rlt_dec 0 x then Some (ln x) else None.
Definition invert (x : R) : option R := if Req_EM_T x 0 then None else Some (1 / x).
Definition log_layer := k_log.
Definition log1_layer (x : R) : option R := k_log (x + 1).
Definition neg_log (x : R) : option R := option_map Ropp (k_log x).
Definition neg_log1 (x : R) : option R := option_map Ropp (k_log (x + 1)).
Definition neg_softplus (x : R) : option R := option_map Ropp (k_log (1 + exp (- x))).
Definition add1 (x : R) : R := x + 1.
Definition add01 (x : R) : R := x + 1 / 10.
(** core.py:233-241, ExpTaylor.call: [steps] is the number of rounds left, [i] the round. (As the constructor, 229-230, does not call the constructor of
    Layer, keras refuses to connect the layer: only the computation is modelled.) *)
Fixpoint taylor_loop (inputs : R) (steps i : nat) (f xx y : R) : R :=
  match steps with
  | O => y
  | S n => let f := INR i * f in let xx := xx * inputs / f in let y := y + xx in taylor_loop inputs n (S i) f xx y
  end.
Definition exp_taylor (order : nat) (inputs : R) : R := taylor_loop inputs (order - 1) 1 1 inputs (inputs + 1).
(** core.py:37-63, Bias without activation: the addition broadcasts one value over the other; the declared size of the last axis is [units] *)
Definition broadcast_add (a b : list R) : res (list R) :=
  if Nat.eqb (List.length a) (List.length b) then Ok (map (fun p => fst p + snd p) (combine a b))
  else match b, a with [y], _ => Ok (map (fun x => x + y) a) | _, [x] => Ok (map (fun y => x + y) b) | _, _ => Err ValueError end.
Definition bias_call (bias x : list R) : res (list R) := broadcast_add x bias.
Definition bias_output_size (units input_dim : nat) : res nat := if Nat.eqb input_dim 0 then Err AssertionError else Ok units.

(** ** advanced_activations.py *)
(** K.sigmoid *)
Definition sigmoid (x : R) : R := 1 / (1 + exp (- x)).
(** lines 25-26 *)
Definition swish (beta x : R) : R := x * sigmoid (beta * x).
(** lines 44-47: super(Swish, self) needs self to be a Swish, which a SwishBeta is not *)
Definition swish_beta : res R := Err TypeError.

(** ** masking.py:23-28, CreateMask without an incoming mask, for the rows (frames) of one sequence; keepdims only adds an axis *)
Definition create_mask (mask_value : R) (x : list (list R)) : list R :=
  map (fun r => if existsb (fun v => if Req_EM_T v mask_value then false else true) r then 1 else 0) x.

(** ** tensor_manipulation.py: shapes (the first axis is the batch), negative positions as in Python *)
Definition py_insert {A} (i : Z) (x : A) (l : list A) : list A :=
  let n := Z.of_nat (List.length l) in
  let k := Z.to_nat (Z.min n (if (i <? 0)%Z then Z.max 0 (n + i) else i)) in firstn k l ++ x :: skipn k l.
Definition py_mul_at (i n : Z) (l : list Z) : res (list Z) :=
  let m := Z.of_nat (List.length l) in
  let k := (if (i <? 0)%Z then m + i else i)%Z in
  if (0 <=? k)%Z && (k <? m)%Z then Ok (firstn (Z.to_nat k) l ++ (nth (Z.to_nat k) l 0 * n)%Z :: skipn (S (Z.to_nat k)) l) else Err IndexError.
(** lines 22-26 (known sizes) *)
Definition repeat_shape (n axis : Z) (shape : list Z) : res (list Z) := py_mul_at axis n shape.
(** lines 52-56 *)
Definition expand_tile_shape (n axis : Z) (shape : list Z) : res (list Z) := py_mul_at axis n (py_insert axis 1%Z shape).
(** lines 59-63: the backend has no function [ndims] *)
Definition expand_tile_call : res (list (list R)) := Err AttributeError.
(** lines 77-79: the name [Expand] is not defined *)
Definition expand_dim_init : res unit := Err NameError.

(** ** feats.py *)
(** numpy.eye *)
Definition eye (N : nat) : list (list R) := map (fun i => map (fun j => if Nat.eqb j i then 1 else 0) (seq 0 N)) (seq 0 N).
(** scipy.fftpack.dct and idct, type 2, as documented; [ortho]: norm='ortho', otherwise norm=None *)
Definition dct (ortho : bool) (x : list R) : list R :=
  let N := List.length x in
  map (fun k => (if ortho then (if Nat.eqb k 0 then sqrt (1 / (4 * INR N)) else sqrt (1 / (2 * INR N))) else 1) *
                (2 * sumn N (fun n => nth n x 0 * cos (PI * INR k * (2 * INR n + 1) / (2 * INR N))))) (seq 0 N).
Definition idct (ortho : bool) (x : list R) : list R :=
  let N := List.length x in
  map (fun k => let s := sumn (N - 1) (fun n => nth (S n) x 0 * cos (PI * INR (S n) * (2 * INR k + 1) / (2 * INR N))) in
                if ortho then nth 0 x 0 / sqrt (INR N) + sqrt (2 / INR N) * s else nth 0 x 0 + 2 * s) (seq 0 N).
(** lines 145-157 *)
Definition make_dct (input_dim output_dim : nat) (inv normalize : bool) : list (list R) :=
  map (fun r => firstn output_dim (if inv then idct normalize r else dct normalize r)) (eye input_dim).
(** lines 160-172: the kernel has [units] columns, and keras sets it to the matrix made, whose shape must agree *)
Definition dct_build (units : nat) (inv normalize : bool) (input_dim : nat) : res (list (list R)) :=
  let C := make_dct input_dim units inv normalize in
  if forallb (fun r => Nat.eqb (List.length r) units) C then Ok C else Err ValueError.
(** Dense.call without bias or activation: the product of a row with the kernel *)
Definition dense_call (units : nat) (C : list (list R)) (x : list R) : list R :=
  map (fun j => sumn (List.length x) (fun i => nth i x 0 * nth j (nth i C []) 0)) (seq 0 units).
Definition dct_layer (units : nat) (inv normalize : bool) (x : list R) : res (list R) :=
  C <- dct_build units inv normalize (List.length x) ;; Ok (dense_call units C x).
(** lines 204-224, Liftering for Q <> 0; lines 198-200 are the formula of feats/mfcc.py ([lifter]); a quotient by 0 makes the filter (None) infinite *)
Definition lift_filter (Q : R) (inv : bool) (input_dim : nat) : list (option R) :=
  map (fun f => if inv then (if Req_EM_T f 0 then None else Some (1 / f)) else Some f) (lifter input_dim Q).
Definition liftering (Q : R) (inv : bool) (x : list R) : list (option R) :=
  map (fun p => option_map (fun f => fst p * f) (snd p)) (combine x (lift_filter Q inv (List.length x))).
(** lines 90-99: both filter banks call [lin2mel], which is not defined *)
Definition mel_build (shape : list nat) : res (list (list R)) := if Nat.ltb (List.length shape) 2 then Err AssertionError else Err NameError.
