(** Model of the extraction of sequence embeddings in chunks: SeqEmbed.predict_embed, hyperion/keras/embed/seq_embed.py:81-110, 200-251 (and the same code
    in seq_embed_lde.py:215-266), SeqQEmbed.predict_embed, hyperion/keras/embed/seq_q_embed.py:195-243. The encoder is an arbitrary function from
    a list of frames to a list of frames (enc_net.predict on one sequence of in_seq_length frames); zeroA and zeroB are the zero frames. Divisions
    and np.ceil are exact. A shift in_seq_length - left_context - right_context of zero raises; a negative one is not modelled and is excluded by
    the hypotheses of the theorems. *)
From Coq Require Import ZArith List Bool Arith.
From Verif Require Import Base.
Import ListNotations.
Open Scope list_scope. Open Scope nat_scope.

Section Embed.
Context {A B : Type}.
(** the configuration: in_length, pool_in_length, the contexts, and the argument enc_downsampling *)
Record conf := mk_conf { c_L : nat; c_P : nat; c_left : nat; c_right : nat; c_begin : option nat; c_end : option nat; c_down : option nat }.
(** begin_context and end_context default to left_context and right_context: seq_embed.py:51-52 *)
Definition begin_ctx (c : conf) : nat := match c_begin c with Some b => b | None => c_left c end.
Definition end_ctx (c : conf) : nat := match c_end c with Some b => b | None => c_right c end.
(** the property enc_downsampling: seq_embed.py:103-110 *)
Definition downsampling (c : conf) : res nat :=
  match c_down c with
  | Some r => Ok r
  | None => if Nat.eqb (c_P c) 0 then Err ZeroDivisionError else if Nat.eqb (c_L c mod c_P c) 0 then Ok (c_L c / c_P c) else Err AssertionError
  end.
(** mask[0,:begin] = 0; mask[0,n - end:] = 0, where a negative start counts from the end: seq_embed.py:221-223 *)
Definition mask_of (n b e : nat) : list bool :=
  let s := if e <=? n then n - e else 2 * n - e in
  map (fun p => (b <=? p) && (p <? s)) (seq 0 n).
(** y[j:k] = v for j <= k, v with k - j rows *)
Definition put {C} (j k : nat) (v y : list C) : list C := firstn j y ++ v ++ skipn k y.
(** the loop over chunks: seq_embed.py:226-242; n chunks are left, i is the index of the current one. The buffer x_i keeps the frames of the
    previous chunk behind the l_in frames that are written. A negative l_out leaves P + l_out rows for none (numpy broadcasts one row). *)
Fixpoint chunks (enc : list A -> list B) (x : list A) (L P shift pshift plc plen : nat) (n i j_in j_out : nat) (x_i : list A) (y : list B)
    : res (list B) :=
  match n with
  | 0 => Ok y
  | S n =>
    let k_in := Nat.min (j_in + L) (List.length x) in
    let k_out := Nat.min (j_out + P) plen in
    let l_in := k_in - j_in in
    let x_i := put 0 l_in (firstn l_in (skipn j_in x)) x_i in
    let y_i := enc x_i in
    y <- (if k_out <? j_out then (if P + k_out - j_out <=? 1 then Ok y else Err ValueError)
          else Ok (put j_out k_out (firstn (k_out - j_out) y_i) y)) ;;
    chunks enc x L P shift pshift plc plen n (S i) (j_in + shift) (j_out + pshift + if i =? 0 then plc else 0) x_i y
  end.
(** np.ceil((in_length-in_seq_length)/in_shift+1) *)
Definition num_chunks (T L shift : nat) : nat := if L <=? T then (T - L + shift - 1) / shift + 1 else 1 - (L - T) / shift.
(** the frames and the mask handed to the pooling network: seq_embed.py:202-250. at_least_one is max(., 1), which is missing in seq_q_embed.py:220 *)
Definition embed_frames (at_least_one : bool) (c : conf) (enc : list A -> list B) (zeroA : A) (zeroB : B) (x : list A) : res (list (bool * B)) :=
  r <- downsampling c ;;
  if Nat.eqb r 0 then Err ZeroDivisionError else
  if negb (Nat.eqb (c_left c mod r) 0 && Nat.eqb (c_right c mod r) 0 && Nat.eqb (begin_ctx c mod r) 0 && Nat.eqb (end_ctx c mod r) 0) then Err AssertionError else
  let T := List.length x in
  let plen := T / r in
  let shift := c_L c - c_left c - c_right c in
  if Nat.eqb shift 0 then Err ZeroDivisionError else
  let n := num_chunks T (c_L c) shift in
  let n := if at_least_one then Nat.max n 1 else n in
  y <- chunks enc x (c_L c) (c_P c) shift (shift / r) (c_left c / r) plen n 0 0 0 (repeat zeroA (c_L c)) (repeat zeroB plen) ;;
  Ok (combine (mask_of plen (begin_ctx c / r) (end_ctx c / r)) y).
(** the embedding: the pooling network applied to the masked frames *)
Definition predict_embed {E} (at_least_one : bool) (c : conf) (enc : list A -> list B) (zeroA : A) (zeroB : B) (pool : list (bool * B) -> E) (x : list A) : res E :=
  f <- embed_frames at_least_one c enc zeroA zeroB x ;; Ok (pool f).
End Embed.
