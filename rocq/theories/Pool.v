(** Model of the temporal pooling layers, hyperion/keras/layers/pooling.py:22-423, and of max_with_mask, hyperion/keras/backend_addons:
    real arithmetic, None for a number that is not finite. The layers work on each sequence of the batch and (but for LDE1D) each feature
    separately, so a sequence is given as the list of its frames (weight, value of one feature). Weights given as a batch x time array are
    expanded to the features by the layers; only max_with_mask does not expand them, and its mask has to be given per frame and feature.
    GlobalMaskedAveragePooling1D (mask.nonzeros, which tensors do not have) and the layers marked deprecated are not modelled. *)
From Coq Require Import ZArith List Bool Reals.
From Verif Require Import Base NormalDiag ScoreNorm.
Import ListNotations.
Open Scope list_scope. Open Scope R_scope.

Definition frame := (R * R)%type.
(** K.mean(x*weights, axis=1)/K.mean(weights, axis=1): pooling.py:69-74 *)
Definition avg_pool (x : list frame) : option R :=
  obind (mean (map (fun f => snd f * fst f) x)) (fun a => obind (mean (map fst x)) (fun n => odiv a n)).
(** K.sum(x*weights, axis=1): pooling.py:95-100 *)
Definition sum_pool (x : list frame) : R := Rsum (map (fun f => snd f * fst f) x).
(** the variance: pooling.py:122-133, 155-167 *)
Definition var_pool (x : list frame) : option R :=
  obind (avg_pool x) (fun mu => obind (mean (map (fun f => (snd f - mu)² * fst f) x)) (fun v => obind (mean (map fst x)) (fun n => odiv v n))).
(** GlobalWeightedMeanStdPooling1D: the square root of a negative number is nan *)
Definition mean_std_pool (x : list frame) : option R * option R :=
  (avg_pool x, obind (var_pool x) (fun v => if Rlt_dec v 0 then None else Some (sqrt v))).
(** GlobalWeightedMeanLogVarPooling1D *)
Definition mean_logvar_pool (x : list frame) : option R * option R :=
  (avg_pool x, obind (var_pool x) (fun v => if Rlt_dec 0 (v + / 10 ^ 10) then Some (ln (v + / 10 ^ 10)) else None)).
(** np.max; None for no frames *)
Definition rmax (l : list R) : option R := match l with [] => None | v :: l => Some (fold_left Rmax l v) end.
(** tensorflow_backend.py:23-25 and theano_backend.py:19-21 *)
Definition max_tf (x : list frame) : option R := rmax (map (fun f => (snd f - 10 ^ 10 * (1 - fst f)) * fst f) x).
Definition max_theano (x : list frame) : option R := rmax (map (fun f => snd f - 10 ^ 10 * (1 - fst f)) x).

(** * GlobalNormalDiagCovPostStdPriorPooling1D: pooling.py:217-343 *)
Inductive fmt1 := Nat1 | Mean1.
Inductive in_fmt2 := LogitVar | LogPrecM1 | LogVar | LogPrec | Var | Prec | PrecM1.
Inductive out_fmt2 := OLogVar | OVar | OLogPrec | OPrec.
(** K.clip *)
Definition clip (v lo hi : R) : R := Rmin (Rmax v lo) hi.
(** pooling.py:236-298. 1/0 is infinite, which the clipping replaces by its upper end. *)
Definition input_prec (f : in_fmt2) (b p : R) : R :=
  match f with
  | LogitVar => let e := exp (- clip p (-7) 7) in (1 + e) / (1 + b * e)
  | LogPrecM1 => let e := exp (clip p (-7) 7) in (1 + e) / (1 + b * e)
  | LogVar => clip (exp (- p)) 1 (1 / b)
  | LogPrec => clip (exp p) 1 (1 / b)
  | Var => if Req_EM_T p 0 then 1 / b else clip (1 / p) 1 (1 / b)
  | Prec => clip p 1 (1 / b)
  | PrecM1 => clip (p + 1) 1 (1 / b)
  end.
(** pooling.py:301-330: the frames are (weight, (p1, p2)); c is frame_corr_penalty and b is min_var *)
Definition post_pool (i1 : fmt1) (i2 : in_fmt2) (o1 : fmt1) (o2 : out_fmt2) (b c : R) (x : list (R * (R * R))) : R * R :=
  let prec_in := fun f => input_prec i2 b (snd (snd f)) in
  let p1 := fun f => match i1 with Mean1 => fst (snd f) * prec_in f | Nat1 => fst (snd f) end in
  let eta := c * Rsum (map (fun f => p1 f * fst f) x) in
  let prec := 1 + c * Rsum (map (fun f => (prec_in f - 1) * fst f) x) in
  let prec := clip prec 1 (10 ^ 5) in
  (match o1 with Mean1 => eta / prec | Nat1 => eta end,
   match o2 with OLogVar => - ln prec | OVar => 1 / prec | OLogPrec => ln prec | OPrec => prec end).

(** * LDE1D: pooling.py:350-423. A frame is a weight and a vector of D features; mu, s are the trained centres and scales; comp components. *)
Definition lde_dist (order : Z) (D : nat) (m x : nat -> R) : R :=
  if Z.eqb order 1 then sumn D (fun j => Rabs (x j - m j)) else sumn D (fun j => (x j - m j) * (x j - m j)).
Definition lde_resp (order : Z) (comp D : nat) (mu : nat -> nat -> R) (s : nat -> R) (x : nat -> R) (k : nat) : R :=
  exp (- s k * lde_dist order D (mu k) x) / sumn comp (fun h => exp (- s h * lde_dist order D (mu h) x)).
(** feature j of component k *)
Definition lde_pool (order : Z) (comp D : nat) (mu : nat -> nat -> R) (s : nat -> R) (x : list (R * (nat -> R))) (k j : nat) : option R :=
  obind (avg_pool (map (fun f => (lde_resp order comp D mu s (snd f) k * fst f, snd f j)) x)) (fun e => Some (e - mu k j)).
(** the concatenated output *)
Definition lde_out (order : Z) (comp D : nat) (mu : nat -> nat -> R) (s : nat -> R) (x : list (R * (nat -> R))) : list (option R) :=
  concat (map (fun k => map (lde_pool order comp D mu s x k) (seq 0 D)) (seq 0 comp)).
