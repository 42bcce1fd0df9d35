(** Model of the probabilistic Keras layers and losses: hyperion/keras/layers/losses.py, layers/sampling.py:12-245, layers/scoring.py:96-139 and
    hyperion/keras/losses.py, in real arithmetic. Tensors are given by the list of the features of one frame (or sequence), sequences as lists of
    frames. The deprecated samplers are not modelled. *)
From Coq Require Import ZArith List Bool Reals.
From Verif Require Import Base NormalDiag ScoreNorm Pool.
Import ListNotations.
Open Scope list_scope. Open Scope R_scope.

(** * Kullback-Leibler layers: layers/losses.py:17-28 (variances and precisions are positive) *)
Inductive var_fmt := FVar | FPrec | FLogVar | FLogPrec.
Definition to_var (f : var_fmt) (x : R) : R := match f with FVar => x | FPrec => 1 / x | FLogVar => exp x | FLogPrec => exp (- x) end.
Definition to_logvar (f : var_fmt) (x : R) : R := match f with FVar => ln x | FPrec => - ln x | FLogVar => x | FLogPrec => - x end.
Definition to_mean (m : fmt1) (f : var_fmt) (p : R * R) : R := match m with Nat1 => to_var f (snd p) * fst p | Mean1 => fst p end.
Definition log2pi : R := ln (2 * PI).
(** KLDivNormalVsStdNormal.call for one frame: layers/losses.py:53-73; K.clip(., min_kl, None) *)
Definition kl_std (m : fmt1) (f : var_fmt) (min_kl beta : R) (p : list (R * R)) : R :=
  Rmax (1 / (2 * beta) * Rsum (map (fun q => (beta - 1) * log2pi - to_logvar f (snd q) - 1 + beta * ((to_mean m f q)² + to_var f (snd q))) p)) min_kl.
(** get_seq_length, keras/losses.py:19-20: the frames with a feature that is not zero *)
Definition live_frames (x : list (list R)) : R := INR (List.length (filter (fun r => existsb (fun v => if Req_EM_T v 0 then false else true) r) x)).
(** the same for a sequence: one number per frame; T is the number of frames whose mean is not zero unless time_norm *)
Definition kl_std_seq (m : fmt1) (f : var_fmt) (min_kl beta : R) (time_norm : bool) (x : list (list (R * R))) : list R :=
  let T := if time_norm then 1 else live_frames (map (map (to_mean m f)) x) in map (fun p => T * kl_std m f min_kl beta p) x.
(** KLDivNormalVsDiagNormal.call for one frame: layers/losses.py:111-128; the pairs are the parameters of both distributions for every feature *)
Definition kl_diag (m : fmt1) (f : var_fmt) (min_kl beta : R) (p : list ((R * R) * (R * R))) : R :=
  Rmax (1 / (2 * beta) * Rsum (map (fun q => (beta - 1) * log2pi + beta * to_logvar f (snd (snd q)) - to_logvar f (snd (fst q)) - 1 +
    beta * ((to_mean m f (fst q) - to_mean m f (snd q))² + to_var f (snd (fst q))) / to_var f (snd (snd q))) p)) min_kl.
(** the layer: Keras checks that there are as many inputs as input specifications (two, layers/losses.py:101-108), and call unpacks four *)
Definition kl_diag_layer {A B} (call : A -> A -> A -> A -> B) (inputs : list A) : res B :=
  if negb (Nat.eqb (List.length inputs) 2) then Err ValueError else
  match inputs with [a; b; c; d] => Ok (call a b c d) | _ => Err ValueError end.

(** * Losses: keras/losses.py:23-64 *)
(** nllk_normal_diag_cov for one frame: the prediction has the means, then the log variances *)
Definition nllk_normal (T : R) (y pred : list R) : R :=
  let n := List.length y in
  1/2 * T * Rsum (map (fun q => log2pi + snd (snd q) + (fst q - fst (snd q))² / exp (snd (snd q))) (combine y (combine (firstn n pred) (skipn n pred)))).
(** Keras 2, tensorflow_backend.binary_crossentropy(target, output), with its epsilon: output clipped, then the cross entropy *)
Definition keps : R := / 10 ^ 7.
Definition binary_crossentropy (target output : R) : R := let o := clip output keps (1 - keps) in - (target * ln o + (1 - target) * ln (1 - o)).
(** nllk_bernoulli: keras/losses.py:30-34 *)
Definition nllk_bernoulli (T : R) (y pred : list R) : R := T * Rsum (map (fun q => binary_crossentropy (snd q) (fst q)) (combine y pred)).
(** Keras 2, categorical_crossentropy(target, output): output normalised to sum 1 and clipped *)
Definition nllk_categorical (T : R) (y pred : list R) : R :=
  T * - Rsum (map (fun q => fst q * ln (clip (snd q / Rsum pred) keps (1 - keps))) (combine y pred)).
Definition categorical_mbr (y pred : list R) : R := 1 - Rsum (map (fun q => fst q * snd q) (combine y pred)).

(** * Samplers: layers/sampling.py:109-245, the standard normal draws eps are given *)
Inductive sd_fmt := SStd | SVar | SLogVar.
Definition stddev (f : sd_fmt) (p : R) : R := match f with SStd => Rabs p | SVar => sqrt (Rabs p) | SLogVar => exp (p / 2) end.
(** one feature *)
Definition draw (m : fmt1) (f : sd_fmt) (p : R * R) (eps : R) : R :=
  let s := stddev f (snd p) in match m with Nat1 => s * s * fst p | Mean1 => fst p end + s * eps.
(** the batch: K.repeat_elements if num_samples > 1; eps has one entry per sample and feature *)
Definition repeat_elements {A} (n : nat) (x : list A) : list A := concat (map (fun a => repeat a n) x).
Definition sampler (m : fmt1) (f : sd_fmt) (n : nat) (x : list (list (R * R))) (eps : list (list R)) : list (list R) :=
  let x := if (1 <? n)%nat then repeat_elements n x else x in
  map (fun q => map (fun r => draw m f (fst r) (snd r)) (combine (fst q) (snd q))) (combine x eps).
(** compute_output_shape of the sampler (batch size and features) and of the tied sampler (batch size, sequence length, features), which does not
    count the samples: layers/sampling.py:160-164, 203-206; and the length of what call returns *)
Definition sampler_shape (n batch dim : nat) : nat * nat := (batch * n, dim)%nat.
Definition tied_shape (n batch seq dim : nat) : nat * nat * nat := (batch, seq, dim).
Definition tied_sampler (m : fmt1) (f : sd_fmt) (n seq : nat) (one_per_seq : bool) (x : list (list (R * R))) (eps : list (list (list R))) : list (list (list R)) :=
  let x := if (1 <? n)%nat then repeat_elements n x else x in
  map (fun q => let z := map (fun e => map (fun r => draw m f (fst r) (snd r)) (combine (fst q) e)) (snd q) in
       if one_per_seq then concat (repeat z seq) else z) (combine x eps).

(** * ConvertNormalDiagCovPostStdPriorFmt: layers/sampling.py:12-105, one feature; same conversions as the pooling layer *)
Definition convert (i1 : fmt1) (i2 : in_fmt2) (o1 : fmt1) (o2 : out_fmt2) (b : R) (p : R * R) : R * R :=
  let prec := input_prec i2 b (snd p) in
  (match i1, o1 with Mean1, Nat1 => fst p * prec | Nat1, Mean1 => fst p / prec | _, _ => fst p end,
   match o2 with OLogVar => - ln prec | OVar => 1 / prec | OLogPrec => ln prec | OPrec => prec end).

(** * CatQScoringDiagNormalHomoPostStdPrior.call for one class and one input: layers/scoring.py:118-139. A feature is (class mean p1, class
    precision p2, input eta, input precision). CatQScoringDiagNormalPostStdPrior.call raises NameError (Le). *)
Definition q_score (x : list ((R * R) * (R * R))) : R :=
  let L_e := fun q : (R * R) * (R * R) => snd (fst q) in let eta_e := fun q : (R * R) * (R * R) => snd (fst q) * fst (fst q) in
  let eta_t := fun q : (R * R) * (R * R) => fst (snd q) in let L_t := fun q : (R * R) * (R * R) => snd (snd q) in
  let L_et := fun q => L_t q + L_e q - 1 in let C_et := fun q => 1 / L_et q in
  let C_e := fun q => C_et q - 1 / L_e q in let C_t := fun q => C_et q - 1 / L_t q in
  let r_e := Rsum (map (fun q => ln (L_e q)) x) + Rsum (map (fun q => eta_e q * eta_e q * C_e q) x) in
  let r_t := Rsum (map (fun q => ln (L_t q)) x) + Rsum (map (fun q => C_t q * (eta_t q)²) x) in
  let r_et := - Rsum (map (fun q => ln (L_et q)) x) + 2 * Rsum (map (fun q => eta_t q * C_et q * eta_e q) x) in
  1/2 * (r_et + r_e + r_t).
