(** Model of the evaluation of Keras losses per sample and of the variational autoencoder: hyperion/keras/keras_utils.py:175-351 and
    hyperion/keras/vae/vae.py:30-288, with layers/sampling.py:248-285 (DiagNormalSampler) and keras/objectives.py:18-26, 90-94, in real arithmetic.
    Simplifications: samples are vectors, the networks are functions of one sample; the standard normal draws are given for every call of the evaluation
    function, batch and row; the posterior is 'diag_normal' and the losses are those of px_cond_form 'bernoulli' and 'diag_normal'; a quotient by 0 is
    [None]; K.clip(., min, None) has no upper limit; the learning phase is 0. *)
From Coq Require Import ZArith List Bool String Reals.
From Verif Require Import Base Str NormalDiag ScoreNorm Pool KLoss.
Import ListNotations.
Open Scope list_scope.

(** * Batches: keras_utils.py:283-334 *)
Section Loop.
Variables (X V : Type) (zero : V).
(** lines 283-288; int(np.ceil(size / float(batch_size))) *)
Definition make_batches (size b : Z) : res (list (Z * Z)) :=
  if (b =? 0)%Z then Err ZeroDivisionError else Ok (map (fun i => (i * b, Z.min size ((i + 1) * b))%Z) (arange 0 (- ((- size) / b)))%Z).
(** what the evaluation function gives for a batch: a list of outputs, or one array *)
Inductive fout := FList (l : list (list V)) | FArray (l : list V).
Variable f : nat -> list X -> fout.
(** outs[i][batch_ids] = batch_out, lines 326 and 330 *)
Definition put (out : list V) (s e : nat) (v : list V) : res (list V) :=
  if Nat.eqb (List.length v) (e - s) then Ok (firstn s out ++ v ++ skipn e out)
  else match v with [a] => Ok (firstn s out ++ repeat a (e - s) ++ skipn e out) | _ => Err ValueError end.
Fixpoint put_all (outs : list (list V)) (s e : nat) (vs : list (list V)) : res (list (list V)) :=
  match vs, outs with
  | [], _ => Ok outs
  | _ :: _, [] => Err IndexError
  | v :: vs, o :: outs => o <- put o s e v ;; outs <- put_all outs s e vs ;; Ok (o :: outs)
  end.
(** lines 312-330; [n] is the number of samples. In line 330 the name i has no value. *)
Fixpoint loop (n : nat) (ins : list X) (k : nat) (batches : list (Z * Z)) (outs : list (list V)) : res (list (list V)) :=
  match batches with
  | [] => Ok outs
  | (s, e) :: batches =>
      let s := Z.to_nat s in let e := Z.to_nat e in
      match f k (firstn (e - s) (skipn s ins)) with
      | FList vs => outs <- put_all (if Nat.eqb k 0 then outs ++ map (fun _ => repeat zero n) vs else outs) s e vs ;; loop n ins (S k) batches outs
      | FArray v => Err UnboundLocalError
      end
  end.
(** lines 292-334 *)
Inductive eout := One (l : list V) | Many (l : list (list V)).
Definition eval_loop (ins : list X) (b : Z) : res eout :=
  let n := List.length ins in
  batches <- make_batches (Z.of_nat n) b ;; outs <- loop n ins 0 batches [] ;;
  Ok (match outs with [o] => One o | _ => Many outs end).
End Loop.
Arguments FList {V}. Arguments FArray {V}. Arguments One {V}. Arguments Many {V}.

Open Scope R_scope.
(** * One value per sample: keras_utils.py:175-195 *)
(** K.mean(., axis=[]) is the identity: one score and one weight per sample; K.ndim(None) is an error *)
Definition weighted1 (score : list R) (weights : option (list R)) : res (list (option R)) :=
  match weights with None => Err AttributeError | Some w => Ok (map (fun p => odiv (fst p * snd p) (snd p)) (combine score w)) end.
(** scores per sample and time step, one weight per sample: line 187 *)
Definition weighted_rows (score : list (list R)) (weights : option (list R)) : res (list (option R)) :=
  match weights with
  | None => Err AttributeError
  | Some w => Ok (map (fun p => obind (mean (fst p)) (fun m => odiv (m * snd p) (snd p))) (combine score w))
  end.
Fixpoint omap {A B} (g : A -> option B) (l : list A) : option (list B) :=
  match l with [] => Some [] | a :: l => obind (g a) (fun b => obind (omap g l) (fun l => Some (b :: l))) end.
(** one weight per sample and time step: lines 189-194 *)
Definition weighted2 (score weights : list (list R)) : list (option R) :=
  map (fun p => obind (mean (snd p)) (fun mw => obind (omap (fun q => odiv (fst q * snd q) mw) (combine (fst p) (snd p))) mean)) (combine score weights).

(** * The losses and their weights: keras_utils.py:199-266 *)
Inductive lweights := LWNone | LWDict (d : list (string * R)) | LWList (l : list R) | LWOther.
Section Losses.
Variable Fn : Type.
Inductive losses := LsDict (d : list (string * Fn)) | LsList (l : list Fn) | LsOne (fn : Fn).
Definition assoc {A} (d : list (string * A)) (k : string) : option A := match find (fun p => String.eqb (fst p) k) d with Some p => Some (snd p) | None => None end.
(** lines 202-225 *)
Definition prepare_weights (names : list string) (w : lweights) : res (list R) :=
  match w with
  | LWNone => Ok (map (fun _ => 1) names)
  | LWDict d => if existsb (fun p => negb (inb (fst p) names)) d then Err ValueError
                else Ok (map (fun n => match assoc d n with Some v => v | None => 1 end) names)
  | LWList l => if Nat.eqb (List.length l) (List.length names) then Ok l else Err ValueError
  | LWOther => Err TypeError
  end.
(** lines 228-251 *)
Definition prepare_losses (names : list string) (l : losses) : res (list Fn) :=
  match l with
  | LsDict d => if existsb (fun p => negb (inb (fst p) names)) d then Err ValueError
                else mapM (fun n => match assoc d n with Some v => Ok v | None => Err ValueError end) names
  | LsList l => if Nat.eqb (List.length l) (List.length names) then Ok l else Err ValueError
  | LsOne fn => Ok (map (fun _ => fn) names)
  end.
(** lines 255-266; [val] is the weighted loss of one output, a value per sample *)
Definition oadd (a b : option R) : option R := obind a (fun a => obind b (fun b => Some (a + b))).
Definition oscale (c : R) (a : option R) : option R := obind a (fun a => Some (c * a)).
Fixpoint total_loss (val : nat -> Fn -> list (option R)) (k : nat) (ws : list R) (fns : list Fn) (acc : option (list (option R))) : option (list (option R)) :=
  match ws, fns with
  | w :: ws, fn :: fns =>
      let v := map (oscale w) (val k fn) in
      total_loss val (S k) ws fns (Some (match acc with None => v | Some a => map (fun p => oadd (fst p) (snd p)) (combine a v) end))
  | _, _ => acc
  end.
Definition eval_total (val : nat -> Fn -> list (option R)) (names : list string) (lw : lweights) (ls : losses) : res (option (list (option R))) :=
  ws <- prepare_weights names lw ;; fns <- prepare_losses names ls ;; Ok (total_loss val 0 ws fns None).
End Losses.
Arguments LsDict {Fn}. Arguments LsList {Fn}. Arguments LsOne {Fn}. Arguments prepare_losses {Fn}. Arguments total_loss {Fn}. Arguments eval_total {Fn}.

(** * The autoencoder *)
(** keras/objectives.py:18-26, 90-94 (beta is 1) for one sample *)
Definition obj_bernoulli (y_true y_pred : list R) : R := Rsum (map (fun q => binary_crossentropy (snd q) (fst q)) (combine y_true y_pred)).
Definition obj_diag_normal (y mu lv : list R) : R :=
  0.5 * Rsum (map (fun q => log2pi + snd (snd q) + (fst q - fst (snd q))² / exp (snd (snd q))) (combine y (combine mu lv))).
Definition obj_kl_std (q : list (R * R)) : R := -0.5 * Rsum (map (fun p => (1 - 1) * log2pi + 1 + 1 * snd p - (fst p)² - exp (snd p)) q).
(** layers/sampling.py:269-275, 282-285 *)
Definition diag_sampler (n : nat) (q : list (list (R * R))) (eps : list (list R)) : list (list R) :=
  let q := if (1 <? n)%nat then repeat_elements n q else q in
  map (fun r => map (fun t => fst (fst t) + exp (snd (fst t) / 2) * snd t) (combine (fst r) (snd r))) (combine q eps).

Inductive px_form := PxBernoulli | PxDiag | PxOther.
(** vae.py:30-49; [v_enc] gives (mean, log variance) for every coordinate of z, [v_dec] what the decoder gives for z, its outputs joined as in line 78;
    [v_samples] is the argument of build *)
Record vae := mk_vae { v_px : px_form; v_std_prior : bool; v_min_kl : R; v_samples : nat; v_enc : list R -> list (R * R); v_dec : list R -> list R }.
(** K.reshape(r, (-1, n)) *)
Definition rows_of {A} (n : nat) (l : list A) : list (list A) := map (fun i => firstn n (skipn (i * n) l)) (seq 0 (List.length l / n)).
Definition rmean (l : list R) : R := Rsum l / INR (List.length l).
(** vae.py:232-257 *)
Definition recon (px : px_form) (n : nat) (x params : list (list R)) : res (list R) :=
  let x := if (1 <? n)%nat then repeat_elements n x else x in
  l <- match px with
       | PxBernoulli => Ok (map (fun p => obj_bernoulli (fst p) (snd p)) (combine x params))
       | PxDiag => Ok (map (fun p => let d := List.length (fst p) in obj_diag_normal (fst p) (firstn d (snd p)) (skipn d (snd p))) (combine x params))
       | PxOther => Err ValueError
       end ;;
  Ok (if (1 <? n)%nat then map rmean (rows_of n l) else l).
(** vae.py:83-101: with another prior the divergence is called without its second argument *)
Definition vae_loss (v : vae) (x : list (list R)) (q : list (list (R * R))) (params : list (list R)) : res (list R) :=
  match v_px v with PxOther => Err ValueError | _ =>
    r <- recon (v_px v) (v_samples v) x params ;;
    if v_std_prior v then Ok (map (fun p => fst p + Rmax (obj_kl_std (snd p)) (v_min_kl v)) (combine r q)) else Err TypeError
  end.
(** the loss of a batch with its draws: vae.py:61-80, sample weights of one *)
Definition batch_loss (v : vae) (eps x : list (list R)) : res (list (option R)) :=
  let q := map (v_enc v) x in
  l <- vae_loss v x q (map (v_dec v) (diag_sampler (v_samples v) q eps)) ;;
  weighted1 l (Some (map (fun _ => 1) x)).
(** compiling and building the evaluation function fail when the loss does: vae.py:83-107, 135-140 *)
Definition check_loss (v : vae) : res unit := match v_px v with PxOther => Err ValueError | _ => if v_std_prior v then Ok tt else Err TypeError end.
(** keras_utils.py:338-351: one evaluation of x; [noise k r] is the row r of the draws for batch k *)
Definition rows_drawn (v : vae) (n : nat) : nat := (n * (if (1 <? v_samples v)%nat then v_samples v else 1))%nat.
Definition eval_loss (v : vae) (noise : nat -> nat -> list R) (x : list (list R)) (b : Z) : res (eout (option R)) :=
  eval_loop (list R) (option R) (Some 0)
    (fun k rows => FList [match batch_loss v (map (noise k) (seq 0 (rows_drawn v (List.length rows)))) rows with Ok l => l | Err _ => [] end]) x b.
Definition oneg (a : option R) : option R := obind a (fun a => Some (- a)).
Definition osub (a b : option R) : option R := obind a (fun a => obind b (fun b => Some (a - b))).
(** the sign of a list is a TypeError *)
Definition as_array (e : eout (option R)) : res (list (option R)) := match e with One l => Ok l | Many _ => Err TypeError end.
(** vae.py:147-149 *)
Fixpoint more (v : vae) (noise : nat -> nat -> nat -> list R) (x : list (list R)) (b : Z) (k todo : nat) (acc : list (option R)) : res (list (option R)) :=
  match todo with
  | O => Ok acc
  | S todo => e <- eval_loss v (noise k) x b ;; l <- as_array e ;; more v noise x b (S k) todo (map (fun p => osub (fst p) (snd p)) (combine acc l))
  end.
(** vae.py:135-150 *)
Definition elbo (v : vae) (noise : nat -> nat -> nat -> list R) (x : list (list R)) (num_samples : nat) (batch_size : option Z) : res (list (option R)) :=
  _ <- check_loss v ;;
  let b := match batch_size with Some b => b | None => Z.of_nat (List.length x) end in
  e <- eval_loss v (noise 0%nat) x b ;; l <- as_array e ;;
  acc <- more v noise x b 1 (num_samples - 1) (map oneg l) ;;
  Ok (map (fun a => obind a (fun a => odiv a (INR num_samples))) acc).

(** what a network returns: an array or a list of arrays *)
Inductive netout := NArr (x : list (list R)) | NList (l : list (list (list R))).
(** vae.py:52-80, 83-93: build with a decoder that returns [o]; Concatenate needs a list of two or more *)
Definition build (px : px_form) (o : netout) : res unit :=
  match px with
  | PxBernoulli => Ok tt
  | PxDiag => match o with NList (_ :: _ :: _) => Ok tt | _ => Err ValueError end
  | PxOther => Err ValueError
  end.
(** vae.py:161-167 with sample_x=False, [dec] is decoder_net.predict *)
Definition decode_mean (px : px_form) (x_dim : nat) (dec : list (list R) -> netout) (z : list (list R)) : res netout :=
  match px with
  | PxBernoulli => Ok (dec z)
  | _ => match dec z with NArr p => Ok (NArr (map (firstn x_dim) p)) | NList _ => Err TypeError end
  end.
(** vae.py:169-182 with sample_x=True, [rnd] are the uniform draws for 'bernoulli' and the normal draws for 'diag_normal' *)
Definition decode_sample (px : px_form) (dec : list (list R) -> netout) (rnd z : list (list R)) : res (list (list R)) :=
  match px, dec z with
  | PxBernoulli, NArr p => Ok (map (fun r => map (fun t => if Rlt_dec (snd t) (fst t) then 1 else 0) (combine (fst r) (snd r))) (combine p rnd))
  | PxDiag, NList [m; lv] => Ok (diag_sampler 1 (map (fun r => combine (fst r) (snd r)) (combine m lv)) rnd)
  | _, _ => Err ValueError
  end.
(** vae.py:205-229: the files of the model; [enconder_net] has no value *)
Definition vae_files (path : string) : list string := map (append path) [".json"; ".enc.h5"; ".dec.h5"]%string.
Definition load_vae (files : list string) (path : string) : res vae :=
  if forallb (fun p => inb p files) (vae_files path) then Err NameError else Err IOErr.
