(** Model of the trial scoring of hyperion/keras/vae/tied_vae_qyqz.py (TiedVAE_qYqZ, and TiedVAE_qY, which inherits it), lines 213-428, for a diagonal
    posterior (qy_form = 'diag_normal'), in real arithmetic. The encoder is a parameter: from a sequence of frames to the list of vectors it puts out
    (mean and log-variance of the speaker variable first); Keras applies it to the sequences of a batch one by one. np.log of a precision that is not
    positive is not modelled (ln). *)
From Coq Require Import ZArith List Bool Reals.
From Verif Require Import Base.
Import ListNotations.
Open Scope list_scope. Open Scope R_scope.

Definition vsum (l : list R) : R := fold_right Rplus 0 l.
Fixpoint zipr (f : R -> R -> R) (a b : list R) : list R := match a, b with x :: a, y :: b => f x y :: zipr f a b | _, _ => [] end.

Record tvae := mk_tvae { tv_len : nat; tv_enc : list (list R) -> list (list R); tv_elbo : list (list R) -> R }.
Definition zero_frame (x : list R) : list R := map (fun _ => 0) x.
(** lines 244-245 (266-268, 310-312): xx = zeros, xx[:,0,:] = x: the sequences with x as the only frame that is not zero *)
Definition seq1 (m : tvae) (x : list R) : res (list (list R)) :=
  match tv_len m with O => Err IndexError | S n => Ok (x :: repeat (zero_frame x) n) end.
(** lines 282-283 (255-256): xx[:,1,:] = x1[i,:] after xx[:,0,:] = x2 *)
Definition seq2 (m : tvae) (x2 x1 : list R) : res (list (list R)) :=
  match tv_len m with O | S O => Err IndexError | S (S n) => Ok (x2 :: x1 :: repeat (zero_frame x2) n) end.
(** a, b = encoder(...)[:2] and a, b, c = encoder(...)[:3] *)
Definition first2 (o : list (list R)) : res (list R * list R) := match o with a :: b :: _ => Ok (a, b) | _ => Err ValueError end.
Definition first3 (o : list (list R)) : res (list R * list R) := match o with a :: b :: _ :: _ => Ok (a, b) | _ => Err ValueError end.
(** lines 291-294 *)
Definition logqy0 (mu logvar : list R) : R := - (1 / 2) * vsum (zipr (fun m l => l + m * m / exp l) mu logvar).

(** lines 309-332: the natural parameters of one posterior, its part of the score, and the part of a pair *)
Definition nat_params (q : list R * list R) : list R * list R := let p := map (fun l => exp (- l)) (snd q) in (zipr Rmult p (fst q), p).
Definition logq (q : list R * list R) : R := let '(r, p) := nat_params q in - (1 / 2) * vsum (zipr Rplus (snd q) (zipr (fun r p => r * r / p) r p)).
Definition pair_part (q1 q2 : list R * list R) : R :=
  let '(r1, p1) := nat_params q1 in let '(r2, p2) := nat_params q2 in
  let p3 := zipr (fun a b => a + b - 1) p1 p2 in let r3 := zipr Rplus r1 r2 in
  1 / 2 * vsum (zipr Rplus (map (fun p => - ln p) p3) (zipr (fun r p => r * r / p) r3 p3)).
Definition qscr (m : tvae) (x1 x2 : list (list R)) : res (list (list R)) :=
  q1 <- mapM (fun x => s <- seq1 m x ;; first2 (tv_enc m s)) x1 ;;
  q2 <- mapM (fun x => s <- seq1 m x ;; first2 (tv_enc m s)) x2 ;;
  Ok (map (fun a => map (fun b => logq a + logq b + pair_part a b) q2) q1).
(** lines 263-287 *)
Definition cand (m : tvae) (x1 x2 : list (list R)) : res (list (list R)) :=
  l1 <- mapM (fun x => s <- seq1 m x ;; '(a, b) <- first3 (tv_enc m s) ;; Ok (logqy0 a b)) x1 ;;
  l2 <- mapM (fun x => s <- seq1 m x ;; '(a, b) <- first3 (tv_enc m s) ;; Ok (logqy0 a b)) x2 ;;
  mapM (fun p => mapM (fun q => s <- seq2 m (fst q) (fst p) ;; '(a, b) <- first3 (tv_enc m s) ;; Ok (snd p + snd q - logqy0 a b)) (combine x2 l2)) (combine x1 l1).
(** lines 240-259: the name p on line 251 is not defined *)
Definition elbo_llr (m : tvae) (x1 x2 : list (list R)) : res (list (list R)) :=
  _ <- mapM (fun x => s <- seq1 m x ;; Ok (tv_elbo m s)) x1 ;; _ <- mapM (fun x => s <- seq1 m x ;; Ok (tv_elbo m s)) x2 ;; Err NameError.
(** lines 230-236; another method name gives None *)
Inductive eval_method := MElbo | MCand | MQscr | MOther.
Definition llr_1vs1 (m : tvae) (x1 x2 : list (list R)) (e : eval_method) : res (option (list (list R))) :=
  match e with
  | MElbo => s <- elbo_llr m x1 x2 ;; Ok (Some s) | MCand => s <- cand m x1 x2 ;; Ok (Some s) | MQscr => s <- qscr m x1 x2 ;; Ok (Some s) | MOther => Ok None
  end.
(** lines 411-421 (plda_base.py:223-241 for the sums): class c is the sum of its rows over their number; classes are 0 .. max, as np.unique gives them *)
Definition vadd := zipr Rplus.
Definition class_rows (x : list (list R)) (ids : list nat) (c : nat) : list (list R) := map fst (filter (fun p => Nat.eqb (snd p) c) (combine x ids)).
Definition class_sum (d : nat) (l : list (list R)) : list R := fold_right vadd (repeat 0 d) l.
Definition class_avg (d : nat) (x : list (list R)) (ids : list nat) (c : nat) : list R :=
  let l := class_rows x ids c in map (fun v => v / INR (List.length l)) (class_sum d l).
(** lnorm.py:20-23 with mu = T = None *)
Definition lnorm (x : list R) : list R := let mx := sqrt (vsum (map (fun v => v * v) x)) + / 10 ^ 10 in map (fun v => sqrt (INR (List.length x)) * v / mx) x.
Inductive pool_method := PSavg | PVavg | PVavgLnorm | PBook | POther.
(** lines 378-428; savg calls a method the class does not have, book is empty *)
Definition llr_Nvs1 (m : tvae) (d : nat) (x1 : list (list R)) (ids : list nat) (x2 : list (list R)) (pm : pool_method) (e : eval_method) : res (option (list (list R))) :=
  let avgs := map (class_avg d x1 ids) (seq 0 (S (list_max ids))) in
  match pm with
  | PSavg => _ <- llr_1vs1 m x1 x2 e ;; Err AttributeError
  | PVavg => llr_1vs1 m avgs x2 e
  | PVavgLnorm => llr_1vs1 m (map lnorm avgs) (map lnorm x2) e
  | PBook | POther => Ok None
  end.
