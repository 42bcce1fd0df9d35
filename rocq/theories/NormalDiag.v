(** Model of hyperion/pdfs/core/exp_family.py and hyperion/pdfs/core/normal_diag_cov.py (NormalDiagCov), in exact real arithmetic.
    A vector is a function from positions; the shapes are assumed to match (the shape assertions are not modelled). Division by zero,
    which gives nan or inf in numpy, is Coq's total division here: the theorems state where divisors are positive. *)
From Coq Require Import Reals.
From Verif Require Export Base ScoreNorm.
Open Scope list_scope. Open Scope R_scope.

Notation vec := (nat -> R) (only parsing).
Definition sumn (n : nat) (f : nat -> R) : R := Rsum (map f (seq 0 n)).

(** normal_diag_cov.py:268-273 (one row): x and x*x stacked *)
Definition suff (d : nat) (x : vec) : vec := fun j => if (j <? d)%nat then x j else x (j - d)%nat * x (j - d)%nat.
(** normal_diag_cov.py:212-215 *)
Definition compute_eta (d : nat) (mu L : vec) : vec := fun j => if (j <? d)%nat then L j * mu j else - (1/2) * L (j - d)%nat.
(** normal_diag_cov.py:220-226 *)
Definition compute_std (d : nat) (eta : vec) : vec * vec := (fun j => - (1/2) * eta j / eta (d + j)%nat, fun j => - 2 * eta (d + j)%nat).
(** normal_diag_cov.py:231-238 *)
Definition A_nat (d : nat) (eta : vec) : R :=
  1/2 * INR d * ln (2 * PI) + - (1/4) * sumn d (fun j => eta j * eta j / eta (d + j)%nat) + - (1/2) * sumn d (fun j => ln (- 2 * eta (d + j)%nat)).
(** normal_diag_cov.py:243-248 *)
Definition A_std (d : nat) (mu L : vec) : R :=
  1/2 * INR d * ln (2 * PI) + - (1/2) * sumn d (fun j => ln (L j)) + 1/2 * sumn d (fun j => mu j * mu j * L j).

(** *** The object: parameters, natural parameters with the normaliser, and the three cached values.
    The one-time flag _is_init (exp_family.py:26-32) only recomputes the natural parameters from mu and Lambda; [is_init] here is
    "the natural parameters exist". *)
Record nd := mk_nd { n_dim : nat; n_mu : option vec; n_Lambda : option vec; n_nat : option (vec * R);
  n_logL : option R; n_chol : option vec; n_sigma : option vec; n_floor : R; n_updmu : bool; n_updL : bool }.
(** normal_diag_cov.py:190-192 *)
Definition all_pos (d : nat) (L : vec) : bool := forallb (fun j => if Rlt_dec 0 (L j) then true else false) (seq 0 d).
(** normal_diag_cov.py:251-257 *)
Definition nat_params (d : nat) (mu L : vec) : vec * R := (compute_eta d mu L, A_nat d (compute_eta d mu L)).
(** normal_diag_cov.py:25-50: constructor *)
Definition new (d : nat) (mu L eta : option vec) (floor : R) (um ul : bool) : res nd :=
  match mu, L with
  | Some m, Some l => if all_pos d l then Ok (mk_nd d mu L (Some (nat_params d m l)) None None None floor um ul) else Err AssertionError
  | _, _ => match eta with
            | Some e => let '(m, l) := compute_std d e in Ok (mk_nd d (Some m) (Some l) (Some (e, A_nat d e)) None None None floor um ul)
            | None => Ok (mk_nd d mu L None None None None floor um ul)
            end
  end.
Definition is_init (o : nd) : bool := match n_nat o with Some _ => true | None => false end.
(** normal_diag_cov.py:55-77: the cached properties *)
Definition get_logL (o : nd) : res (R * nd) :=
  match n_logL o with
  | Some v => Ok (v, o)
  | None => _ <- assert (is_init o) ;;
      match n_Lambda o with None => Err TypeError | Some l =>
        let v := sumn (n_dim o) (fun j => ln (l j)) in
        Ok (v, mk_nd (n_dim o) (n_mu o) (n_Lambda o) (n_nat o) (Some v) (n_chol o) (n_sigma o) (n_floor o) (n_updmu o) (n_updL o)) end
  end.
Definition get_chol (o : nd) : res (vec * nd) :=
  match n_chol o with
  | Some v => Ok (v, o)
  | None => _ <- assert (is_init o) ;;
      match n_Lambda o with None => Err TypeError | Some l =>
        let v := fun j => sqrt (l j) in
        Ok (v, mk_nd (n_dim o) (n_mu o) (n_Lambda o) (n_nat o) (n_logL o) (Some v) (n_sigma o) (n_floor o) (n_updmu o) (n_updL o)) end
  end.
Definition get_sigma (o : nd) : res (vec * nd) :=
  match n_sigma o with
  | Some v => Ok (v, o)
  | None => _ <- assert (is_init o) ;;
      match n_Lambda o with None => Err TypeError | Some l =>
        let v := fun j => 1 / l j in
        Ok (v, mk_nd (n_dim o) (n_mu o) (n_Lambda o) (n_nat o) (n_logL o) (n_chol o) (Some v) (n_floor o) (n_updmu o) (n_updL o)) end
  end.
(** normal_diag_cov.py:114-129: S[S<var_floor] = var_floor *)
Definition floored (f s : R) : R := if Rlt_dec s f then f else s.
Definition mstep (o : nd) (N : R) (u : vec) : res nd :=
  let d := n_dim o in
  let mu := if n_updmu o then Some (fun j => u j / N) else n_mu o in
  match mu with
  | None => Err TypeError
  | Some m =>
    if n_updL o then
      let s := fun j => floored (n_floor o) (u (d + j)%nat / N - m j * m j) in
      let l := fun j => 1 / s j in
      Ok (mk_nd d mu (Some l) (Some (nat_params d m l)) None None (Some s) (n_floor o) (n_updmu o) (n_updL o))
    else match n_Lambda o with
         | None => Err TypeError
         | Some l => Ok (mk_nd d mu (Some l) (Some (nat_params d m l)) (n_logL o) (n_chol o) (n_sigma o) (n_floor o) (n_updmu o) (n_updL o))
         end
  end.
(** exp_family.py:152-156 (one row, log_h = 0) *)
Definition log_prob_nat (o : nd) (x : vec) : res R :=
  match n_nat o with None => Err AssertionError | Some (eta, A) => Ok (0 + sumn (2 * n_dim o) (fun j => suff (n_dim o) x j * eta j) - A) end.
(** normal_diag_cov.py:132-135 (one row) *)
Definition log_prob_std (o : nd) (x : vec) : res (R * nd) :=
  _ <- assert (is_init o) ;;
  '(chol, o) <- get_chol o ;;
  match n_mu o with
  | None => Err TypeError
  | Some mu =>
    let mah := sumn (n_dim o) (fun j => ((x j - mu j) * chol j) * ((x j - mu j) * chol j)) in
    '(logL, o) <- get_logL o ;;
    Ok (1/2 * logL - 1/2 * INR (n_dim o) * ln (2 * PI) - 1/2 * mah, o)
  end.

(** *** Statistics *)
(** exp_family.py:81-90: returns also the rows of u_x after the call (scaled in place when there are weights) *)
Definition accum_1 (d : nat) (u : list vec) (w : option (list R)) : res (R * vec * list vec) :=
  match w with
  | None => Ok (INR (List.length u), (fun j => Rsum (map (fun r => r j) u)), u)
  | Some w => if (List.length w =? List.length u)%nat then
                let u' := map (fun '(r, v) => fun j => r j * v) (combine u w) in
                Ok (Rsum w, (fun j => Rsum (map (fun r => r j) u')), u')
              else Err ValueError
  end.
Definition accum_x (d : nat) (x : list vec) (w : option (list R)) : res (R * vec) :=
  '(N, u, _) <- accum_1 d (map (suff d) x) w ;; Ok (N, u).
Definition slice {A} (a b : nat) (l : list A) : list A := firstn (b - a) (skipn a l).
(** xrange(0, n, step), step > 0 *)
Definition range_step (n step : nat) : list nat := map (fun k => (k * step)%nat) (seq 0 ((n + step - 1) / step)).
(** exp_family.py:94-108 *)
Definition accum_n (d : nat) (x : list vec) (w : option (list R)) (batch : Z) : res (R * vec) :=
  if (batch =? 0)%Z then Err ValueError else if (batch <? 0)%Z then Err UnboundLocalError else
  let b := Z.to_nat batch in
  acc <- fold_left (fun acc i1 =>
      acc <- acc ;;
      let i2 := Nat.min (i1 + b) (List.length x) in
      '(Ni, ui) <- accum_x d (slice i1 i2 x) (option_map (slice i1 i2) w) ;;
      match acc with
      | None => Ok (Some (Ni, ui))
      | Some (N, u) => Ok (Some (N + Ni, fun j => u j + ui j))
      end) (range_step (List.length x) b) (Ok None) ;;
  match acc with Some r => Ok r | None => Err UnboundLocalError end.
(** exp_family.py:73-77, 123-124 *)
Definition estep (d : nat) (x : list vec) (w : option (list R)) (batch : option Z) : res (R * vec) :=
  match batch with None => accum_x d x w | Some b => accum_n d x w b end.
(** exp_family.py:134-141; log_h is 0 *)
Definition elbo_stats (o : nd) (N : R) (u : vec) : res R :=
  match n_nat o with None => Err AssertionError | Some (eta, A) => Ok (0 + sumn (2 * n_dim o) (fun j => u j * eta j) - N * A) end.
Definition elbo (o : nd) (x : list vec) (w : option (list R)) (batch : option Z) : res R :=
  _ <- assert (is_init o) ;; '(N, u) <- estep (n_dim o) x w batch ;; elbo_stats o N u.
(** exp_family.py:36-51, without and with validation data *)
Definition fit (o : nd) (x : list vec) (w : option (list R)) (batch : option Z) : res (nd * R * R) :=
  '(N, u) <- estep (n_dim o) x w batch ;;
  o <- mstep o N u ;;
  e <- elbo_stats o N u ;; Ok (o, e, e / N).
(** normal_diag_cov.py:102-110 *)
Definition norm_stats (o : nd) (N : R) (u : vec) : res (vec * vec) :=
  _ <- assert (is_init o) ;;
  match n_mu o, n_Lambda o with
  | Some mu, Some l =>
    '(chol, _) <- get_chol o ;;
    Ok (fun j => chol j * (u j - N * mu j), fun j => (u (n_dim o + j)%nat - 2 * mu j * u j + N * (mu j * mu j)) * l j)
  | _, _ => Err TypeError
  end.
(** exp_family.py:112-119: starts at element 1, adds the whole list, then reads the undefined name u *)
Definition add_suff_stats {S} (stats : list S) : res S :=
  match stats with [] | [_] => Err IndexError | _ => Err NameError end.
(** normal_diag_cov.py:174-181: a class method that reads self *)
Definition load_params : res nd := Err NameError.
