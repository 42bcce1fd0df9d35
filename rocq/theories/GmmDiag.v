(** Model of hyperion/pdfs/mixtures/exp_family_mixture.py and hyperion/pdfs/mixtures/gmm_diag_cov.py (GMMDiagCov), in exact real
    arithmetic. Vectors are functions from positions and shapes are assumed to match, as in NormalDiag.v; [softmax] and [logsumexp] are
    those of MathFns.v. The initialisation by k-means (C62), the Kaldi reader and the plots are not modelled here. *)
From Coq Require Import Reals.
From Verif Require Export Base MathFns ScoreNorm NormalDiag.
Open Scope list_scope. Open Scope R_scope.

Notation mat := (nat -> nat -> R) (only parsing).
(** components x coordinates; [g_logpi], [g_logL], [g_chol], [g_sigma] are the cached properties *)
Record gmm := mk_gmm { g_K : nat; g_d : nat; g_pi : vec; g_mu : mat; g_L : mat; g_eta : mat; g_A : vec;
  g_logpi : option vec; g_logL : option vec; g_chol : option mat; g_sigma : option mat;
  g_floor : R; g_minN : R; g_updpi : bool; g_updmu : bool; g_updL : bool }.
Definition all_pos2 (K d : nat) (L : mat) : bool := forallb (fun k => all_pos d (L k)) (seq 0 K).
(** gmm_diag_cov.py:376-378, 336-339, 355-362: row by row as for one distribution *)
Definition g_nat (d : nat) (mu L : mat) : mat * vec := (fun k => compute_eta d (mu k) (L k), fun k => A_nat d (compute_eta d (mu k) (L k))).
(** exp_family_mixture.py:23-34 and gmm_diag_cov.py:27-53, constructed with pi, mu and Lambda *)
Definition g_new (K d : nat) (pi : vec) (mu L : mat) (floor minN : R) (up um ul : bool) : res gmm :=
  if all_pos2 K d L then
    let '(eta, A) := g_nat d mu L in Ok (mk_gmm K d pi mu L eta A None None None None floor minN up um ul)
  else Err AssertionError.
(** exp_family_mixture.py:48-51 *)
Definition pi_eps : R := / 10 ^ 15.
Definition get_logpi (g : gmm) : vec * gmm :=
  match g_logpi g with
  | Some v => (v, g)
  | None => let v := fun k => ln (g_pi g k + pi_eps) in
            (v, mk_gmm (g_K g) (g_d g) (g_pi g) (g_mu g) (g_L g) (g_eta g) (g_A g) (Some v) (g_logL g) (g_chol g) (g_sigma g) (g_floor g) (g_minN g) (g_updpi g) (g_updmu g) (g_updL g))
  end.
(** gmm_diag_cov.py:57-69 *)
Definition get_glogL (g : gmm) : vec * gmm :=
  match g_logL g with
  | Some v => (v, g)
  | None => let v := fun k => sumn (g_d g) (fun j => ln (g_L g k j)) in
            (v, mk_gmm (g_K g) (g_d g) (g_pi g) (g_mu g) (g_L g) (g_eta g) (g_A g) (g_logpi g) (Some v) (g_chol g) (g_sigma g) (g_floor g) (g_minN g) (g_updpi g) (g_updmu g) (g_updL g))
  end.
Definition get_gchol (g : gmm) : mat * gmm :=
  match g_chol g with
  | Some v => (v, g)
  | None => let v := fun k j => sqrt (g_L g k j) in
            (v, mk_gmm (g_K g) (g_d g) (g_pi g) (g_mu g) (g_L g) (g_eta g) (g_A g) (g_logpi g) (g_logL g) (Some v) (g_sigma g) (g_floor g) (g_minN g) (g_updpi g) (g_updmu g) (g_updL g))
  end.

(** exp_family_mixture.py:157, 443: u_x eta' - A + log_pi for one row of statistics *)
Definition logr (g : gmm) (lp : vec) (u : vec) : list R :=
  map (fun k => sumn (2 * g_d g) (fun j => u j * g_eta g k j) - g_A g k + lp k) (seq 0 (g_K g)).
(** exp_family_mixture.py:154-158, one row *)
Definition compute_pz (g : gmm) (u : vec) : res (list R * gmm) := let '(lp, g) := get_logpi g in z <- softmax (logr g lp u) ;; Ok (z, g).
(** exp_family_mixture.py:440-445, one row; log_h = 0 *)
Definition g_log_prob_nat (g : gmm) (x : vec) : res (R * gmm) :=
  let '(lp, g) := get_logpi g in l <- logsumexp (logr g lp (suff (g_d g) x)) ;; Ok (0 + l, g).
(** gmm_diag_cov.py:196-202, one row *)
Definition g_log_prob_std (g : gmm) (x : vec) : res (R * gmm) :=
  let '(lp, g) := get_logpi g in
  let '(ll, g) := get_glogL g in
  let '(chol, g) := get_gchol g in
  l <- logsumexp (map (fun k => lp k + 1/2 * ll k - 1/2 * INR (g_d g) * ln (2 * PI)
                                - 1/2 * sumn (g_d g) (fun j => ((x j - g_mu g k j) * chol k j) * ((x j - g_mu g k j) * chol k j))) (seq 0 (g_K g))) ;;
  Ok (l, g).

(** exp_family_mixture.py:180-190: one batch of rows of statistics *)
Definition row_weights {X} (x : list X) (w : option (list R)) : res (list R) :=
  match w with None => Ok (map (fun _ => 1) x) | Some w => if (List.length w =? List.length x)%nat then Ok w else Err ValueError end.
Definition g_accum_1 (g : gmm) (u : list vec) (w : option (list R)) : res (vec * mat * gmm) :=
  let '(lp, g) := get_logpi g in
  z <- mapM (fun r => softmax (logr g lp r)) u ;;
  w <- row_weights u w ;;
  let z := map (fun '(zi, v) => map (fun p => p * v) zi) (combine z w) in
  Ok (fun k => Rsum (map (fun zi => nth k zi 0) z), fun k j => Rsum (map (fun '(zi, r) => nth k zi 0 * r j) (combine z u)), g).
Definition g_accum_x (g : gmm) (x : list vec) (w : option (list R)) : res (vec * mat * gmm) := g_accum_1 g (map (suff (g_d g)) x) w.
(** exp_family_mixture.py:194-208 *)
Definition g_accum_n (g : gmm) (x : list vec) (w : option (list R)) (batch : Z) : res (vec * mat * gmm) :=
  if (batch =? 0)%Z then Err ValueError else if (batch <? 0)%Z then Err UnboundLocalError else
  let b := Z.to_nat batch in
  '(acc, g) <- fold_left (fun st i1 =>
      '(acc, g) <- st ;;
      let i2 := Nat.min (i1 + b) (List.length x) in
      '(Ni, ui, g) <- g_accum_x g (slice i1 i2 x) (option_map (slice i1 i2) w) ;;
      match acc with
      | None => Ok (Some (Ni, ui), g)
      | Some (N, u) => Ok (Some ((fun k => N k + Ni k), (fun k j => u k j + ui k j)), g)
      end) (range_step (List.length x) b) (Ok (None, g)) ;;
  match acc with Some (N, u) => Ok (N, u, g) | None => Err UnboundLocalError end.
Definition g_estep (g : gmm) (x : list vec) (w : option (list R)) (batch : option Z) : res (vec * mat * gmm) :=
  match batch with None => g_accum_x g x w | Some b => g_accum_n g x w b end.
(** exp_family_mixture.py:424-430, with given statistics; log_h = 0 *)
Definition g_elbo (g : gmm) (N : vec) (u : mat) : R * gmm :=
  let '(lp, g) := get_logpi g in
  (0 + sumn (g_K g) (fun k => sumn (2 * g_d g) (fun j => u k j * g_eta g k j)) + sumn (g_K g) (fun k => N k * (lp k - g_A g k)), g).

(** gmm_diag_cov.py:146-170. [Ok None]: the parameters are not finite (a component without data, or no component above min_N).
    A count below min_N with update_pi reads the undefined names mu (line 166). *)
Definition Rltb (a b : R) : bool := if Rlt_dec a b then true else false.
Definition s_floor (K : nat) (floor minN : R) (N : vec) (S : mat) (j : nat) : R :=
  let big := filter (fun k => Rltb minN (N k)) (seq 0 K) in
  floor * (Rsum (map (fun k => S k j) big) / INR (List.length big)).
Definition g_mstep (g : gmm) (N : vec) (u : mat) : res (option gmm) :=
  let K := g_K g in let d := g_d g in
  if existsb (fun k => if Req_EM_T (N k) 0 then true else false) (seq 0 K) then Ok None else
  let mu := if g_updmu g then fun k j => u k j / N k else g_mu g in
  if g_updL g && negb (existsb (fun k => Rltb (g_minN g) (N k)) (seq 0 K)) then Ok None else
  let S0 := fun k j => u k (d + j)%nat / N k - mu k j * mu k j in
  let S := fun k j => Rmax (S0 k j) (s_floor K (g_floor g) (g_minN g) N S0 j) in
  let L := if g_updL g then fun k j => 1 / S k j else g_L g in
  let '(eta, A) := g_nat d mu L in
  let sig := if g_updL g then Some S else g_sigma g in
  let chol := if g_updL g then None else g_chol g in
  let logL := if g_updL g then None else g_logL g in
  if g_updpi g then
    if existsb (fun k => Rltb (N k) (g_minN g)) (seq 0 K) then Err NameError
    else Ok (Some (mk_gmm K d (fun k => N k / sumn K N) mu L eta A (g_logpi g) logL chol sig (g_floor g) (g_minN g) (g_updpi g) (g_updmu g) (g_updL g)))
  else Ok (Some (mk_gmm K d (g_pi g) mu L eta A (g_logpi g) logL chol sig (g_floor g) (g_minN g) (g_updpi g) (g_updmu g) (g_updL g))).
(** exp_family_mixture.py:60-87, an initialised object: the E-step, the value reported, the M-step, the validation value *)
Fixpoint g_epochs (n : nat) (g : gmm) (x : list vec) (w : option (list R)) (batch : option Z) : res (option (gmm * list R)) :=
  match n with
  | O => Ok (Some (g, []))
  | S n =>
    '(N, u, g) <- g_estep g x w batch ;;
    let '(e, g) := g_elbo g N u in
    g <- g_mstep g N u ;;
    match g with
    | None => Ok None
    | Some g => r <- g_epochs n g x w batch ;;
                match r with None => Ok None | Some (g, es) => Ok (Some (g, e :: es)) end
    end
  end.
Definition g_fit (epochs : nat) (g : gmm) (x : list vec) (w : option (list R)) (batch : option Z) : res (option (gmm * list R * list R)) :=
  r <- g_epochs epochs g x w batch ;;
  match r with None => Ok None | Some (g, es) => Ok (Some (g, es, map (fun e => e / INR (List.length x)) es)) end.
(** gmm_diag_cov.py:174-192, K=2: a component becomes two, one standard deviation to either side, with half the deviation.
    min_n and update_lambda of the configuration are not names of constructor arguments and are ignored (defaults 0 and True). *)
Definition g_split2 (g : gmm) : res gmm :=
  let '(chol, g) := get_gchol g in
  g_new (2 * g_K g) (g_d g) (fun k => g_pi g (k / 2)%nat / 2)
    (fun k j => g_mu g (k / 2)%nat j + (if Nat.even k then 1 / chol (k / 2)%nat j else - (1 / chol (k / 2)%nat j)))
    (fun k j => g_L g (k / 2)%nat j * 4) (g_floor g) 0 (g_updpi g) (g_updmu g) true.
(** gmm_diag_cov.py:134-142: reads the undefined name acc_u_x *)
Definition g_norm_stats (g : gmm) (N : vec) (u : mat) : res (vec * mat) := Err NameError.
