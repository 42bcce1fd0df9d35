(** Model of hyperion/pdfs/mixtures/gmm_tied_diag_cov.py:25-226 (GMMTiedDiagCov): a mixture whose components share one diagonal
    precision. Exact real arithmetic and vectors as in GmmDiag.v. The methods inherited from ExpFamilyMixture
    (exp_family_mixture.py:20-546) read only num_comp, x_dim, pi, eta, A and _log_pi and write only _log_pi; they are the ones of
    GmmDiag.v applied to [view]. Random splits (K other than 2), log_cdf and the plots are not modelled. *)
From Coq Require Import Reals.
From Verif Require Export GmmDiag.
Open Scope list_scope. Open Scope R_scope.

(** the object: t_L has one value per coordinate, shared by the components; t_logL, t_chol, t_sigma are the caches of
    gmm_diag_cov.py:57-77, a number and two vectors here *)
Record tgmm := mk_tgmm { t_K : nat; t_d : nat; t_pi : vec; t_mu : mat; t_L : vec; t_eta : mat; t_A : vec;
  t_logpi : option vec; t_logL : option R; t_chol : option vec; t_sigma : option vec;
  t_floor : R; t_minN : R; t_updpi : bool; t_updmu : bool; t_updL : bool }.
(** what the inherited methods see *)
Definition view (t : tgmm) : gmm := mk_gmm (t_K t) (t_d t) (t_pi t) (t_mu t) (fun _ => t_L t) (t_eta t) (t_A t) (t_logpi t)
  (option_map (fun v _ => v) (t_logL t)) (option_map (fun v _ => v) (t_chol t)) (option_map (fun v _ => v) (t_sigma t))
  (t_floor t) (t_minN t) (t_updpi t) (t_updmu t) (t_updL t).
Definition with_logpi (t : tgmm) (v : option vec) : tgmm := mk_tgmm (t_K t) (t_d t) (t_pi t) (t_mu t) (t_L t) (t_eta t) (t_A t) v
  (t_logL t) (t_chol t) (t_sigma t) (t_floor t) (t_minN t) (t_updpi t) (t_updmu t) (t_updL t).
(** gmm_tied_diag_cov.py:172-175 compute_eta: the same precision in each row *)
Definition t_compute_eta (d : nat) (mu : mat) (L : vec) : mat := fun k j => if (j <? d)%nat then L j * mu k j else - (1/2) * L (j - d)%nat.
(** gmm_tied_diag_cov.py:180-186 compute_std: the precision is that of the first row *)
Definition t_compute_std (d : nat) (eta : mat) : mat * vec :=
  (fun k j => - (1/2) * eta k j / eta k (d + j)%nat, fun j => - 2 * eta 0%nat (d + j)%nat).
(** gmm_diag_cov.py:376-378 *)
Definition t_nat (d : nat) (mu : mat) (L : vec) : mat * vec := let eta := t_compute_eta d mu L in (eta, fun k => A_nat d (eta k)).
(** gmm_tied_diag_cov.py:27-43, 164-166, with pi, mu and a Lambda of shape (x_dim,) *)
Definition t_new (K d : nat) (pi : vec) (mu : mat) (L : vec) (floor minN : R) (up um ul : bool) : res tgmm :=
  if all_pos d L then
    let '(eta, A) := t_nat d mu L in Ok (mk_tgmm K d pi mu L eta A None None None None floor minN up um ul)
  else Err AssertionError.
(** gmm_tied_diag_cov.py:27-44 with pi and eta; nothing checks the values *)
Definition t_new_eta (K d : nat) (pi : vec) (eta : mat) (floor minN : R) (up um ul : bool) : tgmm :=
  let '(mu, L) := t_compute_std d eta in mk_tgmm K d pi mu L eta (fun k => A_nat d (eta k)) None None None None floor minN up um ul.

(** gmm_diag_cov.py:57-69 on a vector Lambda *)
Definition get_tlogL (t : tgmm) : R * tgmm :=
  match t_logL t with
  | Some v => (v, t)
  | None => let v := sumn (t_d t) (fun j => ln (t_L t j)) in
            (v, mk_tgmm (t_K t) (t_d t) (t_pi t) (t_mu t) (t_L t) (t_eta t) (t_A t) (t_logpi t) (Some v) (t_chol t) (t_sigma t) (t_floor t) (t_minN t) (t_updpi t) (t_updmu t) (t_updL t))
  end.
Definition get_tchol (t : tgmm) : vec * tgmm :=
  match t_chol t with
  | Some v => (v, t)
  | None => let v := fun j => sqrt (t_L t j) in
            (v, mk_tgmm (t_K t) (t_d t) (t_pi t) (t_mu t) (t_L t) (t_eta t) (t_A t) (t_logpi t) (t_logL t) (Some v) (t_sigma t) (t_floor t) (t_minN t) (t_updpi t) (t_updmu t) (t_updL t))
  end.
(** gmm_diag_cov.py:73-77 *)
Definition get_tsigma (t : tgmm) : vec * tgmm :=
  match t_sigma t with
  | Some v => (v, t)
  | None => let v := fun j => 1 / t_L t j in
            (v, mk_tgmm (t_K t) (t_d t) (t_pi t) (t_mu t) (t_L t) (t_eta t) (t_A t) (t_logpi t) (t_logL t) (t_chol t) (Some v) (t_floor t) (t_minN t) (t_updpi t) (t_updmu t) (t_updL t))
  end.
(** inherited: exp_family_mixture.py:48-51, 154-158, 440-445, 364-365, 424-430 *)
Definition get_tlogpi (t : tgmm) : vec * tgmm := let '(v, g) := get_logpi (view t) in (v, with_logpi t (g_logpi g)).
Definition t_compute_pz (t : tgmm) (u : vec) : res (list R * tgmm) := '(z, g) <- compute_pz (view t) u ;; Ok (z, with_logpi t (g_logpi g)).
Definition t_log_prob_nat (t : tgmm) (x : vec) : res (R * tgmm) := '(l, g) <- g_log_prob_nat (view t) x ;; Ok (l, with_logpi t (g_logpi g)).
Definition t_estep (t : tgmm) (x : list vec) (w : option (list R)) (batch : option Z) : res (vec * mat * tgmm) :=
  '(N, u, g) <- g_estep (view t) x w batch ;; Ok (N, u, with_logpi t (g_logpi g)).
Definition t_elbo (t : tgmm) (N : vec) (u : mat) : R * tgmm := let '(e, g) := g_elbo (view t) N u in (e, with_logpi t (g_logpi g)).
(** gmm_tied_diag_cov.py:128-134, one row *)
Definition t_log_prob_std (t : tgmm) (x : vec) : res (R * tgmm) :=
  let '(lp, t) := get_tlogpi t in
  let '(ll, t) := get_tlogL t in
  let '(chol, t) := get_tchol t in
  l <- logsumexp (map (fun k => lp k + 1/2 * ll - 1/2 * INR (t_d t) * ln (2 * PI)
                                - 1/2 * sumn (t_d t) (fun j => ((x j - t_mu t k j) * chol j) * ((x j - t_mu t k j) * chol j))) (seq 0 (t_K t))) ;;
  Ok (l, t).

(** gmm_tied_diag_cov.py:78-103. [Ok None]: the parameters are not finite (a component without data whose mean or variance is
    needed, no component above min_N, or a coordinate of pooled variance 0). A count below min_N with update_pi reads the undefined
    name mu (line 99). *)
Definition t_mstep (t : tgmm) (N : vec) (u : mat) : res (option tgmm) :=
  let K := t_K t in let d := t_d t in
  if (t_updmu t || t_updL t) && existsb (fun k => if Req_EM_T (N k) 0 then true else false) (seq 0 K) then Ok None else
  let mu := if t_updmu t then fun k j => u k j / N k else t_mu t in
  if t_updL t && negb (existsb (fun k => Rltb (t_minN t) (N k)) (seq 0 K)) then Ok None else
  let S0 := fun k j => u k (d + j)%nat / N k - mu k j * mu k j in
  let S := fun k j => Rmax (S0 k j) (s_floor K (t_floor t) (t_minN t) N S0 j) in
  let Spool := fun j => sumn K (fun k => N k * S k j) / sumn K N in
  if t_updL t && existsb (fun j => if Req_EM_T (Spool j) 0 then true else false) (seq 0 d) then Ok None else
  let L := if t_updL t then fun j => 1 / Spool j else t_L t in
  let '(eta, A) := t_nat d mu L in
  let sig := if t_updL t then Some Spool else t_sigma t in
  let chol := if t_updL t then None else t_chol t in
  let logL := if t_updL t then None else t_logL t in
  if t_updpi t then
    if existsb (fun k => Rltb (N k) (t_minN t)) (seq 0 K) then Err NameError
    else Ok (Some (mk_tgmm K d (fun k => N k / sumn K N) mu L eta A (t_logpi t) logL chol sig (t_floor t) (t_minN t) (t_updpi t) (t_updmu t) (t_updL t)))
  else Ok (Some (mk_tgmm K d (t_pi t) mu L eta A (t_logpi t) logL chol sig (t_floor t) (t_minN t) (t_updpi t) (t_updmu t) (t_updL t))).

(** gmm_tied_diag_cov.py:107-124, K=2: the precision does not change. min_n and update_lambda of the configuration
    (gmm_diag_cov.py:232-237) are not names of constructor arguments and are ignored (defaults 0 and True). *)
Definition t_split2 (t : tgmm) : res tgmm :=
  let '(chol, t) := get_tchol t in
  t_new (2 * t_K t) (t_d t) (fun k => t_pi t (k / 2)%nat / 2)
    (fun k j => t_mu t (k / 2)%nat j + (if Nat.even k then 1 / chol j else - (1 / chol j)))
    (t_L t) (t_floor t) 0 (t_updpi t) (t_updmu t) true.

(** gmm_tied_diag_cov.py:62-74: the parameters after k-means gave the centres mu and the clusters idx of the rows x *)
Definition t_init_clusters (K d : nat) (mu : mat) (idx : list nat) (x : list vec) : vec * vec :=
  let members := fun k => filter (fun ir : nat * vec => (fst ir =? k)%nat) (combine idx x) in
  let n := INR (List.length x) in
  (fun k => INR (List.length (members k)) / n,
   fun j => n / sumn K (fun k => Rsum (map (fun ir : nat * vec => (snd ir j - mu k j) * (snd ir j - mu k j)) (members k)))).
(** an array Lambda with its first dimension; gmm_tied_diag_cov.py:164-166 *)
Definition validate_lambda (x_dim rows : nat) (positive : bool) : res unit := _ <- assert (rows =? x_dim)%nat ;; assert positive.
(** gmm_diag_cov.py:81-88 with gmm_tied_diag_cov.py:55-60 for one component: Lambda has shape (1, x_dim) *)
Definition t_init_one (d : nat) (x : list vec) (floor minN : R) (up um ul : bool) : res tgmm :=
  let n := INR (List.length x) in
  let mean := fun j => Rsum (map (fun r => r j) x) / n in
  let var := fun j => Rsum (map (fun r => (r j - mean j) * (r j - mean j)) x) / n in
  let L := fun j => 1 / var j in
  _ <- validate_lambda d 1 (all_pos d L) ;;
  t_new 1 d (fun _ => 1) (fun _ => mean) L floor minN up um ul.
(** gmm_diag_cov.py:81-88 with gmm_tied_diag_cov.py:48-51: a new object of one component, without data *)
Definition t_init_std (d : nat) (floor minN : R) (up um ul : bool) : res tgmm :=
  _ <- validate_lambda d d (all_pos d (fun _ => 1)) ;;
  t_new 1 d (fun _ => 1) (fun _ _ => 0) (fun _ => 1) floor minN up um ul.
