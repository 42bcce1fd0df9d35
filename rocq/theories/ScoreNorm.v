(** Model of hyperion/score_norm: score_norm.py, z_norm.py, t_norm.py, s_norm.py, adapt_s_norm.py, tz_norm.py, zt_norm.py.
    Scores are exact reals (floating point rounding is not modelled). A two-dimensional array is its shape and its entries;
    broadcasting of arrays with one row or one column is not modelled (shapes must match, otherwise ValueError). A value is
    [option R]: None stands for nan or an infinity, which numpy returns (with a warning) for a division by zero. *)
From Coq Require Import Reals.
From Verif Require Export Base.
Open Scope list_scope.
Open Scope R_scope.

Record arr := mk_arr { nrows : nat; ncols : nat; at_ : nat -> nat -> R }.
Record barr := mk_barr { b_nrows : nat; b_ncols : nat; b_at : nat -> nat -> bool }.
(** an array that may hold values that are not finite *)
Record oarr := mk_oarr { o_nrows : nat; o_ncols : nat; o_at : nat -> nat -> option R }.
Definition row_of (a : arr) (i : nat) : list R := map (at_ a i) (seq 0 (ncols a)).
Definition col_of (a : arr) (j : nat) : list R := map (fun i => at_ a i j) (seq 0 (nrows a)).
Definition brow (m : barr) (i : nat) : list bool := map (b_at m i) (seq 0 (b_ncols m)).
Definition bcol (m : barr) (j : nat) : list bool := map (fun i => b_at m i j) (seq 0 (b_nrows m)).

Definition Rsum (l : list R) : R := fold_right Rplus 0 l.
(** division: not finite when the divisor is 0 *)
Definition odiv (a b : R) : option R := if Req_EM_T b 0 then None else Some (a / b).
Definition obind {A B} (o : option A) (f : A -> option B) : option B := match o with Some a => f a | None => None end.
(** np.mean over one axis *)
Definition mean (l : list R) : option R := odiv (Rsum l) (INR (List.length l)).
(** np.std over one axis: sqrt of the mean squared deviation (ddof=0) *)
Definition std (l : list R) : option R := obind (mean l) (fun mu => obind (mean (map (fun x => (x - mu)²) l)) (fun v => Some (sqrt v))).
(** np.sqrt: nan for negative arguments *)
Definition osqrt (x : R) : option R := if Rlt_dec x 0 then None else Some (sqrt x).
Definition b2r (b : bool) : R := if b then 1 else 0.
(** a[mask==False] = 0 *)
Definition zeroed (a : arr) (m : barr) : arr := mk_arr (nrows a) (ncols a) (fun i j => if b_at m i j then at_ a i j else 0).
Definition same_shape (a : arr) (m : barr) : bool := (nrows a =? b_nrows m)%nat && (ncols a =? b_ncols m)%nat.

(** z_norm.py:19-33 / t_norm.py:18-32: mean and deviation of one row (column) of cohort scores; with a mask the values were
    already set to 0 where it is False *)
Definition stats (vals : list R) (mask : option (list bool)) : option (R * R) :=
  match mask with
  | None => obind (mean vals) (fun mu => obind (std vals) (fun s => Some (mu, s)))
  | Some m => obind (mean (map b2r m)) (fun n => obind (mean vals) (fun mu0 => obind (odiv mu0 n) (fun mu =>
      obind (mean (map Rsqr vals)) (fun e2 => obind (odiv e2 n) (fun e => obind (osqrt (e - mu²)) (fun s => Some (mu, s)))))))
  end.
(** s[s<std_floor] = std_floor; nan < floor is False *)
Definition floored (std_floor s : R) : R := if Rlt_dec s std_floor then std_floor else s.
(** (score - mu)/s *)
Definition normed (std_floor x : R) (st : option (R * R)) : option R := obind st (fun '(mu, s) => odiv (x - mu) (floored std_floor s)).

(** masking: boolean index of another shape is an IndexError *)
Definition mask_in (a : arr) (m : option barr) : res arr :=
  match m with None => Ok a | Some m => if same_shape a m then Ok (zeroed a m) else Err IndexError end.

(** ** ZNorm.predict (z_norm.py:19-33): scores enrol x test, scores_enr_coh enrol x cohort. Also returns the caller's
    scores_enr_coh after the call, which is changed in place. *)
Definition znorm (std_floor : R) (scores enr_coh : arr) (mask : option barr) : res (oarr * arr) :=
  c <- mask_in enr_coh mask ;;
  if (nrows scores =? nrows c)%nat then
    Ok (mk_oarr (nrows scores) (ncols scores) (fun i j => normed std_floor (at_ scores i j) (stats (row_of c i) (option_map (fun m => brow m i) mask))), c)
  else Err ValueError.
(** ** TNorm.predict (t_norm.py:18-32): scores_coh_test cohort x test *)
Definition tnorm (std_floor : R) (scores coh_test : arr) (mask : option barr) : res (oarr * arr) :=
  c <- mask_in coh_test mask ;;
  if (ncols scores =? ncols c)%nat then
    Ok (mk_oarr (nrows scores) (ncols scores) (fun i j => normed std_floor (at_ scores i j) (stats (col_of c j) (option_map (fun m => bcol m j) mask))), c)
  else Err ValueError.
(** ** SNorm.predict (s_norm.py:27-33) *)
Definition oadd (a b : option R) : option R := obind a (fun x => obind b (fun y => Some (x + y))).
Definition snorm (std_floor : R) (scores coh_test enr_coh : arr) (mask_coh_test mask_enr_coh : option barr) : res oarr :=
  'zc <- znorm std_floor scores enr_coh mask_enr_coh ;;
  'tc <- tnorm std_floor scores coh_test mask_coh_test ;;
  Ok (mk_oarr (nrows scores) (ncols scores) (fun i j => obind (oadd (o_at (fst zc) i j) (o_at (fst tc) i j)) (fun x => odiv x (sqrt 2)))).

(** ** TZNorm, ZTNorm (tz_norm.py:19-22, zt_norm.py:20-23): the constructor evaluates super(SNorm, self) in a module where
    SNorm is not imported *)
Definition class_name := nat.
Definition visible_names (module : nat) : list nat := (* 0 ScoreNorm, 1 TNorm, 2 ZNorm, 3 SNorm; modules: 0 s_norm, 1 tz_norm, 2 zt_norm *)
  match module with 0 => [0; 1; 2; 3] | 1 => [0; 1; 2] | _ => [0; 1; 2] end%nat.
Definition construct (module : nat) : res unit := if existsb (Nat.eqb 3) (visible_names module) then Ok tt else Err NameError.

(** ** AdaptSNorm.predict (adapt_s_norm.py:27-83). [argsort] is np.argsort along the axis (any order of ties). *)
Section Adapt.
Variable argsort : list R -> list nat.
(** np.flipud(np.argsort(...))[discard:discard+nbest] of one column; fliplr and columns for the T side *)
Definition best (discard nbest : nat) (vals : list R) : list nat := firstn nbest (skipn discard (rev (argsort vals))).
(** lines 46-59, 67-80: no floor here; with a mask mu /= norm, s = sqrt(mean(x^2)/norm - mu^2) *)
Definition adapt_value (x : R) (vals : list R) (mask : option (list bool)) : option R :=
  obind (stats vals mask) (fun '(mu, s) => odiv (x - mu) s).
Definition adapt_snorm (nbest discard : nat) (scores coh_test enr_coh : arr) (mask_coh_test mask_enr_coh : option barr) : res oarr :=
  _ <- assert (ncols enr_coh =? nrows coh_test)%nat ;;
  _ <- assert (discard <? ncols enr_coh)%nat ;;
  let nb := if (ncols enr_coh - discard <? nbest)%nat then (ncols enr_coh - discard)%nat else nbest in
  ct <- mask_in coh_test mask_coh_test ;;
  ec <- mask_in enr_coh mask_enr_coh ;;
  (* line 41, 46: best_idx[:, i] for every column i of scores *)
  _ <- (if (ncols scores <=? ncols ct)%nat then Ok tt else Err IndexError) ;;
  (* line 61: scores[:, i] - mu_z.T, shapes *)
  _ <- (if (nrows scores =? nrows ec)%nat then Ok tt else Err ValueError) ;;
  _ <- (if (ncols scores =? ncols ct)%nat then Ok tt else Err ValueError) ;;
  Ok (mk_oarr (nrows scores) (ncols scores) (fun i j =>
    let bz := best discard nb (col_of ct j) in
    let bt := best discard nb (row_of ec i) in
    obind (oadd (adapt_value (at_ scores i j) (map (at_ ec i) bz) (option_map (fun m => map (b_at m i) bz) mask_enr_coh))
                (adapt_value (at_ scores i j) (map (fun k => at_ ct k j) bt) (option_map (fun m => map (fun k => b_at m k j) bt) mask_coh_test)))
      (fun x => odiv x (sqrt 2)))).
End Adapt.
