(** Model of Gaussian calibration, hyperion/calibration/gauss_calibration.py, in real arithmetic. A number that is not finite is None. *)
From Coq Require Import ZArith List Bool Reals String.
From Verif Require Import Base MathFns ScoreNorm.
Import ListNotations.
Open Scope list_scope. Open Scope R_scope.

(** * Gaussian calibration *)
(** boolean indexing x[y==v] *)
Definition pick {A} (x : list A) (y : list Z) (v : Z) : list A := map fst (filter (fun p => Z.eqb (snd p) v) (combine x y)).
(** the object: gauss_calibration.py:18-27; g_sb is (a, b), None before they are computed. The numbers are None if not finite. *)
Record gcal := mk_gcal { g_mu1 : option R; g_mu2 : option R; g_sigma2 : option R; g_prior : option R; g_sb : option (option R * option R) }.
(** gauss_calibration.py:34-36 *)
Definition scale_bias (mu1 mu2 sigma2 : option R) : option R * option R :=
  (obind mu1 (fun m1 => obind mu2 (fun m2 => obind sigma2 (fun s => odiv (m1 - m2) s))),
   obind mu1 (fun m1 => obind mu2 (fun m2 => obind sigma2 (fun s => odiv (1/2 * (m2 * m2 - m1 * m1)) s)))).
(** the constructor: the arguments are given (Some) or not *)
Definition gcal_make (mu1 mu2 sigma2 : option R) (prior : R) : gcal :=
  match mu1, mu2, sigma2 with
  | Some _, Some _, Some _ => mk_gcal mu1 mu2 sigma2 (Some prior) (Some (scale_bias mu1 mu2 sigma2))
  | _, _, _ => mk_gcal mu1 mu2 sigma2 (Some prior) None
  end.
(** np.mean(sw*x)/np.mean(sw) *)
Definition wmean1 (x sw : list R) : option R :=
  obind (mean (map (fun p => fst p * snd p) (combine sw x))) (fun a => obind (mean sw) (fun b => odiv a b)).
Definition sq_dev (m : R) (x sw : list R) : R := Rsum (map (fun p => fst p * (snd p - m)²) (combine sw x)).
(** gauss_calibration.py:40-58: without weights the scalar 1 stands for them. len(x) = 0 without weights raises ZeroDivisionError;
    an index array of another length raises IndexError. *)
Definition gcal_fit (x : list R) (y : list Z) (w : option (list R)) : res gcal :=
  if negb (Nat.eqb (List.length y) (List.length x)) then Err IndexError else
  if match w with Some w => negb (Nat.eqb (List.length w) (List.length x)) | None => false end then Err IndexError else
  let non := pick x y 0 in let tar := pick x y 1 in
  bind (match w with
    | None => if Nat.eqb (List.length x) 0 then Err ZeroDivisionError
              else Ok (map (fun _ => 1) tar, map (fun _ => 1) non, map (fun _ => 1) x, Some (INR (List.length tar) / INR (List.length x)))
    | Some w => Ok (pick w y 1, pick w y 0, w, odiv (Rsum (pick w y 1)) (Rsum w))
    end) (fun '(sw_tar, sw_non, sw, prior) =>
  let mu1 := wmean1 tar sw_tar in let mu2 := wmean1 non sw_non in
  let sigma2 := obind mu1 (fun m1 => obind mu2 (fun m2 =>
    obind (odiv (sq_dev m1 tar sw_tar + sq_dev m2 non sw_non) (INR (List.length x))) (fun a => obind (mean sw) (fun b => odiv a b)))) in
  Ok (mk_gcal mu1 mu2 sigma2 prior (Some (scale_bias mu1 mu2 sigma2)))).
(** gauss_calibration.py:62-63. None*x raises TypeError. *)
Definition gcal_predict (g : gcal) (x : list R) : res (list (option R)) :=
  match g_sb g with
  | Some (a, b) => Ok (map (fun s => obind a (fun a => obind b (fun b => Some (a * s + b)))) x)
  | None => Err TypeError
  end.
(** gauss_calibration.py:66-78: what save writes (the configuration has the keys of HypModel.get_config only, hyp_model.py:132-136) and what
    load_params reads: sigma2 is looked up in the configuration *)
Definition gcal_save (g : gcal) : list (string * option R) * list string :=
  ([("mu1"%string, g_mu1 g); ("mu2"%string, g_mu2 g); ("sigma2"%string, g_sigma2 g)], ["class_name"%string; "name"%string]).
Definition get_key {A} (k : string) (l : list (string * A)) : res A := match find (fun p => String.eqb (fst p) k) l with Some p => Ok (snd p) | None => Err KeyError end.
Definition gcal_load (file : list (string * option R) * list string) : res gcal :=
  m1 <- get_key "mu1" (fst file) ;; m2 <- get_key "mu2" (fst file) ;; _ <- get_key "sigma2" (fst file) ;;
  s <- get_key "sigma2" (map (fun k => (k, @None R)) (snd file)) ;; Ok (gcal_make m1 m2 s (1/2)).
