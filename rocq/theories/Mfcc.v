(** Model of hyperion/feats/mfcc.py (MFCC) and feature_windows.py. Numbers are exact reals, np.log of a number that is not positive (nan or
    -inf in numpy) is not modelled. The real FFT of a frame (list of complex numbers) and the orthogonal DCT of a row are arguments. *)
From Coq Require Import Reals.
From Verif Require Export Base ScoreNorm Feats.
Open Scope list_scope.
Open Scope R_scope.

(** ** feature_windows.py:22-36 (scipy's hamming, hann and blackman with sym=False: periodic windows) *)
Inductive window_type := Povey | Hamming | Hanning | Blackman | Rectangular.
Definition angle (N n : nat) : R := 2 * PI / INR N * INR n.
(** np.power of a base that is not negative *)
Definition power (x y : R) : R := if Rle_dec x 0 then 0 else Rpower x y.
Definition window_at (t : window_type) (N n : nat) : R :=
  match t with
  | Povey => power (5 / 10 - 5 / 10 * cos (angle N n)) (85 / 100)
  | Hamming => 54 / 100 - 46 / 100 * cos (angle N n)
  | Hanning => 5 / 10 - 5 / 10 * cos (angle N n)
  | Blackman => 42 / 100 - 5 / 10 * cos (angle N n) + 8 / 100 * cos (2 * angle N n)
  | Rectangular => 1
  end.
Definition window (t : window_type) (N : nat) : list R := map (window_at t N) (seq 0 N).

(** ** mfcc.py:24-31, the order of the steps (33-62) is that of their values *)
Inductive step := WAVE | FFT | FFT_MAG | LOG_SPEC | LOGFB | CEPSTRUM.
Definition value (s : step) : nat := match s with WAVE => 0 | FFT => 1 | FFT_MAG => 2 | LOG_SPEC => 3 | LOGFB => 4 | CEPSTRUM => 5 end.
Definition le (a b : step) : bool := Nat.leb (value a) (value b).
Definition lt (a b : step) : bool := Nat.ltb (value a) (value b).
Definition eqs (a b : step) : bool := Nat.eqb (value a) (value b).

(** mfcc.py:97-154: the object; [m_fb] is the transposed filter bank, a list of filters each with one weight per bin *)
Record mfcc := mk_mfcc { m_in : step; m_out : step; m_L : nat; m_s : nat; m_nfft : nat; m_snip : bool; m_dither : R; m_dc : bool; m_pre : R; m_win : list R;
  m_fft2 : bool; m_energy : bool; m_raw : bool; m_floor : R; m_fb : list (list R); m_nceps : nat; m_lift : R }.
(** lines 158-161 [reset]: the states of the two filters *)
Definition reset : R * R := (0, 0).
(** lines 166-178 [make_lifter] for Q <> 0 *)
Definition lifter (N : nat) (Q : R) : list R := map (fun n => 1 + 5 / 10 * Q * sin (PI * INR n / Q)) (seq 0 N).

Definition C := (R * R)%type.
Definition cabs (z : C) : R := sqrt (fst z * fst z + snd z * snd z).
Inductive data := Wave (x : list R) | Spec (X : list (list C)) | Rows (F : list (list R)).
(** A[:,0], A[:,0] = e and A[:,1:] *)
Definition col0 {T} (A : list (list T)) : res (list T) := mapM (fun r => match r with [] => Err IndexError | v :: _ => Ok v end) A.
Definition set0 {T} (A : list (list T)) (e : list T) : res (list (list T)) := mapM (fun p => match fst p with [] => Err IndexError | _ :: r => Ok (snd p :: r) end) (combine A e).
Definition rest {T} (A : list (list T)) : list (list T) := map (fun r => tl r) A.
(** np.dot(F, fb): the rows must have as many numbers as there are bins *)
Definition dot (r w : list R) : R := Rsum (zip_with Rmult r w).
Definition apply_bank (fb : list (list R)) (F : list (list R)) : res (list (list R)) :=
  mapM (fun r => if forallb (fun w => Nat.eqb (List.length w) (List.length r)) fb then Ok (map (dot r) fb) else Err ValueError) F.
Definition bound {T} (o : option T) : res T := match o with Some v => Ok v | None => Err UnboundLocalError end.
(** the local variables of compute, which are not bound on every path *)
Record locals := mk_locals { l_X : option (list (list C)); l_F : option (list (list R)); l_E : option (list R); l_B : option (list (list R)) }.
Definition energy (c : mfcc) (A : list (list R)) : res (option (list R)) := if m_energy c then e <- col0 A ;; Ok (Some e) else Ok None.
(** lines 242-285: from the waveform; [st] are the states of the filters *)
Definition from_wave (c : mfcc) (noise : nat -> list R) (fft : nat -> list R -> list C) (st : R * R) (x : list R) : res (locals * (R * R)) :=
  x <- prepare (m_snip c) (m_L c) (m_s c) (m_dither c) noise x ;;
  let '(x, z1) := if m_dc c then dc_filter (fst st) x else (x, fst st) in
  e1 <- (if m_energy c && m_raw c then e <- st_logE x (m_L c) (m_s c) ;; Ok (Some e) else Ok None) ;;
  let '(x, z2) := if Rlt_dec 0 (m_pre c) then preemph (m_pre c) (snd st) x else (x, snd st) in
  X <- stft fft x (m_L c) (m_s c) (m_nfft c) (Some (m_win c)) ;;
  let F := map (map cabs) X in
  let e2 := map (fun r => ln (Rsum (map (fun v => v ^ 2) r) / INR (List.length r) + / 10 ^ 10)) F in
  Ok (mk_locals (Some X) (Some F) (if m_energy c && negb (m_raw c) then Some e2 else e1) None, (z1, z2)).
(** lines 223-240: the input *)
Definition input (c : mfcc) (noise : nat -> list R) (fft : nat -> list R -> list C) (st : R * R) (x : data) : res (locals * (R * R)) :=
  match m_in c, x with
  | WAVE, Wave x => from_wave c noise fft st x
  | FFT, Spec X => let F := map (map cabs) X in e <- energy c F ;; Ok (mk_locals (Some X) (Some F) e None, st)
  | FFT_MAG, Rows F => e <- energy c F ;; Ok (mk_locals None (Some F) e None, st)
  | LOG_SPEC, Rows x => e <- energy c x ;; Ok (mk_locals None (Some (map (map exp) x)) e None, st)
  | LOGFB, Rows x => e <- energy c x ;; Ok (mk_locals None None e (if m_energy c then Some (rest x) else None), st)
  | CEPSTRUM, _ => Ok (mk_locals None None None None, st)
  | _, _ => Err TypeError (* an array of another kind than the input step: not modelled *)
  end.
(** what compute leaves: the main output, the three arrays that the flags return, the array of the caller, the states of the filters *)
Record outcome := mk_outcome { o_R : data; o_fft : option data; o_mag : option data; o_logfb : option data; o_x : data; o_state : R * R }.
(** lines 219-221 *)
Definition flags_ok (c : mfcc) (rf rm rb : bool) : bool :=
  negb (rf && lt FFT (m_in c)) && negb (rm && (lt FFT_MAG (m_in c) || lt (m_out c) FFT_MAG)) && negb (rb && lt (m_out c) LOGFB).
(** lines 288-291 *)
Definition squared (c : mfcc) (F : option (list (list R))) : option (list (list R)) :=
  if le (m_in c) FFT && le FFT_MAG (m_out c) && m_fft2 c then option_map (map (map (fun a => a ^ 2))) F else F.
(** lines 293-296 *)
Definition log_bank (c : mfcc) (F B : option (list (list R))) : res (option (list (list R))) :=
  if le (m_in c) LOG_SPEC && le LOGFB (m_out c) then F <- bound F ;; D <- apply_bank (m_fb c) F ;; Ok (Some (map (map (fun a => ln (a + / 10 ^ 10))) D)) else Ok B.
(** lines 298-303 *)
Definition cepstra (c : mfcc) (dct : list R -> list R) (B : option (list (list R))) : res (option (list (list R))) :=
  if le (m_in c) LOGFB && eqs (m_out c) CEPSTRUM then
    B <- bound B ;; let P := map (fun r => firstn (m_nceps c) (dct r)) B in
    if Rlt_dec 0 (m_lift c) then
      P <- mapM (fun r => if Nat.eqb (List.length r) (m_nceps c) then Ok (zip_with Rmult r (lifter (m_nceps c) (m_lift c))) else Err ValueError) P ;; Ok (Some P)
    else Ok (Some P)
  else Ok None.
(** line 319: the floored energies *)
Definition floored (c : mfcc) (e : list R) : list R := map (fun a => Rmax a (ln (m_floor c + / 10 ^ 15))) e.
(** lines 317-323 but for the output step LOGFB *)
Definition put {T} (c : mfcc) (inj : R -> T) (E : option (list R)) (A : list (list T)) : res (list (list T)) :=
  if m_energy c then e <- bound E ;; set0 A (map inj (floored c e)) else Ok A.
(** lines 206-337 [compute]. X and F of the caller are not copied: with the same input and output step, FFT or FFT_MAG, the energy is written into
    the array of the caller, and with output step FFT or FFT_MAG also into the array that the flag returns *)
Definition compute (c : mfcc) (noise : nat -> list R) (fft : nat -> list R -> list C) (dct : list R -> list R) (rf rm rb : bool) (st : R * R) (x : data) : res outcome :=
  if negb (flags_ok c rf rm rb) then Err AssertionError else
  '(v, st) <- input c noise fft st x ;;
  let F := squared c (l_F v) in
  B <- log_bank c F (l_B v) ;;
  P <- cepstra c dct B ;;
  let flag (b : bool) (d : option data) : res (option data) := if b then d <- bound d ;; Ok (Some d) else Ok None in
  let done (R : data) (X : option (list (list C))) (F : option (list (list Rdefinitions.R))) (x : data) : res outcome :=
    (* lines 325-337 *)
    a <- flag rf (option_map Spec X) ;; m <- flag rm (option_map Rows F) ;; b <- flag rb (option_map Rows B) ;; Ok (mk_outcome R a m b x st) in
  (* lines 305-323 *)
  match m_out c with
  | FFT => X <- bound (l_X v) ;; X <- put (T := C) c (fun a => (a, 0)) (l_E v) X ;; done (Spec X) (Some X) F (if eqs (m_in c) FFT then Spec X else x)
  | FFT_MAG => A <- bound F ;; A <- put c (fun a => a) (l_E v) A ;; done (Rows A) (l_X v) (Some A) (if eqs (m_in c) FFT_MAG then Rows A else x)
  | LOG_SPEC => A <- bound F ;; A <- put c (fun a => a) (l_E v) (map (map (fun a => ln (a + / 10 ^ 10))) A) ;; done (Rows A) (l_X v) F x
  | LOGFB => A <- bound B ;; A <- (if m_energy c then e <- bound (l_E v) ;; Ok (zip_with cons (floored c e) A) else Ok A) ;; done (Rows A) (l_X v) F x
  | CEPSTRUM | WAVE => A <- bound P ;; A <- put c (fun a => a) (l_E v) A ;; done (Rows A) (l_X v) F x
  end.
(** the same object with other input and output steps *)
Definition steps (c : mfcc) (a b : step) : mfcc :=
  mk_mfcc a b (m_L c) (m_s c) (m_nfft c) (m_snip c) (m_dither c) (m_dc c) (m_pre c) (m_win c) (m_fft2 c) (m_energy c) (m_raw c) (m_floor c) (m_fb c) (m_nceps c) (m_lift c).
