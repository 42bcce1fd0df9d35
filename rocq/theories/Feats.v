(** Model of hyperion/feats: stft.py (framing, short-time transforms, log-energy), the preparation of the waveform and the first-order filters
    shared by mfcc.py and energy_vad.py, EnergyVAD and FrameSelector. Samples are exact reals; the FFT is an argument; the noise of the dither,
    which the code draws from a generator seeded with the number of samples, is a function of that number. *)
From Coq Require Import Reals.
From Verif Require Export Base ScoreNorm.
From Verif Require Mat.
Open Scope list_scope.
Open Scope R_scope.
Notation zip_with := Mat.zip_with.

(** ** stft.py *)
(** lines 21, 61, 106: int(np.floor((len(x) - frame_length + frame_shift)/frame_shift)), then np.zeros of that many rows *)
Definition num_frames (n L s : nat) : res nat :=
  match s with
  | O => Err ZeroDivisionError
  | _ => let k := ((Z.of_nat n - Z.of_nat L + Z.of_nat s) / Z.of_nat s)%Z in if (k <? 0)%Z then Err ValueError else Ok (Z.to_nat k)
  end.
(** x[j:j+frame_length] *)
Definition frame {A} (j L : nat) (x : list A) : list A := firstn L (skipn j x).
(** lines 18-19, 25: window None is the number 1; an array must have the length of the frame (an array of one element is not modelled) *)
Definition windowed (w : option (list R)) (y : list R) : res (list R) :=
  match w with None => Ok y | Some w => if Nat.eqb (List.length w) (List.length y) then Ok (zip_with Rmult y w) else Err ValueError end.
(** lines 16-28 [stft], 56-68 [strft]; [fft n y] is the transform of length n of the samples y *)
Definition stft {Sp} (fft : nat -> list R -> Sp) (x : list R) (L s nfft : nat) (w : option (list R)) : res (list Sp) :=
  nf <- num_frames (List.length x) L s ;;
  mapM (fun i => y <- windowed w (frame (i * s) L x) ;; Ok (fft nfft y)) (seq 0 nf).
(** a[j:j+frame_length] += v *)
Definition add_at (j L : nat) (a v : list R) : res (list R) :=
  if Nat.eqb (List.length (frame j L a)) (List.length v) then Ok (firstn j a ++ zip_with Rplus (frame j L a) v ++ skipn (j + L) a) else Err ValueError.
Fixpoint overlap (fr : list (list R)) (j L s : nat) (w xo wo : list R) : res (list R * list R) :=
  match fr with
  | [] => Ok (xo, wo)
  | v :: fr => xo <- add_at j L xo v ;; wo <- add_at j L wo w ;; overlap fr (j + s) L s w xo wo
  end.
(** lines 31-51 [istft], 72-92 [istrft] *)
Definition istft {Sp} (ifft : Sp -> list R) (X : list Sp) (L s : nat) (w : option (list R)) : res (list R) :=
  let w := match w with None => repeat 1 L | Some w => w end in
  let num := ((Z.of_nat (List.length X) - 1) * Z.of_nat s + Z.of_nat L)%Z in
  if (num <? 0)%Z then Err ValueError else
  let z := repeat 0 (Z.to_nat num) in
  '(xo, wo) <- overlap (map (fun X => firstn L (ifft X)) X) 0 L s w z z ;;
  Ok (zip_with (fun a b => a * (1 / (if Req_EM_T b 0 then 1 else b))) xo wo).
(** lines 96-115 [st_logE] *)
Definition log_eps : R := / 10 ^ 15.
Definition st_logE (x : list R) (L s : nat) : res (list R) :=
  nf <- num_frames (List.length x) L s ;;
  Ok (map (fun i => ln (Rsum (map Rsqr (frame (i * s) L x)) + log_eps)) (seq 0 nf)).

(** ** The waveform: mfcc.py:242-270, energy_vad.py:78-99 *)
(** scipy.signal.lfilter of first order (direct form II transposed), with the state z *)
Fixpoint lfilter (b0 b1 a1 z : R) (x : list R) : list R * R :=
  match x with
  | [] => ([], z)
  | v :: x => let y := b0 * v + z in let '(ys, z') := lfilter b0 b1 a1 (b1 * v - a1 * y) x in (y :: ys, z')
  end.
Definition dc_filter := lfilter 1 (- 1) (- (999 / 1000)).
Definition preemph (c : R) := lfilter 1 (- c) 0.
(** int(np.round(n/s)): to the nearest, a half to the even one *)
Definition round_div (n s : nat) : nat :=
  let q := (n / s)%nat in let r := (n mod s)%nat in
  if (2 * r <? s)%nat then q else if (s <? 2 * r)%nat then S q else if Nat.even q then q else S q.
(** np.pad(x, (d1, d2), mode='reflect') *)
Definition refl_index (n : nat) (k : Z) : nat :=
  match n with
  | O | S O => O
  | _ => let p := (2 * (Z.of_nat n - 1))%Z in let m := (k mod p)%Z in Z.to_nat (if (m <? Z.of_nat n)%Z then m else p - m)
  end.
Definition pad_reflect (x : list R) (d1 d2 : Z) : res (list R) :=
  if (d1 <? 0)%Z || (d2 <? 0)%Z then Err ValueError else
  match x with
  | [] => if ((d1 + d2) =? 0)%Z then Ok [] else Err ValueError
  | _ => let n := List.length x in Ok (map (fun i => nth (refl_index n (Z.of_nat i - d1)) x 0) (seq 0 (Z.to_nat (d1 + Z.of_nat n + d2))))
  end.
(** mfcc.py:243-258, energy_vad.py:80-94 *)
Definition prepare (snip : bool) (L s : nat) (dither : R) (noise : nat -> list R) (x : list R) : res (list R) :=
  x <- (if Nat.eqb s 0 then Err ZeroDivisionError else if snip then Ok x else
    let nf := Z.of_nat (round_div (List.length x) s) in
    let d := ((nf - 1) * Z.of_nat s + Z.of_nat L - Z.of_nat (List.length x))%Z in
    let d1 := ((Z.of_nat L - Z.of_nat s) / 2)%Z in pad_reflect x d1 (d - d1)) ;;
  Ok (if Rlt_dec 0 dither then zip_with Rplus x (map (Rmult dither) (noise (List.length x))) else x).

(** ** energy_vad.py *)
Record vad_cfg := mk_vad { v_L : nat; v_s : nat; v_dither : R; v_snip : bool; v_scale : R; v_thr : R; v_context : nat; v_prop : R }.
(** lines 33-64; frame_length and frame_shift are whole milliseconds. The state of the filter starts at 0 *)
Definition new_vad (fs len_ms shift_ms : nat) (dither : R) (snip : bool) (scale thr : R) (context : Z) (prop : R) : res vad_cfg :=
  if Rlt_dec scale 0 then Err AssertionError else if (context <? 0)%Z then Err AssertionError else
  if Rlt_dec 0 prop then if Rlt_dec prop 1 then
    Ok (mk_vad (len_ms * fs / 1000) (shift_ms * fs / 1000) dither snip scale thr (Z.to_nat context) prop)
  else Err AssertionError else Err AssertionError.
(** lines 107-130: the decisions from the log-energies. With context the code reads the undefined name vad0 (line 119). The mean of no
    frames is nan, and there is no decision to make *)
Definition decide (c : vad_cfg) (logE : list R) : res (list bool) :=
  let vad := match mean logE with None => map (fun _ => false) logE
             | Some m => map (fun e => if Rlt_dec (v_thr c + v_scale c * m) e then true else false) logE end in
  match v_context c with O => Ok vad | _ => Err NameError end.
(** lines 67-130 for a waveform: the filter starts from the state the last call left *)
Definition vad_wave (c : vad_cfg) (noise : nat -> list R) (zi : R) (x : list R) : res (list bool * R) :=
  x <- prepare (v_snip c) (v_L c) (v_s c) (v_dither c) noise x ;;
  let '(y, zi) := dc_filter zi x in
  e <- st_logE y (v_L c) (v_s c) ;;
  v <- decide c e ;; Ok (v, zi).
(** lines 100-102 for features: the first coefficient is the log-energy; a row without coefficients raises IndexError *)
Definition vad_feats (c : vad_cfg) (x : list (list R)) : res (list bool) :=
  e <- mapM (fun r => match r with [] => Err IndexError | v :: _ => Ok v end) x ;; decide c e.

(** ** frame_selector.py *)
(** numpy x[sel,:] with a boolean vector of the same length *)
Definition keep {A} (x : list A) (sel : list bool) : list A := map fst (filter snd (combine x sel)).
(** lines 25-50 [select] *)
Definition select {A} (tol : Z) (x : list A) (sel : list bool) : res (list A) :=
  let n := Z.of_nat (List.length x) in let m := Z.of_nat (List.length sel) in
  if (n =? m)%Z then Ok (keep x sel)
  else if (m <? n)%Z then (if (n - m <=? tol)%Z then Ok (keep (firstn (List.length sel) x) sel) else Err BareException)
  else if (m - n <=? tol)%Z then Ok (keep x (firstn (List.length x) sel)) else Err BareException.
(** the same code with a selector of integers 0/1: numpy takes them as row numbers *)
Definition select_int {A} (tol : Z) (x : list A) (sel : list Z) : res (list A) :=
  let n := Z.of_nat (List.length x) in let m := Z.of_nat (List.length sel) in
  if (n =? m)%Z then mapM (get_item x) sel
  else if (m <? n)%Z then (if (n - m <=? tol)%Z then mapM (get_item (firstn (List.length sel) x)) sel else Err BareException)
  else if (m - n <=? tol)%Z then mapM (get_item x) (firstn (List.length x) sel) else Err BareException.
(** lines 55-74 [filter_args] without prefix: valid_args = ('tol_num_frames') is a string, so the loop runs over its characters *)
Definition chars (s : string) : list string := map (fun c => String c EmptyString) (list_ascii_of_string s).
Definition filter_args {V} (valid : list string) (kw : list (string * V)) : list (string * V) :=
  concat (map (fun k => match find (fun e => String.eqb (fst e) k) kw with Some e => [(k, snd e)] | None => [] end) valid).
Definition selector_args {V} (kw : list (string * V)) := filter_args (chars "tol_num_frames"%string) kw.
