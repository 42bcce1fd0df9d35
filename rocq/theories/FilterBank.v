(** Model of hyperion/feats/filter_banks.py (FilterBankFactory) in exact real arithmetic. A filter bank is a function of the bin j
    (0 <= j <= fft_length/2) and of the filter k. *)
From Coq Require Import Reals.
From Flocq Require Import Core.Zaux Core.Raux Core.Generic_fmt Core.Round_NE.
From Verif Require Export Base ScoreNorm.
Open Scope list_scope.
Open Scope R_scope.

(** filter_banks.py:39-46 *)
Definition lin2mel (x : R) : R := 1127 * ln (1 + x / 700).
Definition mel2lin (x : R) : R := 700 * (exp (x / 1127) - 1).
(** np.linspace(a, b, n) at position i *)
Definition linspace (a b : R) (n i : nat) : R := a + INR i * ((b - a) / INR (n - 1)).
(** lines 52-53 *)
Definition top_freq (fs high : R) : R := if Req_EM_T high 0 then fs / 2 else high.
(** lines 66-71: the weight of a point at mel frequency m in the filter left - center - right *)
Definition weight (left center right m : R) : R :=
  if Rlt_dec left m then if Rlt_dec m right then
    if Rle_dec m center then (m - left) / (center - left) else (right - m) / (right - center)
  else 0 else 0.
(** lines 50-73 [make_mel_kaldi] *)
Definition mel_kaldi (nfilt nfft : nat) (fs low high : R) (j k : nat) : R :=
  let melfc := linspace (lin2mel low) (lin2mel (top_freq fs high)) (nfilt + 2) in
  let mels j := lin2mel (linspace 0 fs nfft j) in
  if Nat.ltb j (nfft / 2) then if Nat.ltb k nfilt then weight (melfc k) (melfc (k + 1)%nat) (melfc (k + 2)%nat) (mels j) else 0 else 0.
(** lines 90-93, 110-113: the triangle over the bins c0 - c1 - c2 *)
Definition bin_weight (c0 c1 c2 j : Z) : R :=
  if ((c0 <=? j) && (j <=? c1))%Z then (IZR j - IZR c0 + 1) / (IZR c1 - IZR c0 + 1)
  else if ((c1 + 1 <=? j) && (j <=? c2))%Z then (IZR c2 - IZR j + 1) / (IZR c2 - IZR c1 + 1) else 0.
(** lines 77-95 [make_mel_etsi], 99-115 [make_linear]: the frequencies of the filters rounded to bins (halves to even). A bin outside of
    the array raises IndexError; negative bins, which numpy would count from the end, are outside of the model ([Err ValueError]) *)
Definition bins (nfft : nat) (fs : R) (fc : nat -> R) (k : nat) : Z := ZnearestE (fc k / fs * INR nfft).
Definition bin_bank (nfilt nfft : nat) (c : nat -> Z) : res (nat -> nat -> R) :=
  if existsb (fun k => (c k <? 0)%Z) (seq 0 (nfilt + 2)) then Err ValueError
  else if existsb (fun k => ((c k <=? c (k + 1)%nat) && (Z.of_nat (nfft / 2) <? c (k + 1)%nat) || (c (k + 1)%nat <? c (k + 2)%nat) && (Z.of_nat (nfft / 2) <? c (k + 2)%nat))%Z) (seq 0 nfilt) then Err IndexError
  else Ok (fun j k => if Nat.leb j (nfft / 2) then if Nat.ltb k nfilt then bin_weight (c k) (c (k + 1)%nat) (c (k + 2)%nat) (Z.of_nat j) else 0 else 0).
Definition linear (nfilt nfft : nat) (fs low high : R) : res (nat -> nat -> R) :=
  bin_bank nfilt nfft (bins nfft fs (linspace low (top_freq fs high) (nfilt + 2))).
Definition mel_etsi (nfilt nfft : nat) (fs low high : R) : res (nat -> nat -> R) :=
  bin_bank nfilt nfft (bins nfft fs (fun k => mel2lin (linspace (lin2mel low) (lin2mel (top_freq fs high)) (nfilt + 2) k))).
(** lines 32-33: norm_filters; None is nan *)
Definition norm_bank (nfft : nat) (B : nat -> nat -> R) (j k : nat) : option R := odiv (B j k) (Rsum (map (fun j => B j k) (seq 0 (nfft / 2 + 1)))).
