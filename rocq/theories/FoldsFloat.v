(** C31: the boundaries of FoldList.create as evaluated in IEEE binary64 (fold_list.py:219, 230-231):
    [delta = float(n)/num_folds], [k1 = int(np.round(j*delta))] are nearest integers of the exact
    [j*n/K] (halves possibly rounded the other way), so C31_create applies to them. *)
From Coq Require Import ZArith Reals Lia Lra.
From Flocq Require Import Core Relative.
From Verif Require Import Folds FoldsProps FoldsProps2 FloatSplit.
Open Scope R_scope.

(** fold_list.py:219, 230: round to nearest even at each operation, then [np.round] (half to even) *)
Definition fold_bound64 (K n j : nat) : Z :=
  ZnearestE (b64 (b64 (INR j) * b64 (b64 (INR n) / b64 (INR K)))).

Lemma b64_nat (k : nat) : (Z.of_nat k <= 2 ^ 53)%Z -> b64 (INR k) = INR k.
Proof. intros H. rewrite INR_IZR_INZ. apply b64_int. lia. Qed.

Lemma b64_rel x : x = 0 \/ bpow radix2 (-1022) <= Rabs x -> Rabs (b64 x - x) <= / IZR (2 ^ 53) * Rabs x.
Proof.
  intros [->|H].
  - unfold b64. rewrite round_0 by apply valid_rnd_N. rewrite Rminus_0_r, Rabs_R0. lra.
  - unfold b64. pose proof (relative_error_N_FLT radix2 (-1074) 53 eq_refl (fun z => negb (Z.even z)) x H) as E.
    replace (/ IZR (2 ^ 53)) with (/ 2 * bpow radix2 (- (53) + 1)); [exact E|].
    replace (- (53) + 1)%Z with (- (52))%Z by reflexivity. rewrite (bpow_opp radix2 52). change (bpow radix2 52) with (IZR (2 ^ 52)). replace (2 ^ 53)%Z with (2 * 2 ^ 52)%Z by reflexivity. rewrite mult_IZR. field. apply (IZR_neq _ 0). lia.
Qed.

Theorem C31_bound64_nearest : forall K n j, (1 <= K)%nat -> (1 <= n)%nat -> (j <= K)%nat -> (Z.of_nat n * Z.of_nat K < 2 ^ 50)%Z ->
  nearest K n j (fold_bound64 K n j).
Proof.
  intros K n j HK Hn Hj Hs. unfold nearest, fold_bound64.
  rewrite !b64_nat by nia.
  set (u := / IZR (2 ^ 53)). assert (Hu : 0 < u) by (apply Rinv_0_lt_compat, (IZR_lt 0); lia).
  assert (KP : 1 <= INR K) by (change 1 with (INR 1); apply le_INR; exact HK).
  assert (NP : 1 <= INR n) by (change 1 with (INR 1); apply le_INR; exact Hn).
  assert (JP : 0 <= INR j <= INR K) by (split; [apply pos_INR|apply le_INR; exact Hj]).
  assert (PR : INR n * INR K <= IZR (2 ^ 50)) by (rewrite !INR_IZR_INZ, <- mult_IZR; apply IZR_le; lia).
  assert (U8 : u * IZR (2 ^ 50) = / 8). { unfold u. replace (2 ^ 53)%Z with (8 * 2 ^ 50)%Z by reflexivity. rewrite mult_IZR. field. apply (IZR_neq _ 0). lia. }
  set (x := INR n / INR K). assert (Xp : 0 < x) by (apply Rdiv_lt_0_compat; lra). assert (XK : x * INR K = INR n) by (unfold x; field; lra).
  assert (B0 : bpow radix2 (-1022) <= bpow radix2 (- (50))) by (apply bpow_le; lia). assert (B50 : bpow radix2 (- (50)) = / IZR (2 ^ 50)) by (rewrite (bpow_opp radix2 50); reflexivity).
  assert (C50 : 0 < IZR (2 ^ 50)) by (apply (IZR_lt 0); lia).
  assert (XL : / IZR (2 ^ 50) <= x). { apply Rmult_le_reg_r with (INR K); [lra|]. rewrite XK. apply Rle_trans with 1; [|exact NP]. apply Rmult_le_reg_l with (IZR (2 ^ 50)); [exact C50|]. rewrite <- Rmult_assoc, Rinv_r by lra. nra. }
  assert (E1 : Rabs (b64 x - x) <= u * x). { rewrite <- (Rabs_pos_eq x) at 3 by lra. apply b64_rel. right. rewrite Rabs_pos_eq by lra. lra. }
  set (d := b64 x) in *. assert (D : (1 - u) * x <= d <= (1 + u) * x) by (apply Rabs_le_inv in E1; lra). clearbody d.
  assert (Us : u <= / 8). { rewrite <- U8. rewrite <- (Rmult_1_r u) at 1. apply Rmult_le_compat_l; [lra|]. apply (IZR_le 1). lia. }
  set (y := INR j * d). assert (E2 : Rabs (b64 y - y) <= u * Rabs y).
  { destruct (Nat.eq_dec j 0) as [->|Hj0].
    - apply b64_rel. left. unfold y. cbn. lra.
    - assert (J1 : 1 <= INR j) by (change 1 with (INR 1); apply le_INR; lia). apply b64_rel. right.
      assert (bpow radix2 (-1022) <= bpow radix2 (- (51))) by (apply bpow_le; lia). assert (B51 : bpow radix2 (- (51)) = / 2 * / IZR (2 ^ 50)).
      { rewrite (bpow_opp radix2 51). change (bpow radix2 51) with (IZR (2 ^ 51)). replace (2 ^ 51)%Z with (2 * 2 ^ 50)%Z by reflexivity. rewrite mult_IZR. field. lra. }
      assert (dL : / 2 * / IZR (2 ^ 50) <= d) by nra. assert (Yd : d <= y) by (unfold y; nra). rewrite Rabs_pos_eq by nra. lra. }
  assert (Yp : 0 <= y) by (unfold y; apply Rmult_le_pos; [lra|nra]).
  rewrite (Rabs_pos_eq y Yp) in E2. set (z := b64 y) in *. clearbody z.
  set (t := INR j * x). assert (T : t * INR K = INR j * INR n) by (unfold t; rewrite <- XK; ring).
  assert (TP : 0 <= t) by (unfold t; apply Rmult_le_pos; lra). assert (TN : t <= INR n) by (unfold t; rewrite <- XK; nra).
  assert (YT : Rabs (y - t) <= u * t).
  { unfold y, t. rewrite <- Rmult_minus_distr_l, Rabs_mult, (Rabs_pos_eq (INR j)) by lra. rewrite (Rmult_comm u), Rmult_assoc, (Rmult_comm x). apply Rmult_le_compat_l; [lra|exact E1]. }
  assert (ZT : Rabs (z - t) <= 3 * u * t).
  { apply Rle_trans with (Rabs (z - y) + Rabs (y - t)). { replace (z - t) with ((z - y) + (y - t)) by ring. apply Rabs_triang. }
    assert (y <= 2 * t) by (apply Rabs_le_inv in YT; nra). nra. }
  pose proof (Znearest_half (fun z => negb (Z.even z)) z) as HF. fold ZnearestE in HF. set (b := ZnearestE z) in *. clearbody b.
  assert (BT : Rabs (IZR b - t) <= / 2 + 3 * u * t).
  { apply Rle_trans with (Rabs (IZR b - z) + Rabs (z - t)). { replace (IZR b - t) with ((IZR b - z) + (z - t)) by ring. apply Rabs_triang. } rewrite (Rabs_minus_sym (IZR b)). lra. }
  set (N := (Z.of_nat K * b - Z.of_nat j * Z.of_nat n)%Z).
  assert (NR : IZR N = INR K * (IZR b - t)). { unfold N. rewrite minus_IZR, !mult_IZR, <- !INR_IZR_INZ. rewrite Rmult_minus_distr_l, (Rmult_comm (INR K) t), T. reflexivity. }
  assert (NA : IZR (Z.abs N) <= INR K / 2 + 3 / 8).
  { rewrite abs_IZR, NR, Rabs_mult, (Rabs_pos_eq (INR K)) by lra. apply Rle_trans with (INR K * (/ 2 + 3 * u * t)); [apply Rmult_le_compat_l; [lra|exact BT]|].
    assert (u * (t * INR K) <= / 8). { rewrite <- U8. apply Rmult_le_compat_l; [lra|]. apply Rle_trans with (INR n * INR K); [|exact PR]. apply Rmult_le_compat_r; lra. }
    replace (INR K * (/ 2 + 3 * u * t)) with (INR K / 2 + 3 * (u * (t * INR K))) by field. lra. }
  assert (FIN : IZR (2 * Z.abs N) < IZR (Z.of_nat K + 1)). { rewrite mult_IZR, plus_IZR, <- INR_IZR_INZ. lra. }
  apply lt_IZR in FIN. lia.
Qed.
Print Assumptions C31_bound64_nearest.

Example C31_bound64_witness : (1 <= 5)%nat /\ (1 <= 1000)%nat /\ (3 <= 5)%nat /\ (Z.of_nat 1000 * Z.of_nat 5 < 2 ^ 50)%Z.
Proof. repeat split; lia. Qed.
