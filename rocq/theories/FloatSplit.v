(** The boundary expression of list_utils.py:117-118 and 144-145 as evaluated in IEEE
    binary64: [(idx-1)*n/num_parts] with [n = float(len(a))].
    Python converts the int factors to float, multiplies and divides with round to nearest
    even, and [np.floor] of a float is exact.  Rounding is Flocq's [round] on the binary64
    format (FLT, emin = -1074, precision 53); overflow cannot occur under the theorem's
    hypotheses (all values are at most 2^53). *)
From Coq Require Import ZArith Reals Lia Lra.
From Flocq Require Import Core.
From Verif Require Import ListUtils BaseFacts.
Open Scope R_scope.

Definition b64 (x : R) : R := round radix2 (FLT_exp (-1074) 53) ZnearestE x.

(** [int(np.floor(k*n/num_parts))] *)
Definition fbound (k n num_parts : Z) : Z :=
  Zfloor (b64 (b64 (b64 (IZR k) * b64 (IZR n)) / b64 (IZR num_parts))).

#[local] Instance prec53 : Prec_gt_0 53.
Proof. reflexivity. Qed.

Lemma b64_int z : (Z.abs z <= 2 ^ 53)%Z -> b64 (IZR z) = IZR z.
Proof.
  intros Hz. unfold b64. apply round_generic; [apply valid_rnd_N|].
  destruct (Z.eq_dec (Z.abs z) (2 ^ 53)) as [E|N].
  - assert (G : generic_format radix2 (FLT_exp (-1074) 53) (IZR (2 ^ 53))).
    { change (2 ^ 53)%Z with (Zpower radix2 53). rewrite IZR_Zpower by lia.
      apply generic_format_bpow. unfold FLT_exp. lia. }
    destruct (Z.abs_eq_cases z (2^53) ltac:(lia)) as [->| ->]; [exact G|].
    rewrite opp_IZR. apply generic_format_opp. exact G.
  - apply generic_format_FLT. exists (Float radix2 z 0); unfold F2R; simpl; [|lia|lia].
    rewrite Rmult_1_r. reflexivity.
Qed.

Lemma b64_le x y : x <= y -> b64 x <= b64 y.
Proof. apply round_le; [apply FLT_exp_valid; reflexivity|apply valid_rnd_N]. Qed.

(** An integer quotient that is strictly below an integer by at least 1/P is not rounded up to it. *)
Lemma fbound_exact_lemma (k n P : Z) :
  (0 <= k)%Z -> (0 <= n)%Z -> (1 <= P)%Z -> (k <= P)%Z -> (k * n + P <= 2 ^ 53)%Z ->
  fbound k n P = bound k n P.
Proof.
  intros Hk Hn HP HkP Hs. unfold fbound, bound.
  assert (Hkn : (0 <= k * n)%Z) by nia.
  rewrite (b64_int k) by lia. rewrite (b64_int P) by lia.
  assert (Hprod : b64 (IZR k * b64 (IZR n)) = IZR (k * n)).
  { destruct (Z.eq_dec k 0) as [->|Hk0].
    - rewrite Rmult_0_l, Z.mul_0_l. apply (b64_int 0). lia.
    - rewrite (b64_int n) by nia. rewrite <- mult_IZR. apply b64_int. nia. }
  rewrite Hprod.
  set (q := ((k * n) / P)%Z).
  pose proof (Z.div_mod (k * n) P ltac:(lia)) as DM. pose proof (Z.mod_pos_bound (k * n) P ltac:(lia)) as MB.
  fold q in DM.
  assert (HPr : 0 < IZR P) by (apply IZR_lt; lia).
  assert (Hq0 : (0 <= q)%Z) by (unfold q; apply Z.div_pos; lia).
  assert (Lo : IZR q <= IZR (k * n) / IZR P).
  { apply Rmult_le_reg_r with (IZR P); [exact HPr|].
    replace (IZR (k * n) / IZR P * IZR P) with (IZR (k * n)) by (field; lra).
    rewrite <- mult_IZR. apply IZR_le. nia. }
  assert (Hi : IZR (k * n) / IZR P <= IZR (q + 1) - / IZR P).
  { apply Rmult_le_reg_r with (IZR P); [exact HPr|].
    replace (IZR (k * n) / IZR P * IZR P) with (IZR (k * n)) by (field; lra).
    replace ((IZR (q + 1) - / IZR P) * IZR P) with (IZR ((q + 1) * P - 1)).
    - apply IZR_le. nia.
    - rewrite minus_IZR, mult_IZR. field. lra. }
  apply Zfloor_imp. split.
  - rewrite <- (b64_int q) by nia. apply b64_le. exact Lo.
  - (* b64 (kn/P) < q+1 *)
    assert (Hqb : (Z.abs (q + 1) <= 2 ^ 53)%Z) by nia.
    destruct (Rle_lt_or_eq_dec (b64 (IZR (k * n) / IZR P)) (IZR (q + 1))) as [Hlt|Heq]; [| exact Hlt |].
    + rewrite <- (b64_int (q + 1)) by exact Hqb. apply b64_le.
      assert (0 < / IZR P) by (apply Rinv_0_lt_compat; exact HPr). lra.
    + exfalso. set (x := IZR (k * n) / IZR P) in *.
      assert (Hx0 : 0 <= x) by (eapply Rle_trans; [apply (IZR_le 0); exact Hq0|exact Lo]).
      pose proof (error_le_half_ulp radix2 (FLT_exp (-1074) 53) (fun z => negb (Z.even z)) x) as Err.
      fold (b64 x) in Err. rewrite Heq in Err.
      assert (Hdist : / IZR P <= Rabs (IZR (q + 1) - x)).
      { assert (0 < / IZR P) by (apply Rinv_0_lt_compat; exact HPr).
        rewrite Rabs_pos_eq; lra. }
      destruct (Req_dec x 0) as [Hx|Hx].
      * (* then kn = 0, b64 0 = 0 *)
        rewrite Hx in Heq. unfold b64 in Heq. rewrite round_0 in Heq by apply valid_rnd_N.
        apply (eq_IZR 0) in Heq. lia.
      * (* ulp x <= 2^-52 * x  for normal numbers; here x >= 1/P >= 2^-53 is normal *)
        assert (Hxge : / IZR P <= x).
        { unfold x. apply Rmult_le_reg_r with (IZR P); [exact HPr|].
          replace (IZR (k * n) / IZR P * IZR P) with (IZR (k * n)) by (field; lra).
          rewrite Rinv_l by lra. apply (IZR_le 1).
          assert (k * n <> 0)%Z; [|lia]. intros E. apply Hx. unfold x. rewrite E. unfold Rdiv. ring. }
        assert (Hulp : ulp radix2 (FLT_exp (-1074) 53) x <= bpow radix2 (1 - 53) * x).
        { pose proof (ulp_FLT_le radix2 (-1074) 53 x) as U.
          rewrite (Rabs_pos_eq x Hx0) in U. rewrite Rmult_comm. apply U.
          apply Rle_trans with (/ IZR P); [|exact Hxge].
          apply Rle_trans with (bpow radix2 (-53)); [apply bpow_le; lia|].
          change (bpow radix2 (-53)) with (bpow radix2 (- (53))). rewrite (bpow_opp radix2 53). apply Rinv_le; [exact HPr|].
          change (bpow radix2 53) with (IZR (2 ^ 53)). apply IZR_le. nia. }
        assert (Hb : bpow radix2 (1 - 53) = 2 * / IZR (2 ^ 53)).
        { change (1 - 53)%Z with (- (52))%Z. rewrite (bpow_opp radix2 52).
          change (bpow radix2 52) with (IZR (2 ^ 52)).
          replace (2 ^ 53)%Z with (2 * 2 ^ 52)%Z by reflexivity.
          rewrite mult_IZR. field. apply (IZR_neq _ 0). lia. }
        rewrite Hb in Hulp.
        (* combine: 1/P <= x / 2^53, i.e. 2^53 <= x*P = kn < 2^53 *)
        assert (C : / IZR P <= / IZR (2 ^ 53) * x) by lra.
        assert (C' : IZR (2 ^ 53) <= IZR (k * n)).
        { apply Rmult_le_compat_r with (r := IZR P * IZR (2 ^ 53)) in C.
          - replace (/ IZR P * (IZR P * IZR (2 ^ 53))) with (IZR (2 ^ 53)) in C by (field; lra).
            replace (/ IZR (2 ^ 53) * x * (IZR P * IZR (2 ^ 53))) with (IZR (k * n)) in C; [exact C|].
            unfold x. field. split; [lra|]. apply (IZR_neq _ 0). lia.
          - apply Rmult_le_pos; [lra|]. apply (IZR_le 0). lia. }
        apply le_IZR in C'. nia.
Qed.

Lemma split_list_f64_lemma {A} (a : list A) (idx P : Z) :
  (1 <= idx <= P)%Z -> (P * Z.of_nat (List.length a) + P <= 2 ^ 53)%Z ->
  split_list_with fbound a idx P = split_list a idx P.
Proof.
  intros Hi Hs. unfold split_list, split_list_with.
  rewrite !fbound_exact_lemma by nia. reflexivity.
Qed.

Lemma split_group_f64_lemma {A K} `{Ord K} (a : list A) (key : list K) (idx P : Z) :
  (1 <= idx <= P)%Z -> (P * Z.of_nat (List.length key) + P <= 2 ^ 53)%Z ->
  split_list_group_by_key_with fbound a key idx P = split_list_group_by_key a key idx P.
Proof.
  intros Hi Hs. unfold split_list_group_by_key, split_list_group_by_key_with.
  destruct key as [|k key]; [reflexivity|].
  assert (L : (list_max (inverse (k :: key)) + 1 <= List.length (k :: key))%nat).
  { rewrite inverse_max by discriminate.
    apply NoDup_incl_length; [apply unique_nodup|]. intros x Hx. rewrite unique_in in Hx. exact Hx. }
  cbn zeta. rewrite !fbound_exact_lemma by nia. reflexivity.
Qed.
