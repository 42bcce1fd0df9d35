(** Filter banks (C81). *)
From Coq Require Import Reals Lra Lia Psatz.
From Flocq Require Import Core.Zaux Core.Raux Core.Generic_fmt Core.Round_NE.
From Verif Require Import Base BaseFacts ScoreNorm ScoreNormProps FilterBank.
Open Scope list_scope. Open Scope R_scope.

Theorem C81_mel_inverse x : (-700 < x -> mel2lin (lin2mel x) = x) /\ lin2mel (mel2lin x) = x /\ (forall y, -700 < x -> x < y -> lin2mel x < lin2mel y) /\ lin2mel 0 = 0.
Proof.
  split; [|split; [|split]].
  - intros H. unfold mel2lin, lin2mel. replace (1127 * ln (1 + x / 700) / 1127) with (ln (1 + x / 700)) by lra. rewrite exp_ln by lra. lra.
  - unfold mel2lin, lin2mel. replace (1 + 700 * (exp (x / 1127) - 1) / 700) with (exp (x / 1127)) by lra. rewrite ln_exp. lra.
  - intros y H L. unfold lin2mel. apply Rmult_lt_compat_l; [lra|]. apply ln_increasing; lra.
  - unfold lin2mel. replace (1 + 0 / 700) with 1 by lra. rewrite ln_1. ring.
Qed.
(** ** Triangles *)
Lemma weight_range a b c m : a < b -> b < c -> 0 <= weight a b c m <= 1 /\ (weight a b c m <> 0 <-> a < m < c) /\ weight a b c b = 1.
Proof.
  intros A B. unfold weight. assert (W : forall m, 0 <= (if Rlt_dec a m then if Rlt_dec m c then if Rle_dec m b then (m - a) / (b - a) else (c - m) / (c - b) else 0 else 0) <= 1 /\
    ((if Rlt_dec a m then if Rlt_dec m c then if Rle_dec m b then (m - a) / (b - a) else (c - m) / (c - b) else 0 else 0) <> 0 <-> a < m < c)).
  { intros x. destruct (Rlt_dec a x) as [X|X]; [|split; [lra|split; [lra|intros; lra]]]. destruct (Rlt_dec x c) as [Y|Y]; [|split; [lra|split; [lra|intros; lra]]]. destruct (Rle_dec x b) as [Z|Z].
    - assert (0 < (x - a) / (b - a)) by (apply Rdiv_lt_0_compat; lra). assert ((x - a) / (b - a) <= 1) by (apply (Rmult_le_reg_r (b - a)); [lra|]; replace ((x - a) / (b - a) * (b - a)) with (x - a) by (field; lra); lra). split; [lra|split; intros; lra].
    - assert (0 < (c - x) / (c - b)) by (apply Rdiv_lt_0_compat; lra). assert ((c - x) / (c - b) <= 1) by (apply (Rmult_le_reg_r (c - b)); [lra|]; replace ((c - x) / (c - b) * (c - b)) with (c - x) by (field; lra); lra). split; [lra|split; intros; lra]. }
  split; [apply W|]. split; [apply W|]. destruct (Rlt_dec a b); [|lra]. destruct (Rlt_dec b c); [|lra]. destruct (Rle_dec b b); [|lra]. field. lra.
Qed.
(** two neighbouring triangles of evenly spaced points add up to 1 between their centers *)
Lemma weight_pair a b c d m : a < b -> b < c -> c < d -> b <= m -> m <= c -> weight a b c m + weight b c d m = 1.
Proof.
  intros A B C M1 M2. unfold weight. destruct (Rlt_dec a m); [|lra]. destruct (Rlt_dec m c) as [X|X].
  - destruct (Rlt_dec b m) as [Y|Y].
    + destruct (Rlt_dec m d); [|lra]. destruct (Rle_dec m b); [lra|]. destruct (Rle_dec m c); [|lra]. field. lra.
    + assert (m = b) as -> by lra. destruct (Rle_dec b b); [|lra]. field. lra.
  - assert (m = c) as -> by lra. destruct (Rlt_dec b c); [|lra]. destruct (Rlt_dec c d); [|lra]. destruct (Rle_dec c c); [|lra]. field. lra.
Qed.
Lemma weight_out a b c m : a < b -> b < c -> (m <= a \/ c <= m) -> weight a b c m = 0.
Proof. intros A B H. unfold weight. destruct (Rlt_dec a m); [|reflexivity]. destruct (Rlt_dec m c); [lra|reflexivity]. Qed.
Lemma Rsum_zero {A} (l : list A) f : (forall i, In i l -> f i = 0) -> Rsum (map f l) = 0.
Proof. induction l as [|a l IH]; intros H; [reflexivity|]. unfold Rsum in *. simpl. rewrite H by (left; reflexivity). rewrite IH; [lra|]. intros; apply H; right; assumption. Qed.
(** the partition of unity for an increasing sequence of points *)
Lemma partition (p : nat -> R) n m : (forall i, p i < p (S i)) -> (1 <= n)%nat -> p 1%nat <= m <= p n -> Rsum (map (fun k => weight (p k) (p (k + 1)%nat) (p (k + 2)%nat) m) (seq 0 n)) = 1.
Proof.
  intros I N [M1 M2]. assert (MO : forall i j, (i <= j)%nat -> p i <= p j). { intros i j L. induction L as [|j L IH]; [lra|]. specialize (I j). lra. }
  assert (X : exists i, (1 <= i)%nat /\ p i <= m /\ ((i < n)%nat /\ m < p (S i) \/ i = n)).
  { clear -M1 M2 N MO. induction n as [|n IH]; [lia|]. destruct n as [|n]; [exists 1%nat; split; [lia|]; split; [exact M1|right; reflexivity]|].
    destruct (Rle_lt_dec (p (S (S n))) m) as [Q|Q]; [exists (S (S n)); split; [lia|]; split; [exact Q|right; reflexivity]|].
    destruct (Rle_lt_dec m (p (S n))) as [Q2|Q2].
    - destruct (IH ltac:(lia) Q2) as (i & A & B & [[C D]|C]); exists i; split; [exact A|split; [exact B|left; split; [lia|exact D]]|exact A|split; [exact B|left; split; [lia|subst; exact Q]]].
    - exists (S n). split; [lia|]. split; [lra|]. left. split; [lia|exact Q]. }
  destruct X as (i & A & B & X). assert (S1 : seq 0 n = seq 0 (i - 1) ++ seq (i - 1) (n - (i - 1))) by (rewrite <- seq_app; f_equal; lia). rewrite S1, map_app. unfold Rsum. rewrite fold_right_app.
  assert (Z1 : forall k, (k < i - 1)%nat -> weight (p k) (p (k + 1)%nat) (p (k + 2)%nat) m = 0).
  { intros k K. apply weight_out; [replace (k + 1)%nat with (S k) by lia; apply I|replace (k + 2)%nat with (S (k + 1)) by lia; apply I|]. right. pose proof (MO (k + 2)%nat i ltac:(lia)). lra. }
  assert (G : forall l z, (forall k, In k l -> (k < i - 1)%nat) -> fold_right Rplus z (map (fun k => weight (p k) (p (k + 1)%nat) (p (k + 2)%nat) m) l) = z).
  { induction l as [|a l IH]; intros z L; [reflexivity|]. simpl. rewrite IH by (intros; apply L; right; assumption). rewrite Z1 by (apply L; left; reflexivity). lra. }
  rewrite G by (intros k K; apply in_seq in K; lia). destruct X as [[C D]| ->].
  - replace (n - (i - 1))%nat with (S (S (n - i - 1))) by lia. cbn [seq map fold_right]. fold (Rsum (map (fun k => weight (p k) (p (k + 1)%nat) (p (k + 2)%nat) m) (seq (S (S (i - 1))) (n - i - 1)))).
    rewrite (Rsum_zero (seq (S (S (i - 1))) (n - i - 1))). 2: { intros k K. apply in_seq in K. apply weight_out; [replace (k + 1)%nat with (S k) by lia; apply I|replace (k + 2)%nat with (S (k + 1)) by lia; apply I|]. left. pose proof (MO (S i) k ltac:(lia)). lra. }
    replace (i - 1 + 1)%nat with i by lia. replace (i - 1 + 2)%nat with (S i) by lia. replace (S (i - 1)) with i by lia. replace (i + 1)%nat with (S i) by lia. replace (i + 2)%nat with (S (S i)) by lia.
    rewrite Rplus_0_r. apply weight_pair; try apply I; try lra. replace i with (S (i - 1)) at 2 by lia. apply I.
  - assert (m = p n) as -> by lra. replace (n - (n - 1))%nat with 1%nat by lia. cbn [seq map fold_right]. replace (n - 1 + 1)%nat with n by lia. replace (n - 1 + 2)%nat with (S n) by lia. rewrite Rplus_0_r.
    apply (weight_range (p (n - 1)%nat) (p n) (p (S n)) 0); [replace n with (S (n - 1)) at 2 by lia; apply I|apply I].
Qed.
Definition center (nfilt : nat) (fs low high : R) (k : nat) : R := linspace (lin2mel low) (lin2mel (top_freq fs high)) (nfilt + 2) k.
Lemma center_inc nfilt fs low high : -700 < low -> low < top_freq fs high -> forall k, center nfilt fs low high k < center nfilt fs low high (S k).
Proof.
  intros L H k. unfold center, linspace. pose proof (proj1 (proj2 (proj2 (C81_mel_inverse low))) _ L H) as M. rewrite S_INR.
  assert (0 < INR (nfilt + 2 - 1)) by (apply lt_0_INR; lia). assert (0 < (lin2mel (top_freq fs high) - lin2mel low) / INR (nfilt + 2 - 1)) by (apply Rdiv_lt_0_compat; lra). lra.
Qed.
(** mel_kaldi: the weights are in [0,1]; filter k covers exactly the bins whose mel frequency lies between the (k)th and (k+2)th of the points
    evenly spaced on the mel scale between the two cutoffs; over every bin between the first and the last center the weights add up to 1; the
    first bin, and with it the constant component, has weight 0 *)
Theorem C81_mel_kaldi nfilt nfft fs low high j k : -700 < low -> low < top_freq fs high -> (k < nfilt)%nat -> (j < nfft / 2)%nat ->
  let B := mel_kaldi nfilt nfft fs low high in let c := center nfilt fs low high in let m := lin2mel (INR j * fs / INR (nfft - 1)) in
  0 <= B j k <= 1 /\ (B j k <> 0 <-> c k < m < c (k + 2)%nat) /\ (c 1%nat <= m <= c nfilt -> Rsum (map (B j) (seq 0 nfilt)) = 1) /\
  c 0%nat = lin2mel low /\ c (nfilt + 1)%nat = lin2mel (top_freq fs high).
Proof.
  intros L H K J B c m. pose proof (center_inc nfilt fs low high L H) as I. fold c in I.
  assert (E : forall i, (i < nfilt)%nat -> B j i = weight (c i) (c (i + 1)%nat) (c (i + 2)%nat) m).
  { intros i Q. unfold B, mel_kaldi. destruct (Nat.ltb_spec j (nfft / 2)); [|lia]. destruct (Nat.ltb_spec i nfilt); [|lia]. cbv zeta. fold c. f_equal. unfold m, linspace. f_equal. rewrite Rminus_0_r. unfold Rdiv. ring. }
  assert (W : forall i, c i < c (i + 1)%nat /\ c (i + 1)%nat < c (i + 2)%nat) by (intros i; split; [replace (i + 1)%nat with (S i) by lia; apply I|replace (i + 2)%nat with (S (i + 1)) by lia; apply I]).
  rewrite E by exact K. destruct (weight_range _ _ _ m (proj1 (W k)) (proj2 (W k))) as (W1 & W2 & _). split; [exact W1|]. split; [exact W2|]. split; [|split].
  - intros M. rewrite <- (partition c nfilt m I ltac:(lia) M). f_equal. apply map_ext_in. intros i Q. apply in_seq in Q. apply E. lia.
  - unfold c, center, linspace. simpl. ring.
  - unfold c, center, linspace. replace (nfilt + 2 - 1)%nat with (nfilt + 1)%nat by lia. field. apply not_0_INR. lia.
Qed.
Theorem C81_first_bin nfilt nfft fs low high k : 0 <= low -> low < top_freq fs high -> mel_kaldi nfilt nfft fs low high 0 k = 0.
Proof.
  intros L H. unfold mel_kaldi. destruct (Nat.ltb 0 (nfft / 2)); [|reflexivity]. destruct (Nat.ltb k nfilt); [|reflexivity]. cbv zeta. pose proof (center_inc nfilt fs low high ltac:(lra) H) as I. unfold center in I.
  apply weight_out; [replace (k + 1)%nat with (S k) by lia; apply I|replace (k + 2)%nat with (S (k + 1)) by lia; apply I|]. left.
  replace (linspace 0 fs nfft 0) with 0 by (unfold linspace; simpl; ring). rewrite (proj2 (proj2 (proj2 (C81_mel_inverse 0)))).
  assert (MO : forall i, linspace (lin2mel low) (lin2mel (top_freq fs high)) (nfilt + 2) 0 <= linspace (lin2mel low) (lin2mel (top_freq fs high)) (nfilt + 2) i). { induction i as [|i IH]; [lra|]. specialize (I i). lra. }
  specialize (MO k). assert (Z : linspace (lin2mel low) (lin2mel (top_freq fs high)) (nfilt + 2) 0 = lin2mel low) by (unfold linspace; simpl; ring). rewrite Z in MO.
  destruct (Req_dec low 0) as [->|NZ]; [rewrite (proj2 (proj2 (proj2 (C81_mel_inverse 0)))) in MO |- *; exact MO|]. pose proof (proj1 (proj2 (proj2 (C81_mel_inverse 0))) low ltac:(lra) ltac:(lra)). rewrite (proj2 (proj2 (proj2 (C81_mel_inverse 0)))) in H0. lra.
Qed.
(** the documented "high_freq < 0: offset from the Nyquist frequency" is not implemented: all the weights are 0 *)
Theorem C81_negative_high_refuted nfilt nfft fs low high j k : 0 <= low -> -700 < high < 0 -> mel_kaldi nfilt nfft fs low high j k = 0.
Proof.
  intros L H. unfold mel_kaldi. destruct (Nat.ltb j (nfft / 2)); [|reflexivity]. destruct (Nat.ltb k nfilt); [|reflexivity]. cbv zeta. unfold top_freq. destruct (Req_EM_T high 0); [lra|].
  pose proof (proj1 (proj2 (proj2 (C81_mel_inverse high))) low ltac:(lra) ltac:(lra)) as M. unfold weight.
  destruct (Rlt_dec _ _) as [A|A]; [|reflexivity]. destruct (Rlt_dec _ _) as [B|B]; [|reflexivity]. exfalso. unfold linspace in A, B. rewrite plus_INR in B. simpl (INR 2) in B.
  assert (0 < INR (nfilt + 2 - 1)) as P by (apply lt_0_INR; lia). assert ((lin2mel high - lin2mel low) / INR (nfilt + 2 - 1) < 0). { apply (Rmult_lt_reg_r (INR (nfilt + 2 - 1))); [exact P|]. unfold Rdiv. rewrite Rmult_assoc, Rinv_l by lra. lra. } nra.
Qed.
(** the bins: bin j of a transform of length nfft has frequency j*fs/nfft, the code takes j*fs/(nfft-1), and the weights differ *)
Theorem C81_bin_frequency_refuted : exists nfilt nfft fs low high j k, (k < nfilt)%nat /\ (j < nfft / 2)%nat /\ low < top_freq fs high /\
  mel_kaldi nfilt nfft fs low high j k <> weight (center nfilt fs low high k) (center nfilt fs low high (k + 1)) (center nfilt fs low high (k + 2)) (lin2mel (INR j * fs / INR nfft)).
Proof.
  exists 1%nat, 4%nat, 4200, 0, 0, 1%nat, 0%nat. split; [lia|]. split; [simpl; lia|]. assert (T : top_freq 4200 0 = 2100) by (unfold top_freq; destruct (Req_EM_T 0 0); lra). rewrite T. split; [lra|].
  unfold mel_kaldi. change (Nat.ltb 1 (4 / 2)) with true. change (Nat.ltb 0 1) with true. cbv iota zeta. unfold center. rewrite T. unfold linspace. simpl (0 + 1)%nat. simpl (0 + 2)%nat. simpl (1 + 2 - 1)%nat. simpl (INR _). rewrite (proj2 (proj2 (proj2 (C81_mel_inverse 0)))).
  assert (E1 : lin2mel 2100 = 1127 * ln 4) by (unfold lin2mel; replace (1 + 2100 / 700) with 4 by lra; reflexivity). rewrite E1.
  replace (lin2mel (0 + 1 * ((4200 - 0) / (1 + 1 + 1)))) with (1127 * ln 3) by (unfold lin2mel; do 2 f_equal; lra). replace (lin2mel (1 * 4200 / (1 + 1 + 1 + 1))) with (1127 * ln (5/2)) by (unfold lin2mel; do 2 f_equal; lra).
  assert (L4 : ln 4 = 2 * ln 2) by (replace 4 with (2 * 2) by lra; rewrite ln_mult by lra; lra). assert (P2 : 0 < ln 2) by (rewrite <- ln_1; apply ln_increasing; lra).
  assert (A : ln 2 < ln (5/2)) by (apply ln_increasing; lra). assert (B : ln (5/2) < ln 3) by (apply ln_increasing; lra). assert (C : ln 3 < ln 4) by (apply ln_increasing; lra). set (l2 := ln 2) in *. set (l3 := ln 3) in *. set (l5 := ln (5/2)) in *. rewrite L4 in *.
  unfold weight. destruct (Rlt_dec _ _); [|lra]. destruct (Rlt_dec _ _); [|lra]. destruct (Rle_dec _ _); [lra|]. destruct (Rlt_dec _ _); [|lra]. destruct (Rlt_dec _ _); [|lra]. destruct (Rle_dec _ _); [lra|].
  intros Q. unfold Rdiv in Q at 3. unfold Rdiv in Q. apply Rmult_eq_reg_r in Q; [lra|]. apply Rinv_neq_0_compat. lra.
Qed.

(** ** Banks over bins (linear and mel_etsi) *)
Lemma linspace_first a b n : linspace a b n 0 = a.
Proof. unfold linspace. simpl. ring. Qed.
Lemma linspace_last a b n : (2 <= n)%nat -> linspace a b n (n - 1) = b.
Proof. intros H. unfold linspace. field. apply not_0_INR. lia. Qed.
Lemma linspace_mono a b n i j : a <= b -> (2 <= n)%nat -> (i <= j)%nat -> linspace a b n i <= linspace a b n j.
Proof.
  intros H N L. unfold linspace. assert (0 < INR (n - 1)) by (apply lt_0_INR; lia). assert (0 <= (b - a) / INR (n - 1)) by (apply Rmult_le_pos; [lra|left; apply Rinv_0_lt_compat; lra]). apply le_INR in L. nra.
Qed.
Lemma lin2mel_mono x y : -700 < x -> x <= y -> lin2mel x <= lin2mel y.
Proof. intros H L. destruct (Req_dec x y) as [->|N]; [lra|]. left. apply C81_mel_inverse; [exact H|lra]. Qed.
Lemma mel2lin_mono x y : x <= y -> mel2lin x <= mel2lin y.
Proof. intros H. unfold mel2lin. destruct (Req_dec x y) as [->|N]; [lra|]. pose proof (exp_increasing (x / 1127) (y / 1127) ltac:(lra)). lra. Qed.
(** the frequencies of the two kinds of filters: [nfilt+2] points from the low to the high cutoff, evenly spaced in Hz or on the mel scale *)
Definition lin_points (nfilt : nat) (fs low high : R) (k : nat) : R := low + INR k * ((top_freq fs high - low) / INR (nfilt + 1)).
Definition mel_points (nfilt : nat) (fs low high : R) (k : nat) : R := mel2lin (lin2mel low + INR k * ((lin2mel (top_freq fs high) - lin2mel low) / INR (nfilt + 1))).
Definition near (x : R) (z : Z) : Prop := Rabs (IZR z - x) <= / 2.
(** a triangle over the bins c0 <= c1 <= c2: rises by equal steps from the bin before c0 to 1 at c1, falls by equal steps to the bin after c2 *)
Lemma bin_weight_range c0 c1 c2 j : (c0 <= c1 <= c2)%Z -> 0 <= bin_weight c0 c1 c2 j <= 1 /\ (bin_weight c0 c1 c2 j <> 0 <-> (c0 <= j <= c2)%Z) /\ (bin_weight c0 c1 c2 j = 1 <-> j = c1).
Proof.
  intros [A B]. apply IZR_le in A as RA. apply IZR_le in B as RB. unfold bin_weight. destruct (Z.leb_spec c0 j) as [X|X]; destruct (Z.leb_spec j c1) as [Y|Y]; destruct (Z.leb_spec (c1 + 1) j) as [V|V]; destruct (Z.leb_spec j c2) as [W|W]; try lia; cbn [andb].
  all: try (split; [lra|split; [split; [lra|intros; lia]|split; [lra|intros; lia]]]).
  - apply IZR_le in X as RX. apply IZR_le in Y as RY. set (q := (IZR j - IZR c0 + 1) / (IZR c1 - IZR c0 + 1)). assert (Q : q * (IZR c1 - IZR c0 + 1) = IZR j - IZR c0 + 1) by (unfold q; field; lra). clearbody q.
    assert (0 < q) by nra. assert (q <= 1) by nra. split; [lra|]. split; [split; [intros; lia|intros; lra]|]. split; [|intros ->; nra]. intros ->. apply eq_IZR. lra.
  - apply IZR_le in V as RV. rewrite plus_IZR in RV. apply IZR_le in W as RW. set (q := (IZR c2 - IZR j + 1) / (IZR c2 - IZR c1 + 1)). assert (Q : q * (IZR c2 - IZR c1 + 1) = IZR c2 - IZR j + 1) by (unfold q; field; lra). clearbody q.
    assert (0 < q) by nra. assert (q < 1) by nra. split; [lra|]. split; [split; [intros; lia|intros; lra]|]. split; [intros; lra|intros; lia].
Qed.
Lemma bins_near nfft fs fc k : near (fc k * INR nfft / fs) (bins nfft fs fc k).
Proof. unfold near, bins. replace (fc k * INR nfft / fs) with (fc k / fs * INR nfft) by (unfold Rdiv; ring). rewrite Rabs_minus_sym. apply Znearest_half. Qed.
Lemma bins_mono nfft fs fc i j : 0 < fs -> fc i <= fc j -> (bins nfft fs fc i <= bins nfft fs fc j)%Z.
Proof.
  intros F H. unfold bins. apply valid_rnd_N. apply Rmult_le_compat_r; [apply pos_INR|]. apply Rmult_le_compat_r; [left; apply Rinv_0_lt_compat; exact F|exact H].
Qed.
Lemma bins_low nfft fs fc k : 0 < fs -> 0 <= fc k -> (0 <= bins nfft fs fc k)%Z.
Proof.
  intros F H. unfold bins. rewrite <- (Zrnd_IZR (Znearest (fun x => negb (Z.even x))) 0). apply valid_rnd_N. apply Rmult_le_pos; [|apply pos_INR]. apply Rmult_le_pos; [exact H|left; apply Rinv_0_lt_compat; exact F].
Qed.
(** an even transform length: the last bin, fft_length/2, is the Nyquist frequency *)
Lemma bins_high nfft fs fc k : 0 < fs -> Nat.Even nfft -> fc k <= fs / 2 -> (bins nfft fs fc k <= Z.of_nat (nfft / 2))%Z.
Proof.
  intros F [m E] H. subst nfft. replace (2 * m / 2)%nat with m by (rewrite Nat.mul_comm, Nat.div_mul by lia; reflexivity). unfold bins. rewrite <- (Zrnd_IZR (Znearest (fun x => negb (Z.even x))) (Z.of_nat m)) at 1. apply valid_rnd_N.
  rewrite mult_INR. simpl (INR 2). rewrite <- INR_IZR_INZ. assert (fc k / fs <= / 2). { apply (Rmult_le_reg_r fs); [exact F|]. unfold Rdiv. rewrite Rmult_assoc, Rinv_l by lra. lra. } pose proof (pos_INR m). nra.
Qed.
Lemma bin_bank_ok nfilt nfft c : (forall k, (k < nfilt + 2)%nat -> (0 <= c k <= Z.of_nat (nfft / 2))%Z) ->
  bin_bank nfilt nfft c = Ok (fun j k => if Nat.leb j (nfft / 2) then if Nat.ltb k nfilt then bin_weight (c k) (c (k + 1)%nat) (c (k + 2)%nat) (Z.of_nat j) else 0 else 0).
Proof.
  intros H. unfold bin_bank. destruct (existsb _ (seq 0 (nfilt + 2))) eqn:E1.
  { apply existsb_exists in E1. destruct E1 as (k & K & L). apply in_seq in K. apply Z.ltb_lt in L. specialize (H k ltac:(lia)). lia. }
  destruct (existsb _ (seq 0 nfilt)) eqn:E2; [|reflexivity]. apply existsb_exists in E2. destruct E2 as (k & K & L). apply in_seq in K. apply orb_true_iff in L. destruct L as [L|L]; apply andb_true_iff in L; destruct L as [_ L]; apply Z.ltb_lt in L.
  - specialize (H (k + 1)%nat ltac:(lia)). lia. - specialize (H (k + 2)%nat ltac:(lia)). lia.
Qed.
(** what the two banks over bins promise, for the points [p] in Hz *)
Definition triangles (nfilt nfft : nat) (fs : R) (p : nat -> R) (B : nat -> nat -> R) : Prop :=
  exists c : nat -> Z, (forall k, near (p k * INR nfft / fs) (c k)) /\ (forall k, (k < nfilt + 2)%nat -> (0 <= c k <= Z.of_nat (nfft / 2))%Z) /\
  (forall k, (k < nfilt)%nat -> (c k <= c (k + 1)%nat <= c (k + 2)%nat)%Z) /\
  forall j k, (j <= nfft / 2)%nat -> (k < nfilt)%nat -> 0 <= B j k <= 1 /\ (B j k <> 0 <-> (c k <= Z.of_nat j <= c (k + 2)%nat)%Z) /\ (B j k = 1 <-> Z.of_nat j = c (k + 1)%nat) /\
    ((c k <= Z.of_nat j <= c (k + 1)%nat)%Z -> B j k = (IZR (Z.of_nat j) - IZR (c k) + 1) / (IZR (c (k + 1)%nat) - IZR (c k) + 1)) /\
    ((c (k + 1)%nat <= Z.of_nat j <= c (k + 2)%nat)%Z -> B j k = (IZR (c (k + 2)%nat) - IZR (Z.of_nat j) + 1) / (IZR (c (k + 2)%nat) - IZR (c (k + 1)%nat) + 1)).
Lemma bank_triangles nfilt nfft fs p : 0 < fs -> Nat.Even nfft -> (forall i j, (i <= j)%nat -> p i <= p j) -> 0 <= p 0%nat -> p (nfilt + 1)%nat <= fs / 2 ->
  exists B, bin_bank nfilt nfft (bins nfft fs p) = Ok B /\ triangles nfilt nfft fs p B.
Proof.
  intros F E M L H. assert (BO : forall k, (k < nfilt + 2)%nat -> (0 <= bins nfft fs p k <= Z.of_nat (nfft / 2))%Z).
  { intros k K. split; [apply bins_low; [exact F|]|apply bins_high; [exact F|exact E|]]. - pose proof (M 0%nat k ltac:(lia)). lra. - pose proof (M k (nfilt + 1)%nat ltac:(lia)). lra. }
  eexists. split; [apply bin_bank_ok; exact BO|]. exists (bins nfft fs p). split; [intros; apply bins_near|]. split; [exact BO|].
  assert (MC : forall k, (bins nfft fs p k <= bins nfft fs p (k + 1)%nat <= bins nfft fs p (k + 2)%nat)%Z) by (intros k; split; apply bins_mono; try exact F; apply M; lia). split; [intros; apply MC|].
  intros j k J K. apply Nat.leb_le in J. apply Nat.ltb_lt in K. rewrite J, K. destruct (bin_weight_range _ _ _ (Z.of_nat j) (MC k)) as (R1 & R2 & R3). split; [exact R1|]. split; [exact R2|]. split; [exact R3|]. specialize (MC k).
  split; intros Q.
  - unfold bin_weight. destruct (Z.leb_spec (bins nfft fs p k) (Z.of_nat j)); [|lia]. destruct (Z.leb_spec (Z.of_nat j) (bins nfft fs p (k + 1)%nat)); [|lia]. reflexivity.
  - destruct (Z.eq_dec (Z.of_nat j) (bins nfft fs p (k + 1)%nat)) as [Y|Y]. { rewrite (proj2 R3 Y), Y. field. destruct MC as [_ MC]. apply IZR_le in MC. lra. }
    unfold bin_weight. destruct (Z.leb_spec (Z.of_nat j) (bins nfft fs p (k + 1)%nat)); [lia|]. rewrite andb_false_r. destruct (Z.leb_spec (bins nfft fs p (k + 1)%nat + 1) (Z.of_nat j)); [|lia]. destruct (Z.leb_spec (Z.of_nat j) (bins nfft fs p (k + 2)%nat)); [|lia]. reflexivity.
Qed.
(** linear and mel_etsi: with cutoffs between 0 and half of the sampling frequency and an even transform length no bin is out of range, and the
    filters are triangles over the bins nearest to the points *)
Theorem C81_bins nfilt nfft fs low high : 0 < fs -> Nat.Even nfft -> 0 <= low -> low <= top_freq fs high -> top_freq fs high <= fs / 2 ->
  (exists B, linear nfilt nfft fs low high = Ok B /\ triangles nfilt nfft fs (lin_points nfilt fs low high) B) /\
  (exists B, mel_etsi nfilt nfft fs low high = Ok B /\ triangles nfilt nfft fs (mel_points nfilt fs low high) B).
Proof.
  intros F E L LH H. assert (N : (nfilt + 2 - 1 = nfilt + 1)%nat) by lia. split.
  - destruct (bank_triangles nfilt nfft fs (linspace low (top_freq fs high) (nfilt + 2))) as (B & B1 & B2); try assumption.
    + intros i j Q. apply linspace_mono; [exact LH|lia|exact Q]. + rewrite linspace_first. exact L. + rewrite <- N, linspace_last by lia. exact H.
    + exists B. split; [exact B1|]. unfold linspace in B2. rewrite N in B2. exact B2.
  - destruct (bank_triangles nfilt nfft fs (fun k => mel2lin (linspace (lin2mel low) (lin2mel (top_freq fs high)) (nfilt + 2) k))) as (B & B1 & B2); try assumption.
    + intros i j Q. apply mel2lin_mono. apply linspace_mono; [apply lin2mel_mono; lra|lia|exact Q].
    + rewrite linspace_first. rewrite (proj1 (C81_mel_inverse low)) by lra. exact L. + rewrite <- N, linspace_last by lia. rewrite (proj1 (C81_mel_inverse (top_freq fs high))) by lra. exact H.
    + exists B. split; [exact B1|]. unfold linspace in B2. rewrite N in B2. exact B2.
Qed.
(** an odd transform length: the last point falls outside of the array *)
Theorem C81_odd_refuted : linear 1 3 2 0 0 = Err IndexError.
Proof.
  unfold linear. assert (T : top_freq 2 0 = 1) by (unfold top_freq; destruct (Req_EM_T 0 0); lra). rewrite T. set (c := bins _ _ _).
  assert (C0 : c 0%nat = 0%Z) by (unfold c, bins, linspace; simpl; apply Znearest_imp; simpl; rewrite Rabs_pos_eq; lra).
  assert (C1 : c 1%nat = 1%Z) by (unfold c, bins, linspace; simpl; apply Znearest_imp; simpl; apply Rabs_lt; lra).
  assert (C2 : c 2%nat = 2%Z). { unfold c, bins, linspace. simpl. unfold Znearest. rewrite (Zfloor_imp 1) by (simpl; lra). rewrite Rcompare_Eq by lra. simpl. apply Zceil_imp. simpl. lra. }
  unfold bin_bank. cbn [seq existsb Nat.add]. rewrite C0, C1, C2. reflexivity.
Qed.
(** norm_filters: every filter with a bin of non-zero total weight sums to 1 over the bins, keeping the ratios of its weights; a filter with
    none, such as a mel_kaldi filter narrower than the distance between two bins, becomes nan *)
Theorem C81_norm nfft B k : (forall j, 0 <= B j k) ->
  ((exists j, (j <= nfft / 2)%nat /\ B j k <> 0) -> exists C, (forall j, norm_bank nfft B j k = Some (C j)) /\ Rsum (map C (seq 0 (nfft / 2 + 1))) = 1 /\ (forall i j, C i * B j k = C j * B i k)) /\
  ((forall j, (j <= nfft / 2)%nat -> B j k = 0) -> forall j, norm_bank nfft B j k = None).
Proof.
  intros P. unfold norm_bank. set (t := Rsum (map (fun j => B j k) (seq 0 (nfft / 2 + 1)))). split.
  - intros (j & J & NZ). assert (T : 0 < t).
    { assert (G : forall l, 0 <= Rsum (map (fun j => B j k) l) /\ (In j l -> 0 < Rsum (map (fun j => B j k) l))).
      { induction l as [|a l IH]; [split; [unfold Rsum; simpl; lra|intros []]|]. unfold Rsum in *. simpl. pose proof (P a). pose proof (P j). destruct IH as [I1 I2]. split; [lra|]. intros [->|Q]; [|specialize (I2 Q); lra]. lra. }
      apply G. apply in_seq. lia. }
    exists (fun j => B j k / t). split; [|split].
    + intros i. unfold odiv. destruct (Req_EM_T t 0); [lra|reflexivity].
    + rewrite (map_ext (fun j => B j k / t) (fun j => / t * B j k)) by (intros; unfold Rdiv; ring). assert (G : forall l, Rsum (map (fun j => / t * B j k) l) = / t * Rsum (map (fun j => B j k) l)). { induction l as [|a l IH]; unfold Rsum in *; simpl; [ring|]. rewrite IH. ring. } rewrite G. fold t. field. lra.
    + intros a b. unfold Rdiv. ring.
  - intros H j. assert (T : t = 0). { apply Rsum_zero. intros i I. apply in_seq in I. apply H. lia. } unfold odiv. destruct (Req_EM_T t 0); [reflexivity|contradiction].
Qed.
Theorem C81_norm_nan_refuted : 0 < top_freq 4200 0 /\ forall j, norm_bank 4 (mel_kaldi 3 4 4200 0 0) j 0 = None.
Proof.
  assert (T : top_freq 4200 0 = 2100) by (unfold top_freq; destruct (Req_EM_T 0 0); lra). split; [rewrite T; lra|].
  apply C81_norm.
  - intros j. destruct (Nat.ltb_spec j (4 / 2)) as [J|J]; [apply C81_mel_kaldi; try lra; try lia; rewrite T; lra|]. unfold mel_kaldi. destruct (Nat.ltb_spec j (4 / 2)); [lia|]. lra.
  - intros j J. destruct j as [|[|j]]; [apply C81_first_bin; [lra|rewrite T; lra]| |reflexivity]. unfold mel_kaldi. change (Nat.ltb 1 (4 / 2)) with true. change (Nat.ltb 0 3) with true. cbv iota zeta. unfold weight.
    destruct (Rlt_dec _ _) as [A|A]; [|reflexivity]. destruct (Rlt_dec _ _) as [B|B]; [|reflexivity]. exfalso. rewrite T in B. unfold linspace in B. simpl in B. rewrite (proj2 (proj2 (proj2 (C81_mel_inverse 0)))) in B.
    assert (E1 : lin2mel 2100 = 1127 * ln 4) by (unfold lin2mel; replace (1 + 2100 / 700) with 4 by lra; reflexivity). rewrite E1 in B.
    replace (lin2mel (0 + 1 * ((4200 - 0) / (1 + 1 + 1)))) with (1127 * ln 3) in B by (unfold lin2mel; do 2 f_equal; lra).
    assert (L4 : ln 4 = 2 * ln 2) by (replace 4 with (2 * 2) by lra; rewrite ln_mult by lra; lra). assert (ln 2 < ln 3) by (apply ln_increasing; lra). lra.
Qed.
(** a bank meeting the hypotheses: 8 kHz, transforms of 8 samples, one linear filter: bins 0, 2, 4 *)
Example C81_witness : exists B, linear 1 8 8 0 0 = Ok B /\ triangles 1 8 8 (lin_points 1 8 0 0) B /\ lin_points 1 8 0 0 1 = 2 /\ lin_points 1 8 0 0 2 = 4.
Proof.
  assert (T : top_freq 8 0 = 4) by (unfold top_freq; destruct (Req_EM_T 0 0); lra).
  destruct (proj1 (C81_bins 1 8 8 0 0 ltac:(lra) ltac:(exists 4%nat; reflexivity) ltac:(lra) ltac:(rewrite T; lra) ltac:(rewrite T; lra))) as (B & B1 & B2). exists B. split; [exact B1|]. split; [exact B2|].
  unfold lin_points. rewrite T. simpl. split; lra.
Qed.
Print Assumptions C81_mel_inverse. Print Assumptions C81_mel_kaldi. Print Assumptions C81_first_bin. Print Assumptions C81_negative_high_refuted. Print Assumptions C81_bin_frequency_refuted.
Print Assumptions C81_bins. Print Assumptions C81_odd_refuted. Print Assumptions C81_norm.
Print Assumptions C81_norm_nan_refuted.
