(** Sequential sub-sequences: a whole epoch of SequenceBatchGeneratorV1. *)
From Coq Require Import Lia Permutation.
From Verif Require Import BaseFacts Mat MatProofs Utt2Info SeqGen SeqGenProofs SeqGenRand SeqGenSeq.
Open Scope list_scope.
Open Scope Z_scope.

Definition zsum (l : list Z) : Z := fold_right Z.add 0 l.
(** ** Specification *)
(** the state between two epochs *)
Definition at_start (num_rows : string -> Z) (c : cfg) (mn mx : Z) (g : gen) : Prop :=
  SInv num_rows c mn mx g /\ g_seq g = O /\ g_step g = 0 /\ g_frame g = repeat 0 (List.length (g_u2c g)) /\ g_sub g = repeat 0 (List.length (g_u2c g)).
(** number of sub-sequences of an epoch, before multiplying by iters_per_epoch *)
Definition per_epoch (c : cfg) (plan : list Z) (S : Z) : Prop :=
  if c_balanced_seqs c then exists m, is_max m plan /\ S = Z.of_nat (List.length plan) * m else S = zsum plan.

Section G.
Variable num_rows : string -> Z.
Variable draw : Z -> nat -> Z -> Z -> Z.
Variable perm : Z -> nat -> nat -> list nat.
Variable c : cfg.
Hypothesis V : valid_rng draw perm.
Variables mn mx : Z.
Notation ov := (c_overlap c).
Notation lens := (lens_of num_rows).
Notation SInv := (SInv num_rows c mn mx).
Notation ns := (planned mn mx ov).
Notation Epoch := (Epoch num_rows c mn mx).
Notation long_enough := (long_enough num_rows mn).
Hypothesis MN : 1 <= mn.
Hypothesis MX : mn <= mx.
Hypothesis OV : ov <= mn.
Hypothesis SH : 0 < (mx + mn) / 2 - ov.
Definition plan (rows : list u2row) : list Z := map ns (lens rows).

Lemma ep_bound g H : Epoch g H -> Forall (fun q => (q_pos q < List.length (g_u2c g))%nat) H.
Proof. intros [E _]. eapply Forall_impl; [|exact E]. intros q (row & r & N & _). apply nth_error_Some. congruence. Qed.
Lemma room g H : SInv g -> long_enough g -> Epoch g H -> (g_seq g < List.length (g_u2c g))%nat -> (c_balanced_seqs c = true \/ Z.of_nat (List.length H) < zsum (plan (g_u2c g))) ->
  exists i, (forall subs, g_subs g = Some subs -> seek (g_sub g) subs (g_seq g) (List.length (g_u2c g)) = Some i) /\ (c_balanced_seqs c = true -> i = g_seq g).
Proof.
  intros S LE EP L R. pose proof S as [I S1 S2 S3 S4 S5 S6 S7]. destruct (seek (g_sub g) (plan (g_u2c g)) (g_seq g) (List.length (g_u2c g))) as [i|] eqn:SK.
  - exists i. split. { intros subs X. rewrite S4 in X. injection X as <-. exact SK. } intros B. destruct (nth_error (g_u2c g) (g_seq g)) as [row|] eqn:ER. 2: { apply nth_error_None in ER. lia. }
    destruct (List.length (g_u2c g)) as [|n] eqn:EN; [lia|]. cbn [seek] in SK. destruct (ep_walk _ _ _ _ _ _ EP _ _ ER) as (_ & _ & SB & _). rewrite B in SB. rewrite (nth_error_nth _ _ 0 SB) in SK. rewrite (nth_error_nth (plan (g_u2c g)) (g_seq g) 0 (x := ns (num_rows (fst row)))) in SK. 2: { unfold plan, lens_of. rewrite !nth_error_map, ER. reflexivity. }
    assert (LN : 1 <= ns (num_rows (fst row))). { apply ceil_div_pos; [|lia]. pose proof (LE row (nth_error_In _ _ ER)). lia. } pose proof (Z.mod_pos_bound (Z.of_nat (List.length (hist (g_seq g) H))) (ns (num_rows (fst row))) ltac:(lia)). rewrite (proj2 (Z.eqb_neq _ _)) in SK by lia. injection SK as <-. reflexivity.
  - exfalso. rewrite <- S6 in SK. assert (L6 : (g_seq g < List.length (g_sub g))%nat) by lia. pose proof (seek_none_all _ _ _ L6 SK) as A. rewrite S6 in A.
    assert (AL : forall i row, nth_error (g_u2c g) i = Some row -> (if c_balanced_seqs c then Z.of_nat (List.length (hist i H)) mod ns (num_rows (fst row)) else Z.of_nat (List.length (hist i H))) = ns (num_rows (fst row))).
    { intros i row ER. destruct (ep_walk _ _ _ _ _ _ EP _ _ ER) as (_ & _ & SB & _). assert (Li : (i < List.length (g_u2c g))%nat) by (apply nth_error_Some; congruence). specialize (A i Li). rewrite (nth_error_nth _ _ 0 SB) in A. rewrite A. apply nth_error_nth. unfold plan, lens_of. rewrite !nth_error_map, ER. reflexivity. }
    destruct (c_balanced_seqs c) eqn:B.
    + destruct (nth_error (g_u2c g) (g_seq g)) as [row|] eqn:ER. 2: { apply nth_error_None in ER. lia. } specialize (AL _ _ ER). assert (LN : 1 <= ns (num_rows (fst row))). { apply ceil_div_pos; [|lia]. pose proof (LE row (nth_error_In _ _ ER)). lia. } pose proof (Z.mod_pos_bound (Z.of_nat (List.length (hist (g_seq g) H))) (ns (num_rows (fst row))) ltac:(lia)). lia.
    + destruct R as [R|R]; [discriminate|]. rewrite <- (hist_sum _ _ (ep_bound g H EP)) in R. unfold zsum in R. assert (map (fun i => Z.of_nat (List.length (hist i H))) (seq 0 (List.length (g_u2c g))) = plan (g_u2c g)) as X; [|rewrite X in R; lia].
      apply nth_error_ext. intros k. unfold plan, lens_of. rewrite !nth_error_map. destruct (nth_error (g_u2c g) k) as [row|] eqn:ER.
      * assert (Lk : (k < List.length (g_u2c g))%nat) by (apply nth_error_Some; congruence). rewrite (nth_error_nth' _ O) by (rewrite seq_length; exact Lk). rewrite seq_nth by exact Lk. cbn. f_equal. apply AL. exact ER.
      * apply nth_error_None in ER. rewrite (proj2 (nth_error_None _ _)) by (rewrite seq_length; exact ER). reflexivity.
Qed.

Lemma times_seq b : forall g H, SInv g -> long_enough g -> Epoch g H -> (g_seq g < List.length (g_u2c g))%nat -> (c_balanced_seqs c = true \/ Z.of_nat (List.length H) + Z.of_nat b <= zsum (plan (g_u2c g))) ->
  exists qs g', times (sequential_one num_rows draw c) b g = Ok (qs, g') /\ List.length qs = b /\ SInv g' /\ Epoch g' (H ++ qs) /\ frozen g g' /\ (g_seq g' < List.length (g_u2c g))%nat /\
    (c_balanced_seqs c = true -> map q_pos qs = around (List.length (g_u2c g)) (g_seq g) b /\ g_seq g' = ((g_seq g + b) mod List.length (g_u2c g))%nat).
Proof.
  induction b as [|b IH]; intros g H S LE EP L R; cbn [times].
  - exists [], g. rewrite app_nil_r. split; [reflexivity|]. split; [reflexivity|]. split; [exact S|]. split; [exact EP|]. split; [apply frozen_refl|]. split; [exact L|]. intros _. split; [reflexivity|]. rewrite Nat.add_0_r, Nat.mod_small by exact L. reflexivity.
  - destruct (room g H S LE EP L) as (i & SK & BI); [destruct R as [R|R]; [left; exact R|right; lia]|]. destruct (step num_rows draw perm c V mn mx MN MX OV SH g H i S LE EP L SK) as (q & g1 & E & P & Li & S1 & EP1 & F1 & _ & Q1). rewrite E. cbn [bind]. assert (U1 : g_u2c g1 = g_u2c g) by apply F1.
    destruct (IH g1 (H ++ [q])) as (qs & g2 & E2 & N2 & S2 & EP2 & F2 & L2 & B2); [exact S1|unfold SeqGenSeq.long_enough; rewrite U1; exact LE|exact EP1|rewrite U1, Q1; apply Nat.mod_upper_bound; lia|destruct R as [R|R]; [left; exact R|right; rewrite U1, app_length; cbn [List.length]; lia]|].
    rewrite E2. cbn [bind]. exists (q :: qs), g2. split; [reflexivity|]. split; [cbn; congruence|]. split; [exact S2|]. rewrite <- app_assoc in EP2. split; [exact EP2|]. split; [apply (frozen_trans _ _ _ F1 F2)|]. rewrite U1 in L2. split; [exact L2|]. intros B. destruct (B2 B) as (P2 & Q2). rewrite U1, Q1, (BI B) in *. split.
    + cbn [map]. rewrite P, P2. symmetry. apply seqs_mod; lia.
    + rewrite Q2, Nat.add_mod_idemp_l by lia. f_equal. lia.
Qed.

Lemma sp_ok g : SInv g -> c_method c = SequentialSubseqs -> (0 < List.length (g_u2c g))%nat -> (0 < c_batch c)%nat -> exists T, per_epoch c (plan (g_u2c g)) T /\ steps_per_epoch c g = Ok (g_iters g * T / Z.of_nat (c_batch c)).
Proof.
  intros [I S1 S2 S3 S4 S5 S6 S7] M N0 B0. unfold steps_per_epoch, per_epoch. assert (S4' : g_subs g = Some (plan (g_u2c g))) by exact S4. rewrite M, S4'. rewrite (proj2 (Nat.eqb_neq (c_batch c) 0)) by lia. destruct (c_balanced_seqs c).
  - destruct (zmax_total (plan (g_u2c g))) as (m & E). { destruct (g_u2c g); [cbn in N0; lia|discriminate]. } rewrite E. cbn [bind]. exists (Z.of_nat (num_seqs g) * m). split; [|reflexivity]. exists m. split; [apply zmax_ok; exact E|]. unfold plan, lens_of, num_seqs. rewrite !map_length. reflexivity.
  - cbn [bind]. exists (zsum (plan (g_u2c g))). split; reflexivity.
Qed.
Lemma is_max_unique a b l : is_max a l -> is_max b l -> a = b.
Proof. intros (A & A') (B & B'). specialize (A' _ B). specialize (B' _ A). lia. Qed.
Lemma per_epoch_unique p A B : per_epoch c p A -> per_epoch c p B -> A = B.
Proof. unfold per_epoch. destruct (c_balanced_seqs c); [|congruence]. intros (m & M & ->) (m' & M' & ->). rewrite (is_max_unique _ _ _ M M'). reflexivity. Qed.

Lemma step_transfer g s e : SInv g -> SInv (set_step s e g).
Proof. intros [I S1 S2 S3 S4 S5 S6 S7]. constructor; cbn; try assumption. apply (inv_transfer num_rows c g); try reflexivity; exact I. Qed.
Lemma ep_transfer g s e H : Epoch g H -> Epoch (set_step s e g) H.
Proof. intros [A B]. constructor; cbn; assumption. Qed.

(** what holds inside an epoch *)
Definition mid (g : gen) (H : list request) : Prop := SInv g /\ long_enough g /\ Epoch g H /\ (g_seq g < List.length (g_u2c g))%nat /\ Z.of_nat (List.length H) = g_step g * Z.of_nat (c_batch c).
Definition fits (iters : Z) : Prop := c_balanced_seqs c = true \/ iters <= 1.

Lemma read_seq g H T : c_method c = SequentialSubseqs -> (0 < c_batch c)%nat -> mid g H -> per_epoch c (plan (g_u2c g)) T -> fits (g_iters g) -> 0 <= g_step g < g_iters g * T / Z.of_nat (c_batch c) ->
  exists qs g1 g', read num_rows draw perm c g = Ok (qs, g') /\ List.length qs = c_batch c /\ frozen g g1 /\ Epoch g1 (H ++ qs) /\ (c_balanced_seqs c = true -> map q_pos qs = around (List.length (g_u2c g)) (g_seq g) (c_batch c)) /\ g_iters g' = g_iters g /\ g_init_u2c g' = g_init_u2c g /\
    (g_step g + 1 < g_iters g * T / Z.of_nat (c_batch c) -> g_u2c g' = g_u2c g /\ g_step g' = g_step g + 1 /\ g_epoch g' = g_epoch g /\ mid g' (H ++ qs) /\ (c_balanced_seqs c = true -> g_seq g' = ((g_seq g + c_batch c) mod List.length (g_u2c g))%nat)) /\
    (g_step g + 1 = g_iters g * T / Z.of_nat (c_batch c) -> at_start num_rows c mn mx g' /\ g_epoch g' = g_epoch g + 1).
Proof.
  intros M B0 (S & LE & EP & L & LH) PE FT ST. set (st := g_iters g * T / Z.of_nat (c_batch c)) in *. unfold read. rewrite M.
  destruct (times_seq (c_batch c) g H S LE EP L) as (qs & g1 & E & Nq & S1 & EP1 & F1 & L1 & B1).
  { destruct (c_balanced_seqs c) eqn:B; [left; reflexivity|right]. destruct FT as [X|X]; [congruence|]. unfold per_epoch in PE. rewrite B in PE. subst T. pose proof (Z.mul_div_le (g_iters g * zsum (plan (g_u2c g))) (Z.of_nat (c_batch c)) ltac:(lia)) as D. fold st in D.
    assert (0 <= zsum (plan (g_u2c g))). { unfold zsum, plan, lens_of. rewrite map_map. unfold SeqGenSeq.long_enough in LE. clear - LE MN SH. induction (g_u2c g) as [|r l IH]; [cbn; lia|]. cbn [map fold_right]. assert (0 < ns (num_rows (fst r))). { pose proof (LE r (or_introl eq_refl)). pose proof (ceil_div_pos (num_rows (fst r)) ((mx + mn) / 2 - ov) ltac:(lia) SH). unfold planned. lia. } assert (IH' : 0 <= fold_right Z.add 0 (map (fun r => ns (num_rows (fst r))) l)) by (apply IH; intros x Ix; apply LE; right; exact Ix). lia. }
    rewrite LH. nia. }
  rewrite E. cbn [bind]. destruct F1 as (U & IU & IT & SE & EPO & SU). destruct (sp_ok g1 S1 M) as (T1 & PE1 & SP1); [rewrite U; lia|exact B0|]. rewrite U in PE1. rewrite (per_epoch_unique _ _ _ PE1 PE), IT in SP1. rewrite SP1. cbn [bind]. fold st. rewrite (proj2 (Z.eqb_neq st 0)) by lia. cbn [set_step g_step]. rewrite SE.
  destruct (Z.eq_dec (g_step g + 1) st) as [LAST|NL].
  - rewrite LAST, Z_mod_same_full. cbn [Z.eqb]. destruct (reset_sinv num_rows draw perm c mn mx (set_step 0 (g_epoch g1) g1) V M (step_transfer _ _ _ S1)) as (g3 & E3 & S3 & C1 & C2 & C3 & C4 & C5 & C6 & C7). rewrite E3. cbn [bind]. exists qs, g1. eexists. split; [reflexivity|]. split; [exact Nq|]. split; [repeat split; assumption|]. split; [exact EP1|]. split; [intros B; apply (proj1 (B1 B))|]. cbn [set_step g_iters g_init_u2c]. rewrite C5, C4. split; [exact IT|]. split; [exact IU|]. split; [lia|]. intros _. split.
    + split; [apply step_transfer; exact S3|]. cbn. repeat split; assumption.
    + cbn. rewrite C3. cbn. lia.
  - rewrite (Z.mod_small (g_step g + 1) st) by lia. rewrite (proj2 (Z.eqb_neq (g_step g + 1) 0)) by lia. exists qs, g1. eexists. split; [reflexivity|]. split; [exact Nq|]. split; [repeat split; assumption|]. split; [exact EP1|]. split; [intros B; apply (proj1 (B1 B))|]. cbn [set_step g_iters g_init_u2c]. split; [exact IT|]. split; [exact IU|]. split; [|lia]. intros _. cbn. split; [exact U|]. split; [reflexivity|]. split; [exact EPO|]. split; [|intros B; apply (proj2 (B1 B))].
    split; [apply step_transfer; exact S1|]. split; [unfold SeqGenSeq.long_enough; cbn; rewrite U; exact LE|]. split; [apply ep_transfer; exact EP1|]. cbn. rewrite U. split; [exact L1|]. rewrite app_length, Nat2Z.inj_add, LH, Nq. lia.
Qed.

Lemma reads_seq T n : forall g H, c_method c = SequentialSubseqs -> (0 < c_batch c)%nat -> mid g H -> per_epoch c (plan (g_u2c g)) T -> fits (g_iters g) -> 0 <= g_step g -> g_step g + Z.of_nat n <= g_iters g * T / Z.of_nat (c_batch c) ->
  exists qss g1 g', reads num_rows draw perm c n g = Ok (qss, g') /\ List.length qss = n /\ Forall (fun qs => List.length qs = c_batch c) qss /\ g_u2c g1 = g_u2c g /\ Epoch g1 (H ++ concat qss) /\ (c_balanced_seqs c = true -> map q_pos (concat qss) = around (List.length (g_u2c g)) (g_seq g) (n * c_batch c)) /\
    ((0 < n)%nat -> g_step g + Z.of_nat n = g_iters g * T / Z.of_nat (c_batch c) -> at_start num_rows c mn mx g' /\ g_epoch g' = g_epoch g + 1 /\ g_init_u2c g' = g_init_u2c g /\ g_iters g' = g_iters g).
Proof.
  induction n as [|n IH]; intros g H M B0 MD PE FT S0 SN; cbn [reads].
  - exists [], g, g. cbn [concat]. rewrite app_nil_r. split; [reflexivity|]. split; [reflexivity|]. split; [constructor|]. split; [reflexivity|]. split; [apply MD|]. split; [reflexivity|]. lia.
  - destruct (read_seq g H T M B0 MD PE FT ltac:(lia)) as (qs & g1 & g2 & E & Nq & F1 & EP1 & P1 & IT & IU & MID & LAST). rewrite E. cbn [bind]. assert (U1 : g_u2c g1 = g_u2c g) by apply F1.
    destruct (Z.eq_dec (g_step g + 1) (g_iters g * T / Z.of_nat (c_batch c))) as [Q|Q].
    + assert (n = O) by lia. subst n. cbn [reads bind]. exists [qs], g1, g2. cbn [concat]. rewrite app_nil_r, Nat.mul_1_l. split; [reflexivity|]. split; [reflexivity|]. split; [constructor; [exact Nq|constructor]|]. split; [exact U1|]. split; [exact EP1|]. split; [exact P1|]. intros _ _. destruct (LAST Q) as (A & B). split; [exact A|]. split; [exact B|]. split; assumption.
    + destruct MID as (U2 & ST2 & EP2 & MD2 & SQ2); [lia|]. destruct (IH g2 (H ++ qs) M B0 MD2) as (qss & g3 & g4 & E4 & N4 & F4 & U4 & EP4 & P4 & L4); [rewrite U2; exact PE|rewrite IT; exact FT|lia|rewrite IT; lia|]. rewrite E4. cbn [bind]. exists (qs :: qss), g3, g4. cbn [concat]. split; [reflexivity|]. split; [cbn; congruence|]. split; [constructor; assumption|]. split; [congruence|]. rewrite app_assoc. split; [exact EP4|]. split.
      * intros B. specialize (P1 B). specialize (P4 B). specialize (SQ2 B). rewrite map_app, P1, P4, U2, SQ2. replace (S n * c_batch c)%nat with (c_batch c + n * c_batch c)%nat by lia. unfold around. rewrite (seq_app (c_batch c)), map_app. f_equal. assert (N0 : (0 < List.length (g_u2c g))%nat) by (destruct MD as (_ & _ & _ & X & _); lia). apply nth_error_ext. intros k. rewrite !nth_error_map. assert (NS : forall s m j, nth_error (seq s m) j = if (j <? m)%nat then Some (s + j)%nat else None). { intros s m j. destruct (Nat.ltb_spec j m) as [W|W]; [rewrite (nth_error_nth' _ O) by (rewrite seq_length; exact W); rewrite seq_nth by exact W; reflexivity|apply nth_error_None; rewrite seq_length; exact W]. } rewrite !NS. destruct (k <? n * c_batch c)%nat; [|reflexivity]. cbn [option_map]. f_equal. rewrite Nat.add_mod_idemp_l by lia. reflexivity.
      * intros _ LL. destruct (Nat.eq_dec n 0) as [->|]; [lia|]. rewrite IT in L4. destruct (L4 ltac:(lia) ltac:(lia)) as (A & B & C1 & C2). split; [exact A|]. split; [lia|]. split; congruence.
Qed.
Lemma epoch_nil g : at_start num_rows c mn mx g -> long_enough g -> (0 < List.length (g_u2c g))%nat -> mid g [].
Proof.
  intros (S & Q0 & T0 & F0 & B0) LE N0. assert (NR : forall (x : Z) i m, (i < m)%nat -> nth_error (repeat x m) i = Some x). { intros x i m Li. rewrite (nth_error_nth' _ x) by (rewrite repeat_length; exact Li). rewrite nth_repeat. reflexivity. }
  split; [exact S|]. split; [exact LE|]. split; [|split; [rewrite Q0; exact N0|rewrite T0; reflexivity]]. constructor; [constructor|]. intros i row ER. assert (Li : (i < List.length (g_u2c g))%nat) by (apply nth_error_Some; congruence). rewrite F0, B0. cbn [hist filter map List.length]. rewrite !NR by exact Li. assert (LN : 1 <= ns (num_rows (fst row))). { apply ceil_div_pos; [|lia]. pose proof (LE row (nth_error_In _ _ ER)). lia. }
  change (Z.of_nat 0) with 0. split; [intros j r E; destruct j; discriminate E|]. unfold next_off. cbn [List.length hist filter map]. change (Z.of_nat 0) with 0. rewrite Z.mod_0_l by lia. cbn. split; [reflexivity|]. split; [destruct (c_balanced_seqs c); reflexivity|]. intros _. lia.
Qed.
End G.

(** ** Sequential sub-sequences: one epoch. From the state between two epochs, and when the limits are in order and the overlap is not
    larger than the shortest sub-sequence, the generator reads all the batches of the epoch without failing; every range is inside its
    recording; the ranges of one recording follow each other; with balanced sequences the recordings are visited in turn, otherwise none
    is visited more often than planned; at the end of the epoch it is again between two epochs. *)
Theorem C44_sequential : forall num_rows draw perm c mn mx g T n, valid_rng draw perm -> c_method c = SequentialSubseqs ->
  1 <= mn -> mn <= mx -> c_overlap c <= mn -> 0 < (mx + mn) / 2 - c_overlap c -> (0 < c_batch c)%nat ->
  at_start num_rows c mn mx g -> g_init_u2c g <> [] -> (forall row, In row (g_init_u2c g) -> mn <= num_rows (fst row)) ->
  per_epoch c (map (planned mn mx (c_overlap c)) (lens_of num_rows (g_u2c g))) T -> (c_balanced_seqs c = true \/ g_iters g <= 1) -> Z.of_nat n <= g_iters g * T / Z.of_nat (c_batch c) ->
  exists qss g', reads num_rows draw perm c n g = Ok (qss, g') /\ List.length qss = n /\ Forall (fun qs => List.length qs = c_batch c) qss /\ Permutation (g_u2c g) (g_init_u2c g) /\
    (forall q, In q (concat qss) -> exists row r, nth_error (g_u2c g) (q_pos q) = Some row /\ q_key q = fst row /\ q_range q = Some r /\ 0 <= fst r /\ mn <= snd r <= mx /\ fst r + snd r <= num_rows (fst row)) /\
    (forall i row, nth_error (g_u2c g) i = Some row -> walk mn mx (c_overlap c) (num_rows (fst row)) (planned mn mx (c_overlap c) (num_rows (fst row))) (hist i (concat qss)) /\
       (c_balanced_seqs c = false -> Z.of_nat (List.length (hist i (concat qss))) <= planned mn mx (c_overlap c) (num_rows (fst row)))) /\
    (c_balanced_seqs c = true -> forall t q, nth_error (concat qss) t = Some q -> q_pos q = (t mod List.length (g_u2c g))%nat) /\
    ((0 < n)%nat -> Z.of_nat n = g_iters g * T / Z.of_nat (c_batch c) -> at_start num_rows c mn mx g' /\ g_epoch g' = g_epoch g + 1 /\ g_init_u2c g' = g_init_u2c g /\ g_iters g' = g_iters g).
Proof.
  intros nr dr pm c mn mx g T n V M MN MX OV SH B0 AS NE LE PE FT SN. pose proof AS as (S & Q0 & T0 & _). pose proof (inv_perm _ _ _ (si_inv _ _ _ _ _ S)) as PM.
  assert (LE' : long_enough nr mn g) by (intros row I; apply LE; apply (Permutation_in _ PM I)). assert (N0 : (0 < List.length (g_u2c g))%nat) by (rewrite (Permutation_length PM); destruct (g_init_u2c g); [contradiction|cbn; lia]).
  pose proof (epoch_nil nr c mn mx MN SH g AS LE' N0) as MD.
  destruct (reads_seq nr dr pm c V mn mx MN MX OV SH T n g [] M B0 MD PE FT ltac:(lia) ltac:(rewrite T0; exact SN)) as (qss & g1 & g' & E & L & F & U & EP & P & LAST). cbn [app] in EP.
  exists qss, g'. split; [exact E|]. split; [exact L|]. split; [exact F|]. split; [exact PM|]. destruct EP as [EP1 EP2]. rewrite U in EP1, EP2.
  assert (LN : forall row, In row (g_u2c g) -> 1 <= planned mn mx (c_overlap c) (nr (fst row))) by (intros row I; apply ceil_div_pos; [pose proof (LE' row I); lia|exact SH]).
  split; [|split; [|split]].
  - intros q I. rewrite Forall_forall in EP1. destruct (EP1 q I) as (row & r & ER & K & R). exists row, r. split; [exact ER|]. split; [exact K|]. split; [exact R|]. destruct (EP2 _ _ ER) as (W & _). pose proof (nth_error_In _ _ ER) as IR. destruct (walk_inside c mn mx MN MX OV SH _ _ (LE' _ IR) (LN _ IR) W) as (IN & _). rewrite Forall_forall in IN.
    assert (Ih : In r (hist (q_pos q) (concat qss))). { unfold hist. apply in_map_iff. exists q. rewrite R. split; [reflexivity|]. apply filter_In. split; [exact I|apply Nat.eqb_refl]. } destruct (IN r Ih) as (X1 & X2 & X3). apply In_nth_error in Ih. destruct Ih as (j & Ej). destruct (W _ _ Ej) as (W1 & W2).
    assert (X4 : fst r <= nr (fst row) - mn). { rewrite W1. destruct (_ =? 0); [pose proof (LE' _ IR); lia|]. destruct (nth_error _ (pred j)); [lia|]. pose proof (LE' _ IR); lia. } clear W1. match type of W2 with (if ?b then _ else _) => destruct b end; lia.
  - intros i row ER. destruct (EP2 i row ER) as (W & _ & _ & LB). split; [exact W|exact LB].
  - intros B t q Eq. specialize (P B). rewrite Q0 in P. assert (Et : nth_error (map q_pos (concat qss)) t = Some (q_pos q)) by (rewrite nth_error_map, Eq; reflexivity). rewrite P in Et. unfold around in Et. rewrite nth_error_map in Et. destruct (nth_error (seq 0 (n * c_batch c)) t) as [t'|] eqn:Es; [|discriminate]. cbn in Et. injection Et as Et. assert (Lt : (t < List.length (seq 0 (n * c_batch c)))%nat) by (apply nth_error_Some; congruence). rewrite seq_length in Lt. rewrite (nth_error_nth' _ O) in Es by (rewrite seq_length; exact Lt). rewrite seq_nth in Es by exact Lt. injection Es as <-. symmetry. exact Et.
  - intros X Y. apply LAST; [exact X|rewrite T0; exact Y].
Qed.
(** the generator starts between two epochs *)
Theorem C44_sequential_init : forall num_rows draw perm c rows g, valid_rng draw perm -> safe c -> c_method c = SequentialSubseqs -> init num_rows perm c rows = Ok g ->
  exists mn mx, (c_min c = Some mn \/ (c_min c = None /\ is_min mn (lens_of num_rows (g_init_u2c g)))) /\ (c_max c = Some mx \/ (c_max c = None /\ is_max mx (lens_of num_rows (g_init_u2c g)))) /\
    at_start num_rows c mn mx g /\ g_epoch g = c_init_epoch c /\ (forall k, c_iters c = Some k -> g_iters g = k) /\ (c_iters c = None -> g_iters g = 1) /\ forall r, In r (g_init_u2c g) -> In r rows.
Proof.
  intros nr dr pm c rows g V SF M I0. destruct (init_ok nr dr pm c rows g V SF I0) as (SEL & S0 & T0 & E0 & K1 & K2 & _ & SQ). destruct (SQ M) as (mn & mx & A & B & _ & S & F & G). exists mn, mx. split; [exact A|]. split; [exact B|]. split; [split; [exact S|]; split; [exact S0|]; split; [exact T0|]; split; assumption|]. split; [exact E0|]. split; [exact K1|]. split; [apply K2; rewrite M; discriminate|]. apply (selected_in nr c rows _ SEL).
Qed.
Lemma sum_tight : forall (a b : list Z), List.length a = List.length b -> (forall i x y, nth_error a i = Some x -> nth_error b i = Some y -> x <= y) -> zsum b <= zsum a -> a = b.
Proof.
  assert (LE : forall (a b : list Z), List.length a = List.length b -> (forall i x y, nth_error a i = Some x -> nth_error b i = Some y -> x <= y) -> zsum a <= zsum b).
  { induction a as [|x a IH]; intros [|y b] L H; try discriminate. cbn. fold (zsum a) (zsum b). pose proof (H O x y eq_refl eq_refl). assert (zsum a <= zsum b); [|lia]. apply IH; [injection L as L; exact L|]. intros i. apply (H (S i)). }
  induction a as [|x a IH]; intros [|y b] L H Z; try discriminate; [reflexivity|]. cbn in Z. fold (zsum a) (zsum b) in Z. injection L as L. pose proof (H O x y eq_refl eq_refl). pose proof (LE a b L (fun i => H (S i))). f_equal; [lia|]. apply IH; [exact L|intros i; apply (H (S i))|lia].
Qed.
(** if the batches hold all the planned sub-sequences, every recording is read exactly as often as planned *)
Theorem C44_sequential_complete : forall num_rows c mn mx g H, (forall q, In q H -> exists row, nth_error (g_u2c g) (q_pos q) = Some row) ->
  (forall i row, nth_error (g_u2c g) i = Some row -> Z.of_nat (List.length (hist i H)) <= planned mn mx (c_overlap c) (num_rows (fst row))) ->
  Z.of_nat (List.length H) = zsum (map (planned mn mx (c_overlap c)) (lens_of num_rows (g_u2c g))) ->
  forall i row, nth_error (g_u2c g) i = Some row -> Z.of_nat (List.length (hist i H)) = planned mn mx (c_overlap c) (num_rows (fst row)).
Proof.
  intros nr c mn mx g H PO LE TOT i row ER. set (N := List.length (g_u2c g)). assert (BD : Forall (fun q => (q_pos q < N)%nat) H). { apply Forall_forall. intros q I. destruct (PO q I) as (r & E). apply nth_error_Some. congruence. }
  assert (NS : forall k, (k < N)%nat -> nth_error (seq 0 N) k = Some k). { intros k L. rewrite (nth_error_nth' _ O) by (rewrite seq_length; exact L). rewrite seq_nth by exact L. reflexivity. }
  assert (EQ : map (fun i => Z.of_nat (List.length (hist i H))) (seq 0 N) = map (planned mn mx (c_overlap c)) (lens_of nr (g_u2c g))).
  { apply sum_tight.
    - unfold lens_of. rewrite !map_length, seq_length. reflexivity.
    - intros k x y Ex Ey. unfold lens_of in Ey. rewrite !nth_error_map in Ey. rewrite nth_error_map in Ex. destruct (nth_error (g_u2c g) k) as [r|] eqn:Er; [|discriminate]. assert (k < N)%nat by (apply nth_error_Some; congruence). rewrite NS in Ex by assumption. cbn in Ex, Ey. injection Ex as <-. injection Ey as <-. apply LE. exact Er.
    - rewrite <- TOT. unfold zsum. rewrite (hist_sum N H BD). lia. }
  assert (Li : (i < N)%nat) by (apply nth_error_Some; congruence). assert (A : nth_error (map (fun i => Z.of_nat (List.length (hist i H))) (seq 0 N)) i = Some (Z.of_nat (List.length (hist i H)))) by (rewrite nth_error_map, NS by exact Li; reflexivity). rewrite EQ in A. unfold lens_of in A. rewrite !nth_error_map, ER in A. cbn in A. injection A as <-. reflexivity.
Qed.
(** with a non-negative overlap there are no gaps: the first j + 1 ranges of a pass cover the recording up to the end of the j-th *)
Theorem C44_walk_prefix : forall mn mx ov full ns h j r, 0 <= ov -> 1 <= ns -> 1 <= mn <= full -> walk mn mx ov full ns h -> Z.of_nat j < ns -> nth_error h j = Some r ->
  forall t, 0 <= t < fst r + snd r -> exists k p, (k <= j)%nat /\ nth_error h k = Some p /\ fst p <= t < fst p + snd p.
Proof.
  intros mn mx ov full ns h j r OV N1 MF W. revert r. induction j as [|j IH]; intros r LJ E t Ht.
  - exists O, r. split; [lia|]. split; [exact E|]. destruct (W _ _ E) as (F & _). change (Z.of_nat 0) with 0 in F. rewrite Z.mod_0_l in F by lia. cbn in F. lia.
  - destruct (Z_le_gt_dec (fst r) t) as [LT|GT]; [exists (S j), r; split; [lia|split; [exact E|lia]]|]. destruct (W _ _ E) as (F & _). rewrite Z.mod_small in F by lia. rewrite (proj2 (Z.eqb_neq _ _)) in F by lia. cbn [pred] in F. destruct (nth_error h j) as [p|] eqn:Ep; [|lia]. destruct (IH p ltac:(lia) eq_refl t ltac:(lia)) as (k & q & A & B & C). exists k, q. split; [lia|]. split; assumption.
Qed.
(** with sub-sequences of constant length, a pass covers the whole recording *)
Theorem C44_walk_cover : forall L ov full h, 0 <= ov < L -> L <= full -> walk L L ov full (planned L L ov full) h -> planned L L ov full <= Z.of_nat (List.length h) ->
  forall t, 0 <= t < full -> exists k p, nth_error h k = Some p /\ fst p <= t < fst p + snd p /\ snd p = L.
Proof.
  intros L ov full h OV LF W LH t Ht. assert (SHF : (L + L) / 2 - ov = L - ov) by (replace (L + L) with (L * 2) by lia; rewrite Z.div_mul by lia; reflexivity). set (ns := planned L L ov full) in *. assert (N1 : 1 <= ns) by (unfold ns, planned; rewrite SHF; apply ceil_div_pos; lia).
  assert (A : forall j r, Z.of_nat j < ns -> nth_error h j = Some r -> fst r = Z.min (full - L) (Z.of_nat j * (L - ov)) /\ snd r = L).
  { induction j as [|j IH]; intros r LJ E; destruct (W _ _ E) as (F & G).
    - change (Z.of_nat 0) with 0 in *. rewrite Z.mod_0_l in * by lia. cbn in F. split; [lia|]. destruct (_ =? _); lia.
    - rewrite Z.mod_small in * by lia. rewrite (proj2 (Z.eqb_neq _ 0)) in F by lia. cbn [pred] in F. destruct (nth_error h j) as [p|] eqn:Ep. 2: { apply nth_error_None in Ep. assert (S j < List.length h)%nat by (apply nth_error_Some; congruence). lia. } destruct (IH p ltac:(lia) eq_refl) as (B1 & B2). split; [nia|]. rewrite F, B1, B2 in G. destruct (_ =? _); lia. }
  set (j := Z.to_nat (ns - 1)). destruct (nth_error h j) as [r|] eqn:E. 2: { apply nth_error_None in E. lia. } destruct (A j r ltac:(lia) E) as (B1 & B2).
  assert (END : full <= fst r + snd r). { rewrite B1, B2. pose proof (ceil_div_ge full (L - ov) ltac:(lia)) as D. assert (D' : full <= ns * (L - ov)) by (unfold ns, planned; rewrite SHF; exact D). assert (J : Z.of_nat j = ns - 1) by (unfold j; apply Z2Nat.id; lia). rewrite J. clear - D' OV. assert ((ns - 1) * (L - ov) = ns * (L - ov) - L + ov) by ring. lia. }
  destruct (C44_walk_prefix L L ov full ns h j r ltac:(lia) N1 ltac:(lia) W ltac:(lia) E t ltac:(lia)) as (k & p & C1 & C2 & C3). exists k, p. split; [exact C2|]. split; [exact C3|]. apply (A k p ltac:(lia) C2).
Qed.
Print Assumptions C44_sequential. Print Assumptions C44_walk_cover. Print Assumptions C44_sequential_complete.
