(** Random and full-length batches of SequenceBatchGeneratorV1. *)
From Coq Require Import Lia Permutation.
From Verif Require Import BaseFacts Mat MatProofs Utt2Info SeqGen SeqGenProofs.
Open Scope list_scope.
Open Scope Z_scope.

Section G.
Variable num_rows : string -> Z.
Variable draw : Z -> nat -> Z -> Z -> Z.
Variable perm : Z -> nat -> nat -> list nat.
Variable c : cfg.
Hypothesis V : valid_rng draw perm.
Notation lens := (lens_of num_rows).
Notation Inv := (Inv num_rows c).
Notation RInv := (RInv num_rows c).
Notation eff_min := (eff_min num_rows c).
Notation eff_max := (eff_max num_rows c).

(** the sub-sequence asked for lies inside the recording and has a length within the limits *)
Definition random_ok (g : gen) (q : request) : Prop :=
  exists row mn mx off n, nth_error (g_u2c g) (q_pos q) = Some row /\ q_key q = fst row /\ q_range q = Some (off, n) /\ eff_min g mn /\ eff_max g mx /\
    0 <= off /\ off + n <= num_rows (fst row) /\ Z.min (num_rows (fst row)) mn <= n <= Z.min (num_rows (fst row)) mx.
Definition frozen (g g' : gen) : Prop := g_u2c g' = g_u2c g /\ g_init_u2c g' = g_init_u2c g /\ g_iters g' = g_iters g /\ g_step g' = g_step g /\ g_epoch g' = g_epoch g /\ g_subs g' = g_subs g.
Lemma frozen_refl g : frozen g g. Proof. repeat split. Qed.
Lemma frozen_trans a b d : frozen a b -> frozen b d -> frozen a d.
Proof. unfold frozen. intros A B. repeat match goal with H : _ /\ _ |- _ => destruct H end. repeat split; congruence. Qed.

Lemma random_one_ok g q g' : RInv g -> random_one num_rows draw g = Ok (q, g') -> RInv g' /\ frozen g g' /\ g_seq g' = ((g_seq g + 1) mod List.length (g_u2c g))%nat /\ q_pos q = g_seq g /\ random_ok g q.
Proof.
  intros (I & S) H. unfold random_one, at_ in H. destruct (nth_error (g_u2c g) (g_seq g)) as [row|] eqn:ER; [|discriminate]. cbn [bind] in H.
  pose proof (seq_lengths_ok num_rows c g I) as SL. destruct (seq_lengths num_rows g) as (l & g1). cbn zeta in SL. cbn [fst snd] in SL. destruct SL as (-> & I1 & C1 & _).
  assert (Q1 : g_seq g1 = g_seq g) by apply C1. rewrite Q1 in H. unfold lens_of in H. rewrite nth_error_map, ER in H. cbn [option_map bind] in H.
  destruct (max_len num_rows g1) as [(mx & g2)|] eqn:MX; [|discriminate]. cbn [bind] in H. destruct (min_len num_rows g2) as [(mn & g3)|] eqn:MN; [|discriminate]. cbn [bind] in H.
  destruct (max_len_ok _ _ _ _ _ I1 MX) as (X & I2 & C2 & _). destruct (min_len_ok _ _ _ _ _ I2 MN) as (Y & I3 & C3 & _). set (full := num_rows (fst row)) in *.
  unfold randint in H. destruct (Z.ltb_spec (Z.min full mn) (Z.min full mx + 1)) as [L1|]; [|discriminate]. cbn [bind fst snd set_rng g_rng] in H. set (n := draw _ _ _ _) in H. assert (Bn : Z.min full mn <= n < Z.min full mx + 1) by (apply V; exact L1). clearbody n.
  destruct (Z.ltb_spec 0 (full - n + 1)) as [L2|]; [|discriminate]. cbn [bind] in H. set (off := draw _ _ _ _) in H. assert (Bo : 0 <= off < full - n + 1) by (apply V; exact L2). clearbody off. injection H as <- <-.
  pose proof (same_core_trans _ _ _ (same_core_trans _ _ _ C1 C2) C3) as D. pose proof (same_core_trans _ _ _ C1 C2) as D2. destruct D as (B1 & B2 & B3 & B4 & B5 & B6 & B7 & B8 & B9 & B10 & B11).
  split; [split; [apply (inv_transfer num_rows c g3); try reflexivity; exact I3|cbn; congruence]|]. split; [repeat split; cbn; assumption|]. split; [cbn; unfold next_seq, num_seqs; cbn; rewrite B1, B7; reflexivity|]. split; [cbn; exact B7|].
  exists row, mn, mx, off, n. cbn. rewrite B7. split; [exact ER|]. split; [reflexivity|]. split; [reflexivity|]. destruct C1 as (_ & E1 & _). destruct D2 as (_ & E2 & _). rewrite E1 in X. rewrite E2 in Y. split; [exact Y|]. split; [exact X|]. fold full. lia.
Qed.
Lemma random_ok_frozen g g' q : frozen g g' -> random_ok g q -> random_ok g' q.
Proof. intros (A & B & _) (row & mn & mx & off & n & H). exists row, mn, mx, off, n. unfold SeqGenProofs.eff_min, SeqGenProofs.eff_max in *. rewrite A, B. exact H. Qed.
Lemma seqs_mod N b : (0 < N)%nat -> forall q, (q < N)%nat -> map (fun t => (t mod N)%nat) (seq q (S b)) = q :: map (fun t => (t mod N)%nat) (seq ((q + 1) mod N) b).
Proof.
  intros N0 q L. cbn [seq map]. rewrite Nat.mod_small by exact L. f_equal. replace (S q) with (q + 1)%nat by lia. apply nth_error_ext. intros k. rewrite !nth_error_map. assert (NS : forall s m j, nth_error (seq s m) j = if (j <? m)%nat then Some (s + j)%nat else None). { intros s m j. destruct (Nat.ltb_spec j m) as [Q|Q]; [rewrite (nth_error_nth' _ O) by (rewrite seq_length; exact Q); rewrite seq_nth by exact Q; reflexivity|apply nth_error_None; rewrite seq_length; exact Q]. }
  rewrite !NS. destruct (k <? b)%nat; [|reflexivity]. cbn. f_equal. rewrite Nat.add_mod_idemp_l by lia. reflexivity.
Qed.
Lemma times_random b : forall g qs g', RInv g -> (g_seq g < List.length (g_u2c g))%nat -> times (random_one num_rows draw) b g = Ok (qs, g') ->
  RInv g' /\ frozen g g' /\ g_seq g' = ((g_seq g + b) mod List.length (g_u2c g))%nat /\ map q_pos qs = map (fun t => (t mod List.length (g_u2c g))%nat) (seq (g_seq g) b) /\ Forall (random_ok g) qs.
Proof.
  induction b as [|b IH]; intros g qs g' I L H; cbn [times] in H.
  - injection H as <- <-. split; [exact I|]. split; [apply frozen_refl|]. split; [rewrite Nat.add_0_r, Nat.mod_small by exact L; reflexivity|]. split; [reflexivity|constructor].
  - destruct (random_one num_rows draw g) as [(q & g1)|] eqn:E1; [|discriminate]. cbn [bind] in H. destruct (times _ b g1) as [(qs1 & g2)|] eqn:E2; [|discriminate]. cbn [bind] in H. injection H as <- <-.
    destruct (random_one_ok g q g1 I E1) as (I1 & F1 & S1 & P1 & R1). assert (U1 : g_u2c g1 = g_u2c g) by apply F1.
    destruct (IH g1 qs1 g2 I1) as (I2 & F2 & S2 & P2 & R2); [rewrite S1, U1; apply Nat.mod_upper_bound; lia|exact E2|]. rewrite U1, S1 in *.
    split; [exact I2|]. split; [apply (frozen_trans _ _ _ F1 F2)|]. split; [rewrite S2, Nat.add_mod_idemp_l by lia; f_equal; lia|]. split.
    + cbn [map]. rewrite P1, P2. symmetry. apply seqs_mod; lia.
    + constructor; [exact R1|]. eapply Forall_impl; [|exact R2]. intros q' Rq. apply (random_ok_frozen g1 g); [|exact Rq]. unfold frozen in *. repeat match goal with X : _ /\ _ |- _ => destruct X end. repeat split; congruence.
Qed.
(** ** Nothing fails when the limits are in order *)
Lemma zmin_total l : l <> [] -> exists m, zmin l = Ok m.
Proof. destruct l; [contradiction|]. intros _. eexists. reflexivity. Qed.
Lemma zmax_total l : l <> [] -> exists m, zmax l = Ok m.
Proof. destruct l; [contradiction|]. intros _. eexists. reflexivity. Qed.
Lemma min_len_total g : Inv g -> g_u2c g <> [] -> exists m g', min_len num_rows g = Ok (m, g').
Proof.
  intros I N. unfold min_len. destruct (g_min g) as [m|]; [exists m, g; reflexivity|]. pose proof (seq_lengths_ok num_rows c g I) as SL. destruct (seq_lengths num_rows g) as (l & g1). cbn zeta in SL. cbn [fst snd] in SL. destruct SL as (-> & _). destruct (zmin_total (lens (g_u2c g))) as (m & ->); [destruct (g_u2c g); [contradiction|discriminate]|]. eexists. eexists. reflexivity.
Qed.
Lemma max_len_total g : Inv g -> g_u2c g <> [] -> exists m g', max_len num_rows g = Ok (m, g').
Proof.
  intros I N. unfold max_len. destruct (g_max g) as [m|]; [exists m, g; reflexivity|]. pose proof (seq_lengths_ok num_rows c g I) as SL. destruct (seq_lengths num_rows g) as (l & g1). cbn zeta in SL. cbn [fst snd] in SL. destruct SL as (-> & _). destruct (zmax_total (lens (g_u2c g))) as (m & ->); [destruct (g_u2c g); [contradiction|discriminate]|]. eexists. eexists. reflexivity.
Qed.
Definition ordered (g : gen) : Prop := forall mn mx, eff_min g mn -> eff_max g mx -> mn <= mx.
Lemma random_one_total g : RInv g -> (g_seq g < List.length (g_u2c g))%nat -> ordered g -> exists q g', random_one num_rows draw g = Ok (q, g').
Proof.
  intros (I & S) L O. unfold random_one, at_. destruct (nth_error (g_u2c g) (g_seq g)) as [row|] eqn:ER; [|apply nth_error_None in ER; lia]. cbn [bind].
  pose proof (seq_lengths_ok num_rows c g I) as SL. destruct (seq_lengths num_rows g) as (l & g1). cbn zeta in SL. cbn [fst snd] in SL. destruct SL as (-> & I1 & C1 & _).
  assert (Q1 : g_seq g1 = g_seq g) by apply C1. rewrite Q1. unfold lens_of. rewrite nth_error_map, ER. cbn [option_map bind]. assert (N : g_u2c g1 <> []) by (replace (g_u2c g1) with (g_u2c g) by (symmetry; apply C1); destruct (g_u2c g); [cbn in L; lia|discriminate]).
  destruct (max_len_total g1 I1 N) as (mx & g2 & MX). rewrite MX. cbn [bind]. destruct (max_len_ok _ _ _ _ _ I1 MX) as (X & I2 & C2 & _). destruct (min_len_total g2 I2) as (mn & g3 & MN); [replace (g_u2c g2) with (g_u2c g1) by (symmetry; apply C2); exact N|]. rewrite MN. cbn [bind]. destruct (min_len_ok _ _ _ _ _ I2 MN) as (Y & I3 & C3 & _).
  pose proof (same_core_trans _ _ _ C1 C2) as D2. destruct C1 as (_ & E1 & _). destruct D2 as (_ & E2 & _). rewrite E1 in X. rewrite E2 in Y. pose proof (O mn mx Y X) as LE. set (full := num_rows (fst row)).
  unfold randint. rewrite (proj2 (Z.ltb_lt _ _)) by lia. cbn [bind fst snd set_rng g_rng]. set (n := draw _ _ _ _). assert (Bn : Z.min full mn <= n < Z.min full mx + 1) by (apply V; lia). rewrite (proj2 (Z.ltb_lt 0 (full - n + 1))) by lia. cbn [bind]. eexists. eexists. reflexivity.
Qed.
Lemma ordered_frozen g g' : g_init_u2c g' = g_init_u2c g -> ordered g -> ordered g'.
Proof. intros B O mn mx. unfold SeqGenProofs.eff_min, SeqGenProofs.eff_max. rewrite B. apply O. Qed.
Lemma times_total b : forall g, RInv g -> (g_seq g < List.length (g_u2c g))%nat -> ordered g -> exists qs g', times (random_one num_rows draw) b g = Ok (qs, g').
Proof.
  induction b as [|b IH]; intros g I L O; cbn [times]; [eexists; eexists; reflexivity|]. destruct (random_one_total g I L O) as (q & g1 & E). rewrite E. cbn [bind]. destruct (random_one_ok g q g1 I E) as (I1 & F1 & S1 & _). destruct (IH g1 I1) as (qs & g2 & E2); [rewrite S1; replace (g_u2c g1) with (g_u2c g) by (symmetry; apply F1); apply Nat.mod_upper_bound; lia|apply (ordered_frozen g); [apply F1|exact O]|]. rewrite E2. eexists. eexists. reflexivity.
Qed.

(** ** Whole sequences *)
(** positions t, t+1, ... round the list *)
Definition around (N t b : nat) : list nat := map (fun k => (k mod N)%nat) (seq t b).
Lemma around_full (rows : list u2row) (t b : nat) : (t <= List.length rows)%nat -> (b <= List.length rows)%nat -> (0 < List.length rows)%nat ->
  forall g, g_u2c g = rows -> g_seq g = t -> c_batch c = b -> exists qs g', read_full c g = Ok (qs, g') /\ map q_pos qs = around (List.length rows) t b /\ Forall (fun q => q_range q = None /\ exists row, nth_error rows (q_pos q) = Some row /\ q_key q = fst row) qs /\
    frozen g g' /\ g_lens g' = g_lens g /\ g_init_lens g' = g_init_lens g /\ g_min g' = g_min g /\ g_max g' = g_max g /\ g_init_subs g' = g_init_subs g /\ (g_seq g' <= List.length rows)%nat /\ (g_seq g' mod List.length rows = (t + b) mod List.length rows)%nat.
Proof.
  intros Lt Lb N0 g EU ES EB. unfold read_full. rewrite EU, ES, EB. set (N := List.length rows) in *. set (tag := fun (k : nat) (r : list u2row) => map (fun p : nat * u2row => mk_req (fst p) (fst (snd p)) None) (combine (seq k (List.length r)) r)).
  assert (TP : forall k r, map q_pos (tag k r) = seq k (List.length r)). { intros k r. unfold tag. rewrite map_map. cbn [q_pos]. revert k. induction r as [|x r IH]; intros k; [reflexivity|]. cbn. f_equal. apply IH. }
  assert (TL : forall k r, List.length (tag k r) = List.length r) by (intros k r; unfold tag; rewrite map_length, combine_length, seq_length; lia).
  assert (TK : forall k r, (forall j x, nth_error r j = Some x -> nth_error rows (k + j) = Some x) -> Forall (fun q => q_range q = None /\ exists row, nth_error rows (q_pos q) = Some row /\ q_key q = fst row) (tag k r)).
  { intros k r. revert k. induction r as [|x r IH]; intros k Hr; [constructor|]. unfold tag. cbn [List.length seq combine map fst snd]. constructor; [split; [reflexivity|]; exists x; split; [pose proof (Hr O x eq_refl) as Y; rewrite Nat.add_0_r in Y; exact Y|reflexivity]|]. apply (IH (S k)). intros j y Ej. replace (S k + j)%nat with (k + S j)%nat by lia. apply Hr. exact Ej. }
  assert (F1 : forall k m j x, nth_error (firstn m (skipn k rows)) j = Some x -> nth_error rows (k + j) = Some x). { intros k m j x E. rewrite nth_error_firstn in E. destruct (j <? m)%nat; [|discriminate]. rewrite nth_error_skipn in E. exact E. }
  fold (tag t (firstn b (skipn t rows))). rewrite TL, firstn_length, skipn_length. fold N. destruct (Nat.ltb_spec (Nat.min b (N - t)) b) as [Q|Q].
  - set (d := (b - Nat.min b (N - t))%nat). fold (tag O (firstn d rows)). rewrite app_length, !TL, !firstn_length, skipn_length. fold N. assert (LE : (Nat.min b (N - t) + Nat.min d N =? b)%nat = true) by (apply Nat.eqb_eq; unfold d; lia). rewrite LE. cbn [assert bind]. eexists. eexists. split; [reflexivity|]. split.
    + rewrite map_app, !TP, !firstn_length, skipn_length. fold N. unfold around. replace (seq t b) with (seq t (Nat.min b (N - t)) ++ seq (t + Nat.min b (N - t)) d) by (rewrite <- seq_app; f_equal; unfold d; lia). rewrite map_app. f_equal.
      * symmetry. rewrite <- (map_id (seq t (Nat.min b (N - t)))) at 2. apply map_ext_in. intros k I. apply in_seq in I. apply Nat.mod_small. lia.
      * replace (t + Nat.min b (N - t))%nat with N by lia. replace (Nat.min d N) with d by (unfold d; lia). rewrite <- (map_id (seq 0 d)). apply nth_error_ext. intros k. rewrite !nth_error_map. assert (NS : forall s m j, nth_error (seq s m) j = if (j <? m)%nat then Some (s + j)%nat else None). { intros s m j. destruct (Nat.ltb_spec j m) as [Z|Z]; [rewrite (nth_error_nth' _ O) by (rewrite seq_length; exact Z); rewrite seq_nth by exact Z; reflexivity|apply nth_error_None; rewrite seq_length; exact Z]. } rewrite !NS. destruct (Nat.ltb_spec k d) as [Kd|Kd]; [|reflexivity]. cbn. f_equal. replace (N + k)%nat with (k + 1 * N)%nat by lia. rewrite Nat.mod_add by lia. symmetry. apply Nat.mod_small. unfold d in Kd. lia.
    + split; [apply Forall_app; split; apply TK; [intros j x E; apply (F1 t b j x E)|intros j x E; apply (F1 O d j x); exact E]|]. split; [repeat split|]. cbn. repeat split; [unfold d; lia|]. replace (t + b)%nat with (d + 1 * N)%nat by (unfold d; lia). rewrite Nat.mod_add by lia. reflexivity.
  - eexists. eexists. split; [reflexivity|]. split.
    + rewrite TP, firstn_length, skipn_length. fold N. replace (Nat.min b (N - t)) with b by lia. unfold around. rewrite <- (map_id (seq t b)) at 1. apply map_ext_in. intros k I. apply in_seq in I. symmetry. apply Nat.mod_small. lia.
    + split; [apply TK; intros j x E; apply (F1 t b j x E)|]. split; [repeat split|]. cbn. repeat split. lia.
Qed.
End G.
