(** Random and full-length batches: what is read, over any number of batches and epochs. *)
From Coq Require Import Lia Permutation.
From Verif Require Import BaseFacts Mat MatProofs Utt2Info SeqGen SeqGenProofs SeqGenRand.
Open Scope list_scope.
Open Scope Z_scope.

Section G.
Variable num_rows : string -> Z.
Variable draw : Z -> nat -> Z -> Z -> Z.
Variable perm : Z -> nat -> nat -> list nat.
Variable c : cfg.
Hypothesis V : valid_rng draw perm.
Notation lens := (lens_of num_rows).
Notation RInv := (RInv num_rows c).

(** ready to read batches of recordings one after the other round the list *)
Definition ready (g : gen) : Prop :=
  RInv g /\ (0 < List.length (g_u2c g))%nat /\ (g_seq g <= List.length (g_u2c g))%nat /\
  (match c_method c with FullSeqs => (c_batch c <= List.length (g_u2c g))%nat | RandomSubseqs => (g_seq g < List.length (g_u2c g))%nat /\ ordered num_rows c g | SequentialSubseqs => False end).
(** what a request must be *)
Definition req_ok (g : gen) (q : request) : Prop :=
  match c_method c with
  | RandomSubseqs => random_ok num_rows c g q
  | _ => q_range q = None /\ exists row, nth_error (g_u2c g) (q_pos q) = Some row /\ q_key q = fst row
  end.
Definition steps (g : gen) : Z := g_iters g * Z.of_nat (List.length (g_u2c g)) / Z.of_nat (c_batch c).

Lemma read_ready g : ready g -> (0 < c_batch c)%nat -> 1 <= steps g -> 0 <= g_step g < steps g ->
  exists qs g', read num_rows draw perm c g = Ok (qs, g') /\ ready g' /\ Forall (req_ok g) qs /\ map q_pos qs = around (List.length (g_u2c g)) (g_seq g) (c_batch c) /\
    g_init_u2c g' = g_init_u2c g /\ g_iters g' = g_iters g /\ List.length (g_u2c g') = List.length (g_u2c g) /\
    (g_step g + 1 < steps g -> g_u2c g' = g_u2c g /\ g_step g' = g_step g + 1 /\ g_epoch g' = g_epoch g /\ (g_seq g' mod List.length (g_u2c g) = (g_seq g + c_batch c) mod List.length (g_u2c g))%nat) /\
    (g_step g + 1 = steps g -> g_seq g' = O /\ g_step g' = 0 /\ g_epoch g' = g_epoch g + 1).
Proof.
  intros (RI & N0 & LS & M) B0 S1 ST. unfold read.
  assert (K : exists qs g1, (match c_method c with FullSeqs => read_full c g | RandomSubseqs => times (random_one num_rows draw) (c_batch c) g | SequentialSubseqs => times (sequential_one num_rows draw c) (c_batch c) g end) = Ok (qs, g1) /\ RInv g1 /\ frozen g g1 /\ Forall (req_ok g) qs /\ map q_pos qs = around (List.length (g_u2c g)) (g_seq g) (c_batch c) /\
      (g_seq g1 <= List.length (g_u2c g))%nat /\ (g_seq g1 mod List.length (g_u2c g) = (g_seq g + c_batch c) mod List.length (g_u2c g))%nat /\ ready g1 /\ c_method c <> SequentialSubseqs).
  { unfold ready, req_ok. destruct (c_method c) eqn:MT; [| |destruct M].
    - destruct (around_full c (g_u2c g) (g_seq g) (c_batch c) LS M N0 g eq_refl eq_refl eq_refl) as (qs & g1 & E & P & F & FZ & A1 & A2 & A3 & A4 & A5 & A6 & A7). destruct FZ as (U & FZ). exists qs, g1. split; [exact E|].
      assert (R1 : RInv g1). { destruct RI as (I & S). split; [|congruence]. apply (inv_transfer num_rows c g); try assumption. apply FZ. } split; [exact R1|]. split; [split; assumption|]. split; [exact F|]. split; [exact P|]. split; [exact A6|]. split; [exact A7|]. rewrite U. split; [split; [exact R1|split; [exact N0|split; assumption]]|discriminate].
    - destruct M as (L & O). destruct (times_total num_rows draw perm c V (c_batch c) g RI L O) as (qs & g1 & E). exists qs, g1. split; [exact E|]. destruct (times_random num_rows draw perm c V (c_batch c) g qs g1 RI L E) as (R1 & FZ & S & P & F). split; [exact R1|]. split; [exact FZ|]. split; [exact F|]. split; [exact P|]. assert (U : g_u2c g1 = g_u2c g) by apply FZ. assert (SL : (g_seq g1 < List.length (g_u2c g))%nat) by (rewrite S; apply Nat.mod_upper_bound; lia). split; [lia|]. split; [rewrite S; apply Nat.mod_mod; lia|]. rewrite U. split; [|discriminate]. split; [exact R1|]. split; [exact N0|]. split; [lia|]. split; [exact SL|]. apply (ordered_frozen num_rows c g); [apply FZ|exact O]. }
  destruct K as (qs & g1 & E & R1 & FZ & F & P & A6 & A7 & RD & NS). rewrite E. cbn [bind]. destruct FZ as (U & IU & IT & SE & EP & SU).
  assert (SP : steps_per_epoch c g1 = Ok (steps g)). { unfold steps_per_epoch, num_seqs. destruct (c_method c) eqn:MT; try (exfalso; apply NS; reflexivity); cbn [bind]; rewrite (proj2 (Nat.eqb_neq _ _)) by lia; unfold steps; rewrite IT, U; reflexivity. }
  rewrite SP. cbn [bind]. rewrite (proj2 (Z.eqb_neq (steps g) 0)) by lia. cbn [set_step g_step]. rewrite SE. destruct (Z.eq_dec (g_step g + 1) (steps g)) as [LAST|NL].
  - rewrite LAST, Z_mod_same_full. cbn [Z.eqb]. set (g2 := set_step 0 (g_epoch g1) g1). assert (R2 : RInv g2) by (destruct R1 as (I & S); split; [apply (inv_transfer num_rows c g1); try reflexivity; exact I|exact S]).
    destruct (reset_rinv num_rows draw perm c g2 V R2) as (g3 & E3 & R3 & B1 & B2 & B3 & B4 & B5). rewrite E3. cbn [bind]. assert (NL : List.length (g_u2c g3) = List.length (g_u2c g)). { rewrite (u2c_length num_rows c g3) by apply R3. rewrite B4. cbn. rewrite IU. symmetry. apply (u2c_length num_rows c g). apply RI. }
    exists qs, (set_step (g_step g3) (g_epoch g3 + 1) g3). split; [reflexivity|]. split; [|split; [exact F|split; [exact P|]]].
    + split; [destruct R3 as (I & S); split; [apply (inv_transfer num_rows c g3); try reflexivity; exact I|exact S]|]. cbn. rewrite NL, B1. split; [exact N0|]. split; [lia|]. destruct (c_method c); [exact M| |exact M]. split; [exact N0|]. apply (ordered_frozen num_rows c g); [cbn; rewrite B4; cbn; exact IU|apply M].
    + cbn. rewrite B4, B5, B1, B2, B3, NL. cbn. rewrite IU, IT, EP. repeat split; lia.
  - rewrite (Z.mod_small (g_step g + 1) (steps g)) by lia. rewrite (proj2 (Z.eqb_neq (g_step g + 1) 0)) by lia. eexists. eexists. split; [reflexivity|]. split; [|split; [exact F|split; [exact P|]]].
    + destruct RD as (_ & RD). split; [destruct R1 as (I & S); split; [apply (inv_transfer num_rows c g1); try reflexivity; exact I|exact S]|]. cbn. exact RD.
    + cbn. rewrite U, IU, IT, EP. repeat split; try lia; try exact A7; try reflexivity.
Qed.

(** requests of every later batch refer to the list as shuffled for their epoch: we state them with the recording itself *)
Definition req_good (rows : list u2row) (q : request) : Prop :=
  exists row, In row rows /\ q_key q = fst row /\
    match c_method c with
    | RandomSubseqs => exists mn mx off n, q_range q = Some (off, n) /\ (c_min c = Some mn \/ (c_min c = None /\ is_min mn (lens rows))) /\ (c_max c = Some mx \/ (c_max c = None /\ is_max mx (lens rows))) /\
        0 <= off /\ off + n <= num_rows (fst row) /\ Z.min (num_rows (fst row)) mn <= n <= Z.min (num_rows (fst row)) mx
    | _ => q_range q = None
    end.
Lemma ok_good g q : ready g -> req_ok g q -> req_good (g_init_u2c g) q.
Proof.
  intros ((I & _) & _ & _ & M) R. unfold req_ok in R. unfold req_good. pose proof (inv_perm _ _ _ I) as P. destruct (c_method c); [| |destruct M].
  - destruct R as (R & row & E & K). exists row. split; [apply (Permutation_in _ P), (nth_error_In _ _ E)|]. split; assumption.
  - destruct R as (row & mn & mx & off & n & E & K & Rg & X). exists row. split; [apply (Permutation_in _ P), (nth_error_In _ _ E)|]. split; [exact K|]. exists mn, mx, off, n. split; [exact Rg|exact X].
Qed.
Lemma reads_ready n : forall g, ready g -> (0 < c_batch c)%nat -> 1 <= steps g -> 0 <= g_step g < steps g ->
  exists qss g', reads num_rows draw perm c n g = Ok (qss, g') /\ ready g' /\ g_init_u2c g' = g_init_u2c g /\ steps g' = steps g /\ 0 <= g_step g' < steps g /\ Forall (fun qs => List.length qs = c_batch c /\ Forall (req_good (g_init_u2c g)) qs) qss /\ List.length qss = n /\
    g_epoch g' * steps g + g_step g' = g_epoch g * steps g + g_step g + Z.of_nat n.
Proof.
  induction n as [|n IH]; intros g R B0 S1 ST; cbn [reads].
  - exists [], g. split; [reflexivity|]. split; [exact R|]. split; [reflexivity|]. split; [reflexivity|]. split; [exact ST|]. split; [constructor|]. split; [reflexivity|]. lia.
  - destruct (read_ready g R B0 S1 ST) as (qs & g1 & E & R1 & F & P & A1 & A2 & A3 & A4 & A5). rewrite E. cbn [bind]. assert (SE : steps g1 = steps g) by (unfold steps; rewrite A2, A3; reflexivity).
    assert (ST1 : 0 <= g_step g1 < steps g1 /\ g_epoch g1 * steps g + g_step g1 = g_epoch g * steps g + g_step g + 1) by (rewrite SE; destruct (Z.eq_dec (g_step g + 1) (steps g)) as [Q|Q]; [destruct (A5 Q) as (_ & -> & ->); lia|destruct A4 as (_ & -> & -> & _); lia]).
    destruct ST1 as (ST1 & EQ1). destruct (IH g1 R1 B0 ltac:(lia) ST1) as (qss & g2 & E2 & R2 & B1 & B2 & B3 & B4 & B5 & B6). rewrite E2. cbn [bind]. exists (qs :: qss), g2. split; [reflexivity|]. split; [exact R2|]. split; [congruence|]. split; [congruence|]. split; [lia|]. split; [|split; [cbn; congruence|rewrite SE in *; lia]].
    constructor; [|rewrite <- A1; exact B4]. split; [rewrite <- (map_length q_pos), P; unfold around; rewrite map_length, seq_length; reflexivity|]. eapply Forall_impl; [|exact F]. intros q. apply ok_good. exact R.
Qed.
(** positions within one epoch *)
Lemma epoch_positions n : forall g qss g', ready g -> (0 < c_batch c)%nat -> 1 <= steps g -> 0 <= g_step g -> g_step g + Z.of_nat n <= steps g -> reads num_rows draw perm c n g = Ok (qss, g') ->
  map q_pos (concat qss) = around (List.length (g_u2c g)) (g_seq g) (n * c_batch c) /\ Forall (fun q => exists row, nth_error (g_u2c g) (q_pos q) = Some row /\ q_key q = fst row) (concat qss) /\
  (g_step g + Z.of_nat n = steps g -> (0 < n)%nat -> g_seq g' = O /\ g_step g' = 0 /\ g_epoch g' = g_epoch g + 1).
Proof.
  induction n as [|n IH]; intros g qss g' R B0 S1 S0 SN H; cbn [reads] in H.
  - injection H as <- <-. split; [reflexivity|]. split; [constructor|]. intros _ X. lia.
  - destruct (read_ready g R B0 S1 ltac:(lia)) as (qs & g1 & E & R1 & F & P & A1 & A2 & A3 & A4 & A5). rewrite E in H. cbn [bind] in H. destruct (reads _ _ _ _ n g1) as [(qss1 & g2)|] eqn:E2; [|discriminate]. cbn [bind] in H. injection H as <- <-. assert (SE : steps g1 = steps g) by (unfold steps; rewrite A2, A3; reflexivity).
    assert (FQ : Forall (fun q => exists row, nth_error (g_u2c g) (q_pos q) = Some row /\ q_key q = fst row) qs). { eapply Forall_impl; [|exact F]. intros q RQ. unfold req_ok in RQ. destruct (c_method c); [apply RQ| |apply RQ]. destruct RQ as (row & mn & mx & off & m & X1 & X2 & _). exists row. split; assumption. }
    destruct (Z.eq_dec (g_step g + 1) (steps g)) as [Q|Q].
    + assert (n = O) by lia. subst n. cbn [reads] in E2. injection E2 as <- <-. cbn [concat]. rewrite app_nil_r, Nat.mul_1_l. split; [exact P|]. split; [exact FQ|]. intros _ _. apply A5. exact Q.
    + destruct A4 as (B1 & B2 & B3 & B4); [lia|]. destruct (IH g1 qss1 g2 R1 B0 ltac:(lia) ltac:(lia) ltac:(rewrite SE; lia) E2) as (P1 & F1 & L1). rewrite B1 in P1, F1. cbn [concat]. rewrite map_app, P, P1. split; [|split; [apply Forall_app; split; assumption|]].
      * replace (S n * c_batch c)%nat with (c_batch c + n * c_batch c)%nat by lia. unfold around. rewrite seq_app, map_app. f_equal. set (N := List.length (g_u2c g)) in *. assert (N0 : (0 < N)%nat) by apply R. apply nth_error_ext. intros k. rewrite !nth_error_map. assert (NS : forall s m j, nth_error (seq s m) j = if (j <? m)%nat then Some (s + j)%nat else None). { intros s m j. destruct (Nat.ltb_spec j m) as [W|W]; [rewrite (nth_error_nth' _ O) by (rewrite seq_length; exact W); rewrite seq_nth by exact W; reflexivity|apply nth_error_None; rewrite seq_length; exact W]. } rewrite !NS. destruct (k <? n * c_batch c)%nat; [|reflexivity]. cbn. f_equal. rewrite <- (Nat.add_mod_idemp_l (g_seq g1)), B4, Nat.add_mod_idemp_l by lia. reflexivity.
      * intros L _. rewrite SE in L1. destruct (L1 ltac:(lia) ltac:(lia)) as (C1 & C2 & C3). repeat split; try assumption. lia.
Qed.
End G.

(** ** Random sub-sequences. For the safe settings, and limits in order, the generator never fails, and every sub-sequence it asks for, in
    any batch of any epoch, is inside its recording with a length between the limits (or the whole recording if shorter). *)
Theorem C44_random : forall num_rows draw perm c rows g0 n, valid_rng draw perm -> safe c -> c_method c = RandomSubseqs -> (0 < c_batch c)%nat ->
  (forall mn mx, (c_min c = Some mn \/ (c_min c = None /\ is_min mn (lens_of num_rows (g_init_u2c g0)))) -> (c_max c = Some mx \/ (c_max c = None /\ is_max mx (lens_of num_rows (g_init_u2c g0)))) -> mn <= mx) ->
  init num_rows perm c rows = Ok g0 -> Z.of_nat (c_batch c) <= g_iters g0 * Z.of_nat (List.length (g_init_u2c g0)) ->
  exists qss g, reads num_rows draw perm c n g0 = Ok (qss, g) /\ List.length qss = n /\
    Forall (fun qs => List.length qs = c_batch c /\ Forall (fun q => exists row mn mx off len, In row (g_init_u2c g0) /\ q_key q = fst row /\ q_range q = Some (off, len) /\
      (c_min c = Some mn \/ (c_min c = None /\ is_min mn (lens_of num_rows (g_init_u2c g0)))) /\ (c_max c = Some mx \/ (c_max c = None /\ is_max mx (lens_of num_rows (g_init_u2c g0)))) /\
      0 <= off /\ off + len <= num_rows (fst row) /\ Z.min (num_rows (fst row)) mn <= len <= Z.min (num_rows (fst row)) mx) qs) qss.
Proof.
  intros nr dr pm c rows g0 n V SF MT B0 O I0 ST. destruct (init_ok nr dr pm c rows g0 V SF I0) as (SEL & S0 & T0 & E0 & K1 & K2 & RI & _). specialize (RI ltac:(rewrite MT; discriminate)).
  assert (UL : List.length (g_u2c g0) = List.length (g_init_u2c g0)) by (apply (u2c_length nr c); apply RI). assert (N0 : (0 < List.length (g_u2c g0))%nat) by (rewrite UL; destruct (g_init_u2c g0); [cbn in ST; lia|cbn; lia]).
  assert (RD : ready nr c g0). { unfold ready. rewrite MT, S0. split; [exact RI|]. split; [exact N0|]. split; [lia|]. split; [exact N0|]. intros mn mx X Y. apply O; assumption. }
  assert (S1 : 1 <= steps c g0) by (unfold steps; rewrite UL; apply Z.div_le_lower_bound; lia).
  destruct (reads_ready nr dr pm c V n g0 RD B0 S1 ltac:(rewrite T0; lia)) as (qss & g & E & _ & _ & _ & _ & F & L & _). exists qss, g. split; [exact E|]. split; [exact L|]. eapply Forall_impl; [|exact F]. intros qs (Lq & Fq). split; [exact Lq|]. eapply Forall_impl; [|exact Fq]. intros q (row & Ir & K & R). rewrite MT in R. destruct R as (mn & mx & off & len & R). exists row, mn, mx, off, len. split; [exact Ir|]. split; [exact K|exact R].
Qed.

(** ** One epoch goes round the (shuffled) list: the t-th sub-sequence comes from the recording at position t modulo the number of
    recordings; after steps_per_epoch batches the next epoch starts. *)
Theorem C44_epoch : forall num_rows draw perm c g n qss g', valid_rng draw perm -> ready num_rows c g -> g_seq g = O -> g_step g = 0 -> (0 < c_batch c)%nat -> 1 <= steps c g -> Z.of_nat n <= steps c g ->
  reads num_rows draw perm c n g = Ok (qss, g') ->
  (forall t q, nth_error (concat qss) t = Some q -> exists row, nth_error (g_u2c g) (t mod List.length (g_u2c g)) = Some row /\ q_key q = fst row) /\ List.length (concat qss) = (n * c_batch c)%nat /\
  Permutation (g_u2c g) (g_init_u2c g) /\ (Z.of_nat n = steps c g -> ready num_rows c g' /\ g_seq g' = O /\ g_step g' = 0 /\ g_epoch g' = g_epoch g + 1 /\ g_init_u2c g' = g_init_u2c g).
Proof.
  intros nr dr pm c g n qss g' V R S0 T0 B0 S1 SN H. destruct (epoch_positions nr dr pm c V n g qss g' R B0 S1 ltac:(lia) ltac:(lia) H) as (P & F & L). rewrite S0 in P.
  split; [|split; [|split]].
  - intros t q E. assert (Et : nth_error (map q_pos (concat qss)) t = Some (q_pos q)) by (rewrite nth_error_map, E; reflexivity). rewrite P in Et. unfold around in Et. rewrite nth_error_map in Et. rewrite Forall_forall in F. destruct (F q (nth_error_In _ _ E)) as (row & Er & K). exists row. split; [|exact K]. destruct (nth_error (seq 0 (n * c_batch c)) t) as [t'|] eqn:Es; [|discriminate]. cbn in Et. injection Et as Et. assert (t' = t). { assert (Lt : (t < List.length (seq 0 (n * c_batch c)))%nat) by (apply nth_error_Some; congruence). rewrite seq_length in Lt. rewrite (nth_error_nth' _ O) in Es by (rewrite seq_length; exact Lt). rewrite seq_nth in Es by exact Lt. injection Es as <-. reflexivity. } subst t'. rewrite Et. exact Er.
  - rewrite <- (map_length q_pos), P. unfold around. rewrite map_length, seq_length. reflexivity.
  - apply (inv_perm nr c). apply R.
  - intros Q. assert (N1 : (0 < n)%nat) by lia. destruct (L ltac:(lia) N1) as (A & B & C'). destruct (reads_ready nr dr pm c V n g R B0 S1 ltac:(lia)) as (qss2 & g2 & E & R2 & I2 & _). rewrite E in H. injection H as <- <-. split; [exact R2|]. split; [exact A|]. split; [exact B|]. split; [exact C'|exact I2].
Qed.
(** the generator starts at the beginning of an epoch *)
Theorem C44_init_epoch : forall num_rows draw perm c rows g0, valid_rng draw perm -> safe c -> c_method c <> SequentialSubseqs -> init num_rows perm c rows = Ok g0 -> g_init_u2c g0 <> [] ->
  (c_method c = FullSeqs -> (c_batch c <= List.length (g_init_u2c g0))%nat) ->
  (c_method c = RandomSubseqs -> forall mn mx, (c_min c = Some mn \/ (c_min c = None /\ is_min mn (lens_of num_rows (g_init_u2c g0)))) -> (c_max c = Some mx \/ (c_max c = None /\ is_max mx (lens_of num_rows (g_init_u2c g0)))) -> mn <= mx) ->
  ready num_rows c g0 /\ g_seq g0 = O /\ g_step g0 = 0 /\ g_epoch g0 = c_init_epoch c /\ (forall r, In r (g_init_u2c g0) -> In r rows).
Proof.
  intros nr dr pm c rows g0 V SF MS I0 NE BF O. destruct (init_ok nr dr pm c rows g0 V SF I0) as (SEL & S0 & T0 & E0 & K1 & K2 & RI & _). specialize (RI MS). assert (UL : List.length (g_u2c g0) = List.length (g_init_u2c g0)) by (apply (u2c_length nr c); apply RI). assert (N0 : (0 < List.length (g_u2c g0))%nat) by (rewrite UL; destruct (g_init_u2c g0); [contradiction|cbn; lia]).
  split; [|repeat split; try assumption; apply (selected_in nr c rows _ SEL)]. unfold ready. rewrite S0. split; [exact RI|]. split; [exact N0|]. split; [lia|]. destruct (c_method c); [rewrite UL; apply BF; reflexivity|split; [exact N0|intros mn mx X Y; apply O; [reflexivity|exact X|exact Y]]|contradiction].
Qed.
