(** Facts about the states of the batch generator (SequenceBatchGeneratorV1). *)
From Coq Require Import Lia Permutation.
From Verif Require Import BaseFacts Mat MatProofs Utt2Info SeqGen.
Open Scope list_scope.
Open Scope Z_scope.

(** ** Specification *)
(** rng.randint returns a value in the range; rng.shuffle permutes *)
Definition valid_rng (draw : Z -> nat -> Z -> Z -> Z) (perm : Z -> nat -> nat -> list nat) : Prop :=
  (forall s k lo hi, lo < hi -> lo <= draw s k lo hi < hi) /\ (forall s k n, Permutation (perm s k n) (seq 0 n)).
Definition lens_of (num_rows : string -> Z) (rows : list u2row) : list Z := map (fun r => num_rows (fst r)) rows.
Definition is_min (m : Z) (l : list Z) : Prop := In m l /\ forall x, In x l -> m <= x.
Definition is_max (m : Z) (l : list Z) : Prop := In m l /\ forall x, In x l -> x <= m.
(** the settings for which the generator does not use stale lengths (see the _refuted theorems for the others) *)
Definition safe (c : cfg) : Prop :=
  c_prune c <= 0 \/ (c_balance c = None /\ (c_shuffle c = false \/ c_method c = SequentialSubseqs \/ (c_method c = RandomSubseqs /\ c_iters c = None))).

Lemma fold_max_spec l : forall x, let m := fold_left Z.max l x in (m = x \/ In m l) /\ x <= m /\ forall y, In y l -> y <= m.
Proof. induction l as [|y l IH]; intros x; cbn; [split; [left; reflexivity|split; [lia|intros ? []]]|]. destruct (IH (Z.max x y)) as (A & B & C). split; [|split; [lia|intros z [->|I]; [lia|apply C; exact I]]]. destruct A as [A|A]; [|right; right; exact A]. rewrite A. destruct (Z.max_spec x y) as [(_ & ->)|(_ & ->)]; [right; left; reflexivity|left; reflexivity]. Qed.
Lemma fold_min_spec l : forall x, let m := fold_left Z.min l x in (m = x \/ In m l) /\ m <= x /\ forall y, In y l -> m <= y.
Proof. induction l as [|y l IH]; intros x; cbn; [split; [left; reflexivity|split; [lia|intros ? []]]|]. destruct (IH (Z.min x y)) as (A & B & C). split; [|split; [lia|intros z [->|I]; [lia|apply C; exact I]]]. destruct A as [A|A]; [|right; right; exact A]. rewrite A. destruct (Z.min_spec x y) as [(_ & ->)|(_ & ->)]; [left; reflexivity|right; left; reflexivity]. Qed.
Lemma zmax_ok l m : zmax l = Ok m -> is_max m l.
Proof. destruct l as [|x l]; [discriminate|]. cbn. intros H. injection H as <-. destruct (fold_max_spec l x) as (A & B & C). split; [cbn; destruct A as [A|A]; [left; symmetry; exact A|right; exact A]|intros y [->|I]; [exact B|apply C; exact I]]. Qed.
Lemma zmin_ok l m : zmin l = Ok m -> is_min m l.
Proof. destruct l as [|x l]; [discriminate|]. cbn. intros H. injection H as <-. destruct (fold_min_spec l x) as (A & B & C). split; [cbn; destruct A as [A|A]; [left; symmetry; exact A|right; exact A]|intros y [->|I]; [exact B|apply C; exact I]]. Qed.
Lemma is_max_perm m l l' : Permutation l l' -> is_max m l -> is_max m l'.
Proof. intros P (A & B). split; [apply (Permutation_in _ P A)|]. intros x I. apply B. apply (Permutation_in _ (Permutation_sym P) I). Qed.
Lemma is_min_perm m l l' : Permutation l l' -> is_min m l -> is_min m l'.
Proof. intros P (A & B). split; [apply (Permutation_in _ P A)|]. intros x I. apply B. apply (Permutation_in _ (Permutation_sym P) I). Qed.

Section G.
Variable num_rows : string -> Z.
Variable draw : Z -> nat -> Z -> Z -> Z.
Variable perm : Z -> nat -> nat -> list nat.
Variable c : cfg.
Notation lens := (lens_of num_rows).

(** ** The cached lengths belong to the current order of the list *)
Record Inv (g : gen) : Prop := mk_inv {
  inv_perm : Permutation (g_u2c g) (g_init_u2c g);
  inv_none : g_lens g = None -> g_u2c g = g_init_u2c g /\ (c_shuffle c = true -> g_init_lens g = None);
  inv_some : forall l, g_lens g = Some l -> l = lens (g_u2c g) /\ (c_shuffle c = true -> g_init_lens g = Some (lens (g_init_u2c g)));
  inv_min : forall m, g_min g = Some m -> c_min c = Some m \/ (c_min c = None /\ is_min m (lens (g_init_u2c g)));
  inv_max : forall m, g_max g = Some m -> c_max c = Some m \/ (c_max c = None /\ is_max m (lens (g_init_u2c g)));
  inv_cmin : forall m, c_min c = Some m -> g_min g = Some m;
  inv_cmax : forall m, c_max c = Some m -> g_max g = Some m }.

(** everything but lens, min and max *)
Definition same_core (g g' : gen) : Prop := g_u2c g' = g_u2c g /\ g_init_u2c g' = g_init_u2c g /\ g_init_subs g' = g_init_subs g /\ g_subs g' = g_subs g /\ g_frame g' = g_frame g /\ g_sub g' = g_sub g /\ g_seq g' = g_seq g /\ g_step g' = g_step g /\ g_epoch g' = g_epoch g /\ g_rng g' = g_rng g /\ g_iters g' = g_iters g.
Lemma same_core_refl g : same_core g g. Proof. repeat split. Qed.
Lemma same_core_trans a b d : same_core a b -> same_core b d -> same_core a d.
Proof. unfold same_core. intros A B. repeat match goal with H : _ /\ _ |- _ => destruct H end. repeat split; congruence. Qed.

Lemma perm_lens a b : Permutation a b -> Permutation (lens a) (lens b).
Proof. intros P. unfold lens_of. apply Permutation_map. exact P. Qed.
Lemma seq_lengths_ok g : Inv g -> let p := seq_lengths num_rows g in fst p = lens (g_u2c g) /\ Inv (snd p) /\ same_core g (snd p) /\ g_lens (snd p) = Some (lens (g_u2c g)) /\ g_min (snd p) = g_min g /\ g_max (snd p) = g_max g.
Proof.
  intros I. destruct I as [I1 I2 I3 I4 I5 I6 I7]. unfold seq_lengths. destruct (g_lens g) as [l|] eqn:E; cbn zeta; cbn [fst snd].
  - destruct (I3 l eq_refl) as (-> & S). split; [reflexivity|]. split; [|split; [apply same_core_refl|split; [exact E|split; reflexivity]]]. constructor; auto. intros X. congruence. intros l' X. rewrite E in X. injection X as <-. split; [reflexivity|exact S].
  - destruct (I2 eq_refl) as (U & S). split; [reflexivity|]. split; [|split; [repeat split|repeat split]]. constructor; cbn; auto. intros l X. injection X as <-. split; [reflexivity|]. intros _. rewrite U. reflexivity.
Qed.
Lemma min_len_ok g m g' : Inv g -> min_len num_rows g = Ok (m, g') -> (c_min c = Some m \/ (c_min c = None /\ is_min m (lens (g_init_u2c g)))) /\ Inv g' /\ same_core g g' /\ (forall l, g_lens g = Some l -> g_lens g' = Some l) /\ g_min g' = Some m /\ g_max g' = g_max g.
Proof.
  intros I H. unfold min_len in H. destruct (g_min g) as [m0|] eqn:E.
  - injection H as <- <-. split; [apply (inv_min g I); exact E|]. split; [exact I|]. split; [apply same_core_refl|]. split; [auto|]. split; [exact E|reflexivity].
  - pose proof (seq_lengths_ok g I) as S. destruct (seq_lengths num_rows g) as (l & g1) eqn:SL. cbn zeta in S. cbn [fst snd] in S. destruct S as (L & I1 & C & GL & GM & GX). destruct (zmin l) as [m1|] eqn:M; [|discriminate]. cbn [bind] in H. injection H as <- <-. apply zmin_ok in M.
    assert (CN : c_min c = None) by (destruct (c_min c) as [q|] eqn:Q; [pose proof (inv_cmin g I q Q); congruence|reflexivity]). assert (IM : is_min m1 (lens (g_init_u2c g))) by (rewrite L in M; apply (is_min_perm m1 _ _ (perm_lens _ _ (inv_perm g I)) M)).
    split; [right; split; assumption|]. destruct C as (C1 & C2 & C'). split; [|split; [repeat split; cbn; try apply C'; assumption|split; [intros l' X; cbn; assert (l' = lens (g_u2c g)) by (apply (inv_some g I); exact X); congruence|split; [reflexivity|assumption]]]].
    destruct I1 as [I1 I2 I3 I4 I5 I6 I7]. constructor; cbn; auto. intros q X. injection X as <-. right. split; [exact CN|]. rewrite C2. exact IM. intros q X. congruence.
Qed.
Lemma max_len_ok g m g' : Inv g -> max_len num_rows g = Ok (m, g') -> (c_max c = Some m \/ (c_max c = None /\ is_max m (lens (g_init_u2c g)))) /\ Inv g' /\ same_core g g' /\ (forall l, g_lens g = Some l -> g_lens g' = Some l) /\ g_max g' = Some m /\ g_min g' = g_min g.
Proof.
  intros I H. unfold max_len in H. destruct (g_max g) as [m0|] eqn:E.
  - injection H as <- <-. split; [apply (inv_max g I); exact E|]. split; [exact I|]. split; [apply same_core_refl|]. split; [auto|]. split; [exact E|reflexivity].
  - pose proof (seq_lengths_ok g I) as S. destruct (seq_lengths num_rows g) as (l & g1) eqn:SL. cbn zeta in S. cbn [fst snd] in S. destruct S as (L & I1 & C & GL & GM & GX). destruct (zmax l) as [m1|] eqn:M; [|discriminate]. cbn [bind] in H. injection H as <- <-. apply zmax_ok in M.
    assert (CN : c_max c = None) by (destruct (c_max c) as [q|] eqn:Q; [pose proof (inv_cmax g I q Q); congruence|reflexivity]). assert (IM : is_max m1 (lens (g_init_u2c g))) by (rewrite L in M; apply (is_max_perm m1 _ _ (perm_lens _ _ (inv_perm g I)) M)).
    split; [right; split; assumption|]. destruct C as (C1 & C2 & C'). split; [|split; [repeat split; cbn; try apply C'; assumption|split; [intros l' X; cbn; assert (l' = lens (g_u2c g)) by (apply (inv_some g I); exact X); congruence|split; [reflexivity|assumption]]]].
    destruct I1 as [I1 I2 I3 I4 I5 I6 I7]. constructor; cbn; auto. intros q X. injection X as <-. right. split; [exact CN|]. rewrite C2. exact IM. intros q X. congruence.
Qed.
(** Inv depends on few fields *)
Lemma inv_transfer g g' : Inv g -> g_u2c g' = g_u2c g -> g_init_u2c g' = g_init_u2c g -> g_lens g' = g_lens g -> g_init_lens g' = g_init_lens g -> g_min g' = g_min g -> g_max g' = g_max g -> Inv g'.
Proof. intros [I1 I2 I3 I4 I5 I6 I7] E1 E2 E3 E4 E5 E6. constructor; rewrite ?E1, ?E2, ?E3, ?E4, ?E5, ?E6; assumption. Qed.

Lemma take_seq_perm {A} (l : list A) (p : list nat) : Permutation p (seq 0 (List.length l)) -> exists r, take l (map Z.of_nat p) = Ok r /\ Permutation r l.
Proof.
  intros P. destruct (take_total l p) as (r & E). { intros k I. apply (Permutation_in _ P), in_seq in I. lia. }
  exists r. split; [exact E|]. apply (take_perm _ _ _ P E).
Qed.
Lemma take_map_comm {A B} (f : A -> B) l idx r : take l idx = Ok r -> take (map f l) idx = Ok (map f r).
Proof.
  unfold take. intros H. apply mapM_ok_iff in H. apply mapM_ok_iff. induction H as [|i v idx r E F IH]; [constructor|]. constructor; [|exact IH]. rewrite get_item_map, E. reflexivity.
Qed.
Lemma reshuffle_ok g : valid_rng draw perm -> Inv g -> c_shuffle c = true -> (forall s, g_init_subs g = Some s -> List.length s = List.length (g_init_u2c g)) ->
  exists g' idx, reshuffle num_rows perm g = Ok g' /\ Inv g' /\ take (g_init_u2c g) (map Z.of_nat idx) = Ok (g_u2c g') /\
    (forall s, g_init_subs g = Some s -> exists s', g_subs g' = Some s' /\ take s (map Z.of_nat idx) = Ok s') /\ g_lens g' = Some (lens (g_u2c g')) /\
    g_seq g' = g_seq g /\ g_step g' = g_step g /\ g_epoch g' = g_epoch g /\ g_init_u2c g' = g_init_u2c g /\ g_iters g' = g_iters g /\ g_init_subs g' = g_init_subs g /\ g_min g' = g_min g /\ g_max g' = g_max g /\ g_frame g' = g_frame g /\ g_sub g' = g_sub g.
Proof.
  intros (_ & VP) I1 SH LS. unfold reshuffle. set (g2 := match g_init_lens g with None => snd (seq_lengths num_rows g) | Some _ => g end).
  assert (K : Inv g2 /\ same_core g g2 /\ g_init_lens g2 = Some (lens (g_init_u2c g2)) /\ g_min g2 = g_min g /\ g_max g2 = g_max g).
  { pose proof (seq_lengths_ok g I1) as S. unfold g2. destruct (g_init_lens g) as [l0|] eqn:E0.
    - split; [exact I1|]. split; [apply same_core_refl|]. split; [|split; reflexivity]. destruct (g_lens g) as [l|] eqn:E; [rewrite E0; rewrite <- E0; apply (proj2 (inv_some g I1 l E) SH)|]. pose proof (proj2 (inv_none g I1 E) SH). congruence.
    - destruct S as (_ & A & B & D & M & X). split; [exact A|]. split; [exact B|]. split; [apply (proj2 (inv_some _ A _ D) SH)|split; assumption]. }
  clearbody g2. destruct K as (I2 & C2 & IL & GM & GX). cbv zeta. set (idx := perm _ _ _). assert (PI : Permutation idx (seq 0 (List.length (g_init_u2c g2)))) by apply VP. clearbody idx. cbn [g_init_u2c set_rng]. destruct (take_seq_perm (g_init_u2c g2) idx PI) as (u & Eu & Pu). rewrite Eu. cbn [bind set_u2c g_init_lens set_rng]. rewrite IL.
  unfold lens_of. rewrite (take_map_comm (fun r => num_rows (fst r)) _ _ _ Eu). cbn [bind set_lens g_init_subs set_u2c set_rng]. destruct C2 as (A1 & A2 & A3 & A4 & A5 & A6 & A7 & A8 & A9 & A10 & A11).
  assert (I3 : forall g3, g_u2c g3 = u -> g_init_u2c g3 = g_init_u2c g2 -> g_init_lens g3 = Some (lens (g_init_u2c g2)) -> g_lens g3 = Some (lens u) -> g_min g3 = g_min g2 -> g_max g3 = g_max g2 -> Inv g3).
  { intros g3 B1 B2 B3 B4 B5 B6. destruct I2 as [J1 J2 J3 J4 J5 J6 J7]. constructor; rewrite ?B1, ?B2, ?B3, ?B4, ?B5, ?B6; auto. intros X; discriminate X. intros l X. injection X as <-. split; [reflexivity|]. intros _. reflexivity. }
  rewrite A3. destruct (g_init_subs g) as [s0|] eqn:ES.
  - destruct (take_seq_perm s0 idx) as (s & Es & _). { replace (List.length s0) with (List.length (g_init_u2c g2)); [exact PI|]. rewrite A2. symmetry. apply LS. reflexivity. }
    rewrite Es. cbn [bind]. eexists. exists idx. split; [reflexivity|]. split; [apply I3; reflexivity|]. cbn. rewrite A2 in Eu. split; [exact Eu|]. split; [intros s' X; injection X as <-; exists s; split; [reflexivity|exact Es]|]. split; [reflexivity|]. rewrite A7, A8, A9, A2, A11, GM, GX, A5, A6. repeat split.
  - eexists. exists idx. split; [reflexivity|]. split; [apply I3; reflexivity|]. cbn. rewrite A2 in Eu. split; [exact Eu|]. split; [intros s' X; discriminate X|]. split; [reflexivity|]. rewrite A7, A8, A9, A2, A11, GM, GX, A5, A6. repeat split. exact A3.
Qed.
Lemma reset_ok g : valid_rng draw perm -> Inv g -> (forall s, g_init_subs g = Some s -> List.length s = List.length (g_init_u2c g)) ->
  exists g', reset num_rows perm c g = Ok g' /\ Inv g' /\ g_seq g' = O /\ g_step g' = 0 /\ g_epoch g' = g_epoch g /\ g_init_u2c g' = g_init_u2c g /\ g_iters g' = g_iters g /\ g_init_subs g' = g_init_subs g /\ g_min g' = g_min g /\ g_max g' = g_max g /\
    (forall f, g_init_subs g = Some (map f (lens (g_init_u2c g))) -> g_subs g = Some (map f (lens (g_u2c g))) -> g_subs g' = Some (map f (lens (g_u2c g')))) /\
    (c_method c = SequentialSubseqs -> g_frame g' = repeat 0 (List.length (g_frame g)) /\ g_sub g' = repeat 0 (List.length (g_sub g))) /\
    (g_lens g = Some (lens (g_u2c g)) -> g_lens g' = Some (lens (g_u2c g'))).
Proof. 
  intros V I LS. unfold reset. set (g1 := restart c g).
  assert (I1 : Inv g1) by (apply (inv_transfer g); try reflexivity; exact I).
  assert (MID : exists g2, (if c_shuffle c then reshuffle num_rows perm g1 else Ok g1) = Ok g2 /\ Inv g2 /\ g_seq g2 = O /\ g_step g2 = 0 /\ g_epoch g2 = g_epoch g /\ g_init_u2c g2 = g_init_u2c g /\ g_iters g2 = g_iters g /\ g_init_subs g2 = g_init_subs g /\ g_min g2 = g_min g /\ g_max g2 = g_max g /\
    (forall f, g_init_subs g = Some (map f (lens (g_init_u2c g))) -> g_subs g = Some (map f (lens (g_u2c g))) -> g_subs g2 = Some (map f (lens (g_u2c g2)))) /\ g_frame g2 = g_frame g /\ g_sub g2 = g_sub g /\ (g_lens g = Some (lens (g_u2c g)) -> g_lens g2 = Some (lens (g_u2c g2)))).
  { destruct (c_shuffle c) eqn:SH. 2: { exists g1. split; [reflexivity|]. split; [exact I1|]. repeat split; auto. }
    destruct (reshuffle_ok g1 V I1 SH LS) as (g2 & idx & E & I2 & TU & TS & GL & B1 & B2 & B3 & B4 & B5 & B6 & B7 & B8 & B9 & B10). exists g2. split; [exact E|]. split; [exact I2|]. split; [exact B1|]. split; [exact B2|]. split; [exact B3|]. split; [exact B4|]. split; [exact B5|]. split; [exact B6|]. split; [exact B7|]. split; [exact B8|]. split; [|split; [exact B9|split; [exact B10|intros _; exact GL]]].
    intros f F1 F2. destruct (TS _ F1) as (s' & -> & T). f_equal. change (g_init_u2c g1) with (g_init_u2c g) in TU. unfold lens_of in *. pose proof (take_map_comm f _ _ _ (take_map_comm (fun r => num_rows (fst r)) _ _ _ TU)) as T2. congruence. }
  destruct MID as (g2 & -> & I2 & B1 & B2 & B3 & B4 & B5 & B6 & B7 & B8 & B9 & B10 & B11 & B12). cbn [bind].
  destruct (c_method c); [exists g2|exists g2|exists (set_pos (repeat 0 (List.length (g_frame g2))) (repeat 0 (List.length (g_sub g2))) g2)]; (split; [reflexivity|]); (split; [try exact I2; apply (inv_transfer g2); try reflexivity; exact I2|]); cbn; rewrite ?B10, ?B11; repeat split; try assumption; try discriminate.
Qed.

Lemma take_in_of {A} (l : list A) idx r : take l idx = Ok r -> forall x, In x r -> In x l.
Proof.
  unfold take. intros H. apply mapM_ok_iff in H. intros x I. induction H as [|i v idx r E F IH]; [destruct I|]. destruct I as [<-|I]; [|apply IH; exact I]. unfold get_item in E. destruct (py_index _ _) as [k|]; [|discriminate]. destruct (nth_error l k) as [y|] eqn:N; [|discriminate]. injection E as ->. apply (nth_error_In _ _ N).
Qed.
Lemma sel_incl {A} f : forall (l : list A) x, In x (sel f l) -> In x l.
Proof. induction f as [|b f IH]; intros [|y l] x I; cbn in I; try (destruct I; fail). destruct b; [destruct I as [<-|I]; [left; reflexivity|]|]; right; apply IH; exact I. Qed.

(** the state after initialisation *)
Lemma prepare_ok g g' : Inv g -> prepare num_rows c g = Ok g' ->
  Inv g' /\ g_init_u2c g' = g_init_u2c g /\ g_u2c g' = g_u2c g /\ g_epoch g' = g_epoch g /\
  (c_method c <> SequentialSubseqs -> g' = g) /\
  (c_method c = SequentialSubseqs -> exists mn mx s, (c_min c = Some mn \/ (c_min c = None /\ is_min mn (lens (g_init_u2c g)))) /\ (c_max c = Some mx \/ (c_max c = None /\ is_max mx (lens (g_init_u2c g)))) /\
     (mx + mn) / 2 - c_overlap c <> 0 /\ s = map (fun x => ceil_div x ((mx + mn) / 2 - c_overlap c)) (lens (g_u2c g)) /\ g_init_subs g' = Some s /\ g_subs g' = Some s /\
     g_frame g' = repeat 0 (List.length (g_u2c g)) /\ g_sub g' = repeat 0 (List.length (g_u2c g)) /\ g_lens g' = Some (lens (g_u2c g)) /\ g_min g' = Some mn /\ g_max g' = Some mx).
Proof.
  intros I H. unfold prepare in H. destruct (c_method c) eqn:M; try (injection H as <-; split; [exact I|]; repeat split; intros X; discriminate X).
  pose proof (seq_lengths_ok g I) as S. destruct (seq_lengths num_rows g) as (l & g1). cbn zeta in S. cbn [fst snd] in S. destruct S as (-> & I1 & C1 & L1 & M1 & X1). cbn [bind] in H. destruct (max_len num_rows g1) as [(mx & g2)|] eqn:MX; [|discriminate]. cbn [bind] in H. destruct (min_len num_rows g2) as [(mn & g3)|] eqn:MN; [|discriminate]. cbn [bind] in H.
  destruct (max_len_ok _ _ _ I1 MX) as (X & I2 & C2 & L2 & M2 & X2). destruct (min_len_ok _ _ _ I2 MN) as (Y & I3 & C3 & L3 & M3 & X3). destruct (Z.eqb_spec ((mx + mn) / 2 - c_overlap c) 0) as [|NZ]; [discriminate|]. injection H as <-.
  pose proof (same_core_trans _ _ _ C1 C2) as D2. pose proof (same_core_trans _ _ _ D2 C3) as D3. destruct D3 as (B1 & B2 & B3 & B4 & B5 & B6 & B7 & B8 & B9 & B10 & B11).
  split; [apply (inv_transfer g3); try reflexivity; exact I3|]. split; [exact B2|]. split; [exact B1|]. split; [exact B9|]. split; [intros Q; exfalso; apply Q; reflexivity|]. intros _. exists mn, mx, (map (fun x => ceil_div x ((mx + mn) / 2 - c_overlap c)) (lens (g_u2c g))).
  destruct C1 as (_ & E1 & _). destruct D2 as (_ & E2 & _). rewrite E1 in X. rewrite E2 in Y. split; [exact Y|]. split; [exact X|]. split; [exact NZ|]. split; [reflexivity|]. cbn. unfold num_seqs. cbn. rewrite B1. repeat split; [apply L3, L2, L1|exact M3|congruence].
Qed.
Lemma auto_ok g g' : Inv g -> auto_iters num_rows c g = Ok g' -> Inv g' /\ exists k, same_core (set_iters k g) g' /\ (forall l, g_lens g = Some l -> g_lens g' = Some l).
Proof.
  intros I H. unfold auto_iters in H. destruct (c_method c); try (injection H as <-; split; [apply (inv_transfer g); try reflexivity; exact I|]; exists 1; split; [apply same_core_refl|auto]).
  pose proof (seq_lengths_ok g I) as S. destruct (seq_lengths num_rows g) as (l & g1). cbn zeta in S. cbn [fst snd] in S. destruct S as (-> & I1 & C1 & L1 & M1 & X1). destruct (max_len num_rows g1) as [(mx & g2)|] eqn:MX; [|discriminate]. cbn [bind] in H. destruct (min_len num_rows g2) as [(mn & g3)|] eqn:MN; [|discriminate]. cbn [bind] in H.
  destruct (max_len_ok _ _ _ I1 MX) as (X & I2 & C2 & L2 & M2 & X2). destruct (min_len_ok _ _ _ I2 MN) as (Y & I3 & C3 & L3 & M3 & X3). destruct (_ || _)%bool; [discriminate|]. injection H as <-. split; [apply (inv_transfer g3); try reflexivity; exact I3|]. eexists. split.
  - pose proof (same_core_trans _ _ _ C1 C2) as D2. pose proof (same_core_trans _ _ _ D2 C3) as D3. destruct D3 as (B1 & B2 & B3 & B4 & B5 & B6 & B7 & B8 & B9 & B10 & B11). repeat split; cbn; assumption.
  - intros l E. cbn. apply L3, L2. assert (l = lens (g_u2c g)) by (apply (inv_some g I); exact E). congruence.
Qed.
Lemma auto_refresh g : c_method c = RandomSubseqs -> g_lens g = None -> auto_iters num_rows c g = auto_iters num_rows c (set_lens None None g).
Proof. intros M L. unfold auto_iters, seq_lengths. rewrite M, L. reflexivity. Qed.
Lemma prepare_refresh g : c_method c = SequentialSubseqs -> g_lens g = None -> prepare num_rows c g = prepare num_rows c (set_lens None None g).
Proof. intros M L. unfold prepare, seq_lengths. rewrite M, L. reflexivity. Qed.
(** with no usable initial lengths *)
Lemma inv_fresh g : g_u2c g = g_init_u2c g -> g_lens g = None -> (c_shuffle c = true -> g_init_lens g = None) -> g_min g = c_min c -> g_max g = c_max c -> Inv g.
Proof. intros U L S M X. constructor; try congruence; auto. rewrite U. reflexivity. intros m E. left. congruence. intros m E. left. congruence. Qed.

(** ** What holds between reads *)
Definition eff_min (g : gen) (mn : Z) : Prop := c_min c = Some mn \/ (c_min c = None /\ is_min mn (lens (g_init_u2c g))).
Definition eff_max (g : gen) (mx : Z) : Prop := c_max c = Some mx \/ (c_max c = None /\ is_max mx (lens (g_init_u2c g))).
Record SInv (mn mx : Z) (g : gen) : Prop := mk_sinv {
  si_inv : Inv g;
  si_min : g_min g = Some mn; si_max : g_max g = Some mx;
  si_isubs : g_init_subs g = Some (map (fun x => ceil_div x ((mx + mn) / 2 - c_overlap c)) (lens (g_init_u2c g)));
  si_subs : g_subs g = Some (map (fun x => ceil_div x ((mx + mn) / 2 - c_overlap c)) (lens (g_u2c g)));
  si_frame : List.length (g_frame g) = List.length (g_u2c g);
  si_sub : List.length (g_sub g) = List.length (g_u2c g);
  si_lens : g_lens g = Some (lens (g_u2c g)) }.
Definition RInv (g : gen) : Prop := Inv g /\ g_init_subs g = None.
Lemma u2c_length g : Inv g -> List.length (g_u2c g) = List.length (g_init_u2c g).
Proof. intros I. apply Permutation_length, (inv_perm g I). Qed.
Lemma reset_sinv mn mx g : valid_rng draw perm -> c_method c = SequentialSubseqs -> SInv mn mx g -> exists g', reset num_rows perm c g = Ok g' /\ SInv mn mx g' /\ g_seq g' = O /\ g_step g' = 0 /\ g_epoch g' = g_epoch g /\ g_init_u2c g' = g_init_u2c g /\ g_iters g' = g_iters g /\ g_frame g' = repeat 0 (List.length (g_u2c g')) /\ g_sub g' = repeat 0 (List.length (g_u2c g')).
Proof.
  intros V M [I S1 S2 S3 S4 S5 S6 S7]. destruct (reset_ok g V I) as (g' & E & I' & B1 & B2 & B3 & B4 & B5 & B6 & B7 & B8 & B9 & B10 & B11). { intros s X. rewrite S3 in X. injection X as <-. unfold lens_of. rewrite !map_length. reflexivity. }
  destruct (B10 M) as (F1 & F2). assert (N : List.length (g_u2c g') = List.length (g_u2c g)) by (rewrite (u2c_length g' I'), (u2c_length g I), B4; reflexivity).
  exists g'. split; [exact E|]. split; [|repeat split; try assumption; [rewrite F1, S5, N|rewrite F2, S6, N]; reflexivity]. constructor; try assumption.
  - congruence.
  - congruence.
  - rewrite B6, B4. exact S3.
  - apply B9; assumption.
  - rewrite F1, repeat_length. congruence.
  - rewrite F2, repeat_length. congruence.
  - apply B11. exact S7.
Qed.
Lemma reset_rinv g : valid_rng draw perm -> RInv g -> exists g', reset num_rows perm c g = Ok g' /\ RInv g' /\ g_seq g' = O /\ g_step g' = 0 /\ g_epoch g' = g_epoch g /\ g_init_u2c g' = g_init_u2c g /\ g_iters g' = g_iters g.
Proof.
  intros V (I & S). destruct (reset_ok g V I) as (g' & E & I' & B1 & B2 & B3 & B4 & B5 & B6 & _); [intros s X; congruence|]. exists g'. split; [exact E|]. split; [split; [exact I'|congruence]|]. repeat split; assumption.
Qed.

Lemma prune_u2c m g : g_lens g = None -> prune_min num_rows m g = set_lens (Some (lens (g_u2c g))) None (set_u2c (filter (fun r => m <=? num_rows (fst r)) (g_u2c g)) g).
Proof. intros L. unfold prune_min, seq_lengths. rewrite L. unfold lens_of. rewrite map_map. cbn [set_lens g_u2c g_init_lens]. rewrite sel_filter. reflexivity. Qed.
Definition start (rows : list u2row) : gen := mk_gen rows [] None None (c_min c) (c_max c) None None [] [] O 0 (c_init_epoch c) (0, O) 0.
(** the list after pruning and balancing, before the first shuffle *)
Definition selected (rows : list u2row) (sel_rows : list u2row) : Prop :=
  exists g, (match c_balance c with Some imb => balance imb (if 0 <? c_prune c then prune_min num_rows (c_prune c) (start rows) else start rows) | None => Ok (if 0 <? c_prune c then prune_min num_rows (c_prune c) (start rows) else start rows) end) = Ok g /\ g_u2c g = sel_rows.
Lemma selected_in rows sr : selected rows sr -> forall r, In r sr -> In r rows.
Proof.
  intros (g & E & <-) r I. set (g0 := if 0 <? c_prune c then prune_min num_rows (c_prune c) (start rows) else start rows) in *.
  assert (J0 : forall r, In r (g_u2c g0) -> In r rows). { unfold g0. destruct (0 <? c_prune c); [|intros x Ix; exact Ix]. rewrite prune_u2c by reflexivity. cbn. intros x Ix. apply filter_In in Ix. apply Ix. }
  destruct (c_balance c) as [imb|]; [|injection E as <-; apply J0; exact I]. unfold balance in E. destruct (balance_idx _ _) as [idx|]; [|discriminate]. cbn [bind] in E. destruct (take (g_u2c g0) _) as [u|] eqn:T; [|discriminate]. cbn [bind] in E. apply J0. apply (take_in_of _ _ _ T). cbn [set_u2c g_init_lens] in E. destruct (g_init_lens g0) as [l|]; [destruct (take l _); [|discriminate]; cbn [bind] in E|]; injection E as <-; exact I.
Qed.
Lemma init_ok rows g : valid_rng draw perm -> safe c -> init num_rows perm c rows = Ok g ->
  selected rows (g_init_u2c g) /\ g_seq g = O /\ g_step g = 0 /\ g_epoch g = c_init_epoch c /\
  (forall k, c_iters c = Some k -> g_iters g = k) /\ (c_method c <> RandomSubseqs -> c_iters c = None -> g_iters g = 1) /\
  (c_method c <> SequentialSubseqs -> RInv g) /\
  (c_method c = SequentialSubseqs -> exists mn mx, eff_min g mn /\ eff_max g mx /\ (mx + mn) / 2 - c_overlap c <> 0 /\ SInv mn mx g /\ g_frame g = repeat 0 (List.length (g_u2c g)) /\ g_sub g = repeat 0 (List.length (g_u2c g))).
Proof.
  intros V SF H. unfold init in H. destruct (1 <? c_num_parts c); [discriminate|]. fold (start rows) in H. set (gp := if 0 <? c_prune c then prune_min num_rows (c_prune c) (start rows) else start rows) in *.
  destruct (match c_balance c with Some imb => balance imb gp | None => Ok gp end) as [gb|] eqn:EB; [|discriminate]. cbn [bind] in H. set (g0 := set_init_u2c (g_u2c gb) gb) in *.
  assert (SEL : selected rows (g_init_u2c g0)) by (exists gb; split; [exact EB|reflexivity]).
  (* the fields that pruning and balancing leave alone *)
  assert (BASE : g_lens gb = None /\ g_min gb = c_min c /\ g_max gb = c_max c /\ g_init_subs gb = None /\ g_epoch gb = c_init_epoch c /\ (c_prune c <= 0 -> g_init_lens gb = None)).
  { assert (GP : g_lens gp = None /\ g_min gp = c_min c /\ g_max gp = c_max c /\ g_init_subs gp = None /\ g_epoch gp = c_init_epoch c /\ (c_prune c <= 0 -> g_init_lens gp = None)). { unfold gp. destruct (Z.ltb_spec 0 (c_prune c)); [rewrite prune_u2c by reflexivity; repeat split; cbn; lia|repeat split]. }
    destruct (c_balance c) as [imb|] eqn:BL; [|injection EB as <-; exact GP]. assert (P0 : c_prune c <= 0) by (destruct SF as [P|(P & _)]; [exact P|congruence]). destruct GP as (G1 & G2 & G3 & G4 & G5 & G6). unfold balance in EB. destruct (balance_idx _ _); [|discriminate]. cbn [bind] in EB. destruct (take (g_u2c gp) _); [|discriminate]. cbn [bind set_u2c g_init_lens] in EB. rewrite (G6 P0) in EB. injection EB as <-. cbn. repeat split; auto. }
  destruct BASE as (L0 & M0 & X0 & S0 & P0 & IL0).
  assert (K : exists g1, Inv g1 /\ g_u2c g1 = g_u2c g0 /\ g_init_u2c g1 = g_init_u2c g0 /\ g_init_subs g1 = None /\ g_epoch g1 = c_init_epoch c /\ (g <- prepare num_rows c g1 ;; g <- (match c_iters c with None => auto_iters num_rows c g | Some k => Ok (set_iters k g) end) ;; reset num_rows perm c g) = Ok g).
  { assert (FR : forall il, (c_shuffle c = true -> il = None) -> Inv (set_lens il None g0)) by (intros il X; apply inv_fresh; try reflexivity; assumption).
    assert (E0 : set_lens (g_init_lens g0) None g0 = g0) by (unfold g0 in *; destruct gb; cbn in *; subst; reflexivity).
    destruct SF as [PR|(BN & [SH|[MT|(MT & IT)]])].
    - exists g0. split; [rewrite <- E0; apply FR; intros _; apply IL0; exact PR|]. repeat split; try reflexivity; assumption.
    - exists g0. split; [rewrite <- E0; apply FR; congruence|]. repeat split; try reflexivity; assumption.
    - exists (set_lens None None g0). split; [apply FR; reflexivity|]. repeat split; try assumption. rewrite <- prepare_refresh by assumption. exact H.
    - exists (set_lens None None g0). split; [apply FR; reflexivity|]. repeat split; try assumption. rewrite IT in *. unfold prepare in *. rewrite MT in *. cbn [bind] in *. rewrite <- auto_refresh by assumption. exact H. }
  clear H. destruct K as (g1 & I1 & U1 & V1 & S1 & P1 & H). destruct (prepare num_rows c g1) as [g2|] eqn:EP; [|discriminate]. cbn [bind] in H. destruct (prepare_ok g1 g2 I1 EP) as (I2 & A1 & A2 & A3 & A4 & A5).
  assert (K : exists g3 k, Inv g3 /\ same_core (set_iters k g2) g3 /\ (forall l, g_lens g2 = Some l -> g_lens g3 = Some l) /\ reset num_rows perm c g3 = Ok g /\ (forall k', c_iters c = Some k' -> k = k') /\ (c_method c <> RandomSubseqs -> c_iters c = None -> k = 1) /\ (forall m, g_min g2 = Some m -> g_min g3 = Some m) /\ (forall m, g_max g2 = Some m -> g_max g3 = Some m)).
  { destruct (c_iters c) as [k|].
    - cbn [bind] in H. exists (set_iters k g2), k. split; [apply (inv_transfer g2); try reflexivity; exact I2|]. split; [apply same_core_refl|]. split; [auto|]. split; [exact H|]. split; [congruence|]. split; [discriminate|]. split; auto.
    - destruct (auto_iters num_rows c g2) as [g3|] eqn:EA; [|discriminate]. cbn [bind] in H. destruct (auto_ok g2 g3 I2 EA) as (I3 & k & C & L). exists g3, k. split; [exact I3|]. split; [exact C|]. split; [exact L|]. split; [exact H|]. split; [discriminate|]. split.
      + intros NR _. unfold auto_iters in EA. assert (KI : g_iters g3 = k) by (apply C). destruct (c_method c); try contradiction; injection EA as <-; exact (eq_sym KI).
      + clear - EA I2. unfold auto_iters in EA. destruct (c_method c); try (injection EA as <-; split; auto). pose proof (seq_lengths_ok g2 I2) as S. destruct (seq_lengths num_rows g2) as (l & h1). cbn zeta in S. cbn [fst snd] in S. destruct S as (-> & J1 & _ & _ & M1 & X1). destruct (max_len num_rows h1) as [(mx & h2)|] eqn:MX; [|discriminate]. cbn [bind] in EA. destruct (min_len num_rows h2) as [(mn & h3)|] eqn:MN; [|discriminate]. cbn [bind] in EA. destruct (_ || _)%bool; [discriminate|]. injection EA as <-. cbn.
        destruct (max_len_ok _ _ _ J1 MX) as (_ & J2 & _ & _ & M2 & X2). destruct (min_len_ok _ _ _ J2 MN) as (_ & J3 & _ & _ & M3 & X3). split; intros m E.
        * unfold min_len in MN. rewrite X2, M1, E in MN. injection MN as -> ->. congruence.
        * unfold max_len in MX. rewrite X1, E in MX. injection MX as -> ->. congruence. }
  clear H. destruct K as (g3 & k & I3 & C3 & L3 & H & K1 & K2 & M3 & X3). destruct C3 as (B1 & B2 & B3 & B4 & B5 & B6 & B7 & B8 & B9 & B10 & B11). cbn in B1, B2, B3, B4, B5, B6, B7, B8, B9, B10, B11.
  destruct (c_method c) eqn:MT.
  - specialize (A4 ltac:(discriminate)). subst g2. destruct (reset_rinv g3 V) as (g' & E & RI & D1 & D2 & D3 & D4 & D5); [split; [exact I3|congruence]|]. rewrite E in H. injection H as <-. split; [rewrite D4, B2, V1; exact SEL|]. split; [exact D1|]. split; [exact D2|]. split; [congruence|]. split; [intros k' X; rewrite D5, B11; apply K1; exact X|]. split; [intros _ X; rewrite D5, B11; apply K2; [discriminate|exact X]|]. split; [intros _; exact RI|discriminate].
  - specialize (A4 ltac:(discriminate)). subst g2. destruct (reset_rinv g3 V) as (g' & E & RI & D1 & D2 & D3 & D4 & D5); [split; [exact I3|congruence]|]. rewrite E in H. injection H as <-. split; [rewrite D4, B2, V1; exact SEL|]. split; [exact D1|]. split; [exact D2|]. split; [congruence|]. split; [intros k' X; rewrite D5, B11; apply K1; exact X|]. split; [congruence|]. split; [intros _; exact RI|discriminate].
  - destruct (A5 eq_refl) as (mn & mx & s & Q1 & Q2 & Q3 & Q4 & Q5 & Q6 & Q7 & Q8 & Q9 & Q10 & Q11). destruct (reset_sinv mn mx g3 V MT) as (g' & E & SI & D1 & D2 & D3 & D4 & D5 & D6 & D7).
    { constructor; [exact I3|apply M3; exact Q10|apply X3; exact Q11| | | | |].
      - rewrite B3, Q5, Q4, B2, A1. rewrite U1, V1. reflexivity.
      - rewrite B4, Q6, Q4, B1, A2. reflexivity.
      - rewrite B5, Q7, repeat_length, B1, A2. reflexivity.
      - rewrite B6, Q8, repeat_length, B1, A2. reflexivity.
      - rewrite B1, A2. apply L3. exact Q9. }
    rewrite E in H. injection H as <-. split; [rewrite D4, B2, A1, V1; exact SEL|]. split; [exact D1|]. split; [exact D2|]. split; [congruence|]. split; [intros k' X; rewrite D5, B11; apply K1; exact X|]. split; [intros _ X; rewrite D5, B11; apply K2; [discriminate|exact X]|]. split; [intros X; exfalso; apply X; reflexivity|]. intros _. exists mn, mx. unfold eff_min, eff_max. rewrite D4, B2, A1. split; [exact Q1|]. split; [exact Q2|]. split; [exact Q3|]. split; [exact SI|]. split; assumption.
Qed.
End G.
