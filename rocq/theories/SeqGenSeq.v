(** Sequential sub-sequences of SequenceBatchGeneratorV1: how the sub-sequences of one recording follow each other in an epoch. *)
From Coq Require Import Lia Permutation.
From Verif Require Import BaseFacts Mat MatProofs Utt2Info SeqGen SeqGenProofs SeqGenRand.
Open Scope list_scope.
Open Scope Z_scope.

(** ** Specification *)
(** the ranges (first row, number of rows) asked for at position i, in order *)
Definition hist (i : nat) (H : list request) : list (Z * Z) := map (fun q => match q_range q with Some r => r | None => (0, 0) end) (filter (fun q => Nat.eqb (q_pos q) i) H).
(** the j-th range [r] of a recording of [full] rows cut in [ns] sub-sequences follows the previous one *)
Definition follows (mn mx ov full ns : Z) (j : nat) (prev : option (Z * Z)) (r : Z * Z) : Prop :=
  fst r = (if Z.of_nat j mod ns =? 0 then 0 else match prev with Some p => Z.min (full - mn) (fst p + snd p - ov) | None => 0 end) /\
  (if Z.of_nat j mod ns =? ns - 1 then snd r = Z.min (full - fst r) mx else mn <= snd r <= Z.min (Z.max mn (full - fst r - mn)) mx).
Definition walk (mn mx ov full ns : Z) (h : list (Z * Z)) : Prop := forall j r, nth_error h j = Some r -> follows mn mx ov full ns j (nth_error h (pred j)) r.
Definition inside (full : Z) (r : Z * Z) : Prop := 0 <= fst r /\ 0 <= snd r /\ fst r + snd r <= full.
(** number of sub-sequences planned for a recording *)
Definition planned (mn mx ov full : Z) : Z := ceil_div full ((mx + mn) / 2 - ov).

Lemma ceil_div_pos a b : 0 < a -> 0 < b -> 1 <= ceil_div a b.
Proof. intros A B. unfold ceil_div. assert (- a / b < 0); [|lia]. apply Z.div_lt_upper_bound; lia. Qed.
Lemma ceil_div_ge a b : 0 < b -> a <= ceil_div a b * b.
Proof. intros B. unfold ceil_div. pose proof (Z.mul_div_le (- a) b B). lia. Qed.
Lemma ceil_div_lt a b : 0 < b -> (ceil_div a b - 1) * b < a.
Proof. intros B. unfold ceil_div. pose proof (Z.mul_succ_div_gt (- a) b B). lia. Qed.

Definition next_off (mn ov full ns : Z) (h : list (Z * Z)) : Z :=
  if Z.of_nat (List.length h) mod ns =? 0 then 0 else match nth_error h (pred (List.length h)) with Some p => Z.min (full - mn) (fst p + snd p - ov) | None => 0 end.
Lemma hist_app i H q : hist i (H ++ [q]) = hist i H ++ (if Nat.eqb (q_pos q) i then [match q_range q with Some r => r | None => (0, 0) end] else []).
Proof. unfold hist. rewrite filter_app, map_app. cbn [filter]. destruct (Nat.eqb (q_pos q) i); reflexivity. Qed.
Lemma hist_sum N : forall H, Forall (fun q => (q_pos q < N)%nat) H -> fold_right Z.add 0 (map (fun i => Z.of_nat (List.length (hist i H))) (seq 0 N)) = Z.of_nat (List.length H).
Proof.
  assert (ST : forall q H l, NoDup l -> fold_right Z.add 0 (map (fun i => Z.of_nat (List.length (hist i (q :: H)))) l) = fold_right Z.add 0 (map (fun i => Z.of_nat (List.length (hist i H))) l) + (if in_dec Nat.eq_dec (q_pos q) l then 1 else 0)).
  { intros q H l ND. induction ND as [|x l NI ND IH]; [reflexivity|]. cbn [map fold_right]. rewrite IH. unfold hist at 1. cbn [filter]. destruct (Nat.eqb_spec (q_pos q) x) as [E|E].
    - cbn [map List.length]. fold (hist x H). subst x. destruct (in_dec Nat.eq_dec (q_pos q) l); [contradiction|]. destruct (in_dec Nat.eq_dec (q_pos q) (q_pos q :: l)) as [_|X]; [|exfalso; apply X; left; reflexivity]. unfold hist. rewrite !map_length. cbn [List.length]. lia.
    - fold (hist x H). destruct (in_dec Nat.eq_dec (q_pos q) l) as [I|I]; destruct (in_dec Nat.eq_dec (q_pos q) (x :: l)) as [J|J]; try lia; exfalso; [apply J; right; exact I|destruct J as [J|J]; [congruence|contradiction]]. }
  intros H F. induction F as [|q H L F IH].
  - cbn. clear. generalize 0%nat. induction N; intros s; cbn; [reflexivity|]. rewrite IHN. reflexivity.
  - rewrite ST by apply seq_NoDup. rewrite IH. destruct (in_dec Nat.eq_dec (q_pos q) (seq 0 N)) as [_|X]; [cbn [List.length]; lia|]. exfalso. apply X, in_seq. lia.
Qed.

(** seek *)
Lemma seek_some sub subs : forall fuel i j, (i < List.length sub)%nat -> seek sub subs i fuel = Some j -> (j < List.length sub)%nat /\ nth j sub 0 <> nth j subs 0.
Proof.
  induction fuel as [|fuel IH]; intros i j L H; [discriminate|]. cbn in H. destruct (Z.eqb_spec (nth i sub 0) (nth i subs 0)) as [E|E].
  - apply IH in H; [exact H|]. apply Nat.mod_upper_bound. lia.
  - injection H as <-. split; assumption.
Qed.
Lemma seek_none sub subs : forall fuel i, (i < List.length sub)%nat -> seek sub subs i fuel = None -> forall d, (d < fuel)%nat -> nth ((i + d) mod List.length sub) sub 0 = nth ((i + d) mod List.length sub) subs 0.
Proof.
  induction fuel as [|fuel IH]; intros i L H d Ld; [lia|]. cbn in H. destruct (Z.eqb_spec (nth i sub 0) (nth i subs 0)) as [E|E]; [|discriminate]. destruct d as [|d].
  - rewrite Nat.add_0_r, Nat.mod_small by exact L. exact E.
  - assert (L1 : ((i + 1) mod List.length sub < List.length sub)%nat) by (apply Nat.mod_upper_bound; lia). specialize (IH _ L1 H d ltac:(lia)). rewrite Nat.add_mod_idemp_l in IH by lia. replace (i + S d)%nat with (i + 1 + d)%nat by lia. exact IH.
Qed.
Lemma seek_none_all sub subs i : (i < List.length sub)%nat -> seek sub subs i (List.length sub) = None -> forall p, (p < List.length sub)%nat -> nth p sub 0 = nth p subs 0.
Proof.
  intros L H p Lp. pose proof (seek_none _ _ _ _ L H) as A. set (N := List.length sub) in *. clearbody N. specialize (A ((p + N - i) mod N)%nat). rewrite Nat.add_mod_idemp_r in A by lia. replace (i + (p + N - i))%nat with (p + 1 * N)%nat in A by lia. rewrite Nat.mod_add, (Nat.mod_small p) in A by lia. apply A. apply Nat.mod_upper_bound. lia.
Qed.

Section G.
Variable num_rows : string -> Z.
Variable draw : Z -> nat -> Z -> Z -> Z.
Variable perm : Z -> nat -> nat -> list nat.
Variable c : cfg.
Hypothesis V : valid_rng draw perm.
Variables mn mx : Z.
Notation ov := (c_overlap c).
Notation lens := (lens_of num_rows).
Notation SInv := (SInv num_rows c mn mx).
Notation ns := (planned mn mx ov).
(** settings under which nothing is read outside a recording *)
Hypothesis MN : 1 <= mn.
Hypothesis MX : mn <= mx.
Hypothesis OV : ov <= mn.
Hypothesis SH : 0 < (mx + mn) / 2 - ov.

Definition long_enough (g : gen) : Prop := forall row, In row (g_u2c g) -> mn <= num_rows (fst row).
(** the state after the requests [H] of the current epoch *)
Record Epoch (g : gen) (H : list request) : Prop := mk_epoch {
  ep_pos : Forall (fun q => exists row r, nth_error (g_u2c g) (q_pos q) = Some row /\ q_key q = fst row /\ q_range q = Some r) H;
  ep_walk : forall i row, nth_error (g_u2c g) i = Some row -> walk mn mx ov (num_rows (fst row)) (ns (num_rows (fst row))) (hist i H) /\
    nth_error (g_frame g) i = Some (next_off mn ov (num_rows (fst row)) (ns (num_rows (fst row))) (hist i H)) /\
    nth_error (g_sub g) i = Some (if c_balanced_seqs c then Z.of_nat (List.length (hist i H)) mod ns (num_rows (fst row)) else Z.of_nat (List.length (hist i H))) /\
    (c_balanced_seqs c = false -> Z.of_nat (List.length (hist i H)) <= ns (num_rows (fst row))) }.

Lemma walk_inside full h : mn <= full -> 1 <= ns full -> walk mn mx ov full (ns full) h -> Forall (inside full) h /\ forall p, nth_error h (pred (List.length h)) = Some p -> 0 <= fst p + snd p - ov /\ mn <= snd p.
Proof.
  intros LF LN W.
  assert (A : forall j r, nth_error h j = Some r -> 0 <= fst r <= full - mn /\ mn <= snd r /\ fst r + snd r <= full).
  { induction j as [|j IH]; intros r E; destruct (W _ _ E) as (F & L).
    - rewrite Z.mod_0_l in F by lia. cbn in F. rewrite F in *. destruct (_ =? _); lia.
    - cbn [pred] in F. destruct (nth_error h j) as [p|] eqn:Ep. 2: { apply nth_error_None in Ep. assert (S j < List.length h)%nat by (apply nth_error_Some; congruence). lia. }
      destruct (IH p eq_refl) as (B1 & B2 & B3). destruct (Z.of_nat (S j) mod ns full =? 0); destruct (Z.of_nat (S j) mod ns full =? ns full - 1); lia. }
  split.
  - apply Forall_forall. intros r I. apply In_nth_error in I. destruct I as (j & E). destruct (A j r E) as (? & ? & ?). repeat split; lia.
  - intros p E. destruct (A _ _ E) as (? & ? & ?). lia.
Qed.
Lemma next_off_ok full h : mn <= full -> 1 <= ns full -> walk mn mx ov full (ns full) h -> 0 <= next_off mn ov full (ns full) h <= full - mn.
Proof.
  intros LF LN W. unfold next_off. destruct (_ =? 0); [lia|]. destruct (nth_error h (pred (List.length h))) as [p|] eqn:E; [|lia]. pose proof (proj2 (walk_inside full h LF LN W) p E). lia.
Qed.
Lemma walk_snoc full h r : 1 <= ns full -> walk mn mx ov full (ns full) h -> follows mn mx ov full (ns full) (List.length h) (nth_error h (pred (List.length h))) r -> walk mn mx ov full (ns full) (h ++ [r]).
Proof.
  intros LN W F j x E. destruct (Nat.lt_ge_cases j (List.length h)) as [L|L].
  - rewrite nth_error_app1 in E by exact L. rewrite nth_error_app1 by lia. apply W. exact E.
  - rewrite nth_error_app2 in E by exact L. destruct (j - List.length h)%nat as [|k] eqn:K; [|destruct k; discriminate]. cbn in E. injection E as <-. assert (j = List.length h) by lia. subst j. destruct h as [|a h]; [|rewrite nth_error_app1 by (cbn; lia); exact F]. destruct F as (F1 & F2). cbn [List.length] in *. change (Z.of_nat 0) with 0 in *. split; [|exact F2]. rewrite Z.mod_0_l in F1 |- * by lia. exact F1.
Qed.
Lemma succ_mod a n : 1 <= n -> 0 <= a -> (a + 1) mod n = (if a mod n =? n - 1 then 0 else a mod n + 1).
Proof.
  intros N A. pose proof (Z.div_mod a n ltac:(lia)) as D. pose proof (Z.mod_pos_bound a n ltac:(lia)) as B. destruct (Z.eqb_spec (a mod n) (n - 1)) as [E|E].
  - replace (a + 1) with ((a / n + 1) * n) by lia. apply Z.mod_mul. lia.
  - symmetry. apply (Z.mod_unique _ _ (a / n)); lia.
Qed.
Lemma nth_set_nth {A} (l : list A) i x j : (i < List.length l)%nat -> nth_error (set_nth l i x) j = if Nat.eqb i j then Some x else nth_error l j.
Proof. intros L. destruct (Nat.eqb_spec i j) as [<-|N]; [apply set_nth_same; exact L|apply set_nth_other; congruence]. Qed.

Lemma step g H i : SInv g -> long_enough g -> Epoch g H -> (g_seq g < List.length (g_u2c g))%nat -> (forall subs, g_subs g = Some subs -> seek (g_sub g) subs (g_seq g) (List.length (g_u2c g)) = Some i) ->
  exists q g', sequential_one num_rows draw c g = Ok (q, g') /\ q_pos q = i /\ (i < List.length (g_u2c g))%nat /\ SInv g' /\ Epoch g' (H ++ [q]) /\ frozen g g' /\ g_init_subs g' = g_init_subs g /\ g_seq g' = ((i + 1) mod List.length (g_u2c g))%nat.
Proof.
  intros S LE EP LS SK. pose proof S as [I S1 S2 S3 S4 S5 S6 S7]. unfold sequential_one, seq_lengths. rewrite S7. rewrite S4. unfold num_seqs. rewrite (proj2 (Nat.eqb_neq _ _)) by lia. rewrite (SK _ S4).
  assert (LS6 : (g_seq g < List.length (g_sub g))%nat) by lia. destruct (seek_some _ _ _ _ _ LS6 (SK _ S4)) as (Li & NE). rewrite S6 in Li. cbn [set_seq g_u2c g_frame g_sub]. unfold at_.
  destruct (nth_error (g_u2c g) i) as [row|] eqn:ER. 2: { apply nth_error_None in ER. lia. } cbn [bind]. set (full := num_rows (fst row)) in *. assert (LF : mn <= full) by (apply LE; apply (nth_error_In _ _ ER)).
  assert (LN : 1 <= ns full) by (apply ceil_div_pos; lia). destruct (ep_walk _ _ EP i row ER) as (W & F & SB & LB). fold full in W, F, SB, LB. rewrite F. cbn [bind]. unfold lens_of at 1. rewrite nth_error_map, ER. cbn [option_map bind]. fold full. rewrite SB. cbn [bind]. rewrite !nth_error_map. unfold lens_of. rewrite !nth_error_map, ER. cbn [option_map bind]. fold full. fold (ns full).
  unfold max_len. cbn [set_seq g_max]. rewrite S2. cbn [bind]. unfold min_len. cbn [set_seq g_min]. rewrite S1. cbn [bind].
  set (h := hist i H) in *. set (first := next_off mn ov full (ns full) h) in *. pose proof (next_off_ok full h LF LN W) as FO. fold first in FO.
  set (k := if c_balanced_seqs c then Z.of_nat (List.length h) mod ns full else Z.of_nat (List.length h)) in *.
  assert (NK : k <> ns full). { rewrite (nth_error_nth _ _ 0 SB) in NE. unfold lens_of in NE. rewrite (nth_error_nth (map _ (map _ (g_u2c g))) i 0 (x := ns full)) in NE; [exact NE|]. rewrite !nth_error_map, ER. reflexivity. }
  assert (KM : k = Z.of_nat (List.length h) mod ns full). { unfold k in *. destruct (c_balanced_seqs c); [reflexivity|]. symmetry. apply Z.mod_small. specialize (LB eq_refl). lia. }
  assert (K' : (if c_balanced_seqs c then (k + 1) mod ns full else k + 1) = (if c_balanced_seqs c then Z.of_nat (List.length h + 1) mod ns full else Z.of_nat (List.length h + 1))). { rewrite Nat2Z.inj_add. change (Z.of_nat 1) with 1. unfold k in *. destruct (c_balanced_seqs c); [|reflexivity]. rewrite Z.add_mod_idemp_l by lia. reflexivity. }
  assert (FIN : forall n, (if k =? ns full - 1 then n = Z.min (full - first) mx else mn <= n <= Z.min (Z.max mn (full - first - mn)) mx) -> forall g', g_u2c g' = g_u2c g ->
     g_frame g' = set_nth (g_frame g) i (if k =? ns full - 1 then 0 else Z.min (full - mn) (first + n - ov)) -> g_sub g' = set_nth (g_sub g) i (if c_balanced_seqs c then (k + 1) mod ns full else k + 1) -> Epoch g' (H ++ [mk_req i (fst row) (Some (first, n))])).
  { intros n Hn g' U GF GS. destruct EP as [EP1 EP2]. constructor.
    - rewrite U. apply Forall_app. split; [exact EP1|]. constructor; [|constructor]. exists row, (first, n). split; [exact ER|]. split; reflexivity.
    - rewrite U, GF, GS, K'. intros j row' ER'. rewrite !nth_set_nth by lia. rewrite hist_app. cbn [q_pos q_range]. destruct (Nat.eqb_spec i j) as [<-|NJ].
      + rewrite ER in ER'. injection ER' as <-. fold full. fold h. assert (FW : follows mn mx ov full (ns full) (List.length h) (nth_error h (pred (List.length h))) (first, n)). { split; cbn [fst snd]; [reflexivity|]. rewrite <- KM. exact Hn. } split; [apply walk_snoc; assumption|]. split; [|split].
        * f_equal. unfold next_off. rewrite app_length. cbn [List.length]. rewrite Nat.add_1_r. cbn [pred]. rewrite Nat2Z.inj_succ, <- Z.add_1_r, succ_mod by lia. rewrite <- KM. destruct (k =? ns full - 1); [reflexivity|]. pose proof (Z.mod_pos_bound (Z.of_nat (List.length h)) (ns full) ltac:(lia)). rewrite (proj2 (Z.eqb_neq (k + 1) 0)) by lia. rewrite nth_error_app2, Nat.sub_diag by lia. reflexivity.
        * rewrite app_length. reflexivity.
        * intros B. rewrite app_length. cbn [List.length]. unfold k in NK. rewrite B in NK. specialize (LB B). lia.
      + rewrite app_nil_r. apply EP2. exact ER'. }
  assert (SIN : forall f s q r, List.length f = List.length (g_frame g) -> List.length s = List.length (g_sub g) -> SInv (set_seq q (set_pos f s (set_rng r (set_seq i g))))).
  { intros f s q r Lf Lq. constructor; cbn; try assumption; try congruence. apply (inv_transfer num_rows c g); try reflexivity; exact I. }
  destruct (Z.eqb_spec k (ns full - 1)) as [KL|KL].
  - cbn [bind fst snd]. eexists. eexists. split; [reflexivity|]. split; [reflexivity|]. split; [exact Li|]. split; [|split; [|split; [repeat split|split; [reflexivity|]]]].
    + specialize (SIN (set_nth (g_frame g) i 0) (set_nth (g_sub g) i (if c_balanced_seqs c then (k + 1) mod ns full else k + 1)) ((i + 1) mod List.length (g_u2c g))%nat (g_rng g)). assert (Er : set_rng (g_rng g) (set_seq i g) = set_seq i g) by (destruct g; reflexivity). rewrite Er in SIN. apply SIN; apply set_nth_length.
    + apply FIN; [|reflexivity|cbn; reflexivity|cbn; reflexivity]. reflexivity.
    + cbn. reflexivity.
  - unfold randint. destruct (Z.ltb_spec (Z.min (full - first) mn) (Z.min (Z.max mn (full - first - mn)) mx + 1)) as [LT|GE]; [|lia]. cbn [bind fst snd]. set (n := draw _ _ _ _). assert (Bn : Z.min (full - first) mn <= n < Z.min (Z.max mn (full - first - mn)) mx + 1) by (apply V; exact LT). clearbody n.
    eexists. eexists. split; [reflexivity|]. split; [reflexivity|]. split; [exact Li|]. split; [|split; [|split; [repeat split|split; [reflexivity|]]]].
    + apply SIN; cbn; apply set_nth_length.
    + apply FIN; [|reflexivity|cbn; reflexivity|cbn; reflexivity]. lia.
    + cbn. reflexivity.
Qed.
End G.
