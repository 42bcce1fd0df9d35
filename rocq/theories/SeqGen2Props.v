(** C97: the class-balanced generator of batches. *)
From Coq Require Import Lia Permutation.
From Verif Require Import Base BaseFacts Mat Utt2Info SeqGen SeqGenProofs SeqGenSeq BalanceProps MatProofs SeqGen2.
Open Scope list_scope. Open Scope Z_scope.

(** the classes in the order of the labels *)
Definition class_names (c : cfg2) (rows : list u2row) : list string := match d_classes c with None => unique (map snd rows) | Some l => l end.
Definition one_hot (n k : nat) : list Z := map (fun i => if Nat.eqb i k then 1 else 0) (seq 0 n).
(** the limits of the length of a sub-sequence: the given ones, or the shortest and the longest utterance *)
Definition limits (num_rows : string -> Z) (c : cfg2) (rows : list u2row) (mn mx : Z) : Prop :=
  (d_min c = Some mn \/ d_min c = None /\ is_min mn (lens_of num_rows rows)) /\ (d_max c = Some mx \/ d_max c = None /\ is_max mx (lens_of num_rows rows)).
(** a correct batch: request j comes from utterance u (j / epu); utterances a and b with a / epc = b / epc have the same class *)
Definition good_batch (num_rows : string -> Z) (c : cfg2) (rows : list u2row) (mn mx : Z) (b : batch) : Prop :=
  len (b_reqs b) = d_batch c /\
  (d_return_class c = false -> b_labels b = None) /\
  exists u : nat -> u2row,
    (forall j, (j < d_batch c)%nat -> exists off n, let row := u (j / d_epu c)%nat in In row rows /\ nth_error (b_reqs b) j = Some (fst row, off, n) /\
      0 <= off /\ off + n <= num_rows (fst row) /\ Z.min (num_rows (fst row)) mn <= n <= Z.min (num_rows (fst row)) mx /\
      (d_return_class c = true -> exists ls k, b_labels b = Some ls /\ len ls = d_batch c /\ nth_error ls j = Some (one_hot (len (class_names c rows)) k) /\ nth_error (class_names c rows) k = Some (snd row))) /\
    forall a a', (a / d_epc c = a' / d_epc c)%nat -> (a * d_epu c < d_batch c)%nat -> (a' * d_epu c < d_batch c)%nat -> snd (u a) = snd (u a').
Definition valid_draw {St} (draw : St -> Z -> Z -> Z * St) : Prop := forall s lo hi, lo < hi -> lo <= fst (draw s lo hi) < hi.
(** repeated draws of a class sooner or later give each one *)
Fixpoint after {St} (draw : St -> Z -> Z -> Z * St) (hi : Z) (k : nat) (s : St) : St := match k with O => s | S k => after draw hi k (snd (draw s 0 hi)) end.
Definition fair {St} (draw : St -> Z -> Z -> Z * St) : Prop := forall s hi v, 0 <= v < hi -> exists k, fst (draw (after draw hi k s) 0 hi) = v.

Lemma repeat_each_len {A} k (l : list A) : len (repeat_each k l) = (len l * k)%nat.
Proof. induction l as [|a l IH]; [reflexivity|]. unfold repeat_each in *. cbn [flat_map length]. rewrite app_length, repeat_length, IH. lia. Qed.
Lemma repeat_each_nth {A} k (l : list A) j : (0 < k)%nat -> nth_error (repeat_each k l) j = nth_error l (j / k).
Proof.
  intros K. revert j. induction l as [|a l IH]; intros j; unfold repeat_each in *; cbn [flat_map]; [destruct j, (_ / k)%nat; reflexivity|].
  destruct (Nat.lt_ge_cases j k) as [L|G].
  - rewrite nth_error_app1 by (rewrite repeat_length; exact L). rewrite nth_error_repeat by exact L. rewrite Nat.div_small by exact L. reflexivity.
  - rewrite nth_error_app2 by (rewrite repeat_length; exact G). rewrite repeat_length, IH. replace (j / k)%nat with (S ((j - k) / k)); [reflexivity|].
    replace j with (1 * k + (j - k))%nat at 2 by lia. rewrite Nat.div_add_l by lia. reflexivity.
Qed.
Lemma utts_in ids k u : In u (utts_of ids k) <-> nth_error ids u = Some k.
Proof.
  unfold utts_of. rewrite nonzero_in_iff. rewrite nth_error_map. destruct (nth_error ids u) as [i|]; cbn [option_map]; [|split; discriminate].
  destruct (Nat.eqb_spec k i); split; intros E; congruence.
Qed.
Lemma last_index_spec w l : forall i k, last_index w i l = Some k -> exists j, k = (i + j)%nat /\ nth_error l j = Some w.
Proof.
  induction l as [|v l IH]; intros i k H; cbn [last_index] in H; [discriminate|]. destruct (last_index w (S i) l) as [k'|] eqn:E.
  - injection H as ->. destruct (IH _ _ E) as (j & -> & J). exists (S j). split; [lia|exact J].
  - destruct (eqb w v) eqn:Q; [|discriminate]. injection H as <-. apply eqb_eq in Q. subst v. exists 0%nat. split; [lia|reflexivity].
Qed.
Lemma unique_len_nodup (l : list string) : NoDup l -> len (unique l) = len l.
Proof. intros N. apply Permutation_length. apply NoDup_Permutation; [apply unique_nodup|exact N|]. intros y. split; [apply (proj1 (unique_in _ _))|apply (proj2 (unique_in _ _))]. Qed.
Lemma set_nth_hot n k : (k < n)%nat -> set_nth (repeat 0 n) k 1 = one_hot n k.
Proof.
  intros L. apply nth_error_ext. intros j. unfold one_hot. rewrite nth_error_map. destruct (Nat.eq_dec k j) as [->|N].
  - rewrite set_nth_same by (rewrite repeat_length; exact L). rewrite (nth_error_nth' (seq 0 n) 0%nat) by (rewrite seq_length; exact L). rewrite seq_nth by exact L. cbn [option_map]. rewrite Nat.eqb_refl. reflexivity.
  - rewrite set_nth_other by exact N. destruct (Nat.lt_ge_cases j n) as [J|J].
    + rewrite nth_error_repeat by exact J. rewrite (nth_error_nth' (seq 0 n) 0%nat) by (rewrite seq_length; exact J). rewrite seq_nth by exact J. cbn [option_map]. destruct (Nat.eqb_spec (0 + j) k); [lia|reflexivity].
    + rewrite (proj2 (nth_error_None _ _)) by (rewrite repeat_length; exact J). rewrite (proj2 (nth_error_None _ _)) by (rewrite seq_length; exact J). reflexivity.
Qed.
Lemma at_ok {A} (l : list A) i a : nth_error l i = Some a -> at_ l i = Ok a. Proof. unfold at_. intros ->. reflexivity. Qed.
Lemma at_inv {A} (l : list A) i a : at_ l i = Ok a -> nth_error l i = Some a. Proof. unfold at_. destruct (nth_error l i); [congruence|discriminate]. Qed.

Section P.
Variable num_rows : string -> Z.
Variable St : Type.
Variable seed : Z -> St.
Variable draw : St -> Z -> Z -> Z * St.
Variable c : cfg2.
Variable x : fixed.
Hypothesis VD : valid_draw draw.
Hypothesis IDS : len (x_ids x) = len (x_rows x).
Hypothesis NUM : x_num x = len (class_names c (x_rows x)).
Hypothesis CLS : forall u k row, nth_error (x_ids x) u = Some k -> nth_error (x_rows x) u = Some row -> nth_error (class_names c (x_rows x)) k = Some (snd row).
Hypothesis ORD : x_min x <= x_max x.

Lemma randint_ok lo hi s : lo < hi -> exists v s', randint2 St draw lo hi s = Ok (v, s') /\ lo <= v < hi.
Proof. intros L. unfold randint2. rewrite (proj2 (Z.ltb_lt _ _) L). destruct (draw s lo hi) as (v, s') eqn:E. exists v, s'. split; [reflexivity|]. pose proof (VD s lo hi L) as H. rewrite E in H. exact H. Qed.
Lemma draw_subs_ok us : forall s, (forall u, In u us -> (u < len (x_rows x))%nat) -> exists qs s', draw_subs num_rows St draw x us s = Ok (qs, s') /\ len qs = len us /\
  forall j u, nth_error us j = Some u -> exists row off n, nth_error (x_rows x) u = Some row /\ nth_error qs j = Some (fst row, off, n) /\ 0 <= off /\ off + n <= num_rows (fst row) /\
    Z.min (num_rows (fst row)) (x_min x) <= n <= Z.min (num_rows (fst row)) (x_max x).
Proof.
  induction us as [|u us IH]; intros s H; [exists [], s; split; [reflexivity|]; split; [reflexivity|]; intros [|j] ? E; discriminate|].
  destruct (nth_error (x_rows x) u) as [row|] eqn:Er; [|apply nth_error_None in Er; specialize (H u (or_introl eq_refl)); lia].
  destruct (randint_ok (Z.min (num_rows (fst row)) (x_min x)) (Z.min (num_rows (fst row)) (x_max x) + 1) s) as (n & s1 & E1 & B1); [lia|].
  destruct (randint_ok 0 (num_rows (fst row) - n + 1) s1) as (f & s2 & E2 & B2); [lia|].
  destruct (IH s2) as (qs & s3 & E3 & L3 & V3); [intros v Hv; apply H; right; exact Hv|].
  exists ((fst row, f, n) :: qs), s3. split; [cbn [draw_subs]; rewrite (at_ok _ _ _ Er); cbn [bind]; rewrite E1; cbn [bind]; rewrite E2; cbn [bind]; rewrite E3; reflexivity|].
  split; [cbn [length]; rewrite L3; reflexivity|]. intros [|j] v E; cbn [nth_error] in *; [injection E as <-|apply V3; exact E]. exists row, f, n. split; [exact Er|]. split; [reflexivity|]. lia.
Qed.
Lemma draw_utts_ok cls : forall s, (forall k, In k cls -> utts_of (x_ids x) k <> []) -> exists us s', draw_utts St draw x cls s = Ok (us, s') /\ len us = len cls /\
  forall j k, nth_error cls j = Some k -> exists u, nth_error us j = Some u /\ nth_error (x_ids x) u = Some k.
Proof.
  induction cls as [|k cls IH]; intros s H; [exists [], s; split; [reflexivity|]; split; [reflexivity|]; intros [|j] ? E; discriminate|].
  pose proof (H k (or_introl eq_refl)) as NE. assert (LP : (0 < len (utts_of (x_ids x) k))%nat) by (destruct (utts_of (x_ids x) k); [congruence|cbn; lia]).
  destruct (randint_ok 0 (Z.of_nat (len (utts_of (x_ids x) k))) s) as (v & s1 & E1 & B1); [lia|].
  destruct (nth_error (utts_of (x_ids x) k) (Z.to_nat v)) as [u|] eqn:Eu; [|apply nth_error_None in Eu; lia].
  destruct (IH s1) as (us & s2 & E2 & L2 & V2); [intros i Hi; apply H; right; exact Hi|].
  exists (u :: us), s2. split; [cbn [draw_utts]; rewrite E1; cbn [bind]; rewrite (at_ok _ _ _ Eu); cbn [bind]; rewrite E2; reflexivity|]. split; [cbn [length]; rewrite L2; reflexivity|].
  intros [|j] i E; cbn [nth_error] in *; [injection E as <-|apply V2; exact E]. exists u. split; [reflexivity|]. apply utts_in. apply (nth_error_In _ _ Eu).
Qed.
Definition used_class (k : nat) : Prop := (k < x_num x)%nat /\ utts_of (x_ids x) k <> [].
Lemma draw_all_ok n : forall s, (0 < x_num x)%nat -> (forall k, (k < x_num x)%nat -> utts_of (x_ids x) k <> []) ->
  exists l s', draw_all St draw x n s = Ok (l, s') /\ len l = n /\ forall k, In k l -> used_class k.
Proof.
  induction n as [|n IH]; intros s NP H; [exists [], s; repeat split; destruct H0|]. destruct (randint_ok 0 (Z.of_nat (x_num x)) s) as (v & s1 & E1 & B1); [lia|].
  destruct (IH s1 NP H) as (l & s2 & E2 & L2 & V2). exists (Z.to_nat v :: l), s2. split; [cbn [draw_all]; rewrite E1; cbn [bind]; rewrite E2; reflexivity|]. split; [cbn; rewrite L2; reflexivity|].
  intros k [<-|Hk]; [|apply V2; exact Hk]. split; [lia|apply H; lia].
Qed.
Lemma used_ltb k : (0 <? len (utts_of (x_ids x) k))%nat = true <-> utts_of (x_ids x) k <> [].
Proof. rewrite Nat.ltb_lt. destruct (utts_of (x_ids x) k); cbn; split; intros; try lia; try congruence. Qed.
Lemma draw_used_mono n : forall f f' s r, draw_used St draw x f n s = Some r -> (f <= f')%nat -> draw_used St draw x f' n s = Some r.
Proof.
  intros f. revert n. induction f as [|f IH]; intros n f' s r H L.
  - destruct n; [destruct f'; exact H|discriminate].
  - destruct n as [|n]; [destruct f'; exact H|]. destruct f' as [|f']; [lia|]. cbn [draw_used] in *. destruct (randint2 _ _ _ _ s) as [(v, s1)|e]; [|exact H].
    destruct (0 <? _)%nat; [|apply (IH (S n)); [exact H|lia]]. destruct (draw_used St draw x f n s1) as [r1|] eqn:E; [|discriminate]. rewrite (IH _ f' _ _ E) by lia. exact H.
Qed.
Lemma one_used (FAIR : fair draw) s k0 : used_class k0 -> exists f v s', used_class v /\ forall n f', (f < f')%nat -> draw_used St draw x f' (S n) s = match draw_used St draw x (f' - S f) n s' with Some (Ok (l, s)) => Some (Ok (v :: l, s)) | r => r end.
Proof.
  intros U. destruct (FAIR s (Z.of_nat (x_num x)) (Z.of_nat k0)) as (k & Hk); [destruct U; lia|]. revert s Hk. induction k as [|k IH]; intros s Hk.
  - cbn [after] in Hk. destruct (randint_ok 0 (Z.of_nat (x_num x)) s) as (v & s1 & E1 & B1); [destruct U; lia|]. unfold randint2 in E1. destruct (Z.ltb_spec 0 (Z.of_nat (x_num x))); [|discriminate]. injection E1 as E1. rewrite E1 in Hk. cbn [fst] in Hk. subst v.
    exists 0%nat, k0, s1. split; [exact U|]. intros n [|f'] L; [lia|]. cbn [draw_used]. unfold randint2. rewrite (proj2 (Z.ltb_lt _ _) H), E1. rewrite Nat2Z.id. rewrite (proj2 (used_ltb k0) (proj2 U)). replace (S f' - 1)%nat with f' by lia. reflexivity.
  - destruct (randint_ok 0 (Z.of_nat (x_num x)) s) as (v & s1 & E1 & B1); [destruct U; lia|]. unfold randint2 in E1. destruct (Z.ltb_spec 0 (Z.of_nat (x_num x))); [|discriminate]. injection E1 as E1.
    cbn [after] in Hk. rewrite E1 in Hk. cbn [snd] in Hk. destruct (0 <? len (utts_of (x_ids x) (Z.to_nat v)))%nat eqn:Q.
    + exists 0%nat, (Z.to_nat v), s1. split; [split; [lia|apply used_ltb; exact Q]|]. intros n [|f'] L; [lia|]. cbn [draw_used]. unfold randint2. rewrite (proj2 (Z.ltb_lt _ _) H), E1, Q. replace (S f' - 1)%nat with f' by lia. reflexivity.
    + destruct (IH s1 Hk) as (f & w & s2 & W & R). exists (S f), w, s2. split; [exact W|]. intros n [|f'] L; [lia|]. change (draw_used St draw x (S f') (S n) s) with (match randint2 St draw 0 (Z.of_nat (x_num x)) s with Err e => Some (Err e) | Ok (v, s) => if (0 <? len (utts_of (x_ids x) (Z.to_nat v)))%nat then match draw_used St draw x f' n s with Some (Ok (l, s)) => Some (Ok (Z.to_nat v :: l, s)) | r => r end else draw_used St draw x f' (S n) s end).
      unfold randint2. rewrite (proj2 (Z.ltb_lt _ _) H), E1, Q. rewrite (R n f') by lia. reflexivity.
Qed.
Lemma draw_used_ok (FAIR : fair draw) n : forall s k0, used_class k0 -> exists f l s', (forall f', (f <= f')%nat -> draw_used St draw x f' n s = Some (Ok (l, s'))) /\ len l = n /\ forall k, In k l -> used_class k.
Proof.
  induction n as [|n IH]; intros s k0 U.
  - exists 0%nat, [], s. split; [intros [|f'] _; reflexivity|]. split; [reflexivity|intros k []].
  - destruct (one_used FAIR s k0 U) as (f & v & s1 & V & R). destruct (IH s1 k0 U) as (f2 & l & s2 & E & L & W). exists (S f + f2)%nat, (v :: l), s2. split; [|split; [cbn; rewrite L; reflexivity|intros k [<-|Hk]; auto]].
    intros f' Hf. rewrite (R n f') by lia. rewrite E by lia. reflexivity.
Qed.
Hypothesis FAIR : (exists k, (k < x_num x)%nat /\ utts_of (x_ids x) k = []) -> fair draw.
Lemma draw_classes_ok s k0 : used_class k0 -> exists f l s', (forall f', (f <= f')%nat -> draw_classes St draw c x f' s = Some (Ok (l, s'))) /\ len l = num_drawn c /\ forall k, In k l -> used_class k.
Proof.
  intros U. unfold draw_classes. destruct (forallb _ _) eqn:FA.
  - destruct (draw_all_ok (num_drawn c) s) as (l & s' & E & L & V); [destruct U; lia| |exists 0%nat, l, s'; split; [intros _ _; rewrite E; reflexivity|auto]].
    intros k Hk. rewrite forallb_forall in FA. apply used_ltb. apply FA. apply in_seq. lia.
  - refine (draw_used_ok (FAIR _) _ s k0 U). assert (Q : exists k, In k (seq 0 (x_num x)) /\ (0 <? len (utts_of (x_ids x) k))%nat = false).
    { revert FA. generalize (seq 0 (x_num x)). intros l. induction l as [|a l IH]; [discriminate|]. cbn [forallb]. destruct (0 <? len (utts_of (x_ids x) a))%nat eqn:Q; [|intros _; exists a; split; [left; reflexivity|exact Q]].
      intros H. destruct (IH H) as (k & A & B). exists k. split; [right; exact A|exact B]. }
    destruct Q as (k & A & B). apply in_seq in A. exists k. split; [lia|]. destruct (utts_of (x_ids x) k); [reflexivity|discriminate].
Qed.
Hypothesis EPC : (0 < d_epc c)%nat.
Hypothesis EPU : (0 < d_epu c)%nat.
Lemma drawn_enough : (d_batch c <= num_drawn c * d_epc c * d_epu c)%nat.
Proof.
  unfold num_drawn. pose proof (ceil_div_ge (Z.of_nat (d_batch c)) (Z.of_nat (d_epc c * d_epu c)) ltac:(nia)). nia.
Qed.

Lemma mapM_at {A} (l : list A) n : (n <= len l)%nat -> mapM (at_ l) (seq 0 n) = Ok (firstn n l).
Proof.
  revert l. induction n as [|n IH]; intros l L; [reflexivity|]. destruct l as [|a l]; [cbn in L; lia|]. cbn [seq mapM firstn]. change (at_ (a :: l) 0) with (Ok a). cbn [bind].
  rewrite <- seq_shift. assert (E : mapM (at_ (a :: l)) (map S (seq 0 n)) = mapM (at_ l) (seq 0 n)). { generalize (seq 0 n). intros q. induction q as [|i q IHq]; [reflexivity|]. cbn [map mapM]. change (at_ (a :: l) (S i)) with (at_ l i). rewrite IHq. reflexivity. }
  rewrite E, IH by (cbn in L; lia). reflexivity.
Qed.
Lemma subseqs_ok cls s : len cls = num_drawn c -> (forall k, In k cls -> used_class k) -> exists qs us s',
  subseqs num_rows St draw c x cls s = Ok (qs, repeat_each (d_epu c) (repeat_each (d_epc c) cls), s') /\ len qs = d_batch c /\ len us = (num_drawn c * d_epc c)%nat /\
  (forall a u, nth_error us a = Some u -> exists k, nth_error cls (a / d_epc c) = Some k /\ nth_error (x_ids x) u = Some k) /\
  forall j, (j < d_batch c)%nat -> exists u row off n, nth_error us (j / d_epu c) = Some u /\ nth_error (x_rows x) u = Some row /\ nth_error qs j = Some (fst row, off, n) /\
    0 <= off /\ off + n <= num_rows (fst row) /\ Z.min (num_rows (fst row)) (x_min x) <= n <= Z.min (num_rows (fst row)) (x_max x).
Proof.
  intros L U. unfold subseqs. destruct (draw_utts_ok (repeat_each (d_epc c) cls) s) as (us & s1 & E1 & L1 & V1).
  { intros k Hk. apply in_flat_map in Hk as (k' & H1 & H2). apply repeat_spec in H2. subst k'. apply U. exact H1. }
  rewrite repeat_each_len, L in L1.
  assert (LU : len (repeat_each (d_epu c) us) = (num_drawn c * d_epc c * d_epu c)%nat) by (rewrite repeat_each_len, L1; reflexivity). pose proof drawn_enough as DE.
  assert (VU : forall a u, nth_error us a = Some u -> exists k, nth_error cls (a / d_epc c) = Some k /\ nth_error (x_ids x) u = Some k).
  { intros a u Ha. assert (A : (a < len us)%nat) by (apply nth_error_Some; congruence). destruct (nth_error (repeat_each (d_epc c) cls) a) as [k|] eqn:Ek; [|apply nth_error_None in Ek; rewrite repeat_each_len, L in Ek; lia].
    destruct (V1 a k Ek) as (u' & Hu' & Hk). rewrite repeat_each_nth in Ek by exact EPC. exists k. split; [exact Ek|]. congruence. }
  destruct (draw_subs_ok (firstn (d_batch c) (repeat_each (d_epu c) us)) s1) as (qs & s2 & E2 & L2 & V2).
  { intros u Hu. apply (fun H => proj1 (in_app_iff _ (skipn (d_batch c) (repeat_each (d_epu c) us)) u) (proj2 (in_app_iff _ _ u) (or_introl H))) in Hu. rewrite <- in_app_iff, firstn_skipn in Hu. apply in_flat_map in Hu as (u' & H1 & H2). apply repeat_spec in H2. subst u'.
    apply In_nth_error in H1 as (a & Ha). destruct (VU a u Ha) as (k & _ & Hk). rewrite <- IDS. apply nth_error_Some. congruence. }
  exists qs, us, s2. split; [rewrite E1; cbn [bind]; rewrite mapM_at by lia; cbn [bind]; rewrite E2; reflexivity|]. split; [rewrite L2, firstn_length; lia|]. split; [exact L1|]. split; [exact VU|].
  intros j Hj. destruct (nth_error (repeat_each (d_epu c) us) j) as [u|] eqn:Eu; [|apply nth_error_None in Eu; lia].
  destruct (V2 j u) as (row & off & n & A1 & A2 & A3); [rewrite nth_error_firstn; rewrite (proj2 (Nat.ltb_lt _ _) Hj); exact Eu|]. exists u, row, off, n. rewrite repeat_each_nth in Eu by exact EPU. auto.
Qed.
Definition next (g : gen2 St) (s : St) : gen2 St :=
  if (h_step St g + 1) mod x_steps x =? 0 then mk_gen2 St (seed (if d_reset_rng c then d_seed c else d_seed c + h_epoch St g)) 0 (h_epoch St g + 1)
  else mk_gen2 St s ((h_step St g + 1) mod x_steps x) (h_epoch St g).
Lemma mapM_ok_of {A B} (f : A -> res B) (l : list A) : (forall i a, nth_error l i = Some a -> exists b, f a = Ok b) -> exists bs, mapM f l = Ok bs /\ len bs = len l /\ forall i a, nth_error l i = Some a -> exists b, f a = Ok b /\ nth_error bs i = Some b.
Proof.
  induction l as [|a l IH]; intros H; [exists []; repeat split; intros [|i] ? E; discriminate|]. destruct (H 0%nat a eq_refl) as (b & Eb). destruct IH as (bs & E & L & V); [intros i a' Ha; apply (H (S i) a' Ha)|].
  exists (b :: bs). split; [cbn [mapM]; rewrite Eb; cbn [bind]; rewrite E; reflexivity|]. split; [cbn; rewrite L; reflexivity|]. intros [|i] a' Ha; [injection Ha as <-; eauto|apply V; exact Ha].
Qed.
Hypothesis ROWS : x_rows x <> [].
Hypothesis STEPS : 1 <= x_steps x.
Hypothesis U1H : d_utt1hot c = false.
Lemma some_used : exists k, used_class k.
Proof.
  destruct (x_rows x) as [|row rows] eqn:Er; [congruence|]. destruct (x_ids x) as [|k ids] eqn:Ei; [cbn in IDS; lia|]. exists k. split.
  - rewrite NUM. apply nth_error_Some. rewrite (CLS 0%nat k row eq_refl eq_refl). congruence.
  - rewrite Ei. intros E. assert (H : In 0%nat (utts_of (k :: ids) k)) by (apply utts_in; reflexivity). rewrite E in H. destruct H.
Qed.
Lemma read_ok g : exists f b s, (forall f', (f <= f')%nat -> read2 num_rows St seed draw c x f' g = Some (Ok (b, next g s))) /\ good_batch num_rows c (x_rows x) (x_min x) (x_max x) b.
Proof.
  destruct some_used as (k0 & U0). destruct (draw_classes_ok (h_rng St g) k0 U0) as (f & cls & s1 & E1 & L1 & V1). destruct (subseqs_ok cls s1 L1 V1) as (qs & us & s2 & E2 & L2 & LU & VU & V2).
  set (row_of := fun a => match nth_error us a with Some u => match nth_error (x_rows x) u with Some r => r | None => ("", "")%string end | None => ("", "")%string end).
  assert (RO : forall j, (j < d_batch c)%nat -> exists off n, In (row_of (j / d_epu c)%nat) (x_rows x) /\ nth_error qs j = Some (fst (row_of (j / d_epu c)%nat), off, n) /\
      0 <= off /\ off + n <= num_rows (fst (row_of (j / d_epu c)%nat)) /\ Z.min (num_rows (fst (row_of (j / d_epu c)%nat))) (x_min x) <= n <= Z.min (num_rows (fst (row_of (j / d_epu c)%nat))) (x_max x) /\
      exists k, nth_error (repeat_each (d_epu c) (repeat_each (d_epc c) cls)) j = Some k /\ nth_error (class_names c (x_rows x)) k = Some (snd (row_of (j / d_epu c)%nat))).
  { intros j Hj. destruct (V2 j Hj) as (u & row & off & n & A1 & A2 & A3 & A4 & A5 & A6). exists off, n. assert (R : row_of (j / d_epu c)%nat = row) by (unfold row_of; rewrite A1, A2; reflexivity). rewrite R.
    split; [exact (nth_error_In _ _ A2)|]. split; [exact A3|]. split; [exact A4|]. split; [exact A5|]. split; [exact A6|]. destruct (VU _ _ A1) as (k & B1 & B2). exists k. rewrite !repeat_each_nth by assumption. split; [exact B1|]. exact (CLS u k row B2 A2). }
  assert (SAME : forall a a', (a / d_epc c = a' / d_epc c)%nat -> (a * d_epu c < d_batch c)%nat -> (a' * d_epu c < d_batch c)%nat -> snd (row_of a) = snd (row_of a')).
  { intros a a' D Ha Ha'. pose proof drawn_enough as DE.
    assert (G : forall b, (b * d_epu c < d_batch c)%nat -> exists k, nth_error cls (b / d_epc c) = Some k /\ nth_error (class_names c (x_rows x)) k = Some (snd (row_of b))).
    { intros b Hb. destruct (nth_error us b) as [u|] eqn:Eu; [|apply nth_error_None in Eu; nia]. destruct (VU b u Eu) as (k & B1 & B2). exists k. split; [exact B1|]. destruct (nth_error (x_rows x) u) as [row|] eqn:Er.
      - unfold row_of. rewrite Eu, Er. exact (CLS u k row B2 Er).
      - apply nth_error_None in Er. assert (u < len (x_ids x))%nat by (apply nth_error_Some; congruence). lia. }
    destruct (G a Ha) as (k & K1 & K2). destruct (G a' Ha') as (k' & K1' & K2'). congruence. }
  assert (GEN : forall y, (d_return_class c = false -> y = None) -> (d_return_class c = true -> exists ls, y = Some ls /\ len ls = d_batch c /\ forall j, (j < d_batch c)%nat -> exists k, nth_error (repeat_each (d_epu c) (repeat_each (d_epc c) cls)) j = Some k /\ nth_error ls j = Some (one_hot (x_num x) k)) ->
     good_batch num_rows c (x_rows x) (x_min x) (x_max x) (mk_batch qs y)).
  { intros y Y0 Y1. split; [exact L2|]. split; [exact Y0|]. exists row_of. split; [|exact SAME]. intros j Hj. destruct (RO j Hj) as (off & n & A1 & A2 & A3 & A4 & A5 & k & B1 & B2). exists off, n. cbv zeta. do 5 (split; [assumption|]).
    intros RC. destruct (Y1 RC) as (ls & -> & LL & YV). destruct (YV j Hj) as (k' & C1 & C2). exists ls, k. split; [reflexivity|]. split; [exact LL|]. split; [|exact B2]. rewrite <- NUM. congruence. }
  assert (RD : forall y, (if d_return_class c then ls <- mapM (fun i => k <- at_ (repeat_each (d_epu c) (repeat_each (d_epc c) cls)) i ;; label x k) (seq 0 (len qs)) ;; Ok (Some ls) else Ok None) = Ok y ->
     forall f', (f <= f')%nat -> read2 num_rows St seed draw c x f' g = Some (Ok (mk_batch qs y, next g s2))).
  { intros y EY f' Hf. unfold read2. rewrite (E1 f' Hf). unfold read2_with. cbn [bind]. rewrite E2. cbn [bind]. destruct (Z.eqb_spec (x_steps x) 0) as [|_]; [lia|]. rewrite EY. cbn [bind]. rewrite U1H. unfold next. cbn [h_step h_epoch h_rng]. reflexivity. }
  destruct (d_return_class c) eqn:RC.
  - destruct (mapM_ok_of (fun i => k <- at_ (repeat_each (d_epu c) (repeat_each (d_epc c) cls)) i ;; label x k) (seq 0 (len qs))) as (ls & EL & LL & VL).
    { intros i j Hi. assert (i < len (seq 0 (len qs)))%nat by (apply nth_error_Some; congruence). rewrite seq_length in H. rewrite (nth_error_nth' (seq 0 (len qs)) 0%nat) in Hi by (rewrite seq_length; exact H). rewrite seq_nth in Hi by exact H. injection Hi as <-. cbn [Nat.add].
      destruct (RO i) as (? & ? & ? & ? & ? & ? & ? & k & B1 & B2); [lia|]. rewrite (at_ok _ _ _ B1). cbn [bind]. unfold label. rewrite (proj2 (Nat.ltb_lt _ _)); [eauto|]. rewrite NUM. apply nth_error_Some. congruence. }
    rewrite seq_length, L2 in LL. exists f, (mk_batch qs (Some ls)), s2. split; [apply RD; rewrite EL; reflexivity|]. apply GEN; [discriminate|]. intros _. exists ls. split; [reflexivity|]. split; [exact LL|].
    intros j Hj. destruct (RO j Hj) as (? & ? & ? & ? & ? & ? & ? & k & B1 & B2). exists k. split; [exact B1|]. destruct (VL j j) as (b & Fb & Nb); [rewrite (nth_error_nth' (seq 0 (len qs)) 0%nat) by (rewrite seq_length; lia); rewrite seq_nth by lia; reflexivity|].
    rewrite Nb. rewrite (at_ok _ _ _ B1) in Fb. cbn [bind] in Fb. unfold label in Fb. destruct (Nat.ltb_spec k (x_num x)); [|discriminate]. injection Fb as <-. rewrite set_nth_hot by assumption. reflexivity.
  - exists f, (mk_batch qs None), s2. split; [apply RD; reflexivity|]. apply GEN; [reflexivity|discriminate].
Qed.
Lemma reads_ok n : forall g, exists f bs g', (forall f', (f <= f')%nat -> reads2 num_rows St seed draw c x f' n g = Some (Ok (bs, g'))) /\ len bs = n /\ Forall (good_batch num_rows c (x_rows x) (x_min x) (x_max x)) bs.
Proof.
  induction n as [|n IH]; intros g; [exists 0%nat, [], g; split; [reflexivity|]; split; [reflexivity|constructor]|].
  destruct (read_ok g) as (f1 & b & s & E1 & G1). destruct (IH (next g s)) as (f2 & bs & g' & E2 & L2 & G2). exists (f1 + f2)%nat, (b :: bs), g'. split; [|split; [cbn; rewrite L2; reflexivity|constructor; assumption]].
  intros f' Hf. cbn [reads2]. rewrite (E1 f') by lia. rewrite (E2 f') by lia. reflexivity.
Qed.
End P.
Lemma zmax_is l m : zmax l = Ok m -> is_max m l.
Proof. intros H. apply zmax_ok in H. exact H. Qed.
Lemma zmin_is l m : zmin l = Ok m -> is_min m l.
Proof. intros H. apply zmin_ok in H. exact H. Qed.
Lemma ids_ok c infos ids n : class_ids c infos = Ok (ids, n) -> (forall l, d_classes c = Some l -> NoDup l) -> forall rows : list u2row, map snd rows = infos ->
  len ids = len infos /\ n = len (class_names c rows) /\ (forall u k w, nth_error ids u = Some k -> nth_error infos u = Some w -> nth_error (class_names c rows) k = Some w).
Proof.
  unfold class_ids, class_names. intros E ND rows ER. destruct (d_classes c) as [l|].
  - destruct (mapM _ infos) as [is|] eqn:EM; [|discriminate]. cbn [bind] in E. injection E as <- <-. split; [apply mapM_length in EM; exact EM|]. split; [apply unique_len_nodup; apply ND; reflexivity|].
    apply mapM_ok_iff in EM. intros u k w Hk Hw. clear ER. revert u Hk Hw. induction EM as [|w' k' ws ks H1 H2 IH]; intros [|u] Hk Hw; try discriminate; [|exact (IH u Hk Hw)].
    injection Hk as ->. injection Hw as ->. destruct (last_index w 0 l) as [i|] eqn:L; [|discriminate]. injection H1 as ->. destruct (last_index_spec _ _ _ _ L) as (j & -> & J). exact J.
  - rewrite ER. injection E as <- <-. split; [apply inverse_length|]. split; [reflexivity|]. intros u k w Hk Hw. destruct (inverse_nth infos u w Hw) as (d & D1 & D2). congruence.
Qed.
(** what the constructor has fixed: the utterances that are long enough, and the number of batches of an epoch *)
Lemma init_ok num_rows St (seed : Z -> St) c rows x g0 : init2 num_rows St seed c rows = Ok (x, g0) -> (forall l, d_classes c = Some l -> NoDup l) ->
  x_rows x = (if 0 <? d_prune c then filter (fun r => d_prune c <=? num_rows (fst r)) rows else rows) /\
  len (x_ids x) = len (x_rows x) /\ x_num x = len (class_names c (x_rows x)) /\
  (forall u k row, nth_error (x_ids x) u = Some k -> nth_error (x_rows x) u = Some row -> nth_error (class_names c (x_rows x)) k = Some (snd row)) /\
  limits num_rows c (x_rows x) (x_min x) (x_max x) /\ g0 = mk_gen2 St (seed (if d_reset_rng c then d_seed c else d_seed c + d_init_epoch c)) 0 (d_init_epoch c) /\
  exists it, (d_iters c = Some it \/ d_iters c = None /\ auto2 (lens_of num_rows (x_rows x)) (x_max x) (x_min x) = Ok it) /\ x_steps x = ceil_div (it * Z.of_nat (len (x_rows x))) (Z.of_nat (d_batch c)).
Proof.
  unfold init2. set (rs := if 0 <? d_prune c then _ else rows). clearbody rs. intros E ND. destruct (class_ids c (map snd rs)) as [(ids, n)|] eqn:EC; [|discriminate]. cbn [bind] in E.
  destruct (match d_max c with Some m => Ok m | None => zmax _ end) as [mx|] eqn:EX; [|discriminate]. cbn [bind] in E. destruct (match d_min c with Some m => Ok m | None => zmin _ end) as [mn|] eqn:EN; [|discriminate]. cbn [bind] in E.
  destruct (match d_iters c with Some i => Ok i | None => _ end) as [it|] eqn:EI; [|discriminate]. cbn [bind] in E. injection E as <- <-. cbn [x_rows x_ids x_num x_min x_max x_steps].
  destruct (ids_ok c _ _ _ EC ND rs eq_refl) as (A & B & C). rewrite map_length in A. split; [reflexivity|]. split; [exact A|]. split; [exact B|]. split; [intros u k row H1 H2; apply (C u k); [exact H1|rewrite nth_error_map, H2; reflexivity]|].
  split; [split|split].
  - destruct (d_min c); [left; congruence|right; split; [reflexivity|apply zmin_is; exact EN]].
  - destruct (d_max c); [left; congruence|right; split; [reflexivity|apply zmax_is; exact EX]].
  - unfold reset2. reflexivity.
  - exists it. split; [|reflexivity]. destruct (d_iters c); [left; congruence|right; split; [reflexivity|exact EI]].
Qed.

(** Whatever the random numbers, every batch has batch_size requests, each for a piece of an utterance of the list that lies inside it and has a length
    between the limits (or the length of a shorter utterance), with the one-hot label of its class; num_egs_per_utt consecutive requests come from one
    utterance, and num_egs_per_class consecutive utterances from one class. With classes without utterances, random numbers that eventually give
    every class are needed for the read to return. *)
Theorem C97_batches : forall num_rows (St : Type) (seed : Z -> St) (draw : St -> Z -> Z -> Z * St) c rows x g0, valid_draw draw -> init2 num_rows St seed c rows = Ok (x, g0) ->
  (forall l, d_classes c = Some l -> NoDup l) -> (0 < d_epc c)%nat -> (0 < d_epu c)%nat -> d_utt1hot c = false -> x_rows x <> [] -> 1 <= x_steps x ->
  (forall mn mx, limits num_rows c (x_rows x) mn mx -> mn <= mx) ->
  ((exists w, In w (class_names c (x_rows x)) /\ ~ In w (map snd (x_rows x))) -> fair draw) ->
  forall n, exists fuel bs g mn mx, (forall fuel', (fuel <= fuel')%nat -> reads2 num_rows St seed draw c x fuel' n g0 = Some (Ok (bs, g))) /\ len bs = n /\
    limits num_rows c (x_rows x) mn mx /\ Forall (good_batch num_rows c (x_rows x) mn mx) bs.
Proof.
  intros num_rows St seed draw c rows x g0 VD E ND EPC EPU U1 NE ST LI FA n. destruct (init_ok _ _ _ _ _ _ _ E ND) as (_ & A & B & C & L & _).
  destruct (reads_ok num_rows St seed draw c x VD A B C (LI _ _ L)) with (n := n) (g := g0) as (f & bs & g & R & LB & GB); try assumption.
  - intros (k & K1 & K2). apply FA. rewrite B in K1. destruct (nth_error (class_names c (x_rows x)) k) as [w|] eqn:Ew; [|apply nth_error_None in Ew; lia]. exists w. split; [exact (nth_error_In _ _ Ew)|].
    intros Hw. apply in_map_iff in Hw as (row & W & Hr). apply In_nth_error in Hr as (u & Hu). destruct (nth_error (x_ids x) u) as [k'|] eqn:Ek; [|apply nth_error_None in Ek; assert (u < len (x_rows x))%nat by (apply nth_error_Some; congruence); lia].
    pose proof (C u k' row Ek Hu) as H. rewrite W in H. assert (NN : NoDup (class_names c (x_rows x))) by (unfold class_names; destruct (d_classes c) as [l|] eqn:Q; [apply ND; reflexivity|apply unique_nodup]).
    assert (k' = k). { apply (proj1 (NoDup_nth_error _) NN); [apply nth_error_Some; congruence|congruence]. } subst k'. apply utts_in in Ek. rewrite K2 in Ek. destruct Ek.
  - exists f, bs, g, (x_min x), (x_max x). auto.
Qed.
Print Assumptions C97_batches.
(** The utterances of the generator are those of the list that are not shorter than prune_min_length, and an epoch has the smallest number of batches that
    covers iters_per_epoch sub-sequences per utterance; 'auto' is the smallest number of average sub-sequences that covers the mean length. *)
Theorem C97_epoch_size : forall num_rows (St : Type) (seed : Z -> St) c rows x g0, init2 num_rows St seed c rows = Ok (x, g0) -> (forall l, d_classes c = Some l -> NoDup l) -> (0 < d_batch c)%nat ->
  (forall r, In r (x_rows x) <-> In r rows /\ (0 < d_prune c -> d_prune c <= num_rows (fst r))) /\
  exists it, it * Z.of_nat (len (x_rows x)) <= x_steps x * Z.of_nat (d_batch c) < it * Z.of_nat (len (x_rows x)) + Z.of_nat (d_batch c) /\ (forall i, d_iters c = Some i -> it = i) /\
    (d_iters c = None -> exists mn mx, limits num_rows c (x_rows x) mn mx /\ let piece := (mx + mn) / 2 in let total := fold_right Z.add 0 (lens_of num_rows (x_rows x)) in
       0 < piece /\ total <= it * Z.of_nat (len (x_rows x)) * piece < total + Z.of_nat (len (x_rows x)) * piece).
Proof.
  assert (CD : forall a b, 0 < b -> a <= ceil_div a b * b < a + b). { intros a b P. pose proof (ceil_div_ge a b P). unfold ceil_div in *. pose proof (Z.mul_succ_div_gt (- a) b P). nia. }
  intros num_rows St seed c rows x g0 E ND BP. destruct (init_ok _ _ _ _ _ _ _ E ND) as (R & _ & _ & _ & L & _ & it & I & S). split.
  - intros r. rewrite R. destruct (Z.ltb_spec 0 (d_prune c)); [rewrite filter_In, Z.leb_le; tauto|]. split; [intros Hr; split; [exact Hr|lia]|tauto].
  - exists it. split; [rewrite S; apply CD; lia|]. split; [intros i Hi; destruct I as [I|(I & _)]; congruence|]. intros NI. destruct I as [I|(_ & I)]; [congruence|]. exists (x_min x), (x_max x). split; [exact L|]. cbv zeta.
    unfold auto2 in I. destruct (Z.leb_spec ((x_max x + x_min x) / 2) 0); [discriminate|]. cbn [orb] in I. destruct (lens_of num_rows (x_rows x)) as [|l0 ls] eqn:EL; [discriminate|]. rewrite <- EL in *. injection I as <-. split; [lia|].
    assert (LL : len (lens_of num_rows (x_rows x)) = len (x_rows x)) by apply map_length. rewrite LL in *. assert (NP : 0 < Z.of_nat (len (x_rows x))) by (rewrite <- LL, EL; cbn [length]; lia).
    pose proof (CD (fold_right Z.add 0 (lens_of num_rows (x_rows x))) (Z.of_nat (len (x_rows x)) * ((x_max x + x_min x) / 2)) ltac:(nia)). nia.
Qed.
Print Assumptions C97_epoch_size.

Section Count.
Context {St : Type} (num_rows : string -> Z) (seed : Z -> St) (draw : St -> Z -> Z -> Z * St) (c : cfg2) (x : fixed).
Lemma read_next f g b g' : read2 num_rows St seed draw c x f g = Some (Ok (b, g')) -> exists s, g' = next St seed c x g s.
Proof.
  unfold read2. destruct (draw_classes _ _ _ _ _ _) as [r|]; [|discriminate]. intros E. injection E as E. unfold read2_with in E. destruct r as [(cls, s)|]; [|discriminate]. cbn [bind] in E.
  destruct (subseqs _ _ _ _ _ _ s) as [((qs, cls'), s')|]; [|discriminate]. cbn [bind] in E. destruct (x_steps x =? 0); [discriminate|]. destruct (if d_return_class c then _ else _) as [y|]; [|discriminate]. cbn [bind] in E. destruct (d_utt1hot c); [discriminate|].
  injection E as <- <-. exists s'. unfold next. cbn [h_step h_epoch h_rng]. destruct (_ =? 0); reflexivity.
Qed.
Lemma reads_count f n : forall g bs g', 1 <= x_steps x -> 0 <= h_step St g < x_steps x -> reads2 num_rows St seed draw c x f n g = Some (Ok (bs, g')) ->
  len bs = n /\ h_step St g' = (h_step St g + Z.of_nat n) mod x_steps x /\ h_epoch St g' = h_epoch St g + (h_step St g + Z.of_nat n) / x_steps x /\
  ((0 < n)%nat -> h_step St g' = 0 -> h_rng St g' = seed (if d_reset_rng c then d_seed c else d_seed c + h_epoch St g' - 1)).
Proof.
  induction n as [|n IH]; intros g bs g' S1 SB E; cbn [reads2] in E.
  - injection E as <- <-. rewrite Z.add_0_r. rewrite Z.mod_small, Z.div_small by lia. split; [reflexivity|]. split; [reflexivity|]. split; [lia|lia].
  - destruct (read2 _ _ _ _ _ _ f g) as [[(b, g1)|]|] eqn:E1; try discriminate. destruct (reads2 _ _ _ _ _ _ f n g1) as [[(bs', g2)|]|] eqn:E2; try discriminate. injection E as <- <-. destruct (read_next _ _ _ _ E1) as (s & ->).
    assert (NB : 0 <= h_step St (next St seed c x g s) < x_steps x). { unfold next. destruct (_ =? 0); cbn [h_step]; [lia|apply Z.mod_pos_bound; lia]. }
    destruct (IH _ _ _ S1 NB E2) as (L & P & Q & R). split; [cbn; rewrite L; reflexivity|]. rewrite Nat2Z.inj_succ.
    assert (C : h_step St (next St seed c x g s) + x_steps x * (h_epoch St (next St seed c x g s) - h_epoch St g) = h_step St g + 1).
    { unfold next. destruct (Z.eqb_spec ((h_step St g + 1) mod x_steps x) 0) as [Z0|Z0]; cbn [h_step h_epoch].
      - pose proof (Z.div_mod (h_step St g + 1) (x_steps x) ltac:(lia)). assert ((h_step St g + 1) / x_steps x = 1); [|nia]. assert (h_step St g + 1 = x_steps x); [|rewrite H0; apply Z.div_same; lia].
        destruct (Z.eq_dec (h_step St g + 1) (x_steps x)); [assumption|]. rewrite Z.mod_small in Z0; lia.
      - destruct (Z.eq_dec (h_step St g + 1) (x_steps x)) as [Q1|Q1]; [rewrite Q1, Z.mod_same in Z0; lia|]. rewrite Z.mod_small by lia. lia. }
    set (g1 := next St seed c x g s) in *. clearbody g1.
    replace (h_step St g + Z.succ (Z.of_nat n)) with (h_step St g1 + Z.of_nat n + (h_epoch St g1 - h_epoch St g) * x_steps x) by lia. rewrite Z.mod_add, Z.div_add by lia. split; [exact P|]. split; [lia|].
    intros _ Z0. destruct n as [|n]; [|apply R; [lia|exact Z0]]. cbn [reads2] in E2. injection E2 as <- <-.
    destruct (read_next _ _ _ _ E1) as (s' & E3). rewrite E3 in *. unfold next in *. destruct (Z.eqb_spec ((h_step St g + 1) mod x_steps x) 0) as [Y|Y]; cbn [h_step h_rng h_epoch] in *; [|lia]. destruct (d_reset_rng c); f_equal; lia.
Qed.
End Count.
(** Counting: after n reads the step is n modulo the batches of an epoch and the epoch has advanced by the quotient. At the start of an epoch after the first
    the random numbers restart with the seed of the previous epoch (or the fixed one with reset_rng). *)
Theorem C97_counters : forall num_rows (St : Type) (seed : Z -> St) draw c rows x g0 fuel n bs g, init2 num_rows St seed c rows = Ok (x, g0) -> (forall l, d_classes c = Some l -> NoDup l) -> 1 <= x_steps x ->
  reads2 num_rows St seed draw c x fuel n g0 = Some (Ok (bs, g)) ->
  len bs = n /\ h_step St g = Z.of_nat n mod x_steps x /\ h_epoch St g = d_init_epoch c + Z.of_nat n / x_steps x /\
  ((0 < n)%nat -> h_step St g = 0 -> h_rng St g = seed (if d_reset_rng c then d_seed c else d_seed c + h_epoch St g - 1)).
Proof.
  intros num_rows St seed draw c rows x g0 fuel n bs g E ND S1 R. destruct (init_ok _ _ _ _ _ _ _ E ND) as (_ & _ & _ & _ & _ & -> & _).
  refine (reads_count num_rows seed draw c x fuel n _ bs g S1 _ R). cbn [h_step]. lia.
Qed.
Print Assumptions C97_counters.
Section Same.
Context {St : Type} (num_rows : string -> Z) (seed : Z -> St) (draw : St -> Z -> Z -> Z * St) (c : cfg2) (x : fixed).
Lemma read_epoch f r t e e' : match read2 num_rows St seed draw c x f (mk_gen2 St r t e), read2 num_rows St seed draw c x f (mk_gen2 St r t e') with
  | Some (Ok (b, g)), Some (Ok (b', g')) => b = b' /\ ((t + 1) mod x_steps x <> 0 -> h_rng St g = h_rng St g' /\ h_step St g = (t + 1) mod x_steps x /\ h_step St g' = (t + 1) mod x_steps x)
  | Some (Ok _), _ => False | _, _ => True end.
Proof.
  unfold read2. cbn [h_rng]. destruct (draw_classes _ _ _ _ _ _) as [q|]; [|exact I]. unfold read2_with. destruct q as [(cls, s)|]; [|exact I]. cbn [bind]. destruct (subseqs _ _ _ _ _ _ s) as [((qs, cls'), s')|]; [|exact I]. cbn [bind].
  destruct (x_steps x =? 0); [exact I|]. cbn [h_step]. destruct (if d_return_class c then _ else _) as [y|]; [|exact I]. cbn [bind]. destruct (d_utt1hot c); [exact I|]. split; [reflexivity|]. intros N. apply Z.eqb_neq in N. rewrite N. repeat split.
Qed.
Lemma reads_epoch f n : forall r t e e' bs g, 0 <= t -> t + Z.of_nat n <= x_steps x -> reads2 num_rows St seed draw c x f n (mk_gen2 St r t e) = Some (Ok (bs, g)) ->
  exists g', reads2 num_rows St seed draw c x f n (mk_gen2 St r t e') = Some (Ok (bs, g')).
Proof.
  induction n as [|n IH]; intros r t e e' bs g T B E; cbn [reads2] in *; [injection E as <- <-; eauto|]. pose proof (read_epoch f r t e e') as RE. destruct (read2 _ _ _ _ _ _ f (mk_gen2 St r t e)) as [[(b, g1)|]|]; try discriminate.
  destruct (read2 _ _ _ _ _ _ f (mk_gen2 St r t e')) as [[(b', g1')|]|]; try contradiction. destruct RE as (<- & RE). destruct (reads2 _ _ _ _ _ _ f n g1) as [[(bs', g2)|]|] eqn:E2; try discriminate. injection E as <- <-.
  destruct n as [|n]; [cbn [reads2] in *; injection E2 as <- <-; eauto|]. rewrite Z.mod_small in RE by lia. destruct RE as (A & P & Q); [lia|]. destruct g1 as [r1 t1 e1], g1' as [r1' t1' e1']. cbn [h_rng h_step] in *. subst r1' t1 t1'.
  destruct (IH r1 (t + 1) e1 e1' bs' g2) as (g' & E'); [lia|lia|exact E2|]. rewrite E'. eauto.
Qed.
Lemma reads_app f n m : forall g bs g', reads2 num_rows St seed draw c x f (n + m) g = Some (Ok (bs, g')) -> exists b1 g1 b2, bs = b1 ++ b2 /\ reads2 num_rows St seed draw c x f n g = Some (Ok (b1, g1)) /\ reads2 num_rows St seed draw c x f m g1 = Some (Ok (b2, g')).
Proof.
  induction n as [|n IH]; intros g bs g' E; cbn [Nat.add reads2] in *; [exists [], g, bs; auto|]. destruct (read2 _ _ _ _ _ _ f g) as [[(b, g1)|]|]; try discriminate. destruct (reads2 _ _ _ _ _ _ f (n + m) g1) as [[(bs', g2)|]|] eqn:E2; try discriminate. injection E as <- <-.
  destruct (IH _ _ _ E2) as (b1 & g3 & b2 & -> & H1 & H2). exists (b :: b1), g3, b2. rewrite H1. auto.
Qed.
End Same.
(** So the second epoch gives exactly the batches of the first one. *)
Theorem C97_second_epoch_refuted : forall num_rows (St : Type) (seed : Z -> St) draw c rows x g0 fuel bs g, init2 num_rows St seed c rows = Ok (x, g0) -> (forall l, d_classes c = Some l -> NoDup l) -> 1 <= x_steps x ->
  reads2 num_rows St seed draw c x fuel (Z.to_nat (x_steps x) + Z.to_nat (x_steps x)) g0 = Some (Ok (bs, g)) -> exists first, len first = Z.to_nat (x_steps x) /\ bs = first ++ first.
Proof.
  intros num_rows St seed draw c rows x g0 fuel bs g E ND S1 R. destruct (reads_app _ _ _ _ _ _ _ _ _ _ _ R) as (b1 & g1 & b2 & -> & R1 & R2). destruct (C97_counters _ _ _ _ _ _ _ _ _ _ _ _ E ND S1 R1) as (L & P & Q & RN).
  destruct (init_ok _ _ _ _ _ _ _ E ND) as (_ & _ & _ & _ & _ & -> & _). rewrite Z2Nat.id in P, Q by lia. rewrite Z.mod_same in P by lia. rewrite Z.div_same in Q by lia. specialize (RN ltac:(lia) P).
  exists b1. split; [exact L|]. f_equal. destruct g1 as [r t e]. cbn [h_rng h_step h_epoch] in *. subst t e. replace (d_seed c + (d_init_epoch c + 1) - 1) with (d_seed c + d_init_epoch c) in RN by lia. subst r.
  destruct (reads_epoch num_rows seed draw c x fuel (Z.to_nat (x_steps x)) _ 0 _ (d_init_epoch c) _ _ (Z.le_refl 0) ltac:(lia) R2) as (g' & R3). congruence.
Qed.
Print Assumptions C97_second_epoch_refuted.
(** return_utt1hot never works. *)
Theorem C97_utt1hot_refuted : forall num_rows (St : Type) (seed : Z -> St) draw c x fuel g b, d_utt1hot c = true -> read2 num_rows St seed draw c x fuel g <> Some (Ok b).
Proof.
  intros num_rows St seed draw c x fuel g b H. unfold read2. destruct (draw_classes _ _ _ _ _ _) as [r|]; [|discriminate]. unfold read2_with. destruct r as [(cls, s)|]; [|discriminate]. cbn [bind]. destruct (subseqs _ _ _ _ _ _ s) as [((qs, cls'), s')|]; [|discriminate]. cbn [bind].
  destruct (x_steps x =? 0); [discriminate|]. destruct (if d_return_class c then _ else _) as [y|]; [|discriminate]. cbn [bind]. rewrite H. discriminate.
Qed.
Print Assumptions C97_utt1hot_refuted.

(** a counter as random generator, which is valid and fair *)
Definition count_draw (s lo hi : Z) : Z * Z := (lo + s mod (hi - lo), s + 1).
Lemma count_valid : valid_draw count_draw. Proof. intros s lo hi L. cbn [count_draw fst]. pose proof (Z.mod_pos_bound s (hi - lo) ltac:(lia)). lia. Qed.
Lemma count_fair : fair count_draw.
Proof.
  intros s hi v V. exists (Z.to_nat ((v - s) mod hi)). assert (A : forall k s, after count_draw hi k s = s + Z.of_nat k). { induction k as [|k IH]; intros t; cbn [after count_draw snd]; [lia|rewrite IH; lia]. }
  rewrite A. cbn [count_draw fst]. rewrite Z2Nat.id by (apply Z.mod_pos_bound; lia). rewrite Z.sub_0_r, Z.add_0_l. rewrite Z.add_mod_idemp_r by lia. replace (s + (v - s)) with v by lia. apply Z.mod_small. exact V.
Qed.
Definition rows3 : list u2row := [("u1", "A"); ("u2", "C"); ("u3", "A")]%string.
Definition len3 (k : string) : Z := if eqb k "u2"%string then 3 else 5.
Definition cfg3 : cfg2 := mk_cfg2 5 (Some 3) 2 2 (Some 2) (Some 4) 0 (Some ["A"; "B"; "C"]%string) true false 7 false 0.
Example C97_witness : exists x g0 bs g, init2 len3 Z (fun s => s) cfg3 rows3 = Ok (x, g0) /\ x_rows x <> [] /\ x_steps x = 2 /\ (exists w, In w (class_names cfg3 (x_rows x)) /\ ~ In w (map snd (x_rows x))) /\
  reads2 len3 Z (fun s => s) count_draw cfg3 x 100 1 g0 = Some (Ok (bs, g)) /\
  map b_reqs bs = [[("u2", 1, 2); ("u2", 1, 2); ("u2", 1, 2); ("u2", 1, 2); ("u1", 2, 3)]]%string /\
  map b_labels bs = [Some [[0; 0; 1]; [0; 0; 1]; [0; 0; 1]; [0; 0; 1]; [1; 0; 0]]] /\
  exists bs4 g4, reads2 len3 Z (fun s => s) count_draw cfg3 x 100 4 g0 = Some (Ok (bs4, g4)) /\ firstn 2 bs4 = skipn 2 bs4 /\ h_epoch Z g4 = 2.
Proof.
  eexists _, _, _, _. split; [vm_compute; reflexivity|]. split; [discriminate|]. split; [reflexivity|]. split; [exists "B"%string; split; [right; left; reflexivity|cbn; intros [H|[H|[H|[]]]]; discriminate]|].
  split; [vm_compute; reflexivity|]. split; [vm_compute; reflexivity|]. split; [vm_compute; reflexivity|]. eexists _, _. split; [vm_compute; reflexivity|]. split; vm_compute; reflexivity.
Qed.
