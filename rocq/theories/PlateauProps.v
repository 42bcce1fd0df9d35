(** Properties of ReduceLROnPlateau. *)
From Coq Require Import QArith Lqa.
From Verif Require Import BaseFacts Plateau.
Open Scope list_scope.
Open Scope nat_scope.

(** ** Specification *)
Definition lt_dec (a b : Q) : bool := if Qlt_le_dec a b then true else false.
(** does [v] improve on the best value so far (none yet: everything improves)? *)
Definition improves (m : pmode) (t : tmode) (th v : Q) (best : pbest) : bool :=
  match best with
  | Worst => true
  | Best b =>
    match m, t with
    | PMin, TRel => lt_dec v (b * (1 - th))
    | PMin, TAbs => lt_dec v (b - th)
    | PMax, TRel => lt_dec (b * (1 + th)) v
    | PMax, TAbs => lt_dec (b + th) v
    end
  end.
Definition best_of (m : pmode) (t : tmode) (th : Q) (vals : list Q) : pbest :=
  fold_left (fun b v => if improves m t th v b then Best v else b) vals Worst.
(** epoch [i] (counted from 0) did not improve *)
Definition bad_epoch (m : pmode) (t : tmode) (th : Q) (vals : list Q) (i : nat) : Prop :=
  exists v, nth_error vals i = Some v /\ improves m t th v (best_of m t th (firstn i vals)) = false.
(** in relative mode the threshold must leave the worst value worst *)
Definition sane_threshold (m : pmode) (t : tmode) (th : Q) : Prop :=
  match m, t with PMin, TRel => (th < 1)%Q | PMax, TRel => (-1 < th)%Q | _, _ => True end.

Lemma qltb_lt a b : qltb a b = lt_dec a b.
Proof. unfold qltb, lt_dec. destruct (Qlt_le_dec a b) as [L|L]; [destruct (Qle_bool b a) eqn:E; [apply Qle_bool_iff in E; lra|reflexivity]|rewrite (proj2 (Qle_bool_iff b a) L); reflexivity]. Qed.
Lemma lt_dec_true a b : lt_dec a b = true <-> (a < b)%Q.
Proof. unfold lt_dec. destruct (Qlt_le_dec a b); split; intros; try assumption; try reflexivity; try discriminate. lra. Qed.
Lemma lt_dec_false a b : lt_dec a b = false <-> (b <= a)%Q.
Proof. unfold lt_dec. destruct (Qlt_le_dec a b); split; intros; try assumption; try reflexivity; try discriminate. lra. Qed.
Lemma lt_dec_eq a b c : (b == c)%Q -> lt_dec b a = lt_dec c a.
Proof. intros E. destruct (lt_dec b a) eqn:X, (lt_dec c a) eqn:Y; try reflexivity; [apply lt_dec_true in X; apply lt_dec_false in Y|apply lt_dec_false in X; apply lt_dec_true in Y]; lra. Qed.
Lemma better_improves m t th v b : sane_threshold m t th -> is_better m t th v b = improves m t th v b.
Proof.
  intros Sn. destruct m, t, b; cbn [is_better improves sane_threshold] in *; rewrite ?qltb_lt; try reflexivity; try (apply lt_dec_true; lra). apply lt_dec_eq. ring.
Qed.

(** ** The counters *)
Section Counter.
Variables (P C : nat) (fl : nat -> bool).
Definition cstep (s : Z * Z) (bad : bool) : (Z * Z) * bool :=
  let b := if bad then (fst s + 1)%Z else 0%Z in
  let '(cool, b) := if (0 <? snd s)%Z then (snd s - 1, 0)%Z else (snd s, b) in
  if (Z.of_nat P <? b)%Z then ((0, Z.of_nat C)%Z, true) else ((b, cool), false).
Fixpoint cst (t : nat) : Z * Z := match t with O => (0, 0)%Z | S t => fst (cstep (cst t) (fl t)) end.
Definition cred (t : nat) : bool := snd (cstep (cst t) (fl t)).

(** first epoch that counts after the last reduction *)
Definition start (t L : nat) : Prop := (L = 0 /\ forall r, r < t -> cred r = false) \/ (exists r, r < t /\ cred r = true /\ L = r + C + 1 /\ forall q, r < q < t -> cred q = false).
Definition cinv (t : nat) : Prop := exists L b, start t L /\ cst t = (Z.of_nat b, Z.of_nat (L - t)) /\ b <= P /\ b <= t - L /\
  (forall s, t - b <= s < t -> fl s = true) /\ (b < t - L -> fl (t - b - 1) = false).

Lemma cinv_step t : cinv t -> cinv (S t) /\
  (cred t = true <-> (P <= t /\ (forall s, t - P <= s <= t -> fl s = true) /\ forall r, r < t -> cred r = true -> r + C < t - P)).
Proof.
  intros (L & b & St & E & BP & BL & Fs & Fm).
  assert (Lr : forall r, r < t -> cred r = true -> r + C < L).
  { intros r R X. destruct St as [(_ & N)|(r0 & R0 & X0 & -> & N)]; [rewrite N in X by exact R; discriminate|]. destruct (lt_eq_lt_dec r r0) as [[Q|Q]|Q]; [lia|lia|]. rewrite N in X by lia. discriminate. }
  assert (Lx : L = 0 \/ exists r, r < t /\ cred r = true /\ L = r + C + 1) by (destruct St as [(-> & _)|(r0 & R0 & X0 & -> & _)]; [left; reflexivity|right; exists r0; repeat split; assumption]).
  assert (CC : cred t = snd (cstep (cst t) (fl t))) by reflexivity. assert (CS : cst (S t) = fst (cstep (cst t) (fl t))) by reflexivity. rewrite E in CC, CS. unfold cstep in CC, CS. cbn [fst snd] in CC, CS.
  assert (StN : cred t = false -> start (S t) L). { intros X. destruct St as [(A & N)|(r0 & R0 & X0 & A & N)]; [left|right; exists r0]. - split; [exact A|]. intros r R. destruct (Nat.eq_dec r t) as [->|Q]; [exact X|apply N; lia]. - repeat split; try assumption; try lia. intros q Q. destruct (Nat.eq_dec q t) as [->|Q']; [exact X|apply N; lia]. }
  destruct (Z.ltb_spec 0 (Z.of_nat (L - t))) as [Cool|Cool].
  - (* cool-down *)
    rewrite (proj2 (Z.ltb_ge _ _)) in CC, CS by lia. cbn [fst snd] in CC, CS. split.
    + exists L, 0. split; [apply StN; exact CC|]. split; [rewrite CS; f_equal; lia|]. split; [lia|]. split; [lia|]. split; [intros s Q; lia|intros Q; lia].
    + split; [congruence|]. intros (A1 & A2 & A3). exfalso. destruct Lx as [->|(r & R & X & ->)]; [lia|]. specialize (A3 r R X). lia.
  - destruct (fl t) eqn:Ft.
    + destruct (Z.ltb_spec (Z.of_nat P) (Z.of_nat b + 1)) as [Red|Red]; cbn [fst snd] in CC, CS.
      * (* reduction *)
        assert (b = P) by lia. subst b. split.
        -- exists (t + C + 1), 0. split; [right; exists t; repeat split; try lia; exact CC|]. split; [rewrite CS; f_equal; f_equal; lia|]. split; [lia|]. split; [lia|]. split; [intros s Q; lia|intros Q; lia].
        -- split; [|intros _; exact CC]. intros _. split; [lia|]. split; [intros s Q; destruct (Nat.eq_dec s t) as [->|Q']; [exact Ft|apply Fs; lia]|]. intros r R X. specialize (Lr r R X). lia.
      * split.
        -- exists L, (b + 1). split; [apply StN; exact CC|]. split; [rewrite CS; f_equal; lia|]. split; [lia|]. split; [lia|]. split; [intros s Q; destruct (Nat.eq_dec s t) as [->|Q']; [exact Ft|apply Fs; lia]|]. intros Q. replace (S t - (b + 1) - 1) with (t - b - 1) by lia. apply Fm. lia.
        -- split; [congruence|]. intros (A1 & A2 & A3). exfalso. destruct (Nat.eq_dec b (t - L)) as [Q|Q].
           ++ destruct Lx as [->|(r & R & X & ->)]; [lia|]. specialize (A3 r R X). lia.
           ++ assert (fl (t - b - 1) = false) by (apply Fm; lia). rewrite A2 in H by lia. discriminate.
    + rewrite (proj2 (Z.ltb_ge _ _)) in CC, CS by lia. cbn [fst snd] in CC, CS. split.
      * exists L, 0. split; [apply StN; exact CC|]. split; [rewrite CS; f_equal; lia|]. split; [lia|]. split; [lia|]. split; [intros s Q; lia|]. intros Q. replace (S t - 0 - 1) with t by lia. exact Ft.
      * split; [congruence|]. intros (A1 & A2 & A3). rewrite A2 in Ft by lia. discriminate.
Qed.
Lemma cinv_all t : cinv t.
Proof. induction t as [|t IH]; [|apply cinv_step; exact IH]. exists 0, 0. split; [left; split; [reflexivity|intros r R; lia]|]. split; [reflexivity|]. split; [lia|]. split; [lia|]. split; [intros s Q; lia|intros Q; lia]. Qed.
End Counter.

(** ** Runs *)
Lemma run_app c : forall a b s, epochs_run c s (a ++ b) = let (s1, r1) := epochs_run c s a in let (s2, r2) := epochs_run c s1 b in (s2, r1 ++ r2).
Proof.
  induction a as [|v a IH]; intros b s; cbn [app epochs_run]; [destruct (epochs_run c s b); reflexivity|]. destruct (epoch_end c s v) as (s1 & r). rewrite IH. destruct (epochs_run c s1 a) as (s2 & r2). destruct (epochs_run c s2 b) as (s3 & r3). reflexivity.
Qed.
Lemma run_len c : forall a s, List.length (snd (epochs_run c s a)) = List.length a.
Proof. induction a as [|v a IH]; intros s; cbn [epochs_run]; [reflexivity|]. destruct (epoch_end c s v) as (s1 & r). specialize (IH s1). destruct (epochs_run c s1 a). cbn in *. congruence. Qed.

Section Runs.
Variables (c : pcfg) (P C : nat) (vals : list Q) (s0 : pstate).
Hypothesis HP : p_patience c = Z.of_nat P.
Hypothesis HC : p_cooldown c = Z.of_nat C.
Hypothesis Sane : sane_threshold (p_mode c) (p_tmode c) (p_th c).
Hypothesis Init : ps_best s0 = Worst /\ ps_bad s0 = 0%Z /\ ps_cool s0 = 0%Z.
Let best i := best_of (p_mode c) (p_tmode c) (p_th c) (firstn i vals).
Let flag i := match nth_error vals i with Some v => negb (improves (p_mode c) (p_tmode c) (p_th c) v (best i)) | None => false end.

Lemma firstn_snoc i v : nth_error vals i = Some v -> firstn (S i) vals = firstn i vals ++ [v].
Proof. revert i. induction vals as [|x l IH]; intros [|i] E; try discriminate E; [injection E as ->; reflexivity|]. cbn [firstn app]. f_equal. apply IH. exact E. Qed.

Lemma run_state t : t <= List.length vals -> let '(s, rs) := epochs_run c s0 (firstn t vals) in
  ps_best s = best t /\ (ps_bad s, ps_cool s) = cst P C flag t /\ forall r, r < t -> nth_error rs r = Some (cred P C flag r).
Proof.
  induction t as [|t IH]; intros L; [cbn; destruct Init as (A & B & D); rewrite A, B, D; repeat split; intros r R; lia|].
  specialize (IH ltac:(lia)). destruct (nth_error vals t) as [v|] eqn:V; [|apply nth_error_None in V; lia]. rewrite (firstn_snoc t v V), run_app.
  pose proof (run_len c (firstn t vals) s0) as RL. destruct (epochs_run c s0 (firstn t vals)) as (s & rs). cbn [snd] in RL. rewrite firstn_length_le in RL by lia. destruct IH as (I1 & I2 & I3). cbn [epochs_run].
  assert (FT : flag t = negb (improves (p_mode c) (p_tmode c) (p_th c) v (best t))) by (unfold flag; rewrite V; reflexivity).
  assert (BT : best (S t) = if improves (p_mode c) (p_tmode c) (p_th c) v (best t) then Best v else best t) by (unfold best, best_of; rewrite (firstn_snoc t v V), fold_left_app; reflexivity).
  assert (EE : let (s1, r) := epoch_end c s v in ps_best s1 = best (S t) /\ (ps_bad s1, ps_cool s1) = cst P C flag (S t) /\ r = cred P C flag t).
  { assert (CC : cred P C flag t = snd (cstep P C (cst P C flag t) (flag t))) by reflexivity. assert (CS : cst P C flag (S t) = fst (cstep P C (cst P C flag t) (flag t))) by reflexivity.
    rewrite <- I2 in CC, CS. unfold epoch_end. rewrite (better_improves _ _ _ _ _ Sane), I1, HP, HC. rewrite BT. unfold cstep in CC, CS. cbn [fst snd] in CC, CS. rewrite FT in CC, CS.
    destruct (improves (p_mode c) (p_tmode c) (p_th c) v (best t)); cbn [negb] in CC, CS; destruct (0 <? ps_cool s)%Z; match goal with |- context [(Z.of_nat P <? ?b)%Z] => destruct (Z.of_nat P <? b)%Z end; cbn [fst snd] in CC, CS; cbn [ps_best ps_bad ps_cool]; repeat split; congruence. }
  destruct (epoch_end c s v) as (s1 & r). destruct EE as (E1 & E2 & E3). split; [exact E1|]. split; [exact E2|]. intros q Q. destruct (Nat.eq_dec q t) as [->|NQ]; [rewrite nth_error_app2 by lia; rewrite RL, Nat.sub_diag; cbn; congruence|]. rewrite nth_error_app1 by lia. apply I3. lia.
Qed.

Lemma flag_bad i : flag i = true <-> bad_epoch (p_mode c) (p_tmode c) (p_th c) vals i.
Proof.
  unfold flag, bad_epoch. destruct (nth_error vals i) as [v|]; [|split; [discriminate|intros (v & X & _); discriminate]]. rewrite negb_true_iff. split; [intros X; exists v; split; [reflexivity|exact X]|]. intros (w & W & X). injection W as <-. exact X.
Qed.
End Runs.

(** The rate is reduced at epoch [t] exactly when the epochs t - patience, ..., t exist and none of them improved, and
    they all come after the cool-down of every earlier reduction. *)
Theorem C40_when : forall c P C vals s0, p_patience c = Z.of_nat P -> p_cooldown c = Z.of_nat C -> sane_threshold (p_mode c) (p_tmode c) (p_th c) -> plateau_init c = Ok s0 ->
  let reduced t := nth_error (snd (epochs_run c s0 vals)) t = Some true in
  forall t, reduced t <-> (t < List.length vals /\ P <= t /\ (forall i, t - P <= i <= t -> bad_epoch (p_mode c) (p_tmode c) (p_th c) vals i) /\ forall r, r < t -> reduced r -> r + C < t - P).
Proof.
  intros c P C vals s0 HP HC Sn I reduced t. unfold plateau_init in I. destruct (Qle_bool 1 (p_factor c)); [discriminate|]. injection I as <-.
  set (s0 := mk_ps Worst 0 0 (-1) (p_base c)) in *. pose proof (run_state c P C vals s0 HP HC Sn ltac:(repeat split) (List.length vals) (le_n _)) as R. rewrite firstn_all in R.
  unfold reduced. pose proof (run_len c vals s0) as RL. destruct (epochs_run c s0 vals) as (s & rs). destruct R as (_ & _ & R). cbn [snd] in RL |- *. set (fl := fun i => _) in R.
  assert (FB : forall i, fl i = true <-> bad_epoch (p_mode c) (p_tmode c) (p_th c) vals i) by (intros i; apply flag_bad). clearbody fl.
  assert (RR : forall r, nth_error rs r = Some true <-> r < List.length vals /\ cred P C fl r = true). { intros r. split; [intros X; assert (L : r < List.length rs) by (apply nth_error_Some; congruence); rewrite RL in L; rewrite (R r L) in X; injection X as X; split; assumption|intros (L & X); rewrite (R r L), X; reflexivity]. }
  destruct (cinv_step P C fl t (cinv_all P C fl t)) as (_ & K). rewrite RR. split.
  - intros (L & X). apply K in X. destruct X as (X1 & X2 & X3). split; [exact L|]. split; [exact X1|]. split; [intros i Q; apply FB, X2, Q|]. intros r Q Y. apply RR in Y. apply X3; [exact Q|apply Y].
  - intros (L & X1 & X2 & X3). split; [exact L|]. apply K. split; [exact X1|]. split; [intros i Q; apply FB, X2, Q|]. intros r Q Y. apply X3; [exact Q|]. apply RR. split; [lia|exact Y].
Qed.

(** ** Learning rates *)
Definition all3 (R : Q -> Q -> Q -> Prop) (mins olds news : list Q) : Prop := List.length news = List.length olds /\ forall i m o n, nth_error mins i = Some m -> nth_error olds i = Some o -> nth_error news i = Some n -> R m o n.

(** reduce_lr on one group: multiplied by the factor, or clamped to the minimum, or left alone because the change would
    not exceed eps *)
Definition reduction (factor eps m o n : Q) : Prop :=
  ((m <= o * factor /\ n == o * factor /\ o - n > eps) \/ (o * factor < m /\ n == m /\ o - n > eps) \/
   (n = o /\ ((m <= o * factor /\ o - o * factor <= eps) \/ (o * factor < m /\ o - m <= eps))))%Q.

Lemma reduce_nth factor eps : forall mins olds i m o, nth_error mins i = Some m -> nth_error olds i = Some o -> nth_error (reduce_lr factor eps mins olds) i = Some (reduce_one factor eps m o).
Proof. induction mins as [|x mins IH]; intros [|y olds] [|i] m o M O; try discriminate; [injection M as ->; injection O as ->; reflexivity|]. cbn [reduce_lr nth_error]. apply IH; assumption. Qed.
Lemma reduce_len factor eps : forall mins olds, List.length (reduce_lr factor eps mins olds) = List.length olds.
Proof. induction mins as [|x mins IH]; intros [|y olds]; try reflexivity. cbn. f_equal. apply IH. Qed.
Lemma reduce_one_ok factor eps m o : reduction factor eps m o (reduce_one factor eps m o).
Proof.
  unfold reduce_one, reduction. rewrite qltb_lt. destruct (Qle_bool m (o * factor)) eqn:E.
  - apply Qle_bool_iff in E. destruct (lt_dec eps (o - o * factor)) eqn:X; [apply lt_dec_true in X; left; split; [exact E|split; [reflexivity|exact X]]|]. apply lt_dec_false in X. right. right. split; [reflexivity|]. left. split; assumption.
  - assert (E' : (o * factor < m)%Q) by (apply Qnot_le_lt; intros Q; apply Qle_bool_iff in Q; congruence). destruct (lt_dec eps (o - m)) eqn:X; [apply lt_dec_true in X; right; left; split; [exact E'|split; [reflexivity|exact X]]|]. apply lt_dec_false in X. right. right. split; [reflexivity|]. right. split; assumption.
Qed.

(** One epoch: no change without a reduction; with one, every group is multiplied by the factor, clamped or left alone. *)
Theorem C40_rates : forall c s v s' red, epoch_end c s v = (s', red) ->
  (red = false -> ps_lr s' = ps_lr s) /\ (red = true -> all3 (reduction (p_factor c) (p_eps c)) (p_min c) (ps_lr s) (ps_lr s')).
Proof.
  intros c s v s' red E. unfold epoch_end in E. destruct (if is_better _ _ _ _ _ then _ else _) as (best & bad). destruct (if (0 <? ps_cool s)%Z then _ else _) as (cool & bad'). destruct (p_patience c <? bad')%Z; injection E as <- <-; split; try discriminate; intros _; cbn [ps_lr]; [|reflexivity].
  split; [apply reduce_len|]. intros i m o n M O N. rewrite (reduce_nth _ _ _ _ _ _ _ M O) in N. injection N as <-. apply reduce_one_ok.
Qed.

(** Over any history of epochs the rate of a group never increases, and if it starts at or above its minimum it stays there. *)
Theorem C40_monotone : forall c vals s, (0 <= p_eps c)%Q ->
  all3 (fun m o n => n <= o /\ (m <= o -> m <= n))%Q (p_min c) (ps_lr s) (ps_lr (fst (epochs_run c s vals))).
Proof.
  intros c vals. induction vals as [|v vals IH]; intros s Ep; cbn [epochs_run]; [split; [reflexivity|]; intros i m o n _ O N; cbn [fst] in N; rewrite O in N; injection N as <-; split; [apply Qle_refl|auto]|].
  destruct (epoch_end c s v) as (s1 & r) eqn:E. destruct (C40_rates c s v s1 r E) as (R1 & R2). destruct (IH s1 Ep) as (L & M). destruct (epochs_run c s1 vals) as (s2 & rs). cbn [fst] in *.
  assert (H1 : all3 (fun m o n => n <= o /\ (m <= o -> m <= n))%Q (p_min c) (ps_lr s) (ps_lr s1)).
  { destruct r; [|rewrite (R1 eq_refl); split; [reflexivity|]; intros i m o n _ O N; rewrite O in N; injection N as <-; split; [apply Qle_refl|auto]].
    destruct (R2 eq_refl) as (L2 & Q). split; [exact L2|]. intros i m o n Mi O N. destruct (Q i m o n Mi O N) as [(A & B & D)|[(A & B & D)|(-> & _)]]; [split; [lra|intros; lra]|split; [lra|intros; lra]|split; [apply Qle_refl|auto]]. }
  destruct H1 as (L1 & H1). split; [congruence|]. intros i m o n Mi O N. destruct (nth_error (ps_lr s1) i) as [o1|] eqn:O1; [|apply nth_error_None in O1; assert (i < List.length (ps_lr s)) by (apply nth_error_Some; congruence); lia].
  destruct (H1 i m o o1 Mi O O1) as (A1 & A2). destruct (M i m o1 n Mi O1 N) as (B1 & B2). split; [lra|]. intros Q. apply B2, A2, Q.
Qed.

(** A factor of one or more is rejected. *)
Theorem C40_factor : forall c, (1 <= p_factor c)%Q -> plateau_init c = Err ValueError.
Proof. intros c L. unfold plateau_init. rewrite (proj2 (Qle_bool_iff _ _) L). reflexivity. Qed.

(** With the default warmup_steps = 0 the first batch raises ZeroDivisionError. *)
Theorem C40_no_warmup_refuted : forall c s, p_base c <> [] -> plateau_init c = Ok s -> p_warmup c = 0%Z -> plateau_batch c s = Err ZeroDivisionError.
Proof. intros c s N I W. unfold plateau_init in I. destruct (Qle_bool 1 (p_factor c)); [discriminate|]. injection I as <-. unfold plateau_batch. rewrite W. destruct (p_base c); [congruence|reflexivity]. Qed.

Definition demo_cfg := mk_pcfg PMin TRel (1 # 10000) (1 # 10) 1 1 0 [1 # 1000]%Q 5 [1 # 10]%Q.
Example C40_witness : exists s0, plateau_init demo_cfg = Ok s0 /\ snd (epochs_run demo_cfg s0 [5; 4; 4; 4; 4; 4; 4; 3]%Q) = [false; false; false; true; false; false; true; false] /\
  Forall2 Qeq (ps_lr (fst (epochs_run demo_cfg s0 [5; 4; 4; 4; 4; 4; 4; 3]%Q))) [1 # 1000]%Q.
Proof. eexists. split; [vm_compute; reflexivity|]. split; [vm_compute; reflexivity|]. repeat constructor. Qed.
Print Assumptions C40_when. Print Assumptions C40_rates. Print Assumptions C40_monotone. Print Assumptions C40_factor. Print Assumptions C40_no_warmup_refuted.
