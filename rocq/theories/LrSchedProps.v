(** Properties of the warm-up, exponential and cosine schedulers. *)
From Coq Require Import Reals Lra.
From Verif Require Import LrSched.
Open Scope list_scope.
Open Scope Z_scope.

Definition in_range (s : sched) : Prop := forall g, In g (s_groups s) -> (g_min g <= g_lr g <= g_base g)%R.
Definition good_groups (s : sched) : Prop := forall g, In g (s_groups s) -> (0 <= g_base g)%R /\ (g_min g <= g_base g)%R.
(** restarts must not push the peak below the minimum *)
Definition good_kind (s : sched) : Prop :=
  match s_kind s with
  | Exp rate decay hold => (0 < rate <= 1)%R /\ 0 < decay
  | Cos T m restarts gamma last num => 1 <= T /\ 1 <= m /\ (0 <= gamma <= 1)%R /\ (forall k g, In g (s_groups s) -> (g_min g <= gamma ^ k * g_base g)%R)
  end.

Lemma pow_unit gamma n : (0 <= gamma <= 1)%R -> (0 <= gamma ^ n <= 1)%R.
Proof. intros G. induction n as [|n IH]; cbn [pow]; [lra|]. split; [apply Rmult_le_pos; lra|]. apply Rle_trans with (gamma * 1)%R; [apply Rmult_le_compat_l; lra|lra]. Qed.
Lemma rpower_unit rate y : (0 < rate <= 1)%R -> (0 <= y)%R -> (0 < Rpower rate y <= 1)%R.
Proof.
  intros R Y. split; [apply exp_pos|]. unfold Rpower. rewrite <- exp_0. assert (L : (ln rate <= 0)%R). { rewrite <- ln_1. destruct (Rle_lt_or_eq_dec _ _ (proj2 R)) as [Q| ->]; [apply Rlt_le, ln_increasing; lra|apply Rle_refl]. }
  assert (Z : (y * ln rate <= 0)%R). { rewrite <- (Rmult_0_r y). apply Rmult_le_compat_l; assumption. } destruct (Rle_lt_or_eq_dec _ _ Z) as [Q|Q]; [apply Rlt_le, exp_increasing; exact Q|rewrite Q; apply Rle_refl].
Qed.
Lemma exp_range rate decay hold step g : (0 < rate <= 1)%R -> 0 < decay -> (0 <= g_base g)%R -> (g_min g <= g_base g)%R -> (g_min g <= exp_lr rate decay hold step g <= g_base g)%R.
Proof.
  intros R D B M. unfold exp_lr. destruct (Z.ltb_spec step hold) as [L|L]; [lra|]. split; [apply Rmax_l|]. apply Rmax_lub; [exact M|].
  destruct (rpower_unit rate (IZR (step - hold) / IZR decay) R) as (A1 & A2). { apply Rmult_le_pos; [apply IZR_le; lia|]. apply Rlt_le, Rinv_0_lt_compat, IZR_lt. exact D. }
  rewrite <- (Rmult_1_r (g_base g)) at 2. apply Rmult_le_compat_l; assumption.
Qed.
Lemma cos_range T gamma num x g : (0 <= gamma <= 1)%R -> (0 <= g_base g)%R -> (g_min g <= gamma ^ num * g_base g)%R -> (g_min g <= cos_lr T gamma num x g <= g_base g)%R.
Proof.
  intros G B M. unfold cos_lr. pose proof (COS_bound (PI / IZR T * IZR x)) as (C1 & C2). set (c := cos (PI / IZR T * IZR x)) in *. destruct (pow_unit gamma num G) as (P1 & P2).
  assert (U : (gamma ^ num * g_base g <= g_base g)%R) by (rewrite <- (Rmult_1_l (g_base g)) at 2; apply Rmult_le_compat_r; assumption).
  set (a := (gamma ^ num * g_base g)%R) in *. assert (0 <= (a - g_min g) * (1 + c))%R by (apply Rmult_le_pos; lra). assert (0 <= (a - g_min g) * (1 - c))%R by (apply Rmult_le_pos; lra). split; lra.
Qed.

Definition wf (s : sched) : Prop := good_groups s /\ good_kind s /\ 0 < s_warmup s /\ -1 <= s_batch s.
Lemma in_set s f g : In g (s_groups (set_lr s f)) -> exists h, In h (s_groups s) /\ g_base g = g_base h /\ g_min g = g_min h /\ g_lr g = f h.
Proof. cbn. intros I. apply in_map_iff in I. destruct I as (h & <- & I). exists h. repeat split. exact I. Qed.

Lemma get_lr_ok s step k f : wf s -> get_lr s step = Ok (k, f) -> good_kind (with_kind s k) /\ forall g, In g (s_groups s) -> (g_min g <= f g <= g_base g)%R.
Proof.
  intros (G & K & W & B) E. unfold get_lr in E. unfold good_kind in *. destruct (s_kind s) as [rate decay hold|T m restarts gamma last num] eqn:KS.
  - destruct (step <? hold); [injection E as <- <-; split; [cbn; exact K|]; intros g I; destruct (G g I); lra|]. destruct (decay =? 0); [discriminate|]. injection E as <- <-. split; [exact K|]. intros g I. destruct (G g I), K. apply exp_range; assumption.
  - cbv zeta in E. destruct K as (K1 & K2 & K3 & K4). match type of E with context [if ?c then ?a else T] => set (T' := if c then a else T) in E end. assert (KT : 1 <= T') by (unfold T'; destruct (Z.leb_spec T (step - last)); destruct (s_on_batch s), restarts, (s_epoch s =? 0); cbn; lia). clearbody T'.
    destruct (Z.leb_spec T' (step - last)).
    + destruct restarts.
      * destruct (T' * m =? 0); [discriminate|]. injection E as <- <-. cbn [with_kind s_kind s_groups]. split; [split; [nia|split; [exact K2|split; [exact K3|exact K4]]]|]. intros g I. destruct (G g I). apply cos_range; [exact K3|assumption|apply K4; exact I].
      * injection E as <- <-. cbn [with_kind s_kind s_groups]. split; [split; [exact KT|split; [exact K2|split; [exact K3|exact K4]]]|]. intros g I. destruct (G g I). lra.
    + destruct (T' =? 0); [discriminate|]. injection E as <- <-. cbn [with_kind s_kind s_groups]. split; [split; [exact KT|split; [exact K2|split; [exact K3|exact K4]]]|]. intros g I. destruct (G g I). apply cos_range; [exact K3|assumption|apply K4; exact I].
Qed.
Lemma get_lr_total s step : wf s -> exists k f, get_lr s step = Ok (k, f).
Proof.
  intros (G & K & W & B). unfold get_lr, good_kind in *. destruct (s_kind s) as [rate decay hold|T m restarts gamma last num].
  - destruct (step <? hold); [eexists _, _; reflexivity|]. rewrite (proj2 (Z.eqb_neq _ _)) by lia. eexists _, _. reflexivity.
  - cbv zeta. destruct K as (K1 & K2 & _). match goal with |- context [if ?c then ?a else T] => set (T' := if c then a else T) end. assert (KT : 1 <= T') by (unfold T'; destruct (Z.leb_spec T (step - last)); destruct (s_on_batch s), restarts, (s_epoch s =? 0); cbn; lia). clearbody T'.
    destruct (T' <=? step - last); [destruct restarts; [rewrite (proj2 (Z.eqb_neq _ _)) by nia|]; eexists _, _; reflexivity|]. rewrite (proj2 (Z.eqb_neq _ _)) by lia. eexists _, _. reflexivity.
Qed.

Lemma set_wf s f : wf s -> (forall g, In g (s_groups s) -> (g_min g <= f g <= g_base g)%R) -> wf (set_lr s f) /\ in_range (set_lr s f).
Proof.
  intros (G & K & W & B) F. split.
  - split; [intros g I; destruct (in_set s f g I) as (h & Ih & E1 & E2 & E3); rewrite E1, E2; apply G; exact Ih|]. split; [|split; assumption].
    unfold good_kind in *. cbn [set_lr s_kind]. destruct (s_kind s); [exact K|]. destruct K as (K1 & K2 & K3 & K4). repeat split; try assumption; try apply K3. intros k g I. destruct (in_set s f g I) as (h & Ih & E1 & E2 & E3). rewrite E1, E2. apply K4. exact Ih.
  - intros g I. destruct (in_set s f g I) as (h & Ih & E1 & E2 & E3). rewrite E1, E2, E3. apply F. exact Ih.
Qed.

Lemma warm_range w x g : 0 < w -> 0 <= x <= w -> (g_min g <= g_base g)%R -> (g_min g <= warmup_lr w x g <= g_base g)%R.
Proof.
  intros W X M. unfold warmup_lr. assert (W' : (0 < IZR w)%R) by (apply IZR_lt; exact W). assert (X1 : (0 <= IZR x)%R) by (apply IZR_le; lia). assert (X2 : (IZR x <= IZR w)%R) by (apply IZR_le; lia).
  set (d := (g_base g - g_min g)%R). assert (D : (0 <= d)%R) by (unfold d; lra). assert (E : (d / IZR w * IZR x = d * (IZR x / IZR w))%R) by (field; lra). rewrite E.
  assert (0 <= IZR x / IZR w <= 1)%R. { split; [apply Rmult_le_pos; [exact X1|apply Rlt_le, Rinv_0_lt_compat; exact W']|]. apply (Rmult_le_reg_r (IZR w)); [exact W'|]. unfold Rdiv. rewrite Rmult_assoc, Rinv_l by lra. lra. }
  assert (0 <= d * (IZR x / IZR w))%R by (apply Rmult_le_pos; lra). assert (d * (IZR x / IZR w) <= d * 1)%R by (apply Rmult_le_compat_l; lra). unfold d in *. lra.
Qed.

Lemma event_ok s e s' : wf s -> in_range s -> on_event s e = Ok s' -> wf s' /\ in_range s'.
Proof.
  intros W I E. destruct e as [k| |]; cbn [on_event] in E.
  - unfold epoch_begin in E. cbn [s_on_batch] in E. set (s1 := mk_sched (s_kind s) (s_warmup s) k (s_batch s) (s_on_batch s) (s_groups s)) in E. assert (W1 : wf s1) by exact W. destruct (s_on_batch s); [injection E as <-; split; [exact W1|exact I]|].
    destruct (get_lr s1 k) as [(k' & f)|] eqn:GL; [|discriminate]. cbn [bind] in E. injection E as <-. destruct (get_lr_ok s1 k k' f W1 GL) as (A & B). apply set_wf; [|exact B]. destruct W1 as (G & _ & Ww & Bb). split; [exact G|]. split; [exact A|split; assumption].
  - unfold batch_step in E. cbn [s_batch s_warmup s_on_batch] in E. set (s1 := mk_sched (s_kind s) (s_warmup s) (s_epoch s) (s_batch s + 1) (s_on_batch s) (s_groups s)) in E.
    assert (W1 : wf s1) by (destruct W as (G & K & Ww & Bb); split; [exact G|split; [exact K|split; [exact Ww|cbn; lia]]]).
    destruct (Z.leb_spec (s_batch s + 1) (s_warmup s)) as [L|L].
    + destruct (s_warmup s =? 0); [discriminate|]. injection E as <-. apply set_wf; [exact W1|]. intros g Ig. destruct W as (G & K & Ww & Bb). apply warm_range; [exact Ww|lia|apply G; exact Ig].
    + destruct (negb (s_on_batch s)); [injection E as <-; split; [exact W1|exact I]|]. destruct (get_lr s1 (s_batch s + 1)) as [(k' & f)|] eqn:GL; [|discriminate]. cbn [bind] in E. injection E as <-. destruct (get_lr_ok s1 _ k' f W1 GL) as (A & B). apply set_wf; [|exact B]. destruct W1 as (G & _ & Ww & Bb). split; [exact G|]. split; [exact A|split; assumption].
  - unfold epoch_end in E. destruct (s_kind s) as [|T m restarts gamma last num] eqn:K; [injection E as <-; split; assumption|]. destruct ((s_epoch s =? 0) && s_on_batch s && restarts); [|injection E as <-; split; assumption].
    destruct (Z.eqb_spec (s_batch s) 0) as [Z|Z]; [discriminate|]. injection E as <-. split; [|exact I]. destruct W as (G & Kk & Ww & Bb). split; [exact G|]. split; [|split; assumption]. unfold good_kind in *. rewrite K in Kk. cbn [with_kind s_kind s_groups]. destruct Kk as (K1 & K2 & K3 & K4). split; [|split; [exact K2|split; [exact K3|exact K4]]].
    destruct (Z.eq_dec (s_batch s) (-1)) as [Q|Q].
    * rewrite Q. assert (X : - T / -1 = T) by (change (-1) with (- (1)); rewrite Z.div_opp_opp by lia; apply Z.div_1_r). rewrite X. lia.
    * assert (P : 0 < s_batch s) by lia. pose proof (Z.mul_div_le (- T) (s_batch s) P). nia.
Qed.

(** With a positive warm-up, whatever the sequence of epoch starts, batches and epoch ends, every rate stays between the
    minimum and the initial rate. For the cosine this needs that the restarts do not lower the peak gamma^k * base
    below the minimum. *)
Theorem C41_range : forall k warmup on_batch groups events s', 0 < warmup ->
  (forall b m, In (b, m) groups -> (0 <= b /\ m <= b)%R) ->
  match k with
  | Exp rate decay hold => (0 < rate <= 1)%R /\ 0 < decay
  | Cos T T_mul restarts gamma last num => 1 <= T /\ 1 <= T_mul /\ (0 <= gamma <= 1)%R /\ forall j b m, In (b, m) groups -> (m <= gamma ^ j * b)%R
  end ->
  run (fresh k warmup on_batch groups) events = Ok s' -> forall g, In g (s_groups s') -> (g_min g <= g_lr g <= g_base g)%R.
Proof.
  intros k w ob groups events s' W G K E.
  assert (GI : forall g, In g (s_groups (fresh k w ob groups)) -> exists b m, In (b, m) groups /\ g = mk_group b m b) by (intros g I; cbn in I; apply in_map_iff in I; destruct I as ((b, m) & <- & I); exists b, m; split; [exact I|reflexivity]).
  assert (W0 : wf (fresh k w ob groups)).
  { split; [intros g I; destruct (GI g I) as (b & m & Ib & ->); apply (G b m Ib)|]. split; [|split; cbn; lia]. unfold good_kind. cbn [s_kind fresh]. destruct k; [exact K|]. destruct K as (K1 & K2 & K3 & K4). split; [exact K1|split; [exact K2|split; [exact K3|]]]. intros j g I. destruct (GI g I) as (b & m & Ib & ->). apply (K4 j b m Ib). }
  assert (I0 : in_range (fresh k w ob groups)) by (intros g I; destruct (GI g I) as (b & m & Ib & ->); cbn; destruct (G b m Ib); lra).
  revert W0 I0 E. generalize (fresh k w ob groups). clear. induction events as [|e l IH]; intros s W I E; cbn [run] in E; [injection E as <-; exact I|]. destruct (on_event s e) as [s1|] eqn:X; [|discriminate]. cbn [bind] in E. destruct (event_ok s e s1 W I X) as (W1 & I1). apply (IH s1 W1 I1 E).
Qed.

(** epoch starts and batches never fail in that setting *)
Theorem C41_no_error : forall k warmup on_batch groups events, 0 < warmup ->
  (forall b m, In (b, m) groups -> (0 <= b /\ m <= b)%R) ->
  match k with
  | Exp rate decay hold => (0 < rate <= 1)%R /\ 0 < decay
  | Cos T T_mul restarts gamma last num => 1 <= T /\ 1 <= T_mul /\ (0 <= gamma <= 1)%R /\ forall j b m, In (b, m) groups -> (m <= gamma ^ j * b)%R
  end -> ~ In EpochEnd events -> exists s', run (fresh k warmup on_batch groups) events = Ok s'.
Proof.
  intros k w ob groups events W G K NE.
  assert (GI : forall g, In g (s_groups (fresh k w ob groups)) -> exists b m, In (b, m) groups /\ g = mk_group b m b) by (intros g I; cbn in I; apply in_map_iff in I; destruct I as ((b, m) & <- & I); exists b, m; split; [exact I|reflexivity]).
  assert (W0 : wf (fresh k w ob groups)).
  { split; [intros g I; destruct (GI g I) as (b & m & Ib & ->); apply (G b m Ib)|]. split; [|split; cbn; lia]. unfold good_kind. cbn [s_kind fresh]. destruct k; [exact K|]. destruct K as (K1 & K2 & K3 & K4). split; [exact K1|split; [exact K2|split; [exact K3|]]]. intros j g I. destruct (GI g I) as (b & m & Ib & ->). apply (K4 j b m Ib). }
  assert (I0 : in_range (fresh k w ob groups)) by (intros g I; destruct (GI g I) as (b & m & Ib & ->); cbn; destruct (G b m Ib); lra).
  revert W0 I0 NE. generalize (fresh k w ob groups). clear. induction events as [|e l IH]; intros s W I NE; cbn [run]; [eexists; reflexivity|].
  assert (X : exists s1, on_event s e = Ok s1).
  { destruct e as [j| |]; cbn [on_event]; [| |destruct NE; left; reflexivity].
    - unfold epoch_begin. cbn [s_on_batch]. destruct (s_on_batch s); [eexists; reflexivity|]. match goal with |- context [get_lr ?s1 ?j] => destruct (get_lr_total s1 j W) as (k & f & ->) end. eexists. reflexivity.
    - unfold batch_step. cbn [s_batch s_warmup s_on_batch]. pose proof W as (_ & _ & Ww & Wb). destruct (s_batch s + 1 <=? s_warmup s); [rewrite (proj2 (Z.eqb_neq _ _)) by lia; eexists; reflexivity|]. destruct (negb (s_on_batch s)); [eexists; reflexivity|].
      match goal with |- context [get_lr ?s1 ?j] => destruct (get_lr_total s1 j) as (k & f & ->); [destruct W as (A & B & C & D); split; [exact A|split; [exact B|split; [exact C|cbn; lia]]]|] end. eexists. reflexivity. }
  destruct X as (s1 & X). rewrite X. cbn [bind]. destruct (event_ok s e s1 W I X) as (W1 & I1). apply IH; [exact W1|exact I1|]. intros Q. apply NE. right. exact Q.
Qed.

(** ** Warm-up *)
Definition batches (l : list event) : Z := Z.of_nat (List.length (filter (fun e => match e with Batch => true | _ => false end) l)).
Lemma event_same s e s' : on_event s e = Ok s' -> s_warmup s' = s_warmup s /\ s_on_batch s' = s_on_batch s /\ map (fun g => (g_base g, g_min g)) (s_groups s') = map (fun g => (g_base g, g_min g)) (s_groups s) /\ s_batch s' = s_batch s + batches [e].
Proof.
  assert (M : forall gs (f : group -> R), map (fun g => (g_base g, g_min g)) (map (fun g => mk_group (g_base g) (g_min g) (f g)) gs) = map (fun g => (g_base g, g_min g)) gs) by (intros; rewrite map_map; reflexivity).
  destruct e as [k| |]; cbn [on_event]; intros E.
  - unfold epoch_begin in E. cbn [s_on_batch] in E. destruct (s_on_batch s) eqn:O.
    + injection E as <-. cbn. repeat split; try exact O; lia.
    + destruct (get_lr _ k) as [(k' & f)|]; [|discriminate]. injection E as <-. cbn. rewrite M. repeat split; try exact O; lia.
  - unfold batch_step in E. cbn [s_batch s_warmup s_on_batch] in E. destruct (s_batch s + 1 <=? s_warmup s).
    + destruct (s_warmup s =? 0); [discriminate|]. injection E as <-. cbn. rewrite M. repeat split.
    + destruct (negb (s_on_batch s)); [injection E as <-; cbn; repeat split|]. destruct (get_lr _ _) as [(k' & f)|]; [|discriminate]. injection E as <-. cbn. rewrite M. repeat split.
  - unfold epoch_end in E. destruct (s_kind s); [injection E as <-; cbn; repeat split; lia|]. match type of E with (if ?c then _ else _) = _ => destruct c end; [destruct (s_batch s =? 0); [discriminate|]|]; injection E as <-; cbn; repeat split; lia.
Qed.
Lemma run_app s a b : run s (a ++ b) = (s1 <- run s a ;; run s1 b).
Proof. revert s. induction a as [|e a IH]; intros s; [reflexivity|]. cbn [app run]. destruct (on_event s e); [apply IH|reflexivity]. Qed.
Lemma run_same l : forall s s', run s l = Ok s' -> s_warmup s' = s_warmup s /\ s_on_batch s' = s_on_batch s /\ map (fun g => (g_base g, g_min g)) (s_groups s') = map (fun g => (g_base g, g_min g)) (s_groups s) /\ s_batch s' = s_batch s + batches l.
Proof.
  induction l as [|e l IH]; intros s s' E; cbn [run] in E; [injection E as <-; unfold batches; cbn; repeat split; lia|]. destruct (on_event s e) as [s1|] eqn:X; [|discriminate]. destruct (event_same s e s1 X) as (A & B & C & D). destruct (IH s1 s' E) as (A' & B' & C' & D'). repeat split; try congruence. rewrite D', D. unfold batches. cbn [filter]. destruct e; cbn [List.length]; lia.
Qed.

(** Right after the (k+1)-th batch of the training, k <= warmup, the rate of every group is on the straight line from
    the minimum (k = 0) to the initial rate (k = warmup), whatever the schedule and the epoch boundaries. *)
Theorem C41_warmup : forall k warmup on_batch groups events s', 0 < warmup -> batches events <= warmup ->
  run (fresh k warmup on_batch groups) (events ++ [Batch]) = Ok s' ->
  map g_lr (s_groups s') = map (fun bm => snd bm + (fst bm - snd bm) * (IZR (batches events) / IZR warmup))%R groups.
Proof.
  intros k w ob groups events s' W L E. rewrite run_app in E. destruct (run (fresh k w ob groups) events) as [s|] eqn:R; [|discriminate]. cbn [bind run on_event] in E. destruct (run_same _ _ _ R) as (A & _ & C & D). cbn [fresh s_warmup s_batch s_groups] in A, C, D.
  unfold batch_step in E. cbn [s_batch s_warmup] in E. rewrite A, D in E. replace (-1 + batches events + 1) with (batches events) in E by lia. rewrite (proj2 (Z.leb_le _ _) L) in E. rewrite (proj2 (Z.eqb_neq _ _)) in E by lia. cbn [bind] in E. injection E as <-. cbn [s_groups set_lr]. rewrite map_map. cbn [g_lr].
  assert (C' : map (fun g => (g_base g, g_min g)) (s_groups s) = groups) by (rewrite C, map_map; cbn; clear; induction groups as [|(b, m) l IH]; [reflexivity|]; cbn; rewrite IH; reflexivity).
  rewrite <- C', map_map. apply map_ext. intros g. cbn [fst snd]. unfold warmup_lr. field. apply not_0_IZR. lia.
Qed.

(** With warmup_steps = 0, the default, the first batch raises ZeroDivisionError (any schedule). *)
Theorem C41_no_warmup_refuted : forall k on_batch groups, batch_step (fresh k 0 on_batch groups) = Err ZeroDivisionError.
Proof. intros. reflexivity. Qed.

(** ** Exponential schedule *)
Lemma exp_antitone rate decay hold g a b : (0 < rate <= 1)%R -> 0 < decay -> (0 <= g_base g)%R -> (g_min g <= g_base g)%R -> a <= b -> (exp_lr rate decay hold b g <= exp_lr rate decay hold a g)%R.
Proof.
  intros R D B M L. destruct (Z_lt_le_dec a hold) as [A|A]; [unfold exp_lr at 2; rewrite (proj2 (Z.ltb_lt _ _) A); apply exp_range; assumption|].
  unfold exp_lr. rewrite !(proj2 (Z.ltb_ge _ _)) by lia. apply Rle_max_compat_l. apply Rmult_le_compat_l; [exact B|]. unfold Rpower.
  assert (LN : (ln rate <= 0)%R). { rewrite <- ln_1. destruct (Rle_lt_or_eq_dec _ _ (proj2 R)) as [Q| ->]; [apply Rlt_le, ln_increasing; lra|apply Rle_refl]. }
  assert (Y : (IZR (a - hold) / IZR decay <= IZR (b - hold) / IZR decay)%R). { apply Rmult_le_compat_r; [apply Rlt_le, Rinv_0_lt_compat, IZR_lt; exact D|]. apply IZR_le. lia. }
  assert (Z : (IZR (b - hold) / IZR decay * ln rate <= IZR (a - hold) / IZR decay * ln rate)%R). { rewrite !(Rmult_comm _ (ln rate)). apply Rmult_le_compat_neg_l; assumption. }
  destruct (Rle_lt_or_eq_dec _ _ Z) as [Q|Q]; [apply Rlt_le, exp_increasing; exact Q|rewrite Q; apply Rle_refl].
Qed.

(** The rate at an epoch start is the initial one before hold_steps and then max(min, base * rate^((e-hold)/decay)),
    which never increases with the epoch. *)
Theorem C41_exp : forall rate decay hold warmup groups events s e, (0 < rate <= 1)%R -> 0 < decay ->
  (forall b m, In (b, m) groups -> (0 <= b /\ m <= b)%R) ->
  run (fresh (Exp rate decay hold) warmup false groups) events = Ok s ->
  let at_epoch e bm := (if e <? hold then fst bm else Rmax (snd bm) (fst bm * Rpower rate (IZR (e - hold) / IZR decay)))%R in
  exists s', epoch_begin s e = Ok s' /\ map g_lr (s_groups s') = map (at_epoch e) groups /\
    forall e' bm, e <= e' -> In bm groups -> (at_epoch e' bm <= at_epoch e bm)%R.
Proof.
  intros rate decay hold w groups events s e R D G E at_epoch. destruct (run_same _ _ _ E) as (A & O & C & B). cbn [fresh s_on_batch s_groups] in O, C.
  assert (K : forall l s s', run s l = Ok s' -> s_on_batch s = false -> s_kind s = Exp rate decay hold -> s_kind s' = Exp rate decay hold).
  { clear. induction l as [|ev l IH]; intros s s' E O K; cbn [run] in E; [injection E as <-; exact K|]. destruct (on_event s ev) as [s1|] eqn:X; [|discriminate]. apply (IH s1 s' E); [destruct (event_same _ _ _ X) as (_ & O' & _); congruence|].
    destruct ev; cbn [on_event] in X; unfold epoch_begin, batch_step, epoch_end, get_lr in X; cbn [s_on_batch s_kind s_batch s_warmup] in X; rewrite ?O, ?K in X; cbn [negb] in X.
    - destruct (e <? hold); [injection X as <-; first [exact K|reflexivity]|]. destruct (decay =? 0); [discriminate|]. injection X as <-. first [exact K|reflexivity].
    - destruct (s_batch s + 1 <=? s_warmup s); [destruct (s_warmup s =? 0); [discriminate|]|]; injection X as <-; first [exact K|reflexivity].
    - injection X as <-. first [exact K|reflexivity]. }
  specialize (K _ _ _ E eq_refl eq_refl). unfold epoch_begin. cbn [s_on_batch]. rewrite O. unfold get_lr. cbn [s_kind]. rewrite K.
  assert (C' : map (fun g => (g_base g, g_min g)) (s_groups s) = groups) by (rewrite C, map_map; cbn; clear; induction groups as [|(b, m) l IH]; [reflexivity|]; cbn; rewrite IH; reflexivity).
  assert (AE : forall g, at_epoch e (g_base g, g_min g) = exp_lr rate decay hold e g) by (intros g; unfold at_epoch, exp_lr; cbn [fst snd]; reflexivity).
  destruct (Z.ltb_spec e hold) as [L|L].
  - cbn [bind]. eexists. split; [reflexivity|]. cbn [s_groups set_lr with_kind]. split; [rewrite <- C', !map_map; cbn [g_lr]; apply map_ext; intros g; rewrite AE; unfold exp_lr; rewrite (proj2 (Z.ltb_lt _ _) L); reflexivity|].
    intros e' (b, m) Le I. destruct (G b m I). exact (exp_antitone rate decay hold (mk_group b m b) e e' R D ltac:(assumption) ltac:(assumption) Le).
  - rewrite (proj2 (Z.eqb_neq _ _)) by lia. cbn [bind]. eexists. split; [reflexivity|]. cbn [s_groups set_lr with_kind]. split; [rewrite <- C', !map_map; cbn [g_lr]; apply map_ext; intros g; rewrite AE; reflexivity|].
    intros e' (b, m) Le I. destruct (G b m I). exact (exp_antitone rate decay hold (mk_group b m b) e e' R D ltac:(assumption) ltac:(assumption) Le).
Qed.

(** ** Cosine schedule *)
Lemma cos_antitone T gamma num g x y : 1 <= T -> (g_min g <= gamma ^ num * g_base g)%R -> 0 <= x <= y -> y <= T -> (cos_lr T gamma num y g <= cos_lr T gamma num x g)%R.
Proof.
  intros P M X Y. unfold cos_lr. assert (TP : (0 < IZR T)%R) by (apply IZR_lt; lia). pose proof PI_RGT_0 as PP.
  assert (B : forall z, 0 <= z <= T -> (0 <= PI / IZR T * IZR z <= PI)%R). { intros z Q. assert (0 <= IZR z)%R by (apply IZR_le; lia). assert (IZR z <= IZR T)%R by (apply IZR_le; lia). assert (0 < / IZR T)%R by (apply Rinv_0_lt_compat; exact TP). split; [apply Rmult_le_pos; [apply Rlt_le, Rmult_lt_0_compat; assumption|assumption]|].
    apply Rle_trans with (PI / IZR T * IZR T)%R; [apply Rmult_le_compat_l; [apply Rlt_le, Rmult_lt_0_compat; assumption|assumption]|]. unfold Rdiv. rewrite Rmult_assoc, Rinv_l by lra. lra. }
  assert (C : (cos (PI / IZR T * IZR y) <= cos (PI / IZR T * IZR x))%R).
  { destruct (Z.eq_dec x y) as [->|N]; [apply Rle_refl|]. destruct (B x ltac:(lia)), (B y ltac:(lia)). apply Rlt_le, cos_decreasing_1; try assumption. apply Rmult_lt_compat_l; [apply Rmult_lt_0_compat; [exact PP|apply Rinv_0_lt_compat; exact TP]|]. apply IZR_lt. lia. }
  set (a := (gamma ^ num * g_base g - g_min g)%R). assert (0 <= a)%R by (unfold a; lra). assert (0 <= a * (cos (PI / IZR T * IZR x) - cos (PI / IZR T * IZR y)))%R by (apply Rmult_le_pos; lra). lra.
Qed.

(** epochs 0, 1, ..., n - 1 of a cosine schedule that is updated once per epoch *)
Definition epoch_starts (n : nat) : list event := map (fun i => EpochBegin (Z.of_nat i)) (seq 0 n).
Fixpoint restart_time (T m : Z) (k : nat) : Z := match k with O => 1 | S k => restart_time T m k + T * m ^ Z.of_nat k end.

Section CosRun.
Variables (T m : Z) (restarts : bool) (gamma : R) (warmup : Z) (groups : list (R * R)).
Hypothesis HT : 1 <= T.
Hypothesis Hm : 1 <= m.

Lemma pow_pos k : 1 <= m ^ Z.of_nat k.
Proof. induction k as [|k IH]; [cbn; lia|]. rewrite Nat2Z.inj_succ, Z.pow_succ_r by lia. nia. Qed.

Lemma cos_run n : exists s, run (fresh (Cos T m true gamma 1 0) warmup false groups) (epoch_starts n) = Ok s /\ s_on_batch s = false /\
  exists k, s_kind s = Cos (T * m ^ Z.of_nat k) m true gamma (restart_time T m k) k /\ Z.of_nat n <= restart_time T m k + T * m ^ Z.of_nat k /\ (k <> O -> restart_time T m k < Z.of_nat n) /\
    (n <> O -> map g_lr (s_groups s) = map (fun bm => snd bm + (gamma ^ k * fst bm - snd bm) * (1 + cos (PI / IZR (T * m ^ Z.of_nat k) * IZR (Z.of_nat n - 1 - restart_time T m k))) / 2)%R groups).
Proof.
  induction n as [|n IH].
  - eexists. split; [reflexivity|]. split; [reflexivity|]. exists O. cbn [restart_time Z.of_nat]. rewrite Z.pow_0_r, Z.mul_1_r. split; [reflexivity|]. split; [lia|]. split; [congruence|congruence].
  - destruct IH as (s & E & O & k & K & L1 & L2 & _). pose proof (pow_pos k) as PK. assert (PT : 1 <= T * m ^ Z.of_nat k) by nia.
    unfold epoch_starts in *. rewrite seq_S, map_app, run_app, E. cbn [bind map run on_event Nat.add]. destruct (run_same _ _ _ E) as (_ & _ & C & _). cbn [fresh s_groups] in C.
    assert (C' : map (fun g => (g_base g, g_min g)) (s_groups s) = groups) by (rewrite C, map_map; cbn; clear; induction groups as [|(b, q) l IH]; [reflexivity|]; cbn; rewrite IH; reflexivity).
    unfold epoch_begin. cbn [s_on_batch]. rewrite O. unfold get_lr. cbn [s_kind s_on_batch s_epoch]. rewrite K. rewrite andb_false_r. cbn [andb].
    destruct (Z.leb_spec (T * m ^ Z.of_nat k) (Z.of_nat n - restart_time T m k)) as [R|R].
    + assert (PM : T * m ^ Z.of_nat k * m = T * m ^ Z.of_nat (S k)) by (rewrite Nat2Z.inj_succ, Z.pow_succ_r by lia; ring). pose proof (pow_pos (S k)).
      rewrite (proj2 (Z.eqb_neq _ _)) by nia. cbn [bind]. eexists. split; [reflexivity|]. split; [reflexivity|]. exists (S k). cbn [s_kind set_lr with_kind]. rewrite PM. assert (NR : Z.of_nat n = restart_time T m (S k)) by (cbn [restart_time]; lia).
      split; [rewrite NR, Nat.add_1_r; reflexivity|]. split; [rewrite <- NR; nia|]. split; [intros _; lia|]. intros _. cbn [s_groups set_lr with_kind]. rewrite <- C', !map_map. apply map_ext. intros g. unfold cos_lr. cbn [fst snd g_lr g_base g_min]. replace (Z.of_nat (S n) - 1 - restart_time T m (S k)) with 0 by lia. rewrite Nat.add_1_r. reflexivity.
    + rewrite (proj2 (Z.eqb_neq _ _)) by lia. cbn [bind]. eexists. split; [reflexivity|]. split; [reflexivity|]. exists k. cbn [s_kind set_lr with_kind]. split; [reflexivity|]. split; [lia|]. split; [intros Q; specialize (L2 Q); lia|]. intros _. cbn [s_groups set_lr with_kind]. rewrite <- C', !map_map. apply map_ext. intros g. unfold cos_lr. cbn [fst snd g_lr g_base g_min]. replace (Z.of_nat (S n) - 1 - restart_time T m k) with (Z.of_nat n - restart_time T m k) by lia. reflexivity.
Qed.
End CosRun.

(** Warm restarts, one update per epoch: the k-th restart is at epoch 1 + T + T m + ... + T m^(k-1), the k-th period has
    T m^k epochs and in it the rate is the cosine from gamma^k base down to the minimum. *)
Theorem C41_cos_restarts : forall T m gamma warmup groups n, 1 <= T -> 1 <= m ->
  exists s k, run (fresh (Cos T m true gamma 1 0) warmup false groups) (epoch_starts (S n)) = Ok s /\
    (k <> O -> restart_time T m k <= Z.of_nat n) /\ Z.of_nat n < restart_time T m k + T * m ^ Z.of_nat k /\
    map g_lr (s_groups s) = map (fun bm => snd bm + (gamma ^ k * fst bm - snd bm) * (1 + cos (PI / IZR (T * m ^ Z.of_nat k) * IZR (Z.of_nat n - restart_time T m k))) / 2)%R groups.
Proof.
  intros T m gamma w groups n HT Hm. destruct (cos_run T m gamma w groups HT Hm (S n)) as (s & E & _ & k & _ & L1 & L2 & F). exists s, k. split; [exact E|]. split; [intros Q; specialize (L2 Q); lia|]. split; [lia|].
  rewrite (F ltac:(discriminate)). replace (Z.of_nat (S n) - 1 - restart_time T m k) with (Z.of_nat n - restart_time T m k) by lia. reflexivity.
Qed.

(** Without restarts, one update per epoch: the cosine until epoch T, then the minimum for ever; from epoch 1 on it never increases. *)
Theorem C41_cos_no_restarts : forall T m gamma warmup groups events s e, 1 <= T ->
  (forall b q, In (b, q) groups -> (q <= b)%R) ->
  run (fresh (Cos T m false gamma 1 0) warmup false groups) events = Ok s ->
  let at_epoch e bm := (if T + 1 <=? e then snd bm else snd bm + (fst bm - snd bm) * (1 + cos (PI / IZR T * IZR (e - 1))) / 2)%R in
  exists s', epoch_begin s e = Ok s' /\ map g_lr (s_groups s') = map (at_epoch e) groups /\
    forall e' bm, 1 <= e <= e' -> In bm groups -> (at_epoch e' bm <= at_epoch e bm)%R.
Proof.
  intros T m gamma w groups events s e HT G E at_epoch. destruct (run_same _ _ _ E) as (A & O & C & B). cbn [fresh s_on_batch s_groups] in O, C.
  assert (K : forall l s s', run s l = Ok s' -> s_on_batch s = false -> s_kind s = Cos T m false gamma 1 0 -> s_kind s' = Cos T m false gamma 1 0).
  { clear. induction l as [|ev l IH]; intros s s' E O K; cbn [run] in E; [injection E as <-; exact K|]. destruct (on_event s ev) as [s1|] eqn:X; [|discriminate]. apply (IH s1 s' E); [destruct (event_same _ _ _ X) as (_ & O' & _); congruence|].
    destruct ev; cbn [on_event] in X; unfold epoch_begin, batch_step, epoch_end, get_lr in X; cbn [s_on_batch s_kind s_batch s_warmup s_epoch] in X; rewrite ?O, ?K in X; rewrite ?andb_false_r in X; cbn [negb andb] in X.
    - destruct (T <=? e - 1); [injection X as <-; reflexivity|]. destruct (T =? 0); [discriminate|]. injection X as <-. reflexivity.
    - destruct (s_batch s + 1 <=? s_warmup s); [destruct (s_warmup s =? 0); [discriminate|]|]; injection X as <-; first [exact K|reflexivity].
    - injection X as <-. first [exact K|reflexivity]. }
  specialize (K _ _ _ E eq_refl eq_refl).
  assert (C' : map (fun g => (g_base g, g_min g)) (s_groups s) = groups) by (rewrite C, map_map; cbn; clear; induction groups as [|(b, q) l IH]; [reflexivity|]; cbn; rewrite IH; reflexivity).
  unfold epoch_begin. cbn [s_on_batch]. rewrite O. unfold get_lr. cbn [s_kind s_on_batch s_epoch]. rewrite K, andb_false_r. cbn [andb].
  assert (M : forall e' bm, 1 <= e <= e' -> In bm groups -> (at_epoch e' bm <= at_epoch e bm)%R).
  { intros e' (b, q) Le I. specialize (G b q I). set (g := mk_group b q b). assert (AE : forall z, 1 <= z <= T + 1 -> at_epoch z (b, q) = cos_lr T gamma 0 (z - 1) g).
    { intros z Z. unfold at_epoch, cos_lr. cbn [fst snd g g_base g_min pow]. destruct (Z.leb_spec (T + 1) z) as [Q|Q]; [|rewrite Rmult_1_l; reflexivity]. replace (z - 1) with T by lia. assert (ET : (PI / IZR T * IZR T = PI)%R) by (field; apply not_0_IZR; lia). rewrite ET, cos_PI. lra. }
    assert (Mn : at_epoch (T + 1) (b, q) = q) by (unfold at_epoch; rewrite Z.leb_refl; reflexivity).
    destruct (Z_lt_le_dec (T + 1) e') as [L'|L'].
    - assert (X : at_epoch e' (b, q) = at_epoch (T + 1) (b, q)) by (unfold at_epoch; rewrite (proj2 (Z.leb_le (T + 1) e')) by lia; rewrite Z.leb_refl; reflexivity). rewrite X. destruct (Z_lt_le_dec (T + 1) e) as [L|L].
      + assert (Y : at_epoch e (b, q) = at_epoch (T + 1) (b, q)) by (unfold at_epoch; rewrite (proj2 (Z.leb_le (T + 1) e)) by lia; rewrite Z.leb_refl; reflexivity). rewrite Y. apply Rle_refl.
      + rewrite !AE by lia. apply cos_antitone; [exact HT|cbn; lra|lia|lia].
    - rewrite !AE by lia. apply cos_antitone; [exact HT|cbn; lra|lia|lia]. }
  destruct (Z.leb_spec T (e - 1)) as [L|L].
  - cbn [bind]. eexists. split; [reflexivity|]. split; [|exact M]. cbn [s_groups set_lr with_kind]. rewrite <- C', !map_map. apply map_ext. intros g. unfold at_epoch. rewrite (proj2 (Z.leb_le (T + 1) e)) by lia. reflexivity.
  - rewrite (proj2 (Z.eqb_neq _ _)) by lia. cbn [bind]. eexists. split; [reflexivity|]. split; [|exact M]. cbn [s_groups set_lr with_kind]. rewrite <- C', !map_map. apply map_ext. intros g. unfold at_epoch, cos_lr. rewrite (proj2 (Z.leb_gt (T + 1) e)) by lia. cbn [fst snd g_lr pow]. rewrite Rmult_1_l. reflexivity.
Qed.

(** The first epoch does not get the initial rate: the cosine starts at epoch 1 (last_restart=1), so epoch 0 has a
    smaller rate than epoch 1. *)
Theorem C41_cos_first_epoch_refuted : exists s0 s1 g0 g1, run (fresh (Cos 2 1 false 1 1 0) 1 false [(1, 0)%R]) [EpochBegin 0] = Ok s0 /\ run s0 [EpochBegin 1] = Ok s1 /\ s_groups s0 = [g0] /\ s_groups s1 = [g1] /\ (g_lr g0 < g_lr g1)%R.
Proof.
  eexists _, _, _, _. split; [lazy -[Rplus Rmult Rinv Ropp cos PI IZR Rlt Rminus Rdiv]; reflexivity|]. split; [lazy -[Rplus Rmult Rinv Ropp cos PI IZR Rlt Rminus Rdiv]; reflexivity|]. split; [reflexivity|]. split; [reflexivity|]. cbn [g_lr].
  replace (PI / 2 * -1)%R with (- (PI / 2))%R by lra. replace (PI / 2 * 0)%R with 0%R by lra. rewrite cos_neg, cos_PI2, cos_0. lra.
Qed.

(** With gamma < 1 restarts can take the rate below the minimum: the condition of C41_range is needed. *)
Theorem C41_cos_below_min_refuted : exists s g, run (fresh (Cos 1 1 true (/ 100) 1 0) 1 false [(1, / 10)%R]) [EpochBegin 0; EpochBegin 1; EpochBegin 2] = Ok s /\ s_groups s = [g] /\ (g_lr g < g_min g)%R.
Proof.
  eexists _, _. split; [lazy -[Rplus Rmult Rinv Ropp cos PI IZR Rlt Rminus Rdiv]; reflexivity|]. split; [reflexivity|]. cbn [g_lr g_min]. rewrite Rmult_0_r, cos_0. lra.
Qed.

(** Per-batch updates with restarts: at the end of the first epoch T is rounded to a multiple of the number of batches
    minus one, not to a whole number of epochs as the comment says; with one batch per epoch it raises ZeroDivisionError. *)
Theorem C41_cos_whole_epochs_refuted : (exists s T, run (fresh (Cos 10 1 true 1 1 0) 1 true [(1, 0)%R]) (EpochBegin 0 :: repeat Batch 7 ++ [EpochEnd]) = Ok s /\ s_kind s = Cos T 1 true 1 1 0 /\ T mod 7 <> 0) /\
  run (fresh (Cos 10 1 true 1 1 0) 1 true [(1, 0)%R]) [EpochBegin 0; Batch; EpochEnd] = Err ZeroDivisionError.
Proof. split; [|lazy -[Rplus Rmult Rinv Ropp cos PI IZR Rlt Rminus Rdiv]; reflexivity]. eexists _, 12. split; [lazy -[Rplus Rmult Rinv Ropp cos PI IZR Rlt Rminus Rdiv]; reflexivity|]. split; [reflexivity|]. discriminate. Qed.

(** The factory: exp_lr is always updated per epoch whatever is asked; adamcos_lr cannot be built; an unknown name gives no scheduler. *)
Theorem C41_factory : forall rate decay hold T m restarts gamma warmup groups,
  create LExp rate decay hold T m restarts gamma warmup true groups = create LExp rate decay hold T m restarts gamma warmup false groups /\
  (forall b, create LAdamCos rate decay hold T m restarts gamma warmup b groups = Err TypeError) /\
  (forall b, create LUnknown rate decay hold T m restarts gamma warmup b groups = Ok None) /\
  (forall b, create LCos rate decay hold T m restarts gamma warmup b groups = Ok (Some (fresh (Cos T m restarts gamma 1 0) warmup b groups))).
Proof. intros. repeat split. Qed.

Example C41_witness : exists s, run (fresh (Exp (/ 2) 2 1) 2 false [(1, / 10)%R]) [EpochBegin 0; Batch; Batch; EpochEnd; EpochBegin 1; Batch; Batch] = Ok s /\ batches [EpochBegin 0; Batch] <= 2.
Proof. eexists. split; [lazy -[Rplus Rmult Rinv Ropp cos PI IZR Rlt Rminus Rdiv]; reflexivity|]. vm_compute. discriminate. Qed.
Print Assumptions C41_range. Print Assumptions C41_cos_restarts.
