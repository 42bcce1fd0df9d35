(** Crash and resume properties of the trainer. *)
From Coq Require Import Lia.
From Verif Require Import Str StrFacts Trainer.
Open Scope list_scope.
Open Scope nat_scope.

(** ** Checkpoint names *)
Lemma zeros_digits n : str_forallb is_digit (zeros n) = true.
Proof. induction n as [|n IH]; [reflexivity|exact IH]. Qed.
Lemma zeros_val n s : digits_val 0 (zeros n ++ s) = digits_val 0 s.
Proof. induction n as [|n IH]; [reflexivity|exact IH]. Qed.
Lemma fmt_val n : digits_val 0 (fmt_d (Z.of_nat n)) = Z.of_nat n.
Proof.
  destruct (fmt_d_digits (Z.of_nat n) ltac:(lia)) as (D & N). pose proof (py_int_digits _ N D) as P. rewrite py_int_fmt in P. congruence.
Qed.
Lemma ckpt_path_inj path a b : ckpt_path path a = ckpt_path path b -> a = b.
Proof.
  unfold ckpt_path. intros E. apply append_inj_l in E. apply append_inj_l in E.
  assert (F : forall n, str_in "." (fmt_04d n) = false) by (intros n; apply str_in_digits; [reflexivity|]; unfold fmt_04d; rewrite str_forallb_app, zeros_digits; apply (fmt_d_digits (Z.of_nat n)); lia).
  assert (G : fmt_04d a = fmt_04d b) by (pose proof (f_equal (split1 ".") E) as G; change ".pth"%string with (String "." "pth") in G; rewrite !split1_at in G by apply F; congruence).
  apply (f_equal (digits_val 0)) in G. unfold fmt_04d in G. rewrite !zeros_val, !fmt_val in G. lia.
Qed.

Lemma last_nonempty {A} (l : list A) a b : l <> [] -> last l a = last l b.
Proof. induction l as [|x [|y l] IH]; intros N; [congruence|reflexivity|]. change (last (y :: l) a = last (y :: l) b). apply IH. discriminate. Qed.

Section Props.
Context {Mod Opt Loss Sch Logs : Type}.
Notation parts := (Mod * Opt * Loss * option Sch)%type.
Notation disk := (disk Mod Opt Loss Sch Logs).
Notation trainer := (trainer Mod Opt Loss Sch).
Variable work : nat -> parts -> res (parts * Logs).
Variable finish : Logs -> parts -> res parts.
Variable exp_path : string.
Variable init : parts.
Notation path := (ckpt_path exp_path).
Notation process := (process work finish exp_path).

(** ** Specification: training for n epochs without interruption *)
Fixpoint train_for (n : nat) : res parts :=
  match n with O => Ok init | S n => p <- train_for n ;; '(p, logs) <- work n p ;; finish logs p end.
(** whether the trainer has a scheduler never changes *)
Definition scheduler_fixed : Prop :=
  (forall e p p' l, work e p = Ok (p', l) -> (snd p = None <-> snd p' = None)) /\
  (forall l p p', finish l p = Ok p' -> (snd p = None <-> snd p' = None)).
(** no half written checkpoint *)
Definition readable (d : disk) : Prop := forall n, d_files d (path n) <> Some Broken.
(** a directory without checkpoints, then any number of training processes (with any number of epochs), each one killed at
    any moment other than in the middle of torch.save *)
Inductive history : disk -> Prop :=
| history_new : forall d, (forall n, d_files d (path n) = None) -> history d
| history_run : forall d epochs d', history d -> In d' (d :: fst (process epochs init d)) -> readable d' -> history d'.

(** ** Invariant *)
Definition saved (d : disk) (m : nat) : Prop :=
  (forall k, 1 <= k <= m -> exists c, d_files d (path k) = Some (Saved c) /\ k_epoch c = k /\ train_for k = Ok (k_model c, k_optim c, k_loss c, k_sched c)) /\
  (forall k, m < k -> d_files d (path k) = None).

Hypothesis fixed : scheduler_fixed.
Lemma train_sched n : forall p, train_for n = Ok p -> (snd p = None <-> snd init = None).
Proof.
  induction n as [|n IH]; intros p E; cbn [train_for] in E; [injection E as <-; reflexivity|]. destruct (train_for n) as [q|] eqn:Q; [|discriminate]. cbn [bind] in E. destruct (work n q) as [(r & l)|] eqn:W; [|discriminate]. cbn [bind] in E. specialize (IH q eq_refl). destruct fixed as (F1 & F2). specialize (F1 _ _ _ _ W). specialize (F2 _ _ _ E). tauto.
Qed.

Lemma load_ok d m N : saved d m -> exists t l, load_last_checkpoint exp_path N (construct init 0) d = Ok (t, l) /\ t_epoch t = Nat.min N m /\ train_for (Nat.min N m) = Ok (parts_of t) /\ t_append t = false.
Proof.
  intros (S1 & S2). induction N as [|N IH]; cbn [load_last_checkpoint].
  - eexists _, _. split; [reflexivity|]. cbn [Nat.min train_for]. destruct init as (((a & b) & c) & s). repeat split.
  - destruct (le_lt_dec (S N) m) as [L|L].
    + destruct (S1 (S N) ltac:(lia)) as (c & F & K & T). rewrite F. cbn [load_checkpoint]. pose proof (train_sched _ _ T) as Q. rewrite (Nat.min_l (S N) m L). destruct init as (((a & b) & lo) & s) eqn:I. cbn [construct t_sched t_append snd] in *. destruct s as [s|].
      * destruct (k_sched c) as [s'|] eqn:KS; [|destruct Q as (Q & _); specialize (Q eq_refl); discriminate]. eexists _, _. split; [reflexivity|]. split; [exact K|]. split; [exact T|reflexivity].
      * destruct Q as (_ & Q). specialize (Q eq_refl). rewrite Q in T. eexists _, _. split; [reflexivity|]. split; [exact K|]. split; [exact T|reflexivity].
    + rewrite (S2 (S N) L). replace (Nat.min (S N) m) with (Nat.min N m) by lia. exact IH.
Qed.

Lemma put_other (d : disk) k j f : k <> j -> d_files (put d (path k) f) (path j) = d_files d (path j).
Proof. intros N. cbn. destruct (String.eqb_spec (path j) (path k)) as [E|E]; [|reflexivity]. apply ckpt_path_inj in E. congruence. Qed.
Lemma put_same (d : disk) k f : d_files (put d (path k) f) (path k) = Some f.
Proof. cbn. rewrite String.eqb_refl. reflexivity. Qed.

Lemma loop_ok j : forall e (t : trainer) d, t_epoch t = e -> train_for e = Ok (parts_of t) -> saved d e ->
  snd (epoch_loop work finish exp_path (seq e j) t d) = (p <- train_for (e + j) ;; Ok (with_parts t (e + j) p)) /\
  (forall d', In d' (fst (epoch_loop work finish exp_path (seq e j) t d)) -> readable d' -> exists m, e <= m <= e + j /\ saved d' m) /\
  (forall t', snd (epoch_loop work finish exp_path (seq e j) t d) = Ok t' -> exists d', d' = last (d :: fst (epoch_loop work finish exp_path (seq e j) t d)) d /\ saved d' (e + j) /\ d_log d' = d_log d ++ seq (S e) j).
Proof.
  induction j as [|j IH]; intros e t d E T S.
  - cbn [seq epoch_loop fst snd]. rewrite Nat.add_0_r, T. cbn [bind]. split; [destruct t; cbn in *; subst; reflexivity|]. split; [intros d' []|]. intros t' _. exists d. split; [reflexivity|]. split; [exact S|]. rewrite app_nil_r. reflexivity.
  - cbn [seq epoch_loop]. assert (TS : train_for (e + Datatypes.S j) = train_for (Datatypes.S e + j)) by (f_equal; lia).
    assert (Step : train_for (Datatypes.S e) = ('(p, logs) <- work e (parts_of t) ;; finish logs p)) by (cbn [train_for]; rewrite T; reflexivity).
    assert (Fail : forall k x, train_for (Datatypes.S e) = Err x -> train_for (Datatypes.S e + k) = Err x). { intros k x. induction k as [|k IHk]; intros F; [rewrite Nat.add_0_r; exact F|]. rewrite Nat.add_succ_r. cbn [train_for]. rewrite (IHk F). reflexivity. }
    destruct (work e (parts_of t)) as [(p & logs)|x] eqn:W; cbn [bind] in Step.
    2: { cbn [fst snd]. split; [rewrite TS, (Fail j x Step); reflexivity|]. split; [intros d' []|]. intros t' Q; discriminate. }
    assert (P : parts_of (with_parts t (t_epoch t + 1) p) = p) by (destruct p as (((a & b) & c) & s); reflexivity). rewrite P.
    set (d1 := mk_disk (d_files d) (d_log d ++ [(e + 1)%nat])).
    assert (S1 : saved d1 e) by exact S.
    destruct (finish logs p) as [q|x] eqn:F.
    2: { cbn [fst snd]. split; [rewrite TS, (Fail j x Step); reflexivity|]. split; [|intros t' Q; discriminate]. intros d' [<-|[]] _. exists e. split; [lia|exact S1]. }
    set (t1 := with_parts (with_parts t (t_epoch t + 1) p) (t_epoch (with_parts t (t_epoch t + 1) p)) q).
    assert (E1 : t_epoch t1 = Datatypes.S e) by (unfold t1; destruct p as (((a & b) & c) & s), q as (((a' & b') & c') & s'); cbn; lia).
    assert (P1 : parts_of t1 = q) by (unfold t1; destruct q as (((a' & b') & c') & s'); reflexivity).
    assert (T1 : train_for (Datatypes.S e) = Ok (parts_of t1)) by (rewrite Step, P1; reflexivity).
    set (d3 := put d1 (path (t_epoch t1)) (Saved (checkpoint t1 (Some logs)))).
    assert (S3 : saved d3 (Datatypes.S e)).
    { unfold d3. rewrite E1. split.
      - intros k L. destruct (Nat.eq_dec (Datatypes.S e) k) as [Q|N].
        + subst k. rewrite put_same. eexists. split; [reflexivity|]. split; [exact E1|]. rewrite T1. reflexivity.
        + rewrite put_other by exact N. apply S1. lia.
      - intros k L. rewrite put_other by lia. apply S1. lia. }
    specialize (IH (Datatypes.S e) t1 d3 E1 T1 S3). destruct (epoch_loop work finish exp_path (seq (Datatypes.S e) j) t1 d3) as (tr & r) eqn:EL. cbn [fst snd] in *.
    destruct IH as (IH1 & IH2 & IH3). split; [rewrite IH1, TS; destruct (train_for (Datatypes.S e + j)) as [(((a & b) & c) & s)|]; cbn [bind]; [|reflexivity]; f_equal; unfold t1; destruct p as (((a0 & b0) & c0) & s0), q as (((a' & b') & c') & s'); cbn; f_equal; lia|]. split.
    + intros d' [<-|[<-|[<-|I]]] R; [exists e; split; [lia|exact S1]| |exists (Datatypes.S e); split; [lia|exact S3]|destruct (IH2 d' I R) as (m & L & Sm); exists m; split; [lia|exact Sm]].
      destruct (R (t_epoch t1)). apply put_same.
    + intros t' Q. destruct (IH3 t' Q) as (d' & D1 & D2 & D3). exists d'. split; [rewrite D1; destruct tr; [reflexivity|]; change (last (d3 :: d0 :: tr) d3) with (last (d0 :: tr) d3); change (last (d :: d1 :: put d1 (path (t_epoch t1)) Broken :: d3 :: d0 :: tr) d) with (last (d0 :: tr) d); apply last_nonempty; discriminate|]. split; [replace (e + Datatypes.S j) with (Datatypes.S e + j) by lia; exact D2|]. rewrite D3. unfold d3, d1. cbn [put d_log]. rewrite <- app_assoc. cbn [app seq]. repeat f_equal. lia.
Qed.

Lemma process_ok d m N : saved d m ->
  snd (process N init d) = (p <- train_for N ;; Ok (with_parts (construct init 0) N p)) /\
  (forall d', In d' (fst (process N init d)) -> readable d' -> exists m', m <= m' <= Nat.max m N /\ saved d' m') /\
  (forall t', snd (process N init d) = Ok t' -> d_log (last (fst (process N init d)) d) = seq (S m) (N - m)).
Proof.
  intros S. unfold process. destruct (load_ok d m N S) as (t & l & L & E & T & A). rewrite L. unfold fit. rewrite A. rewrite E.
  assert (S0 : saved (mk_disk (d_files d) []) m) by exact S.
  assert (WP : forall e p, with_parts t e p = with_parts (construct init 0) e p) by (intros e (((a & b) & c) & s); unfold with_parts; rewrite A; destruct init as (((a' & b') & c') & s'); reflexivity).
  destruct (le_lt_dec m N) as [Q|Q].
  - rewrite Nat.min_r in * by exact Q. destruct (loop_ok (N - m) m t (mk_disk (d_files d) []) E T S0) as (R1 & R2 & R3). destruct (epoch_loop _ _ _ _ _ _) as (tr & r) eqn:EL. cbn [fst snd] in *. replace (m + (N - m)) with N in * by lia.
    split; [rewrite R1; destruct (train_for N); cbn [bind]; [rewrite WP; reflexivity|reflexivity]|]. split.
    + intros d' [<-|I] R; [exists m; split; [lia|exact S0]|]. destruct (R2 d' I R) as (m' & L' & Sm). exists m'. split; [lia|exact Sm].
    + intros t' Et. destruct (R3 t' Et) as (d' & D1 & D2 & D3). rewrite (last_nonempty (mk_disk (d_files d) [] :: tr) d (mk_disk (d_files d) [])) by discriminate. rewrite <- D1, D3. reflexivity.
  - rewrite Nat.min_l in * by lia. replace (N - N) with 0 by lia. cbn [seq epoch_loop fst snd]. rewrite T. cbn [bind].
    split; [rewrite <- WP; destruct t as [te tm to tl ts ta]; cbn in *; subst; reflexivity|]. split; [intros d' [<-|[]] _; exists m; split; [lia|exact S0]|]. intros t' _. cbn. replace (N - m) with 0 by lia. reflexivity.
Qed.

Lemma history_saved d : history d -> exists m, saved d m.
Proof.
  induction 1 as [d F|d N d' H (m & S) I R]; [exists 0; split; [lia|intros k _; apply F]|]. destruct I as [<-|I]; [exists m; exact S|]. destruct (process_ok d m N S) as (_ & P & _). destruct (P d' I R) as (m' & _ & Sm). exists m'. exact Sm.
Qed.
End Props.

(** After any number of interruptions outside torch.save, one more training process returns exactly what a training that
    was never interrupted returns: the same model, optimizer, loss and scheduler states and epoch number, or the same
    exception. *)
Theorem C42_resume : forall Mod Opt Loss Sch Logs work finish exp_path init epochs (d : disk Mod Opt Loss Sch Logs), scheduler_fixed work finish ->
  history work finish exp_path init d ->
  snd (process work finish exp_path epochs init d) = (p <- train_for work finish init epochs ;; Ok (with_parts (construct init 0) epochs p)).
Proof. intros Mod Opt Loss Sch Logs work finish path init N d F H. destruct (history_saved work finish path init F d H) as (m & S). apply (process_ok work finish path init F d m N S). Qed.

(** What is restored is the state after the last completed epoch m (or after [epochs], if fewer are asked for): the
    checkpoints present are exactly those of the epochs 1..m, and training goes on with epoch min(epochs, m). *)
Theorem C42_restore : forall Mod Opt Loss Sch Logs work finish exp_path init epochs (d : disk Mod Opt Loss Sch Logs), scheduler_fixed work finish ->
  history work finish exp_path init d ->
  exists m t logs, (forall k, 1 <= k -> (d_files d (ckpt_path exp_path k) <> None <-> k <= m)) /\
    load_last_checkpoint exp_path epochs (construct init 0) d = Ok (t, logs) /\ t_epoch t = Nat.min epochs m /\ train_for work finish init (t_epoch t) = Ok (parts_of t).
Proof.
  intros Mod Opt Loss Sch Logs work finish path init N d F H. destruct (history_saved work finish path init F d H) as (m & S). destruct (load_ok work finish path init F d m N S) as (t & l & L & E & T & A). exists m, t, l. split; [|split; [exact L|split; [exact E|rewrite E; exact T]]].
  intros k K. destruct S as (S1 & S2). destruct (le_lt_dec k m) as [Q|Q]; [destruct (S1 k ltac:(lia)) as (c & Fc & _); rewrite Fc; split; [intros _; exact Q|intros _; discriminate]|rewrite (S2 k Q); split; [congruence|lia]].
Qed.

(** Completed epochs are never lost or recomputed: at every moment of a training process outside torch.save, the checkpoints
    present at its start are still there, and the completed epochs are still 1..m' with m <= m' <= max(m, epochs). *)
Theorem C42_progress : forall Mod Opt Loss Sch Logs work finish exp_path init epochs (d d' : disk Mod Opt Loss Sch Logs), scheduler_fixed work finish ->
  history work finish exp_path init d -> In d' (fst (process work finish exp_path epochs init d)) -> readable exp_path d' ->
  exists m m', m <= m' <= Nat.max m epochs /\
    (forall k, 1 <= k -> (d_files d (ckpt_path exp_path k) <> None <-> k <= m)) /\ (forall k, 1 <= k -> (d_files d' (ckpt_path exp_path k) <> None <-> k <= m')).
Proof.
  intros Mod Opt Loss Sch Logs work finish path init N d d' F H I R. destruct (history_saved work finish path init F d H) as (m & S). destruct (process_ok work finish path init F d m N S) as (_ & P & _). destruct (P d' I R) as (m' & L & S'). exists m, m'. split; [exact L|].
  assert (X : forall x n, saved work finish path init x n -> forall k, 1 <= k -> (d_files x (ckpt_path path k) <> None <-> k <= n)).
  { intros x n (S1 & S2) k K. destruct (le_lt_dec k n) as [Q|Q]; [destruct (S1 k ltac:(lia)) as (c & Fc & _); rewrite Fc; split; [intros _; exact Q|intros _; discriminate]|rewrite (S2 k Q); split; [congruence|lia]]. }
  split; apply X; assumption.
Qed.

(** A kill in the middle of torch.save is fatal: with a half written checkpoint as the last one, the next process, and so
    every later one, fails on start, although the previous checkpoint is intact. *)
Theorem C42_crash_in_save_refuted : forall Mod Opt Loss Sch Logs work finish exp_path init epochs n (d : disk Mod Opt Loss Sch Logs),
  1 <= n <= epochs -> d_files d (ckpt_path exp_path n) = Some Broken -> (forall k, n < k <= epochs -> d_files d (ckpt_path exp_path k) = None) ->
  process work finish exp_path epochs init d = ([], Err RuntimeErr).
Proof.
  intros Mod Opt Loss Sch Logs work finish path init N n d. unfold process.
  assert (X : forall N, 1 <= n <= N -> d_files d (ckpt_path path n) = Some Broken -> (forall k, n < k <= N -> d_files d (ckpt_path path k) = None) -> load_last_checkpoint path N (construct init 0) d = Err RuntimeErr).
  { clear N. induction N as [|N IH]; intros L B Hn; [lia|]. cbn [load_last_checkpoint]. destruct (Nat.eq_dec n (S N)) as [Q|Q]; [subst n; rewrite B; reflexivity|]. rewrite (Hn (S N) ltac:(lia)). apply IH; [lia|exact B|]. intros k K. apply Hn. lia. }
  intros L B Hn. rewrite (X N L B Hn). reflexivity.
Qed.
(** and such a state is reached: the second write of the first epoch of any training *)
Theorem C42_crash_in_save_reachable : forall Mod Opt Loss Sch Logs work finish exp_path init epochs (d : disk Mod Opt Loss Sch Logs) p1 l p2,
  1 <= epochs -> (forall n, d_files d (ckpt_path exp_path n) = None) -> work 0 init = Ok (p1, l) -> finish l p1 = Ok p2 ->
  exists d', In d' (fst (process work finish exp_path epochs init d)) /\ process work finish exp_path epochs init d' = ([], Err RuntimeErr).
Proof.
  intros Mod Opt Loss Sch Logs work finish path init N d p1 l p2 L Fr W Fi.
  assert (X : forall N t, load_last_checkpoint path N t d = Ok (t, None)). { clear N L. induction N as [|N IH]; intros t; [reflexivity|]. cbn [load_last_checkpoint]. rewrite Fr. apply IH. }
  unfold process at 1. rewrite X. unfold fit. destruct init as (((a & b) & c) & s) eqn:I. cbn [construct t_append Nat.ltb Nat.leb t_epoch]. destruct N as [|N]; [lia|]. rewrite Nat.sub_0_r. cbn [seq epoch_loop]. unfold parts_of at 1. cbn [t_model t_optim t_loss t_sched]. rewrite W. destruct p1 as (((a1 & b1) & c1) & s1). match goal with |- context [finish l ?x] => change x with (a1, b1, c1, s1) end. rewrite Fi. destruct p2 as (((a2 & b2) & c2) & s2). cbn [with_parts t_epoch].
  destruct (epoch_loop _ _ _ _ _ _) as (tr & r). cbn [fst]. eexists. split; [right; right; left; reflexivity|]. apply (C42_crash_in_save_refuted _ _ _ _ _ _ _ _ _ _ 1); [lia|cbn; rewrite String.eqb_refl; reflexivity|].
  intros k K. cbn [put d_files]. destruct (String.eqb_spec (ckpt_path path k) (ckpt_path path (0 + 1))) as [Q|Q]; [apply ckpt_path_inj in Q; lia|]. apply Fr.
Qed.

(** A checkpoint of an older experiment in the same directory is taken for the last epoch: after a training restarted from
    scratch (no load_last_checkpoint), a later load_last_checkpoint returns the old state. *)
Theorem C42_stale_refuted : forall Mod Opt Loss Sch Logs work finish exp_path epochs n (d d' : disk Mod Opt Loss Sch Logs) t t0 c,
  t_epoch t <= epochs -> epochs < n -> d_files d (ckpt_path exp_path n) = Some (Saved c) -> t_append t = false -> t_sched t0 = None ->
  d' = last (fst (fit work finish exp_path epochs t d)) d -> 
  exists t1, load_last_checkpoint exp_path n t0 d' = Ok (t1, k_logs c) /\ t_epoch t1 = k_epoch c /\ t_model t1 = k_model c.
Proof.
  intros Mod Opt Loss Sch Logs work finish path N n d d' t t0 c L1 L2 F A Sc ->.
  assert (X : forall es t d, (forall e, In e es -> e < N) -> (forall i, i < List.length es -> t_epoch t + i < N) -> d_files d (ckpt_path path n) = Some (Saved c) -> forall d', In d' (fst (epoch_loop work finish path es t d)) -> d_files d' (ckpt_path path n) = Some (Saved c)).
  { clear - L2. induction es as [|e es IH]; intros t d Le Lt F d' I; [destruct I|]. cbn [epoch_loop] in I. destruct (work e (parts_of t)) as [(p & l)|]; [|destruct I]. destruct (finish l _) as [q|]; [|destruct I as [<-|[]]; exact F].
    set (t1 := with_parts _ _ q) in I. assert (E1 : t_epoch t1 = t_epoch t + 1) by (unfold t1; destruct p as (((a & b) & c0) & s), q as (((a' & b') & c') & s'); reflexivity).
    assert (LT : t_epoch t + 1 < n) by (specialize (Lt 0 ltac:(cbn; lia)); lia).
    assert (P : forall f x, d_files x (ckpt_path path n) = Some (Saved c) -> d_files (put x (ckpt_path path (t_epoch t1)) f) (ckpt_path path n) = Some (Saved c)). { intros f x Fx. cbn. destruct (String.eqb_spec (ckpt_path path n) (ckpt_path path (t_epoch t1))) as [Q|Q]; [apply ckpt_path_inj in Q; lia|exact Fx]. }
    match type of I with context [epoch_loop _ _ _ es t1 ?d3] => specialize (IH t1 d3 (fun e He => Le e (or_intror He)) (fun i Hi => ltac:(rewrite E1; specialize (Lt (S i) ltac:(cbn; lia)); lia)) (P _ _ F)); destruct (epoch_loop work finish path es t1 d3) as (tr & r) end. cbn [fst] in *.
    destruct I as [<-|[<-|[<-|I]]]; [exact F|apply P; exact F|apply P; exact F|apply IH; exact I]. }
  assert (K : d_files (last (fst (fit work finish path N t d)) d) (ckpt_path path n) = Some (Saved c)).
  { unfold fit. rewrite A. specialize (X (seq (t_epoch t) (N - t_epoch t)) t (mk_disk (d_files d) []) ltac:(intros e I; apply in_seq in I; lia) ltac:(intros i I; rewrite seq_length in I; lia) F). destruct (epoch_loop _ _ _ _ _ _) as (tr & r). cbn [fst] in *.
    destruct tr as [|x tr] using rev_ind; [exact F|]. rewrite app_comm_cons, last_last. apply X. apply in_or_app. right. left. reflexivity. }
  destruct n as [|n]; [lia|]. cbn [load_last_checkpoint]. rewrite K. cbn [load_checkpoint]. rewrite Sc. eexists. split; [reflexivity|]. split; reflexivity.
Qed.

(** The log of the epochs: a training process that ends normally leaves in train.log exactly the rows of the epochs it ran
    itself; after an interruption the rows of the m epochs completed before are lost, because append is decided when the
    trainer is built, before load_last_checkpoint. *)
Theorem C57_log : forall Mod Opt Loss Sch Logs work finish exp_path init epochs t' (d : disk Mod Opt Loss Sch Logs), scheduler_fixed work finish ->
  history work finish exp_path init d -> snd (process work finish exp_path epochs init d) = Ok t' ->
  exists m, (forall k, 1 <= k -> (d_files d (ckpt_path exp_path k) <> None <-> k <= m)) /\
    d_log (last (fst (process work finish exp_path epochs init d)) d) = seq (S m) (epochs - m).
Proof.
  intros Mod Opt Loss Sch Logs work finish path init N t' d F H E. destruct (history_saved work finish path init F d H) as (m & S). destruct (process_ok work finish path init F d m N S) as (_ & _ & P). exists m. split; [|apply (P t' E)].
  intros k K. destruct S as (S1 & S2). destruct (le_lt_dec k m) as [Q|Q]; [destruct (S1 k ltac:(lia)) as (c & Fc & _); rewrite Fc; split; [intros _; exact Q|intros _; discriminate]|rewrite (S2 k Q); split; [congruence|lia]].
Qed.
(** in particular an uninterrupted training logs every epoch once, in order *)
Theorem C57_log_uninterrupted : forall Mod Opt Loss Sch Logs work finish exp_path init epochs t' (d : disk Mod Opt Loss Sch Logs), scheduler_fixed work finish ->
  (forall n, d_files d (ckpt_path exp_path n) = None) -> snd (process work finish exp_path epochs init d) = Ok t' ->
  d_log (last (fst (process work finish exp_path epochs init d)) d) = seq 1 epochs.
Proof.
  intros Mod Opt Loss Sch Logs work finish path init N t' d F H E. destruct (C57_log _ _ _ _ _ work finish path init N t' d F (history_new work finish path init d H) E) as (m & M & L). rewrite L. destruct m as [|m]; [rewrite Nat.sub_0_r; reflexivity|]. destruct (M 1 ltac:(lia)) as (_ & Q). destruct (Q ltac:(lia)). apply H.
Qed.
(** Asking for the log to be continued by building the trainer at epoch > 0 makes fit fail. *)
Theorem C57_append_refuted : forall Mod Opt Loss Sch Logs work finish exp_path (init : Mod * Opt * Loss * option Sch) epochs cur (d : disk Mod Opt Loss Sch Logs), 0 < cur ->
  fit work finish exp_path epochs (construct init cur) d = ([], Err AttributeError).
Proof. intros. unfold fit. destruct init as (((a & b) & c) & s). cbn [construct t_append]. rewrite (proj2 (Nat.ltb_lt _ _) H). reflexivity. Qed.

(** a concrete interrupted training: counters as states, killed after the row of epoch 3 is written, before the checkpoint *)
Definition ex_work (e : nat) (p : nat * nat * unit * option nat) : res (nat * nat * unit * option nat * nat) :=
  match p with (m, o, l, s) => Ok (m + e, S o, l, option_map S s, m) end.
Definition ex_finish (l : nat) (p : nat * nat * unit * option nat) : res (nat * nat * unit * option nat) :=
  match p with (m, o, u, s) => Ok (m, o + l, u, s) end.
Example C42_witness : exists d, history ex_work ex_finish "exp" (0, 0, tt, Some 0) d /\ d_log d = [1; 2; 3] /\ scheduler_fixed ex_work ex_finish.
Proof.
  exists (nth 7 (fst (process ex_work ex_finish "exp" 5 (0, 0, tt, Some 0) (mk_disk (fun _ => None) []))) (mk_disk (fun _ => None) [])). split; [|split].
  - apply (history_run _ _ _ _ (mk_disk (fun _ => None) []) 5); [apply history_new; intros; reflexivity|apply in_cons, nth_In, Nat.ltb_lt; vm_compute; reflexivity|].
    assert (R : forall n, (if (ckpt_path "exp" n =? ckpt_path "exp" 2)%string then Some (Saved (mk_ckpt 2 1 2 tt (Some 2) (Some 0))) else if (ckpt_path "exp" n =? ckpt_path "exp" 1)%string then Some (Saved (mk_ckpt 1 0 1 tt (Some 1) (Some 0))) else None) = Some Broken -> False) by (intros n; destruct (_ =? _)%string; [discriminate|]; destruct (_ =? _)%string; discriminate).
    vm_cast_no_check R.
  - vm_compute; reflexivity.
  - split; [intros e (((a & b) & c) & s) p' l E; injection E as <- <-; destruct s; cbn; split; congruence|intros l (((a & b) & c) & s) p' E; injection E as <-; reflexivity].
Qed.
Print Assumptions C42_resume. Print Assumptions C42_stale_refuted. Print Assumptions C57_log.
