(** Properties of the Keras callbacks (C104). *)
From Verif Require Import Base BaseFacts Str StrFacts Trainer TrainerProps.
From Coq Require Import QArith Lia.
From Verif Require Import Callbacks.
Open Scope list_scope.
Open Scope Z_scope.

(** *** Specification *)
(** the order of the floats; NaN is below nothing and above nothing *)
Inductive below : num -> num -> Prop :=
| below_mf q : below MInf (Fin q)
| below_mp : below MInf PInf
| below_ff p q : (p < q)%Q -> below (Fin p) (Fin q)
| below_fp p : below (Fin p) PInf.
(** metrics of which more is better: those with acc in their name and those that start with fmeasure *)
Definition higher (monitor : string) : Prop :=
  (exists a b, monitor = a ++ "acc" ++ b)%string \/ (exists b, monitor = "fmeasure" ++ b)%string.
(** [v] is a strictly better value of the metric than [w] *)
Definition wins (monitor : string) (v w : num) : Prop := (higher monitor /\ below w v) \/ (~ higher monitor /\ below v w).
(** a value that says something: neither NaN nor the worst infinity *)
Definition usable (monitor : string) (v : num) : Prop :=
  v <> NaN /\ (higher monitor -> v <> MInf) /\ (~ higher monitor -> v <> PInf).
Section Spec.
Context {M : Type}.
(** at the end of the i-th epoch of the run the model was [m] and the metric had the value [v] *)
Definition epoch_is (obs : list (M * logs)) (monitor : string) (i : nat) (m : M) (v : num) : Prop :=
  exists l, nth_error obs i = Some (m, l) /\ l monitor = Some v.
(** the i-th epoch is the first one of those with the best value *)
Definition first_best (obs : list (M * logs)) (monitor : string) (i : nat) (m : M) : Prop :=
  exists v, epoch_is obs monitor i m v /\ usable monitor v /\
    (forall j m' w, epoch_is obs monitor j m' w -> ~ wins monitor w v) /\
    (forall j m' w, epoch_is obs monitor j m' w -> (j < i)%nat -> usable monitor w -> wins monitor v w).
Definition no_metric (obs : list (M * logs)) (monitor : string) : Prop :=
  forall i m v, epoch_is obs monitor i m v -> ~ usable monitor v.
End Spec.
Definition no_braces (s : string) : Prop := str_in "{" s = false /\ str_in "}" s = false.

(** *** Proofs *)
Lemma nlt_iff a b : nlt a b = true <-> below a b.
Proof.
  split.
  - destruct a as [| |p|], b as [| |q|]; cbn; intros E; try discriminate; constructor.
    apply Qnot_le_lt. intros L. apply Qle_bool_iff in L. rewrite L in E. discriminate.
  - destruct 1; cbn; try reflexivity. destruct (Qle_bool q p) eqn:E; [|reflexivity]. apply Qle_bool_iff in E. exfalso. apply (Qlt_not_le _ _ H E).
Qed.
Lemma below_irr a : ~ below a a.
Proof. intros H. inversion H; subst. eapply Qlt_irrefl; eauto. Qed.
Lemma below_trans a b c : below a b -> below b c -> below a c.
Proof. destruct 1; inversion 1; subst; constructor. eapply Qlt_trans; eauto. Qed.
Lemma starts_iff p s : starts p s = true <-> exists r, s = (p ++ r)%string.
Proof.
  revert s. induction p as [|a p IH]; intros s; cbn; [split; [eexists; reflexivity|reflexivity]|].
  destruct s as [|b s]; [split; [discriminate|intros [r E]; discriminate]|].
  rewrite Bool.andb_true_iff, Ascii.eqb_eq, IH. split.
  - intros [-> [r ->]]. exists r. reflexivity.
  - intros [r E]. injection E as -> ->. split; [reflexivity|eexists; reflexivity].
Qed.
Lemma contains_iff p s : contains p s = true <-> exists a r, s = (a ++ p ++ r)%string.
Proof.
  induction s as [|c s IH]; cbn [contains]; rewrite Bool.orb_true_iff, starts_iff.
  - split; [intros [[r E]|]; [exists ""%string, r; exact E|discriminate]|intros [a [r E]]; left; destruct a; [exists r; exact E|discriminate]].
  - rewrite IH. split.
    + intros [[r E]|[a [r E]]]; [exists ""%string, r; exact E|exists (String c a), r; cbn; rewrite E; reflexivity].
    + intros [a [r E]]. destruct a as [|x a]; [left; exists r; exact E|right]. cbn in E. injection E as -> E. eauto.
Qed.
Definition hib (monitor : string) : bool := contains "acc" monitor || starts "fmeasure" monitor.
Lemma hib_iff monitor : hib monitor = true <-> higher monitor.
Proof. unfold hib, higher. rewrite Bool.orb_true_iff, contains_iff, starts_iff. tauto. Qed.
Definition opb (monitor : string) (v w : num) : bool := if hib monitor then nlt w v else nlt v w.
Lemma opb_iff monitor v w : opb monitor v w = true <-> wins monitor v w.
Proof.
  unfold opb, wins. destruct (hib monitor) eqn:E.
  - apply hib_iff in E. rewrite nlt_iff. tauto.
  - assert (~ higher monitor) by (rewrite <- hib_iff; congruence). rewrite nlt_iff. tauto.
Qed.
Definition worst (monitor : string) : num := if hib monitor then MInf else PInf.
Lemma usable_iff monitor v : usable monitor v <-> wins monitor v (worst monitor).
Proof.
  unfold usable, worst, wins. destruct (hib monitor) eqn:E.
  - apply hib_iff in E. split; [intros [A [B _]]; left; split; [exact E|]; destruct v; try constructor; [congruence|exfalso; apply B; auto]|].
    intros [[_ B]|[N _]]; [|tauto]. inversion B; subst; repeat split; intros; try congruence; tauto.
  - assert (~ higher monitor) by (rewrite <- hib_iff; congruence).
    split; [intros [A [_ B]]; right; split; [exact H|]; destruct v; try constructor; [congruence|exfalso; apply B; auto]|].
    intros [[X _]|[_ B]]; [tauto|]. inversion B; subst; repeat split; intros; try congruence; tauto.
Qed.
Lemma wins_trans mon a b c : wins mon a b -> wins mon b c -> wins mon a c.
Proof. unfold wins. intros [[H A]|[H A]] [[K B]|[K B]]; try tauto; [left|right]; (split; [exact H|]); eapply below_trans; eauto. Qed.
Lemma wins_irr mon a : ~ wins mon a a.
Proof. intros [[_ A]|[_ A]]; apply (below_irr _ A). Qed.
(** usable values are compared by a total order *)
Lemma wins_total mon a b c : usable mon a -> usable mon b -> wins mon c a -> wins mon c b \/ ~ wins mon a b.
Proof. intros. destruct (opb mon a b) eqn:E; [|right; rewrite <- opb_iff; congruence]. apply opb_iff in E. left. eapply wins_trans; eauto. Qed.
Lemma wins_weak mon a b c : ~ wins mon b a -> wins mon c a -> usable mon a -> usable mon b -> wins mon c b.
Proof.
  intros N W Ua Ub. unfold wins in *. destruct W as [[H W]|[H W]]; [left|right]; (split; [exact H|]).
  - assert (X : ~ below a b) by tauto. clear N. destruct Ua as [A [A' _]], Ub as [B [B' _]]. specialize (A' H). specialize (B' H).
    destruct a as [| |p|], b as [| |q|]; try congruence; try (exfalso; apply X; constructor; fail); try (inversion W; fail).
    + inversion W; subst; constructor. assert (q <= p)%Q by (apply Qnot_lt_le; intros L; apply X; constructor; exact L). eapply Qle_lt_trans; eauto.
  - assert (X : ~ below b a) by tauto. clear N. destruct Ua as [A [_ A']], Ub as [B [_ B']]. specialize (A' H). specialize (B' H).
    destruct a as [| |p|], b as [| |q|]; try congruence; try (exfalso; apply X; constructor; fail); try (inversion W; fail).
    + inversion W; subst; constructor. assert (p <= q)%Q by (apply Qnot_lt_le; intros L; apply X; constructor; exact L). eapply Qlt_le_trans; eauto.
Qed.

Lemma format_plain s t e : no_braces s -> forall n, format_from (String.length s + n) (s ++ t) e = (x <- format_from n t e ;; Ok (s ++ x)%string).
Proof.
  intros [A B] n. induction s as [|c s IH]; cbn [String.length Nat.add append]; [destruct (format_from n t e); reflexivity|].
  unfold str_in in *. cbn [str_forallb] in A, B. destruct (Ascii.eqb c "{") eqn:E1; [discriminate|]. destruct (Ascii.eqb c "}") eqn:E2; [discriminate|].
  cbn [negb andb] in A, B. cbn [format_from]. rewrite E1, E2, IH by assumption.
  destruct (format_from n t e); reflexivity.
Qed.
Lemma length_app s t : String.length (s ++ t) = (String.length s + String.length t)%nat.
Proof. induction s; cbn; congruence. Qed.
Lemma format_best dir e : no_braces dir -> format (dir ++ "/model.best") e = Ok (dir ++ "/model.best")%string.
Proof. intros N. unfold format. rewrite length_app, format_plain by exact N. reflexivity. Qed.
Lemma format_all dir e : no_braces dir -> format (dir ++ "/model.{epoch:04d}") e = Ok (dir ++ "/model." ++ fmt_04d e)%string.
Proof. intros N. unfold format. rewrite length_app, format_plain by exact N. cbn -[fmt_04d]. rewrite append_nil_r. reflexivity. Qed.

Lemma create_inv dirs dir a cbs dirs' c : create_callbacks dirs dir a = Ok (cbs, dirs') -> In (CbCheckpoint c) cbs ->
  c = hyp_checkpoint (if a_save_all a then (dir ++ "/model.{epoch:04d}") else (dir ++ "/model.best")) (a_monitor a) (negb (a_save_all a)) (a_mode a) 1.
Proof.
  unfold create_callbacks. intros E I.
  assert (X : forall r, In (CbCheckpoint c) ((([CbCheckpoint (hyp_checkpoint (if a_save_all a then (dir ++ "/model.{epoch:04d}")%string else (dir ++ "/model.best")%string) (a_monitor a) (negb (a_save_all a)) (a_mode a) 1); CbCsv (dir ++ "/train.log") (a_append a)] ++ opt_list (a_patience a) (fun p => CbEarly (a_monitor a) p (a_min_delta a) (a_mode a))) ++ opt_list (a_lr_steps a) CbSteps) ++ r) -> (In (CbCheckpoint c) r -> False) ->
    c = hyp_checkpoint (if a_save_all a then (dir ++ "/model.{epoch:04d}")%string else (dir ++ "/model.best")%string) (a_monitor a) (negb (a_save_all a)) (a_mode a) 1).
  { intros r J N. rewrite !in_app_iff in J. destruct J as [[[J|J]|J]|J]; [|destruct (a_patience a); cbn in J; intuition congruence|destruct (a_lr_steps a); cbn in J; intuition congruence|tauto].
    destruct J as [J|[J|[]]]; congruence. }
  destruct (a_lr_patience a) as [p|].
  - destruct (a_lr_inc a); [discriminate|]. injection E as <- <-. eapply X; [exact I|]. cbn. intuition congruence.
  - injection E as <- <-. apply (X []); [rewrite app_nil_r; exact I|auto].
Qed.

Section Runs.
Context {M : Type}.
Lemma run_snoc (c : checkpointer) (d : @disk M) e obs m l :
  run c d e (obs ++ [(m, l)]) = ('(c', d') <- run c d e obs ;; on_epoch_end c' m (e + List.length obs) l d').
Proof.
  revert c d e. induction obs as [|[m0 l0] obs IH]; intros c d e; cbn [app run List.length].
  - cbn. rewrite Nat.add_0_r. destruct (on_epoch_end c m e l d) as [[? ?]|]; reflexivity.
  - destruct (on_epoch_end c m0 e l0 d) as [[c1 d1]|]; [cbn [bind]|reflexivity]. rewrite IH, Nat.add_succ_r. reflexivity.
Qed.
Lemma epoch_snoc (obs : list (M * logs)) m l mon i x v : epoch_is (obs ++ [(m, l)]) mon i x v <->
  epoch_is obs mon i x v \/ (i = List.length obs /\ x = m /\ l mon = Some v).
Proof.
  unfold epoch_is. split.
  - intros [k [N V]]. destruct (Nat.lt_ge_cases i (List.length obs)) as [L|L].
    + rewrite nth_error_app1 in N by exact L. eauto.
    + rewrite nth_error_app2 in N by exact L. destruct (i - List.length obs)%nat as [|z] eqn:Z; [|destruct z; discriminate].
      cbn in N. injection N as -> ->. right. repeat split; [lia|exact V].
  - intros [[k [N V]]|[-> [-> V]]].
    + exists k. split; [rewrite nth_error_app1; [exact N|]; apply nth_error_Some; congruence|exact V].
    + exists l. split; [rewrite nth_error_app2, Nat.sub_diag by lia; reflexivity|exact V].
Qed.
Lemma epoch_lt (obs : list (M * logs)) mon i x v : epoch_is obs mon i x v -> (i < List.length obs)%nat.
Proof. intros [l [N _]]. apply nth_error_Some. congruence. Qed.

Definition cp_of (path mon : string) (b : num) : checkpointer := mk_cp path mon true (hib mon) b 0 1.
Lemma best_run dir mon (d : @disk M) e obs : no_braces dir ->
  exists b d', run (cp_of (dir ++ "/model.best") mon (worst mon)) d e obs = Ok (cp_of (dir ++ "/model.best") mon b, d') /\
    (forall f, f <> (dir ++ "/model.best")%string -> d' f = d f) /\
    ((b = worst mon /\ no_metric obs mon /\ d' (dir ++ "/model.best")%string = d (dir ++ "/model.best")%string) \/
     (exists i m, epoch_is obs mon i m b /\ usable mon b /\ (forall j m' w, epoch_is obs mon j m' w -> ~ wins mon w b) /\
       (forall j m' w, epoch_is obs mon j m' w -> (j < i)%nat -> usable mon w -> wins mon b w) /\ d' (dir ++ "/model.best")%string = Some m)).
Proof.
  intros NB. induction obs as [|[m l] obs IH] using rev_ind.
  - exists (worst mon), d. split; [reflexivity|]. split; [auto|]. left. split; [reflexivity|]. split; [|reflexivity]. intros i m v [k [N _]]. destruct i; discriminate.
  - destruct IH as [b [d' [E [O H]]]]. rewrite run_snoc, E. cbn [bind]. unfold on_epoch_end. cbn [c_since c_period cp_of c_path c_monitor c_best_only c_greater c_best].
    change (0 + 1 >=? 1) with true. cbn iota. rewrite format_best by exact NB. cbn [bind].
    destruct (l mon) as [v|] eqn:Lv.
    + unfold monitor_op. cbn [c_greater]. fold (opb mon v b). destruct (opb mon v b) eqn:W.
      * apply opb_iff in W. exists v. eexists. split; [reflexivity|]. unfold put. split; [intros f Nf; rewrite (proj2 (String.eqb_neq _ _) Nf); apply O; exact Nf|].
        rewrite String.eqb_refl. right. exists (List.length obs), m.
        assert (Uv : usable mon v).
        { apply usable_iff. destruct H as [[-> _]|[i [m' [_ [U _]]]]]; [exact W|]. apply usable_iff in U. eapply wins_trans; eauto. }
        split; [apply epoch_snoc; right; auto|]. split; [exact Uv|].
        assert (Old : forall j m' w, epoch_is obs mon j m' w -> usable mon w -> wins mon v w).
        { intros j m' w J Uw. destruct H as [[-> [Nm _]]|[i [m1 [_ [U [B _]]]]]]; [exfalso; eapply Nm; eauto|].
          eapply wins_weak; [eapply B; exact J|exact W|exact U|exact Uw]. }
        split; [|split; [|reflexivity]].
        -- intros j m' w J K. apply epoch_snoc in J. destruct J as [J|[_ [_ Q]]].
           ++ assert (Uw : usable mon w) by (apply usable_iff; eapply wins_trans; [exact K|apply usable_iff; exact Uv]).
              apply (wins_irr mon v). eapply wins_trans; [eapply Old; eauto|exact K].
           ++ assert (w = v) by congruence. subst. exact (wins_irr _ _ K).
        -- intros j m' w J Lj Uw. apply epoch_snoc in J. destruct J as [J|[J _]]; [eauto|lia].
      * assert (NW : ~ wins mon v b) by (rewrite <- opb_iff; congruence).
        exists b, d'. split; [reflexivity|]. split; [exact O|]. destruct H as [[-> [Nm K]]|[i [m1 [I1 [U [B [F K]]]]]]].
        -- left. repeat split; [|exact K]. intros j x w J Uw. apply epoch_snoc in J. destruct J as [J|[_ [_ Q]]]; [eapply Nm; eauto|].
           assert (w = v) by congruence. subst. apply usable_iff in Uw. tauto.
        -- right. exists i, m1. split; [apply epoch_snoc; left; exact I1|]. split; [exact U|]. split; [|split; [|exact K]].
           ++ intros j x w J. apply epoch_snoc in J. destruct J as [J|[_ [_ Q]]]; [eapply B; eauto|]. assert (w = v) by congruence. subst. exact NW.
           ++ intros j x w J Lj Uw. apply epoch_snoc in J. destruct J as [J|[J _]]; [eauto|]. apply epoch_lt in I1. lia.
    + exists b, d'. split; [reflexivity|]. split; [exact O|]. destruct H as [[-> [Nm K]]|[i [m1 [I1 [U [B [F K]]]]]]].
      * left. repeat split; [|exact K]. intros j x w J Uw. apply epoch_snoc in J. destruct J as [J|[_ [_ Q]]]; [eapply Nm; eauto|congruence].
      * right. exists i, m1. split; [apply epoch_snoc; left; exact I1|]. split; [exact U|]. split; [|split; [|exact K]].
        -- intros j x w J. apply epoch_snoc in J. destruct J as [J|[_ [_ Q]]]; [eapply B; eauto|congruence].
        -- intros j x w J Lj Uw. apply epoch_snoc in J. destruct J as [J|[J _]]; [eauto|]. apply epoch_lt in I1. lia.
Qed.

(** C104: with the default of keeping the best model, after any number of epochs with any models and metrics, the file
    model.best holds the model of the first epoch with the best value of the metric (more is better for acc and fmeasure,
    less for all others; epochs where the metric is missing or NaN do not count), or what it held before if there is no such
    epoch; no other file is written. *)
Theorem C104_best dirs dir a cbs dirs' c (d : @disk M) e obs :
  no_braces dir -> a_save_all a = false -> create_callbacks dirs dir a = Ok (cbs, dirs') -> In (CbCheckpoint c) cbs ->
  exists c' d', run c d e obs = Ok (c', d') /\ (forall f, f <> (dir ++ "/model.best")%string -> d' f = d f) /\
    ((exists i m, first_best obs (a_monitor a) i m /\ d' (dir ++ "/model.best")%string = Some m) \/
     (no_metric obs (a_monitor a) /\ d' (dir ++ "/model.best")%string = d (dir ++ "/model.best")%string)).
Proof.
  intros NB SA E I. rewrite (create_inv _ _ _ _ _ _ E I), SA. cbn [negb].
  destruct (best_run dir (a_monitor a) d e obs NB) as [b [d' [R [O H]]]].
  change (hyp_checkpoint _ _ true (a_mode a) 1) with (cp_of (dir ++ "/model.best") (a_monitor a) (worst (a_monitor a))).
  exists (cp_of (dir ++ "/model.best") (a_monitor a) b), d'. split; [exact R|]. split; [exact O|].
  destruct H as [[_ [N K]]|[i [m [I1 [U [B [F K]]]]]]]; [right; auto|left; exists i, m; split; [|exact K]; exists b; auto].
Qed.

Lemma fmt_04d_inj a b : fmt_04d a = fmt_04d b -> a = b.
Proof. intros E. apply (ckpt_path_inj ""). unfold ckpt_path. rewrite E. reflexivity. Qed.
(** C104: with save_all_epochs every epoch has its own file, that holds the model of that epoch; no other file is written. *)
Theorem C104_all dirs dir a cbs dirs' c (d : @disk M) e obs :
  no_braces dir -> a_save_all a = true -> create_callbacks dirs dir a = Ok (cbs, dirs') -> In (CbCheckpoint c) cbs ->
  exists c' d', run c d e obs = Ok (c', d') /\
    (forall i m l, nth_error obs i = Some (m, l) -> d' (dir ++ "/model." ++ fmt_04d (e + i))%string = Some m) /\
    (forall f, (forall i, (i < List.length obs)%nat -> f <> (dir ++ "/model." ++ fmt_04d (e + i))%string) -> d' f = d f) /\
    (forall i j, (dir ++ "/model." ++ fmt_04d i)%string = (dir ++ "/model." ++ fmt_04d j)%string -> i = j).
Proof.
  intros NB SA E I. rewrite (create_inv _ _ _ _ _ _ E I), SA. cbn [negb].
  assert (Inj : forall i j, (dir ++ "/model." ++ fmt_04d i)%string = (dir ++ "/model." ++ fmt_04d j)%string -> i = j).
  { intros i j Q. apply append_inj_l in Q. apply append_inj_l in Q. apply fmt_04d_inj. exact Q. }
  set (c0 := hyp_checkpoint _ _ _ _ _). exists c0. induction obs as [|[m l] obs IH] using rev_ind.
  - exists d. split; [reflexivity|]. split; [intros [|i] m l N; discriminate|]. split; [auto|exact Inj].
  - destruct IH as [d' [R [A [B _]]]]. rewrite run_snoc, R. cbn [bind]. unfold on_epoch_end, c0, hyp_checkpoint, model_checkpoint. cbn [c_since c_period c_path c_monitor c_best_only c_greater c_best].
    change (0 + 1 >=? 1) with true. cbn iota. rewrite format_all by exact NB. cbn [bind]. eexists. split; [reflexivity|]. split; [|split; [|exact Inj]].
    + intros i m' l' N. unfold put. destruct (String.eqb_spec (dir ++ "/model." ++ fmt_04d (e + i)) (dir ++ "/model." ++ fmt_04d (e + List.length obs))) as [Q|Q].
      * apply Inj in Q. assert (i = List.length obs) by lia. subst. rewrite nth_error_app2, Nat.sub_diag in N by lia. cbn in N. congruence.
      * assert (i < List.length obs \/ i = List.length obs)%nat as [L| ->].
        { assert (i < List.length (obs ++ [(m, l)]))%nat by (apply nth_error_Some; congruence). rewrite app_length in H. cbn in H. lia. }
        -- rewrite nth_error_app1 in N by exact L. eauto.
        -- congruence.
    + intros f N. unfold put. destruct (String.eqb_spec f (dir ++ "/model." ++ fmt_04d (e + List.length obs))) as [Q|Q].
      * exfalso. apply (N (List.length obs)); [rewrite app_length; cbn; lia|exact Q].
      * apply B. intros i L. apply N. rewrite app_length. lia.
Qed.
End Runs.
Print Assumptions C104_best.
Print Assumptions C104_all.

(** C104: the mode that the user asks for is not used: with monitor_mode='max' (a legal value) on a metric such as val_auc
    the file model.best holds the model with the lowest value. *)
Definition logs_of (name : string) (q : Q) : logs := fun x => if String.eqb x name then Some (Fin q) else None.
Theorem C104_mode_refuted : exists (a : cb_args) cbs dirs' c (obs : list (nat * logs)) c' d',
  a_save_all a = false /\ a_mode a = "max"%string /\ create_callbacks [] "exp" a = Ok (cbs, dirs') /\ In (CbCheckpoint c) cbs /\
  run c (fun _ => None) 0 obs = Ok (c', d') /\
  obs = [(1%nat, logs_of (a_monitor a) (9 # 10)); (2%nat, logs_of (a_monitor a) (1 # 2))] /\ d' "exp/model.best"%string = Some 2%nat.
Proof.
  exists (mk_cb_args false "val_auc" "max" None 0 None None "auto" None (1 # 10) None None 0 false).
  do 6 eexists. repeat split; [left; reflexivity|reflexivity|reflexivity].
Qed.
Print Assumptions C104_mode_refuted.

(** C104: a training that is stopped and started again (a new process, from the epoch where it was) forgets the best value:
    a worse model replaces model.best. *)
Theorem C104_restart_refuted : exists (a : cb_args) cbs dirs' c (obs1 obs2 : list (nat * logs)) c1 d1 c2 d2,
  a_save_all a = false /\ create_callbacks [] "exp" a = Ok (cbs, dirs') /\ In (CbCheckpoint c) cbs /\
  run c (fun _ => None) 0 obs1 = Ok (c1, d1) /\ run c d1 (List.length obs1) obs2 = Ok (c2, d2) /\
  first_best (obs1 ++ obs2) (a_monitor a) 0 1%nat /\ d2 "exp/model.best"%string = Some 2%nat.
Proof.
  exists (mk_cb_args false "val_loss" "auto" None 0 None None "auto" None (1 # 10) None None 0 false).
  do 2 eexists. eexists. exists [(1%nat, logs_of "val_loss" (1 # 10))], [(2%nat, logs_of "val_loss" (1 # 2))]. do 4 eexists.
  split; [reflexivity|]. split; [reflexivity|]. split; [left; reflexivity|]. split; [reflexivity|]. split; [reflexivity|]. split; [|reflexivity].
  assert (NH : ~ higher "val_loss") by (rewrite <- hib_iff; intros H; vm_compute in H; discriminate).
  exists (Fin (1 # 10)). split; [eexists; split; reflexivity|]. split; [repeat split; intros; try congruence|]. split; [|intros; lia].
  intros j m w [l [N V]] W. destruct j as [|[|[|?]]]; cbn in N; try discriminate; injection N as _ <-; cbn in V; injection V as <-;
    apply opb_iff in W; vm_compute in W; discriminate.
Qed.
Print Assumptions C104_restart_refuted.

(** C104: with a dictionary of steps, the rate during an epoch is the one of the last step between the first epoch of the run
    and that epoch, or the initial rate if there is none. *)
Theorem C104_steps (d : list (Z * Q)) e0 n lr0 i r :
  NoDup (map fst d) -> nth_error (rates (SDict d) e0 n lr0) i = Some r ->
  (exists s, In (s, r) d /\ e0 <= s <= e0 + Z.of_nat i /\ (forall s' r', In (s', r') d -> s < s' <= e0 + Z.of_nat i -> False)) \/
  (r = lr0 /\ forall s' r', In (s', r') d -> e0 <= s' <= e0 + Z.of_nat i -> False).
Proof.
  intros ND. revert e0 lr0 i. induction n as [|n IH]; intros e0 lr0 i; [destruct i; discriminate|]. cbn [rates].
  assert (B : (exists v, In (e0, v) d /\ on_epoch_begin (SDict d) e0 lr0 = v) \/ ((forall v, ~ In (e0, v) d) /\ on_epoch_begin (SDict d) e0 lr0 = lr0)).
  { cbn. destruct (find (fun kv => fst kv =? e0) d) as [[k v]|] eqn:F.
    - apply find_some in F. destruct F as [F K]. cbn in K. apply Z.eqb_eq in K. subst. left. eauto.
    - right. split; [|reflexivity]. intros v V. apply (find_none _ _ F) in V. cbn in V. apply Z.eqb_neq in V. congruence. }
  destruct i as [|i].
  - cbn. intros X. injection X as X. destruct B as [[v [V Q]]|[V Q]].
    + left. exists e0. cbn in Q. rewrite Q in X. subst. split; [exact V|]. split; [lia|]. intros; lia.
    + right. cbn in Q. rewrite Q in X. subst. split; [reflexivity|]. intros s' r' I L. assert (s' = e0) by lia. subst. eapply V; eauto.
  - cbn [nth_error]. intros X. apply IH in X. destruct X as [[s [I [L K]]]|[-> K]].
    + left. exists s. split; [exact I|]. split; [lia|]. intros s' r' I' L'. apply (K s' r' I'). lia.
    + destruct B as [[v [V Q]]|[V Q]]; rewrite Q.
      * left. exists e0. split; [exact V|]. split; [lia|]. intros s' r' I' L'. apply (K s' r' I'). lia.
      * right. split; [reflexivity|]. intros s' r' I' L'. destruct (Z.eq_dec s' e0) as [->|Ne]; [eapply V; eauto|]. apply (K s' r' I'). lia.
Qed.
Print Assumptions C104_steps.
Lemma rates_len s e n lr : List.length (rates s e n lr) = n.
Proof. revert e lr. induction n; intros; cbn; congruence. Qed.

(** C104: the steps that are given on the command line have no effect, whatever they are. *)
Theorem C104_line_steps_refuted (l : cb_line) dirs dir cbs dirs' s e n lr :
  create_callbacks dirs dir (from_line l) = Ok (cbs, dirs') -> In (CbSteps s) cbs -> rates s e n lr = repeat lr n.
Proof.
  intros E I. assert (X : exists x, s = SList x).
  { unfold create_callbacks, from_line in E. cbn [a_lr_patience a_lr_inc a_lr_steps a_patience] in E. destruct (l_lr_inc l); [discriminate|]. injection E as <- <-.
    destruct (l_lr_steps l) as [x|]; cbn [app opt_list option_map In] in I; [exists x|]; intuition congruence. }
  destruct X as [x ->]. revert e. induction n as [|n IH]; intros e; cbn; [reflexivity|]. f_equal. apply IH.
Qed.
Print Assumptions C104_line_steps_refuted.
(** C104: a run that starts again after the epoch of a step does not have its rate. *)
Theorem C104_resume_refuted : exists d e lr0 r1 r2,
  nth_error (rates (SDict d) 0 (S e) lr0) e = Some r1 /\ rates (SDict d) (Z.of_nat e) 1 lr0 = [r2] /\ ~ (r1 == r2)%Q.
Proof. exists [(2, (1 # 100)%Q)], 5%nat, (1 # 10)%Q, (1 # 100)%Q, (1 # 10)%Q. split; [reflexivity|]. split; [reflexivity|]. unfold Qeq. cbn. lia. Qed.
Print Assumptions C104_resume_refuted.

(** C104: create_callbacks fails exactly when a factor to increase the rate is given together with lr_patience (from the
    command line: whenever --lr-inc-factor is there). Otherwise the directory exists afterwards, there is early stopping iff
    patience is given, steps iff lr_steps is given, the reduction of the rate iff lr_patience is given, with lr_red_factor
    as the factor if it is given and else lr_factor, on lr_monitor if it is given and else on the metric of the checkpoint. *)
Theorem C104_callbacks dirs dir a :
  match create_callbacks dirs dir a with
  | Err x => x = NameError /\ a_lr_patience a <> None /\ a_lr_inc a <> None
  | Ok (cbs, dirs') =>
    (a_lr_patience a = None \/ a_lr_inc a = None) /\ In dir dirs' /\ incl dirs dirs' /\
    (exists c, forall c', In (CbCheckpoint c') cbs <-> c' = c) /\
    (forall p x, In (CbCsv p x) cbs <-> p = (dir ++ "/train.log")%string /\ x = a_append a) /\
    (forall m p t x, In (CbEarly m p t x) cbs <-> a_patience a = Some p /\ m = a_monitor a /\ t = a_min_delta a /\ x = a_mode a) /\
    (forall s, In (CbSteps s) cbs <-> a_lr_steps a = Some s) /\
    (forall m f p x t r, In (CbPlateau m f p x t r) cbs <->
       a_lr_patience a = Some p /\ (a_lr_monitor a = Some m \/ (a_lr_monitor a = None /\ m = a_monitor a)) /\
       (a_lr_red a = Some f \/ (a_lr_red a = None /\ f = a_lr_factor a)) /\ x = a_lr_mode a /\ t = a_min_delta a /\ r = a_min_lr a)
  end.
Proof.
  assert (D : In dir (if existsb (String.eqb dir) dirs then dirs else dir :: dirs)).
  { destruct (existsb (String.eqb dir) dirs) eqn:E; [|left; reflexivity]. apply existsb_exists in E. destruct E as [x [I E]]. apply String.eqb_eq in E. subst. exact I. }
  assert (D' : incl dirs (if existsb (String.eqb dir) dirs then dirs else dir :: dirs)).
  { destruct (existsb (String.eqb dir) dirs); [apply incl_refl|]. intros x I. right. exact I. }
  unfold create_callbacks. destruct (a_lr_patience a) as [p|]; [destruct (a_lr_inc a) as [f|]|].
  - split; [reflexivity|]. split; congruence.
  - split; [auto|]. split; [exact D|]. split; [exact D'|].
    split; [|repeat (match goal with |- (forall _, _) /\ _ => split end)];
    [exists (hyp_checkpoint (if a_save_all a then (dir ++ "/model.{epoch:04d}")%string else (dir ++ "/model.best")%string) (a_monitor a) (negb (a_save_all a)) (a_mode a) 1); intros c'|intros p0 x|intros m p0 t x|intros s|intros m f p0 x t r];
    destruct (a_patience a), (a_lr_steps a), (a_lr_monitor a), (a_lr_red a); cbn [app opt_list In]; (split; intros H; intuition congruence).
  - split; [auto|]. split; [exact D|]. split; [exact D'|].
    split; [|repeat (match goal with |- (forall _, _) /\ _ => split end)];
    [exists (hyp_checkpoint (if a_save_all a then (dir ++ "/model.{epoch:04d}")%string else (dir ++ "/model.best")%string) (a_monitor a) (negb (a_save_all a)) (a_mode a) 1); intros c'|intros p0 x|intros m p0 t x|intros s|intros m f p0 x t r];
    destruct (a_patience a), (a_lr_steps a), (a_lr_monitor a), (a_lr_red a); cbn [app opt_list In]; (split; intros H; intuition congruence).
Qed.
Print Assumptions C104_callbacks.
Theorem C104_inc_refuted (l : cb_line) f dirs dir : l_lr_inc l = Some f -> create_callbacks dirs dir (from_line l) = Err NameError.
Proof. intros E. unfold create_callbacks, from_line. cbn [a_lr_patience a_lr_inc]. rewrite E. reflexivity. Qed.
Print Assumptions C104_inc_refuted.

(** C104: what a command line gives. An option that is not there takes the value that its help text states. *)
Definition gives {A : Type} (o : option A) (d v : A) : Prop := o = Some v \/ (o = None /\ v = d).
Lemma gives_odef {A : Type} (o : option A) (d v : A) : gives o d v <-> v = odef o d.
Proof. unfold gives, odef. destruct o; intuition congruence. Qed.
Theorem C104_line (l : cb_line) dirs dir : l_lr_inc l = None ->
  exists cbs dirs', create_callbacks dirs dir (from_line l) = Ok (cbs, dirs') /\
  (forall m p x t, In (CbEarly m p x t) cbs <->
     gives (l_monitor l) "val_loss"%string m /\ gives (l_patience l) 100 p /\ gives (l_min_delta l) (1 # 10000)%Q x /\ gives (l_mode l) "auto"%string t) /\
  (forall m f p t x r, In (CbPlateau m f p t x r) cbs <->
     (l_lr_monitor l = Some m \/ (l_lr_monitor l = None /\ gives (l_monitor l) "val_loss"%string m)) /\
     (l_lr_red l = Some f \/ (l_lr_red l = None /\ gives (l_lr_factor l) (1 # 10)%Q f)) /\
     gives (l_lr_patience l) 10 p /\ gives (l_lr_mode l) "auto"%string t /\ gives (l_min_delta l) (1 # 10000)%Q x /\ gives (l_min_lr l) (1 # 100000)%Q r) /\
  (forall s, In (CbSteps s) cbs <-> exists x, l_lr_steps l = Some x /\ s = SList x) /\
  (forall p b, In (CbCsv p b) cbs <-> p = (dir ++ "/train.log")%string /\ b = l_append l) /\
  (exists m t, gives (l_monitor l) "val_loss"%string m /\ gives (l_mode l) "auto"%string t /\
     forall c, In (CbCheckpoint c) cbs <->
       c = hyp_checkpoint (if l_save_all l then (dir ++ "/model.{epoch:04d}")%string else (dir ++ "/model.best")%string) m (negb (l_save_all l)) t 1).
Proof.
  intros E. unfold create_callbacks, from_line.
  cbn [a_save_all a_monitor a_mode a_patience a_min_delta a_lr_steps a_lr_monitor a_lr_mode a_lr_patience a_lr_factor a_lr_red a_lr_inc a_min_lr a_append].
  rewrite E. eexists _, _. split; [reflexivity|].
  split; [|split; [|split; [|split]]].
  - intros m p x t. rewrite !gives_odef. destruct (l_lr_steps l); cbn [app opt_list option_map In]; (split; [intros H; intuition congruence|intros (-> & -> & -> & ->); tauto]).
  - intros m f p t x r. rewrite !gives_odef. destruct (l_lr_steps l), (l_lr_monitor l), (l_lr_red l); cbn [app opt_list option_map In];
      (split; [intros H; intuition congruence|intros ([H1|[K1 H1]] & [H2|[K2 H2]] & -> & -> & -> & ->); try discriminate; try (injection H1 as H1); try (injection H2 as H2); subst; repeat first [left; reflexivity | right | reflexivity]]).
  - intros s. destruct (l_lr_steps l) as [y|]; cbn [app opt_list option_map In]; (split; [intros H; try (exists y); intuition congruence|intros (x & H & ->); first [discriminate|injection H as <-; tauto]]).
  - intros p b. destruct (l_lr_steps l); cbn [app opt_list option_map In]; (split; [intros H; intuition congruence|intros (-> & ->); tauto]).
  - exists (odef (l_monitor l) "val_loss"%string), (odef (l_mode l) "auto"%string). split; [apply gives_odef; reflexivity|]. split; [apply gives_odef; reflexivity|].
    intros c. destruct (l_lr_steps l), (l_save_all l); cbn [app opt_list option_map In]; (split; [intros H; intuition congruence|intros ->; tauto]).
Qed.
Print Assumptions C104_line.

Example C104_witness :
  no_braces "exp/a" /\
  (exists cbs dirs' c, create_callbacks [] "exp/a" (from_line (mk_cb_line false (Some "val_acc") None None None None None None None None None None None false)%string) = Ok (cbs, dirs') /\
     In (CbCheckpoint c) cbs /\ List.length cbs = 4%nat /\
     match run c (fun _ => None) 3 [(1%nat, logs_of "val_acc" (1 # 2)); (2%nat, fun _ => Some NaN); (3%nat, logs_of "val_acc" (3 # 4)); (4%nat, logs_of "val_acc" (6 # 8))] with
     | Ok (_, d) => d "exp/a/model.best"%string = Some 3%nat
     | Err _ => False
     end) /\
  format "exp/model.{epoch:04d}" 12 = Ok "exp/model.0012"%string /\
  rates (SDict [(2, (1 # 100)%Q); (4, (1 # 1000)%Q)]) 1 5 (1 # 10) = [(1 # 10); (1 # 100); (1 # 100); (1 # 1000); (1 # 1000)]%Q.
Proof.
  split; [split; reflexivity|]. split; [|split; reflexivity]. do 3 eexists. split; [reflexivity|]. split; [left; reflexivity|]. split; [reflexivity|]. vm_compute. reflexivity.
Qed.
