(** Histories of SCPList operations, cache, split/merge. *)
From Verif Require Import Base BaseFacts ListUtils ListUtilsProofs Str StrFacts Scp ScpProofs.
Open Scope Z_scope.

(** [e] is [e0], up to a forgotten offset and/or range. *)
Definition row_le (e e0 : entry) : Prop :=
  let '(k, p, o, r) := e in
  let '(k0, p0, o0, r0) := e0 in
  k = k0 /\ p = p0 /\ (o = o0 \/ o = None) /\ (r = r0 \/ r = None).

(** Forget the offset (unless [ho]) and the range (unless [hr]) of an element. *)
Definition forget (ho hr : bool) (e : entry) : entry :=
  let '(k, p, o, r) := e in (k, p, if ho then o else None, if hr then r else None).

Definition has {A} (o : option A) : bool := match o with Some _ => true | None => false end.

Lemma row_le_refl e : row_le e e.
Proof. destruct e as [[[k p] o] r]. simpl. tauto. Qed.

Lemma row_le_trans a b c : row_le a b -> row_le b c -> row_le a c.
Proof.
  destruct a as [[[k p] o] r], b as [[[k' p'] o'] r'], c as [[[k'' p''] o''] r'']. simpl.
  intros [-> [-> [Ho Hr]]] [-> [-> [Ho' Hr']]]. repeat split; intuition congruence.
Qed.

Lemma ent_forget ho hr ho' hr' r : forget ho' hr' (ent ho hr r) = ent (ho && ho') (hr && hr') r.
Proof. unfold forget, ent. destruct ho, ho', hr, hr'; reflexivity. Qed.

Lemma forget_le ho hr e : row_le (forget ho hr e) e.
Proof. destruct e as [[[k p] o] r]; destruct ho, hr; simpl; tauto. Qed.

(** merge, in rows *)
Lemma merge_build ls s' : Forall valid ls -> scp_merge ls = Ok s' ->
  exists s0 rest Rs, ls = s0 :: rest /\
    Forall2 (fun s R => s = build R (has (s_off s)) (has (s_rng s)) (s_cache s)) ls Rs /\
    s' = build (concat Rs) (has (s_off s0)) (has (s_rng s0) && nonnil (concat Rs)) None /\
    (has (s_off s0) = true -> Forall (fun s => has (s_off s) = true) ls) /\
    (has (s_rng s0) = true -> Forall (fun s => has (s_rng s) = true) ls).
Proof.
  intros V E. destruct ls as [|s0 rest]; [discriminate|].
  exists s0, rest.
  assert (HR : exists Rs, Forall2 (fun s R => s = build R (has (s_off s)) (has (s_rng s)) (s_cache s)) (s0 :: rest) Rs).
  { clear E. induction V as [|s ls Hs V IH]; [exists []; constructor|].
    destruct IH as [Rs F]. destruct (valid_build s Hs) as [R E]. exists (R :: Rs). constructor; [exact E|exact F]. }
  destruct HR as [Rs F]. exists Rs. split; [reflexivity|]. split; [exact F|].
  unfold scp_merge in E.
  set (ls := s0 :: rest) in *.
  assert (Ek : concat (map s_key ls) = map r_key (concat Rs)).
  { clear - F. clearbody ls. induction F as [|s R ls Rs E F IH]; simpl; [reflexivity|].
    rewrite map_app, IH, E. reflexivity. }
  assert (Ep : concat (map s_path ls) = map r_path (concat Rs)).
  { clear - F. clearbody ls. induction F as [|s R ls Rs E F IH]; simpl; [reflexivity|].
    rewrite map_app, IH, E. reflexivity. }
  assert (Eo : forall o, concat_opt (map s_off ls) = Ok o ->
     o = map r_off (concat Rs) /\ Forall (fun s => has (s_off s) = true) ls).
  { clear - F. clearbody ls. induction F as [|s R ls Rs E F IH]; simpl; intros o Q.
    - inversion Q; subst. split; [reflexivity|constructor].
    - destruct (s_off s) as [x|] eqn:Eo; [|discriminate].
      destruct (concat_opt (map s_off ls)) as [y|]; [|discriminate]. simpl in Q. inversion Q; subst o.
      destruct (IH y eq_refl) as [-> A]. split; [|constructor; [rewrite Eo; reflexivity|exact A]].
      rewrite map_app. f_equal. pose proof (f_equal s_off E) as Q'. simpl in Q'. rewrite ?Eo in Q'. simpl in Q'.
      inversion Q'. reflexivity. }
  assert (Er : forall o, concat_opt (map s_rng ls) = Ok o ->
     o = map r_rng (concat Rs) /\ Forall (fun s => has (s_rng s) = true) ls).
  { clear - F. clearbody ls. induction F as [|s R ls Rs E F IH]; simpl; intros o Q.
    - inversion Q; subst. split; [reflexivity|constructor].
    - destruct (s_rng s) as [x|] eqn:Eo; [|discriminate].
      destruct (concat_opt (map s_rng ls)) as [y|]; [|discriminate]. simpl in Q. inversion Q; subst o.
      destruct (IH y eq_refl) as [-> A]. split; [|constructor; [rewrite Eo; reflexivity|exact A]].
      rewrite map_app. f_equal. pose proof (f_equal s_rng E) as Q'. simpl in Q'. rewrite ?Eo in Q'. simpl in Q'.
      inversion Q'. reflexivity. }
  clearbody ls. rewrite Ek, Ep in E.
  destruct (match s_off s0 with None => Ok None | Some _ => o <- concat_opt (map s_off ls);; Ok (Some o) end) as [o|] eqn:E1; [|discriminate].
  assert (Ho : o = opt_col (has (s_off s0)) r_off (concat Rs) /\ (has (s_off s0) = true -> Forall (fun s => has (s_off s) = true) ls)).
  { destruct (s_off s0); simpl.
    - destruct (concat_opt (map s_off ls)) as [y|]; [|discriminate]. simpl in E1. inversion E1; subst.
      destruct (Eo y eq_refl) as [-> A]. split; [reflexivity|auto].
    - inversion E1. split; [reflexivity|discriminate]. }
  destruct Ho as [-> Ho]. simpl in E.
  destruct (match s_rng s0 with None => Ok None | Some _ => o <- concat_opt (map s_rng ls);; Ok (Some o) end) as [o|] eqn:E2; [|discriminate].
  assert (Hr : o = opt_col (has (s_rng s0)) r_rng (concat Rs) /\ (has (s_rng s0) = true -> Forall (fun s => has (s_rng s) = true) ls)).
  { destruct (s_rng s0); simpl.
    - destruct (concat_opt (map s_rng ls)) as [y|]; [|discriminate]. simpl in E2. inversion E2; subst.
      destruct (Er y eq_refl) as [-> A]. split; [reflexivity|auto].
    - inversion E2. split; [reflexivity|discriminate]. }
  destruct Hr as [-> Hr]. simpl in E.
  rewrite scp_new_build in E. inversion E; subst s'. split; [reflexivity|]. split; assumption.
Qed.

Lemma has_col_build R h (f : frow -> Z) : has (opt_col h f R) = h.
Proof. destruct h; reflexivity. Qed.

(** The merge of valid lists: rows concatenated; offsets and ranges kept iff the first list
    has them. *)
Lemma merge_elements ls s' : Forall valid ls -> scp_merge ls = Ok s' ->
  exists s0 rest ess, ls = s0 :: rest /\ mapM elements ls = Ok ess /\
    elements s' = Ok (map (forget (has (s_off s0)) (has (s_rng s0))) (concat ess)).
Proof.
  intros V E. destruct (merge_build ls s' V E) as [s0 [rest [Rs [El [F [-> [Ho Hr]]]]]]].
  exists s0, rest.
  assert (G : exists ess, mapM elements ls = Ok ess /\
     map (forget (has (s_off s0)) (has (s_rng s0))) (concat ess) = map (ent (has (s_off s0)) (has (s_rng s0))) (concat Rs)).
  { clear El E V. induction F as [|s R ls Rs E F IH].
    - exists []. split; reflexivity.
    - destruct IH as [ess [E1 E2]].
      + intros H. specialize (Ho H). inversion Ho; assumption.
      + intros H. specialize (Hr H). inversion Hr; assumption.
      + exists (map (ent (has (s_off s)) (has (s_rng s))) R :: ess). split.
        * simpl. rewrite E1. rewrite E at 1. rewrite elements_build. reflexivity.
        * simpl. rewrite !map_app, E2. f_equal. rewrite map_map. apply map_ext. intros r.
          rewrite ent_forget. f_equal.
          -- destruct (has (s_off s0)); [|apply andb_false_r].
             specialize (Ho eq_refl). inversion Ho as [|? ? Hx _]; subst. rewrite Hx. reflexivity.
          -- destruct (has (s_rng s0)); [|apply andb_false_r].
             specialize (Hr eq_refl). inversion Hr as [|? ? Hx _]; subst. rewrite Hx. reflexivity. }
  destruct G as [ess [E1 E2]]. exists ess. split; [exact El|]. split; [exact E1|].
  rewrite elements_build, E2. f_equal. destruct (concat Rs) as [|r R]; [reflexivity|].
  rewrite andb_true_r. reflexivity.
Qed.

(** merge succeeds on a non-empty list of lists that agree with the first one *)
Lemma merge_total s0 rest :
  Forall valid (s0 :: rest) ->
  Forall (fun s => has (s_off s0) = true -> has (s_off s) = true) rest ->
  Forall (fun s => has (s_rng s0) = true -> has (s_rng s) = true) rest ->
  exists s', scp_merge (s0 :: rest) = Ok s'.
Proof.
  intros V Ho Hr.
  assert (G : forall A (f : scp -> option (list A)), has (f s0) = true ->
     Forall (fun s => has (f s0) = true -> has (f s) = true) rest ->
     exists o, concat_opt (map f (s0 :: rest)) = Ok o).
  { intros A f H F.
    assert (F' : Forall (fun s => has (f s) = true) (s0 :: rest)).
    { constructor; [exact H|]. eapply Forall_impl; [|exact F]. simpl. auto. }
    clear F H V Ho Hr. induction F' as [|s ls Hs F' IH]; [eexists; reflexivity|].
    destruct IH as [o E]. simpl. destruct (f s); [|discriminate]. rewrite E. eexists; reflexivity. }
  assert (Go : exists o, match s_off s0 with None => Ok None | Some _ => o <- concat_opt (map s_off (s0 :: rest));; Ok (Some o) end = Ok o
      /\ has o = has (s_off s0)).
  { destruct (s_off s0) eqn:E; [|eexists; split; reflexivity].
    destruct (G Z s_off) as [o E']; [rewrite E; reflexivity|rewrite E; exact Ho|].
    rewrite E'. eexists; split; reflexivity. }
  assert (Gr : exists o, match s_rng s0 with None => Ok None | Some _ => o <- concat_opt (map s_rng (s0 :: rest));; Ok (Some o) end = Ok o
      /\ has o = has (s_rng s0)).
  { destruct (s_rng s0) eqn:E; [|eexists; split; reflexivity].
    destruct (G (Z * Z)%type s_rng) as [o E']; [rewrite E; reflexivity|rewrite E; exact Hr|].
    rewrite E'. eexists; split; reflexivity. }
  (* lengths *)
  assert (L0 : forall A (f : scp -> option (list A)) ls x, Forall valid ls ->
      (forall s x, valid s -> f s = Some x -> List.length x = List.length (s_key s)) ->
      concat_opt (map f ls) = Ok x -> List.length x = List.length (concat (map s_key ls))).
  { intros A f ls x V' Hl. revert x. induction V' as [|s ls' Hs V' IH]; intros x Q; simpl in *.
    - inversion Q; reflexivity.
    - destruct (f s) as [l0|] eqn:Ef; [|discriminate]. destruct (concat_opt (map f ls')) as [z|]; [|discriminate].
      simpl in Q. inversion Q; subst. rewrite !app_length, (IH z eq_refl), (Hl s l0 Hs Ef). reflexivity. }
  assert (L : forall A (f : scp -> option (list A)) o, (forall s x, valid s -> f s = Some x -> List.length x = List.length (s_key s)) ->
      match f s0 with None => Ok None | Some _ => o <- concat_opt (map f (s0 :: rest));; Ok (Some o) end = Ok o ->
      forall x, o = Some x -> List.length x = List.length (concat (map s_key (s0 :: rest)))).
  { intros A f o Hl E x ->. remember (s0 :: rest) as ls. destruct (f s0); [|discriminate].
    destruct (concat_opt (map f ls)) as [y|] eqn:Q; [|discriminate]. simpl in E. inversion E; subst x.
    exact (L0 A f ls y V Hl Q). }
  destruct Go as [o [Eo Ho']]. destruct Gr as [r [Er Hr']].
  unfold scp_merge. rewrite Eo, Er. cbn [bind].
  pose proof (L Z s_off o (fun s x Hv => proj1 (proj2 Hv) x) Eo) as Lo.
  pose proof (L _ s_rng r (fun s x Hv => proj2 (proj2 Hv) x) Er) as Lr.
  assert (Lp : List.length (concat (map s_path (s0 :: rest))) = List.length (concat (map s_key (s0 :: rest)))).
  { clear - V. induction V as [|s ls Hs V IH]; simpl; [reflexivity|]. rewrite !app_length, IH.
    f_equal. apply Hs. }
  unfold scp_new, len_eqb, assert. rewrite Lp, Nat.eqb_refl. cbn [bind].
  destruct o as [o|]; [rewrite (Lo o eq_refl), Nat.eqb_refl|]; cbn [bind];
  (destruct r as [[|x r]|]; cbn [rng_of bind]; [eexists; reflexivity| |eexists; reflexivity]);
  rewrite (Lr _ eq_refl), Nat.eqb_refl; cbn [bind]; eexists; reflexivity.
Qed.

Lemma merge_valid ls s' : Forall valid ls -> scp_merge ls = Ok s' -> valid s' /\ s_cache s' = None.
Proof.
  intros V E. destruct (merge_build ls s' V E) as [s0 [rest [Rs [_ [_ [-> _]]]]]].
  split; [apply build_valid|reflexivity].
Qed.

(** *** One step *)

Definition op_valid (o : scp_op) : Prop :=
  match o with OpMerge b a => Forall valid b /\ Forall valid a | _ => True end.

Definition is_merge (o : scp_op) : bool := match o with OpMerge _ _ => true | _ => false end.

Definition op_sources (o : scp_op) : list scp :=
  match o with OpMerge b a => b ++ a | _ => [] end.

Lemma take_in {A} (a : list A) loc r x : take a loc = Ok r -> In x r -> In x a.
Proof.
  intros E. apply mapM_ok_iff in E. induction E as [|i y loc r E F IH]; simpl; [tauto|].
  intros [->|Hi]; [|auto]. unfold get_item in E. destruct (py_index _ _); [|discriminate].
  destruct (nth_error a n) eqn:N; [|discriminate]. inversion E; subst. eapply nth_error_In; exact N.
Qed.

Lemma step_rows R ho hr c o s' : is_merge o = false ->
  scp_step (build R ho hr c) o = Ok s' ->
  exists R' hr', s' = build R' ho hr' None /\ (R' <> [] -> hr' = hr) /\ incl R' R.
Proof.
  intros M E. destruct o; try discriminate; simpl in E.
  - rewrite scp_sort_build in E. destruct (take R _) as [r|] eqn:T; [|discriminate]. inversion E; subst.
    exists r, hr. split; [reflexivity|]. split; [auto|]. intros x. eapply take_in; exact T.
  - rewrite scp_shuffle_build in E. destruct (take R _) as [r|] eqn:T; [|discriminate]. simpl in E. inversion E; subst.
    exists r, hr. split; [reflexivity|]. split; [auto|]. intros x. eapply take_in; exact T.
  - rewrite scp_filter_build in E. destruct (keep && _); [discriminate|]. cbn zeta in E.
    inversion E; subst. eexists _, _. split; [reflexivity|]. split.
    + intros H. destruct (filter _ R); [congruence|]. apply andb_true_r.
    + intros x Hx. apply filter_In in Hx. tauto.
  - rewrite scp_filter_paths_build in E. destruct (keep && _); [discriminate|]. cbn zeta in E.
    inversion E; subst. eexists _, _. split; [reflexivity|]. split.
    + intros H. destruct (filter _ R); [congruence|]. apply andb_true_r.
    + intros x Hx. apply filter_In in Hx. tauto.
  - rewrite scp_filter_index_build in E. destruct (take R _) as [r|] eqn:T; [|discriminate]. simpl in E. inversion E; subst.
    eexists _, _. split; [reflexivity|]. split.
    + intros H. destruct r; [congruence|]. apply andb_true_r.
    + intros x. eapply take_in; exact T.
  - rewrite scp_split_build in E. destruct (split_loc _ _ _ _) as [loc|]; [|discriminate]. simpl in E.
    destruct (take R _) as [r|] eqn:T; [|discriminate]. simpl in E. inversion E; subst.
    eexists _, _. split; [reflexivity|]. split.
    + intros H. destruct r; [congruence|]. apply andb_true_r.
    + intros x. eapply take_in; exact T.
Qed.

Lemma elements_ent s : valid s -> exists R, elements s = Ok (map (ent (has (s_off s)) (has (s_rng s))) R)
   /\ s = build R (has (s_off s)) (has (s_rng s)) (s_cache s).
Proof.
  intros V. destruct (valid_build s V) as [R E]. exists R.
  change (is_some (s_off s)) with (has (s_off s)) in E. change (is_some (s_rng s)) with (has (s_rng s)) in E.
  split; [|exact E]. rewrite E at 1. apply elements_build.
Qed.

Lemma step_elements s o s' es : valid s -> is_merge o = false -> elements s = Ok es ->
  scp_step s o = Ok s' -> valid s' /\ exists es', elements s' = Ok es' /\ incl es' es.
Proof.
  intros V M Es E. destruct (elements_ent s V) as [R [E1 E2]].
  rewrite E1 in Es. inversion Es; subst es. rewrite E2 in E.
  destruct (step_rows _ _ _ _ _ _ M E) as [R' [hr' [-> [Hh Hi]]]].
  split; [apply build_valid|]. eexists. split; [apply elements_build|].
  intros x Hx. apply in_map_iff in Hx as [r [<- Hr]].
  rewrite Hh by (intros ->; contradiction). apply in_map. apply Hi. exact Hr.
Qed.

Lemma mapM_in {A B} (f : A -> res B) l r y : mapM f l = Ok r -> In y r -> exists x, In x l /\ f x = Ok y.
Proof.
  intros E. apply mapM_ok_iff in E. induction E as [|a b l r E F IH]; simpl; [tauto|].
  intros [->|H]; [exists a; auto|]. destruct (IH H) as [x [Hx Ex]]. exists x. auto.
Qed.

Lemma history_lemma : forall ops s s', valid s -> Forall op_valid ops -> scp_run s ops = Ok s' ->
  valid s' /\ exists es', elements s' = Ok es' /\
  forall e, In e es' -> exists src es e0,
    (src = s \/ exists o, In o ops /\ In src (op_sources o)) /\
    elements src = Ok es /\ In e0 es /\ row_le e e0.
Proof.
  induction ops as [|o ops IH]; intros s s' V VO E; simpl in E.
  - inversion E; subst. split; [exact V|]. destruct (elements_ent s' V) as [R [E1 _]].
    eexists. split; [exact E1|]. intros e He. exists s', (map (ent (has (s_off s')) (has (s_rng s'))) R), e.
    split; [left; reflexivity|]. split; [exact E1|]. split; [exact He|apply row_le_refl].
  - destruct (scp_step s o) as [s1|] eqn:E1; [|discriminate]. simpl in E. inversion VO as [|? ? Vo VO']; subst.
    assert (S1 : valid s1 /\ exists es1, elements s1 = Ok es1 /\
      forall e, In e es1 -> exists src es e0, (src = s \/ In src (op_sources o)) /\
         elements src = Ok es /\ In e0 es /\ row_le e e0).
    { destruct (is_merge o) eqn:M.
      - destruct o; try discriminate. simpl in E1, Vo. destruct Vo as [Vb Va].
        assert (V' : Forall valid (before ++ s :: after)).
        { apply Forall_app. split; [exact Vb|]. constructor; assumption. }
        split; [apply (merge_valid _ _ V' E1)|].
        destruct (merge_elements _ _ V' E1) as [s0 [rest [ess [El [Em Ee]]]]].
        eexists. split; [exact Ee|]. intros e He. apply in_map_iff in He as [e0 [<- He0]].
        apply in_concat in He0 as [es [Hes He0]].
        destruct (mapM_in _ _ _ _ Em Hes) as [src [Hsrc Esrc]].
        exists src, es, e0. split; [|split; [exact Esrc|split; [exact He0|apply forget_le]]].
        simpl. rewrite in_app_iff in Hsrc |- *. simpl in Hsrc. intuition.
      - destruct (elements_ent s V) as [R [Es _]].
        destruct (step_elements s o s1 _ V M Es E1) as [V1 [es1 [Ee Hi]]].
        split; [exact V1|]. exists es1. split; [exact Ee|]. intros e He.
        exists s, (map (ent (has (s_off s)) (has (s_rng s))) R), e. split; [left; reflexivity|].
        split; [exact Es|]. split; [apply Hi; exact He|apply row_le_refl]. }
    destruct S1 as [V1 [es1 [Ee1 P1]]].
    destruct (IH s1 s' V1 VO' E) as [V' [es' [Ee' P']]]. split; [exact V'|]. exists es'. split; [exact Ee'|].
    intros e He. destruct (P' e He) as [src [es [e0 [[->|[o' [Ho Hs]]] [A [B C]]]]]].
    + rewrite A in Ee1. inversion Ee1; subst es1.
      destruct (P1 e0 B) as [src' [es'' [e00 [D [F [G H]]]]]].
      exists src', es'', e00. split.
      * destruct D as [->|D]; [left; reflexivity|right; exists o; split; [left; reflexivity|exact D]].
      * split; [exact F|]. split; [exact G|]. eapply row_le_trans; eassumption.
    + exists src, es, e0. split; [right; exists o'; split; [right; exact Ho|exact Hs]|]. tauto.
Qed.

Lemma history_nomerge_lemma : forall ops s s' es, valid s -> forallb (fun o => negb (is_merge o)) ops = true ->
  elements s = Ok es -> scp_run s ops = Ok s' ->
  exists es', elements s' = Ok es' /\ incl es' es.
Proof.
  induction ops as [|o ops IH]; intros s s' es V M Es E; simpl in E.
  - inversion E; subst. exists es. split; [exact Es|apply incl_refl].
  - simpl in M. apply andb_true_iff in M as [M1 M2]. apply negb_true_iff in M1.
    destruct (scp_step s o) as [s1|] eqn:E1; [|discriminate]. simpl in E.
    destruct (step_elements s o s1 es V M1 Es E1) as [V1 [es1 [Ee Hi]]].
    destruct (IH s1 s' es1 V1 M2 Ee E) as [es' [E' I']]. exists es'. split; [exact E'|].
    eapply incl_tran; eassumption.
Qed.

(** sort / shuffle *)
Lemma sort_lemma s es idx s' : valid s -> elements s = Ok es -> is_argsort (s_key s) idx ->
  scp_sort idx s = Ok s' ->
  exists es', elements s' = Ok es' /\ Permutation es' es /\
    Sorted (fun a b => leb a b = true) (map (fun e : entry => fst (fst (fst e))) es') /\
    take es (map Z.of_nat idx) = Ok es'.
Proof.
  intros V Es [P [k [Tk S]]] E. destruct (elements_ent s V) as [R [E1 E2]].
  rewrite E1 in Es. inversion Es; subst es. rewrite E2 in E. rewrite scp_sort_build in E.
  rewrite E2 in P, Tk. simpl in P, Tk. rewrite take_map in Tk. rewrite map_length in P.
  destruct (take R (map Z.of_nat idx)) as [r|] eqn:T; [|discriminate]. simpl in E, Tk.
  inversion E; subst s'. inversion Tk; subst k. clear E Tk.
  eexists. split; [apply elements_build|]. split; [|split].
  - apply Permutation_map. eapply take_perm; eassumption.
  - rewrite map_map. exact S.
  - rewrite take_map, T. reflexivity.
Qed.

Lemma sort_total s idx : valid s -> is_argsort (s_key s) idx -> exists s', scp_sort idx s = Ok s'.
Proof.
  intros V [P _]. destruct (elements_ent s V) as [R [E1 E2]]. rewrite E2, scp_sort_build.
  rewrite E2 in P. simpl in P. rewrite map_length in P.
  destruct (take_total R idx) as [r T].
  { intros k Hk. apply (Permutation_in _ P) in Hk. apply in_seq in Hk. lia. }
  rewrite T. eexists; reflexivity.
Qed.

Lemma valid_rows s : valid s -> exists R ho hr c, s = build R ho hr c.
Proof. intros V. destruct (valid_build s V) as [R E]. eauto. Qed.

Lemma shuffle_lemma s es idx : valid s -> elements s = Ok es -> Permutation idx (seq 0 (List.length (s_key s))) ->
  exists s' es', scp_shuffle idx s = Ok (s', idx) /\ elements s' = Ok es' /\ Permutation es' es /\
    take es (map Z.of_nat idx) = Ok es'.
Proof.
  intros V Es P. destruct (valid_rows s V) as [R [ho [hr [c ->]]]].
  rewrite elements_build in Es. inversion Es; subst es. rewrite scp_shuffle_build.
  simpl in P. rewrite map_length in P.
  destruct (take_total R idx) as [r T].
  { intros k Hk. apply (Permutation_in _ P) in Hk. apply in_seq in Hk. lia. }
  rewrite T. eexists _, _. split; [reflexivity|]. split; [apply elements_build|]. split.
  - apply Permutation_map. eapply take_perm; eassumption.
  - rewrite take_map, T. reflexivity.
Qed.

(** *** Cache *)

Definition cache_ok (s : scp) : Prop := s_cache s = None \/ s_cache s = Some (create_dict (s_key s)).

Lemma fill_cache_ok s : cache_ok s -> s_cache (fill_cache s) = Some (create_dict (s_key s)).
Proof. unfold fill_cache. intros [E|E]; rewrite E; simpl; [reflexivity|exact E]. Qed.

Lemma fill_cache_cols s : s_key (fill_cache s) = s_key s /\ s_path (fill_cache s) = s_path s /\
  s_off (fill_cache s) = s_off s /\ s_rng (fill_cache s) = s_rng s.
Proof. unfold fill_cache. destruct (s_cache s); repeat split. Qed.

Lemma do_ok s c s' : valid s -> cache_ok s -> scp_do s c = Ok s' -> valid s' /\ cache_ok s'.
Proof.
  intros V C E.
  assert (F : valid (fill_cache s) /\ cache_ok (fill_cache s)).
  { destruct (fill_cache_cols s) as [E1 [E2 [E3 E4]]]. split.
    - unfold valid. rewrite E1, E2, E3, E4. exact V.
    - right. rewrite E1. apply fill_cache_ok. exact C. }
  destruct c; simpl in E.
  - inversion E; subst. exact F.
  - inversion E; subst. exact F.
  - inversion E; subst. exact F.
  - inversion E; subst. split.
    + destruct V as [V1 [V2 V3]]. split; [simpl; rewrite map_length; exact V1|]. split; assumption.
    + destruct C as [C|C]; [left|right]; exact C.
  - destruct (elements_ent s V) as [R [_ E2]]. rewrite E2, scp_sort_build in E.
    destruct (take R _); [|discriminate]. inversion E; subst. split; [apply build_valid|left; reflexivity].
  - destruct (elements_ent s V) as [R [_ E2]]. rewrite E2, scp_shuffle_build in E.
    destruct (take R _); [|discriminate]. simpl in E. inversion E; subst. split; [apply build_valid|left; reflexivity].
Qed.

Lemma calls_ok cs : forall s s', valid s -> cache_ok s -> scp_calls s cs = Ok s' -> valid s' /\ cache_ok s'.
Proof.
  induction cs as [|c cs IH]; intros s s' V C E; simpl in E.
  - inversion E; subst. tauto.
  - destruct (scp_do s c) as [s1|] eqn:E1; [|discriminate]. simpl in E.
    destruct (do_ok _ _ _ V C E1) as [V1 C1]. eapply IH; eassumption.
Qed.

Lemma find_app {A} (p : A -> bool) l1 l2 : find p (l1 ++ l2) = match find p l1 with Some x => Some x | None => find p l2 end.
Proof. induction l1 as [|x l1 IH]; simpl; [reflexivity|]. destruct (p x); [reflexivity|exact IH]. Qed.

Lemma dict_find_spec key k :
  match dict_find (create_dict key) k with
  | Some i => 0 <= i /\ nth_error key (Z.to_nat i) = Some k /\
              (forall j, (Z.to_nat i < j)%nat -> nth_error key j <> Some k)
  | None => ~ In k key
  end.
Proof.
  unfold create_dict, dict_find.
  induction key as [|x key IH] using rev_ind; [simpl; tauto|].
  rewrite app_length. simpl. rewrite Nat.add_1_r, seq_S, map_app. simpl.
  assert (C : forall (a : list string) (b : list Z) y z, List.length a = List.length b ->
     combine (a ++ [y]) (b ++ [z]) = combine a b ++ [(y, z)]).
  { induction a as [|u a IHa]; intros [|v b] y z L; simpl in *; try discriminate; [reflexivity|].
    rewrite IHa by lia. reflexivity. }
  rewrite C by (rewrite map_length, seq_length; reflexivity).
  rewrite rev_app_distr. simpl. destruct (eqb_spec k x) as [->|N]; simpl.
  - rewrite Nat2Z.id. split; [lia|]. split.
    + rewrite nth_error_app2, Nat.sub_diag by lia. reflexivity.
    + intros j Hj E. assert (j < List.length (key ++ [x]))%nat by (apply nth_error_Some; congruence).
      rewrite app_length in H. simpl in H. lia.
  - destruct (find _ _) as [[y i]|] eqn:Fd; simpl in *.
    + destruct IH as [P1 [P2 P3]]. split; [exact P1|]. split.
      * rewrite nth_error_app1; [exact P2|]. apply nth_error_Some. congruence.
      * intros j Hj E. destruct (Nat.lt_ge_cases j (List.length key)) as [L|L].
        -- rewrite nth_error_app1 in E by exact L. exact (P3 j Hj E).
        -- rewrite nth_error_app2 in E by exact L. destruct (j - List.length key)%nat as [|m]; simpl in E; [congruence|destruct m; discriminate].
    + rewrite in_app_iff. simpl. intuition.
Qed.
