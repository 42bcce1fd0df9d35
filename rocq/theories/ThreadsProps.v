(** Threads pulling from a shared iterator and through a queue: every schedule. *)
From Coq Require Import Lia Permutation.
From Verif Require Import BaseFacts Threads.
Open Scope list_scope.
Open Scope nat_scope.

Lemma upd_same {B} (f : nat -> B) t b : upd f t b t = b.
Proof. unfold upd. rewrite Nat.eqb_refl. reflexivity. Qed.
Lemma upd_other {B} (f : nat -> B) t b x : x <> t -> upd f t b x = f x.
Proof. intros N. unfold upd. rewrite (proj2 (Nat.eqb_neq _ _) N). reflexivity. Qed.

(** the items handed out so far, in the order of the calls' returns *)
Definition delivered {A} (out : list (nat * option A)) : list A := flat_map (fun p => match snd p with Some a => [a] | None => [] end) out.

Lemma isteps_cons {A} (items : list A) lock s1 s2 s3 : istep items lock s1 s2 -> isteps items lock s2 s3 -> isteps items lock s1 s3.
Proof. intros S T. induction T as [s|a b c T IH U]; [eapply is_step; [apply is_refl|exact S]|eapply is_step; [apply IH; exact S|exact U]]. Qed.
Lemma qsteps_cons {A} (items : list A) ms w s1 s2 s3 : qstep items ms w s1 s2 -> qsteps items ms w s2 s3 -> qsteps items ms w s1 s3.
Proof. intros S T. induction T as [s|a b c T IH U]; [eapply qs_step; [apply qs_refl|exact S]|eapply qs_step; [apply IH; exact S|exact U]]. Qed.

Section I.
Context {A : Type} (items : list A).
Definition inv (s : ist A) : Prop :=
  match i_lock s with
  | None => (forall t, i_pc s t = Idle) /\ i_pos s <= List.length items /\ delivered (i_out s) = firstn (i_pos s) items
  | Some t => (forall x, x <> t -> i_pc s x = Idle) /\
    match i_pc s t with
    | Idle => False
    | Entered => i_pos s <= List.length items /\ delivered (i_out s) = firstn (i_pos s) items
    | HasRead p => p = i_pos s /\ i_pos s <= List.length items /\ delivered (i_out s) = firstn (i_pos s) items
    | Leaving (Some a) => 1 <= i_pos s <= List.length items /\ delivered (i_out s) ++ [a] = firstn (i_pos s) items
    | Leaving None => i_pos s = List.length items /\ delivered (i_out s) = items
    end
  end.
Definition stopped (s : ist A) : Prop := forall t, In (t, None) (i_out s) -> i_pos s = List.length items.

Lemma step_inv s s' : inv s -> stopped s -> istep items true s s' -> inv s' /\ stopped s'.
Proof.
  intros I ST S. destruct S as [s t P L|s t P|s t p P|s t r P]; unfold inv, stopped in *; cbn [i_lock i_pc i_pos i_out] in *.
  - rewrite (L eq_refl) in I. destruct I as (I1 & I2 & I3). split; [|exact ST]. split; [intros x N; rewrite upd_other by exact N; apply I1|]. rewrite upd_same. auto.
  - destruct (i_lock s) as [u|]; [|destruct I as (I1 & _); rewrite I1 in P; discriminate]. destruct I as (I1 & I2). destruct (Nat.eq_dec t u) as [->|N]; [|rewrite (I1 t N) in P; discriminate]. rewrite P in I2. split; [|exact ST]. split; [intros x N; rewrite upd_other by exact N; apply I1; exact N|]. rewrite upd_same. tauto.
  - destruct (i_lock s) as [u|]; [|destruct I as (I1 & _); rewrite I1 in P; discriminate]. destruct I as (I1 & I2). destruct (Nat.eq_dec t u) as [->|N]; [|rewrite (I1 t N) in P; discriminate]. rewrite P in I2. destruct I2 as (-> & I3 & I4).
    destruct (Nat.ltb_spec (i_pos s) (List.length items)) as [Q|Q].
    + split; [|intros x Ix; specialize (ST x Ix); lia]. split; [intros x N; rewrite upd_other by exact N; apply I1; exact N|]. rewrite upd_same. destruct (nth_error items (i_pos s)) as [a|] eqn:E; [|apply nth_error_None in E; lia]. split; [lia|]. rewrite I4. clear - E. revert E. generalize (i_pos s). intros n. revert items. induction n as [|n IH]; intros [|x l] E; try discriminate; cbn in *; [injection E as ->; reflexivity|]. rewrite (IH l E). reflexivity.
    + split; [|exact ST]. split; [intros x N; rewrite upd_other by exact N; apply I1; exact N|]. rewrite upd_same. rewrite (proj2 (nth_error_None items (i_pos s)) Q). split; [lia|]. rewrite I4. apply firstn_all2. exact Q.
  - destruct (i_lock s) as [u|]; [|destruct I as (I1 & _); rewrite I1 in P; discriminate]. destruct I as (I1 & I2). destruct (Nat.eq_dec t u) as [->|N]; [|rewrite (I1 t N) in P; discriminate]. rewrite P in I2.
    assert (D : delivered (i_out s ++ [(u, r)]) = delivered (i_out s) ++ match r with Some a => [a] | None => [] end) by (unfold delivered; rewrite flat_map_app; cbn; rewrite app_nil_r; reflexivity). rewrite D.
    split.
    + split; [intros x; destruct (Nat.eq_dec x u) as [->|N]; [apply upd_same|rewrite upd_other by exact N; apply I1; exact N]|]. destruct r as [a|]; [tauto|]. destruct I2 as (-> & ->). split; [lia|]. rewrite app_nil_r, firstn_all. reflexivity.
    + intros x Ix. apply in_app_or in Ix. destruct Ix as [Ix|[Ix|[]]]; [apply (ST x Ix)|]. injection Ix as -> ->. apply I2.
Qed.
Lemma steps_inv s : isteps items true ist_init s -> inv s /\ stopped s.
Proof.
  remember ist_init as s0 eqn:E0. intros S. revert E0. induction S as [s|s1 s2 s3 S IH T]; intros ->.
  - split; [split; [reflexivity|]; split; [cbn; lia|reflexivity]|intros t []].
  - destruct (IH eq_refl) as (I & ST). apply (step_inv s2 s3 I ST T).
Qed.
End I.

(** Whatever the number of threads and the schedule, the items returned to the threads so far are, in order, a prefix of
    the items of the wrapped iterator: none is lost, repeated or reordered. *)
Theorem C49_each_once : forall A (items : list A) s, isteps items true ist_init s -> exists n, delivered (i_out s) = firstn n items.
Proof.
  intros A items s S. destruct (steps_inv items s S) as (I & _). unfold inv in I. destruct (i_lock s) as [t|]; [|exists (i_pos s); apply I]. destruct I as (_ & I). destruct (i_pc s t) as [| |p|[a|]]; [destruct I|exists (i_pos s); apply I|exists (i_pos s); apply I| |exists (List.length items); rewrite firstn_all; apply I].
  destruct I as (L & E). exists (List.length (delivered (i_out s))). assert (Q : firstn (List.length (delivered (i_out s))) (firstn (i_pos s) items) = delivered (i_out s)) by (rewrite <- E, firstn_app, Nat.sub_diag, firstn_all, firstn_O, app_nil_r; reflexivity). rewrite firstn_firstn in Q. rewrite <- Q at 1. f_equal.
  apply (f_equal (@List.length A)) in E. rewrite app_length, firstn_length in E. cbn in E. lia.
Qed.

(** When a thread is told StopIteration and no call is in progress, every item has been delivered, once. *)
Theorem C49_all : forall A (items : list A) s t, isteps items true ist_init s -> (forall u, i_pc s u = Idle) -> In (t, None) (i_out s) -> delivered (i_out s) = items.
Proof.
  intros A items s t S Id I. destruct (steps_inv items s S) as (V & ST). specialize (ST t I). unfold inv in V. destruct (i_lock s) as [u|]; [destruct V as (_ & V); rewrite Id in V; destruct V|]. destruct V as (_ & _ & ->). rewrite ST. apply firstn_all.
Qed.

(** No schedule deadlocks: from every reachable state, if a call is in progress, a step that is not the start of a new call is possible;
    if none is, any thread can start one. *)
Theorem C49_no_deadlock : forall A (items : list A) s, isteps items true ist_init s ->
  (exists t s', i_pc s t <> Idle /\ istep items true s s' /\ i_pc s' t <> i_pc s t) \/
  ((forall t, i_pc s t = Idle) /\ forall t, exists s', istep items true s s' /\ i_pc s' t = Entered).
Proof.
  intros A items s S. destruct (steps_inv items s S) as (V & _). unfold inv in V. destruct (i_lock s) as [t|] eqn:L.
  - left. destruct V as (_ & V). exists t. destruct (i_pc s t) as [| |p|r] eqn:P; [destruct V| | |].
    + eexists. split; [discriminate|]. split; [apply (i_read items true s t P)|]. cbn. rewrite upd_same. discriminate.
    + eexists. split; [discriminate|]. split; [apply (i_advance items true s t p P)|]. cbn. rewrite upd_same. discriminate.
    + eexists. split; [discriminate|]. split; [apply (i_leave items true s t r P)|]. cbn. rewrite upd_same. discriminate.
  - right. destruct V as (V & _). split; [exact V|]. intros t. eexists. split; [apply (i_enter items true s t (V t)); intros _; exact L|]. cbn. apply upd_same.
Qed.

(** The lock is needed: without it two threads can get the same item. *)
Theorem C49_without_lock_refuted : exists s, isteps [1; 2] false ist_init s /\ delivered (i_out s) = [1; 1].
Proof.
  eexists. split.
  - eapply isteps_cons; [apply (i_enter _ _ _ 0); [reflexivity|discriminate]|]. lazy. eapply isteps_cons; [apply (i_enter _ _ _ 1); [reflexivity|discriminate]|]. lazy. eapply isteps_cons; [apply (i_read _ _ _ 0); reflexivity|]. lazy. eapply isteps_cons; [apply (i_read _ _ _ 1); reflexivity|]. lazy. eapply isteps_cons; [apply (i_advance _ _ _ 0 0); reflexivity|]. lazy. eapply isteps_cons; [apply (i_advance _ _ _ 1 0); reflexivity|]. lazy. eapply isteps_cons; [apply (i_leave _ _ _ 0 (Some 1)); reflexivity|]. lazy. eapply isteps_cons; [apply (i_leave _ _ _ 1 (Some 1)); reflexivity|]. apply is_refl.
  - reflexivity.
Qed.

(** ** The queue *)
Section Q.
Context {A : Type} (items : list A) (max_size workers : nat).
Definition held (w : nat -> @wpc A) (n : nat) : list A := flat_map (fun t => match w t with WPut a => [a] | _ => [] end) (seq 0 n).
Lemma held_upd w n t x : held (upd w t x) n = if t <? n then held w t ++ match x with WPut a => [a] | _ => [] end ++ flat_map (fun t => match w t with WPut a => [a] | _ => [] end) (seq (S t) (n - S t)) else held w n.
Proof.
  unfold held. assert (E : forall l, ~ In t l -> flat_map (fun u => match upd w t x u with WPut a => [a] | _ => [] end) l = flat_map (fun u => match w u with WPut a => [a] | _ => [] end) l) by (induction l as [|u l IH]; intros N; [reflexivity|]; cbn; rewrite IH by (intros I; apply N; right; exact I); rewrite upd_other by (intros ->; apply N; left; reflexivity); reflexivity).
  destruct (Nat.ltb_spec t n) as [L|L]; [|apply E; rewrite in_seq; lia]. replace n with (t + S (n - S t)) at 1 by lia. rewrite seq_app, flat_map_app. cbn [Nat.add seq flat_map]. rewrite E by (rewrite in_seq; lia). rewrite upd_same. rewrite E by (rewrite in_seq; lia). reflexivity.
Qed.
Lemma held_split w n t : t < n -> held w n = held w t ++ match w t with WPut a => [a] | _ => [] end ++ flat_map (fun t => match w t with WPut a => [a] | _ => [] end) (seq (S t) (n - S t)).
Proof. intros L. unfold held. replace n with (t + S (n - S t)) at 1 by lia. rewrite seq_app, flat_map_app. cbn [Nat.add seq flat_map]. reflexivity. Qed.
(** workers between the size check and the put *)
Definition inside (w : nat -> @wpc A) (n : nat) : nat := List.length (filter (fun t => match w t with WNext | WPut _ => true | _ => false end) (seq 0 n)).
Lemma inside_upd w n t x : t < n -> inside (upd w t x) n + (match w t with WNext | WPut _ => 1 | _ => 0 end) = inside w n + (match x with WNext | WPut _ => 1 | _ => 0 end).
Proof.
  intros L. unfold inside. replace n with (t + S (n - S t)) by lia. rewrite !seq_app, !filter_app, !app_length. cbn [Nat.add seq filter].
  assert (E : forall l, ~ In t l -> filter (fun u => match upd w t x u with WNext | WPut _ => true | _ => false end) l = filter (fun u => match w u with WNext | WPut _ => true | _ => false end) l) by (induction l as [|u l IH]; intros N; [reflexivity|]; cbn; rewrite IH by (intros I; apply N; right; exact I); rewrite upd_other by (intros ->; apply N; left; reflexivity); reflexivity).
  rewrite !E by (rewrite in_seq; lia). rewrite upd_same. destruct (w t), x; cbn; lia.
Qed.
Lemma inside_le w n : inside w n <= n.
Proof. unfold inside. rewrite <- (seq_length n 0) at 2. generalize (seq 0 n). induction l as [|u l IH]; cbn; [lia|]. destruct (w u); cbn; lia. Qed.

Definition qinv (s : qst A) : Prop :=
  q_pos s <= List.length items /\
  Permutation (q_got s ++ q_queue s ++ held (q_w s) workers) (firstn (q_pos s) items) /\
  List.length (q_queue s) + inside (q_w s) workers <= max_size - 1 + workers /\
  (q_c s = CGet -> q_queue s <> []).
Lemma firstn_S_nth (l : list A) n a : nth_error l n = Some a -> firstn (S n) l = firstn n l ++ [a].
Proof. revert l. induction n as [|n IH]; intros [|x l] E; try discriminate; cbn in *; [injection E as ->; reflexivity|]. rewrite (IH l E). reflexivity. Qed.
Lemma qstep_inv s s' : 1 <= workers -> qinv s -> qstep items max_size workers s s' -> qinv s'.
Proof.
  intros W1 (I1 & I2 & I3 & I4) S. destruct S as [s t L P|s t L P|s t a L P N|s t L P N|s t a L P|s P|s P|s a q P E]; unfold qinv; cbn [q_pos q_queue q_stop q_w q_c q_got].
  - pose proof (inside_upd (q_w s) workers t (if q_stop s then WDead else WCheck) L) as Q. rewrite P in Q. split; [exact I1|]. split; [|split; [destruct (q_stop s); lia|exact I4]]. rewrite held_upd, (proj2 (Nat.ltb_lt _ _) L). rewrite (held_split _ _ _ L), P in I2. destruct (q_stop s); exact I2.
  - split; [exact I1|]. pose proof (inside_upd (q_w s) workers t (if List.length (q_queue s) <? max_size then WNext else WTop) L) as Q. rewrite P in Q. split; [|split; [|exact I4]].
    + rewrite held_upd, (proj2 (Nat.ltb_lt _ _) L). rewrite (held_split _ _ _ L), P in I2. destruct (List.length (q_queue s) <? max_size); exact I2.
    + destruct (Nat.ltb_spec (List.length (q_queue s)) max_size) as [Q1|Q1]; [|lia].
      assert (IW : inside (upd (q_w s) t WNext) workers <= workers) by apply inside_le. lia.
  - pose proof (inside_upd (q_w s) workers t (WPut a) L) as Q. rewrite P in Q. split; [assert (q_pos s < List.length items) by (apply nth_error_Some; congruence); lia|]. split; [|split; [lia|exact I4]].
    rewrite held_upd, (proj2 (Nat.ltb_lt _ _) L). rewrite (held_split _ _ _ L), P in I2. rewrite (firstn_S_nth _ _ _ N). rewrite <- I2. cbn [app]. rewrite <- !app_assoc. do 3 apply Permutation_app_head. apply Permutation_cons_append.
  - pose proof (inside_upd (q_w s) workers t WDead L) as Q. rewrite P in Q. split; [exact I1|]. split; [|split; [lia|exact I4]]. rewrite held_upd, (proj2 (Nat.ltb_lt _ _) L). rewrite (held_split _ _ _ L), P in I2. exact I2.
  - pose proof (inside_upd (q_w s) workers t WTop L) as Q. rewrite P in Q. split; [exact I1|]. split; [|split; [rewrite app_length; cbn; lia|intros _; destruct (q_queue s); discriminate]].
    rewrite held_upd, (proj2 (Nat.ltb_lt _ _) L). rewrite (held_split _ _ _ L), P in I2. rewrite <- I2. cbn [app]. apply Permutation_app_head. rewrite <- app_assoc. apply Permutation_app_head. cbn [app]. apply Permutation_middle.
  - split; [exact I1|]. split; [exact I2|]. split; [exact I3|]. destruct (q_stop s); discriminate.
  - split; [exact I1|]. split; [exact I2|]. split; [exact I3|]. destruct (q_queue s); [discriminate|]. intros _. discriminate.
  - rewrite E in *. split; [exact I1|]. split; [rewrite <- I2; rewrite <- !app_assoc; reflexivity|]. split; [cbn in I3; lia|discriminate].
Qed.
Lemma qsteps_inv s : 1 <= workers -> qsteps items max_size workers qst_init s -> qinv s.
Proof.
  intros W1. remember qst_init as s0 eqn:E0. intros S. revert E0. induction S as [s|s1 s2 s3 S IH T]; intros ->.
  - assert (H0 : forall n, held (fun _ => WTop) n = []) by (intros n; unfold held; generalize (seq 0 n); induction l; [reflexivity|exact IHl]). assert (N0 : forall n, inside (fun _ => WTop) n = 0) by (intros n; unfold inside; generalize (seq 0 n); induction l; [reflexivity|exact IHl]).
    split; [cbn; lia|]. split; [cbn; rewrite H0; reflexivity|]. split; [cbn; rewrite N0; lia|discriminate].
  - apply (qstep_inv s2 s3 W1 (IH eq_refl) T).
Qed.
End Q.

(** Every item the generator produced is in exactly one place: received by the consumer, in the queue, or in the hand of a
    worker about to put it; nothing is duplicated or invented, for every number of workers and every schedule. *)
Theorem C59_nothing_lost : forall A (items : list A) max_size workers s, 1 <= workers -> qsteps items max_size workers qst_init s ->
  exists n in_hand, n <= List.length items /\ List.length in_hand <= workers /\ Permutation (q_got s ++ q_queue s ++ in_hand) (firstn n items).
Proof.
  intros A items ms w s W S. destruct (qsteps_inv items ms w s W S) as (I1 & I2 & _ & _). exists (q_pos s), (held (q_w s) w). split; [exact I1|]. split; [|exact I2].
  unfold held. rewrite <- (seq_length w 0) at 2. generalize (seq 0 w). induction l as [|u l IH]; cbn; [lia|]. rewrite app_length. destruct (q_w s u); cbn; lia.
Qed.
(** The queue can hold more than max_queue_size items, but never more than max_queue_size + workers - 1. *)
Theorem C59_bound : forall A (items : list A) max_size workers s, 1 <= workers -> 1 <= max_size -> qsteps items max_size workers qst_init s ->
  List.length (q_queue s) <= max_size + workers - 1.
Proof. intros A items ms w s W M S. destruct (qsteps_inv items ms w s W S) as (_ & _ & I3 & _). lia. Qed.
Theorem C59_bound_reached : exists s, qsteps [1; 2] 1 2 qst_init s /\ List.length (q_queue s) = 2.
Proof.
  eexists. split.
  - eapply qsteps_cons; [apply (w_top _ _ _ _ 0); [lia|reflexivity]|]. lazy. eapply qsteps_cons; [apply (w_top _ _ _ _ 1); [lia|reflexivity]|]. lazy. eapply qsteps_cons; [apply (w_check _ _ _ _ 0); [lia|reflexivity]|]. lazy. eapply qsteps_cons; [apply (w_check _ _ _ _ 1); [lia|reflexivity]|]. lazy. eapply qsteps_cons; [apply (w_next _ _ _ _ 0 1); [lia|reflexivity|reflexivity]|]. lazy. eapply qsteps_cons; [apply (w_next _ _ _ _ 1 2); [lia|reflexivity|reflexivity]|]. lazy. eapply qsteps_cons; [apply (w_put _ _ _ _ 0 1); [lia|reflexivity]|]. lazy. eapply qsteps_cons; [apply (w_put _ _ _ _ 1 2); [lia|reflexivity]|]. apply qs_refl.
  - reflexivity.
Qed.
(** One worker keeps the order of the generator: what the consumer received is a prefix of the items. *)
Theorem C59_one_worker_in_order : forall A (items : list A) max_size s, qsteps items max_size 1 qst_init s -> exists n, q_got s = firstn n items.
Proof.
  intros A items ms s S. assert (H : q_pos s <= List.length items /\ q_got s ++ q_queue s ++ held (q_w s) 1 = firstn (q_pos s) items).
  { remember qst_init as s0 eqn:E0. revert E0. induction S as [s|s1 s2 s3 S IH T]; intros ->; [split; [cbn; lia|reflexivity]|]. destruct (IH eq_refl) as (I1 & I2). clear IH S. unfold held in *. cbn [seq flat_map] in *.
    destruct T as [s t L P|s t L P|s t a L P N|s t L P N|s t a L P|s P|s P|s a q P E]; cbn [q_pos q_queue q_stop q_w q_c q_got]; try (assert (t = 0) by lia; subst t; rewrite P in I2; rewrite ?upd_same).
    - split; [exact I1|]. destruct (q_stop s); exact I2.
    - split; [exact I1|]. destruct (List.length (q_queue s) <? ms); exact I2.
    - split; [assert (q_pos s < List.length items) by (apply nth_error_Some; congruence); lia|]. rewrite (firstn_S_nth items _ _ N). rewrite <- I2, !app_nil_r, <- !app_assoc. reflexivity.
    - split; [exact I1|exact I2].
    - split; [exact I1|]. rewrite <- I2. rewrite !app_nil_r. reflexivity.
    - split; [exact I1|exact I2].
    - split; [exact I1|exact I2].
    - split; [exact I1|]. rewrite <- I2, E, <- app_assoc. reflexivity. }
  destruct H as (_ & H). exists (List.length (q_got s)). apply (f_equal (firstn (List.length (q_got s)))) in H. rewrite firstn_app, Nat.sub_diag, firstn_all, firstn_O, app_nil_r in H. rewrite firstn_firstn in H. rewrite H at 1. f_equal. 
  assert (List.length (q_got s) <= q_pos s); [|lia]. rewrite H. rewrite firstn_length. lia.
Qed.
(** With a finite generator items are lost at the end: when a worker meets the end of the generator it sets the stop event, and the
    consumer leaves with items still in the queue. *)
Theorem C59_end_refuted : exists s, qsteps [1] 2 1 qst_init s /\ q_c s = CDone /\ q_got s = [] /\ q_queue s = [1] /\ q_pos s = 1.
Proof.
  eexists. split.
  - eapply qsteps_cons; [apply (w_top _ _ _ _ 0); [lia|reflexivity]|]. lazy. eapply qsteps_cons; [apply (w_check _ _ _ _ 0); [lia|reflexivity]|]. lazy. eapply qsteps_cons; [apply (w_next _ _ _ _ 0 1); [lia|reflexivity|reflexivity]|]. lazy. eapply qsteps_cons; [apply (w_put _ _ _ _ 0 1); [lia|reflexivity]|]. lazy. eapply qsteps_cons; [apply (w_top _ _ _ _ 0); [lia|reflexivity]|]. lazy. eapply qsteps_cons; [apply (w_check _ _ _ _ 0); [lia|reflexivity]|]. lazy. eapply qsteps_cons; [apply (w_exhausted _ _ _ _ 0); [lia|reflexivity|reflexivity]|]. lazy. eapply qsteps_cons; [apply c_top; reflexivity|]. apply qs_refl.
  - repeat split.
Qed.
Example C49_witness : exists s, isteps [1; 2] true ist_init s /\ i_out s = [(1, Some 1)].
Proof. eexists. split. eapply isteps_cons; [apply (i_enter _ _ _ 1); reflexivity|]. lazy. eapply isteps_cons; [apply (i_read _ _ _ 1); reflexivity|]. lazy. eapply isteps_cons; [apply (i_advance _ _ _ 1 0); reflexivity|]. lazy. eapply isteps_cons; [apply (i_leave _ _ _ 1 (Some 1)); reflexivity|]. apply is_refl. reflexivity. Qed.
Print Assumptions C49_each_once. Print Assumptions C59_nothing_lost. Print Assumptions C59_one_worker_in_order.
