(** Properties of MetricAcc. *)
From Coq Require Import QArith Lqa.
From Verif Require Import MetricAcc.
Open Scope list_scope.

(** specification: the sum of value times samples over a history, and the number of samples *)
Definition weighted (k : string) (h : list (list (string * Q) * Z)) : Q :=
  fold_right (fun e s => (match dict_get k (fst e) with Ok v => v | Err _ => 0 end * inject_Z (snd e) + s)%Q) 0%Q h.
Definition samples (h : list (list (string * Q) * Z)) : Z := fold_right (fun e s => (snd e + s)%Z) 0%Z h.
Definition has_keys (ks : list string) (d : list (string * Q)) : Prop := forall k, In k ks -> exists v, dict_get k d = Ok v.

Lemma acc_loop_ok r m : forall ks acc, has_keys ks m -> List.length acc = List.length ks -> exists acc', acc_loop r m ks acc = Ok acc' /\ List.length acc' = List.length ks /\
  forall i k a, nth_error ks i = Some k -> nth_error acc i = Some a -> exists v, dict_get k m = Ok v /\ nth_error acc' i = Some (a + r * (v - a))%Q.
Proof.
  induction ks as [|k ks IH]; intros acc K L; [exists []; split; [reflexivity|]; split; [reflexivity|]; intros [|i] ? ? X; discriminate X|].
  destruct acc as [|a acc]; [discriminate L|]. cbn [acc_loop]. destruct (K k (or_introl eq_refl)) as (v & V). rewrite V. cbn [bind].
  destruct (IH acc) as (acc' & E & L' & N); [intros x X; apply K; right; exact X|cbn in L; congruence|]. rewrite E. cbn [bind]. eexists. split; [reflexivity|]. split; [cbn; congruence|].
  intros [|i] x y X Y; [injection X as <-; injection Y as <-; exists v; split; [exact V|reflexivity]|]. apply N; assumption.
Qed.

Definition inv (ks : list string) (W : string -> Q) (n : Z) (s : acc_state) : Prop :=
  a_keys s = Some ks /\ a_count s = n /\ List.length (a_acc s) = List.length ks /\
  forall i k a, nth_error ks i = Some k -> nth_error (a_acc s) i = Some a -> (a * inject_Z n == W k)%Q.

Lemma update_inv ks W n s m c : inv ks W n s -> has_keys ks m -> (0 <= n)%Z -> (0 < n + c)%Z ->
  exists s', acc_update s m c = Ok s' /\ inv ks (fun k => W k + match dict_get k m with Ok v => v | Err _ => 0 end * inject_Z c)%Q (n + c) s'.
Proof.
  intros (K & C & L & A) HK Nn Pc. unfold acc_update. rewrite K, C. rewrite (proj2 (Z.eqb_neq _ _)) by lia.
  destruct (acc_loop_ok (inject_Z c / inject_Z (n + c)) m ks (a_acc s) HK L) as (acc' & E & L' & N). rewrite E. cbn [bind]. eexists. split; [reflexivity|].
  split; [reflexivity|]. split; [reflexivity|]. split; [exact L'|]. cbn [a_acc]. intros i k a Ki Ai.
  destruct (nth_error (a_acc s) i) as [b|] eqn:B; [|apply nth_error_None in B; assert (i < List.length ks)%nat by (apply nth_error_Some; congruence); lia].
  destruct (N i k b Ki B) as (v & V & X). rewrite Ai in X. injection X as ->. rewrite V. pose proof (A i k b Ki B) as AB.
  assert (P : (0 < inject_Z (n + c))%Q) by (rewrite Zlt_Qlt in Pc; exact Pc). assert (E2 : (inject_Z (n + c) == inject_Z n + inject_Z c)%Q) by (rewrite inject_Z_plus; reflexivity).
  setoid_replace ((b + inject_Z c / inject_Z (n + c) * (v - b)) * inject_Z (n + c))%Q with (b * inject_Z (n + c) + inject_Z c * (v - b))%Q by (field; lra).
  rewrite E2, <- AB. ring.
Qed.

Lemma updates_inv ks : forall h W n s, inv ks W n s -> Forall (fun e => has_keys ks (fst e) /\ (0 <= snd e)%Z) h -> (0 < n)%Z ->
  exists s', acc_updates s h = Ok s' /\ inv ks (fun k => W k + weighted k h)%Q (n + samples h) s'.
Proof.
  induction h as [|(m, c) h IH]; intros W n s I F P; cbn [acc_updates].
  - exists s. split; [reflexivity|]. destruct I as (A & B & C & D). split; [exact A|]. split; [cbn; lia|]. split; [exact C|]. intros i k a X Y. cbn [samples fold_right weighted]. rewrite Z.add_0_r, (D i k a X Y). ring.
  - inversion F as [|? ? (F1 & F2) F3]; subst. cbn [fst snd] in *. destruct (update_inv ks W n s m c I F1 ltac:(lia) ltac:(lia)) as (s' & E & I'). rewrite E. cbn [bind].
    destruct (IH _ _ s' I' F3 ltac:(lia)) as (s'' & E2 & (A & B & C & D)). exists s''. split; [exact E2|]. split; [exact A|]. split; [rewrite B; cbn [samples fold_right snd]; unfold samples; lia|]. split; [exact C|].
    intros i k a X Y. pose proof (D i k a X Y) as Q. cbn [samples weighted fold_right fst snd]. unfold samples in Q. rewrite Z.add_assoc. rewrite Q. unfold weighted. ring.
Qed.

(** Whatever happened before, after a reset and then any non-empty history of batches (with a non-empty first batch)
    every reported metric is the average of its batch values weighted by the batch sizes. A fresh object behaves as
    after a reset; there the keys are those of the first batch. *)
Theorem C39_average : forall s ks m n h, (a_keys s = Some ks /\ List.length (a_acc s) = List.length ks) \/ (s = acc_init /\ ks = map fst m) ->
  has_keys ks m -> (0 < n)%Z -> Forall (fun e => has_keys ks (fst e) /\ (0 <= snd e)%Z) h ->
  exists s' logs, acc_updates (acc_reset s) ((m, n) :: h) = Ok s' /\ acc_metrics s' = Ok logs /\ map fst logs = ks /\
    forall i k v, nth_error logs i = Some (k, v) -> (v == weighted k ((m, n) :: h) / inject_Z (samples ((m, n) :: h)))%Q.
Proof.
  intros s ks m n h St K P F.
  assert (I1 : exists s1, acc_update (acc_reset s) m n = Ok s1 /\ inv ks (fun k => 0 + match dict_get k m with Ok v => v | Err _ => 0 end * inject_Z n)%Q (0 + n) s1).
  { destruct St as [(A & L)|(-> & ->)].
    - apply update_inv; [|exact K|lia|lia]. split; [exact A|]. split; [reflexivity|]. split; [cbn; rewrite map_length; exact L|]. intros i k a X Y. cbn [acc_reset a_acc] in Y. rewrite nth_error_map in Y. destruct (nth_error (a_acc s) i); [|discriminate]. injection Y as <-. ring.
    - set (s0 := mk_acc (Some (map fst m)) (map (fun _ => 0%Q) m) 0). replace (acc_update (acc_reset acc_init) m n) with (acc_update s0 m n) by reflexivity.
      apply update_inv; [|exact K|lia|lia]. split; [reflexivity|]. split; [reflexivity|]. split; [cbn; rewrite !map_length; reflexivity|]. intros i k a X Y. cbn [s0 a_acc] in Y. rewrite nth_error_map in Y. destruct (nth_error m i); [|discriminate]. injection Y as <-. ring. }
  destruct I1 as (s1 & E1 & I1). destruct (updates_inv ks h _ _ s1 I1 F ltac:(lia)) as (s2 & E2 & (A & B & C & D)).
  exists s2, (combine ks (a_acc s2)). split; [cbn [acc_updates]; rewrite E1; exact E2|]. split; [unfold acc_metrics; rewrite A; reflexivity|].
  split. { clear - C. revert C. generalize (a_acc s2). induction ks as [|k ks IH]; intros [|a l] C; try discriminate C; [reflexivity|]. cbn. f_equal. apply IH. cbn in C. congruence. }
  intros i k v X. assert (KV : nth_error ks i = Some k /\ nth_error (a_acc s2) i = Some v). { clear - X. revert X. generalize (a_acc s2). revert i. induction ks as [|x ks IH]; intros i [|a l] X; cbn in X; try (destruct i; discriminate X). destruct i; [injection X as <- <-; split; reflexivity|]. apply (IH i l X). }
  destruct KV as (X1 & X2). pose proof (D i k v X1 X2) as Q.
  assert (SP : (0 < inject_Z (samples ((m, n) :: h)))%Q). { change 0%Q with (inject_Z 0). rewrite <- Zlt_Qlt. cbn [samples fold_right snd]. assert (0 <= samples h)%Z; [|unfold samples in *; lia]. clear - F. induction F as [|(x, y) l (_ & Y) _ IH]; cbn; [lia|]. cbn in Y. unfold samples in IH. lia. }
  assert (E : (v * inject_Z (samples ((m, n) :: h)) == weighted k ((m, n) :: h))%Q). { cbn [samples weighted fold_right fst snd] in *. unfold samples in Q. rewrite Z.add_0_l in Q. rewrite Q. unfold weighted. ring. }
  rewrite <- E. field. lra.
Qed.

(** the keys of an association list without repetitions are present *)
Lemma own_keys d : has_keys (map fst d) d.
Proof.
  intros k I. induction d as [|(k', v) d IH]; [destruct I|]. cbn [dict_get]. destruct (String.eqb k k') eqn:E; [exists v; reflexivity|]. destruct I as [<-|I]; [cbn in E; rewrite String.eqb_refl in E; discriminate|]. apply IH. exact I.
Qed.

(** an empty first batch, or reading before any batch, is an error *)
Theorem C39_errors : (forall s m, a_count s = 0%Z -> acc_update s m 0 = Err ZeroDivisionError) /\ acc_metrics acc_init = Err TypeError.
Proof. split; [|reflexivity]. intros s m C. unfold acc_update. rewrite C. reflexivity. Qed.

Example C39_witness : exists s logs, acc_updates acc_init [([("loss"%string, 2); ("acc"%string, 1 # 2)]%Q, 4%Z); ([("loss"%string, 1); ("acc"%string, 1)]%Q, 2%Z)] = Ok s /\ acc_metrics s = Ok logs /\
  Forall2 (fun x y => fst x = fst y /\ snd x == snd y)%Q logs [("loss"%string, 5 # 3); ("acc"%string, 2 # 3)]%Q.
Proof. eexists _, _. split; [vm_compute; reflexivity|]. split; [vm_compute; reflexivity|]. repeat constructor. Qed.
Print Assumptions C39_average. Print Assumptions C39_errors.
