(** C109: evaluation of losses per sample and the evidence lower bound of the variational autoencoder. *)
From Coq Require Import ZArith List Bool String Reals Lra Lia.
From Verif Require Import Base BaseFacts NormalDiag NormalDiagProps ScoreNorm ScoreNormProps Pool PoolProps KLoss KLossProps Vae.
Import ListNotations.
Open Scope list_scope.

(** ** Batches: every sample once, in order, in batches of one to b samples *)
Theorem C109_batches n b : (0 <= n)%Z -> (0 < b)%Z -> exists l, make_batches n b = Ok l /\
  concat (map (fun p => arange (fst p) (snd p)) l) = arange 0 n /\ Forall (fun p => (0 <= fst p < snd p /\ snd p <= n /\ snd p - fst p <= b)%Z) l.
Proof.
  intros N B. unfold make_batches. destruct (Z.eqb_spec b 0); [lia|]. eexists. split; [reflexivity|].
  set (K := (- (- n / b))%Z). assert (K1 : (n <= K * b)%Z) by (pose proof (Z.mul_div_le (- n) b B); unfold K; lia).
  assert (K2 : ((K - 1) * b < n)%Z) by (pose proof (Z.mul_succ_div_gt (- n) b B); unfold K; lia).
  assert (K0 : (0 <= K)%Z). { unfold K. assert (- n / b < 1)%Z; [|lia]. apply Z.div_lt_upper_bound; lia. }
  split.
  - assert (G : forall m, (0 <= m <= K)%Z -> concat (map (fun p => arange (fst p) (snd p)) (map (fun i => (i * b, Z.min n ((i + 1) * b))%Z) (arange 0 m))) = arange 0 (Z.min n (m * b))).
    { intros m [M0 M1]. revert M1. pattern m. apply natlike_ind; [|clear m M0|exact M0].
      - intros _. rewrite Z.mul_0_l, Z.min_r by lia. reflexivity.
      - intros m M0 IH M1. unfold Z.succ in *. rewrite (arange_app 0 m (m + 1)) by lia. rewrite !map_app, concat_app, IH by lia.
        assert (E : arange m (m + 1) = [m]). { rewrite arange_nat by lia. replace (Z.to_nat (m + 1 - m)) with 1%nat by lia. cbn. f_equal. lia. }
        rewrite E. cbn [map concat fst snd]. rewrite app_nil_r. assert (m * b < n)%Z by nia. rewrite (Z.min_r n (m * b)) by lia. symmetry. apply arange_app; [nia|]. apply Z.min_glb; nia. }
    rewrite G by lia. f_equal. apply Z.min_l. lia.
  - apply Forall_forall. intros p H. apply in_map_iff in H. destruct H as (i & <- & H). apply arange_in in H. cbn [fst snd]. assert (i * b < n)%Z by nia.
    repeat split; try nia; try (apply Z.min_glb_lt; nia); try apply Z.le_min_l; pose proof (Z.le_min_r n ((i + 1) * b)); nia.
Qed.
Print Assumptions C109_batches.

(** ** Evaluation in batches *)
(** the elements with their positions *)
Definition indexed {A} (l : list A) : list (nat * A) := combine (seq 0 (List.length l)) l.
Lemma indexed_len {A} (l : list A) : List.length (indexed l) = List.length l.
Proof. unfold indexed. rewrite combine_length, seq_length. apply Nat.min_id. Qed.
Lemma nth_combine_seq {A} (l : list A) a i : nth_error (combine (seq a (List.length l)) l) i = option_map (fun x => ((a + i)%nat, x)) (nth_error l i).
Proof.
  revert a i. induction l as [|x l IH]; intros a i; [destruct i; reflexivity|]. cbn [List.length seq combine]. destruct i as [|i]; [cbn; do 2 f_equal; lia|].
  cbn [nth_error]. rewrite IH. destruct (nth_error l i); cbn; [|reflexivity]. do 2 f_equal. lia.
Qed.
Lemma nth_indexed {A} (l : list A) i : nth_error (indexed l) i = option_map (fun x => (i, x)) (nth_error l i).
Proof. unfold indexed. rewrite nth_combine_seq. reflexivity. Qed.
Lemma firstn_seg {A} (l : list A) s e : (s <= e)%nat -> firstn e l = firstn s l ++ firstn (e - s) (skipn s l).
Proof.
  revert l e. induction s as [|s IH]; intros l e H; [rewrite Nat.sub_0_r; reflexivity|]. destruct e as [|e]; [lia|]. destruct l as [|x l]; [cbn; destruct (e - s)%nat; reflexivity|].
  cbn [firstn skipn app Nat.sub]. f_equal. apply IH. lia.
Qed.
Section Loop.
Context {X V : Type}.
Variable zero : V.
(** what every output should be, for the sample at position r of the batch k *)
Variable gs : list (nat -> nat -> X -> V).
Definition per_row (k : nat) (rows : list X) : list (list V) := map (fun g => map (fun p => g k (fst p) (snd p)) (indexed rows)) gs.
(** the same for all samples: the sample i is in the batch i / B, at i mod B *)
Definition per_sample (B : nat) (ins : list X) : list (list V) := map (fun g => map (fun p => g (fst p / B) (fst p mod B) (snd p))%nat (indexed ins)) gs.
Definition fin (B : nat) (ins : list X) (g : nat -> nat -> X -> V) : list V := map (fun p => g (fst p / B) (fst p mod B) (snd p))%nat (indexed ins).

Lemma fin_len B ins g : List.length (fin B ins g) = List.length ins.
Proof. unfold fin. rewrite map_length. apply indexed_len. Qed.
Lemma seg_rows (B k e : nat) ins (g : nat -> nat -> X -> V) : (0 < B)%nat -> (k * B <= e)%nat -> (e <= S k * B)%nat -> (e <= List.length ins)%nat ->
  map (fun p => g k (fst p) (snd p)) (indexed (firstn (e - k * B) (skipn (k * B) ins))) = firstn (e - k * B) (skipn (k * B) (fin B ins g)).
Proof.
  intros HB H1 H2 H3. apply nth_error_ext. intros i.
  rewrite nth_error_map, nth_indexed. destruct (Nat.lt_ge_cases i (e - k * B)) as [L|L].
  - rewrite !nth_error_firstn, (proj2 (Nat.ltb_lt _ _) L). rewrite !nth_error_skipn. unfold fin. rewrite nth_error_map, nth_indexed. destruct (nth_error ins (k * B + i)) as [x|]; [|reflexivity]. cbn [option_map fst snd]. f_equal.
    rewrite Nat.div_add_l by lia. rewrite Nat.div_small by (simpl in H2; lia). rewrite Nat.add_0_r. f_equal. rewrite Nat.add_comm, Nat.mod_add by lia. symmetry. apply Nat.mod_small. simpl in H2. lia.
  - rewrite !(proj2 (nth_error_None _ _)); [reflexivity| |]; rewrite firstn_length; lia.
Qed.
Lemma put_all_ok (s e n : nat) (fs : (nat -> nat -> X -> V) -> list V) (hs : list (nat -> nat -> X -> V)) : (s <= e <= n)%nat -> (forall g, List.length (fs g) = n) ->
  put_all V (map (fun g => firstn s (fs g) ++ repeat zero (n - s)) hs) s e (map (fun g => firstn (e - s) (skipn s (fs g))) hs) =
  Ok (map (fun g => firstn e (fs g) ++ repeat zero (n - e)) hs).
Proof.
  intros H L. induction hs as [|g hs IH]; [reflexivity|]. cbn [map put_all]. unfold put at 1. rewrite firstn_length, skipn_length, L.
  replace (Nat.eqb (Nat.min (e - s) (n - s)) (e - s)) with true by (symmetry; apply Nat.eqb_eq; lia). cbn [bind]. rewrite IH. cbn [bind]. do 2 f_equal.
  rewrite firstn_app, firstn_firstn, Nat.min_id, firstn_length, L, (Nat.min_l s n) by lia. rewrite Nat.sub_diag, firstn_O, app_nil_r.
  rewrite skipn_app, firstn_length, L, (Nat.min_l s n) by lia. rewrite (skipn_all2 (firstn s (fs g))) by (rewrite firstn_length; lia). cbn [app].
  assert (SR : forall a m, skipn a (repeat zero m) = repeat zero (m - a)) by (induction a as [|a IHa]; intros [|m]; cbn; auto). rewrite SR. replace (n - s - (e - s))%nat with (n - e)%nat by lia.
  rewrite app_assoc. f_equal. symmetry. apply firstn_seg. lia.
Qed.
Lemma loop_ok (f : nat -> list X -> fout V) ins (B K : nat) : (0 < B)%nat -> (List.length ins <= K * B)%nat -> (forall k, (k < K)%nat -> (k * B < List.length ins)%nat) ->
  (forall k rows, rows <> [] -> f k rows = FList (per_row k rows)) ->
  forall todo k, (k + todo = K)%nat -> (k = 0 -> 0 < todo)%nat ->
  loop X V zero f (List.length ins) ins k (map (fun i => (Z.of_nat i * Z.of_nat B, Z.min (Z.of_nat (List.length ins)) ((Z.of_nat i + 1) * Z.of_nat B))%Z) (seq k todo))
     (if Nat.eqb k 0 then [] else map (fun g => firstn (k * B) (fin B ins g) ++ repeat zero (List.length ins - k * B)) gs) = Ok (per_sample B ins).
Proof.
  intros HB HK HL HF. set (n := List.length ins) in *. induction todo as [|todo IH]; intros k E P.
  - cbn [seq map loop]. destruct (Nat.eqb_spec k 0); [lia|]. f_equal. unfold per_sample. apply map_ext. intros g. replace k with K by lia.
    rewrite firstn_all2 by (rewrite fin_len; exact HK). replace (n - K * B)%nat with 0%nat by lia. apply app_nil_r.
  - cbn [seq map loop]. assert (S1 : Z.to_nat (Z.of_nat k * Z.of_nat B) = (k * B)%nat) by lia.
    set (e := Nat.min n (S k * B)). assert (S2 : Z.to_nat (Z.min (Z.of_nat n) ((Z.of_nat k + 1) * Z.of_nat B)) = e) by (unfold e; lia). rewrite S1, S2. clear S1 S2.
    assert (LT : (k * B < n)%nat) by (apply HL; lia). assert (LE : (k * B < e)%nat) by (unfold e; apply Nat.min_glb_lt; [lia|simpl; lia]).
    assert (EN : (e <= n)%nat) by (unfold e; lia). assert (EB : (e <= S k * B)%nat) by (unfold e; lia).
    rewrite HF by (intros Q; apply (f_equal (@List.length X)) in Q; rewrite firstn_length, skipn_length in Q; fold n in Q; cbn [List.length] in Q; lia).
    assert (PR : per_row k (firstn (e - k * B) (skipn (k * B) ins)) = map (fun g => firstn (e - k * B) (skipn (k * B) (fin B ins g))) gs) by (apply map_ext; intros g; apply seg_rows; [exact HB|lia|exact EB|exact EN]).
    rewrite PR. clear PR.
    assert (ST : (if Nat.eqb k 0 then (if Nat.eqb k 0 then [] else map (fun g => firstn (k * B) (fin B ins g) ++ repeat zero (n - k * B)) gs) ++ map (fun _ => repeat zero n) (map (fun g => firstn (e - k * B) (skipn (k * B) (fin B ins g))) gs)
        else (if Nat.eqb k 0 then [] else map (fun g => firstn (k * B) (fin B ins g) ++ repeat zero (n - k * B)) gs)) = map (fun g => firstn (k * B) (fin B ins g) ++ repeat zero (n - k * B)) gs).
    { destruct (Nat.eqb_spec k 0) as [->|]; [|reflexivity]. cbn [app Nat.mul firstn]. rewrite map_map, Nat.sub_0_r. reflexivity. }
    rewrite ST, (put_all_ok (k * B) e n (fin B ins)) by (first [lia|intros g; apply fin_len]). cbn [bind].
    assert (NX : (if Nat.eqb (S k) 0 then [] else map (fun g => firstn (S k * B) (fin B ins g) ++ repeat zero (n - S k * B)) gs) = map (fun g => firstn e (fin B ins g) ++ repeat zero (n - e)) gs).
    { cbn [Nat.eqb]. apply map_ext. intros g. unfold e. destruct (Nat.le_ge_cases n (S k * B)) as [Q|Q].
      - rewrite (Nat.min_l n _ Q). rewrite !firstn_all2 by (rewrite fin_len; fold n; lia). f_equal. f_equal. lia.
      - rewrite (Nat.min_r n _ Q). reflexivity. }
    rewrite <- NX. apply IH; lia.
Qed.
(** The result for a sample is that of the evaluation function for it: the outputs are put together in order. *)
Definition packed (outs : list (list V)) : eout V := match outs with [o] => One o | _ => Many outs end.
Theorem C109_loop (f : nat -> list X -> fout V) ins b : (0 < b)%Z -> ins <> [] -> (forall k rows, rows <> [] -> f k rows = FList (per_row k rows)) ->
  eval_loop X V zero f ins b = Ok (packed (per_sample (Z.to_nat b) ins)).
Proof.
  intros HB NE HF. unfold eval_loop, make_batches. destruct (Z.eqb_spec b 0) as [Q0|_]; [lia|]. cbn [bind].
  set (n := Z.of_nat (List.length ins)). assert (N : (0 < n)%Z) by (destruct ins; [congruence|cbn; lia]).
  set (K := (- (- n / b))%Z). assert (K1 : (n <= K * b)%Z) by (pose proof (Z.mul_div_le (- n) b HB); unfold K; lia).
  assert (K2 : ((K - 1) * b < n)%Z) by (pose proof (Z.mul_succ_div_gt (- n) b HB); unfold K; lia). assert (K0 : (0 < K)%Z) by nia.
  assert (L := loop_ok f ins (Z.to_nat b) (Z.to_nat K) ltac:(lia) ltac:(nia) ltac:(intros k Hk; nia) HF (Z.to_nat K) 0%nat ltac:(lia) ltac:(lia)).
  cbn [Nat.eqb] in L. rewrite Z2Nat.id in L by lia. fold n in L.
  assert (AR : arange 0 K = map Z.of_nat (seq 0 (Z.to_nat K))) by (rewrite arange_nat by lia; f_equal; f_equal; lia). rewrite AR, map_map, L. reflexivity.
Qed.
Theorem C109_loop_empty (f : nat -> list X -> fout V) b : (0 < b)%Z -> eval_loop X V zero f [] b = Ok (Many []).
Proof. intros HB. unfold eval_loop, make_batches. destruct (Z.eqb_spec b 0); [lia|]. cbn [bind List.length]. replace (- Z.of_nat 0)%Z with 0%Z by lia. rewrite Z.div_0_l by lia. reflexivity. Qed.
(** a function that gives an array instead of a list of arrays *)
Theorem C109_array_refuted (f : nat -> list X -> fout V) ins b : (0 < b)%Z -> ins <> [] -> (forall k rows, exists v, f k rows = FArray v) -> eval_loop X V zero f ins b = Err UnboundLocalError.
Proof.
  intros HB NE HF. unfold eval_loop, make_batches. destruct (Z.eqb_spec b 0) as [Q0|_]; [lia|]. cbn [bind].
  set (n := Z.of_nat (List.length ins)). assert (N : (0 < n)%Z) by (destruct ins; [congruence|cbn; lia]).
  assert (K0 : (0 < - (- n / b))%Z) by (pose proof (Z.mul_div_le (- n) b HB); nia). rewrite arange_nat by lia.
  destruct (Z.to_nat (- (- n / b) - 0)) as [|m] eqn:E; [lia|]. cbn [seq map loop]. destruct (HF 0%nat (firstn (Z.to_nat (Z.min n ((Z.of_nat 0 + 1) * b)) - Z.to_nat (Z.of_nat 0 * b)) (skipn (Z.to_nat (Z.of_nat 0 * b)) ins))) as [v Q].
  change (Z.to_nat 0) with 0%nat in *. cbn [Z.of_nat] in *. rewrite Q. reflexivity.
Qed.
End Loop.
Print Assumptions C109_loop.
Print Assumptions C109_array_refuted.

Open Scope R_scope.
(** ** Weights *)
(** One weight per sample has no effect on a value per sample; a weight of zero gives 0/0. *)
Theorem C109_weights_refuted score w : List.length w = List.length score ->
  weighted1 score (Some w) = Ok (map (fun p => if Req_EM_T (snd p) 0 then None else Some (fst p)) (combine score w)) /\
  (Forall (fun a => a <> 0) w -> weighted1 score (Some w) = Ok (map Some score)).
Proof.
  intros L. assert (E : weighted1 score (Some w) = Ok (map (fun p => if Req_EM_T (snd p) 0 then None else Some (fst p)) (combine score w))).
  { cbn [weighted1]. f_equal. apply map_ext. intros [s a]. unfold odiv. cbn [fst snd]. destruct (Req_EM_T a 0); [reflexivity|]. f_equal. field. assumption. }
  split; [exact E|]. intros F. rewrite E. f_equal. clear E. revert score L. induction F as [|a w A F IH]; intros [|s score] L; try discriminate; [reflexivity|].
  cbn [combine map fst snd]. destruct (Req_EM_T a 0); [contradiction|]. f_equal. apply IH. cbn in L. lia.
Qed.
Theorem C109_no_weights_refuted score : weighted1 score None = Err AttributeError.
Proof. reflexivity. Qed.
(** Weights per time step: the weighted mean over the steps of every sample. *)
Theorem C109_time_weights score w : List.length w = List.length score -> (forall s a, In (s, a) (combine score w) -> List.length a = List.length s /\ Rsum a <> 0) ->
  weighted2 score w = map (fun p => Some (Rsum (map (fun q => fst q * snd q) (combine (fst p) (snd p))) / Rsum (snd p))) (combine score w).
Proof.
  intros L H. unfold weighted2. apply map_ext_in. intros [s a] I. destruct (H s a I) as [LA NZ]. cbn [fst snd].
  assert (NE : INR (List.length a) <> 0) by (destruct a; [unfold Rsum in NZ; cbn in NZ; lra|apply not_0_INR; discriminate]).
  unfold mean, odiv. destruct (Req_EM_T (INR (List.length a)) 0); [contradiction|]. cbn [obind].
  assert (MZ : Rsum a / INR (List.length a) <> 0) by (apply Rmult_integral_contrapositive; split; [exact NZ|apply Rinv_neq_0_compat; exact NE]).
  assert (OM : omap (fun q : R * R => if Req_EM_T (Rsum a / INR (List.length a)) 0 then None else Some (fst q * snd q / (Rsum a / INR (List.length a)))) (combine s a) =
     Some (map (fun q => / (Rsum a / INR (List.length a)) * (fst q * snd q)) (combine s a))).
  { destruct (Req_EM_T (Rsum a / INR (List.length a)) 0); [contradiction|]. induction (combine s a) as [|q l IH]; [reflexivity|]. cbn [omap obind map]. rewrite IH. cbn [obind]. do 2 f_equal. unfold Rdiv. ring. }
  rewrite OM. cbn [obind]. rewrite map_length, combine_length, <- LA, Nat.min_id. destruct (Req_EM_T (INR (List.length a)) 0); [contradiction|]. f_equal. rewrite Rsum_map_mul. field. split; assumption.
Qed.
Print Assumptions C109_time_weights.

(** ** Several outputs *)
(** the weight of the output k of name n, and its loss *)
Definition weight_of (lw : lweights) (k : nat) (n : string) (w : R) : Prop :=
  match lw with
  | LWNone => w = 1
  | LWDict d => In (n, w) d \/ (w = 1 /\ ~ In n (map fst d))
  | LWList l => nth_error l k = Some w
  | LWOther => False
  end.
Definition loss_of {Fn} (ls : losses Fn) (k : nat) (n : string) (f : Fn) : Prop :=
  match ls with LsDict d => In (n, f) d | LsList l => nth_error l k = Some f | LsOne g => f = g end.
(** what is accepted: dictionaries about the outputs of the model, lists with one element per output, a loss for every output *)
Definition weights_fit (names : list string) (lw : lweights) : Prop :=
  match lw with
  | LWNone => True
  | LWDict d => incl (map fst d) names /\ NoDup (map fst d)
  | LWList l => List.length l = List.length names
  | LWOther => False
  end.
Definition losses_fit {Fn} (names : list string) (ls : losses Fn) : Prop :=
  match ls with
  | LsDict d => incl (map fst d) names /\ NoDup (map fst d) /\ incl names (map fst d)
  | LsList l => List.length l = List.length names
  | LsOne _ => True
  end.
Lemma assoc_some {A} (d : list (string * A)) k v : assoc d k = Some v -> In (k, v) d.
Proof. unfold assoc. destruct (find _ d) as [[k' v']|] eqn:E; [|discriminate]. intros [= <-]. apply find_some in E. destruct E as [I E]. cbn in E. apply String.eqb_eq in E. subst. exact I. Qed.
Lemma assoc_none {A} (d : list (string * A)) k : assoc d k = None -> ~ In k (map fst d).
Proof. unfold assoc. destruct (find _ d) eqn:E; [discriminate|]. intros _ I. apply in_map_iff in I. destruct I as (p & <- & I). apply (find_none _ _ E) in I. rewrite String.eqb_refl in I. discriminate. Qed.
Lemma assoc_in {A} (d : list (string * A)) k v : NoDup (map fst d) -> In (k, v) d -> assoc d k = Some v.
Proof.
  intros ND I. destruct (assoc d k) as [v'|] eqn:E.
  - f_equal. apply assoc_some in E. clear - ND I E. induction d as [|[k0 v0] d IH]; [destruct I|]. cbn in ND. inversion ND as [|? ? N1 N2]; subst.
    destruct I as [I|I], E as [E|E]; [congruence| | |auto]; exfalso; apply N1; [injection I as -> ->|injection E as -> ->]; [apply (in_map fst) in E; exact E|apply (in_map fst) in I; exact I].
  - apply assoc_none in E. exfalso. apply E. apply (in_map fst) in I. exact I.
Qed.
Lemma unknown_iff {A} (d : list (string * A)) names : existsb (fun p => negb (inb (fst p) names)) d = false <-> incl (map fst d) names.
Proof.
  split.
  - intros H x I. apply in_map_iff in I. destruct I as (p & <- & I). destruct (inb (fst p) names) eqn:E; [apply inb_iff; exact E|].
    assert (existsb (fun p => negb (inb (fst p) names)) d = true) by (apply existsb_exists; exists p; rewrite E; auto). congruence.
  - intros H. destruct (existsb _ d) eqn:E; [|reflexivity]. apply existsb_exists in E. destruct E as (p & I & E). apply (in_map fst) in I. apply H, inb_iff in I. rewrite I in E. discriminate.
Qed.
Lemma prepare_weights_ok names lw ws : weights_fit names lw -> List.length ws = List.length names ->
  (forall k n w, nth_error names k = Some n -> nth_error ws k = Some w -> weight_of lw k n w) -> prepare_weights names lw = Ok ws.
Proof.
  intros F L H. destruct lw as [|d|l|]; cbn [weights_fit prepare_weights weight_of] in *.
  - f_equal. apply nth_error_ext. intros k. rewrite nth_error_map. destruct (nth_error names k) as [n|] eqn:E; cbn [option_map].
    + destruct (nth_error ws k) as [w|] eqn:Ew; [rewrite (H k n w E Ew); reflexivity|]. apply nth_error_None in Ew. assert (k < List.length names)%nat by (apply nth_error_Some; congruence). lia.
    + symmetry. apply nth_error_None. apply nth_error_None in E. lia.
  - destruct F as [F ND]. rewrite (proj2 (unknown_iff _ _) F). f_equal. apply nth_error_ext. intros k. rewrite nth_error_map. destruct (nth_error names k) as [n|] eqn:E; cbn [option_map].
    + destruct (nth_error ws k) as [w|] eqn:Ew.
      * f_equal. destruct (H k n w E Ew) as [I|[-> I]]; [rewrite (assoc_in d n w ND I); reflexivity|]. destruct (assoc d n) eqn:Q; [|reflexivity]. apply assoc_some, (in_map fst) in Q. contradiction.
      * apply nth_error_None in Ew. assert (k < List.length names)%nat by (apply nth_error_Some; congruence). lia.
    + symmetry. apply nth_error_None. apply nth_error_None in E. lia.
  - rewrite (proj2 (Nat.eqb_eq _ _) F). f_equal. apply nth_error_ext. intros k. destruct (nth_error ws k) as [w|] eqn:Ew.
    + destruct (nth_error names k) as [n|] eqn:E; [exact (H k n w E Ew)|]. apply nth_error_None in E. assert (k < List.length ws)%nat by (apply nth_error_Some; congruence). lia.
    + apply nth_error_None. apply nth_error_None in Ew. lia.
  - contradiction.
Qed.
Lemma prepare_losses_ok {Fn} names (ls : losses Fn) fs : losses_fit names ls -> List.length fs = List.length names ->
  (forall k n f, nth_error names k = Some n -> nth_error fs k = Some f -> loss_of ls k n f) -> prepare_losses names ls = Ok fs.
Proof.
  intros F L H. destruct ls as [d|l|g]; cbn [losses_fit prepare_losses loss_of] in *.
  - destruct F as (F & ND & _). rewrite (proj2 (unknown_iff _ _) F). apply mapM_ok_iff. clear F. revert fs L H. induction names as [|n names IH]; intros [|f fs] L H; try discriminate; constructor.
    + rewrite (assoc_in d n f ND (H 0%nat n f eq_refl eq_refl)). reflexivity.
    + apply IH; [cbn in L; lia|]. intros k. apply (H (S k)).
  - rewrite (proj2 (Nat.eqb_eq _ _) F). f_equal. apply nth_error_ext. intros k. destruct (nth_error fs k) as [w|] eqn:Ew.
    + destruct (nth_error names k) as [n|] eqn:E; [exact (H k n w E Ew)|]. apply nth_error_None in E. assert (k < List.length fs)%nat by (apply nth_error_Some; congruence). lia.
    + apply nth_error_None. apply nth_error_None in Ew. lia.
  - f_equal. apply nth_error_ext. intros k. rewrite nth_error_map. destruct (nth_error names k) as [n|] eqn:E; cbn [option_map].
    + destruct (nth_error fs k) as [w|] eqn:Ew; [rewrite (H k n w E Ew); reflexivity|]. apply nth_error_None in Ew. assert (k < List.length names)%nat by (apply nth_error_Some; congruence). lia.
    + symmetry. apply nth_error_None. apply nth_error_None in E. lia.
Qed.
Lemma total_sum {Fn} n (u : nat -> Fn -> nat -> R) : forall ws fs k a, List.length ws = List.length fs ->
  total_loss (fun k f => map (fun i => Some (u k f i)) (seq 0 n)) k ws fs (Some (map (fun i => Some (a i)) (seq 0 n))) =
  Some (map (fun i => Some (a i + Rsum (map (fun p => fst (snd p) * u (fst p) (snd (snd p)) i) (combine (seq k (List.length ws)) (combine ws fs))))) (seq 0 n)).
Proof.
  induction ws as [|w ws IH]; intros [|f fs] k a L; try discriminate.
  - cbn [total_loss List.length seq combine map]. f_equal. apply map_ext. intros i. f_equal. unfold Rsum. cbn. ring.
  - cbn [total_loss List.length seq combine map fst snd].
    assert (E : map (fun p : option R * option R => oadd (fst p) (snd p)) (combine (map (fun i => Some (a i)) (seq 0 n)) (map (oscale w) (map (fun i => Some (u k f i)) (seq 0 n)))) = map (fun i => Some (a i + w * u k f i)) (seq 0 n)).
    { rewrite map_map. generalize (seq 0 n). clear. intros l. induction l as [|i l IH]; [reflexivity|]. cbn [map combine fst snd]. f_equal. exact IH. }
    rewrite E, (IH fs (S k) (fun i => a i + w * u k f i)) by (cbn in L; lia). f_equal. apply map_ext. intros i. f_equal. unfold Rsum. cbn [fold_right]. ring.
Qed.
(** The total of a sample is the sum over the outputs of their losses, each with its weight. *)
Theorem C109_total {Fn} names lw (ls : losses Fn) ws fs n (u : nat -> Fn -> nat -> R) : names <> [] -> weights_fit names lw -> losses_fit names ls ->
  List.length ws = List.length names -> List.length fs = List.length names ->
  (forall k n w, nth_error names k = Some n -> nth_error ws k = Some w -> weight_of lw k n w) ->
  (forall k n f, nth_error names k = Some n -> nth_error fs k = Some f -> loss_of ls k n f) ->
  eval_total (fun k f => map (fun i => Some (u k f i)) (seq 0 n)) names lw ls =
  Ok (Some (map (fun i => Some (Rsum (map (fun p => fst (snd p) * u (fst p) (snd (snd p)) i) (indexed (combine ws fs))))) (seq 0 n))).
Proof.
  intros NE W L LW LF HW HL. unfold eval_total. rewrite (prepare_weights_ok names lw ws W LW HW), (prepare_losses_ok names ls fs L LF HL). cbn [bind]. f_equal.
  destruct names as [|nm names]; [congruence|]. destruct ws as [|w ws]; [discriminate|]. destruct fs as [|f fs]; [discriminate|].
  cbn [total_loss]. assert (E : map (oscale w) (map (fun i => Some (u 0%nat f i)) (seq 0 n)) = map (fun i => Some (w * u 0%nat f i)) (seq 0 n)) by (rewrite map_map; reflexivity).
  rewrite E, (total_sum n u ws fs 1 (fun i => w * u 0%nat f i)) by (cbn in LW, LF; lia). f_equal. apply map_ext. intros i. f_equal. unfold indexed. cbn [combine List.length seq map fst snd].
  assert (LC : List.length (combine ws fs) = List.length ws) by (rewrite combine_length; cbn in LW, LF; lia). rewrite LC. unfold Rsum. cbn [fold_right]. reflexivity.
Qed.
Print Assumptions C109_total.
(** everything else is rejected *)
Theorem C109_rejected {Fn} names lw (ls : losses Fn) val :
  (~ weights_fit names lw -> (match lw with LWDict d => NoDup (map fst d) | _ => True end) -> exists e, eval_total val names lw ls = Err e /\ (e = ValueError \/ e = TypeError)) /\
  (weights_fit names lw -> ~ losses_fit names ls -> (match ls with LsDict d => NoDup (map fst d) | _ => True end) -> eval_total val names lw ls = Err ValueError).
Proof.
  split.
  - intros H ND. unfold eval_total. destruct lw as [|d|l|]; cbn [prepare_weights weights_fit] in *; [tauto| | |eexists; split; [reflexivity|tauto]].
    + destruct (existsb (fun p => negb (inb (fst p) names)) d) eqn:E; [eexists; split; [reflexivity|tauto]|]. apply unknown_iff in E. tauto.
    + destruct (Nat.eqb_spec (List.length l) (List.length names)); [tauto|eexists; split; [reflexivity|tauto]].
  - intros W H ND. unfold eval_total. assert (E : exists ws, prepare_weights names lw = Ok ws).
    { destruct lw as [|d|l|]; cbn [prepare_weights weights_fit] in *; [eexists; reflexivity| | |tauto].
      - rewrite (proj2 (unknown_iff _ _) (proj1 W)). eexists. reflexivity.
      - rewrite (proj2 (Nat.eqb_eq _ _) W). eexists. reflexivity. }
    destruct E as [ws ->]. cbn [bind]. destruct ls as [d|l|g]; cbn [prepare_losses losses_fit] in *; [| |tauto].
    + destruct (existsb (fun p => negb (inb (fst p) names)) d) eqn:E; [reflexivity|]. apply unknown_iff in E.
      assert (Q : ~ incl names (map fst d)) by tauto. assert (M : mapM (fun n => match assoc d n with Some v => Ok v | None => Err ValueError end) names = Err ValueError).
      { clear - Q. induction names as [|n names IH]; [exfalso; apply Q; intros x []|]. cbn [mapM]. destruct (assoc d n) as [v|] eqn:A; [|reflexivity]. cbn [bind].
        rewrite IH; [reflexivity|]. intros I. apply Q. intros x [<-|X]; [apply assoc_some, (in_map fst) in A; exact A|apply I; exact X]. }
      rewrite M. reflexivity.
    + destruct (Nat.eqb_spec (List.length l) (List.length names)); [tauto|reflexivity].
Qed.
Print Assumptions C109_rejected.

(** ** The evidence lower bound *)
Definition avg (n : nat) (f : nat -> R) : R := Rsum (map f (seq 0 n)) / INR n.
(** a sample of the posterior with means and log variances q: C88_draw gives its density *)
Definition posterior_draw (q : list (R * R)) (e : list R) : list R := map (fun t => draw Mean1 SLogVar (fst t) (snd t)) (combine q e).
(** log density of x under independent Gaussians whose means, then log variances, are given *)
Definition log_px (x params : list R) : R := let d := List.length x in
  Rsum (map (fun q => ln (gauss (fst (snd q)) (/ exp (snd (snd q))) (fst q))) (combine x (combine (firstn d params) (skipn d params)))).
(** log probability of binary x when the parameters are the probabilities of 1 *)
Definition log_bern (x params : list R) : R := Rsum (map (fun q => fst q * ln (snd q) + (1 - fst q) * ln (1 - snd q)) (combine x params)).
(** what the program uses instead: target and prediction exchanged, the target clipped *)
Definition log_bern_swapped (x params : list R) : R := log_bern params (map (fun t => clip t keps (1 - keps)) x).
(** expected log ratio of the posterior and the standard normal prior *)
Definition divergence (q : list (R * R)) : R := Rsum (map (fun p => let v := exp (snd p) in elog (fst p) v (fst p) (/ v) - elog (fst p) v 0 1) q).
(** draws per sample and evaluation *)
Definition per_x (v : vae) : nat := if (1 <? v_samples v)%nat then v_samples v else 1.
(** the estimate for the sample x from the draws e 0, e 1, ... *)
Definition estimate (v : vae) (log_p : list R -> list R -> R) (e : nat -> list R) (x : list R) : R :=
  avg (per_x v) (fun s => log_p x (v_dec v (posterior_draw (v_enc v x) (e s)))) - Rmax (divergence (v_enc v x)) (v_min_kl v).

Lemma per_x_pos v : (0 < per_x v)%nat.
Proof. unfold per_x. destruct (Nat.ltb_spec 1 (v_samples v)); lia. Qed.
Lemma repeat_elements_1 {A} (l : list A) : repeat_elements 1 l = l.
Proof. unfold repeat_elements. induction l as [|a l IH]; [reflexivity|]. cbn [map repeat concat app]. f_equal. exact IH. Qed.
Lemma rep_if {A} v (l : list A) : (if (1 <? v_samples v)%nat then repeat_elements (v_samples v) l else l) = repeat_elements (per_x v) l.
Proof. unfold per_x. destruct (1 <? v_samples v)%nat; [reflexivity|symmetry; apply repeat_elements_1]. Qed.
Lemma combine_app {A B} (a1 a2 : list A) (b1 b2 : list B) : List.length a1 = List.length b1 -> combine (a1 ++ a2) (b1 ++ b2) = combine a1 b1 ++ combine a2 b2.
Proof. revert b1. induction a1 as [|x a1 IH]; intros [|y b1] L; try discriminate; [reflexivity|]. cbn in *. f_equal. apply IH. lia. Qed.
Lemma combine_repeat {A B} (a : A) (b : list B) n : List.length b = n -> combine (repeat a n) b = map (fun y => (a, y)) b.
Proof. intros <-. induction b as [|y b IH]; [reflexivity|]. cbn. f_equal. exact IH. Qed.
(** repeated elements next to rows of S *)
Lemma combine_rep {A B} (S0 : nat) (f : nat -> nat -> A -> B) (l : list A) a0 :
  combine (repeat_elements S0 l) (concat (map (fun p => map (fun s => f (fst p) s (snd p)) (seq 0 S0)) (combine (seq a0 (List.length l)) l))) =
  concat (map (fun p => map (fun s => (snd p, f (fst p) s (snd p))) (seq 0 S0)) (combine (seq a0 (List.length l)) l)).
Proof.
  unfold repeat_elements. revert a0. induction l as [|x l IH]; intros a0; [reflexivity|]. cbn [List.length seq combine map concat fst snd].
  rewrite combine_app by (rewrite repeat_length, map_length, seq_length; reflexivity). rewrite combine_repeat by (rewrite map_length, seq_length; reflexivity). rewrite map_map, IH. reflexivity.
Qed.
Lemma noise_rows {B A} (noise : nat -> B) S0 (l : list A) : map noise (seq 0 (List.length l * S0)) = concat (map (fun p => map (fun s => noise (fst p * S0 + s)%nat) (seq 0 S0)) (indexed l)).
Proof.
  unfold indexed. assert (G : forall a, map noise (seq (a * S0) (List.length l * S0)) = concat (map (fun p => map (fun s => noise (fst p * S0 + s)%nat) (seq 0 S0)) (combine (seq a (List.length l)) l))); [|exact (G 0%nat)].
  induction l as [|x l IH]; intros a; [reflexivity|]. cbn [List.length Nat.mul seq combine map concat fst snd]. rewrite seq_app, map_app. f_equal.
  - assert (SS : forall n b, seq b n = map (fun s => (b + s)%nat) (seq 0 n)). { clear. induction n as [|n IH]; intros b; [reflexivity|]. cbn [seq map]. rewrite Nat.add_0_r. f_equal. rewrite (IH (S b)), (IH 1%nat), map_map. apply map_ext. intros s. lia. }
    rewrite (SS S0 (a * S0)%nat), map_map. reflexivity.
  - replace (a * S0 + S0)%nat with (S a * S0)%nat by (simpl; lia). apply IH.
Qed.
Lemma concat_map_map {A B} (g : A -> B) (l : list (list A)) : map g (concat l) = concat (map (map g) l).
Proof. apply concat_map. Qed.
Lemma rows_of_concat {A} S0 (ls : list (list A)) : (0 < S0)%nat -> Forall (fun l => List.length l = S0) ls -> rows_of S0 (concat ls) = ls.
Proof.
  intros HS F. assert (L : List.length (concat ls) = (List.length ls * S0)%nat) by (induction F as [|l ls E F IH]; [reflexivity|]; cbn; rewrite app_length, IH, E; reflexivity).
  unfold rows_of. rewrite L, Nat.div_mul by lia. apply nth_error_ext. intros i. rewrite nth_error_map.
  destruct (Nat.lt_ge_cases i (List.length ls)) as [H|H].
  - assert (SE : nth_error (seq 0 (List.length ls)) i = Some i). { rewrite (nth_error_nth' _ 0%nat) by (rewrite seq_length; exact H). rewrite seq_nth by exact H. reflexivity. }
    rewrite SE. cbn [option_map]. clear SE L. revert i H. induction F as [|l ls E F IH]; intros i H; [cbn in H; lia|]. destruct i as [|i].
    + cbn [Nat.mul skipn nth_error concat]. f_equal. rewrite firstn_app, E, Nat.sub_diag, firstn_O, app_nil_r. apply firstn_all2. lia.
    + cbn [nth_error concat]. rewrite skipn_app, E. rewrite (skipn_all2 l) by (rewrite E; simpl; lia). replace (S i * S0 - S0)%nat with (i * S0)%nat by (simpl; lia). cbn [app]. apply IH. cbn in H. lia.
  - rewrite !(proj2 (nth_error_None _ _)); [reflexivity|exact H|rewrite seq_length; exact H].
Qed.
Lemma sampler_rows v (noise : nat -> list R) (x : list (list R)) :
  diag_sampler (v_samples v) (map (v_enc v) x) (map noise (seq 0 (rows_drawn v (List.length x)))) =
  concat (map (fun p => map (fun s => posterior_draw (v_enc v (snd p)) (noise (fst p * per_x v + s)%nat)) (seq 0 (per_x v))) (indexed x)).
Proof.
  unfold diag_sampler. rewrite rep_if. unfold rows_drawn. fold (per_x v). rewrite (noise_rows noise (per_x v) x).
  assert (RE : repeat_elements (per_x v) (map (v_enc v) x) = map (v_enc v) (repeat_elements (per_x v) x)).
  { unfold repeat_elements. rewrite concat_map_map, !map_map. f_equal. apply map_ext. intros a. induction (per_x v) as [|n IH]; [reflexivity|]. cbn. f_equal. exact IH. }
  rewrite RE. assert (CM : forall (a : list (list R)) (b : list (list R)), combine (map (v_enc v) a) b = map (fun p => (v_enc v (fst p), snd p)) (combine a b)) by (clear; induction a as [|y a IH]; intros [|z b]; cbn; try reflexivity; f_equal; apply IH).
  rewrite CM, map_map. unfold indexed. rewrite (combine_rep (per_x v) (fun i s _ => noise (i * per_x v + s)%nat)), concat_map_map, map_map. f_equal. apply map_ext. intros p. rewrite map_map. reflexivity.
Qed.
Lemma rep_rows {A B C} S0 (f : nat -> nat -> A -> B) (h : A -> B -> C) l :
  map (fun q => h (fst q) (snd q)) (combine (repeat_elements S0 l) (concat (map (fun p => map (fun s => f (fst p) s (snd p)) (seq 0 S0)) (indexed l)))) =
  concat (map (fun p => map (fun s => h (snd p) (f (fst p) s (snd p))) (seq 0 S0)) (indexed l)).
Proof. unfold indexed. rewrite combine_rep, concat_map, map_map. f_equal. apply map_ext. intros p. rewrite map_map. reflexivity. Qed.
Lemma mean_rows {A} v (r : nat -> nat -> A -> R) (l : list A) :
  (if (1 <? v_samples v)%nat then map rmean (rows_of (v_samples v) (concat (map (fun p => map (fun s => r (fst p) s (snd p)) (seq 0 (per_x v))) (indexed l))))
   else concat (map (fun p => map (fun s => r (fst p) s (snd p)) (seq 0 (per_x v))) (indexed l))) =
  map (fun p => avg (per_x v) (fun s => r (fst p) s (snd p))) (indexed l).
Proof.
  unfold per_x. destruct (Nat.ltb_spec 1 (v_samples v)) as [H|H].
  - rewrite rows_of_concat; [|lia|apply Forall_forall; intros y I; apply in_map_iff in I; destruct I as (p & <- & _); rewrite map_length; apply seq_length].
    rewrite map_map. apply map_ext. intros p. unfold rmean, avg. rewrite map_length, seq_length. reflexivity.
  - generalize (indexed l). intros k. induction k as [|p k IH]; [reflexivity|]. cbn [map concat app seq]. f_equal; [|exact IH]. unfold avg. cbn [seq map]. unfold Rsum. cbn. field.
Qed.
(** the losses of a batch *)
Definition objective (px : px_form) (y p : list R) : R := match px with PxBernoulli => obj_bernoulli y p | _ => let d := List.length y in obj_diag_normal y (firstn d p) (skipn d p) end.
Lemma recon_rows v (noise : nat -> list R) x : v_px v <> PxOther ->
  recon (v_px v) (v_samples v) x (map (v_dec v) (diag_sampler (v_samples v) (map (v_enc v) x) (map noise (seq 0 (rows_drawn v (List.length x)))))) =
  Ok (map (fun p => avg (per_x v) (fun s => objective (v_px v) (snd p) (v_dec v (posterior_draw (v_enc v (snd p)) (noise (fst p * per_x v + s)%nat))))) (indexed x)).
Proof.
  intros NO. rewrite sampler_rows, concat_map, map_map. unfold recon. rewrite rep_if.
  rewrite (map_ext (fun p => map (v_dec v) (map (fun s => posterior_draw (v_enc v (snd p)) (noise (fst p * per_x v + s)%nat)) (seq 0 (per_x v))))
     (fun p => map (fun s => (fun i s y => v_dec v (posterior_draw (v_enc v y) (noise (i * per_x v + s)%nat))) (fst p) s (snd p)) (seq 0 (per_x v)))) by (intros p; apply map_map).
  rewrite <- (mean_rows v (fun i s y => objective (v_px v) y (v_dec v (posterior_draw (v_enc v y) (noise (i * per_x v + s)%nat)))) x).
  rewrite <- (rep_rows (per_x v) (fun i s y => v_dec v (posterior_draw (v_enc v y) (noise (i * per_x v + s)%nat))) (objective (v_px v)) x).
  destruct (v_px v); [reflexivity|reflexivity|congruence].
Qed.
(** one sample *)
Definition sample_loss (v : vae) (e : nat -> list R) (x : list R) : R :=
  avg (per_x v) (fun s => objective (v_px v) x (v_dec v (posterior_draw (v_enc v x) (e s)))) + Rmax (obj_kl_std (v_enc v x)) (v_min_kl v).
Lemma batch_loss_rows v noise x : v_px v <> PxOther -> v_std_prior v = true ->
  batch_loss v (map noise (seq 0 (rows_drawn v (List.length x)))) x = Ok (map (fun p => Some (sample_loss v (fun s => noise (fst p * per_x v + s)%nat) (snd p))) (indexed x)).
Proof.
  intros NO PR. unfold batch_loss, vae_loss. rewrite (recon_rows v noise x NO), PR.
  assert (E : forall l : list R, (match v_px v with PxOther => Err ValueError | _ => r <- Ok l ;; Ok (map (fun p => fst p + Rmax (obj_kl_std (snd p)) (v_min_kl v)) (combine r (map (v_enc v) x))) end) =
     Ok (map (fun p => fst p + Rmax (obj_kl_std (snd p)) (v_min_kl v)) (combine l (map (v_enc v) x)))) by (intros l; destruct (v_px v); [reflexivity|reflexivity|congruence]).
  rewrite E. clear E. cbn [bind]. unfold indexed.
  assert (G : forall a, map (fun p => fst p + Rmax (obj_kl_std (snd p)) (v_min_kl v)) (combine (map (fun p => avg (per_x v) (fun s => objective (v_px v) (snd p) (v_dec v (posterior_draw (v_enc v (snd p)) (noise (fst p * per_x v + s)%nat))))) (combine (seq a (List.length x)) x)) (map (v_enc v) x)) =
     map (fun p => sample_loss v (fun s => noise (fst p * per_x v + s)%nat) (snd p)) (combine (seq a (List.length x)) x)).
  { clear. induction x as [|y x IH]; intros a; [reflexivity|]. cbn [List.length seq combine map fst snd]. rewrite IH. reflexivity. }
  rewrite G. clear G. fold (indexed x). set (l := map (fun p => sample_loss v (fun s => noise (fst p * per_x v + s)%nat) (snd p)) (indexed x)).
  assert (L : List.length (map (fun _ : list R => 1) x) = List.length l) by (unfold l; rewrite !map_length; symmetry; apply indexed_len).
  destruct (C109_weights_refuted l _ L) as [_ W]. rewrite W; [|apply Forall_forall; intros a I; apply in_map_iff in I; destruct I as (_ & <- & _); lra]. unfold l. rewrite map_map. reflexivity.
Qed.
Lemma eval_loss_rows v noise x b : v_px v <> PxOther -> v_std_prior v = true -> (0 < b)%Z -> x <> [] ->
  eval_loss v noise x b = Ok (One (map (fun p => Some (sample_loss v (fun s => noise (fst p / Z.to_nat b)%nat (fst p mod Z.to_nat b * per_x v + s)%nat) (snd p))) (indexed x))).
Proof.
  intros NO PR HB NE. unfold eval_loss.
  rewrite (C109_loop (Some 0) [fun k r y => Some (sample_loss v (fun s => noise k (r * per_x v + s)%nat) y)]); [reflexivity|exact HB|exact NE|].
  intros k rows _. unfold per_row. cbn [map]. rewrite (batch_loss_rows v (noise k) rows NO PR). reflexivity.
Qed.
Lemma more_rows v (noise : nat -> nat -> nat -> list R) x b (SL : nat -> nat * list R -> R) : (forall k, eval_loss v (noise k) x b = Ok (One (map (fun p => Some (SL k p)) (indexed x)))) ->
  forall todo k (a : nat * list R -> R), more v noise x b k todo (map (fun p => Some (a p)) (indexed x)) = Ok (map (fun p => Some (a p - Rsum (map (fun k => SL k p) (seq k todo)))) (indexed x)).
Proof.
  intros H. induction todo as [|todo IH]; intros k a; cbn [more].
  - f_equal. apply map_ext. intros p. f_equal. unfold Rsum. cbn. ring.
  - rewrite H. cbn [bind as_array]. assert (E : map (fun p : option R * option R => osub (fst p) (snd p)) (combine (map (fun p => Some (a p)) (indexed x)) (map (fun p => Some (SL k p)) (indexed x))) = map (fun p => Some (a p - SL k p)) (indexed x)).
    { generalize (indexed x). clear. intros l. induction l as [|p l IH]; [reflexivity|]. cbn. f_equal. exact IH. }
    rewrite E, (IH (S k) (fun p => a p - SL k p)). f_equal. apply map_ext. intros p. f_equal. cbn [seq map]. unfold Rsum. cbn [fold_right]. ring.
Qed.
(** ** The losses as probabilities *)
Lemma Rsum_cons a l : Rsum (a :: l) = a + Rsum l.
Proof. reflexivity. Qed.
Lemma obj_gauss y p : objective PxDiag y p = - log_px y p.
Proof.
  unfold objective, log_px, obj_diag_normal. cbv zeta. generalize (combine y (combine (firstn (List.length y) p) (skipn (List.length y) p))). intros l.
  induction l as [|q l IH]; [unfold Rsum; cbn; lra|]. cbn [map]. rewrite !Rsum_cons. rewrite Ropp_plus_distr, <- IH. pose proof (exp_pos (snd (snd q))) as X. rewrite ln_gauss by (apply Rinv_0_lt_compat, X). rewrite ln_Rinv, ln_exp by exact X. unfold log2pi, Rdiv. lra.
Qed.
Lemma obj_bern y p : objective PxBernoulli y p = - log_bern_swapped y p.
Proof.
  unfold objective, log_bern_swapped, log_bern, obj_bernoulli. revert p. induction y as [|a y IH]; intros [|b p]; try (unfold Rsum; cbn; lra).
  cbn [map combine fst snd]. rewrite !Rsum_cons, Ropp_plus_distr, <- IH. unfold binary_crossentropy. cbv zeta. cbn [fst snd]. ring.
Qed.
Lemma obj_divergence q : obj_kl_std q = divergence q.
Proof.
  unfold obj_kl_std, divergence. cbv zeta. induction q as [|p q IH]; [unfold Rsum; cbn; lra|]. cbn [map]. rewrite !Rsum_cons, Rmult_plus_distr_l, IH. f_equal. clear IH.
  pose proof (exp_pos (snd p)) as X. unfold elog. rewrite !ln_gauss by (try (apply Rinv_0_lt_compat, X); lra). rewrite ln_Rinv, ln_exp, ln_1 by exact X.
  replace (/ exp (snd p) * exp (snd p)) with 1 by (field; lra). unfold Rsqr. replace (1 / 2 * / exp (snd p) * exp (snd p)) with (1/2) by (field; lra). lra.
Qed.
Theorem C109_divergence q : 0 <= divergence q /\ (divergence q = 0 <-> Forall (fun p => fst p = 0 /\ snd p = 0) q).
Proof.
  assert (T : forall p : R * R, (let v := exp (snd p) in elog (fst p) v (fst p) (/ v) - elog (fst p) v 0 1) = 1/2 * ((fst p)² + (exp (snd p) - 1 - snd p))).
  { intros p. assert (E := obj_divergence [p]). unfold obj_kl_std, divergence in E. cbn [map] in E. rewrite !Rsum_cons in E. unfold Rsum in E. cbn [fold_right] in E. lra. }
  assert (P : forall p : R * R, 0 <= exp (snd p) - 1 - snd p) by (intros p; pose proof (exp_ineq1_le (snd p)); lra).
  unfold divergence. split.
  - apply Rsum_nonneg. intros y I. apply in_map_iff in I. destruct I as (p & <- & _). rewrite T. pose proof (P p). pose proof (Rle_0_sqr (fst p)). lra.
  - induction q as [|p q IH]; [split; [constructor|reflexivity]|]. cbn [map]. rewrite Rsum_cons, T.
    assert (N : 0 <= Rsum (map (fun p => let v := exp (snd p) in elog (fst p) v (fst p) (/ v) - elog (fst p) v 0 1) q)).
    { apply Rsum_nonneg. intros y I. apply in_map_iff in I. destruct I as (p' & <- & _). rewrite T. pose proof (P p'). pose proof (Rle_0_sqr (fst p')). lra. }
    pose proof (P p) as P0. pose proof (Rle_0_sqr (fst p)) as P1. split.
    + intros H. constructor; [|apply IH; lra]. split.
      * apply Rsqr_0_uniq. lra.
      * destruct (Req_dec (snd p) 0) as [Z|Z]; [exact Z|]. pose proof (exp_ineq1 (snd p) Z). lra.
    + intros H. inversion H as [|? ? [A1 A2] F]; subst. rewrite (proj2 IH F), A1, A2, exp_0. unfold Rsqr. lra.
Qed.
Definition log_p (px : px_form) : list R -> list R -> R := match px with PxBernoulli => log_bern_swapped | _ => log_px end.
Lemma avg_ext n f g : (forall k, (k < n)%nat -> f k = g k) -> avg n f = avg n g.
Proof. intros H. unfold avg. f_equal. apply Rsum_ext. intros k I. apply in_seq in I. apply H. lia. Qed.
Lemma avg_opp n f : avg n (fun k => - f k) = - avg n f.
Proof. unfold avg. assert (E : Rsum (map (fun k => - f k) (seq 0 n)) = - Rsum (map f (seq 0 n))) by (generalize (seq 0 n); intros l; induction l as [|k l IH]; [unfold Rsum; cbn; ring|]; cbn [map]; rewrite !Rsum_cons, IH; ring). rewrite E. unfold Rdiv. ring. Qed.
Lemma sample_estimate v e x : v_px v <> PxOther -> - sample_loss v e x = estimate v (log_p (v_px v)) e x.
Proof.
  intros NO. unfold sample_loss, estimate, Rminus. rewrite obj_divergence, Ropp_plus_distr. f_equal. rewrite <- avg_opp. apply avg_ext. intros k _. unfold log_p.
  destruct (v_px v); [rewrite obj_bern; ring|rewrite obj_gauss; ring|congruence].
Qed.
Lemma elbo_general v noise x N bs : v_px v <> PxOther -> v_std_prior v = true -> (1 <= N)%nat -> x <> [] -> (match bs with Some b => (0 < b)%Z | None => True end) ->
  let B := match bs with Some b => Z.to_nat b | None => List.length x end in
  elbo v noise x N bs = Ok (map (fun p => Some (avg N (fun k => estimate v (log_p (v_px v)) (fun s => noise k (fst p / B)%nat (fst p mod B * per_x v + s)%nat) (snd p)))) (indexed x)).
Proof.
  intros NO PR HN NE HB B. unfold elbo. assert (CL : check_loss v = Ok tt) by (unfold check_loss; rewrite PR; destruct (v_px v); [reflexivity|reflexivity|congruence]). rewrite CL. cbn [bind].
  set (b := match bs with Some b => b | None => Z.of_nat (List.length x) end). assert (B0 : (0 < b)%Z) by (unfold b; destruct bs; [exact HB|destruct x; [congruence|cbn; lia]]).
  assert (BB : Z.to_nat b = B) by (unfold b, B; destruct bs; [reflexivity|apply Nat2Z.id]).
  set (SL := fun k (p : nat * list R) => sample_loss v (fun s => noise k (fst p / B)%nat (fst p mod B * per_x v + s)%nat) (snd p)).
  assert (E : forall k, eval_loss v (noise k) x b = Ok (One (map (fun p => Some (SL k p)) (indexed x)))) by (intros k; unfold SL; rewrite <- BB; apply eval_loss_rows; assumption).
  rewrite E. cbn [bind as_array]. assert (E1 : map oneg (map (fun p => Some (SL 0%nat p)) (indexed x)) = map (fun p => Some (- SL 0%nat p)) (indexed x)) by (rewrite map_map; reflexivity).
  rewrite E1, (more_rows v noise x b SL E (N - 1) 1 (fun p => - SL 0%nat p)). cbn [bind]. rewrite map_map. f_equal. apply map_ext. intros p. cbn [obind]. unfold odiv.
  assert (NZ : INR N <> 0) by (apply not_0_INR; lia). destruct (Req_EM_T (INR N) 0); [contradiction|]. f_equal.
  unfold avg at 1. unfold Rdiv. f_equal. rewrite (map_ext (fun k => estimate v (log_p (v_px v)) (fun s => noise k (fst p / B)%nat (fst p mod B * per_x v + s)%nat) (snd p)) (fun k => - SL k p)) by (intros k; symmetry; apply sample_estimate; exact NO).
  destruct N as [|N]; [lia|]. replace (S N - 1)%nat with N by lia. cbn [seq map]. rewrite Rsum_cons. unfold Rminus. f_equal.
  generalize (seq 1 N). intros l. induction l as [|k l IH]; [unfold Rsum; cbn; ring|]. cbn [map]. rewrite !Rsum_cons, <- IH. ring.
Qed.
(** The value of every sample is the mean over the evaluations of the Monte-Carlo estimate of the bound for that sample, with a floor for the divergence: it uses the
    draws of the sample's own rows only. *)
Theorem C109_elbo v noise x N bs : v_px v = PxDiag -> v_std_prior v = true -> (1 <= N)%nat -> x <> [] -> (match bs with Some b => (0 < b)%Z | None => True end) ->
  let B := match bs with Some b => Z.to_nat b | None => List.length x end in
  exists out, elbo v noise x N bs = Ok (map Some out) /\ List.length out = List.length x /\
  forall i xi, nth_error x i = Some xi -> nth_error out i = Some (avg N (fun k => estimate v log_px (fun s => noise k (i / B)%nat (i mod B * per_x v + s)%nat) xi)).
Proof.
  intros PX PR HN NE HB B. rewrite (elbo_general v noise x N bs) by (rewrite ?PX; try discriminate; assumption). rewrite PX. cbn [log_p]. fold B. rewrite <- (map_map (fun p => avg N (fun k => estimate v log_px (fun s => noise k (fst p / B)%nat (fst p mod B * per_x v + s)%nat) (snd p))) Some).
  eexists. split; [reflexivity|]. split; [rewrite map_length; apply indexed_len|]. intros i xi H. rewrite nth_error_map, nth_indexed, H. reflexivity.
Qed.
(** The batch size does not matter: only the draws do. *)
Theorem C109_batch_size v noise noise' x N bs bs' : v_px v <> PxOther -> v_std_prior v = true -> (1 <= N)%nat -> x <> [] ->
  (match bs with Some b => (0 < b)%Z | None => True end) -> (match bs' with Some b => (0 < b)%Z | None => True end) ->
  let B := match bs with Some b => Z.to_nat b | None => List.length x end in let B' := match bs' with Some b => Z.to_nat b | None => List.length x end in
  (forall k i s, (k < N)%nat -> (i < List.length x)%nat -> (s < per_x v)%nat -> noise k (i / B)%nat (i mod B * per_x v + s)%nat = noise' k (i / B')%nat (i mod B' * per_x v + s)%nat) ->
  elbo v noise x N bs = elbo v noise' x N bs'.
Proof.
  intros NO PR HN NE HB HB' B B' H. rewrite (elbo_general v noise x N bs NO PR HN NE HB), (elbo_general v noise' x N bs' NO PR HN NE HB'). fold B B'. f_equal. apply map_ext_in. intros [i y] I. f_equal. apply avg_ext. intros k K. cbn [fst snd].
  unfold indexed in I. apply in_combine_l in I. apply in_seq in I. unfold estimate. f_equal. apply avg_ext. intros s HS. do 3 f_equal. apply H; lia.
Qed.
(** the value that training maximises is at most the mean log density less min_kl *)
Theorem C109_floor v lp e x : estimate v lp e x <= avg (per_x v) (fun s => lp x (v_dec v (posterior_draw (v_enc v x) (e s)))) - Rmax 0 (v_min_kl v).
Proof.
  unfold estimate. assert (Rmax 0 (v_min_kl v) <= Rmax (divergence (v_enc v x)) (v_min_kl v)); [|lra]. pose proof (proj1 (C109_divergence (v_enc v x))) as D.
  apply Rmax_lub; [|apply Rmax_r]. eapply Rle_trans; [exact D|apply Rmax_l].
Qed.
(** Binary data: the same, but target and prediction are exchanged, and so it is not the log probability. *)
Theorem C109_elbo_bernoulli v noise x N bs : v_px v = PxBernoulli -> v_std_prior v = true -> (1 <= N)%nat -> x <> [] -> (match bs with Some b => (0 < b)%Z | None => True end) ->
  let B := match bs with Some b => Z.to_nat b | None => List.length x end in
  exists out, elbo v noise x N bs = Ok (map Some out) /\ List.length out = List.length x /\
  forall i xi, nth_error x i = Some xi -> nth_error out i = Some (avg N (fun k => estimate v log_bern_swapped (fun s => noise k (i / B)%nat (i mod B * per_x v + s)%nat) xi)).
Proof.
  intros PX PR HN NE HB B. rewrite (elbo_general v noise x N bs) by (rewrite ?PX; try discriminate; assumption). rewrite PX. cbn [log_p]. fold B. rewrite <- (map_map (fun p => avg N (fun k => estimate v log_bern_swapped (fun s => noise k (fst p / B)%nat (fst p mod B * per_x v + s)%nat) (snd p))) Some).
  eexists. split; [reflexivity|]. split; [rewrite map_length; apply indexed_len|]. intros i xi H. rewrite nth_error_map, nth_indexed, H. reflexivity.
Qed.
Theorem C109_bernoulli_refuted : exists v noise x out, v_px v = PxBernoulli /\ v_std_prior v = true /\ elbo v noise [x] 1 None = Ok [Some out] /\
  out <> estimate v log_bern (fun s => noise 0%nat 0%nat s) x.
Proof.
  exists (mk_vae PxBernoulli true 0 1 (fun _ => []) (fun _ => [1/2])), (fun _ _ _ => []), [1].
  eexists. split; [reflexivity|]. split; [reflexivity|]. split; [rewrite elbo_general by (first [discriminate|reflexivity|lia|exact I]); reflexivity|].
  cbn [fst snd log_p v_px]. unfold avg at 1. cbn [seq map]. rewrite Rsum_cons. unfold estimate, per_x. cbn [v_samples v_dec v_enc v_min_kl Nat.ltb Nat.leb]. unfold avg. cbn [seq map]. rewrite !Rsum_cons.
  unfold log_bern_swapped, log_bern. cbn [map combine]. rewrite !Rsum_cons. unfold Rsum. cbn [fold_right fst snd INR]. intros H.
  pose proof keps_range as K. assert (C1 : clip 1 keps (1 - keps) = 1 - keps) by (unfold clip, Rmin, Rmax; destruct (Rle_dec 1 keps), (Rle_dec _ _); lra). rewrite C1 in H.
  assert (H2 : ln ((1 - keps) * keps) = ln ((1/2) * (1/2))). { rewrite !ln_mult by lra. replace (1 - (1 - keps)) with keps in H by ring. lra. }
  apply ln_inv in H2; [|nra|lra]. assert (keps < / 100); [|nra]. unfold keps. apply Rinv_lt_contravar; simpl; lra.
Qed.
(** ** What fails *)
Theorem C109_errors v noise x N bs :
  (v_px v = PxOther -> elbo v noise x N bs = Err ValueError) /\ (v_px v <> PxOther -> v_std_prior v = false -> elbo v noise x N bs = Err TypeError) /\
  (v_px v <> PxOther -> v_std_prior v = true -> elbo v noise [] N None = Err ZeroDivisionError /\ elbo v noise x N (Some 0%Z) = Err ZeroDivisionError /\ (forall b, (0 < b)%Z -> elbo v noise [] N (Some b) = Err TypeError)).
Proof.
  split; [|split].
  - intros H. unfold elbo, check_loss. rewrite H. reflexivity.
  - intros H P. unfold elbo, check_loss. rewrite P. destruct (v_px v); [reflexivity|reflexivity|congruence].
  - intros H P. unfold elbo. assert (CL : check_loss v = Ok tt) by (unfold check_loss; rewrite P; destruct (v_px v); [reflexivity|reflexivity|congruence]). rewrite CL. cbn [bind].
    split; [reflexivity|]. split; [reflexivity|]. intros b B. unfold eval_loss. rewrite C109_loop_empty by exact B. reflexivity.
Qed.
(** A model that could be built with a Gaussian decoder cannot give the mean: its decoder returns a list. *)
Theorem C109_decode_refuted x_dim dec z : (forall o, o = dec z -> build PxDiag o = Ok tt) -> decode_mean PxDiag x_dim dec z = Err TypeError.
Proof. intros H. specialize (H _ eq_refl). unfold decode_mean. unfold build in H. destruct (dec z); [discriminate|reflexivity]. Qed.
(** Samples of a Gaussian decoder are drawn with its means and variances, row by row. *)
Theorem C109_decode dec z m lv rnd i a l e : dec z = NList [m; lv] -> nth_error m i = Some a -> nth_error lv i = Some l -> nth_error rnd i = Some e ->
  exists y, decode_sample PxDiag dec rnd z = Ok y /\ nth_error y i = Some (posterior_draw (combine a l) e).
Proof.
  intros D A L E. unfold decode_sample. rewrite D. eexists. split; [reflexivity|]. unfold diag_sampler. cbn [Nat.ltb Nat.leb]. rewrite nth_error_map, (nth_combine _ _ i (combine a l) e); [reflexivity| |exact E].
  rewrite nth_error_map, (nth_combine _ _ i a l A L). reflexivity.
Qed.
(** A model that was saved cannot be loaded. *)
Theorem C109_load_refuted files path : exists e, load_vae files path = Err e /\ (incl (vae_files path) files -> e = NameError).
Proof.
  unfold load_vae. destruct (forallb _ _) eqn:F; [eexists; split; [reflexivity|auto]|]. eexists. split; [reflexivity|]. intros H. exfalso.
  assert (forallb (fun p => inb p files) (vae_files path) = true) by (apply forallb_forall; intros p I; apply inb_iff, H, I). congruence.
Qed.
Print Assumptions C109_elbo.
Print Assumptions C109_batch_size.
Print Assumptions C109_bernoulli_refuted.

(** ** Witness: two evaluations in batches of two of three samples, with two draws each *)
Example C109_witness : exists v noise x, v_px v = PxDiag /\ v_std_prior v = true /\ List.length x = 3%nat /\
  (exists out, elbo v noise x 2 (Some 2%Z) = Ok (map Some out) /\ nth_error out 2 = Some (avg 2 (fun k => estimate v log_px (fun s => noise k 1%nat s) [3]))) /\
  (exists y, weighted2 [[1; 2]] [[1; 3]] = [Some y] /\ y = 7 / 4) /\
  eval_total (fun k (f : R) => map (fun i => Some (f * INR i)) (seq 0 2)) ["a"; "b"]%string (LWDict [("b"%string, 3)]) (LsDict [("b"%string, 5); ("a"%string, 7)]) =
    Ok (Some (map (fun i => Some (Rsum (map (fun p => fst (snd p) * (snd (snd p) * INR i)) (indexed (combine [1; 3] [7; 5]))))) (seq 0 2))).
Proof.
  exists (mk_vae PxDiag true 0 2 (fun x => [(1, 0)]) (fun z => z ++ [0])), (fun _ _ _ => [1]), [[1]; [2]; [3]].
  split; [reflexivity|]. split; [reflexivity|]. split; [reflexivity|]. split; [|split].
  - destruct (C109_elbo (mk_vae PxDiag true 0 2 (fun x => [(1, 0)]) (fun z => z ++ [0])) (fun _ _ _ => [1]) [[1]; [2]; [3]] 2 (Some 2%Z)) as (out & E & _ & H); [reflexivity|reflexivity|lia|discriminate|lia|].
    exists out. split; [exact E|]. exact (H 2%nat [3] eq_refl).
  - eexists. split; [rewrite C109_time_weights; [reflexivity|reflexivity|]; intros s a [[= <- <-]|[]]; split; [reflexivity|unfold Rsum; cbn; lra]|]. unfold Rsum. cbn. field.
  - apply (C109_total ["a"; "b"]%string (LWDict [("b"%string, 3)]) (LsDict [("b"%string, 5); ("a"%string, 7)]) [1; 3] [7; 5] 2 (fun k f i => f * INR i)); try reflexivity; try discriminate.
    + split; [intros y [<-|[]]; right; left; reflexivity|]. repeat constructor; cbn; tauto.
    + split; [intros y [<-|[<-|[]]]; cbn; tauto|]. split; [|intros y [<-|[<-|[]]]; cbn; tauto]. constructor; [cbn; intros [H|[]]; discriminate|]. repeat constructor; cbn; tauto.
    + intros [|[|k]] n w H1 H2; [injection H1 as <-; injection H2 as <-; right; split; [reflexivity|]; cbn; intros [H|[]]; discriminate|injection H1 as <-; injection H2 as <-; left; left; reflexivity|destruct k; discriminate].
    + intros [|[|k]] n w H1 H2; [injection H1 as <-; injection H2 as <-; right; left; reflexivity|injection H1 as <-; injection H2 as <-; left; reflexivity|destruct k; discriminate].
Qed.
