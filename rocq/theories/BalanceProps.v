(** Class balancing of the batch generator (class_weight = 'balanced'). *)
From Coq Require Import Lia Permutation.
From Verif Require Import BaseFacts Mat MatProofs Utt2Info SeqGen SeqGenProofs.
Open Scope list_scope.
Open Scope Z_scope.

(** ** Specification *)
(** number of recordings of a class *)
Definition in_class (cl : string) (rows : list u2row) : nat := List.length (filter (fun r => String.eqb (snd r) cl) rows).
(** [m] is the size of the largest class *)
Definition largest (rows : list u2row) (m : nat) : Prop := (exists cl, In cl (map snd rows) /\ in_class cl rows = m) /\ forall cl, (in_class cl rows <= m)%nat.

Notation cnt := (count_occ Nat.eq_dec).
Lemma cnt_firstn_nodup l m x : NoDup l -> (cnt (firstn m l) x <= 1)%nat.
Proof.
  intros N. apply (NoDup_count_occ Nat.eq_dec). revert l N. induction m; intros [|y l] N; cbn; try constructor; inversion N; subst; auto. intros X. apply H1. revert X. clear. revert l. induction m; intros [|z l] X; cbn in X; try tauto. destruct X as [->|X]; [left; reflexivity|right; apply IHm; exact X].
Qed.
Lemma tile_length {A} (l : list A) q : List.length (tile q l) = (q * List.length l)%nat.
Proof. induction q; cbn; [reflexivity|]. rewrite app_length, IHq. reflexivity. Qed.
Lemma tile_in {A} (l : list A) q x : In x (tile q l) -> In x l.
Proof. induction q; cbn; [tauto|]. intros I. apply in_app_or in I. destruct I; auto. Qed.
Lemma firstn_in {A} m : forall (l : list A) x, In x (firstn m l) -> In x l.
Proof. induction m; intros [|y l] x I; cbn in I; try tauto. destruct I as [->|I]; [left; reflexivity|right; apply IHm; exact I]. Qed.
Lemma cnt_one l x : NoDup l -> In x l -> cnt l x = 1%nat.
Proof. intros N I. apply (proj1 (NoDup_count_occ' Nat.eq_dec l) N x I). Qed.
Lemma cnt_tile l x q : NoDup l -> In x l -> forall m, (m <= q * List.length l)%nat -> (m / List.length l <= cnt (firstn m (tile q l)) x <= m / List.length l + 1)%nat.
Proof.
  intros N I. assert (L0 : (0 < List.length l)%nat) by (destruct l; [destruct I|cbn; lia]). induction q as [|q IH]; intros m M.
  - assert (m = O) by lia. subst m. cbn [firstn count_occ]. rewrite Nat.div_0_l by lia. lia.
  - cbn [tile]. rewrite firstn_app, count_occ_app. destruct (Nat.lt_ge_cases m (List.length l)) as [LT|GE].
    + rewrite (Nat.div_small m) by exact LT. replace (m - List.length l)%nat with O by lia. cbn [firstn count_occ]. pose proof (cnt_firstn_nodup l m x N). lia.
    + rewrite firstn_all2 by exact GE. rewrite (cnt_one l x N I). specialize (IH (m - List.length l)%nat ltac:(lia)). assert (m / List.length l = (m - List.length l) / List.length l + 1)%nat as ->; [|lia]. replace m with ((m - List.length l) + 1 * List.length l)%nat at 1 by lia. rewrite Nat.div_add by lia. reflexivity.
Qed.

(** one class *)
Definition block (m : nat) (l : list nat) : list nat := if (List.length l <? m)%nat then firstn m (tile (Z.to_nat (ceil_div (Z.of_nat m) (Z.of_nat (List.length l)))) l) else l.
Lemma block_room m n : (0 < n)%nat -> (m <= Z.to_nat (ceil_div (Z.of_nat m) (Z.of_nat n)) * n)%nat.
Proof. intros N. unfold ceil_div. pose proof (Z.mul_div_le (- Z.of_nat m) (Z.of_nat n) ltac:(lia)). assert (- Z.of_nat m / Z.of_nat n <= 0) by (apply Z.div_le_upper_bound; lia). nia. Qed.
Lemma block_length m l : l <> [] -> List.length (block m l) = Nat.max (List.length l) m.
Proof. intros NE. unfold block. destruct (Nat.ltb_spec (List.length l) m) as [L|L]; [|lia]. rewrite firstn_length, tile_length. pose proof (block_room m (List.length l)) as B. destruct l; [contradiction|]. cbn [List.length] in *. lia. Qed.
Lemma block_in m l x : In x (block m l) -> In x l.
Proof. unfold block. destruct (_ <? _)%nat; [|auto]. intros I. apply firstn_in in I. apply tile_in in I. exact I. Qed.
Lemma block_count m l x : NoDup l -> In x l -> let n := List.length l in (if (n <? m)%nat then m / n <= cnt (block m l) x <= m / n + 1 else cnt (block m l) x = 1)%nat.
Proof.
  intros N I n. unfold n, block. destruct (_ <? _)%nat; [|apply cnt_one; assumption]. apply cnt_tile; [exact N|exact I|]. apply block_room. destruct l; [destruct I|cbn; lia].
Qed.

Lemma nonzero_in_iff f : forall p, In p (nonzero f) <-> nth_error f p = Some true.
Proof.
  unfold nonzero. assert (G : forall f s p, In p (nonzero_from s f) <-> (s <= p)%nat /\ nth_error f (p - s) = Some true).
  { clear f. induction f as [|b f IH]; intros s p; cbn.
    - split; [tauto|]. intros (_ & X). destruct (p - s)%nat; discriminate.
    - destruct b; cbn; rewrite IH; split.
      + intros [<-|(L & E)]; [rewrite Nat.sub_diag; split; [lia|reflexivity]|]. split; [lia|]. replace (p - s)%nat with (S (p - S s)) by lia. exact E.
      + intros (L & E). destruct (Nat.eq_dec s p) as [->|NE]; [left; reflexivity|right]. split; [lia|]. replace (p - s)%nat with (S (p - S s)) in E by lia. exact E.
      + intros (L & E). split; [lia|]. replace (p - s)%nat with (S (p - S s)) by lia. exact E.
      + intros (L & E). destruct (Nat.eq_dec s p) as [->|NE]; [rewrite Nat.sub_diag in E; discriminate|]. split; [lia|]. replace (p - s)%nat with (S (p - S s)) in E by lia. exact E. }
  intros p. rewrite G, Nat.sub_0_r. split; [intros (_ & X); exact X|intros X; split; [lia|exact X]].
Qed.
Lemma nonzero_nodup f : NoDup (nonzero f).
Proof.
  unfold nonzero. assert (G : forall f s, NoDup (nonzero_from s f) /\ forall p, In p (nonzero_from s f) -> (s <= p)%nat).
  { clear f. induction f as [|b f IH]; intros s; cbn; [split; [constructor|tauto]|]. destruct (IH (S s)) as (N & B). destruct b; split.
    - constructor; [|exact N]. intros X. apply B in X. lia.
    - intros p [<-|X]; [lia|apply B in X; lia].
    - exact N.
    - intros p X. apply B in X. lia. }
  apply G.
Qed.
Lemma nonzero_length f : List.length (nonzero f) = List.length (filter (fun b : bool => b) f).
Proof. unfold nonzero. generalize 0%nat. induction f as [|b f IH]; intros s; cbn; [reflexivity|]. destruct b; cbn; rewrite IH; reflexivity. Qed.
Definition members (ids : list nat) (i : nat) : list nat := nonzero (map (Nat.eqb i) ids).
Lemma members_iff ids i p : In p (members ids i) <-> nth_error ids p = Some i.
Proof. unfold members. rewrite nonzero_in_iff, nth_error_map. destruct (nth_error ids p) as [d|]; cbn; split; intros X; try discriminate; injection X as X; [apply Nat.eqb_eq in X; congruence|subst; rewrite Nat.eqb_refl; reflexivity]. Qed.
Lemma members_length ids i : List.length (members ids i) = List.length (filter (Nat.eqb i) ids).
Proof. unfold members. rewrite nonzero_length. induction ids as [|d ids IH]; cbn; [reflexivity|]. destruct (i =? d)%nat; cbn; rewrite IH; reflexivity. Qed.

Lemma cnt_concat x : forall ls, cnt (concat ls) x = list_sum (map (fun l => cnt l x) ls).
Proof. induction ls as [|l ls IH]; cbn; [reflexivity|]. rewrite count_occ_app, IH. reflexivity. Qed.
Lemma sum_single (f : nat -> nat) N i : (i < N)%nat -> (forall j, j <> i -> f j = O) -> list_sum (map f (seq 0 N)) = f i.
Proof.
  intros L Z. assert (G : forall n s, list_sum (map f (seq s n)) = if (s <=? i)%nat && (i <? s + n)%nat then f i else O).
  { induction n as [|n IH]; intros s; cbn [seq map list_sum fold_right]; [destruct (Nat.leb_spec s i), (Nat.ltb_spec i (s + 0)); cbn; lia|]. fold (list_sum (map f (seq (S s) n))). rewrite IH. destruct (Nat.eq_dec s i) as [->|NE].
    - rewrite Nat.leb_refl. destruct (Nat.leb_spec (S i) i); [lia|]. destruct (Nat.ltb_spec i (i + S n)); cbn; lia.
    - rewrite (Z s NE). destruct (Nat.leb_spec s i), (Nat.leb_spec (S s) i), (Nat.ltb_spec i (S s + n)), (Nat.ltb_spec i (s + S n)); cbn; lia. }
  rewrite G. cbn [Nat.leb andb]. rewrite (proj2 (Nat.ltb_lt i (0 + N))) by lia. reflexivity.
Qed.
Lemma list_sum_ge (l : list nat) m : Forall (fun x => (m <= x)%nat) l -> (List.length l * m <= list_sum l)%nat.
Proof. intros F. induction F; cbn; [lia|]. fold (list_sum l). lia. Qed.
Lemma concat_len {A} (ls : list (list A)) : List.length (concat ls) = list_sum (map (@List.length A) ls).
Proof. induction ls as [|l ls IH]; cbn; [reflexivity|]. rewrite app_length, IH. reflexivity. Qed.

Definition top (ids : list nat) : nat := list_max (map (fun i => List.length (filter (Nat.eqb i) ids)) (seq 0 (S (list_max ids)))).
Lemma balance_idx_ok ids imb : 1 <= imb -> ids <> [] -> (forall i, (i < S (list_max ids))%nat -> In i ids) ->
  exists m, m = Z.to_nat (ceil_div (Z.of_nat (top ids)) imb) /\ (1 <= m)%nat /\ balance_idx ids imb = Ok (concat (map (fun i => block m (members ids i)) (seq 0 (S (list_max ids))))).
Proof.
  intros IB NE ON. eexists. split; [reflexivity|]. set (m := Z.to_nat _).
  assert (MEM : forall i, (i < S (list_max ids))%nat -> members ids i <> []). { intros i L. pose proof (ON i L) as I. apply In_nth_error in I. destruct I as (p & E). apply members_iff in E. destruct (members ids i); [destruct E|discriminate]. }
  assert (T1 : (1 <= top ids)%nat). { unfold top. assert (I : In (List.length (filter (Nat.eqb 0) ids)) (map (fun i => List.length (filter (Nat.eqb i) ids)) (seq 0 (S (list_max ids))))) by (apply in_map_iff; exists O; split; [reflexivity|apply in_seq; lia]). match goal with |- (_ <= list_max ?l)%nat => pose proof (proj1 (list_max_le l _) (Nat.le_refl _)) as F end. rewrite Forall_forall in F. specialize (F _ I). cbv beta in F. rewrite <- members_length in F. specialize (MEM O ltac:(lia)). destruct (members ids 0); [contradiction|]. cbn [List.length] in F. lia. }
  split. { unfold m, ceil_div. assert (- Z.of_nat (top ids) / imb < 0) by (apply Z.div_lt_upper_bound; lia). lia. }
  unfold balance_idx. destruct ids as [|d ids]; [contradiction|]. set (full := d :: ids) in *. change (match full with [] => O | _ => S (list_max full) end) with (S (list_max full)). set (N := S (list_max full)) in *. set (counts := map _ (seq 0 N)). destruct counts as [|c0 counts'] eqn:EC; [unfold counts, N in EC; discriminate|]. rewrite <- EC. change (list_max counts) with (top full). fold m.
  change (concat (map _ (seq 0 N))) with (concat (map (fun i => block m (members full i)) (seq 0 N))). assert (LC : List.length counts = N) by (unfold counts; rewrite map_length, seq_length; reflexivity). rewrite LC.
  assert (A : (N * m <=? List.length (concat (map (fun i => block m (members full i)) (seq 0 N))))%nat = true). { apply Nat.leb_le. rewrite concat_len, map_map. pose proof (list_sum_ge (map (fun i => List.length (block m (members full i))) (seq 0 N)) m) as G. rewrite map_length, seq_length in G. apply G. apply Forall_forall. intros x I. apply in_map_iff in I. destruct I as (i & <- & I). apply in_seq in I. rewrite block_length by (apply MEM; lia). lia. }
  rewrite A. reflexivity.
Qed.

(** what the classes are *)
Lemma inv_eq (key : list string) p q a b : nth_error key p = Some a -> nth_error key q = Some b -> (nth_error (inverse key) p = nth_error (inverse key) q <-> a = b).
Proof.
  intros Ea Eb. destruct (inverse_nth key p a Ea) as (d & D1 & D2). destruct (inverse_nth key q b Eb) as (e & E1 & E2). rewrite D1, E1. split; intros X.
  - injection X as ->. congruence.
  - subst b. f_equal. apply (proj1 (NoDup_nth_error (unique key)) (unique_nodup key)); [apply nth_error_Some; congruence|congruence].
Qed.
Lemma class_members (rows : list u2row) i cl : nth_error (unique (map snd rows)) i = Some cl -> (forall p, In p (members (inverse (map snd rows)) i) <-> exists r, nth_error rows p = Some r /\ snd r = cl) /\ List.length (members (inverse (map snd rows)) i) = in_class cl rows.
Proof.
  intros EU. set (key := map snd rows). assert (K : forall p, nth_error (inverse key) p = Some i <-> nth_error key p = Some cl).
  { intros p. split; intros E.
    - assert (L : (p < List.length key)%nat) by (rewrite <- (inverse_length key); apply nth_error_Some; congruence). destruct (nth_error key p) as [k|] eqn:Ek; [|apply nth_error_None in Ek; lia]. destruct (inverse_nth key p k Ek) as (d & D1 & D2). fold key in EU. congruence.
    - destruct (inverse_nth key p cl E) as (d & D1 & D2). rewrite D1. f_equal. apply (proj1 (NoDup_nth_error (unique key)) (unique_nodup key)); [apply nth_error_Some; congruence|]. fold key in EU. congruence. }
  split.
  - intros p. rewrite members_iff, K. unfold key. rewrite nth_error_map. destruct (nth_error rows p) as [r|]; cbn; split; intros X; try discriminate; [injection X as X; exists r; split; [reflexivity|exact X]|destruct X as (r' & E & S); injection E as ->; congruence|destruct X as (r' & E & _); discriminate].
  - rewrite members_length. unfold in_class. assert (G : forall (ids : list nat) (rs : list u2row), (forall p, nth_error ids p = Some i <-> nth_error (map snd rs) p = Some cl) -> List.length ids = List.length rs -> List.length (filter (Nat.eqb i) ids) = List.length (filter (fun r => String.eqb (snd r) cl) rs)).
    { induction ids as [|d ids IH]; intros [|r rs] H L; try discriminate; [reflexivity|]. cbn. pose proof (H O) as H0. cbn in H0. assert (IH' := IH rs (fun p => H (S p)) ltac:(injection L as L; exact L)). destruct (Nat.eqb_spec i d) as [EI|ND], (String.eqb_spec (snd r) cl) as [ES|NS]; cbn; rewrite IH'; try reflexivity; exfalso.
      - apply NS. destruct H0 as (H0 & _). assert (X := H0 (f_equal Some (eq_sym EI))). congruence.
      - apply ND. destruct H0 as (_ & H0). assert (X := H0 (f_equal Some ES)). congruence. }
    apply G; [exact K|]. rewrite inverse_length. unfold key. apply map_length.
Qed.
Lemma top_largest (rows : list u2row) : rows <> [] -> largest rows (top (inverse (map snd rows))).
Proof.
  intros NE. set (key := map snd rows). assert (KN : key <> []) by (unfold key; destruct rows; [contradiction|discriminate]). assert (NU : S (list_max (inverse key)) = List.length (unique key)) by (pose proof (inverse_max key KN); lia).
  unfold top. rewrite NU. set (cs := map _ _). assert (CS : forall i cl, nth_error (unique key) i = Some cl -> List.length (filter (Nat.eqb i) (inverse key)) = in_class cl rows) by (intros i cl E; rewrite <- members_length; apply class_members; exact E).
  assert (NC : cs <> []). { unfold cs. rewrite <- NU. discriminate. } split.
  - assert (I : In (list_max cs) cs). { clear - NC. induction cs as [|x cs IH]; [contradiction|]. destruct cs as [|y cs]; [left; cbn; lia|]. change (list_max (x :: y :: cs)) with (Nat.max x (list_max (y :: cs))). destruct (Nat.max_spec x (list_max (y :: cs))) as [(_ & ->)|(_ & ->)]; [right; apply IH; discriminate|left; reflexivity]. }
    unfold cs in I at 2. apply in_map_iff in I. destruct I as (i & E & I). apply in_seq in I. destruct (nth_error (unique key) i) as [cl|] eqn:EU. 2: { apply nth_error_None in EU. lia. } exists cl. split; [apply (proj1 (unique_in _ _)), (nth_error_In _ _ EU)|]. rewrite <- (CS i cl EU). exact E.
  - intros cl. destruct (in_dec string_dec cl key) as [I|I].
    + apply (proj2 (unique_in _ _)) in I. apply In_nth_error in I. destruct I as (i & E). rewrite <- (CS i cl E). pose proof (proj1 (list_max_le cs _) (Nat.le_refl _)) as F. rewrite Forall_forall in F. apply F. unfold cs. apply in_map_iff. exists i. split; [reflexivity|]. apply in_seq. assert (i < List.length (unique key))%nat by (apply nth_error_Some; congruence). lia.
    + unfold in_class. assert (filter (fun r : u2row => String.eqb (snd r) cl) rows = []) as ->; [|cbn; lia]. clear - I. unfold key in I. induction rows as [|r rows IH]; [reflexivity|]. cbn. destruct (String.eqb_spec (snd r) cl) as [E|E]; [exfalso; apply I; left; exact E|]. apply IH. intros X. apply I. right. exact X.
Qed.

(** ** Balancing: with m = ceil(size of the largest class / max_class_imbalance), a class with fewer than m recordings gets exactly m rows,
    its recordings repeated m/n or m/n + 1 times; the other classes are kept as they are. *)
Theorem C61_balance : forall rows imb g mx, 1 <= imb -> rows <> [] -> g_u2c g = rows -> g_init_lens g = None -> largest rows mx ->
  exists idx u g' m, balance imb g = Ok g' /\ g_u2c g' = u /\ m = Z.to_nat (ceil_div (Z.of_nat mx) imb) /\ take rows (map Z.of_nat idx) = Ok u /\
    (forall p, In p idx -> (p < List.length rows)%nat) /\
    (forall cl, In cl (map snd rows) -> in_class cl u = Nat.max (in_class cl rows) m) /\ (forall r, In r u <-> In r rows) /\
    (forall p r, nth_error rows p = Some r -> let n := in_class (snd r) rows in if (n <? m)%nat then (m / n <= count_occ Nat.eq_dec idx p <= m / n + 1)%nat else count_occ Nat.eq_dec idx p = 1%nat).
Proof.
  intros rows imb g mx IB NE GU GL LG. set (key := map snd rows). assert (KN : key <> []) by (unfold key; destruct rows; [contradiction|discriminate]). assert (NU : S (list_max (inverse key)) = List.length (unique key)) by (pose proof (inverse_max key KN); lia).
  assert (TM : top (inverse key) = mx). { destruct (top_largest rows NE) as ((c1 & I1 & E1) & B1). destruct LG as ((c2 & I2 & E2) & B2). fold key in E1, B1. pose proof (B1 c2). pose proof (B2 c1). lia. }
  destruct (balance_idx_ok (inverse key) imb IB) as (m & EM & M1 & EB). { intros X. pose proof (inverse_length key) as Y. rewrite X in Y. destruct key; [contradiction|discriminate]. } { intros i L. apply inverse_onto. lia. } rewrite TM in EM. rewrite NU in EB. set (idx := concat _) in EB.
  assert (CM : forall i, (i < List.length (unique key))%nat -> exists cl, nth_error (unique key) i = Some cl /\ (forall p, In p (members (inverse key) i) <-> exists r, nth_error rows p = Some r /\ snd r = cl) /\ List.length (members (inverse key) i) = in_class cl rows). { intros i L. destruct (nth_error (unique key) i) as [cl|] eqn:E; [|apply nth_error_None in E; lia]. exists cl. split; [reflexivity|]. apply class_members. exact E. }
  assert (BD : forall p, In p idx -> (p < List.length rows)%nat). { intros p I. unfold idx in I. apply in_concat in I. destruct I as (l & Il & Ip). apply in_map_iff in Il. destruct Il as (i & <- & Ii). apply in_seq in Ii. apply block_in in Ip. destruct (CM i ltac:(lia)) as (cl & _ & MI & _). apply MI in Ip. destruct Ip as (r & E & _). apply nth_error_Some. congruence. }
  destruct (take_total rows idx BD) as (u & TU). unfold balance. rewrite GU. fold key. rewrite EB. cbn [bind]. rewrite TU. cbn [bind set_u2c g_init_lens]. rewrite GL. exists idx, u. eexists. exists m. split; [reflexivity|]. split; [reflexivity|]. split; [exact EM|]. split; [exact TU|]. split; [exact BD|].
  assert (CLS : forall cl, In cl key -> exists i, (i < List.length (unique key))%nat /\ nth_error (unique key) i = Some cl). { intros cl I. apply (proj2 (unique_in _ _)) in I. apply In_nth_error in I. destruct I as (i & E). exists i. split; [apply nth_error_Some; congruence|exact E]. }
  assert (PC : forall p r, nth_error rows p = Some r -> let n := in_class (snd r) rows in if (n <? m)%nat then (m / n <= cnt idx p <= m / n + 1)%nat else cnt idx p = 1%nat).
  { intros p r ER n. destruct (CLS (snd r)) as (i & Li & EU). { apply in_map. apply (nth_error_In _ _ ER). } destruct (CM i Li) as (cl & EU' & MI & ML). assert (cl = snd r) by congruence. subst cl. assert (IP : In p (members (inverse key) i)) by (apply MI; exists r; split; [exact ER|reflexivity]).
    pose proof (block_count m (members (inverse key) i) p (nonzero_nodup _) IP) as BC. cbv zeta in BC. rewrite ML in BC. fold n in BC. assert (CI : cnt idx p = cnt (block m (members (inverse key) i)) p); [|rewrite CI; exact BC].
    unfold idx. rewrite cnt_concat, map_map. apply (sum_single (fun j => cnt (block m (members (inverse key) j)) p)); [exact Li|]. intros j NJ. apply count_occ_not_In. intros X. apply block_in in X. apply members_iff in X. apply members_iff in IP. congruence. }
  split; [|split; [|exact PC]].
  - intros cl IC. destruct (CLS cl IC) as (i & Li & EU). destruct (CM i Li) as (cl' & EU' & MI & ML). assert (cl' = cl) by congruence. subst cl'.
    assert (G : forall ix v, take rows (map Z.of_nat ix) = Ok v -> in_class cl v = List.length (filter (fun p => match nth_error (inverse key) p with Some d => Nat.eqb i d | None => false end) ix)).
    { unfold take. induction ix as [|p ix IH]; intros v T; cbn in T; [injection T as <-; reflexivity|]. destruct (get_item rows (Z.of_nat p)) as [r|] eqn:Er; [|discriminate]. cbn in T. destruct (mapM _ (map Z.of_nat ix)) as [v'|] eqn:Ev; [|discriminate]. cbn in T. injection T as <-. apply get_item_nat_inv in Er. unfold in_class in *. cbn [filter]. specialize (IH _ eq_refl).
      assert (EQ : (match nth_error (inverse key) p with Some d => Nat.eqb i d | None => false end) = String.eqb (snd r) cl). { assert (EK : nth_error key p = Some (snd r)) by (unfold key; rewrite nth_error_map, Er; reflexivity). destruct (inverse_nth key p _ EK) as (d & D1 & D2). rewrite D1. destruct (Nat.eqb_spec i d) as [->|ND], (String.eqb_spec (snd r) cl) as [E|NS]; try reflexivity; exfalso; [apply NS; congruence|]. apply ND. apply (proj1 (NoDup_nth_error (unique key)) (unique_nodup key)); [exact Li|congruence]. }
      rewrite EQ. destruct (String.eqb (snd r) cl); cbn; rewrite IH; reflexivity. }
    rewrite (G idx u TU). unfold idx.
    assert (FC : forall ls, List.length (filter (fun p => match nth_error (inverse key) p with Some d => Nat.eqb i d | None => false end) (concat ls)) = list_sum (map (fun l => List.length (filter (fun p => match nth_error (inverse key) p with Some d => Nat.eqb i d | None => false end) l)) ls)). { induction ls as [|l ls IH]; cbn; [reflexivity|]. rewrite filter_app, app_length, IH. reflexivity. }
    rewrite FC, map_map. rewrite (sum_single (fun j => List.length (filter (fun p => match nth_error (inverse key) p with Some d => Nat.eqb i d | None => false end) (block m (members (inverse key) j)))) _ i Li).
    + assert (FA : filter (fun p => match nth_error (inverse key) p with Some d => Nat.eqb i d | None => false end) (block m (members (inverse key) i)) = block m (members (inverse key) i)). { assert (Q : forall p, In p (block m (members (inverse key) i)) -> nth_error (inverse key) p = Some i) by (intros p X; apply members_iff, (block_in m), X). revert Q. generalize (block m (members (inverse key) i)) as l. induction l as [|p l IH]; intros Q; [reflexivity|]. cbn [filter]. rewrite (Q p (or_introl eq_refl)), Nat.eqb_refl. f_equal. apply IH. intros x X. apply Q. right. exact X. }
      rewrite FA, block_length, ML; [reflexivity|]. assert (IX : In i (inverse key)) by (apply inverse_onto; exact Li). apply In_nth_error in IX. destruct IX as (p & E). apply members_iff in E. destruct (members (inverse key) i); [destruct E|discriminate].
    + intros j NJ. assert (Q : forall p, In p (block m (members (inverse key) j)) -> nth_error (inverse key) p = Some j) by (intros p X; apply members_iff, (block_in m), X). revert Q. generalize (block m (members (inverse key) j)) as l. induction l as [|p l IH]; intros Q; [reflexivity|]. cbn [filter]. rewrite (Q p (or_introl eq_refl)). destruct (Nat.eqb_spec i j) as [E|_]; [congruence|]. apply IH. intros x X. apply Q. right. exact X.
  - intros r. split; [apply (take_in_of _ _ _ TU)|]. intros I. apply In_nth_error in I. destruct I as (p & ER). specialize (PC p r ER). cbv zeta in PC. assert (C1 : (0 < cnt idx p)%nat). { destruct (Nat.ltb_spec (in_class (snd r) rows) m) as [L|L]; [|lia]. assert (N0 : (0 < in_class (snd r) rows)%nat). { unfold in_class. destruct (filter (fun r0 : u2row => String.eqb (snd r0) (snd r)) rows) eqn:F; [|cbn; lia]. assert (X : In r (filter (fun r0 : u2row => String.eqb (snd r0) (snd r)) rows)) by (apply filter_In; split; [apply (nth_error_In _ _ ER)|apply String.eqb_refl]). rewrite F in X. destruct X. } assert (1 <= m / in_class (snd r) rows)%nat by (apply Nat.div_le_lower_bound; lia). lia. }
    apply (count_occ_In Nat.eq_dec) in C1. apply In_nth_error in C1. destruct C1 as (k & EK). assert (nth_error u k = Some r); [|apply (nth_error_In u k); assumption].
    assert (T2 : forall ix v, take rows (map Z.of_nat ix) = Ok v -> forall k p, nth_error ix k = Some p -> nth_error v k = nth_error rows p). { unfold take. induction ix as [|q ix IH]; intros v T k0 p0 E0; [destruct k0; discriminate|]. cbn in T. destruct (get_item rows (Z.of_nat q)) as [r0|] eqn:Er; [|discriminate]. cbn in T. destruct (mapM _ (map Z.of_nat ix)) as [v'|] eqn:Ev; [|discriminate]. cbn in T. injection T as <-. apply get_item_nat_inv in Er. destruct k0; cbn in *; [injection E0 as ->; symmetry; exact Er|apply (IH v' eq_refl _ _ E0)]. }
    rewrite (T2 idx u TU k p EK). exact ER.
Qed.
(** no class ends up more than max_class_imbalance times larger than another *)
Theorem C61_ratio : forall rows imb g g', 1 <= imb -> rows <> [] -> g_u2c g = rows -> g_init_lens g = None -> balance imb g = Ok g' ->
  forall a b, In a (map snd rows) -> In b (map snd rows) -> Z.of_nat (in_class a (g_u2c g')) <= imb * Z.of_nat (in_class b (g_u2c g')).
Proof.
  intros rows imb g g' IB NE GU GL EB a b Ia Ib. pose proof (top_largest rows NE) as LG. set (mx := top _) in LG. clearbody mx. destruct (C61_balance rows imb g mx IB NE GU GL LG) as (idx & u & g2 & m & E & U & EM & _ & _ & CL & _). rewrite EB in E. injection E as <-. rewrite U, (CL a Ia), (CL b Ib). pose proof (proj2 LG a).
  assert (MX : Z.of_nat mx <= imb * Z.of_nat m). { subst m. unfold ceil_div. pose proof (Z.mul_div_le (- Z.of_nat mx) imb ltac:(lia)). assert (- Z.of_nat mx / imb <= 0) by (apply Z.div_le_upper_bound; lia). rewrite Z2Nat.id by lia. lia. } nia.
Qed.
Example C61_witness : let rows := [("a", "x"); ("b", "y"); ("c", "x"); ("d", "x"); ("e", "x"); ("f", "x"); ("g", "z"); ("h", "z")]%string in largest rows 5 /\
  option_map g_u2c (match balance 2 (mk_gen rows [] None None None None None None [] [] O 0 0 (0, O) 0) with Ok g => Some g | Err _ => None end) =
  Some [("a", "x"); ("c", "x"); ("d", "x"); ("e", "x"); ("f", "x"); ("b", "y"); ("b", "y"); ("b", "y"); ("g", "z"); ("h", "z"); ("g", "z")]%string.
Proof.
  cbv zeta. split; [|vm_compute; reflexivity]. split; [exists "x"%string; split; [left; reflexivity|reflexivity]|]. intros cl. unfold in_class. cbn [filter snd]. destruct (String.eqb_spec "x" cl) as [<-|]; [cbn; lia|]. destruct (String.eqb "y" cl), (String.eqb "z" cl); cbn; lia.
Qed.
Print Assumptions C61_balance. Print Assumptions C61_ratio.
