(** C100: the sequence reader delivers batches of valid pieces, each at most once per epoch; when it can fail. *)
From Coq Require Import ZArith List Bool Arith String Lia Permutation.
From Verif Require Import Base BaseFacts Mat MatProofs SeqReader.
Import ListNotations.
Open Scope list_scope. Open Scope Z_scope.

(** ** Vocabulary *)
Definition fresh (s : seqs) : state := mk_state s 0 0 (zeros s) (zeros s).
(** k reads without a new epoch in between *)
Fixpoint reads (c : conf) (k : nat) (st : state) : res (list (list request) * state) :=
  match k with O => Ok ([], st) | S k => '(x, st) <- read c [] st ;; '(xs, st) <- reads c k st ;; Ok (x :: xs, st) end.
(** the sequences that are long enough, in the order of the list *)
Definition long (c : conf) (s : seqs) : seqs := filter (fun p => c_min c <=? snd p) s.
Definition shift (c : conf) (mx : Z) : Z := mx - c_overlap c.

(** ** Epochs *)
(** At the beginning, and after the last batch of an epoch, a read starts a new epoch over a reordering of the sequences. *)
Theorem C100_new_epoch : forall c s st nb perm, Permutation perm (seq 0 (len s)) -> s_seqs st = s -> num_batches c s = Ok nb -> 0 < nb -> s_batch st = -1 \/ s_batch st = nb ->
  exists s', Permutation s' s /\ num_batches c s' = Ok nb /\ (c_shuffle c = false -> s' = s) /\ read c perm st = read c [] (fresh s').
Proof.
  intros c s st nb perm P Es EN Hnb HB. subst s. set (s := s_seqs st) in *.
  assert (RS : exists s', reset c perm st = Ok (fresh s') /\ Permutation s' s /\ (c_shuffle c = false -> s' = s)).
  { unfold reset. destruct (c_shuffle c); [|exists s; split; [reflexivity|split; [apply Permutation_refl|reflexivity]]]. fold s.
    assert (G : forall l, (forall i, In i l -> (i < len s)%nat) -> mapM (fun i => match nth_error s i with Some p => Ok p | None => Err IndexError end) l = Ok (map (fun i => nth i s (EmptyString, 0)) l)).
    { induction l as [|i l IH]; intros H; [reflexivity|]. cbn [mapM map]. rewrite (nth_error_nth' s (EmptyString, 0)) by (apply H; left; reflexivity). cbn [bind]. rewrite IH by (intros; apply H; right; assumption). reflexivity. }
    rewrite G by (intros i Hi; apply (Permutation_in _ P) in Hi; apply in_seq in Hi; lia). cbn [bind]. exists (map (fun i => nth i s (EmptyString, 0)) perm). split; [reflexivity|]. split; [|discriminate].
    eapply Permutation_trans; [apply Permutation_map; exact P|]. assert (E : map (fun i => nth i s (EmptyString, 0)) (seq 0 (len s)) = s); [|rewrite E; apply Permutation_refl].
    clear. induction s as [|p s IH]; [reflexivity|]. cbn [length seq map nth]. f_equal. rewrite <- seq_shift, map_map. exact IH. }
  destruct RS as (s' & ER & PS & NS). exists s'. assert (NB : num_batches c s' = Ok nb).
  { unfold num_batches in *. destruct (c_batch c =? 0)%nat; [discriminate|]. rewrite <- EN. f_equal. f_equal. unfold total, zsum. clear -PS. induction PS; cbn in *; lia. }
  split; [exact PS|]. split; [exact NB|]. split; [exact NS|]. unfold read. fold s. rewrite EN. cbn [bind s_seqs fresh]. rewrite NB. cbn [bind s_batch].
  assert (B1 : (s_batch st =? nb) || (s_batch st =? -1) = true) by (destruct HB as [-> | ->]; [apply orb_true_r|rewrite Z.eqb_refl; reflexivity]). rewrite B1, ER. cbn [bind].
  assert (B2 : (0 =? nb) || (0 =? -1) = false) by (apply orb_false_iff; split; apply Z.eqb_neq; lia). change (s_batch (fresh s')) with 0. rewrite B2. reflexivity.
Qed.
Print Assumptions C100_new_epoch.
Lemma read_in c st nb : num_batches c (s_seqs st) = Ok nb -> 0 <= s_batch st < nb ->
  read c [] st = ('(x, st) <- read_batch c st ;; Ok (x, mk_state (s_seqs st) (s_cur st) (s_batch st + 1) (s_sub st) (s_frame st))).
Proof. intros E H. unfold read. rewrite E. cbn [bind]. assert (B : (s_batch st =? nb) || (s_batch st =? -1) = false) by (apply orb_false_iff; split; apply Z.eqb_neq; lia). rewrite B. reflexivity. Qed.

(** ** Whole sequences and one random piece per sequence *)
Fixpoint scan {B} (p : B -> bool) (g : B -> request) (n : nat) (rest : list B) (cur : nat) (keys : list request) : nat * list request :=
  match rest with
  | [] => (cur, keys)
  | a :: rest => if p a then (if (len (keys ++ [g a]) =? n)%nat then (S cur, keys ++ [g a]) else scan p g n rest (S cur) (keys ++ [g a])) else scan p g n rest (S cur) keys
  end.
Lemma full_scan c rest cur keys : full_loop c rest cur keys = scan (fun p => c_min c <? snd p) (fun p => Whole (fst p)) (c_batch c) rest cur keys.
Proof. revert cur keys. induction rest as [|[k l] rest IH]; intros cur keys; [reflexivity|]. cbn [full_loop scan fst snd]. destruct (c_min c <? l); cbn [andb]; [destruct (len (keys ++ [Whole k]) =? c_batch c)%nat; [reflexivity|apply IH]|apply IH]. Qed.
Lemma loop1_scan c mx rest cur keys : (len keys <> c_batch c)%nat -> loop1 c mx rest cur keys = scan (fun p => 0 <? num_sub c (snd p)) (fun p => Rand (fst p) (Z.min mx (snd p))) (c_batch c) rest cur keys.
Proof.
  revert cur keys. induction rest as [|[k l] rest IH]; intros cur keys N; [reflexivity|]. cbn [loop1 scan fst snd]. destruct (0 <? num_sub c l).
  - destruct (len (keys ++ [Rand k (Z.min mx l)]) =? c_batch c)%nat eqn:E; [reflexivity|]. apply IH. apply Nat.eqb_neq. exact E.
  - rewrite (proj2 (Nat.eqb_neq _ _) N). apply IH. exact N.
Qed.
Lemma scan_ok {B} (p : B -> bool) g n : forall rest cur keys, (len keys < n)%nat -> (n <= len keys + len (filter p rest))%nat ->
  exists m, (m <= len rest)%nat /\ scan p g n rest cur keys = ((cur + m)%nat, keys ++ map g (firstn (n - len keys) (filter p rest))) /\ filter p (skipn m rest) = skipn (n - len keys) (filter p rest).
Proof.
  induction rest as [|a rest IH]; intros cur keys L H; cbn [filter] in *; [cbn in H; lia|]. cbn [scan]. destruct (p a) eqn:E.
  - rewrite app_length. cbn [length] in *. destruct (len keys + 1 =? n)%nat eqn:Q.
    + apply Nat.eqb_eq in Q. exists 1%nat. replace (n - len keys)%nat with 1%nat by lia. cbn [firstn skipn map length]. split; [lia|]. split; [f_equal; lia|]. reflexivity.
    + apply Nat.eqb_neq in Q. destruct (IH (S cur) (keys ++ [g a])) as (m & M1 & M2 & M3); [rewrite app_length; cbn; lia|rewrite app_length; cbn; lia|].
      exists (S m). rewrite app_length in M2, M3. cbn [length] in M2, M3. replace (n - len keys)%nat with (S (n - (len keys + 1)))%nat by lia. cbn [firstn skipn map length]. split; [lia|]. rewrite M2. split; [|exact M3]. rewrite <- app_assoc. f_equal; lia.
  - destruct (IH (S cur) keys L H) as (m & M1 & M2 & M3). exists (S m). cbn [skipn length]. split; [lia|]. split; [rewrite M2; f_equal; lia|exact M3].
Qed.
Lemma skipn_add {B} (l : list B) : forall a b, skipn a (skipn b l) = skipn (b + a) l.
Proof. intros a b. revert l a. induction b as [|b IH]; intros l a; [reflexivity|]. destruct l as [|x l]; [cbn [skipn]; rewrite skipn_nil; reflexivity|]. cbn [skipn Nat.add]. apply IH. Qed.
(** what a linear reader delivers: batch b is the b-th group of the chosen sequences *)
Definition group {B} (n b : nat) (l : list B) : list B := firstn n (skipn (b * n) l).
Definition linear_at (p : string * Z -> bool) (s : seqs) (B b : nat) (st : state) : Prop :=
  s_seqs st = s /\ s_batch st = Z.of_nat b /\ filter p (skipn (s_cur st) s) = skipn (b * B) (filter p s).
Lemma linear_reads c p g s nb : num_batches c s = Ok nb -> nb = Z.of_nat (len (filter p s) / c_batch c) ->
  (forall st b, linear_at p s (c_batch c) b st -> ((b + 1) * c_batch c <= len (filter p s))%nat ->
     exists st', read_batch c st = Ok (map g (group (c_batch c) b (filter p s)), st') /\ s_seqs st' = s /\ s_batch st' = s_batch st /\ filter p (skipn (s_cur st') s) = skipn ((b + 1) * c_batch c) (filter p s)) ->
  forall k b st, linear_at p s (c_batch c) b st -> Z.of_nat (b + k) <= nb ->
    exists st', reads c k st = Ok (map (fun i => map g (group (c_batch c) i (filter p s))) (seq b k), st') /\ linear_at p s (c_batch c) (b + k) st'.
Proof.
  intros EN EB STEP. assert (BZ : c_batch c <> 0%nat) by (unfold num_batches in EN; destruct (c_batch c =? 0)%nat eqn:Q; [discriminate|apply Nat.eqb_neq; exact Q]).
  induction k as [|k IH]; intros b st LA Hk; [exists st; split; [reflexivity|rewrite Nat.add_0_r; exact LA]|]. pose proof LA as (L1 & L2 & L3).
  assert (LQ : ((b + 1) * c_batch c <= len (filter p s))%nat). { assert (b + 1 <= len (filter p s) / c_batch c)%nat by lia. pose proof (Nat.mul_div_le (len (filter p s)) (c_batch c) BZ). nia. }
  destruct (STEP st b LA LQ) as (st1 & E1 & S1 & S2 & S3). cbn [reads]. rewrite (read_in c st nb) by (first [rewrite L1; exact EN | lia]). rewrite E1. cbn [bind].
  destruct (IH (S b) (mk_state (s_seqs st1) (s_cur st1) (s_batch st1 + 1) (s_sub st1) (s_frame st1))) as (st' & E' & L').
  - split; [exact S1|]. cbn [s_batch s_cur]. split; [lia|]. rewrite S3. f_equal. lia.
  - lia.
  - rewrite E'. cbn [bind seq map]. exists st'. split; [reflexivity|]. replace (b + S k)%nat with (S b + k)%nat by lia. exact L'.
Qed.
Lemma total_count c s (p : string * Z -> bool) : (forall q, In q s -> num_sub c (snd q) = if p q then 1 else 0) -> total c s = Z.of_nat (len (filter p s)).
Proof. induction s as [|q s IH]; intros H; [reflexivity|]. unfold total in *. cbn [map zsum fold_right filter]. rewrite (H q) by (left; reflexivity). fold (zsum (map (fun p0 => num_sub c (snd p0)) s)). rewrite IH by (intros; apply H; right; assumption). destruct (p q); cbn [length]; lia. Qed.
Lemma nb_count c s (p : string * Z -> bool) nb : (forall q, In q s -> num_sub c (snd q) = if p q then 1 else 0) -> num_batches c s = Ok nb -> nb = Z.of_nat (len (filter p s) / c_batch c).
Proof. intros H E. unfold num_batches in E. destruct (c_batch c =? 0)%nat eqn:Q; [discriminate|]. injection E as <-. rewrite (total_count c s p H). rewrite <- Nat2Z.inj_div. reflexivity. Qed.
Lemma group_len {B} n b (l : list B) : ((b + 1) * n <= len l)%nat -> len (group n b l) = n.
Proof. intros H. unfold group. rewrite firstn_length, skipn_length. nia. Qed.
Lemma filter_all {B} (p : B -> bool) l : (forall x, In x l -> p x = true) -> filter p l = l.
Proof. induction l as [|x l IH]; intros H; [reflexivity|]. cbn [filter]. rewrite (H x) by (left; reflexivity). f_equal. apply IH. intros; apply H; right; assumption. Qed.

(** Whole sequences: if no sequence has exactly min_seq_length frames (or min_seq_length is 0), the num_batches reads of an epoch succeed and deliver the long enough sequences,
    batch_size at a time, in order, each once; fewer than batch_size are left over. *)
Theorem C100_whole : forall c s nb, c_max c = None -> (forall q, In q s -> 0 <= snd q) -> 0 <= c_min c -> (c_min c = 0 \/ forall q, In q s -> snd q <> c_min c) -> num_batches c s = Ok nb ->
  nb = Z.of_nat (len (long c s) / c_batch c) /\
  forall k, Z.of_nat k <= nb -> exists st, reads c k (fresh s) = Ok (map (fun i => map (fun p => Whole (fst p)) (group (c_batch c) i (long c s))) (seq 0 k), st) /\ s_batch st = Z.of_nat k.
Proof.
  intros c s nb MX NN MN NE EN. assert (NS : forall q, In q s -> num_sub c (snd q) = if c_min c <=? snd q then 1 else 0) by (intros q _; unfold num_sub; rewrite MX; reflexivity).
  assert (EB := nb_count c s (fun q => c_min c <=? snd q) nb NS EN). fold (long c s) in EB. split; [exact EB|]. intros k Hk. assert (BZ : c_batch c <> 0%nat) by (unfold num_batches in EN; destruct (c_batch c =? 0)%nat eqn:Q; [discriminate|apply Nat.eqb_neq; exact Q]).
  destruct (linear_reads c (fun q => c_min c <=? snd q) (fun p => Whole (fst p)) s nb EN EB) with (k := k) (b := 0%nat) (st := fresh s) as (st & E & L).
  - intros st b (L1 & L2 & L3) LQ. unfold read_batch. rewrite MX. unfold read_full. destruct (Z.eqb_spec (c_min c) 0) as [M0|M0].
    + assert (FA : forall l, incl l s -> filter (fun q : string * Z => c_min c <=? snd q) l = l) by (intros l I; apply filter_all; intros q Hq; apply Z.leb_le; rewrite M0; apply NN; apply I; exact Hq).
      assert (IS : forall n, incl (skipn n s) s) by (intros n q Hq; rewrite <- (firstn_skipn n s); apply in_or_app; right; exact Hq).
      rewrite (FA (skipn (s_cur st) s) (IS _)), (FA s (incl_refl s)) in L3. rewrite (FA s (incl_refl s)) in *. eexists. split; [rewrite L1, L3; unfold group; reflexivity|]. cbn [s_seqs s_batch s_cur]. split; [reflexivity|]. split; [reflexivity|].
      rewrite (FA (skipn (s_cur st + c_batch c) s) (IS _)). rewrite <- skipn_add, L3, skipn_add. f_equal. lia.
    + assert (FE : forall l, incl l s -> filter (fun q : string * Z => c_min c <? snd q) l = filter (fun q => c_min c <=? snd q) l).
      { intros l I. apply filter_ext_in. intros q Hq. destruct NE as [NE|NE]; [congruence|]. specialize (NE q (I q Hq)). destruct (Z.ltb_spec (c_min c) (snd q)), (Z.leb_spec (c_min c) (snd q)); try reflexivity; lia. }
      assert (IS : forall n, incl (skipn n s) s) by (intros n q Hq; rewrite <- (firstn_skipn n s); apply in_or_app; right; exact Hq).
      rewrite full_scan, L1. destruct (scan_ok (fun q : string * Z => c_min c <? snd q) (fun p => Whole (fst p)) (c_batch c) (skipn (s_cur st) s) (s_cur st) []) as (m & M1 & M2 & M3).
      * cbn. lia.
      * rewrite (FE _ (IS _)), L3. cbn [length]. rewrite skipn_length. nia.
      * rewrite M2. cbn [length app] in *. rewrite Nat.sub_0_r in *. rewrite (FE _ (IS _)), L3 in *.
        assert (LG : len (map (fun p : string * Z => Whole (fst p)) (firstn (c_batch c) (skipn (b * c_batch c) (filter (fun q => c_min c <=? snd q) s)))) = c_batch c) by (rewrite map_length; apply group_len; exact LQ).
        rewrite LG, Nat.eqb_refl. eexists. split; [reflexivity|]. cbn [s_seqs s_batch s_cur]. split; [reflexivity|]. split; [reflexivity|].
        rewrite <- (FE _ (IS _)), <- skipn_add, M3, skipn_add. f_equal. lia.
  - split; [reflexivity|]. split; [reflexivity|]. cbn [s_cur fresh skipn Nat.mul]. reflexivity.
  - cbn [Nat.add]. exact Hk.
  - exists st. split; [exact E|]. apply L.
Qed.
Print Assumptions C100_whole.
(** Otherwise an epoch can fail: num_batches counts sequences of exactly min_seq_length frames, which are never read. *)
Theorem C100_whole_refuted : forall c s, c_max c = None -> 0 < c_min c -> (forall q, In q s -> snd q = c_min c) -> (1 <= c_batch c <= len s)%nat ->
  exists nb, num_batches c s = Ok nb /\ 1 <= nb /\ read c [] (fresh s) = Err AssertionError.
Proof.
  intros c s MX MN AL HB. assert (NS : forall q, In q s -> num_sub c (snd q) = if (fun _ : string * Z => true) q then 1 else 0) by (intros q Hq; unfold num_sub; rewrite MX, (AL q Hq), Z.leb_refl; reflexivity).
  assert (EN : num_batches c s = Ok (total c s / Z.of_nat (c_batch c))) by (unfold num_batches; rewrite (proj2 (Nat.eqb_neq _ _)) by lia; reflexivity). eexists. split; [exact EN|].
  assert (T := total_count c s (fun _ => true) NS). rewrite (filter_all (fun _ => true)) in T by reflexivity. assert (N1 : 1 <= total c s / Z.of_nat (c_batch c)) by (rewrite T; apply Z.div_le_lower_bound; lia). split; [exact N1|].
  rewrite (read_in c (fresh s) _ EN) by (cbn [s_batch fresh]; lia). unfold read_batch. rewrite MX. unfold read_full. rewrite (proj2 (Z.eqb_neq _ _)) by lia. cbn [s_cur s_seqs fresh skipn]. rewrite full_scan.
  assert (SC : forall l cur keys, (forall q, In q l -> snd q = c_min c) -> snd (scan (fun q : string * Z => c_min c <? snd q) (fun p => Whole (fst p)) (c_batch c) l cur keys) = keys).
  { induction l as [|q l IH]; intros cur keys H; [reflexivity|]. cbn [scan]. rewrite (H q) by (left; reflexivity). rewrite Z.ltb_irrefl. apply IH. intros; apply H; right; assumption. }
  specialize (SC s 0%nat [] AL). destruct (scan _ _ _ s 0%nat []) as [cur keys]. cbn [snd] in SC. subst keys. cbn [length]. rewrite (proj2 (Nat.eqb_neq _ _)) by lia. reflexivity.
Qed.
Print Assumptions C100_whole_refuted.
(** One random piece per sequence: the reads of an epoch always succeed and take one piece of min(max_seq_length, length) frames of each long enough sequence. *)
Theorem C100_one_piece : forall c s nb mx, c_max c = Some mx -> c_mode c = Random1 -> c_overlap c < mx -> num_batches c s = Ok nb ->
  nb = Z.of_nat (len (long c s) / c_batch c) /\
  forall k, Z.of_nat k <= nb -> exists st, reads c k (fresh s) = Ok (map (fun i => map (fun p => Rand (fst p) (Z.min mx (snd p))) (group (c_batch c) i (long c s))) (seq 0 k), st) /\ s_batch st = Z.of_nat k.
Proof.
  intros c s nb mx MX MO OV EN. assert (NS : forall q, In q s -> num_sub c (snd q) = if c_min c <=? snd q then 1 else 0) by (intros q _; unfold num_sub; rewrite MX, MO; reflexivity).
  assert (EB := nb_count c s (fun q => c_min c <=? snd q) nb NS EN). fold (long c s) in EB. split; [exact EB|]. intros k Hk. assert (BZ : c_batch c <> 0%nat) by (unfold num_batches in EN; destruct (c_batch c =? 0)%nat eqn:Q; [discriminate|apply Nat.eqb_neq; exact Q]).
  assert (FE : forall l, filter (fun q : string * Z => 0 <? num_sub c (snd q)) l = filter (fun q => c_min c <=? snd q) l) by (intros l; apply filter_ext; intros q; unfold num_sub; rewrite MX, MO; destruct (c_min c <=? snd q); reflexivity).
  destruct (linear_reads c (fun q => c_min c <=? snd q) (fun p => Rand (fst p) (Z.min mx (snd p))) s nb EN EB) with (k := k) (b := 0%nat) (st := fresh s) as (st & E & L).
  - intros st b (L1 & L2 & L3) LQ. unfold read_batch. rewrite MX, (proj2 (Z.leb_gt _ _)) by lia. rewrite MO. unfold read_1seq. rewrite loop1_scan by (cbn; lia). rewrite L1.
    destruct (scan_ok (fun q : string * Z => 0 <? num_sub c (snd q)) (fun p => Rand (fst p) (Z.min mx (snd p))) (c_batch c) (skipn (s_cur st) s) (s_cur st) []) as (m & M1 & M2 & M3).
    + cbn. lia.
    + rewrite FE, L3. cbn [length]. rewrite skipn_length. nia.
    + rewrite M2. cbn [length app] in *. rewrite Nat.sub_0_r in *. rewrite FE, L3 in *.
      assert (LG : len (map (fun p : string * Z => Rand (fst p) (Z.min mx (snd p))) (firstn (c_batch c) (skipn (b * c_batch c) (filter (fun q => c_min c <=? snd q) s)))) = c_batch c) by (rewrite map_length; apply group_len; exact LQ).
      rewrite LG, Nat.eqb_refl. eexists. split; [reflexivity|]. cbn [s_seqs s_batch s_cur]. split; [reflexivity|]. split; [reflexivity|]. rewrite <- skipn_add, M3, FE, L3, skipn_add. f_equal. lia.
  - split; [reflexivity|]. split; [reflexivity|]. cbn [s_cur fresh skipn Nat.mul]. reflexivity.
  - cbn [Nat.add]. exact Hk.
  - exists st. split; [exact E|]. apply L.
Qed.
Print Assumptions C100_one_piece.

(** ** Several pieces per sequence *)
Section Pieces.
Variable c : conf.
Variable mx : Z.
Hypothesis MX : c_max c = Some mx.
Hypothesis OV : 0 <= c_overlap c < mx.
Hypothesis MO : c_mode c <> Random1.
Hypothesis MN : 1 <= c_min c <= mx.
Definition first_frame (j : Z) : Z := j * shift c mx.
Definition piece_len (l j : Z) : Z := Z.min (l - first_frame j) mx.

Lemma num_sub_form l : num_sub c l = (l - c_overlap c) / shift c mx + (if c_min c <=? l - (l - c_overlap c) / shift c mx * shift c mx then 1 else 0).
Proof. unfold num_sub, shift. rewrite MX. destruct (c_mode c); [reflexivity|reflexivity|congruence]. Qed.
(** The planned pieces lie inside the sequence, have between min_seq_length and max_seq_length frames, and all but the last have max_seq_length. *)
Theorem C100_pieces : forall l j, 0 <= j < num_sub c l -> 0 <= first_frame j /\ c_min c <= piece_len l j <= mx /\ first_frame j + piece_len l j <= l /\ (j + 1 < num_sub c l -> piece_len l j = mx).
Proof.
  intros l j Hj. rewrite num_sub_form in *. unfold piece_len, first_frame. assert (SP : 0 < shift c mx) by (unfold shift; lia). assert (SM : shift c mx + c_overlap c = mx) by (unfold shift; lia).
  pose proof (Z.div_mod (l - c_overlap c) (shift c mx) ltac:(lia)) as DM. pose proof (Z.mod_pos_bound (l - c_overlap c) (shift c mx) SP) as MB.
  set (n := (l - c_overlap c) / shift c mx) in *. set (r := (l - c_overlap c) mod shift c mx) in *. clearbody n r. destruct (Z.leb_spec (c_min c) (l - n * shift c mx)) as [G|G].
  - assert (JN : j <= n) by lia. assert (j < n \/ j = n) as [J|J] by lia.
    + assert (j * shift c mx + shift c mx <= n * shift c mx) by nia. repeat split; nia.
    + subst j. repeat split; nia.
  - assert (J : j < n) by lia. assert (j * shift c mx + shift c mx <= n * shift c mx) by nia. repeat split; nia.
Qed.
(** Together they cover the sequence, but for fewer than min_seq_length - overlap frames at the end. *)
Theorem C100_cover : forall l t, 1 <= num_sub c l -> 0 <= t < l -> t + c_min c <= l + c_overlap c \/ c_min c <= l - (num_sub c l - 1) * shift c mx < mx -> exists j, 0 <= j < num_sub c l /\ first_frame j <= t < first_frame j + piece_len l j.
Proof.
  intros l t N1 Ht Hc. rewrite num_sub_form in *. unfold piece_len, first_frame. assert (SP : 0 < shift c mx) by (unfold shift; lia). assert (SM : shift c mx + c_overlap c = mx) by (unfold shift; lia).
  pose proof (Z.div_mod (l - c_overlap c) (shift c mx) ltac:(lia)) as DM. pose proof (Z.mod_pos_bound (l - c_overlap c) (shift c mx) SP) as MB.
  pose proof (Z.div_mod t (shift c mx) ltac:(lia)) as DT. pose proof (Z.mod_pos_bound t (shift c mx) SP) as MT. assert (QP : 0 <= t / shift c mx) by (apply Z.div_pos; lia).
  set (n := (l - c_overlap c) / shift c mx) in *. set (r := (l - c_overlap c) mod shift c mx) in *. set (q := t / shift c mx) in *. set (u := t mod shift c mx) in *. clearbody n r q u. destruct (Z.leb_spec (c_min c) (l - n * shift c mx)) as [G|G].
  - assert (q <= n \/ n < q) as [J|J] by lia.
    + exists q. repeat split; nia.
    + exists n. assert (n * shift c mx + shift c mx <= q * shift c mx) by nia. repeat split; nia.
  - assert (q < n \/ n <= q) as [J|J] by lia.
    + exists q. assert (q * shift c mx + shift c mx <= n * shift c mx) by nia. repeat split; nia.
    + exists (n - 1). assert (n * shift c mx <= q * shift c mx) by nia. repeat split; try nia.
Qed.
(** A sequence shorter than the overlap can count as a negative number of pieces and so reduce the number of batches. *)
Theorem C100_negative_refuted : forall l, l < c_overlap c - shift c mx -> num_sub c l < 0.
Proof.
  intros l H. rewrite num_sub_form. assert (SP : 0 < shift c mx) by (unfold shift; lia). assert ((l - c_overlap c) / shift c mx < -1) by (apply Z.div_lt_upper_bound; lia). destruct (c_min c <=? _); lia.
Qed.

(** what is asked for piece j of sequence number i *)
Definition asked (s : seqs) (i : nat) (j : Z) (r : request) : Prop :=
  exists k l, nth_error s i = Some (k, l) /\ 0 <= j < num_sub c l /\
  match c_mode c with Sequential => r = Slice k (first_frame j) (piece_len l j) | _ => exists n, r = Rand k n /\ c_min c <= n <= mx /\ n <= l end.
(** the log of an epoch: each sequence gives its pieces 0, 1, 2, ... in order *)
Definition upto (m : nat) : list Z := map Z.of_nat (seq 0 m).
Definition pieces_of (i : nat) (ids : list (nat * Z)) : list Z := map snd (filter (fun p => Nat.eqb (fst p) i) ids).
Definition in_order (ids : list (nat * Z)) : Prop := forall i, exists m, pieces_of i ids = upto m.
Definition logged (s : seqs) (ids : list (nat * Z)) (x : list request) : Prop := Forall2 (fun p r => asked s (fst p) (snd p) r) ids x.
Definition tracks (s : seqs) (st : state) (ids : list (nat * Z)) : Prop :=
  s_seqs st = s /\ (s = [] \/ (s_cur st < len s)%nat) /\ len (s_sub st) = len s /\ len (s_frame st) = len s /\
  (forall i, (len s <= i)%nat -> pieces_of i ids = []) /\
  forall i, (i < len s)%nat -> exists m, pieces_of i ids = upto m /\ nth_error (s_sub st) i = Some (Z.of_nat m) /\ (c_mode c = Sequential -> nth_error (s_frame st) i = Some (first_frame (Z.of_nat m))).
Lemma pieces_app i a b : pieces_of i (a ++ b) = pieces_of i a ++ pieces_of i b.
Proof. unfold pieces_of. rewrite filter_app, map_app. reflexivity. Qed.
Lemma upto_S m : upto (S m) = upto m ++ [Z.of_nat m].
Proof. unfold upto. rewrite seq_S, map_app. reflexivity. Qed.
Lemma nth_sub {B} (l : list B) n i : len l = n -> (i < n)%nat -> exists v, nth_error l i = Some v.
Proof. intros L H. destruct (nth_error l i) eqn:E; [eauto|]. apply nth_error_None in E. lia. Qed.
Lemma ask_rand l j : 0 <= j < num_sub c l -> let n := if num_sub c l =? 1 then Z.min mx l else mx in c_min c <= n <= mx /\ n <= l.
Proof.
  intros Hj. cbv zeta. destruct (Z.eqb_spec (num_sub c l) 1) as [E|E].
  - pose proof (C100_pieces l 0 ltac:(lia)) as (_ & P & Q & _). unfold piece_len, first_frame in *. lia.
  - pose proof (C100_pieces l 0 ltac:(lia)) as (_ & _ & Q & P). specialize (P ltac:(lia)). unfold first_frame in *. lia.
Qed.
Lemma visit_ok s st ids x : s <> [] -> tracks s st ids -> exists st' ids' x', visit c mx st x = Ok (st', x ++ x') /\ s_batch st' = s_batch st /\ tracks s st' (ids ++ ids') /\ logged s ids' x' /\ s_cur st' = Nat.modulo (s_cur st + 1) (len s) /\
  (len x' <= 1)%nat /\ (forall l j, option_map snd (nth_error s (s_cur st)) = Some l -> nth_error (s_sub st) (s_cur st) = Some j -> j < num_sub c l -> len x' = 1%nat).
Proof.
  intros NE (T1 & T2 & T3 & T4 & T5 & T6). destruct T2 as [T2|T2]; [congruence|]. assert (LP : (0 < len s)%nat) by (destruct s; [congruence|cbn; lia]). assert (NX : (Nat.modulo (s_cur st + 1) (len s) < len s)%nat) by (apply Nat.mod_upper_bound; lia).
  destruct (nth_sub s (len s) (s_cur st) eq_refl T2) as ([k l] & E1). destruct (T6 (s_cur st) T2) as (m & P1 & P2 & P3). destruct (nth_sub (s_frame st) (len s) (s_cur st) T4 T2) as (f & E3).
  unfold visit. rewrite T1, E1, P2, E3. destruct (Z.ltb_spec (Z.of_nat m) (num_sub c l)) as [L|L].
  - eexists _, [(s_cur st, Z.of_nat m)], [_]. split; [reflexivity|]. split; [reflexivity|]. split; [|split; [|split; [reflexivity|split; [cbn; lia|reflexivity]]]].
    + unfold tracks. cbn [s_seqs s_cur s_sub s_frame]. split; [reflexivity|]. split; [right; exact NX|]. split; [rewrite set_nth_length; exact T3|]. split; [destruct (c_mode c); rewrite ?set_nth_length; exact T4|]. split.
      * intros i Hi. rewrite pieces_app, (T5 i Hi). unfold pieces_of. cbn [filter fst]. rewrite (proj2 (Nat.eqb_neq (s_cur st) i)) by lia. reflexivity.
      * intros i Hi. rewrite pieces_app. unfold pieces_of at 2. cbn [filter fst]. destruct (Nat.eqb_spec (s_cur st) i) as [<-|NEi].
        -- exists (S m). rewrite P1, upto_S. split; [reflexivity|]. split; [rewrite set_nth_same by lia; f_equal; lia|]. intros MS. specialize (P3 MS). rewrite MS. rewrite set_nth_same by lia. f_equal. rewrite E3 in P3. injection P3 as ->. unfold first_frame, shift. nia.
        -- destruct (T6 i Hi) as (m' & Q1 & Q2 & Q3). exists m'. rewrite Q1. cbn [map]. rewrite app_nil_r. split; [reflexivity|]. split; [rewrite set_nth_other by congruence; exact Q2|]. intros MS. specialize (Q3 MS). rewrite MS. rewrite set_nth_other by congruence. exact Q3.
    + constructor; [|constructor]. cbn [fst snd]. exists k, l. split; [exact E1|]. split; [lia|]. pose proof (ask_rand l (Z.of_nat m) ltac:(lia)) as AR. destruct (c_mode c) eqn:M; [|eexists; split; [reflexivity|exact AR]|congruence].
      specialize (P3 eq_refl). rewrite E3 in P3. injection P3 as ->. reflexivity.
  - eexists _, [], []. split; [rewrite app_nil_r; reflexivity|]. split; [reflexivity|]. split; [|split; [constructor|split; [reflexivity|split; [cbn; lia|]]]].
    + rewrite app_nil_r. unfold tracks. cbn [s_seqs s_cur s_sub s_frame]. split; [reflexivity|]. split; [right; exact NX|]. split; [exact T3|]. split; [exact T4|]. split; [exact T5|exact T6].
    + intros l' j El Ej Hl. cbn in El. injection El as <-. injection Ej as <-. lia.
Qed.
Lemma logged_app s a b x y : logged s a x -> logged s b y -> logged s (a ++ b) (x ++ y).
Proof. apply Forall2_app. Qed.
Lemma sub_loop_ok s fuel : forall st ids x, s <> [] -> tracks s st ids -> exists st' ids' x', sub_loop c mx fuel st x = Ok (st', x ++ x') /\ s_batch st' = s_batch st /\ tracks s st' (ids ++ ids') /\ logged s ids' x'.
Proof.
  induction fuel as [|fuel IH]; intros st ids x NE T; cbn [sub_loop]; [exists st, [], []; rewrite !app_nil_r; split; [reflexivity|split; [reflexivity|split; [exact T|constructor]]]|].
  destruct (visit_ok s st ids x NE T) as (st1 & ids1 & x1 & E & B & T1 & L1 & _). rewrite E. cbn [bind]. destruct (len (x ++ x1) =? c_batch c)%nat; [exists st1, ids1, x1; auto|].
  destruct (IH st1 (ids ++ ids1) (x ++ x1) NE T1) as (st2 & ids2 & x2 & E2 & B2 & T2 & L2). exists st2, (ids1 ++ ids2), (x1 ++ x2). rewrite !app_assoc. split; [exact E2|]. split; [congruence|]. split; [exact T2|apply logged_app; assumption].
Qed.
Lemma read_subs s st ids x st' : s <> [] -> tracks s st ids -> read_subseqs c mx st = Ok (x, st') -> len x = c_batch c /\ s_batch st' = s_batch st /\ exists ids', tracks s st' (ids ++ ids') /\ logged s ids' x.
Proof.
  intros NE T E. unfold read_subseqs in E. destruct (sub_loop_ok s (Z.to_nat (total c (s_seqs st))) st ids [] NE T) as (st1 & ids1 & x1 & E1 & B1 & T1 & L1). rewrite E1 in E. cbn [bind app] in E. destruct (len x1 =? c_batch c)%nat eqn:Q; [|discriminate]. injection E as <- <-. apply Nat.eqb_eq in Q. eauto.
Qed.
Lemma batch_subs st : read_batch c st = read_subseqs c mx st.
Proof. unfold read_batch. rewrite MX. rewrite (proj2 (Z.leb_gt _ _)) by (unfold shift in *; lia). destruct (c_mode c); [reflexivity|reflexivity|congruence]. Qed.
Lemma tracks_fresh s : tracks s (fresh s) [].
Proof.
  unfold tracks, fresh. cbn [s_seqs s_cur s_sub s_frame]. unfold zeros. rewrite !map_length. split; [reflexivity|]. split; [destruct s; [left; reflexivity|right; cbn; lia]|]. split; [reflexivity|]. split; [reflexivity|]. split; [reflexivity|].
  intros i Hi. exists 0%nat. destruct (nth_sub s (len s) i eq_refl Hi) as (p & E). rewrite !nth_error_map, E. split; [reflexivity|]. split; [reflexivity|]. intros _. reflexivity.
Qed.
(** All that an epoch delivers: every batch has batch_size pieces; every piece is one of the planned ones; the pieces of one sequence come in order, none twice. *)
Theorem C100_epoch : forall s nb k xs st, s <> [] -> num_batches c s = Ok nb -> Z.of_nat k <= nb -> reads c k (fresh s) = Ok (xs, st) ->
  len xs = k /\ (forall x, In x xs -> len x = c_batch c) /\ exists ids, in_order ids /\ logged s ids (concat xs).
Proof.
  intros s nb k xs st NE EN Hk E.
  assert (G : forall k b st0 ids xs st, tracks s st0 ids -> s_batch st0 = Z.of_nat b -> Z.of_nat (b + k) <= nb -> reads c k st0 = Ok (xs, st) -> len xs = k /\ (forall x, In x xs -> len x = c_batch c) /\ exists ids', tracks s st (ids ++ ids') /\ logged s ids' (concat xs)).
  { clear -MX OV MO MN NE EN. induction k as [|k IH]; intros b st0 ids xs st T B Hb E.
    - cbn [reads] in E. injection E as <- <-. split; [reflexivity|]. split; [intros x []|]. exists []. rewrite app_nil_r. split; [exact T|constructor].
    - cbn [reads] in E. pose proof T as (T1 & _). rewrite (read_in c st0 nb) in E by (first [rewrite T1; exact EN | lia]). rewrite batch_subs in E. destruct (read_subseqs c mx st0) as [[x st1]|e] eqn:Er; [|discriminate]. cbn [bind] in E.
      destruct (read_subs s st0 ids x st1 NE T Er) as (Lx & B1 & ids1 & T1' & L1). destruct (reads c k _) as [[xs' st2]|e] eqn:E2 in E; [|discriminate]. cbn [bind] in E. injection E as <- <-.
      destruct (IH (S b) (mk_state (s_seqs st1) (s_cur st1) (s_batch st1 + 1) (s_sub st1) (s_frame st1)) (ids ++ ids1) xs' st2) as (A1 & A2 & ids2 & A3 & A4); [exact T1'|cbn [s_batch]; lia|lia|exact E2|].
      split; [cbn [length]; lia|]. split; [intros y [<-|Hy]; [exact Lx|apply A2; exact Hy]|]. exists (ids1 ++ ids2). rewrite app_assoc. split; [exact A3|]. cbn [concat]. apply logged_app; assumption. }
  destruct (G k 0%nat (fresh s) [] xs st (tracks_fresh s) eq_refl Hk E) as (A1 & A2 & ids & A3 & A4). split; [exact A1|]. split; [exact A2|]. exists ids. split; [|exact A4]. cbn [app] in A3. destruct A3 as (_ & _ & _ & _ & T5 & T6).
  intros i. destruct (Nat.lt_ge_cases i (len s)) as [L|L]; [destruct (T6 i L) as (m & Q & _); eauto|exists 0%nat; apply T5; exact L].
Qed.
(** If all the sequences have the same number of pieces, no read of the epoch fails. *)
Definition even (s : seqs) (t : nat) (st : state) : Prop :=
  s_seqs st = s /\ s_cur st = Nat.modulo t (len s) /\ len (s_sub st) = len s /\ len (s_frame st) = len s /\
  forall i, (i < len s)%nat -> nth_error (s_sub st) i = Some (Z.of_nat (Nat.div t (len s) + (if (i <? Nat.modulo t (len s))%nat then 1 else 0))).
Lemma next_even n t : n <> 0%nat -> (S (t mod n) < n /\ S t / n = t / n /\ S t mod n = S (t mod n))%nat \/ (S (t mod n) = n /\ S t / n = S (t / n) /\ S t mod n = 0)%nat.
Proof.
  intros NZ. pose proof (Nat.div_mod t n NZ) as E. pose proof (Nat.mod_upper_bound t n NZ) as B. set (q := (t / n)%nat) in *. set (r := (t mod n)%nat) in *. clearbody q r.
  destruct (Nat.lt_ge_cases (S r) n) as [L|L]; [left|right]; split; try lia; split.
  - symmetry. apply Nat.div_unique with (r := S r); lia.
  - symmetry. apply Nat.mod_unique with (q := q); lia.
  - symmetry. apply Nat.div_unique with (r := 0%nat); lia.
  - symmetry. apply Nat.mod_unique with (q := S q); lia.
Qed.
Lemma visit_even s t st x M : s <> [] -> (forall q, In q s -> num_sub c (snd q) = Z.of_nat M) -> (t < len s * M)%nat -> even s t st ->
  exists st' r, visit c mx st x = Ok (st', x ++ [r]) /\ s_batch st' = s_batch st /\ even s (S t) st'.
Proof.
  intros NE AM TM (T1 & T2 & T3 & T4 & T5). assert (LP : len s <> 0%nat) by (destruct s; [congruence|cbn; lia]). pose proof (Nat.mod_upper_bound t (len s) LP) as RB. pose proof (next_even (len s) t LP) as NXT.
  assert (QM : (t / len s < M)%nat) by (apply Nat.div_lt_upper_bound; lia).
  destruct (nth_sub s (len s) (t mod len s)%nat eq_refl RB) as ([k l] & E1). assert (NS := AM _ (nth_error_In _ _ E1)). cbn [snd] in NS. destruct (nth_sub (s_frame st) (len s) (t mod len s)%nat T4 RB) as (f & E3). pose proof (T5 _ RB) as E2. rewrite Nat.ltb_irrefl, Nat.add_0_r in E2.
  unfold visit. rewrite T1, T2, E1, E2, E3. rewrite NS. rewrite (proj2 (Z.ltb_lt _ _)) by lia. eexists _, _. split; [reflexivity|]. split; [reflexivity|]. unfold even. cbn [s_seqs s_cur s_sub s_frame].
  split; [reflexivity|]. split.
  - destruct NXT as [(A & B & C)|(A & B & C)]; rewrite C; [rewrite Nat.mod_small by lia; lia|rewrite Nat.add_1_r, A; apply Nat.mod_same; exact LP].
  - split; [rewrite set_nth_length; exact T3|]. split; [destruct (c_mode c); rewrite ?set_nth_length; exact T4|]. intros i Hi. destruct (Nat.eq_dec i (t mod len s)%nat) as [->|NI].
    + rewrite set_nth_same by lia. f_equal. destruct NXT as [(A & B & C)|(A & B & C)]; rewrite B, C.
      * rewrite (proj2 (Nat.ltb_lt _ _)) by lia. lia.
      * rewrite (proj2 (Nat.ltb_ge _ _)) by lia. lia.
    + rewrite set_nth_other by congruence. rewrite (T5 i Hi). f_equal. destruct NXT as [(A & B & C)|(A & B & C)]; rewrite B, C.
      * destruct (Nat.ltb_spec i (t mod len s)), (Nat.ltb_spec i (S (t mod len s))); lia.
      * rewrite (proj2 (Nat.ltb_lt i (t mod len s)%nat)) by lia. rewrite (proj2 (Nat.ltb_ge i 0)) by lia. lia.
Qed.
Lemma loop_even s M : s <> [] -> (forall q, In q s -> num_sub c (snd q) = Z.of_nat M) -> forall fuel t st x, even s t st -> (len x < c_batch c)%nat -> (t + (c_batch c - len x) <= len s * M)%nat -> (c_batch c - len x <= fuel)%nat ->
  exists st' x', sub_loop c mx fuel st x = Ok (st', x') /\ len x' = c_batch c /\ s_batch st' = s_batch st /\ even s (t + (c_batch c - len x)) st'.
Proof.
  intros NE AM. induction fuel as [|fuel IH]; intros t st x EV LX TM FU; [lia|]. cbn [sub_loop]. destruct (visit_even s t st x M NE AM) as (st1 & r & E & B & EV1); [lia|exact EV|]. rewrite E. cbn [bind]. rewrite app_length. cbn [length].
  destruct (Nat.eqb_spec (len x + 1) (c_batch c)) as [Q|Q].
  - exists st1, (x ++ [r]). split; [reflexivity|]. split; [rewrite app_length; exact Q|]. split; [exact B|]. replace (t + (c_batch c - len x))%nat with (S t) by lia. exact EV1.
  - destruct (IH (S t) st1 (x ++ [r]) EV1) as (st2 & x2 & E2 & L2 & B2 & EV2); rewrite ?app_length; cbn [length]; try lia. exists st2, x2. split; [exact E2|]. split; [exact L2|]. split; [congruence|]. rewrite app_length in EV2. cbn [length] in EV2. replace (t + (c_batch c - len x))%nat with (S t + (c_batch c - (len x + 1)))%nat by lia. exact EV2.
Qed.
Lemma total_uniform s M : (forall q, In q s -> num_sub c (snd q) = Z.of_nat M) -> total c s = Z.of_nat (len s * M).
Proof. unfold total. induction s as [|q s IH]; intros AM; [reflexivity|]. cbn [map zsum fold_right length]. fold (zsum (map (fun p => num_sub c (snd p)) s)). rewrite IH by (intros; apply AM; right; assumption). rewrite (AM q) by (left; reflexivity). lia. Qed.
Theorem C100_uniform : forall s nb M, s <> [] -> (forall q, In q s -> num_sub c (snd q) = Z.of_nat M) -> num_batches c s = Ok nb ->
  nb = Z.of_nat (len s * M / c_batch c) /\ forall k, Z.of_nat k <= nb -> exists xs st, reads c k (fresh s) = Ok (xs, st) /\ s_batch st = Z.of_nat k.
Proof.
  intros s nb M NE AM EN. assert (BZ : c_batch c <> 0%nat) by (unfold num_batches in EN; destruct (c_batch c =? 0)%nat eqn:Q; [discriminate|apply Nat.eqb_neq; exact Q]).
  assert (TU := total_uniform s M AM). assert (NB : nb = Z.of_nat (len s * M / c_batch c)) by (unfold num_batches in EN; rewrite (proj2 (Nat.eqb_neq _ _) BZ) in EN; injection EN as <-; rewrite TU, Nat2Z.inj_div; reflexivity).
  split; [exact NB|]. assert (LP : len s <> 0%nat) by (destruct s; [congruence|cbn; lia]).
  assert (G : forall k b st0, even s (b * c_batch c) st0 -> s_batch st0 = Z.of_nat b -> Z.of_nat (b + k) <= nb -> exists xs st, reads c k st0 = Ok (xs, st) /\ s_batch st = Z.of_nat (b + k)).
  { induction k as [|k IH]; intros b st0 EV B Hb; [exists [], st0; split; [reflexivity|rewrite Nat.add_0_r; exact B]|]. cbn [reads]. pose proof EV as (T1 & _). rewrite (read_in c st0 nb) by (first [rewrite T1; exact EN | lia]). rewrite batch_subs. unfold read_subseqs. rewrite T1, TU, Nat2Z.id.
    assert (HB : ((b + 1) * c_batch c <= len s * M)%nat). { assert (Q : (b + 1 <= len s * M / c_batch c)%nat) by lia. pose proof (Nat.mul_div_le (len s * M) (c_batch c) BZ). nia. }
    destruct (loop_even s M NE AM (len s * M)%nat (b * c_batch c)%nat st0 [] EV) as (st1 & x & E & Lx & B1 & EV1); [cbn; lia|cbn [length]; nia|cbn [length]; nia|]. rewrite E. cbn [bind]. rewrite Lx, Nat.eqb_refl. cbn [bind].
    destruct (IH (S b) (mk_state (s_seqs st1) (s_cur st1) (s_batch st1 + 1) (s_sub st1) (s_frame st1))) as (xs & st2 & E2 & B2).
    - cbn [length] in EV1. rewrite Nat.sub_0_r in EV1. replace (S b * c_batch c)%nat with (b * c_batch c + c_batch c)%nat by lia. exact EV1.
    - cbn [s_batch]. lia.
    - lia.
    - rewrite E2. cbn [bind]. eexists _, st2. split; [reflexivity|]. rewrite B2. f_equal. lia. }
  intros k Hk. apply (G k 0%nat (fresh s)); [|reflexivity|exact Hk]. unfold even, fresh. cbn [s_seqs s_cur s_sub s_frame Nat.mul]. unfold zeros. rewrite !map_length, Nat.mod_0_l, Nat.div_0_l by exact LP. split; [reflexivity|]. split; [reflexivity|]. split; [reflexivity|]. split; [reflexivity|].
  intros i Hi. destruct (nth_sub s (len s) i eq_refl Hi) as (p & E). rewrite nth_error_map, E. reflexivity.
Qed.
End Pieces.
Print Assumptions C100_pieces.
Print Assumptions C100_cover.
Print Assumptions C100_negative_refuted.
Print Assumptions C100_epoch.
Print Assumptions C100_uniform.
(** Otherwise a read can fail before the end of the epoch: one long sequence is reached too late. *)
Definition uneven : seqs := [("a", 10); ("b", 1); ("c", 1); ("d", 1); ("e", 1)]%string.
Theorem C100_unequal_refuted : forall m, m = Sequential \/ m = Random -> let c := mk_conf 7 1 (Some 1) 0 m false in
  num_batches c uneven = Ok 2 /\ (exists x st, reads c 1 (fresh uneven) = Ok (x, st)) /\ reads c 2 (fresh uneven) = Err AssertionError.
Proof. intros m [-> | ->]; (split; [vm_compute; reflexivity|]; split; [eexists _, _; vm_compute; reflexivity|vm_compute; reflexivity]). Qed.
Print Assumptions C100_unequal_refuted.

(** ** Class labels *)
(** With distinct class names and distinct file names, the labels of a batch are one row per piece, with a one at the place of the class of its file and zeros elsewhere. *)
Definition unit_row (n i : nat) (row : list Z) : Prop := len row = n /\ forall j, (j < n)%nat -> nth_error row j = Some (if (j =? i)%nat then 1 else 0).
Lemma lookup_in {B} (d : list (string * B)) k v : NoDup (map fst d) -> In (k, v) d -> lookup k d = Some v.
Proof.
  intros ND H. unfold lookup. assert (HR : In (k, v) (rev d)) by (apply in_rev in H; exact H). assert (NR : NoDup (map fst (rev d))) by (rewrite map_rev; apply NoDup_rev; exact ND).
  revert HR NR. generalize (rev d). clear. intros l. induction l as [|[k' v'] l IH]; intros H ND; [destruct H|]. cbn [find fst]. cbn [map fst] in ND. apply NoDup_cons_iff in ND as (NI & ND). destruct (eqb_spec k' k) as [E|E].
  - subst k'. destruct H as [H|H]; [injection H as ->; reflexivity|]. exfalso. apply NI. apply in_map_iff. exists (k, v). auto.
  - destruct H as [H|H]; [congruence|apply IH; assumption].
Qed.
Lemma combine_at {A B} (a : list A) (b : list B) i x y : nth_error a i = Some x -> nth_error b i = Some y -> In (x, y) (combine a b).
Proof. revert b i. induction a as [|u a IH]; intros [|v b] [|i] Ha Hb; try discriminate; cbn in *; [injection Ha as ->; injection Hb as ->; auto|right; eapply IH; eassumption]. Qed.
Lemma fst_combine {A B} (a : list A) (b : list B) : len a = len b -> map fst (combine a b) = a.
Proof. revert b. induction a as [|u a IH]; intros [|v b] H; try discriminate; [reflexivity|]. cbn. rewrite IH by (injection H; auto). reflexivity. Qed.
Lemma class_at classes i k : NoDup classes -> nth_error classes i = Some k -> lookup k (class_dict classes) = Some i.
Proof.
  intros ND E. unfold class_dict. apply lookup_in; [rewrite fst_combine by (rewrite seq_length; reflexivity); exact ND|]. eapply combine_at; [exact E|]. assert (L : (i < len classes)%nat) by (apply nth_error_Some; congruence).
  rewrite (nth_error_nth' _ 0%nat) by (rewrite seq_length; exact L). rewrite seq_nth by exact L. reflexivity.
Qed.
Lemma hot_row n i : (i < n)%nat -> unit_row n i (set_nth (repeat 0 n) i 1).
Proof.
  intros L. split; [rewrite set_nth_length, repeat_length; reflexivity|]. intros j Hj. destruct (Nat.eqb_spec j i) as [->|N]; [apply set_nth_same; rewrite repeat_length; exact L|]. rewrite set_nth_other by congruence.
  rewrite (nth_error_nth' _ 0) by (rewrite repeat_length; exact Hj). rewrite nth_repeat. reflexivity.
Qed.
Theorem C100_classes : forall classes scp x, NoDup classes -> NoDup (map snd scp) -> (forall p, In p scp -> In (fst p) classes) -> (forall r, In r x -> In (req_key r) (map snd scp)) ->
  exists rows, class_rows classes scp x = Ok rows /\ Forall2 (fun r row => forall k i, In (k, req_key r) scp -> nth_error classes i = Some k -> unit_row (len classes) i row) x rows.
Proof.
  intros classes scp x NC NF IC IX.
  assert (KD : exists d, key_class classes scp = Ok d /\ map fst d = map snd scp /\ forall k f i, In (k, f) scp -> nth_error classes i = Some k -> In (f, i) d).
  { unfold key_class. clear NF IX. induction scp as [|[k f] scp IH]; [exists []; split; [reflexivity|split; [reflexivity|intros ? ? ? []]]|]. destruct IH as (d & E & F & G); [intros p Hp; apply IC; right; exact Hp|].
    destruct (In_nth_error classes k (IC (k, f) (or_introl eq_refl))) as (i & Ei). exists ((f, i) :: d). cbn [mapM fst snd]. rewrite (class_at classes i k NC Ei). cbn [bind]. rewrite E. cbn [bind map fst snd]. rewrite F. split; [reflexivity|]. split; [reflexivity|].
    intros k' f' i' [H|H] E'; [injection H as <- <-; left; f_equal; rewrite NoDup_nth_error in NC; apply NC; [apply nth_error_Some; congruence|congruence]|right; eapply G; eassumption]. }
  destruct KD as (d & E & F & G). unfold class_rows. rewrite E. cbn [bind]. assert (NU : num_classes classes = len classes).
  { unfold num_classes. apply Permutation_length. apply NoDup_Permutation; [apply unique_nodup|exact NC|intros k; apply unique_in]. }
  rewrite NU. clear E. assert (ND : NoDup (map fst d)) by (rewrite F; exact NF).
  induction x as [|r x IH]; [exists []; split; [reflexivity|constructor]|]. destruct IH as (rows & E & H); [intros q Hq; apply IX; right; exact Hq|]. cbn [mapM].
  assert (HR := IX r (or_introl eq_refl)). apply in_map_iff in HR as ((k & f) & Ef & Hk). cbn [snd] in Ef. subst f. destruct (In_nth_error classes k (IC _ Hk)) as (i & Ei). assert (Li : (i < len classes)%nat) by (apply nth_error_Some; cbn [fst] in Ei; congruence). cbn [fst] in Ei.
  assert (LK := lookup_in d _ _ ND (G _ _ _ Hk Ei)). unfold one_row at 1. rewrite LK. rewrite (proj2 (Nat.ltb_lt _ _) Li). cbn [bind]. rewrite E. cbn [bind]. eexists. split; [reflexivity|]. constructor; [|exact H].
  intros k' i' Hk' Ei'. assert (LK' := lookup_in d _ _ ND (G _ _ _ Hk' Ei')). rewrite LK in LK'. injection LK' as <-. apply hot_row. exact Li.
Qed.
Print Assumptions C100_classes.
(** If a class name is repeated in the list of classes, the number of columns is smaller than the largest class number: the last class, alone, makes the read fail. *)
Theorem C100_classes_refuted : forall classes k f, ~ NoDup classes -> nth_error classes (len classes - 1) = Some k -> class_rows classes [(k, f)] [Whole f] = Err IndexError.
Proof.
  intros classes k f ND E. unfold class_rows, key_class. cbn [mapM fst snd]. assert (LK : lookup k (class_dict classes) = Some (len classes - 1)%nat).
  { destruct (rev classes) as [|z rs] eqn:R; [assert (classes = []) by (rewrite <- (rev_involutive classes), R; reflexivity); subst; exfalso; apply ND; constructor|].
    assert (C : classes = rev rs ++ [z]) by (rewrite <- (rev_involutive classes), R; reflexivity). assert (LC : len classes = S (len (rev rs))) by (rewrite C, app_length; cbn; lia). rewrite LC in *. replace (S (len (rev rs)) - 1)%nat with (len (rev rs)) in * by lia.
    rewrite C, nth_error_app2, Nat.sub_diag in E by lia. cbn in E. injection E as ->. unfold lookup, class_dict. rewrite LC, C, seq_S.
    assert (CA : combine (rev rs ++ [k]) (seq 0 (len (rev rs)) ++ [(0 + len (rev rs))%nat]) = combine (rev rs) (seq 0 (len (rev rs))) ++ [(k, len (rev rs))]).
    { assert (H : forall (a : list string) (b : list nat), len a = len b -> forall x y, combine (a ++ [x]) (b ++ [y]) = combine a b ++ [(x, y)]) by (induction a as [|u a IH]; intros [|v b] HL x y; try discriminate; [reflexivity|]; cbn; rewrite IH by (injection HL; auto); reflexivity). apply H. rewrite seq_length. reflexivity. }
    rewrite CA, rev_app_distr. cbn [rev app find fst]. rewrite (proj2 (eqb_eq _ _)) by reflexivity. reflexivity. }
  rewrite LK. cbn [bind mapM]. unfold one_row, lookup. cbn [rev app find fst req_key]. rewrite (proj2 (eqb_eq _ _)) by reflexivity. cbn [option_map snd].
  assert (LU : (num_classes classes < len classes)%nat).
  { unfold num_classes. assert (I : incl (unique classes) classes) by (intros a; apply unique_in). pose proof (NoDup_incl_length (unique_nodup classes) I) as LE. destruct (Nat.eq_dec (len (unique classes)) (len classes)) as [Q|Q]; [|lia].
    exfalso. apply ND. eapply NoDup_incl_NoDup; [apply (unique_nodup classes)|lia|exact I]. }
  rewrite (proj2 (Nat.ltb_ge _ _)) by lia. reflexivity.
Qed.
Print Assumptions C100_classes_refuted.

(** ** Witnesses *)
Definition w_conf := mk_conf 2 3 (Some 4) 1 Sequential false.
Definition w_seqs : seqs := [("a", 10); ("b", 9)]%string.
Example C100_w1 : num_batches w_conf w_seqs = Ok 3 /\ option_map fst (match reads w_conf 3 (fresh w_seqs) with Ok p => Some p | _ => None end) =
  Some [[Slice "a" 0 4; Slice "b" 0 4]; [Slice "a" 3 4; Slice "b" 3 4]; [Slice "a" 6 4; Slice "b" 6 3]]%string.
Proof. split; vm_compute; reflexivity. Qed.
Example C100_w2 : map (fun q => num_sub w_conf (snd q)) w_seqs = [3; 3].
Proof. vm_compute. reflexivity. Qed.
Example C100_w3 : class_rows ["x"; "y"]%string [("y", "a"); ("x", "b")]%string [Whole "a"; Rand "b" 3]%string = Ok [[0; 1]; [1; 0]].
Proof. vm_compute. reflexivity. Qed.
Example C100_w4 : exists st, reads (mk_conf 2 3 None 0 Sequential false) 1 (fresh [("a", 10); ("s", 2); ("b", 9); ("d", 4)]%string) = Ok ([[Whole "a"; Whole "b"]]%string, st).
Proof. eexists. vm_compute. reflexivity. Qed.
