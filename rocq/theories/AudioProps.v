(** C92: audio readers; C93: copying of features and merging of HDF5 files. *)
From Coq Require Import ZArith QArith Qround List Bool Arith String Ascii Lia Permutation.
From Verif Require Import Base BaseFacts ListUtils ListUtilsProps Mat Str Segments SegmentsProps ScpSplit Ark H5 H5Props Audio.
Import ListNotations.
Open Scope list_scope. Open Scope Z_scope.

Lemma sample_floor fs t : 0 <= fs -> (0 <= t)%Q -> sample_of fs t = Qfloor (t * inject_Z fs) /\ 0 <= sample_of fs t.
Proof.
  intros F T. unfold sample_of. unfold Qle in T. cbn in T. rewrite Z.mul_1_r in T. assert (P : 0 <= Qnum t * fs) by (apply Z.mul_nonneg_nonneg; assumption).
  rewrite Z.quot_div_nonneg by lia. split; [|apply Z.div_pos; lia]. unfold Qfloor, Qmult, inject_Z. destruct t as [a b]. cbn. rewrite Pos.mul_1_r. reflexivity.
Qed.

Lemma py_slice_pos {X} (a : list X) lo hi : 0 <= lo -> 0 <= hi -> hi <= Z.of_nat (len a) -> py_slice a lo hi = firstn (Z.to_nat hi - Z.to_nat lo) (skipn (Z.to_nat lo) a).
Proof.
  intros H1 H2 H3. unfold py_slice, slice_ix. destruct (Z.ltb_spec lo 0); [lia|]. destruct (Z.ltb_spec hi 0); [lia|].
  rewrite (Z.min_r _ hi), (Z.max_r 0 hi) by lia. rewrite Z.max_r by lia. destruct (Z.le_gt_cases lo (Z.of_nat (len a))) as [L|L].
  - rewrite (Z.min_r _ lo) by lia. f_equal. lia.
  - rewrite (Z.min_l _ lo) by lia. rewrite !skipn_all2 by lia. rewrite !firstn_nil. reflexivity.
Qed.

Section AudioP.
Context {X : Type}.
Variable scale : X -> X.
Variable sound pipe : string -> res (list X * Z).
Variable ext_of : string -> string.
Notation rspec := (read_wavspecifier scale sound pipe ext_of).
Notation rseg := (read_segment scale sound pipe ext_of).
Notation sread := (seq_read scale sound pipe ext_of).
Notation sreads := (seq_reads scale sound pipe ext_of).
Notation rread := (random_read1 scale sound pipe ext_of).

(** A segment of a recording with n samples holds the samples from floor(tbeg fs) on and before floor(tend fs), or before the end when the
    segment goes beyond it; a segment that begins after the end is refused (with a NameError). *)
Theorem C92_segment : forall files s path x fs, path_of files (sg_file s) = Ok path -> rspec path = Ok (x, fs) -> 0 <= fs -> (0 <= sg_tb s)%Q -> (sg_tb s <= sg_te s)%Q ->
  let b := Qfloor (sg_tb s * inject_Z fs) in let e := Z.min (Z.of_nat (len x)) (Qfloor (sg_te s * inject_Z fs)) in
  (b < Z.of_nat (len x) -> exists y, rseg files s = Ok (y, fs) /\ Z.of_nat (len y) = e - b /\
     forall i, 0 <= i < e - b -> nth_error y (Z.to_nat i) = nth_error x (Z.to_nat (b + i))) /\
  (Z.of_nat (len x) <= b -> rseg files s = Err NameError).
Proof.
  intros files s path x fs P W F B E b e. unfold read_segment. rewrite P. cbn [bind]. rewrite W. cbn [bind].
  destruct (sample_floor fs (sg_tb s) F B) as (Eb & Pb). assert (E0 : (0 <= sg_te s)%Q) by (eapply Qle_trans; eassumption).
  destruct (sample_floor fs (sg_te s) F E0) as (Ee & Pe). rewrite Eb in Pb |- *. rewrite Ee in Pe |- *. fold b. fold b in Pb.
  assert (LE : b <= Qfloor (sg_te s * inject_Z fs)).
  { unfold b. apply Qfloor_resp_le. apply Qmult_le_compat_r; [exact E|]. unfold Qle, inject_Z. cbn. lia. }
  assert (TE : negb (Qle_bool 0 (sg_te s)) = false) by (apply negb_false_iff, Qle_bool_iff; exact E0). rewrite TE, orb_false_r.
  split; intros H.
  - destruct (Z.leb_spec (Z.of_nat (len x)) b) as [L|L]; [lia|]. clear L.
    assert (EE : (if Z.of_nat (len x) <? Qfloor (sg_te s * inject_Z fs) then Z.of_nat (len x) else Qfloor (sg_te s * inject_Z fs)) = e).
    { unfold e. destruct (Z.ltb_spec (Z.of_nat (len x)) (Qfloor (sg_te s * inject_Z fs))); lia. }
    rewrite EE. assert (EB : b <= e <= Z.of_nat (len x)) by lia. eexists. split; [reflexivity|]. clearbody e b. rewrite py_slice_pos by lia.
    split; [rewrite firstn_length, skipn_length; lia|]. intros i Hi. rewrite nth_error_firstn, nth_error_skipn. destruct (Nat.ltb_spec (Z.to_nat i) (Z.to_nat e - Z.to_nat b)); [f_equal; lia|lia].
  - destruct (Z.leb_spec (Z.of_nat (len x)) b); [reflexivity|lia].
Qed.

(** "until the end of the file", tend < 0, cannot be asked for: the table is refused unless tbeg is negative too, and then the segment is the
    end of the recording. *)
Theorem C92_open_end_refuted : forall t s, In s t -> (sg_te s < 0)%Q -> 
  ((0 <= sg_tb s)%Q -> load_segs (SegPath t) = Err AssertionError) /\
  (forall files path x fs, (sg_tb s <= sg_te s)%Q -> path_of files (sg_file s) = Ok path -> rspec path = Ok (x, fs) -> 0 <= fs -> x <> [] ->
     let k := - sample_of fs (sg_tb s) in
     rseg files s = Ok (if k =? 0 then x else skipn (len x - Z.to_nat k) x, fs)).
Proof.
  intros t s I N. split.
  - intros P. unfold load_segs, sl_new. destruct (forallb _ t) eqn:E; [|reflexivity]. rewrite forallb_forall in E. specialize (E s I). apply Qle_bool_iff in E.
    exfalso. apply (Qlt_not_le _ _ N). eapply Qle_trans; eassumption.
  - intros files path x fs LE P W F NX k. unfold read_segment. rewrite P. cbn [bind]. rewrite W. cbn [bind].
    assert (TB : Qnum (sg_tb s) < 0). { assert (sg_tb s < 0)%Q by (eapply Qle_lt_trans; eassumption). unfold Qlt in H. cbn in H. lia. }
    assert (K : 0 <= k).
    { unfold k, sample_of. rewrite <- Z.quot_opp_l by lia. rewrite <- Z.mul_opp_l. apply Z.quot_pos; nia. }
    assert (LX : 0 < Z.of_nat (len x)) by (destruct x; [congruence|cbn; lia]).
    destruct (Z.leb_spec (Z.of_nat (len x)) (sample_of fs (sg_tb s))) as [L|L]; [unfold k in K; lia|].
    assert (TE : negb (Qle_bool 0 (sg_te s)) = true). { apply negb_true_iff. destruct (Qle_bool 0 (sg_te s)) eqn:Q; [|reflexivity]. apply Qle_bool_iff in Q. exfalso. apply (Qlt_not_le _ _ N Q). }
    rewrite TE, orb_true_r. f_equal. f_equal. unfold py_slice, slice_ix. fold k. replace (sample_of fs (sg_tb s)) with (- k) by (unfold k; lia). clearbody k. clear L.
    destruct (Z.ltb_spec (Z.of_nat (len x)) 0); [lia|]. rewrite Z.min_id, (Z.max_r 0 (Z.of_nat _)) by lia.
    destruct (Z.eqb_spec k 0) as [->|NK].
    + cbn. rewrite Z.min_r, Z.max_l by lia. cbn. rewrite Z.sub_0_r, Nat2Z.id. apply firstn_all.
    + destruct (Z.ltb_spec (- k) 0); [|lia]. rewrite Z.min_r by lia.
      replace (Z.to_nat (Z.max 0 (- k + Z.of_nat (len x)))) with (len x - Z.to_nat k)%nat by lia. apply firstn_all2. rewrite skipn_length. lia.
Qed.

(** Files with the extension .w64 are refused, although the list of extensions is meant to have it. *)
Theorem C92_w64_refuted : forall w c, last_char (rstrip (lstrip w)) = Some c -> c <> "|"%char -> ext_of (rstrip (lstrip w)) = ".w64"%string -> rspec w = Err BareException.
Proof.
  intros w c L N E. unfold read_wavspecifier. rewrite L. destruct (Ascii.eqb_spec c "|"); [congruence|]. rewrite E. reflexivity.
Qed.

(** ** Sequential reading *)

(** what the reader delivers for each of its items: its segments, or its files *)
Definition items (r : areader) : list (res (string * (list X * Z))) :=
  match ar_segs r with
  | Some t => map (fun s => w <- rseg (ar_files r) s ;; Ok (sg_id s, w)) t
  | None => map (fun p => w <- rspec (snd p) ;; Ok (fst p, w)) (ar_files r)
  end.

Lemma items_len r : len (items r) = num_items r.
Proof. unfold items, num_items. destruct (ar_segs r); apply map_length. Qed.
Lemma item_at r : (ar_cur r < num_items r)%nat -> nth_error (items r) (ar_cur r) = Some (read_item scale sound pipe ext_of r).
Proof.
  unfold items, num_items, read_item. destruct (ar_segs r) as [t|]; intros L; rewrite nth_error_map.
  - destruct (nth_error t (ar_cur r)) eqn:E; [reflexivity|]. apply nth_error_None in E. lia.
  - destruct (nth_error (ar_files r) (ar_cur r)) eqn:E; [reflexivity|]. apply nth_error_None in E. lia.
Qed.

Lemma skipn_step {A} (l : list A) n x : nth_error l n = Some x -> skipn n l = x :: skipn (S n) l.
Proof. revert n. induction l as [|y l IH]; intros [|n] E; cbn in *; try discriminate; [congruence|]. apply IH. exact E. Qed.

Lemma skipn_skipn {A} (l : list A) a b : skipn a (skipn b l) = skipn (a + b) l.
Proof. revert l. induction b as [|b IH]; intros l; [rewrite Nat.add_0_r; reflexivity|]. rewrite Nat.add_succ_r. destruct l; [rewrite !skipn_nil; reflexivity|]. cbn [skipn]. apply IH. Qed.

Lemma loop_ok n : forall r, (ar_cur r <= num_items r)%nat ->
  seq_loop scale sound pipe ext_of n r = (l <- mapM (fun x => x) (firstn n (skipn (ar_cur r) (items r))) ;;
    Ok (l, mk_ar (ar_files r) (ar_segs r) (Nat.min (ar_cur r + n) (num_items r)))).
Proof.
  induction n as [|n IH]; intros r L.
  - cbn. rewrite Nat.add_0_r, Nat.min_l by exact L. destruct r; reflexivity.
  - cbn [seq_loop]. unfold ar_eof. destruct (Nat.eqb_spec (ar_cur r) (num_items r)) as [E|E].
    + rewrite E, <- items_len, skipn_all. rewrite firstn_nil. cbn. rewrite items_len, Nat.min_r by lia. rewrite <- E. destruct r; reflexivity.
    + assert (LT : (ar_cur r < num_items r)%nat) by lia. rewrite (skipn_step _ _ _ (item_at r LT)). cbn [firstn mapM].
      destruct (read_item scale sound pipe ext_of r) as [x|e]; [|reflexivity]. cbn [bind].
      set (r1 := mk_ar _ _ _). assert (I1 : items r1 = items r) by reflexivity. assert (N1 : num_items r1 = num_items r) by reflexivity.
      rewrite IH by (rewrite N1; cbn; lia). rewrite I1, N1. cbn [ar_cur ar_files ar_segs r1]. destruct (mapM _ _); [|reflexivity]. cbn [bind].
      rewrite <- Nat.add_succ_comm. reflexivity.
Qed.

(** Successive reads deliver the items once each and in order, whatever the sizes of the reads. *)
Theorem C92_sequential : forall ns r outs r', (ar_cur r <= num_items r)%nat -> Forall (fun n => 0 < n) ns -> sreads ns r = Ok (outs, r') ->
  let total := Z.to_nat (fold_right Z.add 0 ns) in
  mapM (fun x => x) (firstn total (skipn (ar_cur r) (items r))) = Ok (concat outs) /\
  ar_cur r' = Nat.min (ar_cur r + total) (num_items r) /\ ar_files r' = ar_files r /\ ar_segs r' = ar_segs r /\
  Forall2 (fun n l => Z.of_nat (len l) <= n) ns outs.
Proof.
  induction ns as [|n ns IH]; intros r outs r' L P E; cbn [seq_reads fold_right] in *.
  - injection E as <- <-. cbn. rewrite Nat.add_0_r, Nat.min_l by exact L. repeat split. constructor.
  - inversion_clear P as [|? ? Pn P']. unfold seq_read in E. destruct (Z.eqb_spec n 0); [lia|]. rewrite loop_ok in E by exact L.
    destruct (mapM _ (firstn (Z.to_nat n) _)) as [l|] eqn:El; [|discriminate]. cbn [bind] in E. set (r1 := mk_ar _ _ _) in E.
    destruct (sreads ns r1) as [[ls r2]|] eqn:E2; [|discriminate]. cbn [bind] in E.
    assert (outs = l :: ls /\ r' = r2) as (-> & ->) by (injection E; auto). clear E.
    assert (N1 : num_items r1 = num_items r) by reflexivity. assert (I1 : items r1 = items r) by reflexivity.
    destruct (IH r1 ls r2) as (H1 & H2 & H3 & H4 & H5); [rewrite N1; cbn; lia|exact P'|exact E2|].
    rewrite I1, N1 in *. cbn [ar_cur ar_files ar_segs r1] in *.
    assert (S0 : 0 <= fold_right Z.add 0 ns) by (clear - P'; induction P'; cbn; lia).
    rewrite Z2Nat.inj_add by lia. set (m := Z.to_nat n) in *. set (k := Z.to_nat (fold_right Z.add 0 ns)) in *.
    split; [|split; [|split; [exact H3|split; [exact H4|]]]].
    + cbn [concat]. set (rest := skipn (ar_cur r) (items r)) in *.
      assert (Q : firstn (m + k) rest = firstn m rest ++ firstn k (skipn (Nat.min (ar_cur r + m) (num_items r)) (items r))).
      { assert (SK : skipn (Nat.min (ar_cur r + m) (num_items r)) (items r) = skipn m rest).
        { unfold rest. rewrite skipn_skipn, (Nat.add_comm m). destruct (Nat.le_gt_cases (ar_cur r + m) (num_items r)) as [Q|Q]; [rewrite Nat.min_l by exact Q; reflexivity|].
          rewrite Nat.min_r by lia. rewrite <- items_len, skipn_all, skipn_all2 by (rewrite items_len; lia). reflexivity. }
        rewrite SK. rewrite <- (firstn_skipn m rest) at 1. destruct (Nat.le_gt_cases m (len rest)) as [Q|Q].
        - rewrite firstn_app, firstn_length, Nat.min_l by exact Q. rewrite firstn_all2 by (rewrite firstn_length; lia). f_equal. f_equal. lia.
        - rewrite (skipn_all2 rest) by lia. rewrite firstn_nil, !app_nil_r. apply firstn_all2. rewrite firstn_length. lia. }
      rewrite Q, mapM_app, El. cbn [bind]. rewrite H1. reflexivity.
    + rewrite H2. lia.
    + constructor; [|exact H5]. apply mapM_length in El. rewrite El. rewrite firstn_length. unfold m. lia.
Qed.

(** The iterator stops exactly after the last item. *)
Theorem C92_iterator : forall r, (ar_cur r <= num_items r)%nat ->
  (seq_next scale sound pipe ext_of r = Err StopIteration <-> ar_cur r = num_items r \/ nth_error (items r) (ar_cur r) = Some (Err StopIteration)) /\
  (forall x r', seq_next scale sound pipe ext_of r = Ok (x, r') -> nth_error (items r) (ar_cur r) = Some (Ok x) /\ ar_cur r' = S (ar_cur r)).
Proof.
  intros r L. unfold seq_next, seq_read. change (1 =? 0) with false. change (Z.to_nat 1) with 1%nat. rewrite loop_ok by exact L.
  destruct (Nat.eq_dec (ar_cur r) (num_items r)) as [E|E].
  - rewrite E at 1 2. rewrite <- items_len, skipn_all. cbn. split; [tauto|]. intros x r' Q. rewrite E, <- items_len, skipn_all in Q. discriminate.
  - assert (LT : (ar_cur r < num_items r)%nat) by lia. rewrite (skipn_step _ _ _ (item_at r LT)). cbn [firstn mapM]. rewrite (item_at r LT).
    destruct (read_item scale sound pipe ext_of r) as [x|e] eqn:Ex; cbn [bind mapM].
    + split; [split; [discriminate|intros [Q|Q]; [congruence|discriminate]]|]. intros y r' Q. injection Q as <- <-. split; [reflexivity|]. cbn. lia.
    + split; [split; [intros Q; right; injection Q as ->; reflexivity|intros [Q|Q]; [congruence|injection Q as ->; reflexivity]]|]. intros y r' Q. discriminate.
Qed.

(** read(0) delivers all the remaining files; with segments it stops after as many segments as there are files. *)
Theorem C92_read_all : forall r, ar_segs r = None -> (ar_cur r <= num_items r)%nat ->
  sread r 0 = (l <- mapM (fun x => x) (skipn (ar_cur r) (items r)) ;; Ok (l, mk_ar (ar_files r) None (len (ar_files r)))).
Proof.
  intros r N L. unfold seq_read. cbn [Z.eqb]. rewrite loop_ok by exact L. unfold num_items in *. rewrite N in *.
  replace (Z.to_nat (Z.of_nat (len (ar_files r)) - Z.of_nat (ar_cur r))) with (len (ar_files r) - ar_cur r)%nat by lia.
  rewrite firstn_all2 by (rewrite skipn_length, items_len; unfold num_items; rewrite N; lia). replace (Nat.min _ _) with (len (ar_files r)) by lia. reflexivity.
Qed.
Theorem C92_read_all_segments_refuted : forall r t l r', ar_segs r = Some t -> (ar_cur r <= len t)%nat -> sread r 0 = Ok (l, r') ->
  len l = Nat.min (len (ar_files r) - ar_cur r) (len t - ar_cur r) /\ ((len (ar_files r) < len t)%nat -> (len l < len t - ar_cur r \/ ar_cur r = len t)%nat).
Proof.
  intros r t l r' E L Q. unfold seq_read in Q. cbn [Z.eqb] in Q. rewrite loop_ok in Q by (unfold num_items; rewrite E; exact L).
  destruct (mapM _ _) as [l1|] eqn:El; [|discriminate]. cbn [bind] in Q. assert (l1 = l) by (injection Q; auto). subst l1. apply mapM_length in El.
  rewrite firstn_length, skipn_length, items_len in El. unfold num_items in El. rewrite E in El. lia.
Qed.

(** ** Reading by name *)
Lemma path_in files k p : NoDup (map fst files) -> In (k, p) files -> path_of files k = Ok p.
Proof.
  intros N I. unfold path_of. apply in_rev in I. assert (N' : NoDup (map fst (rev files))) by (rewrite map_rev; apply NoDup_rev; exact N). revert N' I.
  generalize (rev files). induction l as [|[a b] l IH]; intros N' I; [destruct I|]. cbn. inversion_clear N'. destruct (eqb_spec a k) as [->|NE].
  - destruct I as [I|I]; [inversion I; subst; reflexivity|]. exfalso. apply H. apply (in_map fst) in I. exact I.
  - destruct I as [I|I]; [congruence|]. apply IH; assumption.
Qed.

Theorem C92_random : forall files segs keys ws, random_read scale sound pipe ext_of files segs keys = Ok ws ->
  Forall2 (fun k w => rread files segs k = Ok w) keys ws.
Proof. intros files segs keys ws E. apply mapM_ok_iff in E. exact E. Qed.

(** With distinct names the reading by name of an item gives what the sequential reading gives; an unknown name is refused. *)
Theorem C92_random_agrees : forall files segs,
  NoDup (match segs with Some t => map sg_id t | None => map fst files end) ->
  (forall k x, In (Ok (k, x)) (items (mk_ar files segs 0)) -> rread files segs k = Ok x) /\
  (forall k, ~ In k (match segs with Some t => map sg_id t | None => map fst files end) -> rread files segs k = Err BareException).
Proof.
  intros files [t|] N; unfold items, random_read1; cbn [ar_segs ar_files].
  - assert (FI : forall s, In s t -> filter (fun s0 => eqb (sg_id s0) (sg_id s)) t = [s]).
    { clear - N. induction t as [|a t IH]; intros s I; [destruct I|]. cbn [map] in N. inversion_clear N. cbn [filter]. destruct I as [->|I].
      - destruct (eqb_spec (sg_id s) (sg_id s)); [|congruence]. f_equal.
        assert (Q : forall l, ~ In (sg_id s) (map sg_id l) -> filter (fun s0 => eqb (sg_id s0) (sg_id s)) l = []); [|apply Q; exact H].
        induction l as [|b l IHl]; intros NI; [reflexivity|]. cbn in *. destruct (eqb_spec (sg_id b) (sg_id s)); [tauto|]. apply IHl. tauto.
      - destruct (eqb_spec (sg_id a) (sg_id s)) as [E|E]; [exfalso; apply H; rewrite E; apply in_map; exact I|]. apply IH; assumption. }
    split.
    + intros k x I. apply in_map_iff in I as (s & E & I). destruct (rseg files s) as [w|] eqn:Ew; [|discriminate]. cbn in E. injection E as <- <-. rewrite (FI s I). exact Ew.
    + intros k NI. destruct (filter _ t) as [|s l] eqn:E; [reflexivity|]. exfalso. assert (I : In s (filter (fun s => eqb (sg_id s) k) t)) by (rewrite E; left; reflexivity).
      apply filter_In in I as (I & Q). destruct (eqb_spec (sg_id s) k) as [<-|]; [|discriminate]. apply NI. apply in_map. exact I.
  - split.
    + intros k x I. apply in_map_iff in I as ([a p] & E & I). cbn in E. destruct (rspec p) as [w|] eqn:Ew; [|discriminate]. cbn in E. injection E as <- <-.
      rewrite (proj2 (inb_iff a (map fst files))) by (apply (in_map fst) in I; exact I). rewrite (path_in files a p N I). exact Ew.
    + intros k NI. rewrite (proj2 (inb_false k (map fst files)) NI). reflexivity.
Qed.

(** ** Parts *)
Theorem C92_parts_files : forall files P, files <> [] -> 1 < P ->
  exists rs, mapM (fun i => seq_open files NoSegs i P) (arange 1 (P + 1)) = Ok rs /\ Permutation (concat (map ar_files rs)) files /\
    Forall (fun r => ar_segs r = None /\ ar_cur r = 0%nat) rs.
Proof.
  intros files P NE HP. destruct (C02_split_group_by_key_partitions _ _ _ files (map fst files)) with (P := P) as (parts & E & T & PM & _); [intros Q; apply map_eq_nil in Q; congruence|rewrite map_length; reflexivity|lia|].
  exists (map (fun p => mk_ar (fst p) None 0) parts). split; [|split].
  - unfold seq_open. cbn [load_segs bind]. destruct (Z.ltb_spec 1 P); [|lia]. clear - E. revert parts E. induction (arange 1 (P + 1)) as [|i l IH]; intros parts E; cbn in *; [injection E as <-; reflexivity|].
    destruct (split_list_group_by_key files (map fst files) i P) as [p|]; [|discriminate]. cbn in *. destruct (mapM _ l) as [ps|] eqn:Eps; [|discriminate]. cbn in E. injection E as <-.
    rewrite (IH ps eq_refl). reflexivity.
  - rewrite map_map. cbn [ar_files].
    assert (TK : take files (concat (map snd parts)) = Ok (concat (map fst parts))).
    { clear - T. induction parts as [|p parts IH]; [reflexivity|]. cbn. unfold take in *. rewrite mapM_app. rewrite (T p (or_introl eq_refl)). cbn. rewrite IH by (intros q Iq; apply T; right; exact Iq). reflexivity. }
    rewrite arange_nat in PM by lia. rewrite Z.sub_0_r, Nat2Z.id in PM. apply Permutation_map_inv in PM as (idx & EI & PI).
    rewrite EI in TK. apply (take_perm files _ idx); [apply Permutation_sym; exact PI|exact TK].
  - apply Forall_forall. intros r I. apply in_map_iff in I as (p & <- & _). split; reflexivity.
Qed.


Lemma loc_own (t : list seg) : NoDup (map sg_id t) -> forall u, incl u t -> concat (map (loc_rows sg_id t) (map sg_id u)) = u.
Proof.
  intros N u. assert (ONE : forall s, In s t -> loc_rows sg_id t (sg_id s) = [s]).
  { clear u. unfold loc_rows. induction t as [|a t IH]; intros s I; [destruct I|]. cbn [map] in N. inversion_clear N. cbn [filter]. destruct I as [->|I].
    - destruct (eqb_spec (sg_id s) (sg_id s)); [|congruence]. f_equal.
      assert (Q : forall l, ~ In (sg_id s) (map sg_id l) -> filter (fun s0 => eqb (sg_id s0) (sg_id s)) l = []); [|apply Q; exact H].
      induction l as [|b l IHl]; intros NI; [reflexivity|]. cbn in *. destruct (eqb_spec (sg_id b) (sg_id s)); [tauto|]. apply IHl. tauto.
    - destruct (eqb_spec (sg_id a) (sg_id s)) as [E|E]; [exfalso; apply H; rewrite E; apply in_map; exact I|]. apply IH; assumption. }
  induction u as [|s u IH]; intros I; [reflexivity|]. cbn [map concat]. rewrite (ONE s) by (apply I; left; reflexivity). cbn. f_equal. apply IH. intros x Ix. apply I. right. exact Ix.
Qed.

(** With distinct segment names the parts of a segmented reader are consecutive runs of the segments, every segment in exactly one part. *)
Theorem C92_parts_segments : forall files t P, NoDup (map sg_id t) -> Forall (fun s => (sg_tb s <= sg_te s)%Q) t -> 1 < P ->
  exists rs, mapM (fun i => seq_open files (SegPath t) i P) (arange 1 (P + 1)) = Ok rs /\
    (exists ts, map ar_segs rs = map Some ts /\ concat ts = t /\
       forall u v, In u ts -> In v ts -> Z.abs (Z.of_nat (len u) - Z.of_nat (len v)) <= 1) /\
    Forall (fun r => ar_files r = files /\ ar_cur r = 0%nat) rs.
Proof.
  intros files t P N V HP. destruct (C01_split_list_partitions _ t P) as (parts & E & CC & CI & T & BAL); [lia|].
  assert (OKS : forall u, incl u t -> sl_new u false = Ok (mk_sl u false)).
  { intros u I. unfold sl_new. replace (forallb _ u) with true; [reflexivity|]. symmetry. apply forallb_forall. intros s Is. apply Qle_bool_iff. rewrite Forall_forall in V. apply V, I, Is. }
  assert (ST : forall i u, split_list t i P = Ok u -> incl (fst u) t -> seq_open files (SegPath t) i P = Ok (mk_ar files (Some (fst u)) 0)).
  { intros i u Eu Iu. unfold seq_open, load_segs. rewrite OKS by (intros x Ix; exact Ix). cbn [bind sl_segs]. destruct (Z.ltb_spec 1 P); [|lia]. unfold sl_split. cbn [sl_by_file sl_segs].
    assert (SP : split_list (map sg_id t) i P = Ok (map sg_id (fst u), snd u)).
    { clear - Eu. unfold split_list, split_list_with in *. rewrite map_length. destruct (P =? 0); [discriminate|]. rewrite take_map. destruct (take t _) as [r|]; [|discriminate]. cbn [bind] in *. injection Eu as <-. reflexivity. }
    rewrite SP. cbn [bind fst]. unfold sl_key. rewrite loc_list_ok by (intros k Ik; apply in_map_iff in Ik as (s & <- & Is); exists s; split; [apply Iu; exact Is|reflexivity]).
    cbn [bind]. rewrite loc_own by assumption. rewrite OKS by exact Iu. reflexivity. }
  assert (INC : forall p, In p parts -> incl (fst p) t).
  { intros p Ip x Ix. rewrite <- CC. apply in_concat. exists (fst p). split; [apply in_map; exact Ip|exact Ix]. }
  exists (map (fun p => mk_ar files (Some (fst p)) 0) parts). split; [|split].
  - clear - E ST INC. revert parts E INC. induction (arange 1 (P + 1)) as [|i l IH]; intros parts E INC; cbn in *; [injection E as <-; reflexivity|].
    destruct (split_list t i P) as [p|] eqn:Ep; [|discriminate]. cbn in *. destruct (mapM _ l) as [ps|] eqn:Eps; [|discriminate]. cbn in E. injection E as <-.
    rewrite (ST i p Ep) by (apply INC; left; reflexivity). cbn. rewrite (IH ps eq_refl) by (intros q Iq; apply INC; right; exact Iq). reflexivity.
  - exists (map fst parts). split; [rewrite !map_map; reflexivity|]. split; [exact CC|]. intros u v Iu Iv. apply in_map_iff in Iu as (p & <- & Ip). apply in_map_iff in Iv as (q & <- & Iq). apply BAL; assumption.
  - apply Forall_forall. intros r I. apply in_map_iff in I as (p & <- & _). split; reflexivity.
Qed.

Local Opaque Qle_bool.
(** Segments that share a name go to the parts of all of them. *)
Theorem C92_parts_duplicate_ids_refuted : forall files s, (sg_tb s <= sg_te s)%Q ->
  seq_open files (SegPath [s; s]) 1 2 = Ok (mk_ar files (Some [s; s]) 0) /\ seq_open files (SegPath [s; s]) 2 2 = Ok (mk_ar files (Some [s; s]) 0).
Proof.
  intros files s V. apply Qle_bool_iff in V. assert (NW : sl_new [s; s] false = Ok (mk_sl [s; s] false)) by (unfold sl_new; cbn; rewrite V; reflexivity).
  assert (LC : loc_list sg_id [s; s] [sg_id s] = Ok [s; s]).
  { unfold loc_list, loc_rows. cbn [mapM filter]. destruct (eqb_spec (sg_id s) (sg_id s)) as [_|N]; [|congruence]. reflexivity. }
  unfold seq_open, load_segs. rewrite NW. unfold sl_split. cbn [bind sl_segs sl_by_file map]. change (1 <? 2) with true. cbn iota.
  change (split_list [sg_id s; sg_id s] 1 2) with (Ok ([sg_id s], [0])). change (split_list [sg_id s; sg_id s] 2 2) with (Ok ([sg_id s], [1])).
  cbn [bind fst]. change (sl_key false) with sg_id. rewrite LC. cbn [bind]. rewrite NW. split; reflexivity.
Qed.
Local Transparent Qle_bool.
(** A SegmentList object as segments is refused. *)
Theorem C92_segment_object_refuted : forall files t i P, seq_open files (SegObject t) i P = Err ValueError.
Proof. reflexivity. Qed.
End AudioP.

(** ** C93 *)
Section Copying.
Context {Rec W : Type}.
Variable write : W -> list Rec -> res W.
Hypothesis write_nil : forall w, write w [] = Ok w.
Hypothesis write_app : forall w a b, write w (a ++ b) = (w1 <- write w a ;; write w1 b).

Lemma copy_loop_ok eof chunk : (forall l, eof l = true -> l = []) -> 0 <= chunk -> forall fuel l w, (len l < fuel)%nat -> copy_loop write fuel eof chunk l w = write w l.
Proof.
  intros EO CH. induction fuel as [|fuel IH]; intros l w L; [lia|]. cbn [copy_loop]. destruct (eof l) eqn:E; [rewrite (EO l E), write_nil; reflexivity|].
  unfold read_chunk. destruct (Z.eqb_spec chunk 0) as [->|NZ].
  - destruct l as [|x l]; [rewrite write_nil; reflexivity|]. destruct (write w (x :: l)) as [w1|]; [|reflexivity]. cbn [bind]. rewrite IH by (cbn in *; lia). apply write_nil.
  - destruct l as [|x l]; [rewrite firstn_nil, write_nil; reflexivity|]. destruct (Z.to_nat chunk) as [|c] eqn:C; [lia|]. cbn [firstn skipn].
    replace (write w (x :: l)) with (write w ((x :: firstn c l) ++ skipn c l)) by (cbn [app]; rewrite firstn_skipn; reflexivity). rewrite write_app. destruct (write w (x :: firstn c l)) as [w1|]; [|reflexivity]. cbn [bind].
    apply IH. rewrite skipn_length. cbn in L. lia.
Qed.
Lemma copy_inputs_ok eof chunk : (forall l, eof l = true -> l = []) -> 0 <= chunk -> forall ins w, copy_inputs write eof chunk ins w = write w (concat ins).
Proof.
  intros EO CH. induction ins as [|l ins IH]; intros w; cbn [copy_inputs concat]; [rewrite write_nil; reflexivity|]. rewrite copy_loop_ok by (auto; lia). rewrite write_app.
  destruct (write w l); [|reflexivity]. apply IH.
Qed.

(** Whatever the chunk size, and whenever the readers report their end, the copy writes the records of all the inputs, one input after the other. *)
Theorem C93_copy : forall eof chunk P ins w, (forall l, eof l = true -> l = []) -> 0 <= chunk -> P <= 1 \/ (len ins <= 1)%nat ->
  copy_feats write eof chunk P (map Ok ins) w = write w (concat ins).
Proof.
  intros eof chunk P ins w EO CH C. unfold copy_feats. rewrite map_length. replace ((1 <? P) && (1 <? len ins)%nat) with false.
  - assert (M : mapM (fun x => x) (map Ok ins) = Ok ins). { clear. induction ins as [|a l IH]; [reflexivity|]. cbn. rewrite IH. reflexivity. }
    rewrite M. cbn [bind]. apply copy_inputs_ok; assumption.
  - symmetry. destruct (Z.ltb_spec 1 P), (Nat.ltb_spec 1 (len ins)); try reflexivity. lia.
Qed.
(** Merging several inputs and splitting in parts at once is refused, before anything is opened. *)
Theorem C93_merge_and_split : forall eof chunk P ins w, 1 < P -> (1 < len ins)%nat -> copy_feats write eof chunk P ins w = Err AssertionError.
Proof.
  intros eof chunk P ins w H1 H2. unfold copy_feats. destruct (Z.ltb_spec 1 P), (Nat.ltb_spec 1 (len ins)); try lia. reflexivity.
Qed.
End Copying.

Lemma ark_write_app cfg a : forall st b, ark_write cfg st (a ++ b) = (st1 <- ark_write cfg st a ;; ark_write cfg st1 b).
Proof. induction a as [|x a IH]; intros st b; [reflexivity|]. cbn. destruct (ark_write1 cfg st x); [|reflexivity]. apply IH. Qed.
Lemma h5_write_app cfg a : forall st b, h5_write cfg st (a ++ b) = (st1 <- h5_write cfg st a ;; h5_write cfg st1 b).
Proof. induction a as [|x a IH]; intros st b; [reflexivity|]. cbn. destruct (h5_write1 cfg st x); [|reflexivity]. apply IH. Qed.
(** The two writers: the copied archive is the archive written in one call. *)
Theorem C93_copy_ark : forall cfg eof chunk P ins st, (forall l, eof l = true -> l = []) -> 0 <= chunk -> P <= 1 \/ (len ins <= 1)%nat ->
  copy_feats (ark_write cfg) eof chunk P (map Ok ins) st = ark_write cfg st (concat ins).
Proof. intros cfg eof chunk P ins st. apply C93_copy; [reflexivity|]. intros w a b. apply ark_write_app. Qed.
Theorem C93_copy_h5 : forall cfg eof chunk P ins st, (forall l, eof l = true -> l = []) -> 0 <= chunk -> P <= 1 \/ (len ins <= 1)%nat ->
  copy_feats (h5_write cfg) eof chunk P (map Ok ins) st = h5_write cfg st (concat ins).
Proof. intros cfg eof chunk P ins st. apply C93_copy; [reflexivity|]. intros w a b. apply h5_write_app. Qed.

(** ** Merging HDF5 files *)
Lemma create_app conv a : forall out b, create_all conv out (a ++ b) = (o <- create_all conv out a ;; create_all conv o b).
Proof. induction a as [|[k d] a IH]; intros out b; [reflexivity|]. cbn. destruct (create_dataset out k (conv d)); [|reflexivity]. apply IH. Qed.
Lemma chunks_ok conv c : (0 < c)%nat -> forall fuel l out, (len l <= fuel)%nat -> merge_chunks conv fuel c l out = create_all conv out l.
Proof.
  intros C. induction fuel as [|fuel IH]; intros l out L.
  - destruct l; [reflexivity|cbn in L; lia].
  - cbn [merge_chunks]. destruct l as [|x l]; [reflexivity|]. destruct c as [|c]; [lia|].
    assert (Q : create_all conv out (x :: l) = (o <- create_all conv out (firstn (S c) (x :: l)) ;; create_all conv o (skipn (S c) (x :: l)))) by (rewrite <- create_app, firstn_skipn; reflexivity).
    rewrite Q. destruct (create_all conv out (firstn (S c) (x :: l))) as [o|]; [|reflexivity]. cbn [bind]. apply IH. rewrite skipn_length. cbn in *. lia.
Qed.
(** what a file holds, by name *)
Definition d0 : dset := DRaw (Kaldi.mk_km Kaldi.F32 (Kaldi.Vec 0) []).
Definition contents (f : h5file) : list (string * dset) := map (fun k => (k, match h5_get f k with Some d => d | None => d0 end)) (h5_keys f).

Lemma get_key f k : In k (h5_keys f) -> exists d, h5_get f k = Some d.
Proof.
  intros I. destruct (h5_get f k) as [d|] eqn:E; [exists d; reflexivity|]. exfalso. apply h5_get_none in E. apply E. unfold h5_keys in I. exact (proj1 (unique_in _ _) I).
Qed.
Lemma merge_file_ok conv cs f out : match cs with Some c => (0 < c)%nat | None => f <> [] end -> merge_file conv cs f out = create_all conv out (contents f).
Proof.
  intros C. unfold merge_file.
  assert (M : mapM (fun k => d <- h5_item f k ;; Ok (k, d)) (h5_keys f) = Ok (contents f)).
  { unfold contents, h5_item. assert (IN : forall k, In k (h5_keys f) -> exists d, h5_get f k = Some d) by apply get_key. revert IN. induction (h5_keys f) as [|k l IH]; intros IN; [reflexivity|].
    destruct (IN k (or_introl eq_refl)) as (d & Ed). cbn [mapM map]. rewrite Ed. cbn [bind]. rewrite IH by (intros; apply IN; right; assumption). reflexivity. }
  rewrite M. cbn [bind]. assert (LC : (0 < match cs with Some c => c | None => len (contents f) end)%nat).
  { destruct cs as [c|]; [exact C|]. unfold contents. rewrite map_length. destruct f as [|[k d] f]; [congruence|]. destruct (h5_keys ((k, d) :: f)) as [|x l] eqn:E; [|cbn; lia].
    assert (I : In k (h5_keys ((k, d) :: f))) by (unfold h5_keys; apply unique_in; left; reflexivity). rewrite E in I. destruct I. }
  destruct (match cs with Some c => c | None => len (contents f) end) as [|c] eqn:Ec; [lia|]. apply chunks_ok; lia.
Qed.
Lemma contents_names f : map fst (contents f) = h5_keys f.
Proof. unfold contents. rewrite map_map. cbn. apply map_id. Qed.
Lemma h5_merge_ok conv cs fs : forall out, match cs with Some c => (0 < c)%nat | None => Forall (fun f => f <> []) fs end ->
  h5_merge conv cs fs out = create_all conv out (concat (map contents fs)).
Proof.
  induction fs as [|f fs IH]; intros out C; [reflexivity|]. cbn [h5_merge map concat]. rewrite create_app, merge_file_ok by (destruct cs; [exact C|inversion_clear C; assumption]).
  destruct (create_all conv out (contents f)); [|reflexivity]. cbn [bind]. apply IH. destruct cs; [exact C|inversion_clear C; assumption].
Qed.
Definition plain (k : string) : Prop := str_in "/" k = false /\ k <> "."%string.
Lemma create_all_ok conv l : forall out, Forall plain (map fst l) -> NoDup (map fst out ++ map fst l) -> create_all conv out l = Ok (out ++ map (fun p => (fst p, conv (snd p))) l).
Proof.
  induction l as [|[k d] l IH]; intros out PL N; [cbn; rewrite app_nil_r; reflexivity|]. cbn [create_all map fst snd] in *. inversion_clear PL as [|? ? (P1 & P2) PL'].
  unfold create_dataset. rewrite P1. destruct (String.eqb_spec k "."); [congruence|]. unfold h5_in. rewrite (proj2 (h5_get_none out k)).
  - cbn [bind]. rewrite IH; [rewrite <- app_assoc; reflexivity|exact PL'|]. rewrite map_app, <- app_assoc. exact N.
  - intros I. apply NoDup_remove_2 in N. apply N. apply in_or_app. left. exact I.
Qed.
Lemma create_all_inv conv l : forall out out', create_all conv out l = Ok out' -> Forall plain (map fst l) /\ map fst out' = map fst out ++ map fst l /\ (NoDup (map fst out) -> NoDup (map fst out')).
Proof.
  induction l as [|[k d] l IH]; intros out out' E; cbn [create_all map fst] in *.
  - injection E as <-. rewrite app_nil_r. repeat split; [constructor|auto].
  - unfold create_dataset in E. destruct (str_in "/" k) eqn:P1; [discriminate|]. destruct (String.eqb_spec k ".") as [|P2]; [discriminate|]. unfold h5_in in E.
    destruct (h5_get out k) eqn:G; [discriminate|]. cbn [bind] in E. apply IH in E as (E1 & E2 & E3). rewrite map_app in E2, E3. rewrite <- app_assoc in E2. split; [|split].
    + constructor; [split; assumption|exact E1].
    + exact E2.
    + intros N. apply E3. cbn. apply (Permutation_NoDup (Permutation_cons_append (map fst out) k)). constructor; [|exact N]. apply h5_get_none. exact G.
Qed.

(** The merged file holds the datasets of all the files, under their names and in the saving precision, and nothing else. *)
Theorem C93_merge : forall conv cs fs, NoDup (concat (map h5_keys fs)) -> Forall plain (concat (map h5_keys fs)) ->
  match cs with Some c => (0 < c)%nat | None => Forall (fun f => f <> []) fs end ->
  exists out, h5_merge conv cs fs [] = Ok out /\ forall k d, h5_get out k = Some d <-> exists f d1, In f fs /\ h5_get f k = Some d1 /\ d = conv d1.
Proof.
  intros conv cs fs N PL C. assert (NM : map fst (concat (map contents fs)) = concat (map h5_keys fs)).
  { clear. induction fs as [|f fs IH]; [reflexivity|]. cbn. rewrite map_app, contents_names, IH. reflexivity. }
  rewrite <- NM in N, PL. exists (map (fun p => (fst p, conv (snd p))) (concat (map contents fs))). split.
  - rewrite h5_merge_ok by exact C. rewrite create_all_ok; [reflexivity|exact PL|exact N].
  - assert (N2 : NoDup (map fst (map (fun p : string * dset => (fst p, conv (snd p))) (concat (map contents fs))))) by (rewrite map_map; exact N).
    intros k d. split.
    + intros G. unfold h5_get in G. destruct (find _ _) as [p|] eqn:E in G; [|discriminate]. apply find_some in E as (I & Q). apply String.eqb_eq in Q. injection G as <-.
      apply in_map_iff in I as ([k1 d1] & <- & I). cbn in Q. subst k1. apply in_concat in I as (l & Il & I). apply in_map_iff in Il as (f & <- & If).
      exists f, d1. split; [exact If|]. split; [|reflexivity]. unfold contents in I. apply in_map_iff in I as (k1 & Q & Ik). destruct (get_key f k1 Ik) as (d2 & G). rewrite G in Q. injection Q as -> ->. exact G.
    + intros (f & d1 & If & G & ->). apply h5_get_in; [exact N2|]. apply in_map_iff. exists (k, d1). split; [reflexivity|]. apply in_concat. exists (contents f). split; [apply in_map; exact If|].
      unfold contents. apply in_map_iff. exists k. rewrite G. split; [reflexivity|]. unfold h5_keys. apply unique_in. destruct (in_dec string_dec k (map fst f)) as [I|NI]; [exact I|]. apply h5_get_none in NI. congruence.
Qed.
(** It is made only if no name is in two of the files. *)
Theorem C93_merge_collision : forall conv cs fs out, match cs with Some c => (0 < c)%nat | None => Forall (fun f => f <> []) fs end ->
  h5_merge conv cs fs [] = Ok out ->
  forall i j f g k, nth_error fs i = Some f -> nth_error fs j = Some g -> h5_get f k <> None -> h5_get g k <> None -> i = j.
Proof.
  intros conv cs fs out C E. rewrite h5_merge_ok in E by exact C. apply create_all_inv in E as (_ & E & N). specialize (N (NoDup_nil _)). rewrite E in N. cbn [map app] in N.
  assert (NM : map fst (concat (map contents fs)) = concat (map h5_keys fs)).
  { clear. induction fs as [|f fs IH]; [reflexivity|]. cbn. rewrite map_app, contents_names, IH. reflexivity. }
  rewrite NM in N. clear - N. assert (KEY : forall f k, h5_get f k <> None -> In k (h5_keys f)).
  { intros f k G. unfold h5_keys. apply unique_in. destruct (in_dec string_dec k (map fst f)) as [I|NI]; [exact I|]. apply h5_get_none in NI. congruence. }
  revert N. induction fs as [|a fs IH]; intros N i j f g k Ei Ej Gf Gg; [destruct i; discriminate|]. cbn in N.
  assert (APP : forall A (l1 l2 : list A) x, NoDup (l1 ++ l2) -> In x l1 -> ~ In x l2).
  { clear. induction l1 as [|y l1 IH]; intros l2 x N I; [destruct I|]. inversion_clear N. destruct I as [->|I]; [intros Q; apply H; apply in_or_app; right; exact Q|apply IH; assumption]. }
  assert (NDR : forall A (l1 l2 : list A), NoDup (l1 ++ l2) -> NoDup l2) by (clear; induction l1 as [|y l1 IH]; intros l2 N; [exact N|inversion_clear N; apply IH; assumption]).
  assert (OTHER : forall n h, nth_error fs n = Some h -> h5_get h k <> None -> In k (concat (map h5_keys fs))).
  { intros n h En G. apply in_concat. exists (h5_keys h). split; [apply in_map, (nth_error_In _ _ En)|apply KEY; exact G]. }
  destruct i as [|i], j as [|j]; cbn in Ei, Ej.
  - reflexivity.
  - injection Ei as <-. exfalso. apply (APP _ _ _ k N); [apply KEY; exact Gf|apply (OTHER j g); assumption].
  - injection Ej as <-. exfalso. apply (APP _ _ _ k N); [apply KEY; exact Gg|apply (OTHER i f); assumption].
  - f_equal. apply (IH (NDR _ _ _ N) i j f g k); assumption.
Qed.
(** Without a chunk size an empty file stops the merge. *)
Theorem C93_merge_empty_refuted : forall conv fs out, h5_merge conv None ([] :: fs) out = Err ValueError.
Proof. reflexivity. Qed.

Print Assumptions C92_segment.
Print Assumptions C92_open_end_refuted.
Print Assumptions C92_w64_refuted.
Print Assumptions C92_sequential.
Print Assumptions C92_iterator.
Print Assumptions C92_read_all.
Print Assumptions C92_read_all_segments_refuted.
Print Assumptions C92_random.
Print Assumptions C92_random_agrees.
Print Assumptions C92_parts_files.
Print Assumptions C92_parts_segments.
Print Assumptions C92_parts_duplicate_ids_refuted.
Print Assumptions C92_segment_object_refuted.
Print Assumptions C93_copy.
Print Assumptions C93_merge_and_split.
Print Assumptions C93_copy_ark.
Print Assumptions C93_copy_h5.
Print Assumptions C93_merge.
Print Assumptions C93_merge_collision.
Print Assumptions C93_merge_empty_refuted.

(** ** Witnesses *)
Definition wscale (x : Z) := 2 * x.
Definition wsound (p : string) : res (list Z * Z) := if String.eqb p "a.wav" then Ok ([1; 2; 3; 4; 5; 6; 7; 8], 4) else Err IOErr.
Definition wpipe (p : string) : res (list Z * Z) := if String.eqb p "sox x " then Ok ([9; 10], 4) else Err IOErr.
Definition wext (p : string) : string := if String.eqb p "a.wav" then ".wav" else "".
Definition wfiles := [("f"%string, "a.wav"%string); ("g"%string, " sox x |"%string)].
Definition wseg (i : string) b e := mk_seg i "f" b e.
(** samples 2 to 5 of the file; a segment that goes beyond the end; reading of a pipe *)
Example C92_segment_witness : read_segment wscale wsound wpipe wext wfiles (wseg "s" (1#2) (3#2)) = Ok ([6; 8; 10; 12], 4) /\
  read_segment wscale wsound wpipe wext wfiles (wseg "s" (7#4) 9) = Ok ([16], 4) /\ read_segment wscale wsound wpipe wext wfiles (wseg "s" 2 9) = Err NameError /\
  read_wavspecifier wscale wsound wpipe wext " sox x | " = Ok ([18; 20], 4).
Proof. repeat split; vm_compute; reflexivity. Qed.
Example C92_sequential_witness : exists r, seq_open wfiles (SegPath [wseg "s" 0 (1#4); wseg "t" (1#4) 1; wseg "u" 1 (3#2)]) 1 1 = Ok r /\
  (do_reads <- seq_reads wscale wsound wpipe wext [2; 5] r ;; Ok (fst do_reads)) = Ok [[("s"%string, ([2], 4)); ("t"%string, ([4; 6; 8], 4))]; [("u"%string, ([10; 12], 4))]] /\
  (do_reads <- seq_read wscale wsound wpipe wext r 0 ;; Ok (len (fst do_reads))) = Ok 2%nat.
Proof. eexists. split; [vm_compute; reflexivity|]. split; vm_compute; reflexivity. Qed.
Example C92_parts_witness : exists rs, mapM (fun i => seq_open wfiles (SegPath [wseg "s" 0 1; wseg "t" 0 1; wseg "u" 0 1]) i 2) (arange 1 3) = Ok rs /\
  map (fun r => option_map (map sg_id) (ar_segs r)) rs = [Some ["s"%string]; Some ["t"%string; "u"%string]].
Proof. eexists. split; vm_compute; reflexivity. Qed.
(** two inputs copied in chunks of 2 by readers that see their end only at the next read *)
Example C93_copy_witness : copy_feats (fun w l => Ok (w ++ [l])) (fun _ => false) 2 1 [Ok [1; 2; 3]; Ok [4; 5]] [] = Ok [[1; 2]; [3]; [4; 5]] /\
  copy_feats (fun w l => Ok (w ++ l)) (fun _ => false) 2 1 [Ok [1; 2; 3]; Ok [4; 5]] [] = Ok [1; 2; 3; 4; 5].
Proof. split; reflexivity. Qed.
Definition wset (n : Z) : dset := DRaw (Kaldi.mk_km Kaldi.F32 (Kaldi.Vec n) []).
Example C93_merge_witness : NoDup (concat (map h5_keys [[("b"%string, wset 1); ("a"%string, wset 2)]; [("c"%string, wset 3)]])) /\
  h5_merge (fun d => d) (Some 1%nat) [[("b"%string, wset 1); ("a"%string, wset 2)]; [("c"%string, wset 3)]] [] = Ok [("a"%string, wset 2); ("b"%string, wset 1); ("c"%string, wset 3)] /\
  h5_merge (fun d => d) (Some 1%nat) [[("b"%string, wset 1)]; [("b"%string, wset 3)]] [] = Err ValueError.
Proof. split; [|split; vm_compute; reflexivity]. vm_compute. repeat constructor; cbn; intuition discriminate. Qed.
