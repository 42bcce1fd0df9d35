(** Properties C23 and C51: HDF5 archives and the dataset form of compressed matrices. *)
From Verif Require Import Base BaseFacts ListUtils ListUtilsProofs Str StrFacts Scp ScpProofs ScpHist ScpSplit ScpRound.
From Verif Require Import Bytes Kaldi KaldiProofs KaldiMatProofs KaldiCompProofs KaldiKeeps Ark ArkProofs ArkScript ArkHist ArkProps ArkScriptProps.
From Verif Require Import H5 H5Proofs.
Open Scope list_scope.
Open Scope Z_scope.

(** ** C51 *)

(** The coded values and attributes of any compressed matrix rebuild the same object. *)
Theorem C51_attrs_roundtrip : forall c, cm_ok c ->
  exists codes a, get_data_attrs c = Ok (codes, a) /\ build_from_data_attrs (c_rows c) (c_cols c) codes a = Ok c.
Proof. exact attrs_roundtrip. Qed.
Print Assumptions C51_attrs_roundtrip.

(** Any range of rows of the coded values, with the same attributes, expands to that range of
    rows of the expanded matrix. *)
Theorem C51_rows : forall dec c codes a m lo hi, cm_ok c -> get_data_attrs c = Ok (codes, a) ->
  cm_to_ndarray dec c = Ok m -> 0 <= lo <= hi -> hi <= c_rows c ->
  exists x m', build_from_data_attrs (hi - lo) (c_cols c)
      (firstn (Z.to_nat ((hi - lo) * c_cols c)) (skipn (Z.to_nat (lo * c_cols c)) codes)) a = Ok x /\
    cm_to_ndarray dec x = Ok m' /\ k_shape m' = Mat (hi - lo) (c_cols c) /\
    k_data m' = firstn (Z.to_nat ((hi - lo) * c_cols c)) (skipn (Z.to_nat (lo * c_cols c)) (k_data m)).
Proof.
  intros dec c codes a m lo hi (ch & pl & P) G E Hl Hh.
  destruct (get_attrs_ok c ch pl P) as (codes' & G' & _). rewrite G in G'. injection G' as <- ->.
  destruct (read_window dec c ch pl codes m lo hi P G E Hl Hh) as (x & m' & B & X & _ & D2 & D3).
  exists x, m'. split; [|auto]. rewrite <- B. f_equal. unfold slice. f_equal. f_equal. lia.
Qed.
Print Assumptions C51_rows.

(** a 2 x 2 matrix in format 1 (8 header bytes per column, values by columns) *)
Definition cm22 : cm :=
  mk_cm (cm_header 1 (le_bytes 4 7) (le_bytes 4 8) 2 2 ++ le_bytes 8 1 ++ le_bytes 8 2 ++ map byte_of [10; 11; 12; 13])
    1 (le_bytes 4 7) (le_bytes 4 8) 2 2.
Example C51_witness : cm_ok cm22 /\ exists a, get_data_attrs cm22 = Ok (map (fun z => [byte_of z]) [10; 12; 11; 13], a).
Proof.
  split; [|eexists; vm_compute; reflexivity].
  exists (le_bytes 8 1 ++ le_bytes 8 2), (map byte_of [10; 11; 12; 13]).
  constructor; try (cbn; lia); try reflexivity.
Qed.

(** ** C23: specification *)

(** What must be read back for an array given to the writer. *)
Definition written5 (cfg : w5cfg) (dec : decoder) (a m : km) : Prop :=
  if h_compress cfg then exists c, h_compressor cfg a = Ok c /\ cm_to_ndarray dec c = Ok m else m = a.

Definition data5_ok (cfg : w5cfg) (recs : list (string * km)) : Prop :=
  forall k a, In (k, a) recs -> arr_ok a /\ forall c, h_compressor cfg a = Ok c -> cm_ok c.

(** Row range that exists in whatever is read back. *)
Definition range5_ok (cfg : w5cfg) (dec : decoder) (a : km) (r n : Z) : Prop :=
  forall m, written5 cfg dec a m -> ax0_fits m r n.

Definition reads5 (cfg : w5cfg) (dec : decoder) (a : km) (r n : Z) (x : km) : Prop :=
  exists m, written5 cfg dec a m /\ ax0_rows m r n x.

(** ** Writer *)

Lemma h5_writes_concat cfg calls : forall st, h5_writes cfg st calls = h5_write cfg st (concat calls).
Proof.
  assert (App : forall l1 l2 st, h5_write cfg st (l1 ++ l2) = (st <- h5_write cfg st l1 ;; h5_write cfg st l2)).
  { induction l1 as [|x l1 IH]; intros l2 st; [reflexivity|]. cbn [app h5_write].
    destruct (h5_write1 cfg st x); [apply IH|reflexivity]. }
  induction calls as [|c calls IH]; intros st; [reflexivity|]. cbn [h5_writes concat]. rewrite App.
  destruct (h5_write cfg st c); [apply IH|reflexivity].
Qed.

Definition stored5 (cfg : w5cfg) (a : string * km) (b : string * dset) : Prop :=
  fst b = fst a /\ convert5 cfg (snd a) = Ok (snd b) /\ is_token (fst a) = true.

Lemma h5_get_none f k : h5_get f k = None <-> ~ In k (map fst f).
Proof.
  unfold h5_get. split.
  - intros H. destruct (find _ f) eqn:E; [discriminate|]. intros Hin. apply in_map_iff in Hin.
    destruct Hin as (p & <- & Hp). pose proof (find_none _ _ E p Hp) as Q. cbn in Q. rewrite String.eqb_refl in Q. discriminate.
  - intros H. destruct (find _ f) as [p|] eqn:E; [|reflexivity]. exfalso. apply H.
    apply find_some in E as (Hp & Q). apply String.eqb_eq in Q. subst. apply in_map. exact Hp.
Qed.

Lemma h5_get_in f k d : NoDup (map fst f) -> In (k, d) f -> h5_get f k = Some d.
Proof.
  unfold h5_get. intros ND Hin. induction f as [|(k0, d0) f IH]; [destruct Hin|].
  cbn [map fst] in ND. inversion ND as [|? ? N1 N2]; subst. cbn [find fst]. destruct (String.eqb_spec k k0) as [->|Ne].
  - destruct Hin as [Q|Q]; [injection Q as ->; reflexivity|]. exfalso. apply N1. change k0 with (fst (k0, d)). apply in_map. exact Q.
  - destruct Hin as [Q|Q]; [congruence|]. apply IH; assumption.
Qed.

Lemma h5_write_file cfg recs : forall st st', h5_write cfg st recs = Ok st' ->
  exists L, h_file st' = h_file st ++ L /\ Forall2 (stored5 cfg) recs L /\
    (NoDup (map fst (h_file st)) -> NoDup (map fst (h_file st'))) /\
    h_scp st' = (h_scp st ++ str_concat (map (fun k => k ++ sstr (h_sep cfg) ++ h_path cfg ++ nl_str) (map fst recs)))%string.
Proof.
  induction recs as [|(k, a) recs IH]; intros st st' H.
  - injection H as <-. exists []. rewrite app_nil_r. cbn [map str_concat fold_right]. rewrite append_nil_r. repeat split; auto; constructor.
  - cbn [h5_write h5_write1] in H. destruct (is_token k) eqn:T; [|discriminate]. cbn [assert bind] in H.
    destruct (convert5 cfg a) as [d|] eqn:C; [|discriminate]. cbn [bind] in H.
    destruct (create_dataset (h_file st) k d) as [f|] eqn:F; [|discriminate]. cbn [bind] in H.
    unfold create_dataset in F. destruct (str_in "/" k); [discriminate|]. destruct (String.eqb k "."); [discriminate|].
    unfold h5_in in F. destruct (h5_get (h_file st) k) eqn:G; [discriminate|]. injection F as <-.
    destruct (IH _ _ H) as (L & E & FL & ND & S). cbn [h_file h_scp] in *.
    exists ((k, d) :: L). rewrite E, <- app_assoc. split; [reflexivity|]. split; [|split].
    + constructor; [split; [reflexivity|split; [exact C|exact T]]|exact FL].
    + intros N. rewrite app_assoc, <- E. apply ND. rewrite map_app. cbn [map fst].
      apply h5_get_none in G. apply (Permutation_NoDup (Permutation_app_comm [k] _)). cbn [app]. constructor; assumption.
    + rewrite S. cbn [map fst]. rewrite str_concat_cons, !append_assoc_s. reflexivity.
Qed.

(** What the file holds for a written record. *)
Lemma stored5_read cfg dec a d r n : convert5 cfg a = Ok d -> arr_ok a -> (forall c, h_compressor cfg a = Ok c -> cm_ok c) ->
  range5_ok cfg dec a r n -> exists x, read_h5_data dec d r n = Ok x /\ reads5 cfg dec a r n x.
Proof.
  unfold convert5, range5_ok, reads5, written5. destruct (h_compress cfg).
  - intros C A Hc R. destruct (h_compressor cfg a) as [c|] eqn:Ec; [|discriminate]. cbn [bind] in C.
    destruct (get_data_attrs c) as [[codes at_]|] eqn:G; [|discriminate]. cbn [bind] in C. injection C as <-.
    pose proof (Hc c eq_refl) as OK. destruct OK as (ch & pl & P). destruct (expand_spec dec c ch pl P) as (m & X & _).
    assert (FT : ax0_fits m r n) by (apply R; exists c; auto).
    destruct (read_codes dec c codes at_ m r n (ex_intro _ ch (ex_intro _ pl P)) G X FT) as (x & E & Q).
    exists x. split; [exact E|]. exists m. split; [exists c; auto|exact Q].
  - intros C A _ R. injection C as <-. destruct (read_raw dec a r n A (R a eq_refl)) as (x & E & Q).
    exists x. split; [exact E|]. exists a. auto.
Qed.

Lemma stored5_names cfg recs L : Forall2 (stored5 cfg) recs L -> map fst L = map fst recs.
Proof. induction 1 as [|a b l l' (H & _) _ IH]; [reflexivity|]. cbn. congruence. Qed.

Lemma stored5_in cfg recs L k a : Forall2 (stored5 cfg) recs L -> In (k, a) recs ->
  exists d, In (k, d) L /\ convert5 cfg a = Ok d.
Proof.
  induction 1 as [|x y l l' (H1 & H2 & _) F IH]; [intros []|]. intros [->|Hin].
  - destruct y as [k' d]. cbn in *. subst. exists d. auto.
  - destruct (IH Hin) as (d & Hd & C). exists d. split; [right; exact Hd|exact C].
Qed.

(** Everything the readers need to know about a finished file. *)
Lemma written_file cfg calls st : h5_writes cfg w5st0 calls = Ok st ->
  Forall2 (stored5 cfg) (concat calls) (h_file st) /\ NoDup (map fst (h_file st)) /\
  map fst (h_file st) = map fst (concat calls) /\
  forall k a, In (k, a) (concat calls) -> exists d, h5_get (h_file st) k = Some d /\ convert5 cfg a = Ok d.
Proof.
  rewrite h5_writes_concat. intros W. destruct (h5_write_file cfg _ _ _ W) as (L & E & F & ND & _).
  cbn [h_file w5st0 app] in E. rewrite E in *. assert (N : NoDup (map fst L)) by (apply ND; constructor).
  split; [exact F|]. split; [exact N|]. split; [apply (stored5_names cfg); exact F|].
  intros k a Hin. destruct (stored5_in cfg _ _ k a F Hin) as (d & Hd & C). exists d. split; [|exact C].
  apply h5_get_in; assumption.
Qed.

(** ** C23: random access *)

(** A key that is in the file gives the asked rows of what was written under it; a key that is
    not gives an empty array (permissive). *)
Definition answers5 (cfg : w5cfg) (dec : decoder) (recs : list (string * km)) (ks : list string) (ra na : zarg) (out : list km) : Prop :=
  len out = len ks /\
  forall i k x, nth_error ks i = Some k -> nth_error out i = Some x ->
    (forall a, In (k, a) recs -> reads5 cfg dec a (zarg_nth ra i) (zarg_nth na i) x) /\
    (~ In k (map fst recs) -> x = empty_array).

Definition ranges5_exist (cfg : w5cfg) (dec : decoder) (recs : list (string * km)) (ks : list string) (ra na : zarg) : Prop :=
  forall i k a, nth_error ks i = Some k -> In (k, a) recs -> range5_ok cfg dec a (zarg_nth ra i) (zarg_nth na i).

Lemma rnd5_loop_ok cfg dec recs f perm ra na N : data5_ok cfg recs -> NoDup (map fst recs) ->
  (forall k a, In (k, a) recs -> exists d, h5_get f k = Some d /\ convert5 cfg a = Ok d) ->
  map fst f = map fst recs ->
  zarg_len_ok ra N = true -> zarg_len_ok na N = true ->
  forall ks i, (i + len ks <= N)%nat ->
  (forall j k a, nth_error ks j = Some k -> In (k, a) recs -> range5_ok cfg dec a (zarg_nth ra (i + j)) (zarg_nth na (i + j))) ->
  if perm || forallb (fun k => inb k (map fst recs)) ks then
    exists out, rnd5_loop i dec f perm ks ra na = Ok out /\ len out = len ks /\
    forall j k x, nth_error ks j = Some k -> nth_error out j = Some x ->
      (forall a, In (k, a) recs -> reads5 cfg dec a (zarg_nth ra (i + j)) (zarg_nth na (i + j)) x) /\
      (~ In k (map fst recs) -> x = empty_array)
  else rnd5_loop i dec f perm ks ra na = Err BareException.
Proof.
  intros D ND HF NM LA LN. induction ks as [|k ks IH]; intros i Hi HR.
  - cbn [forallb]. rewrite orb_true_r. exists []. split; [reflexivity|]. split; [reflexivity|].
    intros [|j] k x H; discriminate H.
  - cbn [rnd5_loop forallb List.length] in *. specialize (IH (S i) ltac:(lia)).
    assert (HR' : forall j k0 a, nth_error ks j = Some k0 -> In (k0, a) recs ->
      range5_ok cfg dec a (zarg_nth ra (S i + j)) (zarg_nth na (S i + j))).
    { intros j k0 a Hj. replace (S i + j)%nat with (i + S j)%nat by lia. apply (HR (S j)). exact Hj. }
    specialize (IH HR').
    assert (ONE : if perm || inb k (map fst recs) then
       exists x, rnd5_read1 dec f perm k ra na i = Ok x /\
        (forall a, In (k, a) recs -> reads5 cfg dec a (zarg_nth ra i) (zarg_nth na i) x) /\ (~ In k (map fst recs) -> x = empty_array)
      else rnd5_read1 dec f perm k ra na i = Err BareException).
    { unfold rnd5_read1. destruct (inb k (map fst recs)) eqn:I.
      - rewrite orb_true_r. apply inb_iff in I. pose proof I as I2. apply in_map_iff in I2. destruct I2 as ((k', a) & <- & Ha). cbn [fst] in *.
        destruct (HF k' a Ha) as (d & G & C). unfold h5_in, h5_item. rewrite G. cbn [negb].
        rewrite (zarg_at_nth ra i N LA) by lia. cbn [bind]. rewrite (zarg_at_nth na i N LN) by lia. cbn [bind].
        destruct (D k' a Ha) as (A1 & A2). pose proof (HR 0%nat k' a eq_refl Ha) as R0. rewrite Nat.add_0_r in R0.
        destruct (stored5_read cfg dec a d _ _ C A1 A2 R0) as (x & E & Q). exists x. split; [exact E|]. split; [|contradiction].
        intros a' Ha'. assert (a' = a); [|subst; exact Q].
        clear - ND Ha Ha'. induction recs as [|(k0, a0) l IHl]; [destruct Ha|]. cbn [map fst] in ND. inversion ND as [|? ? N1 N2]; subst.
        destruct Ha as [H1|H1], Ha' as [H2|H2]; try congruence.
        + injection H1 as -> ->. exfalso. apply N1. change k' with (fst (k', a')). apply in_map. exact H2.
        + injection H2 as -> ->. exfalso. apply N1. change k' with (fst (k', a)). apply in_map. exact H1.
        + apply IHl; assumption.
      - apply inb_false in I. assert (G : h5_get f k = None) by (apply h5_get_none; rewrite NM; exact I).
        unfold h5_in. rewrite G. cbn [negb]. destruct perm; cbn [orb]; [|reflexivity].
        exists empty_array. split; [reflexivity|]. split; [|auto].
        intros a Ha. exfalso. apply I. change k with (fst (k, a)). apply in_map. exact Ha. }
    rewrite orb_andb_distrib_r. destruct (perm || inb k (map fst recs)) eqn:B; cbn [andb].
    + destruct ONE as (x & E & Q1 & Q2). rewrite E. cbn [bind].
      destruct (perm || forallb _ ks) eqn:B2.
      * destruct IH as (out & E2 & L2 & Q). rewrite E2. cbn [bind]. exists (x :: out). split; [reflexivity|].
        split; [cbn; congruence|]. intros [|j] k0 y Hj Hy; cbn [nth_error] in Hj, Hy.
        -- injection Hj as <-. injection Hy as <-. rewrite Nat.add_0_r. auto.
        -- replace (i + S j)%nat with (S i + j)%nat by lia. apply Q; assumption.
      * rewrite IH. reflexivity.
    + rewrite ONE. reflexivity.
Qed.

(** Write with any grouping into calls; then any random-access request. *)
Theorem C23_random_file : forall cfg dec calls st perm ks ra na,
  let recs := concat calls in
  h5_writes cfg w5st0 calls = Ok st -> data5_ok cfg recs ->
  zarg_len_ok ra (len ks) = true -> zarg_len_ok na (len ks) = true -> ranges5_exist cfg dec recs ks ra na ->
  ((perm = true \/ incl ks (map fst recs)) ->
     exists out, rnd5_read dec (h_file st) perm ks ra na = Ok out /\ answers5 cfg dec recs ks ra na out) /\
  (perm = false -> ~ incl ks (map fst recs) -> rnd5_read dec (h_file st) perm ks ra na = Err BareException).
Proof.
  intros cfg dec calls st perm ks ra na recs W D LA LN HR.
  destruct (written_file cfg calls st W) as (F & ND & NM & HF). rewrite NM in ND.
  pose proof (rnd5_loop_ok cfg dec recs (h_file st) perm ra na (len ks) D ND HF NM LA LN ks 0 ltac:(lia) HR) as Q.
  assert (RB : forallb (fun k => inb k (map fst recs)) ks = true <-> incl ks (map fst recs)).
  { rewrite forallb_forall. split; intros H x Hx; specialize (H x Hx); apply inb_iff; exact H. }
  unfold rnd5_read. rewrite LA, LN. cbn [assert bind]. split.
  - intros H. assert (B : perm || forallb (fun k => inb k (map fst recs)) ks = true).
    { destruct H as [->|H]; [reflexivity|]. apply RB in H. rewrite H. apply orb_true_r. }
    rewrite B in Q. destruct Q as (out & E & L & G). exists out. split; [exact E|]. split; [exact L|exact G].
  - intros -> H. assert (B : forallb (fun k => inb k (map fst recs)) ks = false).
    { apply not_true_iff_false. intros B. apply H. apply RB. exact B. }
    cbn [orb] in Q. rewrite B in Q. exact Q.
Qed.
Print Assumptions C23_random_file.

(** ** C23: sequential reading, parts *)

Lemma get_item_in {A} (l : list A) i x : get_item l i = Ok x -> In x l.
Proof.
  unfold get_item. destruct (py_index (len l) i); [|discriminate]. destruct (nth_error l n) eqn:E; [|discriminate].
  intros H. injection H as <-. eapply nth_error_In. exact E.
Qed.

Lemma take_incl {A} (l : list A) loc x : take l loc = Ok x -> incl x l.
Proof.
  revert x. unfold take. induction loc as [|i loc IH]; intros x H; cbn [mapM] in H.
  - injection H as <-. intros y [].
  - destruct (get_item l i) as [y|] eqn:E; [|discriminate]. cbn [bind] in H.
    destruct (mapM (get_item l) loc) as [ys|] eqn:M; [|discriminate]. cbn [bind] in H. injection H as <-.
    intros z [<-|Hz]; [eapply get_item_in; exact E|]. exact (IH ys eq_refl z Hz).
Qed.

Lemma seq5_open_keys f part bk r : seq5_open f part bk = Ok r ->
  q_f r = f /\ q_cur r = 0%nat /\ incl (q_keys r) (h5_keys f).
Proof.
  unfold seq5_open. intros H.
  assert (G : exists keys, r = mk_seq5 f keys 0 /\ incl keys (h5_keys f)).
  { destruct part as [(idx, num)|].
    - destruct bk.
      + unfold split_list_group_by_key, split_list_group_by_key_with in H.
        destruct (h5_keys f) as [|k0 ks] eqn:K; [discriminate|]. rewrite <- K in *. destruct (num =? 0); [discriminate|].
        destruct (fill_groups _ _ _ _) as [loc|]; [|discriminate]. cbn [bind] in H.
        destruct (take (h5_keys f) (map Z.of_nat loc)) as [x|] eqn:T; [|discriminate]. cbn [bind] in H. injection H as <-.
        eexists. split; [reflexivity|]. eapply take_incl. exact T.
      + unfold split_list, split_list_with in H. destruct (num =? 0); [discriminate|].
        destruct (take (h5_keys f) _) as [x|] eqn:T; [|discriminate]. cbn [bind] in H. injection H as <-.
        eexists. split; [reflexivity|]. eapply take_incl. exact T.
    - cbn [bind] in H. injection H as <-. eexists. split; [reflexivity|]. apply incl_refl. }
  destruct G as (keys & -> & I). auto.
Qed.

Lemma skipn_nth {A} (l : list A) i x : nth_error l i = Some x -> skipn i l = x :: skipn (S i) l.
Proof.
  revert l. induction i; intros [|y l] N; try discriminate; [injection N as ->; reflexivity|].
  cbn [nth_error skipn] in *. exact (IHi _ N).
Qed.

Lemma seq5_loop_ok dec ro nr (P : string -> km -> Prop) f keys :
  (forall k, In k keys -> exists d m, h5_get f k = Some d /\ read_h5_data dec d ro nr = Ok m /\ P k m) ->
  forall n i j acc, (i <= len keys)%nat ->
  exists outs, seq5_loop n j dec (mk_seq5 f keys i) (ZConst ro) (ZConst nr) acc
      = Ok (acc ++ outs, mk_seq5 f keys (Nat.min (i + n) (len keys))) /\
    Forall2 (fun k b => fst b = k /\ P k (snd b)) (firstn n (skipn i keys)) outs.
Proof.
  intros H. induction n as [|n IH]; intros i j acc Hi.
  - exists []. cbn [seq5_loop firstn]. rewrite app_nil_r, Nat.add_0_r, Nat.min_l by exact Hi. split; [reflexivity|constructor].
  - cbn [seq5_loop]. unfold seq5_eof. cbn [q_cur q_keys q_f]. destruct (Nat.eqb_spec i (len keys)) as [->|Ne].
    + exists []. rewrite app_nil_r, skipn_all, firstn_nil, Nat.min_r by lia. split; [reflexivity|constructor].
    + destruct (nth_error keys i) as [k|] eqn:N; [|apply nth_error_None in N; lia].
      rewrite (get_item_nat _ _ _ N). cbn [bind zarg_at].
      destruct (H k (nth_error_In _ _ N)) as (d & m & G & R & Pk). unfold h5_item. rewrite G. cbn [bind]. rewrite R. cbn [bind].
      destruct (IH (S i) (S j) (acc ++ [(k, m)]) ltac:(lia)) as (outs & E & F). rewrite E, <- app_assoc.
      exists ((k, m) :: outs). replace (i + S n)%nat with (S i + n)%nat by lia. split; [reflexivity|].
      rewrite (skipn_nth _ _ _ N). cbn [firstn]. constructor; [auto|exact F].
Qed.

Lemma seq5_calls_ok dec ro nr (P : string -> km -> Prop) f keys :
  (forall k, In k keys -> exists d m, h5_get f k = Some d /\ read_h5_data dec d ro nr = Ok m /\ P k m) ->
  forall Ns i, Forall (fun N => 0 <= N) Ns -> (i <= len keys)%nat ->
  exists outs i', read_calls (fun x N => seq5_read dec x N (ZConst ro) (ZConst nr)) (mk_seq5 f keys i) Ns = Ok (outs, mk_seq5 f keys i') /\
    Forall2 (Forall2 (fun k b => fst b = k /\ P k (snd b))) (batches Ns (skipn i keys)) outs /\ (i' <= len keys)%nat /\
    (i' = len keys <-> i = len keys \/ In 0 Ns \/ Z.of_nat (len keys - i) <= fold_right Z.add 0 Ns).
Proof.
  intros H. induction Ns as [|N Ns IH]; intros i HN Hi.
  - exists [], i. split; [reflexivity|]. split; [constructor|]. split; [exact Hi|]. cbn [In fold_right].
    split; [auto|]. intros [Q|[[]|Q]]; lia.
  - assert (HN1 : 0 <= N) by exact (Forall_inv HN). assert (HN2 := Forall_inv_tail HN).
    assert (NNs : 0 <= fold_right Z.add 0 Ns).
    { clear - HN2. induction Ns as [|a Ns IHNs]; cbn [fold_right]; [lia|]. inversion HN2; subst. specialize (IHNs H2). lia. }
    cbn [read_calls batches fold_right]. unfold seq5_read at 1. cbn [q_cur q_keys].
    set (n := if N =? 0 then (len keys - i)%nat else Z.to_nat N).
    destruct (seq5_loop_ok dec ro nr P f keys H n i 0 [] Hi) as (o & E & F). rewrite E. cbn [bind app].
    destruct (IH (Nat.min (i + n) (len keys)) HN2 ltac:(lia)) as (outs & i' & E2 & F2 & L & EO). rewrite E2. cbn [bind].
    exists (o :: outs), i'. split; [reflexivity|]. split; [|split; [exact L|]].
    + assert (K : (if N =? 0 then len (skipn i keys) else Z.to_nat N) = n) by (rewrite skipn_length; reflexivity).
      rewrite K. constructor; [exact F|]. rewrite skipn_skipn.
      destruct (Nat.le_gt_cases (i + n) (len keys)) as [Q|Q].
      * rewrite Nat.min_l in F2 by exact Q. exact F2.
      * rewrite Nat.min_r in F2 by lia. rewrite skipn_all in F2. rewrite (skipn_all2 keys) by lia. exact F2.
    + rewrite EO. cbn [In]. unfold n. destruct (Z.eqb_spec N 0) as [Z0|NZ]; split; intros Q.
      * right. left. left. exact Z0.
      * left. lia.
      * destruct Q as [Q|[Q|Q]]; [|right; left; right; exact Q|right; right; lia].
        destruct (Nat.eq_dec i (len keys)); [auto|]. right. right. lia.
      * destruct Q as [Q|[[Q|Q]|Q]]; [left; lia|contradiction|right; left; exact Q|right; right; lia].
Qed.

(** Any sequence of reads of a file (or of one part of it): the keys come in the order of the
    reader, each with the asked rows of what was written under it; [eof] is true exactly when
    all keys have been read; [reset] gives the initial reader. *)
Theorem C23_sequential_file : forall cfg dec calls st part by_key r Ns ro nr,
  let recs := concat calls in
  h5_writes cfg w5st0 calls = Ok st -> data5_ok cfg recs -> seq5_open (h_file st) part by_key = Ok r ->
  (forall k a, In (k, a) recs -> range5_ok cfg dec a ro nr) -> Forall (fun N => 0 <= N) Ns ->
  exists outs r',
    read_calls (fun x N => seq5_read dec x N (ZConst ro) (ZConst nr)) r Ns = Ok (outs, r') /\
    Forall2 (Forall2 (fun k b => fst b = k /\ exists a, In (k, a) recs /\ reads5 cfg dec a ro nr (snd b)))
      (batches Ns (q_keys r)) outs /\
    (seq5_eof r' = true <-> q_keys r = [] \/ In 0 Ns \/ Z.of_nat (len (q_keys r)) <= fold_right Z.add 0 Ns) /\
    seq5_reset r' = r.
Proof.
  intros cfg dec calls st part bk r Ns ro nr recs W D O HR HN.
  destruct (written_file cfg calls st W) as (F & ND & NM & HF).
  destruct (seq5_open_keys _ _ _ _ O) as (Q1 & Q2 & Q3). destruct r as [f keys cur]. cbn [q_f q_keys q_cur] in *. subst f cur.
  assert (HP : forall k, In k keys -> exists d m, h5_get (h_file st) k = Some d /\ read_h5_data dec d ro nr = Ok m /\
     exists a, In (k, a) recs /\ reads5 cfg dec a ro nr m).
  { intros k Hk. apply Q3 in Hk. unfold h5_keys in Hk. apply (proj1 (unique_in _ _)) in Hk. rewrite NM in Hk. apply in_map_iff in Hk.
    destruct Hk as ((k', a) & <- & Ha). cbn [fst]. destruct (HF k' a Ha) as (d & G & C). destruct (D k' a Ha) as (A1 & A2).
    destruct (stored5_read cfg dec a d ro nr C A1 A2 (HR k' a Ha)) as (x & E & Q). exists d, x. split; [exact G|]. split; [exact E|].
    exists a. auto. }
  destruct (seq5_calls_ok dec ro nr (fun k m => exists a, In (k, a) recs /\ reads5 cfg dec a ro nr m) (h_file st) keys HP Ns 0 HN ltac:(lia))
    as (outs & i' & E & F2 & L & EO).
  exists outs, (mk_seq5 (h_file st) keys i'). split; [exact E|]. split; [exact F2|]. split; [|reflexivity].
  unfold seq5_eof. cbn [q_cur q_keys]. rewrite Nat.eqb_eq, EO, Nat.sub_0_r.
  split; intros [Q|Q]; auto; left; [destruct keys; [reflexivity|discriminate]|rewrite Q; reflexivity].
Qed.
Print Assumptions C23_sequential_file.

(** The whole file: every key once, in increasing order. *)
Theorem C23_whole_file : forall cfg calls st by_key, h5_writes cfg w5st0 calls = Ok st ->
  exists r, seq5_open (h_file st) None by_key = Ok r /\
    Permutation (q_keys r) (map fst (concat calls)) /\ StronglySorted (fun x y => leb x y = true /\ x <> y) (q_keys r).
Proof.
  intros cfg calls st bk W. destruct (written_file cfg calls st W) as (F & ND & NM & HF).
  eexists. split; [reflexivity|]. cbn [q_keys]. unfold h5_keys. split; [|apply unique_sorted].
  apply NoDup_Permutation; [apply unique_nodup|rewrite <- NM; exact ND|]. intros x. rewrite unique_in, NM. reflexivity.
Qed.
Print Assumptions C23_whole_file.

(** Parts 1..P: each key in exactly one part. *)
Theorem C23_parts : forall cfg calls st by_key P, h5_writes cfg w5st0 calls = Ok st -> 1 <= P ->
  (by_key = true -> concat calls <> []) ->
  exists rs, mapM (fun i => seq5_open (h_file st) (Some (i, P)) by_key) (arange 1 (P + 1)) = Ok rs /\
    Permutation (concat (map q_keys rs)) (map fst (concat calls)).
Proof.
  intros cfg calls st bk P W HP NE. destruct (written_file cfg calls st W) as (F & ND & NM & HF).
  assert (PK : Permutation (h5_keys (h_file st)) (map fst (concat calls))).
  { unfold h5_keys. apply NoDup_Permutation; [apply unique_nodup|rewrite <- NM; exact ND|]. intros x. rewrite unique_in, NM. reflexivity. }
  assert (LIFT : forall (g : Z -> res (list string * list Z)) l parts, mapM g l = Ok parts ->
     mapM (fun i => keys <- ('(k, _) <- g i ;; Ok k) ;; Ok (mk_seq5 (h_file st) keys 0)) l
       = Ok (map (fun p => mk_seq5 (h_file st) (fst p) 0) parts)).
  { intros g. induction l as [|i l IH]; intros parts H; cbn [mapM] in *; [injection H as <-; reflexivity|].
    destruct (g i) as [(k, z)|]; [|discriminate]. cbn [bind] in *. destruct (mapM g l) as [ps|]; [|discriminate]. cbn [bind] in H.
    injection H as <-. rewrite (IH ps eq_refl). reflexivity. }
  unfold seq5_open. destruct bk.
  - assert (KNE : h5_keys (h_file st) <> []).
    { intros Q. rewrite Q in PK. apply Permutation_nil in PK. apply map_eq_nil in PK. apply NE; auto. }
    destruct (split_group_partition_lemma (h5_keys (h_file st)) (h5_keys (h_file st)) KNE eq_refl P HP) as (parts & E & T & PM & _).
    rewrite (LIFT _ _ _ E). eexists. split; [reflexivity|]. rewrite map_map. cbn [q_keys].
    eapply Permutation_trans; [|exact PK].
    assert (TT : take (h5_keys (h_file st)) (concat (map snd parts)) = Ok (concat (map fst parts))).
    { clear - T. induction parts as [|p parts IH]; [reflexivity|]. cbn [map concat]. rewrite take_app.
      rewrite (T p (or_introl eq_refl)), IH; [reflexivity|]. intros q Hq. apply T. right. exact Hq. }
    assert (AE : arange 0 (Z.of_nat (len (h5_keys (h_file st)))) = map Z.of_nat (seq 0 (len (h5_keys (h_file st))))).
    { rewrite arange_nat by lia. do 2 f_equal. lia. }
    rewrite AE in PM. apply Permutation_map_inv in PM. destruct PM as (idx & EI & PI).
    rewrite EI in TT. apply (take_perm _ _ idx); [apply Permutation_sym; exact PI|exact TT].
  - destruct (split_list_partition_lemma (h5_keys (h_file st)) P HP) as (parts & E & C & _).
    rewrite (LIFT _ _ _ E). eexists. split; [reflexivity|]. rewrite map_map. change (Permutation (concat (map fst parts)) (map fst (concat calls))). rewrite C. exact PK.
Qed.
Print Assumptions C23_parts.

(** ** C23: scripts *)

(** The dataset named by a script line: the line's key in the line's file. *)
Definition line5 (dk : disk5) (e : entry) (d : dset) : Prop :=
  exists f, dk (snd (fst (fst e))) = Some f /\ h5_get f (fst (fst (fst e))) = Some d.

(** The sequential script reader returns, for every line in order, the dataset the line names,
    restricted by the line's range combined with the request. *)
Theorem C23_sequential_script : forall dec dk s es (vals : list km) Ns r n,
  valid s -> elements s = Ok es -> Forall (fun N => 0 <= N) Ns ->
  Forall2 (fun e m => exists d ro nr, line5 dk e d /\ combine_ranges (snd e) r n = Ok (ro, nr) /\ read_h5_data dec d ro nr = Ok m) es vals ->
  exists r', read_calls (fun x N => sscr5_read dec dk x N (ZConst r) (ZConst n)) (mk_sscr5 s 0) Ns
      = Ok (batches Ns (combine (map (fun e => fst (fst (fst e))) es) vals), r') /\
    (sscr5_eof r' = true <-> es = [] \/ In 0 Ns \/ Z.of_nat (len es) <= fold_right Z.add 0 Ns).
Proof.
  intros dec dk s es vals Ns r n V Es HN H.
  assert (LK : len (s_key s) = len es).
  { destruct (valid_rows s V) as [R [ho [hr [c ->]]]]. rewrite elements_build in Es. injection Es as <-.
    cbn [s_key build]. rewrite !map_length. reflexivity. }
  set (all := combine (map (fun e => fst (fst (fst e))) es) vals).
  assert (LV : len vals = len es) by (symmetry; eapply Forall2_len; exact H).
  assert (LA : len all = len es) by (unfold all; rewrite combine_length, map_length, LV; apply Nat.min_id).
  assert (LOOP : forall k i j acc, (i <= len es)%nat ->
    sscr5_loop k j dec dk (mk_sscr5 s i) (ZConst r) (ZConst n) acc
      = Ok (acc ++ firstn k (skipn i all), mk_sscr5 s (Nat.min (i + k) (len es)))).
  { induction k as [|k IH]; intros i j acc Hi.
    - cbn [sscr5_loop firstn]. rewrite app_nil_r, Nat.add_0_r, Nat.min_l by exact Hi. reflexivity.
    - cbn [sscr5_loop]. unfold sscr5_eof. cbn [z_cur z_scp]. rewrite LK. destruct (Nat.eqb_spec i (len es)) as [->|Ne].
      + rewrite (skipn_all2 all) by (rewrite LA; apply Nat.le_refl). rewrite firstn_nil, app_nil_r, Nat.min_r by lia. reflexivity.
      + destruct (nth_error es i) as [e|] eqn:N; [|apply nth_error_None in N; lia].
        destruct (nth_error vals i) as [m|] eqn:NV; [|apply nth_error_None in NV; lia].
        destruct (elements_getitem s es i e V Es N) as (G & _). rewrite G. cbn [bind]. destruct e as [[[key p] o] g]. cbn [zarg_at bind].
        assert (HE : exists d ro nr, line5 dk (key, p, o, g) d /\ combine_ranges g r n = Ok (ro, nr) /\ read_h5_data dec d ro nr = Ok m).
        { clear - H N NV. revert i N NV. induction H as [|x y l l' H1 H2 IH]; intros [|i] N NV; try discriminate.
          - injection N as ->. injection NV as ->. exact H1.
          - exact (IH i N NV). }
        destruct HE as (d & ro & nr & (f & DF & GF) & CR & RD). cbn [fst snd] in DF, GF.
        rewrite CR. cbn [bind]. unfold open5. rewrite DF. cbn [bind]. unfold h5_item. rewrite GF. cbn [bind]. rewrite RD. cbn [bind].
        rewrite (IH (S i)) by lia. replace (i + S k)%nat with (S i + k)%nat by lia.
        assert (NA : nth_error all i = Some (key, m)).
        { unfold all. clear - N NV. revert es vals N NV. induction i; intros [|x es] [|y vals] N NV; try discriminate; cbn [nth_error map combine] in *.
          - injection N as ->. injection NV as ->. reflexivity.
          - apply IHi; assumption. }
        rewrite (skipn_nth _ _ _ NA). cbn [firstn]. rewrite <- app_assoc. reflexivity. }
  assert (CALLS : forall Ns i, Forall (fun N => 0 <= N) Ns -> (i <= len es)%nat ->
    exists i', read_calls (fun x N => sscr5_read dec dk x N (ZConst r) (ZConst n)) (mk_sscr5 s i) Ns
      = Ok (batches Ns (skipn i all), mk_sscr5 s i') /\ (i' <= len es)%nat /\
      (i' = len es <-> i = len es \/ In 0 Ns \/ Z.of_nat (len es - i) <= fold_right Z.add 0 Ns)).
  { clear Ns HN. induction Ns as [|N Ns IH]; intros i HN Hi.
    - exists i. split; [reflexivity|]. split; [exact Hi|]. cbn [In fold_right]. split; [auto|]. intros [Q|[[]|Q]]; lia.
    - assert (HN1 : 0 <= N) by exact (Forall_inv HN). assert (HN2 := Forall_inv_tail HN).
      assert (NNs : 0 <= fold_right Z.add 0 Ns).
      { clear - HN2. induction Ns as [|a Ns IHNs]; cbn [fold_right]; [lia|]. inversion HN2; subst. specialize (IHNs H2). lia. }
      cbn [read_calls batches fold_right]. unfold sscr5_read at 1. cbn [z_cur z_scp]. rewrite LK.
      set (k := if N =? 0 then (len es - i)%nat else Z.to_nat N). rewrite (LOOP k i 0%nat [] Hi). cbn [bind app].
      destruct (IH (Nat.min (i + k) (len es)) HN2 ltac:(lia)) as (i' & E2 & L & EO). rewrite E2. cbn [bind].
      exists i'. split; [|split; [exact L|]].
      + assert (K : (if N =? 0 then len (skipn i all) else Z.to_nat N) = k) by (rewrite skipn_length, LA; reflexivity).
        rewrite K, skipn_skipn. do 3 f_equal. f_equal.
        destruct (Nat.le_gt_cases (i + k) (len es)) as [Q|Q]; [rewrite Nat.min_l by exact Q; reflexivity|].
        rewrite Nat.min_r by lia. rewrite !skipn_all2 by lia. reflexivity.
      + rewrite EO. cbn [In]. unfold k. destruct (Z.eqb_spec N 0) as [Z0|NZ]; split; intros Q.
        * right. left. left. exact Z0.
        * left. lia.
        * destruct Q as [Q|[Q|Q]]; [|right; left; right; exact Q|right; right; lia].
          destruct (Nat.eq_dec i (len es)); [auto|]. right. right. lia.
        * destruct Q as [Q|[[Q|Q]|Q]]; [left; lia|contradiction|right; left; exact Q|right; right; lia]. }
  destruct (CALLS Ns 0%nat HN ltac:(lia)) as (i' & E & L & EO). exists (mk_sscr5 s i'). split; [exact E|].
  unfold sscr5_eof. cbn [z_cur z_scp]. rewrite LK, Nat.eqb_eq, EO, Nat.sub_0_r.
  split; intros [Q|Q]; auto; left; [destruct es; [reflexivity|discriminate]|rewrite Q; reflexivity].
Qed.
Print Assumptions C23_sequential_script.

Lemma rscr5_read1_ok dec dk perm s es s1 k e d m ra na i r n ro nr : valid s -> elements s = Ok es ->
  same_scp s s1 -> cache_ok s1 -> last_at es k e -> line5 dk e d -> zarg_at ra i = Ok r -> zarg_at na i = Ok n ->
  combine_ranges (snd e) r n = Ok (ro, nr) -> read_h5_data dec d ro nr = Ok m ->
  exists s2, rscr5_read1 dec dk perm s1 k ra na i = Ok (m, s2) /\ same_scp s s2 /\ cache_ok s2.
Proof.
  intros V Es Sm C LA (f & DF & GF) Z1 Z2 CR RD.
  assert (Es1 : elements s1 = Ok es) by (rewrite (same_scp_elements _ _ Sm); exact Es).
  assert (V1 : valid s1) by (eapply same_scp_valid; eauto).
  assert (IN : In k (s_key s1)).
  { destruct LA as (i0 & N & K & _). destruct (valid_rows s1 V1) as [R [ho [hr [c Eq]]]].
    rewrite Eq in Es1 |- *. rewrite elements_build in Es1. injection Es1 as <-.
    rewrite nth_error_map in N. destruct (nth_error R i0) as [row|] eqn:Nr; [|discriminate].
    cbn [option_map] in N. injection N as <-. cbn in K. subst k. cbn [s_key build].
    apply in_map. eapply nth_error_In. exact Nr. }
  unfold rscr5_read1. destruct (contains s1 k) as [present s2] eqn:Ec.
  assert (present = true).
  { pose proof (contains_spec s1 k C) as CS. rewrite Ec in CS. apply CS. exact IN. }
  assert (s2 = fill_cache s1) by (unfold contains in Ec; congruence). subst present s2. cbn [negb].
  assert (C2 : cache_ok (fill_cache s1)) by (apply fill_cache_ok2; exact C).
  assert (TR : forall t, same_scp s t -> same_scp s (fill_cache t)).
  { intros t (G1 & G2 & G3 & G4). destruct (fill_same t) as (F1 & F2 & F3 & F4). repeat split; congruence. }
  assert (Sm2 : same_scp s (fill_cache s1)) by (apply TR; exact Sm).
  assert (Es2 : elements (fill_cache s1) = Ok es) by (rewrite (same_scp_elements _ _ Sm2); exact Es).
  assert (V2 : valid (fill_cache s1)) by (exact (same_scp_valid _ _ Sm2 V)).
  destruct (get_index (fill_cache s1) k) as [ri s3] eqn:Eg.
  pose proof (get_index_spec (fill_cache s1) k C2) as GS. rewrite Eg in GS. cbn [fst] in GS.
  destruct ri as [i0|err].
  2:{ exfalso. destruct GS as (_ & GS). apply GS. destruct (fill_same s1) as (F1 & _). rewrite F1. exact IN. }
  cbn [bind].
  destruct (get_index_entry (fill_cache s1) es k i0 V2 C2 Es2) as (e' & Ge & LA').
  { rewrite Eg. reflexivity. }
  rewrite Eg in Ge. cbn [snd] in Ge. assert (e' = e) by (eapply last_at_unique; eauto). subst e'. rewrite Ge. cbn [bind].
  assert (K : fst (fst (fst e)) = k) by (destruct LA as (? & _ & K & _); exact K).
  destruct e as [[[k0 p] o] g]. cbn [fst snd] in *. subst k0. rewrite Z1, Z2. cbn [bind]. rewrite CR. cbn [bind].
  unfold open5. rewrite DF. cbn [bind]. unfold h5_in, h5_item. rewrite GF. cbn [negb bind]. rewrite RD. cbn [bind].
  exists s3. split; [reflexivity|].
  assert (s3 = fill_cache (fill_cache s1)) as -> by (unfold get_index in Eg; congruence).
  split; [apply TR; exact Sm2|apply fill_cache_ok2; exact C2].
Qed.

Lemma rscr5_read1_absent dec dk perm s s1 k ra na i : same_scp s s1 -> cache_ok s1 -> ~ In k (s_key s) ->
  (perm = false -> rscr5_read1 dec dk perm s1 k ra na i = Err BareException) /\
  (perm = true -> exists s2, rscr5_read1 dec dk perm s1 k ra na i = Ok (empty_array, s2) /\ same_scp s s2 /\ cache_ok s2).
Proof.
  intros Sm C NI. unfold rscr5_read1. destruct (contains s1 k) as [present s2] eqn:Ec.
  assert (present = false).
  { pose proof (contains_spec s1 k C) as CS. rewrite Ec in CS. cbn [fst] in CS.
    destruct present; [|reflexivity]. exfalso. apply NI. destruct Sm as (<- & _). apply CS. reflexivity. }
  assert (s2 = fill_cache s1) by (unfold contains in Ec; congruence). subst present s2. cbn [negb].
  split; intros ->; [reflexivity|]. eexists. split; [reflexivity|]. split; [|apply fill_cache_ok2; exact C].
  destruct (fill_same s1) as (F1 & F2 & F3 & F4). destruct Sm as (G1 & G2 & G3 & G4). repeat split; congruence.
Qed.

(** The random-access script reader: the i-th key gives the dataset its (last) line names,
    restricted by the line's range combined with the i-th request; an absent key gives an empty
    array or an exception. *)
Definition key5 (dec : decoder) (dk : disk5) (es : list entry) (k : string) (r n : Z) (m : km) : Prop :=
  exists e d ro nr, last_at es k e /\ line5 dk e d /\ combine_ranges (snd e) r n = Ok (ro, nr) /\ read_h5_data dec d ro nr = Ok m.

Theorem C23_random_script : forall dec dk s es perm ks ra na,
  valid s -> cache_ok s -> elements s = Ok es -> zarg_len_ok ra (len ks) = true -> zarg_len_ok na (len ks) = true ->
  (forall i k, nth_error ks i = Some k -> In k (s_key s) -> exists m, key5 dec dk es k (zarg_nth ra i) (zarg_nth na i) m) ->
  ((perm = true \/ incl ks (s_key s)) ->
   exists out s', rscr5_read dec dk perm s ks ra na = Ok (out, s') /\ len out = len ks /\
     forall i k x, nth_error ks i = Some k -> nth_error out i = Some x ->
       (In k (s_key s) /\ key5 dec dk es k (zarg_nth ra i) (zarg_nth na i) x) \/ (~ In k (s_key s) /\ x = empty_array)) /\
  (perm = false -> ~ incl ks (s_key s) -> rscr5_read dec dk perm s ks ra na = Err BareException).
Proof.
  intros dec dk s es perm ks ra na V C Es LA LN H.
  assert (LOOP : forall ks0 i s1, same_scp s s1 -> cache_ok s1 -> (i + len ks0 <= len ks)%nat ->
    (forall j k, nth_error ks0 j = Some k -> In k (s_key s) -> exists m, key5 dec dk es k (zarg_nth ra (i + j)) (zarg_nth na (i + j)) m) ->
    if perm || forallb (fun k => inb k (s_key s)) ks0 then
     exists out s', rscr5_loop i dec dk perm s1 ks0 ra na = Ok (out, s') /\ len out = len ks0 /\
     forall j k x, nth_error ks0 j = Some k -> nth_error out j = Some x ->
       (In k (s_key s) /\ key5 dec dk es k (zarg_nth ra (i + j)) (zarg_nth na (i + j)) x) \/ (~ In k (s_key s) /\ x = empty_array)
    else rscr5_loop i dec dk perm s1 ks0 ra na = Err BareException).
  { induction ks0 as [|k ks0 IH]; intros i s1 Sm Cs Hi HK.
    - cbn [forallb]. rewrite orb_true_r. exists [], s1. split; [reflexivity|]. split; [reflexivity|]. intros [|j] k x Q; discriminate Q.
    - cbn [rscr5_loop forallb List.length] in *.
      assert (HK' : forall j k0, nth_error ks0 j = Some k0 -> In k0 (s_key s) -> exists m, key5 dec dk es k0 (zarg_nth ra (S i + j)) (zarg_nth na (S i + j)) m).
      { intros j k0 Hj. replace (S i + j)%nat with (i + S j)%nat by lia. apply (HK (S j)). exact Hj. }
      assert (ONE : if perm || inb k (s_key s) then exists x s2, rscr5_read1 dec dk perm s1 k ra na i = Ok (x, s2) /\ same_scp s s2 /\ cache_ok s2 /\
         ((In k (s_key s) /\ key5 dec dk es k (zarg_nth ra i) (zarg_nth na i) x) \/ (~ In k (s_key s) /\ x = empty_array))
         else rscr5_read1 dec dk perm s1 k ra na i = Err BareException).
      { destruct (inb k (s_key s)) eqn:I.
        - rewrite orb_true_r. apply inb_iff in I. destruct (HK 0%nat k eq_refl I) as (m & KM). rewrite Nat.add_0_r in KM.
          pose proof KM as (e & d & ro & nr & L1 & L2 & L3 & L4).
          destruct (rscr5_read1_ok dec dk perm s es s1 k e d m ra na i _ _ ro nr V Es Sm Cs L1 L2
            (zarg_at_nth ra i _ LA ltac:(lia)) (zarg_at_nth na i _ LN ltac:(lia)) L3 L4) as (s2 & E & S2 & CO2).
          exists m, s2. repeat split; auto; apply S2.
        - apply inb_false in I. destruct (rscr5_read1_absent dec dk perm s s1 k ra na i Sm Cs I) as (Q1 & Q2).
          destruct perm; cbn [orb]; [|apply Q1; reflexivity]. destruct (Q2 eq_refl) as (s2 & E & S2 & CO2).
          exists empty_array, s2. split; [exact E|]. split; [exact S2|]. split; [exact CO2|]. right. auto. }
      rewrite orb_andb_distrib_r. destruct (perm || inb k (s_key s)) eqn:B; cbn [andb].
      + destruct ONE as (x & s2 & E & S2 & CO2 & KR). rewrite E. cbn [bind].
        specialize (IH (S i) s2 S2 CO2 ltac:(lia) HK'). destruct (perm || forallb _ ks0) eqn:B2.
        * destruct IH as (out & s' & E2 & L2 & Q). rewrite E2. cbn [bind]. exists (x :: out), s'. split; [reflexivity|].
          split; [cbn; congruence|]. intros [|j] k0 y Hj Hy; cbn [nth_error] in Hj, Hy.
          -- injection Hj as <-. injection Hy as <-. rewrite Nat.add_0_r. exact KR.
          -- replace (i + S j)%nat with (S i + j)%nat by lia. apply Q; assumption.
        * rewrite IH. reflexivity.
      + rewrite ONE. reflexivity. }
  assert (RB : forallb (fun k => inb k (s_key s)) ks = true <-> incl ks (s_key s)).
  { rewrite forallb_forall. split; intros Q x Hx; specialize (Q x Hx); apply inb_iff; exact Q. }
  assert (S0 : same_scp s s) by (repeat split).
  specialize (LOOP ks 0%nat s S0 C ltac:(lia) H). unfold rscr5_read. rewrite LA, LN. cbn [assert bind]. split.
  - intros Q. assert (B : perm || forallb (fun k => inb k (s_key s)) ks = true).
    { destruct Q as [->|Q]; [reflexivity|]. apply RB in Q. rewrite Q. apply orb_true_r. }
    rewrite B in LOOP. exact LOOP.
  - intros -> Q. assert (B : forallb (fun k => inb k (s_key s)) ks = false).
    { apply not_true_iff_false. intros B. apply Q. apply RB. exact B. }
    cbn [orb] in LOOP. rewrite B in LOOP. exact LOOP.
Qed.
Print Assumptions C23_random_script.

(** Paths and keys the text format of scripts can hold. *)
Definition script5_ok (cfg : w5cfg) (keys : list string) : Prop :=
  sep_ok (h_sep cfg) ":" /\ one_line (h_path cfg) /\ str_in ":" (h_path cfg) = false /\
  str_in "[" (h_path cfg) = false /\ last_ok is_space (h_path cfg) = true /\
  (forall k, In k keys -> str_in (h_sep cfg) k = false).

(** The script the writer leaves, loaded again, has one line per record in the order of
    writing; reading it sequentially gives the records in that order. *)
Theorem C23_written_script : forall cfg dec calls st dk ro nr,
  let recs := concat calls in
  h5_writes cfg w5st0 calls = Ok st -> data5_ok cfg recs -> recs <> [] -> script5_ok cfg (map fst recs) ->
  dk (h_path cfg) = Some (h_file st) -> (forall k a, In (k, a) recs -> range5_ok cfg dec a ro nr) ->
  exists s, scp_load (h_scp st) (h_sep cfg) ":" = Ok s /\ valid s /\ cache_ok s /\
    elements s = Ok (map (fun a => (fst a, h_path cfg, None, None)) recs) /\
    forall Ns, Forall (fun N => 0 <= N) Ns ->
    exists outs r', read_calls (fun x N => sscr5_read dec dk x N (ZConst ro) (ZConst nr)) (mk_sscr5 s 0) Ns = Ok (outs, r') /\
      Forall2 (Forall2 (fun a b => fst b = fst a /\ reads5 cfg dec (snd a) ro nr (snd b))) (batches Ns recs) outs.
Proof.
  intros cfg dec calls st dk ro nr recs W D NE (SO & P1 & P2 & P3 & P4 & HK) DK HR.
  destruct (written_file cfg calls st W) as (F & ND & NM & HF).
  rewrite h5_writes_concat in W. destruct (h5_write_file cfg _ _ _ W) as (L & EL & FL & _ & ES). cbn [h_scp w5st0 append] in ES. fold recs in F, ND, NM, HF, W, EL, ES. try fold recs in L. try fold recs in FL.
  set (R := map (fun a : string * km => ((fst a, h_path cfg), 0, (0, 0))) recs : list frow).
  assert (SV : h_scp st = scp_save (build R false false None) (h_sep cfg) ":").
  { rewrite (save_lines (h_sep cfg) ":" false false R None), ES. unfold R. rewrite !map_map. f_equal. apply map_ext.
    intros a. unfold line, script, otxt, rtxt. cbn [r_key r_path fst snd]. rewrite !append_nil_r. unfold sstr. rewrite !append_assoc_s. reflexivity. }
  assert (RNE : R <> []) by (unfold R; destruct recs; [congruence|discriminate]).
  assert (ROK : Forall (row_ok (h_sep cfg) ":" false false) R).
  { apply Forall_forall. intros row Hrow. unfold R in Hrow. apply in_map_iff in Hrow. destruct Hrow as (a & <- & Ha).
    assert (T : is_token (fst a) = true).
    { clear - F Ha. clearbody recs. induction F as [|x y l l' (_ & _ & T) _ IH]; [destruct Ha|]. destruct Ha as [->|Ha]; auto. }
    unfold row_ok, savable, ent. cbn [r_key r_path fst snd]. split; [apply token_one_line; exact T|].
    split; [exact P1|]. split; [apply HK; apply in_map; exact Ha|]. split; [exact P2|]. split; [exact P3|]. split; [auto|]. split; discriminate. }
  pose proof (load_save_rows (h_sep cfg) ":" false false SO R None RNE ROK) as LD. rewrite <- SV in LD.
  assert (XR : existsb (has_rtxt false) R = false) by (clear; unfold R; clear R; clearbody recs; induction recs as [|x l IH]; [reflexivity|exact IH]).
  rewrite XR in LD. exists (build R false false None). split; [exact LD|]. split; [apply build_valid|]. split; [left; reflexivity|].
  assert (EE : elements (build R false false None) = Ok (map (fun a => (fst a, h_path cfg, None, None)) recs)).
  { rewrite elements_build. unfold R. rewrite map_map. reflexivity. }
  split; [exact EE|]. intros Ns HN.
  assert (VALS : exists vals, Forall2 (fun e m => exists d ro' nr', line5 dk e d /\ combine_ranges (snd e) ro nr = Ok (ro', nr') /\ read_h5_data dec d ro' nr' = Ok m)
     (map (fun a => (fst a, h_path cfg, None, None)) recs) vals /\ Forall2 (fun a m => reads5 cfg dec (snd a) ro nr m) recs vals).
  { assert (G : forall a, In a recs -> exists m, (exists d ro' nr', line5 dk (fst a, h_path cfg, None, None) d /\ combine_ranges None ro nr = Ok (ro', nr') /\ read_h5_data dec d ro' nr' = Ok m) /\ reads5 cfg dec (snd a) ro nr m).
    { intros (k, a) Ha. destruct (HF k a Ha) as (d & G & C). destruct (D k a Ha) as (A1 & A2).
      destruct (stored5_read cfg dec a d ro nr C A1 A2 (HR k a Ha)) as (x & E & Q). exists x. split; [|exact Q].
      exists d, ro, nr. split; [|split; [reflexivity|exact E]]. exists (h_file st). auto. }
    clear - G. clearbody recs. induction recs as [|a l IH]; [exists []; split; constructor|].
    destruct (G a (or_introl eq_refl)) as (m & G1 & G2). destruct IH as (vals & V1 & V2); [intros b Hb; apply G; right; exact Hb|].
    exists (m :: vals). split; constructor; assumption. }
  destruct VALS as (vals & V1 & V2).
  destruct (C23_sequential_script dec dk (build R false false None) _ vals Ns ro nr (build_valid _ _ _ _) EE HN V1) as (r' & E & _).
  eexists. exists r'. split; [exact E|]. rewrite map_map. cbn [fst].
  clearbody recs. clear - V2. revert recs vals V2. induction Ns as [|N Ns IH]; intros recs vals V2; [constructor|].
  cbn [batches].
  assert (LC : len (combine (map (fun x : string * km => fst x) recs) vals) = len recs).
  { rewrite combine_length, map_length, <- (Forall2_len _ _ _ V2). apply Nat.min_id. }
  rewrite LC. set (k := if N =? 0 then len recs else Z.to_nat N). clearbody k. clear LC. constructor.
  - clear - V2. revert k. induction V2 as [|a m l l' H _ IHl]; intros [|k]; cbn; constructor; auto.
  - assert (SK : skipn k (combine (map (fun x : string * km => fst x) recs) vals) = combine (map (fun x : string * km => fst x) (skipn k recs)) (skipn k vals)).
    { clear. revert recs vals. induction k; intros recs vals; [reflexivity|]. destruct recs as [|a recs]; [destruct vals; reflexivity|].
      destruct vals as [|v vals]; [cbn [skipn map combine]; destruct (map _ (skipn k recs)); reflexivity|]. cbn [skipn map combine]. apply IHk. }
    rewrite SK. apply IH. clear - V2. revert k. induction V2; intros [|k]; cbn; try constructor; auto.
Qed.
Print Assumptions C23_written_script.

(** ** Examples *)

Definition cfg5 : w5cfg := mk_w5cfg "a.h5" " " false (fun _ => Err ValueError).
Definition calls5 : list (list (string * km)) := [[("u2", m3)]; [("u1", m2)]]%string.
Example C23_witness : forall dec, exists st r o,
  h5_writes cfg5 w5st0 calls5 = Ok st /\ data5_ok cfg5 (concat calls5) /\
  seq5_open (h_file st) None false = Ok r /\ q_keys r = ["u1"; "u2"]%string /\
  rnd5_read dec (h_file st) true ["u2"; "zz"]%string (ZList [1; 0]) (ZConst 1) = Ok o /\
  o = [mk_km F32 (Mat 1 1) [le_bytes 4 8]; empty_array] /\
  h_scp st = ("u2 a.h5" ++ nl_str ++ "u1 a.h5" ++ nl_str)%string.
Proof.
  intros dec. eexists. eexists. eexists. split; [vm_compute; reflexivity|]. split.
  - intros k a [H|[H|[]]]; injection H as <- <-; (split; [|discriminate]); repeat split; cbn; lia.
  - repeat split; vm_compute; reflexivity.
Qed.
