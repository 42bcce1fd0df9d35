(** Histories of reads through a script, and scripts made by the writer. *)
From Verif Require Import Base BaseFacts ListUtils ListUtilsProofs Str StrFacts Scp ScpProofs ScpHist ScpSplit ScpRound.
From Verif Require Import Bytes Kaldi KaldiProofs KaldiMatProofs KaldiCompProofs.
From Verif Require Export ArkScript.
Open Scope list_scope.
Open Scope Z_scope.

(** The script line [e] gives access to the array [m]. *)
Definition line_value (dec : decoder) (d : disk) (e : entry) (m : km) : Prop :=
  exists off dat, snd (fst e) = Some off /\ stored_at d (snd (fst (fst e))) off dat /\ value dec dat = Ok m.

(** The request (r, n) on line [e] fits the stored array. *)
Definition servable (dec : decoder) (d : disk) (e : entry) (r n : Z) : Prop :=
  exists m ro nr, line_value dec d e m /\ combine_ranges (snd e) r n = Ok (ro, nr) /\ rows_ok m ro nr.

Definition served (dec : decoder) (d : disk) (e : entry) (r n : Z) (m' : km) : Prop :=
  exists m ro nr, line_value dec d e m /\ combine_ranges (snd e) r n = Ok (ro, nr) /\ rows_of m ro nr m'.

(** The i-th value of a row_offset / num_rows argument. *)
Definition zarg_nth (a : zarg) (i : nat) : Z := match a with ZConst z => z | ZList l => nth i l 0 end.

Lemma zarg_at_nth a i n : zarg_len_ok a n = true -> (i < n)%nat -> zarg_at a i = Ok (zarg_nth a i).
Proof.
  destruct a as [z|l]; [reflexivity|]. cbn [zarg_len_ok zarg_at zarg_nth]. intros H Hi. apply Nat.eqb_eq in H.
  apply get_item_nat. apply nth_error_nth'. lia.
Qed.

Definition key_result (dec : decoder) (d : disk) (s : scp) (es : list entry) (k : string) (r n : Z) (x : km) : Prop :=
  (exists e, last_at es k e /\ served dec d e r n x) \/ (~ In k (s_key s) /\ x = empty_array).

Lemma r_read_loop_ok dec d s es perm ra na N : valid s -> elements s = Ok es ->
  zarg_len_ok ra N = true -> zarg_len_ok na N = true ->
  forall ks i r, r_state d s perm r -> (i + len ks <= N)%nat ->
  (forall j k, nth_error ks j = Some k ->
     (exists e, last_at es k e /\ servable dec d e (zarg_nth ra (i + j)) (zarg_nth na (i + j))) \/
     (~ In k (s_key s) /\ perm = true)) ->
  exists outs r', r_read_loop i dec d r ks ra na = Ok (outs, r') /\ r_state d s perm r' /\
    len outs = len ks /\
    (forall j k x, nth_error ks j = Some k -> nth_error outs j = Some x ->
       key_result dec d s es k (zarg_nth ra (i + j)) (zarg_nth na (i + j)) x).
Proof.
  intros V Es LA LN. induction ks as [|k ks IH]; intros i r RS HN H.
  - exists [], r. split; [reflexivity|]. split; [exact RS|]. split; [reflexivity|].
    intros j k x Hj. destruct j; discriminate.
  - cbn [r_read_loop List.length] in *.
    rewrite (zarg_at_nth ra i N LA) by lia. cbn [bind]. rewrite (zarg_at_nth na i N LN) by lia. cbn [bind].
    pose proof (H 0%nat k eq_refl) as H0. rewrite Nat.add_0_r in H0.
    assert (H' : forall j k0, nth_error ks j = Some k0 ->
     (exists e, last_at es k0 e /\ servable dec d e (zarg_nth ra (S i + j)) (zarg_nth na (S i + j))) \/
     (~ In k0 (s_key s) /\ perm = true)).
    { intros j k0 Hj. replace (S i + j)%nat with (i + S j)%nat by lia. apply (H (S j)). exact Hj. }
    assert (ST : exists x r1, r_read1 dec d r k (zarg_nth ra i) (zarg_nth na i) = Ok (x, r1) /\ r_state d s perm r1 /\
      key_result dec d s es k (zarg_nth ra i) (zarg_nth na i) x).
    { destruct H0 as [(e & La & m & ro & nr & (off & dat & EO & St & Vm) & CR & RO)|(NI & Pe)].
      - destruct (r_read1_ok dec d s es perm r k e off dat m _ _ ro nr V Es RS La EO St Vm CR RO) as (m' & r' & E & RW & RS').
        exists m', r'. split; [exact E|]. split; [exact RS'|]. left. exists e. split; [exact La|].
        exists m, ro, nr. split; [exists off, dat; auto|]. auto.
      - destruct (r_read1_absent dec d s perm r k (zarg_nth ra i) (zarg_nth na i) RS NI) as (_ & Q).
        destruct (Q Pe) as (r' & E & RS'). exists empty_array, r'. split; [exact E|]. split; [exact RS'|].
        right. auto. }
    destruct ST as (x & r1 & E & RS1 & KR). rewrite E. cbn [bind].
    destruct (IH (S i) r1 RS1 ltac:(lia) H') as (outs & r' & E2 & RS2 & L & Q). rewrite E2. cbn [bind].
    exists (x :: outs), r'. split; [reflexivity|]. split; [exact RS2|]. split; [cbn; congruence|].
    intros j k0 y Hj Hy. destruct j as [|j]; cbn [nth_error] in *.
    + injection Hj as <-. injection Hy as <-. rewrite Nat.add_0_r. exact KR.
    + replace (i + S j)%nat with (S i + j)%nat by lia. apply Q; assumption.
Qed.

(** An absent key stops a strict reader. *)
Lemma r_read_loop_absent dec d s es ra na N : valid s -> elements s = Ok es ->
  zarg_len_ok ra N = true -> zarg_len_ok na N = true ->
  forall ks i r, r_state d s false r -> (i + len ks <= N)%nat ->
  (forall j k, nth_error ks j = Some k ->
     (exists e, last_at es k e /\ servable dec d e (zarg_nth ra (i + j)) (zarg_nth na (i + j))) \/
     ~ In k (s_key s)) ->
  (exists k, In k ks /\ ~ In k (s_key s)) ->
  r_read_loop i dec d r ks ra na = Err BareException.
Proof.
  intros V Es LA LN. induction ks as [|k ks IH]; intros i r RS HN H (k0 & Hin & NI); [destruct Hin|].
  cbn [r_read_loop List.length] in *.
  rewrite (zarg_at_nth ra i N LA) by lia. cbn [bind]. rewrite (zarg_at_nth na i N LN) by lia. cbn [bind].
  pose proof (H 0%nat k eq_refl) as H0. rewrite Nat.add_0_r in H0.
  destruct (in_dec string_dec k (s_key s)) as [I|NI'].
  - destruct H0 as [(e & La & m & ro & nr & (off & dat & EO & St & Vm) & CR & RO)|Q]; [|contradiction].
    destruct (r_read1_ok dec d s es false r k e off dat m _ _ ro nr V Es RS La EO St Vm CR RO) as (m' & r' & E & RW & RS').
    rewrite E. cbn [bind]. rewrite (IH (S i) r' RS'); [reflexivity|lia| |].
    + intros j k1 Hj. replace (S i + j)%nat with (i + S j)%nat by lia. apply (H (S j)). exact Hj.
    + exists k0. split; [|exact NI]. destruct Hin as [->|Hin]; [contradiction|exact Hin].
  - destruct (r_read1_absent dec d s false r k (zarg_nth ra i) (zarg_nth na i) RS NI') as (Q & _).
    rewrite (Q eq_refl). reflexivity.
Qed.

(** ** Sequential script reader *)

Lemma s_read_loop_ok dec d s es r0 n0 : valid s -> elements s = Ok es -> no_revisit0 es ->
  (forall e, In e es -> servable dec d e r0 n0) ->
  forall n i j acc r, s_state d s es i r -> (i <= len es)%nat ->
  exists outs r', s_read_loop n j dec d r (ZConst r0) (ZConst n0) acc = Ok (acc ++ outs, r') /\
    Forall2 (fun e x => fst x = fst (fst (fst e)) /\ served dec d e r0 n0 (snd x)) (firstn n (skipn i es)) outs /\
    s_state d s es (Nat.min (i + n) (len es)) r'.
Proof.
  intros V Es NR SV. 
  assert (LK : len (s_key s) = len es).
  { destruct (valid_rows s V) as [R [ho [hr [c ->]]]]. rewrite elements_build in Es. injection Es as <-.
    cbn [s_key build]. rewrite !map_length. reflexivity. }
  induction n as [|n IH]; intros i j acc r SS Hi.
  - exists [], r. cbn [s_read_loop firstn]. rewrite app_nil_r. split; [reflexivity|]. split; [constructor|].
    rewrite Nat.add_0_r, Nat.min_l by exact Hi. exact SS.
  - cbn [s_read_loop]. unfold sreader_eof. rewrite (ss_scp _ _ _ _ _ SS), (ss_cur _ _ _ _ _ SS), LK.
    destruct (Nat.eqb_spec i (len es)) as [->|Ne].
    + exists [], r. rewrite app_nil_r, skipn_all, firstn_nil. split; [reflexivity|]. split; [constructor|].
      rewrite Nat.min_r by lia. exact SS.
    + destruct (nth_error es i) as [e|] eqn:N; [|apply nth_error_None in N; lia].
      cbn [zarg_at bind].
      destruct (SV e (nth_error_In _ _ N)) as (m & ro & nr & (off & dat & EO & St & Vm) & CR & RO).
      destruct (s_read1_ok dec d s es i r e off dat m r0 n0 ro nr V Es SS NR N EO St Vm CR RO) as (m' & r' & E & RW & SS').
      rewrite E. cbn [bind].
      destruct (IH (S i) (S j) (acc ++ [(fst (fst (fst e)), m')]) r' SS' ltac:(lia)) as (outs & r2 & E2 & F & SS2).
      exists ((fst (fst (fst e)), m') :: outs), r2. rewrite E2, <- app_assoc. split; [reflexivity|].
      assert (SK : skipn i es = e :: skipn (S i) es).
      { clear - N. revert es N. induction i; intros [|x es] N; try discriminate; [injection N as ->; reflexivity|].
        cbn [nth_error skipn] in *. rewrite (IHi _ N). reflexivity. }
      rewrite SK. cbn [firstn]. split.
      * constructor; [|exact F]. split; [reflexivity|]. exists m, ro, nr. split; [exists off, dat; auto|auto].
      * replace (i + S n)%nat with (S i + n)%nat by lia. exact SS2.
Qed.

(** ** Scripts made by the writer *)

Definition script_ok (cfg : wcfg) (keys : list string) : Prop :=
  sep_ok (w_sep cfg) ":" /\ one_line (w_path cfg) /\ str_in ":" (w_path cfg) = false /\
  str_in "[" (w_path cfg) = false /\ (forall k, In k keys -> str_in (w_sep cfg) k = false).

Definition indexed (cfg : wcfg) (ark : list byte) (a : string * wdata) (row : frow) : Prop :=
  r_key row = fst a /\ r_path row = w_path cfg /\ r_rng row = (0, 0) /\ 0 < r_off row /\ is_token (fst a) = true /\
  exists d' bs pre post, convert_data cfg (snd a) = Ok d' /\ stored_ok d' /\ write_data d' = Ok bs /\
    ark = pre ++ marker ++ bs ++ post /\ Z.of_nat (len pre) = r_off row.

Lemma str_concat_cons x l : str_concat (x :: l) = (x ++ str_concat l)%string.
Proof. reflexivity. Qed.

Lemma append_assoc_s (a b c : string) : ((a ++ b) ++ c = a ++ (b ++ c))%string.
Proof. induction a as [|x a IH]; [reflexivity|]. cbn. rewrite IH. reflexivity. Qed.

Lemma ark_write_index cfg recs : forall st st', ark_write cfg st recs = Ok st' ->
  (forall k d d', In (k, d) recs -> convert_data cfg d = Ok d' -> stored_ok d') ->
  exists R, w_scp st' = (w_scp st ++ str_concat (map (fun l => l ++ nl_str) (map (line (w_sep cfg) ":" true false) R)))%string /\
    Forall2 (indexed cfg (w_ark st')) recs R.
Proof.
  induction recs as [|(k, d) recs IH]; intros st st' H Hok.
  - injection H as <-. exists []. split; [cbn; rewrite append_nil_r; reflexivity|constructor].
  - cbn [ark_write] in H. destruct (ark_write1 cfg st (k, d)) as [st1|] eqn:E; [|discriminate]. cbn [bind] in H.
    assert (Hok' : forall k0 d0 d', In (k0, d0) recs -> convert_data cfg d0 = Ok d' -> stored_ok d').
    { intros k0 d0 d0' Hin. apply (Hok k0 d0 d0'). right. exact Hin. }
    apply ark_write1_inv in E. destruct E as (d' & bs & C & B & T & K & A & Sc).
    destruct (ark_write_archive cfg recs st1 st' H Hok') as (recs' & bytes & _ & _ & Eb).
    destruct (IH st1 st' H Hok') as (R & ER & FR).
    set (off := Z.of_nat (len (w_ark st) + len (list_ascii_of_string k) + 1)) in *.
    exists (((k, w_path cfg), off, (0, 0)) :: R). split.
    + rewrite ER, Sc. cbn [map]. rewrite str_concat_cons.
      unfold line at 2, script, otxt, rtxt. cbn [r_key r_path r_off fst snd]. rewrite append_nil_r.
      unfold sstr. rewrite !append_assoc_s. cbn [append]. reflexivity.
    + constructor; [|exact FR]. split; [reflexivity|]. split; [reflexivity|]. split; [reflexivity|].
      split; [cbn; lia|]. split; [exact T|].
      exists d', bs, (w_ark st ++ list_ascii_of_string k ++ [space]), bytes.
      split; [exact C|]. split; [apply (Hok k d d' (or_introl eq_refl) C)|]. split; [exact B|]. split.
      * rewrite Eb, A. unfold frame. rewrite <- !app_assoc. reflexivity.
      * cbn [r_off fst snd]. unfold off. rewrite !app_length. cbn [List.length]. lia.
Qed.

Lemma token_one_line k : is_token k = true -> one_line k.
Proof.
  unfold is_token. rewrite !andb_true_iff. intros ((_ & H) & _).
  split; (induction k as [|c k IH]; [reflexivity|]; rewrite str_in_cons; cbn [str_forallb] in H;
    apply andb_true_iff in H as (H1 & H2); rewrite (IH H2), orb_false_r; apply Ascii.eqb_neq; intros ->; discriminate H1).
Qed.

Lemma ark_write_load cfg recs st : ark_write cfg wst0 recs = Ok st -> recs <> [] ->
  (forall k d d', In (k, d) recs -> convert_data cfg d = Ok d' -> stored_ok d') ->
  script_ok cfg (map fst recs) ->
  exists R, scp_load (w_scp st) (w_sep cfg) ":" = Ok (build R true false None) /\
    Forall2 (indexed cfg (w_ark st)) recs R.
Proof.
  intros W NE Hok (SO & P1 & P2 & P3 & HK).
  destruct (ark_write_index cfg recs wst0 st W Hok) as (R & ER & FR). exists R. split; [|exact FR].
  cbn [w_scp wst0 append] in ER. rewrite <- (save_lines (w_sep cfg) ":" true false R None) in ER. rewrite ER.
  rewrite (load_save_rows (w_sep cfg) ":" true false SO R None).
  - assert (Q : existsb (has_rtxt false) R = false).
    { clear. induction R as [|x R IH]; [reflexivity|]. cbn [existsb]. exact IH. }
    rewrite Q. reflexivity.
  - intros ->. inversion FR; subst. congruence.
  - clear - P1 P2 P3 HK FR. induction FR as [|a row recs R (H1 & H2 & H3 & H4 & H5 & _) F IH]; constructor.
    + unfold row_ok, savable, ent. cbn [fst snd]. rewrite H1, H2. split; [apply token_one_line; exact H5|].
      split; [exact P1|]. split; [apply HK; left; reflexivity|]. split; [exact P2|]. split; [exact P3|].
      split; [discriminate|]. split; [intros z Q; injection Q as <-; lia|discriminate].
    + apply IH. intros k Hk. apply HK. right. exact Hk.
Qed.

Lemma indexed_stored cfg d ark a row dec m : d_bytes d (w_path cfg) = Some ark -> indexed cfg ark a row ->
  (exists d', convert_data cfg (snd a) = Ok d' /\ value dec d' = Ok m) -> line_value dec d (ent true false row) m.
Proof.
  intros D (H1 & H2 & H3 & H4 & H5 & d' & bs & pre & post & C & S & B & E & L) (d2 & C2 & Vm).
  assert (d2 = d') by congruence. subst d2.
  exists (r_off row), d'. split; [reflexivity|]. split; [|exact Vm].
  exists pre, bs, post. cbn [ent fst snd]. rewrite H2. split; [congruence|]. auto.
Qed.
