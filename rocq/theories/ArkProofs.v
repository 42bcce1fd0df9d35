(** Archives: framing of records, sequential readers. *)
From Verif Require Import BaseFacts StrFacts.
From Verif Require Export KaldiCompProofs Ark.
Open Scope list_scope.
Open Scope Z_scope.

(** ** What a stored record holds *)

(** A record the file format can hold. *)
Definition stored_ok (d : wdata) : Prop :=
  match d with Raw m => mat_ok m | Comp c => cm_ok c end.

(** The array it stands for. *)
Definition value (dec : decoder) (d : wdata) : res km :=
  match d with Raw m => Ok m | Comp c => cm_to_ndarray dec c end.

(** Row range [r, r+n) (to the end if [n = 0]) that fits the array; a vector can only be asked
    for as a whole. *)
Definition rows_ok (m : km) (r n : Z) : Prop :=
  (r = 0 /\ n = 0) \/ (0 <= r /\ 0 <= n /\ exists R C, k_shape m = Mat R C /\ r + n <= R).

(** [m'] is that range of rows of [m]. *)
Definition rows_of (m : km) (r n : Z) (m' : km) : Prop :=
  (r = 0 /\ n = 0 /\ m' = m) \/
  (~ (r = 0 /\ n = 0) /\ exists R C, k_shape m = Mat R C /\ is_row_slice m r (req_rows R r n) m').

Lemma full_slice m m' R C : k_shape m = Mat R C -> 0 <= R -> 0 <= C ->
  Z.of_nat (len (k_data m)) = R * C -> is_row_slice m 0 R m' -> m' = m.
Proof.
  intros S HR HC L (T1 & T2 & T3 & T4).
  assert (KC : km_cols m = C) by (unfold km_cols; rewrite S; reflexivity).
  rewrite KC in *.
  destruct m as [dt sh da], m' as [dt1 sh1 da1]. cbn [k_dt k_shape k_data] in *. subst dt1 sh sh1. f_equal.
  apply nth_error_ext. intros i.
  destruct (Nat.lt_ge_cases i (len da)) as [Hi|Hi].
  2:{ rewrite (proj2 (nth_error_None da1 i)), (proj2 (nth_error_None da i)); [reflexivity|lia|lia]. }
  set (c := Z.to_nat C).
  assert (CP : (c <> 0)%nat) by nia.
  pose proof (Nat.div_mod i c CP) as DM. pose proof (Nat.mod_upper_bound i c CP) as MB.
  specialize (T4 (i / c)%nat (i mod c)%nat).
  unfold elem_at, km_cols in T4. cbn [k_shape k_data] in T4. cbn [Nat.add Z.to_nat] in T4.
  fold c in T4. replace (i / c * c + i mod c)%nat with i in T4 by lia. apply T4.
  - assert (i / c < Z.to_nat R)%nat; [|lia]. apply Nat.div_lt_upper_bound; [exact CP|]. unfold c. nia.
  - lia.
Qed.

Lemma value_ok dec d : stored_ok d -> exists m, value dec d = Ok m /\
  Z.of_nat (len (k_data m)) = km_rows m * km_cols m /\ 0 <= km_rows m /\ 0 <= km_cols m.
Proof.
  destruct d as [m|c]; cbn [stored_ok value].
  - intros (A & B & C & D). exists m. repeat split; try lia; exact C.
  - intros (ch & pl & P). destruct (expand_spec dec c ch pl P) as (m & E & T & S & L & _).
    exists m. split; [exact E|]. unfold km_rows, km_cols. rewrite S. destruct P. repeat split; lia.
Qed.

Lemma write_data_ok d : stored_ok d -> exists bs, write_data d = Ok bs.
Proof.
  destruct d as [m|c]; cbn [stored_ok write_data].
  - apply km_writable.
  - intros (ch & pl & P). rewrite (cm_write_ok c ch pl P). eexists. reflexivity.
Qed.

Lemma read_stored dec d bs f post r n seq m :
  stored_ok d -> write_data d = Ok bs -> rest f = bs ++ post -> value dec d = Ok m -> rows_ok m r n ->
  exists m' f', km_read dec f r n seq = Ok (m', f') /\ rows_of m r n m' /\
    (seq = true -> adv f (len bs) f').
Proof.
  intros S W R V Hr. destruct d as [m0|c]; cbn [stored_ok write_data value] in *.
  - injection V as <-. destruct Hr as [(-> & ->)|(Hr & Hn & R0 & C & Sh & L)].
    + destruct (km_roundtrip dec m0 bs f post seq S W R) as (f' & E & A).
      exists m0, f'. split; [exact E|]. split; [left; auto|]. intros ->. apply A. left. reflexivity.
    + destruct (km_read_rows dec m0 R0 C bs f post r n seq Sh S W R Hr Hn L) as (m' & f' & E & SL & A).
      exists m', f'. split; [exact E|]. split; [|exact A].
      destruct (Z.eq_dec r 0) as [->|Nr]; [destruct (Z.eq_dec n 0) as [->|Nn]|].
      * left. split; [reflexivity|]. split; [reflexivity|].
        destruct S as (S1 & S2 & S3 & S4). unfold km_rows, km_cols in *. rewrite Sh in *.
        eapply full_slice; [exact Sh|lia|lia|exact S3|]. unfold req_rows in SL. cbn [Z.eqb] in SL.
        rewrite Z.sub_0_r in SL. exact SL.
      * right. split; [tauto|]. exists R0, C. auto.
      * right. split; [tauto|]. exists R0, C. auto.
  - pose proof S as (ch & pl & P).
    assert (Hr' : 0 <= r /\ 0 <= n /\ r + n <= c_rows c).
    { destruct Hr as [(-> & ->)|(Hr & Hn & R0 & C & Sh & L)]; [destruct P; lia|].
      destruct (expand_spec dec c ch pl P) as (q & Q1 & _ & Q2 & _). rewrite Q1 in V. injection V as ->.
      rewrite Q2 in Sh. injection Sh as <- <-. auto. }
    destruct Hr' as (H0 & H1 & H2).
    destruct (km_read_compressed_rows dec c bs f post r n seq S W R H0 H1 H2) as (q & m' & f' & E & Sh & E' & SL & A).
    rewrite V in E. injection E as <-.
    exists m', f'. split; [exact E'|]. split; [|auto].
    destruct (Z.eq_dec r 0) as [->|Nr]; [destruct (Z.eq_dec n 0) as [->|Nn]|].
    + left. split; [reflexivity|]. split; [reflexivity|].
      destruct (value_ok dec (Comp c) S) as (q & Vq & L1 & L2 & L3). cbn [value] in Vq. rewrite V in Vq. injection Vq as <-.
      unfold km_rows, km_cols in *. rewrite Sh in *.
      eapply full_slice; [exact Sh|lia|lia|exact L1|]. unfold req_rows in SL. cbn [Z.eqb] in SL.
      rewrite Z.sub_0_r in SL. exact SL.
    + right. split; [tauto|]. exists (c_rows c), (c_cols c). auto.
    + right. split; [tauto|]. exists (c_rows c), (c_cols c). auto.
Qed.

(** The check of l.241 (number of rows obtained) passes. *)
Lemma rows_assert m r n m' : rows_of m r n m' ->
  (n =? 0) || (shape0 (k_shape m') =? n) = true.
Proof.
  intros [(-> & -> & _)|(_ & R & C & S & (_ & S' & _))]; [reflexivity|].
  rewrite S'. cbn [shape0]. unfold req_rows. destruct (Z.eqb_spec n 0); [reflexivity|]. cbn [orb]. lia.
Qed.

Lemma shape_stored dec d bs f post seq m :
  stored_ok d -> write_data d = Ok bs -> rest f = bs ++ post -> value dec d = Ok m ->
  exists f', km_read_shape f seq = Ok (k_shape m, f') /\ (seq = true -> adv f (len bs) f').
Proof.
  intros S W R V. destruct d as [m0|c]; cbn [stored_ok write_data value] in *.
  - injection V as <-. apply (km_read_shape_ok m0 bs f post seq S W R).
  - pose proof S as (ch & pl & P).
    destruct (expand_spec dec c ch pl P) as (q & Q1 & _ & Q2 & _). rewrite Q1 in V. injection V as ->.
    rewrite Q2. apply (cm_read_shape_ok c bs f post seq S W R).
Qed.

Lemma init_marker f post : rest f = marker ++ post ->
  exists f', init_kaldi_input_stream f = Ok (true, f') /\ adv f 2 f'.
Proof.
  intros R. destruct (peek_spec f 2 ltac:(lia)) as (f1 & E & A). unfold init_kaldi_input_stream.
  rewrite E. cbn [bind]. change (Z.to_nat 2) with 2%nat. rewrite R.
  rewrite firstn_app_exact by reflexivity.
  replace (bytes_eqb marker marker) with true by (symmetry; apply bytes_eqb_true; reflexivity).
  assert (R1 : rest f1 = marker ++ post) by (rewrite (adv0_rest _ _ A); exact R).
  rewrite f_read_n by (rewrite ?R1; cbn; lia).
  cbn [bind]. eexists. split; [reflexivity|]. eapply adv_trans0; [exact A|]. apply adv_goto.
Qed.

(** ** Archive bytes *)

Definition key_ok (k : string) : Prop :=
  str_forallb is_ascii k = true /\ str_in space k = false /\ k <> ""%string.

Definition frame (k : string) (bs : list byte) : list byte :=
  list_ascii_of_string k ++ [space] ++ marker ++ bs.

(** [is_archive recs bytes]: the bytes of the records [recs], in order. *)
Inductive is_archive : list (string * wdata) -> list byte -> Prop :=
| arch_nil : is_archive [] []
| arch_cons k d bs recs bytes :
    key_ok k -> stored_ok d -> write_data d = Ok bs -> is_archive recs bytes ->
    is_archive ((k, d) :: recs) (frame k bs ++ bytes).

Lemma is_archive_app r1 b1 r2 b2 : is_archive r1 b1 -> is_archive r2 b2 -> is_archive (r1 ++ r2) (b1 ++ b2).
Proof.
  induction 1; intros; [assumption|]. cbn [app]. rewrite <- app_assoc. constructor; auto.
Qed.

Lemma frame_len k bs : len (frame k bs) = (len (list_ascii_of_string k) + 3 + len bs)%nat.
Proof. unfold frame. rewrite !app_length. cbn. lia. Qed.

Lemma is_archive_len recs bytes : is_archive recs bytes -> (len recs <= len bytes)%nat.
Proof. induction 1; [reflexivity|]. cbn [List.length]. rewrite app_length, frame_len. lia. Qed.

(** ** Writer *)

Lemma ark_write1_inv cfg st k d st' : ark_write1 cfg st (k, d) = Ok st' ->
  exists d' bs, convert_data cfg d = Ok d' /\ write_data d' = Ok bs /\ is_token k = true /\ key_ok k /\
    w_ark st' = w_ark st ++ frame k bs /\
    w_scp st' = (w_scp st ++ k ++ sstr (w_sep cfg) ++ w_path cfg ++ ":" ++
      fmt_d (Z.of_nat (len (w_ark st) + len (list_ascii_of_string k) + 1)) ++ nl_str)%string.
Proof.
  unfold ark_write1. destruct (is_token k) eqn:T; [|discriminate]. cbn [assert bind].
  destruct (write_token k) as [tok|] eqn:W; [|discriminate]. cbn [bind].
  destruct (convert_data cfg d) as [d'|] eqn:C; [|discriminate]. cbn [bind].
  destruct (write_data d') as [bs|] eqn:B; [|discriminate]. cbn [bind]. intros H.
  apply write_token_inv in W. destruct W as (W1 & W2 & ->).
  exists d', bs. split; [reflexivity|]. split; [exact B|]. split; [reflexivity|].
  assert (st' = mk_wst ((w_ark st ++ list_ascii_of_string k ++ [space]) ++ init_kaldi_output_stream true ++ bs)
     (w_scp st ++ k ++ sstr (w_sep cfg) ++ w_path cfg ++ ":" ++
      fmt_d (Z.of_nat (len (w_ark st ++ list_ascii_of_string k ++ [space]))) ++ nl_str)%string) by congruence.
  subst st'. cbn [w_ark w_scp]. split; [|split].
  - split; [exact W1|]. split; [exact W2|]. intros ->. discriminate T.
  - unfold frame, init_kaldi_output_stream. rewrite <- !app_assoc. reflexivity.
  - rewrite !app_length. cbn [List.length]. rewrite Nat.add_assoc. reflexivity.
Qed.

(** Records after conversion. *)
Definition converted (cfg : wcfg) (recs recs' : list (string * wdata)) : Prop :=
  Forall2 (fun a b => fst a = fst b /\ convert_data cfg (snd a) = Ok (snd b)) recs recs'.

Lemma ark_writes_concat cfg calls : forall st,
  ark_writes cfg st calls = ark_write cfg st (concat calls).
Proof.
  induction calls as [|c calls IH]; intros st; [reflexivity|]. cbn [ark_writes concat].
  assert (H : forall r1 r2 st, ark_write cfg st (r1 ++ r2) = (s <- ark_write cfg st r1 ;; ark_write cfg s r2)).
  { clear. induction r1 as [|a r1 IH]; intros r2 st; [reflexivity|]. cbn [app ark_write].
    destruct (ark_write1 cfg st a); [|reflexivity]. cbn [bind]. apply IH. }
  rewrite H. destruct (ark_write cfg st c); [|reflexivity]. cbn [bind]. apply IH.
Qed.

Lemma ark_write_archive cfg recs : forall st st', ark_write cfg st recs = Ok st' ->
  (forall k d d', In (k, d) recs -> convert_data cfg d = Ok d' -> stored_ok d') ->
  exists recs' bytes, converted cfg recs recs' /\ is_archive recs' bytes /\ w_ark st' = w_ark st ++ bytes.
Proof.
  induction recs as [|(k, d) recs IH]; intros st st' H Hok.
  - injection H as <-. exists [], []. split; [constructor|]. split; [constructor|]. rewrite app_nil_r. reflexivity.
  - cbn [ark_write] in H. destruct (ark_write1 cfg st (k, d)) as [st1|] eqn:E; [|discriminate]. cbn [bind] in H.
    apply ark_write1_inv in E. destruct E as (d' & bs & C & B & T & K & A & _).
    destruct (IH st1 st' H) as (recs' & bytes & Cv & Ar & Eq).
    { intros k0 d0 d0' Hin. apply (Hok k0 d0 d0'). right. exact Hin. }
    exists ((k, d') :: recs'), (frame k bs ++ bytes). split; [|split].
    + constructor; [split; [reflexivity|exact C]|exact Cv].
    + constructor; auto. apply (Hok k d d'); [left; reflexivity|exact C].
    + rewrite Eq, A, <- app_assoc. reflexivity.
Qed.

(** ** Sequential reader *)

Lemma frame_parts f k bs post : rest f = frame k bs ++ post ->
  rest f = list_ascii_of_string k ++ space :: marker ++ bs ++ post.
Proof. intros ->. unfold frame. rewrite <- !app_assoc. reflexivity. Qed.

Lemma opt_pred_minus left n : option_map pred (option_map (fun k => k - n)%nat left)
  = option_map (fun k => k - S n)%nat left.
Proof. destruct left; cbn; [|reflexivity]. f_equal. lia. Qed.

(** outputs of reading [recs] with row range (r, n) *)
Definition reads_as (dec : decoder) (r n : Z) (a : string * wdata) (b : string * km) : Prop :=
  fst b = fst a /\ exists m, value dec (snd a) = Ok m /\ rows_of m r n (snd b).

Definition readable (dec : decoder) (r n : Z) (a : string * wdata) : Prop :=
  forall m, value dec (snd a) = Ok m -> rows_ok m r n.

Lemma aseq_loop_recs dec r n recs bytes : is_archive recs bytes -> Forall (readable dec r n) recs ->
  forall fuel f binary left acc post, rest f = bytes ++ post ->
  (forall k, left = Some k -> (len recs <= k)%nat) ->
  exists outs f' binary', Forall2 (reads_as dec r n) recs outs /\ adv f (len bytes) f' /\
    aseq_loop (len recs + fuel) dec f binary left r n acc =
    aseq_loop fuel dec f' binary' (option_map (fun k => k - len recs)%nat left) r n (acc ++ outs).
Proof.
  induction 1 as [|k d bs recs bytes K S W A IH]; intros Hr fuel f binary left acc post R HL.
  - exists [], f, binary. split; [constructor|]. split; [apply adv_refl|]. rewrite app_nil_r.
    cbn [List.length Nat.add]. destruct left as [q|]; cbn [option_map]; [rewrite Nat.sub_0_r|]; reflexivity.
  - inversion Hr as [|? ? Hr1 Hr2]; subst. rewrite <- app_assoc in R. apply frame_parts in R.
    destruct K as (K1 & K2 & K3).
    destruct (read_token_ok k f binary _ K1 K2 (or_intror K3) R) as (f1 & E1 & A1).
    assert (R1 : rest f1 = marker ++ bs ++ bytes ++ post).
    { rewrite (adv_rest _ _ _ A1), R. rewrite Nat.add_1_r.
      replace (list_ascii_of_string k ++ space :: marker ++ bs ++ bytes ++ post) with
        ((list_ascii_of_string k ++ [space]) ++ marker ++ bs ++ bytes ++ post) by (rewrite <- app_assoc; reflexivity).
      apply skipn_app_exact. rewrite app_length. cbn. lia. }
    destruct (init_marker f1 _ R1) as (f2 & E2 & A2).
    assert (R2 : rest f2 = bs ++ bytes ++ post) by (rewrite (adv_rest _ _ _ A2), R1; reflexivity).
    destruct (value_ok dec d S) as (m & V & _).
    destruct (read_stored dec d bs f2 _ r n true m S W R2 V (Hr1 m V)) as (m' & f3 & E3 & RO & A3).
    specialize (A3 eq_refl).
    assert (R3 : rest f3 = bytes ++ post) by (eapply adv_rest_app; eauto).
    destruct (IH Hr2 fuel f3 true (option_map pred left) (acc ++ [(k, m')]) post R3) as (outs & f4 & b4 & F & A4 & E4).
    { intros q Hq. destruct left as [q0|]; cbn in Hq; [|discriminate]. injection Hq as <-.
      specialize (HL q0 eq_refl). cbn [List.length] in HL. lia. }
    exists ((k, m') :: outs), f4, b4. split; [|split].
    + constructor; [|exact F]. split; [reflexivity|]. exists m. split; assumption.
    + pose proof (adv_trans _ _ _ _ _ (adv_trans _ _ _ _ _ (adv_trans _ _ _ _ _ A1 A2) A3) A4) as AA.
      rewrite app_length, frame_len. replace (len (list_ascii_of_string k) + 3 + len bs + len bytes)%nat with
        (len (list_ascii_of_string k) + 1 + 2 + len bs + len bytes)%nat by lia. exact AA.
    + cbn [List.length Nat.add aseq_loop].
      assert (LN : left <> Some 0%nat).
      { intros ->. specialize (HL 0%nat eq_refl). cbn in HL. lia. }
      replace (match left with Some 0%nat => Ok (acc, mk_aseq f false) | _ => _ end) with
        (aseq_loop (len recs + fuel) dec f3 true (option_map pred left) r n (acc ++ [(k, m')])).
      * rewrite E4. f_equal.
        -- destruct left as [q|]; cbn [option_map]; [|reflexivity]. f_equal. lia.
        -- rewrite <- app_assoc. reflexivity.
      * rewrite E1. cbn [bind].
        destruct (String.eqb_spec k "") as [->|_]; [congruence|].
        rewrite E2. cbn [bind km_read_b]. rewrite E3. cbn [bind].
        rewrite (rows_assert _ _ _ _ RO). cbn [assert bind].
        destruct left as [[|q]|]; [congruence|reflexivity|reflexivity].
Qed.

(** reading exactly as many records as asked *)
Lemma aseq_read_exact dec x recs bytes post r n : is_archive recs bytes -> Forall (readable dec r n) recs ->
  rest (a_f x) = bytes ++ post -> recs <> [] ->
  exists outs f', aseq_read dec x (Z.of_nat (len recs)) r n = Ok (outs, mk_aseq f' (a_eof x)) /\
    Forall2 (reads_as dec r n) recs outs /\ adv (a_f x) (len bytes) f'.
Proof.
  intros A Hr R NE. unfold aseq_read.
  assert (HL : (0 < len recs)%nat) by (destruct recs; [congruence|cbn; lia]).
  replace (Z.of_nat (len recs) =? 0) with false by lia. rewrite Nat2Z.id.
  pose proof (is_archive_len _ _ A) as L.
  set (fuel := (S (len (rest (a_f x))) - len recs)%nat).
  assert (Ef : S (len (rest (a_f x))) = (len recs + fuel)%nat).
  { unfold fuel. rewrite R, app_length. lia. }
  rewrite Ef.
  destruct (aseq_loop_recs dec r n recs bytes A Hr fuel (a_f x) false (Some (len recs)) [] post R)
    as (outs & f' & b' & F & Ad & E).
  { intros k Hk. injection Hk as <-. lia. }
  exists outs, f'. rewrite E. cbn [option_map]. rewrite Nat.sub_diag.
  assert (Q : forall fu acc, aseq_loop fu dec f' b' (Some 0%nat) r n acc = Ok (acc, mk_aseq f' false)).
  { intros [|fu] acc; reflexivity. }
  rewrite Q. cbn [bind app a_f a_eof]. rewrite orb_false_r. auto.
Qed.

(** reading to the end: num_records = 0, or more than there are *)
Lemma aseq_read_end dec x recs bytes N r n : is_archive recs bytes -> Forall (readable dec r n) recs ->
  rest (a_f x) = bytes -> (N = 0 \/ Z.of_nat (len recs) < N) ->
  exists outs f', aseq_read dec x N r n = Ok (outs, mk_aseq f' true) /\
    Forall2 (reads_as dec r n) recs outs /\ rest f' = [].
Proof.
  intros A Hr R HN. unfold aseq_read.
  pose proof (is_archive_len _ _ A) as L.
  set (fuel := (S (len (rest (a_f x))) - len recs)%nat).
  assert (Ef : S (len (rest (a_f x))) = (len recs + fuel)%nat /\ (0 < fuel)%nat).
  { unfold fuel. rewrite R. lia. }
  destruct Ef as (Ef & Fp). rewrite Ef.
  set (left := if N =? 0 then None else Some (Z.to_nat N)).
  destruct (aseq_loop_recs dec r n recs bytes A Hr fuel (a_f x) false left [] []) as (outs & f' & b' & F & Ad & E).
  { rewrite app_nil_r. exact R. }
  { unfold left. intros k Hk. destruct (Z.eqb_spec N 0); [discriminate|]. injection Hk as <-. lia. }
  exists outs.
  assert (R' : rest f' = []).
  { eapply adv_rest_app; [exact Ad|]. rewrite app_nil_r. exact R. }
  destruct (read_token_eof f' b' R') as (f2 & E2 & A2).
  exists f2. rewrite E.
  assert (Q : aseq_loop fuel dec f' b' (option_map (fun k => k - len recs)%nat left) r n ([] ++ outs)
              = Ok (outs, mk_aseq f2 true)).
  { destruct fuel as [|fuel']; [lia|]. cbn [aseq_loop app]. rewrite E2. cbn [bind].
    change (String.eqb "" "") with true. cbv iota.
    unfold left. destruct (Z.eqb_spec N 0); cbn [option_map]; [reflexivity|].
    destruct (Z.to_nat N - len recs)%nat as [|q] eqn:Eq; [lia|reflexivity]. }
  rewrite Q. cbn [bind a_f a_eof]. rewrite orb_true_r. split; [reflexivity|]. split; [exact F|].
  rewrite (adv0_rest _ _ A2). exact R'.
Qed.

(** Shapes *)
Lemma aseq_shapes_recs dec recs bytes : is_archive recs bytes ->
  forall fuel f binary left acc post, rest f = bytes ++ post ->
  (forall k, left = Some k -> (len recs <= k)%nat) ->
  exists outs f' binary',
    Forall2 (fun a b => fst b = fst a /\ exists m, value dec (snd a) = Ok m /\ snd b = k_shape m) recs outs /\
    adv f (len bytes) f' /\
    aseq_shapes_loop (len recs + fuel) f binary left acc =
    aseq_shapes_loop fuel f' binary' (option_map (fun k => k - len recs)%nat left) (acc ++ outs).
Proof.
  induction 1 as [|k d bs recs bytes K S W A IH]; intros fuel f binary left acc post R HL.
  - exists [], f, binary. split; [constructor|]. split; [apply adv_refl|]. rewrite app_nil_r.
    cbn [List.length Nat.add]. destruct left as [q|]; cbn [option_map]; [rewrite Nat.sub_0_r|]; reflexivity.
  - rewrite <- app_assoc in R. apply frame_parts in R.
    destruct K as (K1 & K2 & K3).
    destruct (read_token_ok k f binary _ K1 K2 (or_intror K3) R) as (f1 & E1 & A1).
    assert (R1 : rest f1 = marker ++ bs ++ bytes ++ post).
    { rewrite (adv_rest _ _ _ A1), R. rewrite Nat.add_1_r.
      replace (list_ascii_of_string k ++ space :: marker ++ bs ++ bytes ++ post) with
        ((list_ascii_of_string k ++ [space]) ++ marker ++ bs ++ bytes ++ post) by (rewrite <- app_assoc; reflexivity).
      apply skipn_app_exact. rewrite app_length. cbn. lia. }
    destruct (init_marker f1 _ R1) as (f2 & E2 & A2).
    assert (R2 : rest f2 = bs ++ bytes ++ post) by (rewrite (adv_rest _ _ _ A2), R1; reflexivity).
    destruct (value_ok dec d S) as (m & V & _).
    destruct (shape_stored dec d bs f2 _ true m S W R2 V) as (f3 & E3 & A3).
    specialize (A3 eq_refl).
    assert (R3 : rest f3 = bytes ++ post) by (eapply adv_rest_app; eauto).
    destruct (IH fuel f3 true (option_map pred left) (acc ++ [(k, k_shape m)]) post R3) as (outs & f4 & b4 & F & A4 & E4).
    { intros q Hq. destruct left as [q0|]; cbn in Hq; [|discriminate]. injection Hq as <-.
      specialize (HL q0 eq_refl). cbn [List.length] in HL. lia. }
    exists ((k, k_shape m) :: outs), f4, b4. split; [|split].
    + constructor; [|exact F]. split; [reflexivity|]. exists m. split; [assumption|reflexivity].
    + pose proof (adv_trans _ _ _ _ _ (adv_trans _ _ _ _ _ (adv_trans _ _ _ _ _ A1 A2) A3) A4) as AA.
      rewrite app_length, frame_len. replace (len (list_ascii_of_string k) + 3 + len bs + len bytes)%nat with
        (len (list_ascii_of_string k) + 1 + 2 + len bs + len bytes)%nat by lia. exact AA.
    + cbn [List.length Nat.add aseq_shapes_loop].
      assert (LN : left <> Some 0%nat).
      { intros ->. specialize (HL 0%nat eq_refl). cbn in HL. lia. }
      replace (match left with Some 0%nat => Ok (acc, mk_aseq f false) | _ => _ end) with
        (aseq_shapes_loop (len recs + fuel) f3 true (option_map pred left) (acc ++ [(k, k_shape m)])).
      * rewrite E4. f_equal.
        -- destruct left as [q|]; cbn [option_map]; [|reflexivity]. f_equal. lia.
        -- rewrite <- app_assoc. reflexivity.
      * rewrite E1. cbn [bind].
        destruct (String.eqb_spec k "") as [->|_]; [congruence|].
        rewrite E2. cbn [bind km_read_shape_b]. rewrite E3. cbn [bind].
        destruct left as [[|q]|]; [congruence|reflexivity|reflexivity].
Qed.
