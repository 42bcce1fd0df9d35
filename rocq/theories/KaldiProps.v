(** Properties C12-C18 (hyperion/utils/kaldi_io_funcs.py, hyperion/utils/kaldi_matrix.py).

    A stream [f] is a file contents, a position and an arbitrary buffering behaviour (Bytes.v);
    [rest f] is what is left to read; [adv f k f'] says that [f'] is [f] moved by [k] bytes.
    "Whatever follows" is the free variable [post]. *)
From Verif Require Import Base BaseFacts Str StrFacts Bytes Kaldi KaldiProofs KaldiMatProofs
  KaldiCompProofs KaldiCodec KaldiCodecProofs.
Open Scope list_scope.
Open Scope Z_scope.

(** ** C12 *)

(** In text mode ([binary = false], used for archive keys) the empty token is excluded: it is
    how the end of the archive is reported. *)
Theorem C12_token_roundtrip : forall s bs f binary post,
  write_token s = Ok bs -> (binary = true \/ s <> ""%string) -> rest f = bs ++ post ->
  exists f', read_token f binary = Ok (s, f') /\ adv f (len bs) f' /\ rest f' = post.
Proof.
  intros s bs f binary post W B R. apply write_token_inv in W. destruct W as (W1 & W2 & ->).
  rewrite <- app_assoc in R. destruct (read_token_ok s f binary post W1 W2 B R) as (f' & E & A).
  exists f'. split; [exact E|].
  assert (A' : adv f (len (list_ascii_of_string s ++ [space])) f') by (rewrite app_length; exact A).
  split; [exact A'|]. eapply adv_rest_app; [exact A'|]. rewrite <- app_assoc. exact R.
Qed.
Print Assumptions C12_token_roundtrip.

(** The tokens that can be written: ASCII, no space.  Any other token is refused. *)
Theorem C12_token_domain : forall s,
  (exists bs, write_token s = Ok bs) <->
  (forall c, In c (list_ascii_of_string s) -> (nat_of_ascii c < 128)%nat /\ c <> " "%char).
Proof.
  intros s. split.
  - intros (bs & W) c Hc. apply write_token_inv in W. destruct W as (W1 & W2 & _).
    rewrite str_forallb_list in W1. rewrite forallb_forall in W1. specialize (W1 c Hc).
    unfold is_ascii in W1. apply Nat.ltb_lt in W1. split; [exact W1|]. intros ->.
    rewrite str_in_list in W2.
    assert (existsb (Ascii.eqb space) (list_ascii_of_string s) = true); [|congruence].
    apply existsb_exists. exists " "%char. split; [exact Hc|reflexivity].
  - intros H. eexists. apply write_token_ok.
    + rewrite str_forallb_list. apply forallb_forall. intros c Hc. unfold is_ascii.
      apply Nat.ltb_lt. apply H, Hc.
    + rewrite str_in_list. destruct (existsb _ _) eqn:E; [|reflexivity].
      apply existsb_exists in E. destruct E as (c & Hc & Q). apply Ascii.eqb_eq in Q. subst c.
      exfalso. apply (H _ Hc). reflexivity.
Qed.
Print Assumptions C12_token_domain.

Theorem C12_int32_roundtrip : forall z bs f post,
  write_int32 z = Ok bs -> rest f = bs ++ post ->
  exists f', read_int32 f = Ok (z, f') /\ adv f (len bs) f' /\ rest f' = post.
Proof.
  intros z bs f post W R. apply write_int32_inv in W. destruct W as (Hz & ->).
  rewrite (read_int32_ok f z post Hz R). eexists. split; [reflexivity|].
  assert (L : len (byte_of 4 :: le_bytes 4 z) = 5%nat).
  { cbn [List.length]. rewrite le_bytes_len. reflexivity. }
  rewrite L. split; [apply adv_goto|]. rewrite rest_goto, R. rewrite <- L. apply skipn_app_exact. reflexivity.
Qed.
Print Assumptions C12_int32_roundtrip.

Theorem C12_int32_domain : forall z,
  (exists bs, write_int32 z = Ok bs) <-> - 2 ^ 31 <= z < 2 ^ 31.
Proof.
  intros z. split; [intros (bs & W); apply write_int32_inv in W; tauto|].
  intros H. unfold write_int32, pack_i.
  replace ((- 2 ^ 31 <=? z) && (z <? 2 ^ 31)) with true by lia. cbn [bind]. eexists. reflexivity.
Qed.
Print Assumptions C12_int32_domain.

Example C12_witness :
  write_token "utt-1" = Ok (list_ascii_of_string "utt-1 ") /\
  write_int32 (-3) = Ok [chr 4; chr 253; chr 255; chr 255; chr 255] /\
  (let f := open_file (list_ascii_of_string "utt-1 xyz") (fun _ => 0%nat) in
   exists f', read_token f false = Ok ("utt-1"%string, f') /\ rest f' = list_ascii_of_string "xyz").
Proof. split; [reflexivity|]. split; [reflexivity|]. eexists. split; reflexivity. Qed.

(** ** C13: for the byte counts the library uses (1 and 2), peek shows the next bytes and does
    not move, for every buffering. *)
Theorem C13_peek_partial : forall f n, 0 <= n <= 2 ->
  exists f', peek f n = Ok (firstn (Z.to_nat n) (rest f), f') /\ adv f 0 f'.
Proof. exact peek_spec. Qed.
Print Assumptions C13_peek_partial.

(** Missing part, and why: for three bytes or more the claim is false of the code.  When the
    buffer holds one byte at a time, two looks show two bytes only. *)
Theorem C13_peek_refuted : forall n, 3 <= n -> exists f p f',
  n <= Z.of_nat (len (rest f)) /\ peek f n = Ok (p, f') /\ len p = 2%nat.
Proof.
  intros n Hn.
  exists (open_file (repeat space (Z.to_nat n)) (fun _ => 0%nat)).
  assert (E : exists k, repeat space (Z.to_nat n) = space :: space :: space :: k).
  { replace (Z.to_nat n) with (S (S (S (Z.to_nat (n - 3))))) by lia. cbn [repeat]. eexists. reflexivity. }
  destruct E as [k E].
  assert (L : len (repeat space (Z.to_nat n)) = Z.to_nat n) by apply repeat_length.
  unfold peek, f_peek, rest, open_file. cbn [f_bytes f_pos f_tick f_buf skipn].
  rewrite E in *. cbn [firstn].
  replace (Z.to_nat n) with (S (Z.to_nat (n - 1))) by lia. cbn [firstn].
  assert (F : firstn (Z.to_nat (n - 1)) (@nil ascii) = []) by (destruct (Z.to_nat (n - 1)); reflexivity).
  rewrite F. cbn [List.length]. replace (Z.of_nat 1 <? n) with true by lia.
  unfold f_read. cbn [Z.of_nat Pos.of_succ_nat Z.ltb Z.compare Z.eqb].
  change (Z.to_nat 1) with 1%nat. unfold rest. cbn [f_bytes f_pos skipn firstn bind goto List.length f_tick f_buf Nat.add].
  unfold f_seek_cur. cbn [f_pos f_bytes f_tick f_buf Z.of_nat Pos.of_succ_nat].
  change (1 + - (1)) with 0. cbn [Z.ltb Z.compare bind].
  exists (space :: firstn (Z.to_nat (n - 1)) [space]). eexists. split; [cbn [List.length] in L; lia|].
  split; [reflexivity|]. replace (Z.to_nat (n - 1)) with (S (Z.to_nat (n - 2))) by lia.
  cbn [firstn List.length]. destruct (Z.to_nat (n - 2)); reflexivity.
Qed.
Print Assumptions C13_peek_refuted.

(** Consequence used by every reader: the binary marker is recognised iff it is there, for every
    buffering, and only then consumed. *)
Theorem C13_marker : forall f,
  exists f', init_kaldi_input_stream f =
    Ok (bytes_eqb (firstn 2 (rest f)) marker, f') /\
    adv f (if bytes_eqb (firstn 2 (rest f)) marker then 2 else 0) f'.
Proof.
  intros f. destruct (peek_spec f 2 ltac:(lia)) as (f1 & E & A). unfold init_kaldi_input_stream.
  rewrite E. cbn [bind]. change (Z.to_nat 2) with 2%nat.
  destruct (bytes_eqb (firstn 2 (rest f)) marker) eqn:B; [|exists f1; split; [reflexivity|exact A]].
  assert (R : rest f1 = rest f) by (apply adv0_rest, A).
  assert (L : (2 <= len (rest f))%nat).
  { apply bytes_eqb_true in B. destruct (rest f) as [|x [|y l]]; [discriminate|discriminate|cbn; lia]. }
  rewrite f_read_n by (rewrite ?R; lia || exact L).
  cbn [bind]. eexists. split; [reflexivity|]. eapply adv_trans0; [exact A|]. apply adv_goto.
Qed.
Print Assumptions C13_marker.

Example C13_witness :
  let f := open_file (list_ascii_of_string "abc") (fun _ => 0%nat) in
  exists f', peek f 2 = Ok (["a"; "b"]%char, f') /\ f_pos f' = 0%nat.
Proof. eexists. split; reflexivity. Qed.

(** ** C14 *)

(** [mat_ok m]: the shape of a numpy float array that fits the format (dimensions in
    [0, 2^31), as many elements as the shape says, of 4 or 8 bytes each). *)
Theorem C14_raw_roundtrip : forall dec m f post, mat_ok m ->
  exists bs, km_write m = Ok bs /\
    (rest f = bs ++ post ->
     exists f', km_read dec f 0 0 true = Ok (m, f') /\ adv f (len bs) f' /\ rest f' = post).
Proof.
  intros dec m f post M. destruct (km_writable m M) as (bs & W). exists bs. split; [exact W|].
  intros R. destruct (km_roundtrip dec m bs f post true M W R) as (f' & E & A).
  exists f'. split; [exact E|]. specialize (A (or_introl eq_refl)). split; [exact A|].
  eapply adv_rest_app; eauto.
Qed.
Print Assumptions C14_raw_roundtrip.

(** [cm_ok c]: a compressed matrix whose bytes are a 20-byte header agreeing with its
    attributes, one 8-byte header per column for format 1, and one code per element. *)
Theorem C14_compressed_roundtrip : forall c f post, cm_ok c ->
  exists bs, cm_write c = Ok bs /\
    (rest f = bs ++ post ->
     exists f', cm_read f 0 0 = Ok (c, f') /\ adv f (len bs) f' /\ rest f' = post).
Proof.
  intros c f post M. destruct M as (ch & pl & P). rewrite (cm_write_ok c ch pl P).
  eexists. split; [reflexivity|]. intros R.
  destruct (cm_roundtrip c _ f post (ex_intro _ ch (ex_intro _ pl P)) (cm_write_ok c ch pl P) R)
    as (f' & E & A).
  exists f'. split; [exact E|]. split; [exact A|]. eapply adv_rest_app; eauto.
Qed.
Print Assumptions C14_compressed_roundtrip.

Definition mat22 : km :=
  mk_km F32 (Mat 2 2) (map (fun k => le_bytes 4 k) [1; 2; 3; 4]).
Definition cmat : cm :=
  mk_cm (cm_header 1 (le_bytes 4 7) (le_bytes 4 9) 3 1 ++ le_bytes 8 12345 ++ [chr 1; chr 2; chr 3])
    1 (le_bytes 4 7) (le_bytes 4 9) 3 1.

Example C14_witness : mat_ok mat22 /\ cm_ok cmat /\
  mat_ok (mk_km F64 (Vec 0) []) /\ mat_ok (mk_km F64 (Mat 0 3) []).
Proof.
  split; [|split; [|split]].
  - repeat split; try (cbn; lia). repeat constructor.
  - exists (le_bytes 8 12345), [chr 1; chr 2; chr 3]. constructor; try reflexivity; cbn; lia.
  - repeat split; try (cbn; lia). constructor.
  - repeat split; try (cbn; lia). constructor.
Qed.

(** ** C15: [is_row_slice m r n m'] says that [m'] has [n] rows, the columns and type of [m],
    and m'[i, j] = m[r + i, j].  [req_rows R r n] is [n], or [R - r] if [n = 0]. *)
Theorem C15_rows_raw : forall dec m R C bs f post r n seq,
  k_shape m = Mat R C -> mat_ok m -> km_write m = Ok bs -> rest f = bs ++ post ->
  0 <= r -> 0 <= n -> r + n <= R ->
  exists m' f', km_read dec f r n seq = Ok (m', f') /\ is_row_slice m r (req_rows R r n) m' /\
    (seq = true -> adv f (len bs) f').
Proof. exact km_read_rows. Qed.
Print Assumptions C15_rows_raw.

(** The same for the three compressed formats, for every decoder of the codes. *)
Theorem C15_rows_compressed : forall dec c bs f post r n seq,
  cm_ok c -> cm_write c = Ok bs -> rest f = bs ++ post ->
  0 <= r -> 0 <= n -> r + n <= c_rows c ->
  exists m m' f',
    (exists f0, km_read dec f 0 0 seq = Ok (m, f0)) /\
    k_shape m = Mat (c_rows c) (c_cols c) /\
    km_read dec f r n seq = Ok (m', f') /\
    is_row_slice m r (req_rows (c_rows c) r n) m' /\ adv f (len bs) f'.
Proof.
  intros dec c bs f post r n seq P W R Hr Hn Hrn.
  destruct (km_read_compressed_rows dec c bs f post r n seq P W R Hr Hn Hrn) as (m & m' & f' & E & S & E' & SL & A).
  exists m, m', f'. split; [|auto].
  destruct (cm_roundtrip c bs f post P W R) as (f1 & Er & _).
  pose proof P as (ch & pl & PP).
  destruct (km_read_compressed_rows dec c bs f post 0 0 seq P W R ltac:(lia) ltac:(lia) ltac:(destruct PP; lia))
    as (m0 & m1 & f2 & E0 & S0 & E1 & SL1 & A1).
  exists f2. rewrite E1. f_equal. f_equal.
  (* the slice [0, rows) of m is m *)
  assert (m0 = m) by congruence. subst m0.
  destruct SL1 as (T1 & T2 & T3 & T4). 
  assert (Lm : Z.of_nat (len (k_data m)) = c_rows c * c_cols c).
  { destruct (expand_spec dec c ch pl PP) as (q & Q1 & _ & _ & Q2 & _). congruence. }
  assert (KC : km_cols m = c_cols c) by (unfold km_cols; rewrite S; reflexivity).
  unfold req_rows in *. cbn [Z.eqb] in *. rewrite Z.sub_0_r in *.
  destruct m as [dt sh da], m1 as [dt1 sh1 da1]. cbn [k_dt k_shape k_data] in *. subst dt1. rewrite S, T2, KC. f_equal.
  apply nth_error_ext. intros i.
  destruct (Nat.lt_ge_cases i (len da)) as [Hi|Hi].
  2:{ rewrite (proj2 (nth_error_None da1 i)), (proj2 (nth_error_None da i)); [reflexivity|lia|].
      rewrite KC in T3. lia. }
  assert (HC : 0 < c_cols c) by (destruct PP; nia).
  set (C := Z.to_nat (c_cols c)).
  assert (CP : (C <> 0)%nat) by lia.
  pose proof (Nat.div_mod i C CP) as DM. pose proof (Nat.mod_upper_bound i C CP) as MB.
  specialize (T4 (i / C)%nat (i mod C)%nat).
  unfold elem_at, km_cols in T4. cbn [k_shape k_data] in T4. rewrite S, T2, KC in T4. cbn [Nat.add Z.to_nat] in T4.
  fold C in T4. replace (i / C * C + i mod C)%nat with i in T4 by lia. apply T4.
  - assert (i / C < Z.to_nat (c_rows c))%nat; [|lia]. apply Nat.div_lt_upper_bound; [exact CP|]. unfold C. nia.
  - unfold C in MB. lia.
Qed.
Print Assumptions C15_rows_compressed.

(** A range that does not fit is refused, whatever the record. *)
Theorem C15_bad_range_raw : forall dec m R C bs f post r n seq,
  k_shape m = Mat R C -> mat_ok m -> km_write m = Ok bs -> rest f = bs ++ post ->
  0 <= n -> R < r + n -> km_read dec f r n seq = Err AssertionError.
Proof.
  intros dec m R C bs f post r n seq S M W Hf Hn Hrn.
  destruct (km_read_is_raw dec m bs f post r n seq M W Hf) as (f1 & A & ->).
  pose proof (adv0_rest _ _ A) as R1. rewrite Hf in R1.
  destruct M as (M1 & M2 & M3 & M4). unfold km_rows, km_cols in *. rewrite S in *.
  rewrite (km_write_mat m R C S M1 M2) in W.
  assert (bs = [tag1 (k_dt m); "M"%char; space] ++ int_field R ++ int_field C ++ concat (k_data m)) by congruence.
  subst bs. rewrite <- !app_assoc in R1.
  unfold km_read_raw. rewrite (read_tag _ _ _ _ (or_introl eq_refl) R1).
  cbn [bind tok_char String.get]. change (ndim_of "M") with (Some true). cbn [bound_var bind].
  assert (R2 : rest (goto f1 (f_pos f1 + 3)) = int_field R ++ int_field C ++ concat (k_data m) ++ post).
  { rewrite rest_goto, R1. reflexivity. }
  destruct (read_field R _ _ M1 R2) as (E2 & _). rewrite E2. cbn [bind].
  destruct (Z.leb_spec r R) as [L|L]; [|reflexivity]. cbn [assert bind].
  destruct (Z.eqb_spec n 0) as [E|E]; [lia|].
  replace (n <=? R - r) with false by lia. reflexivity.
Qed.
Print Assumptions C15_bad_range_raw.

(** Finding: a vector is not protected.  Asking a stored vector for row_offset 1 skips past the
    record and returns bytes of the next one, without an error. *)
Theorem C15_vector_offset_refuted : forall dec, exists m f bs post m' f',
  mat_ok m /\ k_shape m = Vec 1 /\ km_write m = Ok bs /\ rest f = bs ++ post /\
  km_read dec f 1 0 true = Ok (m', f') /\ k_data m' <> k_data m /\ rest f' = [].
Proof.
  intros dec.
  set (m := mk_km F32 (Vec 1) [le_bytes 4 5]).
  assert (M : mat_ok m) by (repeat split; try (cbn; lia); repeat constructor).
  set (post := le_bytes 4 9).
  set (bs := [ "F"; "V"; " " ]%char ++ [chr 4; chr 1; chr 0; chr 0; chr 0] ++ le_bytes 4 5).
  assert (W : km_write m = Ok bs) by reflexivity.
  exists m, (open_file (bs ++ post) (fun _ => 0%nat)), bs, post.
  exists (mk_km F32 (Vec 1) [le_bytes 4 9]), (mk_file (bs ++ post) 16 1 (fun _ => 0%nat)).
  split; [exact M|]. split; [reflexivity|]. split; [exact W|]. split; [reflexivity|].
  split; [reflexivity|]. split; [discriminate|reflexivity].
Qed.
Print Assumptions C15_vector_offset_refuted.

Example C15_witness : forall dec,
  let bs := list_ascii_of_string "FM " ++ [chr 4; chr 2; chr 0; chr 0; chr 0] ++
            [chr 4; chr 2; chr 0; chr 0; chr 0] ++ concat (k_data mat22) in
  km_write mat22 = Ok bs /\
  km_read dec (open_file (bs ++ [chr 7]) (fun _ => 0%nat)) 1 1 true
    = Ok (mk_km F32 (Mat 1 2) [le_bytes 4 3; le_bytes 4 4],
          mk_file (bs ++ [chr 7]) 29 1 (fun _ => 0%nat)).
Proof. intros dec. split; vm_compute; reflexivity. Qed.

(** ** C16 *)
Theorem C16_shape_raw : forall dec m bs f post seq,
  mat_ok m -> km_write m = Ok bs -> rest f = bs ++ post ->
  exists m' f' f'', km_read dec f 0 0 seq = Ok (m', f') /\
    km_read_shape f seq = Ok (k_shape m', f'') /\
    (seq = true -> f_pos f'' = f_pos f').
Proof.
  intros dec m bs f post seq M W R.
  destruct (km_roundtrip dec m bs f post seq M W R) as (f' & E & A).
  destruct (km_read_shape_ok m bs f post seq M W R) as (f'' & E' & A').
  exists m, f', f''. split; [exact E|]. split; [exact E'|]. intros ->.
  destruct (A (or_introl eq_refl)) as (_ & _ & P). destruct (A' eq_refl) as (_ & _ & P'). congruence.
Qed.
Print Assumptions C16_shape_raw.

Theorem C16_shape_compressed : forall dec c bs f post seq,
  cm_ok c -> cm_write c = Ok bs -> rest f = bs ++ post ->
  exists m' f' f'', km_read dec f 0 0 seq = Ok (m', f') /\
    km_read_shape f seq = Ok (k_shape m', f'') /\
    (seq = true -> f_pos f'' = f_pos f').
Proof.
  intros dec c bs f post seq M W R. pose proof M as (ch & pl & P).
  destruct (km_read_compressed_rows dec c bs f post 0 0 seq M W R ltac:(lia) ltac:(lia) ltac:(destruct P; lia))
    as (m & m' & f' & E & S & E' & SL & A).
  destruct (cm_read_shape_ok c bs f post seq M W R) as (f'' & E2 & A2).
  exists m', f', f''. split; [exact E'|]. destruct SL as (_ & S' & _).
  rewrite S'. unfold req_rows. cbn [Z.eqb]. rewrite Z.sub_0_r. unfold km_cols. rewrite S.
  split; [exact E2|]. intros ->. destruct A as (_ & _ & PA). destruct (A2 eq_refl) as (_ & _ & PA2). congruence.
Qed.
Print Assumptions C16_shape_compressed.

Example C16_witness :
  let bs := list_ascii_of_string "CM " ++ skipn 4 (c_data cmat) in
  cm_write cmat = Ok bs /\
  km_read_shape (open_file (bs ++ [chr 7]) (fun _ => 0%nat)) true
    = Ok (Mat 3 1, mk_file (bs ++ [chr 7]) 30 2 (fun _ => 0%nat)).
Proof. split; vm_compute; reflexivity. Qed.

(** ** C17, in exact arithmetic *)
Open Scope Q_scope.

(** [auto_bound m]: half a quantisation step of the range, plus the slack of 0.001 step of the
    code, plus (2-byte format) the truncated literal 1.52590218966964e-05. *)
Definition auto_bound (m : cmethod) : Q :=
  match m with
  | Auto2 => ((5 # 10) + (1 # 1000)) / (65535 # 1) + (15 # 10000000000000000)
  | _ => ((5 # 10) + (1 # 1000)) / (255 # 1)
  end.

Theorem C17_auto : forall m mat, m = Auto2 \/ m = Auto1 -> mat <> [] ->
  exists mn rg codes, compress_flat m mat = Ok (mn, rg, codes) /\
    (* the range of the header: from the minimum, covering every entry *)
    In mn mat /\ 0 < rg /\ (forall x, In x mat -> mn <= x <= mn + rg) /\
    (* the codes fit *)
    Forall (fun u => (0 <= u <= if method_format m =? 2 then 65535 else 255)%Z) codes /\
    let out := expand_flat m (mn, rg, codes) in
    List.length out = List.length mat /\
    forall i x, nth_error mat i = Some x -> exists y, nth_error out i = Some y /\
      mn <= y <= mn + rg /\ Qabs (y - x) <= rg * auto_bound m /\ (x == mn -> y == mn) /\
      forall j x', nth_error mat j = Some x' -> x <= x' ->
        exists y', nth_error out j = Some y' /\ y <= y'.
Proof.
  intros m mat Hm Hne.
  destruct (auto_range_total m mat ltac:(tauto) Hne) as (mn & rg & G).
  destruct (auto_range m mat mn rg ltac:(tauto) G) as (Hr & Hmn & Hx).
  unfold compress_flat. rewrite G. cbn [bind]. eexists. eexists. eexists. split; [reflexivity|].
  split; [exact Hmn|]. split; [exact Hr|]. split; [exact Hx|].
  split.
  { apply Forall_forall. intros u Hu. apply in_map_iff in Hu. destruct Hu as (x & <- & Hi).
    destruct Hm as [-> | ->]; cbn [method_format Z.eqb Pos.eqb]; [apply uint16_range|apply uint8_range]. }
  unfold expand_flat. cbv zeta. split; [rewrite !map_length; reflexivity|].
  intros i x Hi. pose proof (nth_error_In _ _ Hi) as HI.
  rewrite map_map. destruct Hm as [-> | ->]; cbn [method_format Z.eqb Pos.eqb].
  - eexists. split; [rewrite nth_error_map, Hi; reflexivity|].
    destruct (codec16 mn rg x Hr (Hx x HI)) as (A & B).
    split; [exact A|]. split.
    { assert (Q : auto_bound Auto2 == (501 # 1000) / (65535 # 1) + (15 # 10000000000000000)) by (vm_compute; reflexivity).
      rewrite Q. exact B. }
    split.
    { intros Q. pose proof (codec16_mono mn rg x mn Hr ltac:(lra)). pose proof (codec16_min mn rg Hr). lra. }
    intros j x' Hj L. eexists. split; [rewrite nth_error_map, Hj; reflexivity|].
    apply codec16_mono; assumption.
  - eexists. split; [rewrite nth_error_map, Hi; reflexivity|].
    destruct (codec8 mn rg x Hr (Hx x HI)) as (A & B).
    split; [exact A|]. split.
    { assert (Q : auto_bound Auto1 == (501 # 1000) / (255 # 1)) by (vm_compute; reflexivity).
      rewrite Q. exact B. }
    split.
    { intros Q. pose proof (codec8_mono mn rg x mn Hr ltac:(lra)). pose proof (codec8_min mn rg Hr). lra. }
    intros j x' Hj L. eexists. split; [rewrite nth_error_map, Hj; reflexivity|].
    apply codec8_mono; assumption.
Qed.
Print Assumptions C17_auto.

(** The integer method is lossless on integers 0..255. *)
Theorem C17_uint : forall ks, Forall (fun k => (0 <= k <= 255)%Z) ks ->
  exists c, compress_flat UInt1 (map inject_Z ks) = Ok (0, 255 # 1, c) /\ c = ks /\
    Forall2 Qeq (expand_flat UInt1 (0, 255 # 1, c)) (map inject_Z ks).
Proof.
  intros ks H. unfold compress_flat. cbn [global_range bind method_format Z.eqb Pos.eqb].
  eexists. split; [reflexivity|]. split.
  - rewrite map_map. transitivity (map (fun x => x) ks); [|apply map_id].
    apply map_ext_Forall. eapply Forall_impl; [|exact H]. intros k Hk. apply (codec_uint1 k Hk).
  - unfold expand_flat. cbn [method_format Z.eqb Pos.eqb]. rewrite !map_map.
    induction H as [|k ks Hk H IH]; [constructor|]. cbn [map]. constructor; [|exact IH].
    rewrite (proj1 (codec_uint1 k Hk)). apply (codec_uint1 k Hk).
Qed.
Print Assumptions C17_uint.

(** The speech-feature method, one column: length kept, values in range, error at most 1/126 of
    the range (63 steps for the last quartile) plus the error of the stored percentiles. *)
Theorem C17_speech_feat : forall mn rg v, 0 < rg -> v <> [] ->
  (forall x, In x v -> mn <= x <= mn + rg) ->
  exists h bs, compress_column mn rg v = Ok (h, bs) /\
    List.length bs = List.length v /\
    forall i x, nth_error v i = Some x -> exists y,
      nth_error (uncompress_col mn rg h bs) i = Some y /\ mn <= y <= mn + rg /\
      Qabs (y - x) <= rg * ((1 # 126) + (501 # 1000) / (65535 # 1) + (15 # 10000000000000000)).
Proof.
  intros mn rg v Hr Hne Hv.
  destruct (column_header_ok mn rg v Hne) as (a & b & c & d & E & _).
  assert (exists h bs, compress_column mn rg v = Ok (h, bs)) as (h & bs & C).
  { unfold compress_column. rewrite E. cbn [bind column_percentiles]. eexists. eexists. reflexivity. }
  exists h, bs. split; [exact C|]. exact (column_error mn rg v h bs Hr Hv C).
Qed.
Print Assumptions C17_speech_feat.

(** The column bytes are bytes. *)
Theorem C17_speech_feat_codes : forall mn rg v h bs,
  compress_column mn rg v = Ok (h, bs) -> Forall (fun b => (0 <= b <= 255)%Z) bs.
Proof.
  intros mn rg v h bs. unfold compress_column.
  destruct (column_header mn rg v) as [[[[a b] c] d]|]; [|discriminate].
  cbn [bind column_percentiles]. intros H. injection H as <- <-.
  apply Forall_forall. intros k Hk. apply in_map_iff in Hk. destruct Hk as (x & <- & _).
  unfold float_to_char, zclamp.
  repeat match goal with
  | |- context [qltb ?a ?b] => destruct (qltb a b)
  end; match goal with |- context [qtrunc ?t] => set (k := qtrunc t) end;
  repeat match goal with |- context [if ?b then _ else _] => destruct b eqn:? end; lia.
Qed.
Print Assumptions C17_speech_feat_codes.

Example C17_witness :
  compress_flat Auto1 [0; 1; 255 # 1] = Ok (0, 255 # 1, [0; 1; 255]%Z) /\
  match compress_flat Auto2 [3; 3; 3] with
  | Ok c => Forall2 Qeq (expand_flat Auto2 c) [3; 3; 3]
  | Err _ => False
  end.
Proof. split; [reflexivity|]. cbn. repeat constructor. Qed.

(** ** C18 *)
Theorem C18_column_header : forall mn rg v, v <> [] ->
  exists a b c d, column_header mn rg v = Ok (a, b, c, d) /\
    (0 <= a)%Z /\ (a < b)%Z /\ (b < c)%Z /\ (c < d)%Z /\ (d <= 65535)%Z.
Proof. exact column_header_ok. Qed.
Print Assumptions C18_column_header.

(** Expanding is strictly increasing in the stored byte, for every header the compressor can
    produce and every positive range. *)
Theorem C18_expand_monotone : forall mn rg v h, 0 < rg -> column_header mn rg v = Ok h ->
  forall i j, (0 <= i)%Z -> (i < j)%Z -> (j <= 255)%Z ->
  exists x y, uncompress_col mn rg h [i; j] = [x; y] /\ x < y.
Proof.
  intros mn rg v h Hr H i j Hi Hij Hj.
  assert (Hne : v <> []) by (intros ->; discriminate H).
  destruct (column_header_ok mn rg v Hne) as (a & b & c & d & E & I0 & I1 & I2 & I3 & I4).
  rewrite E in H. injection H as <-. unfold uncompress_col, column_percentiles. cbn [map].
  eexists. eexists. split; [reflexivity|].
  apply char_to_float_strict; try lia; apply uint16_strict; assumption.
Qed.
Print Assumptions C18_expand_monotone.

(** All-equal columns, the saturated corner. *)
Example C18_witness :
  column_header 0 1 [1; 1; 1; 1; 1; 1] = Ok (65532, 65533, 65534, 65535)%Z /\
  column_header 0 1 [0] = Ok (0, 1, 2, 3)%Z.
Proof. split; reflexivity. Qed.
