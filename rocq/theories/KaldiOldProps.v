(** The old reader of Kaldi matrices and the conversion of its lists to HDF5 (C111). *)
From Verif Require Import BaseFacts Str StrFacts Bytes Kaldi KaldiProofs KaldiMatProofs Ark Scp ScpProofs ScpHist ScpRound ScpProps H5 H5Props AudioProps KaldiOld.
Open Scope list_scope. Open Scope Z_scope.

(** ** Binary matrices *)
Lemma rd f n d post : rest f = d ++ post -> n = Z.of_nat (len d) -> exists f', f_read f n = Ok (d, f') /\ rest f' = post.
Proof.
  intros E N. exists (goto f (f_pos f + len d)). split; [exact (f_read_ok f n d post E N)|]. rewrite rest_goto, E. apply skipn_app_exact. reflexivity.
Qed.
Lemma read_bin_ok m bs f post : mat_ok m -> km_write m = Ok bs -> rest f = bs ++ post -> read_bin f = Ok m.
Proof.
  intros (Hr & Hc & Hl & Hf) Hw E. pose proof (itemsize_pos (k_dt m)) as Hi.
  assert (Hlc : Z.of_nat (len (concat (k_data m))) = km_rows m * km_cols m * itemsize (k_dt m)).
  { rewrite (concat_len_uniform _ (Z.to_nat (itemsize (k_dt m)))).
    - rewrite Nat2Z.inj_mul, Hl, Z2Nat.id by lia. ring.
    - eapply Forall_impl; [|exact Hf]. cbn. intros a Ha. lia. }
  assert (FB : frombuffer (Z.to_nat (itemsize (k_dt m))) (concat (k_data m)) = Ok (k_data m)).
  { rewrite frombuffer_concat; [reflexivity|lia|]. eapply Forall_impl; [|exact Hf]. cbn. intros a Ha. lia. }
  assert (DT : dtype_of (tag1 (k_dt m)) = Some (k_dt m)) by (destruct (k_dt m); reflexivity).
  destruct m as [dt sh data]. cbn [k_dt k_shape k_data] in *. destruct sh as [c|r c]; unfold km_rows, km_cols in *; cbn [k_shape] in *.
  - rewrite (km_write_vec (mk_km dt (Vec c) data) c eq_refl Hc) in Hw. cbn [k_dt k_data] in Hw.
    assert (B : bs = [tag1 dt; "V"%char; space] ++ int_field c ++ concat data) by congruence. subst bs.
    unfold read_bin. destruct (rd f 3 [tag1 dt; "V"%char; space] (int_field c ++ concat data ++ post)) as (f1 & R1 & E1); [rewrite E, <- !app_assoc; reflexivity|reflexivity|].
    rewrite R1. cbn [bind]. replace (decode_ascii [tag1 dt; "V"%char; space]) with (Ok (String (tag1 dt) "V ")) by (destruct dt; reflexivity). cbn [bind].
    change (tok_char (String (tag1 dt) "V ") 0) with (Ok (tag1 dt)). change (tok_char (String (tag1 dt) "V ") 1) with (Ok "V"%char). cbn [bind]. rewrite DT. cbn [bind ndim_of Ascii.eqb].
    change (ndim_of "V") with (Some false). cbn [bind].
    destruct (rd f1 1 [byte_of 4] (le_bytes 4 c ++ concat data ++ post)) as (f2 & R2 & E2); [exact E1|reflexivity|]. rewrite R2. cbn [bind].
    destruct (rd f2 4 (le_bytes 4 c) (concat data ++ post)) as (f3 & R3 & E3); [exact E2|rewrite le_bytes_len; reflexivity|]. rewrite R3. cbn [bind]. rewrite unpack_i_le by lia. cbn [bind].
    destruct (rd f3 (1 * c * itemsize dt) (concat data) post) as (f4 & R4 & _); [exact E3|lia|]. rewrite R4. cbn [bind]. rewrite FB. cbn [bind]. rewrite Hl. do 3 f_equal. lia.
  - rewrite (km_write_mat (mk_km dt (Mat r c) data) r c eq_refl Hr Hc) in Hw. cbn [k_dt k_data] in Hw.
    assert (B : bs = [tag1 dt; "M"%char; space] ++ int_field r ++ int_field c ++ concat data) by congruence. subst bs.
    unfold read_bin. destruct (rd f 3 [tag1 dt; "M"%char; space] (int_field r ++ int_field c ++ concat data ++ post)) as (f1 & R1 & E1); [rewrite E, <- !app_assoc; reflexivity|reflexivity|].
    rewrite R1. cbn [bind]. replace (decode_ascii [tag1 dt; "M"%char; space]) with (Ok (String (tag1 dt) "M ")) by (destruct dt; reflexivity). cbn [bind].
    change (tok_char (String (tag1 dt) "M ") 0) with (Ok (tag1 dt)). change (tok_char (String (tag1 dt) "M ") 1) with (Ok "M"%char). cbn [bind]. rewrite DT. cbn [bind].
    change (ndim_of "M") with (Some true). cbn [bind].
    destruct (rd f1 1 [byte_of 4] (le_bytes 4 r ++ int_field c ++ concat data ++ post)) as (f2 & R2 & E2); [exact E1|reflexivity|]. rewrite R2. cbn [bind].
    destruct (rd f2 4 (le_bytes 4 r) (int_field c ++ concat data ++ post)) as (f3 & R3 & E3); [exact E2|rewrite le_bytes_len; reflexivity|]. rewrite R3. cbn [bind]. rewrite unpack_i_le by lia. cbn [bind].
    destruct (rd f3 1 [byte_of 4] (le_bytes 4 c ++ concat data ++ post)) as (f5 & R5 & E5); [exact E3|reflexivity|]. rewrite R5. cbn [bind].
    destruct (rd f5 4 (le_bytes 4 c) (concat data ++ post)) as (f6 & R6 & E6); [exact E5|rewrite le_bytes_len; reflexivity|]. rewrite R6. cbn [bind]. rewrite unpack_i_le by lia. cbn [bind].
    destruct (rd f6 (r * c * itemsize dt) (concat data) post) as (f4 & R4 & _); [exact E6|lia|]. rewrite R4. cbn [bind]. rewrite FB. cbn [bind].
    unfold reshape_ok. replace ((0 <=? r) && (0 <=? c) && (Z.of_nat (len data) =? r * c)) with true by lia. reflexivity.
Qed.
(** A matrix or vector written by the current writer (marker and KaldiMatrix.write) is read back by the old reader, whatever follows it. *)
Theorem C111_binary parse32 m bs f post : mat_ok m -> km_write m = Ok bs -> rest f = init_kaldi_output_stream true ++ bs ++ post -> read_matrix parse32 f = Ok m.
Proof.
  intros O W E. unfold read_matrix. destruct (rd f 2 marker (bs ++ post)) as (f1 & R1 & E1); [exact E|reflexivity|]. rewrite R1. cbn [bind].
  rewrite (proj2 (bytes_eqb_true marker marker) eq_refl). exact (read_bin_ok m bs f1 post O W E1).
Qed.
(** So is one inside an archive when its offset is part of the path given to the reader. *)
Lemma rcut_none c s : str_in c s = false -> rcut c s = None.
Proof.
  rewrite str_in_list. induction s as [|d s IH]; intros H; [reflexivity|]. cbn [list_ascii_of_string existsb rcut] in *. apply orb_false_iff in H as [H1 H2].
  rewrite (IH H2), Ascii.eqb_sym, H1. reflexivity.
Qed.
Lemma rcut_app c p d : str_in c d = false -> rcut c (p ++ String c d)%string = Some (p, d).
Proof.
  intros H. induction p as [|x p IH]; cbn.
  - rewrite (rcut_none c d H), Ascii.eqb_refl. reflexivity.
  - rewrite IH. reflexivity.
Qed.
Lemma digits_forallb s : str_forallb is_digit s = true -> all_digits s = true.
Proof. induction s as [|c s IH]; intros H; [reflexivity|]. cbn in H |- *. apply andb_true_iff in H as [A B]. rewrite A, (IH B). reflexivity. Qed.
Theorem C111_offset parse32 disk p pre m bs post : mat_ok m -> km_write m = Ok bs ->
  disk p = Some (pre ++ init_kaldi_output_stream true ++ bs ++ post) ->
  (f <- old_open disk (p ++ ":" ++ fmt_d (Z.of_nat (len pre)))%string ;; read_matrix parse32 f) = Ok m.
Proof.
  intros O W D. unfold old_open. set (n := Z.of_nat (len pre)). assert (Hn : 0 <= n) by (unfold n; lia).
  destruct (fmt_d_digits n Hn) as [G NE].
  assert (NC : str_in ":" (fmt_d n) = false).
  { rewrite str_in_list. rewrite str_forallb_list in G. clear -G. induction (list_ascii_of_string (fmt_d n)) as [|c l IH]; [reflexivity|]. cbn [forallb existsb] in *. apply andb_true_iff in G as [A B].
    rewrite (IH B), orb_false_r. destruct (Ascii.eqb_spec ":" c) as [<-|]; [discriminate A|reflexivity]. }
  change (p ++ ":" ++ fmt_d n)%string with (p ++ String ":" (fmt_d n))%string. rewrite (rcut_app ":" p (fmt_d n) NC). rewrite (digits_forallb _ G).
  replace (fmt_d n =? "")%string with false by (symmetry; apply String.eqb_neq; exact NE). cbn [andb negb]. rewrite D.
  assert (V : digits_val 0 (fmt_d n) = n) by (destruct (fmt_d_nonneg n Hn) as [u [_ [-> <-]]]; apply digits_val_uint). rewrite V.
  unfold f_seek. replace (n <? 0) with false by lia. cbn [bind]. apply (C111_binary parse32 m bs _ post O W).
  unfold rest, goto, open_file. cbn [f_bytes f_pos]. unfold n. rewrite Nat2Z.id. apply skipn_app_exact. reflexivity.
Qed.

Lemma bind_ok {A B} (x : res A) (f : A -> res B) b : bind x f = Ok b -> exists a, x = Ok a /\ f a = Ok b.
Proof. destruct x as [a|e]; cbn; intros E; [exists a; split; [reflexivity|exact E]|discriminate]. Qed.
Lemma combine_fst_le {A B} (a : list A) : forall b : list B, (len a <= len b)%nat -> map fst (combine a b) = a.
Proof. induction a as [|x a IH]; intros [|y b] L; cbn in *; try reflexivity; [lia|]. rewrite IH by lia. reflexivity. Qed.
Lemma Forall2_len {A B} (P : A -> B -> Prop) l l' : Forall2 P l l' -> len l = len l'.
Proof. induction 1; cbn; congruence. Qed.
Lemma append_inj_r (a b c : string) : (a ++ c)%string = (b ++ c)%string -> a = b.
Proof.
  assert (append_length : forall a b, String.length (a ++ b) = (String.length a + String.length b)%nat) by (clear; induction a; intros; cbn; auto).
  revert b. induction a as [|x a IH]; intros [|y b] E; cbn in E; try reflexivity.
  - exfalso. apply (f_equal String.length) in E. cbn in E. rewrite append_length in E. lia.
  - exfalso. apply (f_equal String.length) in E. cbn in E. rewrite append_length in E. lia.
  - injection E as -> E. rewrite (IH b E). reflexivity.
Qed.

(** ** Text matrices *)
(** A line of text with the words [ws]: any blanks around them. *)
Definition line_of (s : list byte) (ws : list (list byte)) : Prop := exists b, s = b ++ [nl] /\ ~ In nl b /\ bwords b = ws.
Lemma cut_line_nl b t : ~ In nl b -> cut_line (b ++ nl :: t) = (b ++ [nl], t).
Proof.
  induction b as [|c b IH]; intros N; [reflexivity|]. cbn [app cut_line]. destruct (Ascii.eqb_spec c nl) as [->|_]; [elim N; left; reflexivity|].
  rewrite IH by (intros H; apply N; right; exact H). reflexivity.
Qed.
Lemma bwords_nl b : forall w, words_acc w (b ++ [nl]) = words_acc w b.
Proof.
  induction b as [|c b IH]; intros w; [destruct w; reflexivity|]. cbn [app words_acc]. destruct (blank c); [destruct w; rewrite IH; reflexivity|apply IH].
Qed.
Lemma line_cut s ws t : line_of s ws -> cut_line (s ++ t) = (s, t) /\ s <> [] /\ bwords s = ws.
Proof.
  intros (b & -> & N & W). rewrite <- app_assoc. cbn [app]. split; [exact (cut_line_nl b t N)|]. split; [destruct b; discriminate|]. unfold bwords in *. rewrite bwords_nl. exact W.
Qed.
Section Ascii.
Variable parse32 : list byte -> option (list byte).
Notation row32 := (row32 parse32). Notation read_ascii := (read_ascii parse32).
(** the rows the non-empty ones of the lines hold *)
Definition rows_of (words : list (list (list byte))) : list (list (list byte)) := filter (fun ws => match ws with [] => false | _ => true end) words.
Lemma read_ascii_lines lines words rows post : Forall2 line_of lines words -> Forall2 (fun ws r => row32 ws = Ok r) (rows_of words) rows ->
  Forall (fun ws => last ws [] <> ["]"%char]) words ->
  forall acc fuel, (len (concat lines) < fuel)%nat -> exists fuel', (fuel <= fuel' + len (concat lines))%nat /\ read_ascii fuel (concat lines ++ post) acc = read_ascii fuel' post (acc ++ rows).
Proof.
  intros H. revert rows. induction H as [|l ws lines words L _ IH]; intros rows R NB acc fuel F.
  - cbn in R. inversion_clear R. exists fuel. split; [cbn; lia|]. rewrite app_nil_r. reflexivity.
  - cbn [concat] in *. rewrite app_length in *. destruct (line_cut l ws (concat lines ++ post) L) as (C & NE & W).
    assert (1 <= len l)%nat by (destruct l; [congruence|cbn; lia]). destruct fuel as [|fuel]; [lia|]. cbn [KaldiOld.read_ascii]. rewrite <- app_assoc, C.
    destruct l as [|c l]; [congruence|]. rewrite W. inversion_clear NB as [|? ? NB1 NB2]. destruct ws as [|w ws].
    + cbn [rows_of filter] in R. destruct (IH rows R NB2 acc fuel ltac:(cbn in *; lia)) as (f' & F' & E). exists f'. split; [cbn in *; lia|exact E].
    + cbn [rows_of filter] in R. change (filter _ words) with (rows_of words) in R. inversion R as [|? r ? rows' R1 R2]; subst. destruct (bytes_eqb (last (w :: ws) []) ["]"%char]) eqn:B; [apply bytes_eqb_true in B; congruence|].
      rewrite R1. cbn [bind]. destruct (IH rows' R2 NB2 (acc ++ [r]) fuel ltac:(cbn in *; lia)) as (f' & F' & E). exists f'. split; [cbn in *; lia|].
      rewrite E, <- app_assoc. reflexivity.
Qed.
Lemma read_close fuel s ws post acc : line_of s (ws ++ [["]"%char]]) -> read_ascii (S fuel) (s ++ post) acc = (r <- row32 ws ;; vstack (acc ++ [r])).
Proof.
  intros L. destruct (line_cut s _ post L) as (C & NE & W). cbn [KaldiOld.read_ascii]. rewrite C. destruct s as [|c s]; [congruence|]. rewrite W.
  destruct ws as [|w ws]; cbn [app].
  - reflexivity.
  - change (w :: ws ++ [["]"%char]]) with ((w :: ws) ++ [["]"%char]]). rewrite last_last, removelast_last. rewrite (proj2 (bytes_eqb_true _ _) eq_refl). reflexivity.
Qed.
Definition square (c : nat) (rows : list (list (list byte))) : Prop := Forall (fun r => len r = c) rows.
(** A text matrix " [", lines of numbers in any layout, the last of them closed by "]", is read as the matrix of those numbers. *)
Theorem C111_text f lines words rows lastl ws r c post : rest f = [" "%char; "["%char] ++ concat lines ++ lastl ++ post ->
  Forall2 line_of lines words -> Forall (fun ws => last ws [] <> ["]"%char]) words -> line_of lastl (ws ++ [["]"%char]]) ->
  Forall2 (fun ws r => row32 ws = Ok r) (rows_of words) rows -> row32 ws = Ok r -> square c (rows ++ [r]) ->
  read_matrix parse32 f = Ok (mk_km F32 (Mat (Z.of_nat (len (rows ++ [r]))) (Z.of_nat c)) (concat (rows ++ [r]))).
Proof.
  intros E HL NB LL HR R1 SQ. unfold read_matrix. destruct (rd f 2 [" "%char; "["%char] (concat lines ++ lastl ++ post)) as (f1 & RD & E1); [exact E|reflexivity|]. rewrite RD. cbn [bind].
  change (bytes_eqb [" "%char; "["%char] marker) with false. change (bytes_eqb [" "%char; "["%char] [" "%char; "["%char]) with true. cbn [assert bind]. rewrite E1.
  destruct (read_ascii_lines lines words rows (lastl ++ post) HL HR NB [] (S (len (concat lines ++ lastl ++ post))) ltac:(rewrite app_length; lia)) as (f' & F' & ->).
  assert (LN : (1 <= len lastl)%nat) by (destruct LL as (b & -> & _); rewrite app_length; cbn; lia). destruct f' as [|f']; [rewrite !app_length in F'; lia|].
  rewrite (read_close f' lastl ws post _ LL), R1. cbn [bind app]. unfold vstack.
  assert (SQ' : Forall (fun q => len q = c) (rows ++ [r])) by exact SQ.
  destruct (rows ++ [r]) as [|r0 rs] eqn:Q; [destruct rows; discriminate|]. inversion SQ' as [|? ? S1 S2]; subst.
  replace (forallb _ _) with true; [reflexivity|]. symmetry. apply forallb_forall. intros q Hq. apply Nat.eqb_eq. exact (proj1 (Forall_forall _ _) SQ' q Hq).
Qed.
(** A bracket on a line of its own adds a row without numbers, so any matrix with columns is refused. *)
Theorem C111_closing_line_refuted f lines words rows lastl c post : rest f = [" "%char; "["%char] ++ concat lines ++ lastl ++ post ->
  Forall2 line_of lines words -> Forall (fun ws => last ws [] <> ["]"%char]) words -> line_of lastl [["]"%char]] ->
  Forall2 (fun ws r => row32 ws = Ok r) (rows_of words) rows -> square c rows -> (0 < c)%nat -> rows <> [] ->
  read_matrix parse32 f = Err ValueError.
Proof.
  intros E HL NB LL HR SQ C NE. unfold read_matrix. destruct (rd f 2 [" "%char; "["%char] (concat lines ++ lastl ++ post)) as (f1 & RD & E1); [exact E|reflexivity|]. rewrite RD. cbn [bind].
  change (bytes_eqb [" "%char; "["%char] marker) with false. change (bytes_eqb [" "%char; "["%char] [" "%char; "["%char]) with true. cbn [assert bind]. rewrite E1.
  destruct (read_ascii_lines lines words rows (lastl ++ post) HL HR NB [] (S (len (concat lines ++ lastl ++ post))) ltac:(rewrite app_length; lia)) as (f' & F' & ->).
  assert (LN : (1 <= len lastl)%nat) by (destruct LL as (b & -> & _); rewrite app_length; cbn; lia). destruct f' as [|f']; [rewrite !app_length in F'; lia|].
  rewrite (read_close f' lastl [] post _ LL). cbn [row32 mapM bind app]. unfold vstack. destruct rows as [|r0 rs]; [congruence|]. cbn [app]. inversion_clear SQ as [|? ? S1 S2].
  rewrite (app_comm_cons rs [[]] r0), forallb_app. cbn [forallb List.length]. replace (0 =? len r0)%nat with false by (symmetry; apply Nat.eqb_neq; lia). rewrite andb_false_r. reflexivity.
Qed.
End Ascii.

(** ** Archives and their scripts *)
(** the paths as the reader sees them *)
Definition full (input_dir : option string) (p : string) : string := match input_dir with None => p | Some d => (d ++ "/" ++ p)%string end.
Lemma od_set_new d k v : ~ In k (map fst d) -> od_set d k v = d ++ [(k, v)].
Proof.
  induction d as [|[j w] d IH]; intros N; [reflexivity|]. cbn [od_set app map fst] in *. destruct (String.eqb_spec j k) as [->|_]; [elim N; left; reflexivity|].
  rewrite IH by (intros H; apply N; right; exact H). reflexivity.
Qed.
Lemma odict_nodup l : NoDup (map fst l) -> odict l = l.
Proof.
  intros N. unfold odict. enough (G : forall d, NoDup (map fst d ++ map fst l) -> fold_left (fun d kv => od_set d (fst kv) (snd kv)) l d = d ++ l) by exact (G [] N).
  clear N. induction l as [|[k v] l IH]; intros d N; [cbn; rewrite app_nil_r; reflexivity|]. cbn [fold_left fst snd map] in *.
  rewrite od_set_new. 2:{ apply NoDup_remove_2 in N. intros H. apply N. apply in_or_app. left. exact H. }
  rewrite IH; [rewrite <- app_assoc; reflexivity|]. rewrite map_app. cbn [map fst]. rewrite <- app_assoc. exact N.
Qed.
Lemma valid_lens s : valid s -> len (s_key s) = len (s_path s).
Proof. intros V. destruct (valid_rows s V) as [R [ho [hr [c ->]]]]. cbn. rewrite !map_length. reflexivity. Qed.
(** The list of a script with distinct keys has its keys and paths in order; the offsets and the ranges of the script are forgotten. *)
Theorem C111_open s es dir : valid s -> elements s = Ok es -> es <> [] -> Forall (savable " "%char ":"%char) es ->
  (forall l, s_rng s = Some l -> exists r, In r l /\ r <> (0, 0)) -> NoDup (s_key s) ->
  kdr_new (scp_save s " "%char ":"%char) dir " "%char = Ok (mk_kdr (combine (s_key s) (map (full dir) (s_path s))) 0).
Proof.
  intros V E NE F HR N. destruct (C07_save_load_roundtrip s es " "%char ":"%char V E NE) as (s' & L & _ & K & P & _); [repeat split; discriminate|exact F|exact HR|].
  unfold kdr_new. rewrite L. cbn [bind]. rewrite K, P. f_equal. f_equal.
  assert (M : map (fun kv : string * string => (fst kv, match dir with None => snd kv | Some d => (d ++ "/" ++ snd kv)%string end)) (combine (s_key s) (s_path s)) = combine (s_key s) (map (full dir) (s_path s))).
  { clear. generalize (s_path s). induction (s_key s) as [|k ks IH]; intros [|p ps]; try reflexivity. cbn [combine map fst snd]. rewrite IH. reflexivity. }
  rewrite M. apply odict_nodup. rewrite combine_fst_le; [exact N|]. rewrite map_length, (valid_lens s V). reflexivity.
Qed.
(** So no key of an archive can be read: every key of its script names the archive, which begins with the first key and not with a matrix. *)
Lemma ark_prefix cfg st r recs st' : ark_write cfg st (r :: recs) = Ok st' -> is_token (fst r) = true /\ exists t, w_ark st' = w_ark st ++ list_ascii_of_string (fst r) ++ [space] ++ t.
Proof.
  assert (P : forall recs st st', ark_write cfg st recs = Ok st' -> exists t, w_ark st' = w_ark st ++ t).
  { clear. induction recs as [|[k d] recs IH]; intros st st' E; [exists []; cbn in E; rewrite app_nil_r; congruence|]. cbn [ark_write] in E. apply bind_ok in E as (s1 & E1 & E2). destruct (IH _ _ E2) as [t T].
    unfold ark_write1 in E1. apply bind_ok in E1 as (u & _ & E1). apply bind_ok in E1 as (tok & _ & E1). apply bind_ok in E1 as (d' & _ & E1). apply bind_ok in E1 as (bs & _ & E1).
    assert (W : w_ark s1 = (w_ark st ++ tok) ++ init_kaldi_output_stream true ++ bs) by (inversion E1; reflexivity). rewrite T, W, <- !app_assoc. eexists. reflexivity. }
  intros E. cbn [ark_write] in E. apply bind_ok in E as (s1 & E1 & E2). destruct (P _ _ _ E2) as [t T]. destruct r as [k d].
  unfold ark_write1 in E1. apply bind_ok in E1 as (u & A & E1). apply bind_ok in E1 as (tok & TK & E1). apply bind_ok in E1 as (d' & _ & E1). apply bind_ok in E1 as (bs & _ & E1).
  assert (W : w_ark s1 = (w_ark st ++ tok) ++ init_kaldi_output_stream true ++ bs) by (inversion E1; reflexivity).
  split; [cbn [fst]; destruct (is_token k); [reflexivity|discriminate A]|]. destruct (write_token_inv k tok TK) as (_ & _ & ->). rewrite T, W, <- !app_assoc. eexists. reflexivity.
Qed.
Theorem C111_archive_refuted parse32 cfg recs st disk p : ark_write cfg wst0 recs = Ok st -> recs <> [] -> str_in ":" p = false -> disk p = Some (w_ark st) ->
  (f <- old_open disk p ;; read_matrix parse32 f) = Err AssertionError.
Proof.
  intros W NE NC D. destruct recs as [|[k d] recs]; [congruence|]. destruct (ark_prefix _ _ _ _ _ W) as [TK [t T]]. cbn [fst] in *.
  unfold old_open. rewrite (rcut_none ":" p NC), D. cbn [bind]. unfold read_matrix, is_token in *. apply andb_true_iff in TK as [TK NS]. apply andb_true_iff in TK as [LN PR].
  apply negb_true_iff in NS. rewrite str_in_list in NS. rewrite str_forallb_list in PR. destruct k as [|c k]; [discriminate LN|].
  cbn [list_ascii_of_string forallb existsb] in *. apply andb_true_iff in PR as [P1 P2]. apply orb_false_iff in NS as [N1 N2].
  assert (C0 : c <> chr 0) by (intros ->; discriminate P1). assert (C1 : c <> " "%char) by (intros ->; discriminate N1).
  cbn [w_ark wst0 app] in T. rewrite T. destruct k as [|c2 k].
  - destruct (rd (open_file (c :: [] ++ [space] ++ t) (fun _ => 0%nat)) 2 [c; space] t) as (f1 & R1 & _); [reflexivity|reflexivity|]. cbn [list_ascii_of_string app] in *. rewrite R1. cbn [bind].
    destruct (bytes_eqb [c; space] marker) eqn:B1; [apply bytes_eqb_true in B1; unfold marker in B1; congruence|].
    destruct (bytes_eqb [c; space] [" "%char; "["%char]) eqn:B2; [apply bytes_eqb_true in B2; congruence|]. reflexivity.
  - cbn [list_ascii_of_string app] in *. destruct (rd (open_file (c :: c2 :: list_ascii_of_string k ++ space :: t) (fun _ => 0%nat)) 2 [c; c2] (list_ascii_of_string k ++ space :: t)) as (f1 & R1 & _); [reflexivity|reflexivity|]. rewrite R1. cbn [bind].
    destruct (bytes_eqb [c; c2] marker) eqn:B1; [apply bytes_eqb_true in B1; unfold marker in B1; congruence|].
    destruct (bytes_eqb [c; c2] [" "%char; "["%char]) eqn:B2; [apply bytes_eqb_true in B2; congruence|]. reflexivity.
Qed.

(** ** The cursor *)
Section Cursor.
Variable parse32 : list byte -> option (list byte).
Variable disk : string -> option (list byte).
Notation read_key := (read_key parse32 disk). Notation kdr_read := (kdr_read parse32 disk).
(** calls read(num_records=n) for the counts given, and what they return together *)
Fixpoint calls (r : kdr) (ns : list nat) : res (list km * list string) * kdr :=
  match ns with
  | [] => (Ok ([], []), r)
  | n :: ns => let '(x, r) := kdr_read r None (Some n) None in
               match x with Err e => (Err e, r) | Ok (xs, ks) => let '(y, r) := calls r ns in ((y <- y ;; Ok (xs ++ fst y, ks ++ snd y)), r) end
  end.
Definition readable (r : kdr) (ms : list km) : Prop := Forall2 (fun k m => read_key r k = Ok m) (kdr_keys r) ms.
Lemma keys_len r : len (kdr_keys r) = len (kd_scp r). Proof. apply map_length. Qed.
Lemma Forall2_firstn {A B} (P : A -> B -> Prop) n : forall l m, Forall2 P l m -> Forall2 P (firstn n l) (firstn n m).
Proof. induction n as [|n IH]; intros l m H; [constructor|]. destruct H; [constructor|]. cbn. constructor; [assumption|apply IH; assumption]. Qed.
Lemma Forall2_skipn {A B} (P : A -> B -> Prop) n : forall l m, Forall2 P l m -> Forall2 P (skipn n l) (skipn n m).
Proof. induction n as [|n IH]; intros l m H; [exact H|]. destruct H; [constructor|]. cbn. apply IH. assumption. Qed.
Lemma read_mapM r ks ms : Forall2 (fun k m => read_key r k = Ok m) ks ms -> mapM (read_key r) ks = Ok ms.
Proof. intros H. apply mapM_ok_iff. exact H. Qed.
Lemma read_some r n ms : readable r ms -> (kd_cur r <= len (kd_scp r))%nat ->
  kdr_read r None (Some n) None = (Ok (firstn n (skipn (kd_cur r) ms), firstn n (skipn (kd_cur r) (kdr_keys r))), mk_kdr (kd_scp r) (Nat.min (kd_cur r + n) (len (kd_scp r)))).
Proof.
  intros R C. unfold KaldiOld.kdr_read. rewrite keys_len.
  assert (FE : forall (A : Type) (l : list A), len l = len (kd_scp r) -> firstn (Nat.min (kd_cur r + n) (len (kd_scp r)) - kd_cur r) (skipn (kd_cur r) l) = firstn n (skipn (kd_cur r) l)).
  { intros A l L. destruct (Nat.le_gt_cases (kd_cur r + n) (len (kd_scp r))) as [G|G].
    - rewrite Nat.min_l by exact G. f_equal. lia.
    - rewrite Nat.min_r by lia. rewrite !firstn_all2; [reflexivity|rewrite skipn_length; lia|rewrite skipn_length; lia]. }
  rewrite (FE _ (kdr_keys r) (keys_len r)). rewrite (read_mapM r _ (firstn n (skipn (kd_cur r) ms))) by (apply Forall2_firstn, Forall2_skipn; exact R). reflexivity.
Qed.
Lemma skipn_plus {A} a b (l : list A) : skipn a (skipn b l) = skipn (b + a) l.
Proof. revert l. induction b as [|b IH]; intros l; [reflexivity|]. destruct l; [rewrite !skipn_nil; reflexivity|apply IH]. Qed.
Lemma firstn_split {A} a b (l : list A) : firstn (a + b) l = firstn a l ++ firstn b (skipn a l).
Proof. revert l. induction a as [|a IH]; intros l; [reflexivity|]. destruct l; [cbn; rewrite firstn_nil; reflexivity|]. cbn. rewrite IH. reflexivity. Qed.
(** Reading in pieces, of any sizes, gives the matrices of the keys in list order, each once; the reader is at its end exactly when all
    have been given. *)
Theorem C111_chunks ms ns : forall r, readable r ms -> (kd_cur r <= len (kd_scp r))%nat -> let n := fold_right Nat.add 0%nat ns in
  exists r', calls r ns = (Ok (firstn n (skipn (kd_cur r) ms), firstn n (skipn (kd_cur r) (kdr_keys r))), r') /\
    kdr_keys r' = kdr_keys r /\ (kdr_eof r' = true <-> (len (kd_scp r) <= kd_cur r + n)%nat).
Proof.
  induction ns as [|n ns IH]; intros r R C tot.
  - exists r. split; [reflexivity|]. split; [reflexivity|]. unfold kdr_eof. rewrite Nat.eqb_eq. cbn in tot. unfold tot. lia.
  - cbn [calls]. rewrite (read_some r n ms R C). set (r1 := mk_kdr _ _).
    destruct (IH r1) as (r' & E & K & F); [exact R|cbn; lia|]. rewrite E. exists r'. split; [|split; [exact K|]].
    + cbn [bind fst snd]. unfold tot. cbn [fold_right]. rewrite !firstn_split, !skipn_plus. cbn [r1 kd_cur kd_scp]. f_equal. f_equal. change (kdr_keys r1) with (kdr_keys r).
      destruct (Nat.le_gt_cases (kd_cur r + n) (len (kd_scp r))) as [G|G].
      * rewrite Nat.min_l by exact G. reflexivity.
      * rewrite Nat.min_r by lia. pose proof (Forall2_len _ _ _ R) as LM. rewrite keys_len in LM. rewrite !(skipn_all2 (n := len (kd_scp r))), !(skipn_all2 (n := kd_cur r + n)) by (rewrite ?keys_len; lia). reflexivity.
    + rewrite F. cbn [r1 kd_scp kd_cur]. unfold tot. cbn [fold_right]. lia.
Qed.
(** Reading everything at once from the beginning also ends at the end. *)
Theorem C111_all r ms : readable r ms -> kd_cur r = 0%nat -> exists r', kdr_read r None None None = (Ok (ms, kdr_keys r), r') /\ kdr_eof r' = true.
Proof.
  intros R C. unfold KaldiOld.kdr_read. rewrite C. cbn [skipn]. rewrite (read_mapM r _ ms R). eexists. split; [reflexivity|]. unfold kdr_eof. cbn [kd_cur kd_scp]. rewrite keys_len. apply Nat.eqb_refl.
Qed.
(** From anywhere else it leaves the cursor at the number of records it returned instead of the end: after reading the rest of a list of N
    records from position c the reader believes that N - c have been read. At the end of the list it goes back to the beginning. *)
Theorem C111_rest_refuted r ms c : readable r ms -> (0 < c <= len (kd_scp r))%nat -> kd_cur r = c ->
  exists r', kdr_read r None None None = (Ok (skipn c ms, skipn c (kdr_keys r)), r') /\ kdr_eof r' = false /\ kd_cur r' = (len (kd_scp r) - c)%nat.
Proof.
  intros R C E. unfold KaldiOld.kdr_read. rewrite E. rewrite (read_mapM r _ (skipn c ms)) by (apply Forall2_skipn; exact R). eexists. split; [reflexivity|]. unfold kdr_eof. cbn [kd_cur kd_scp].
  rewrite skipn_length, keys_len. split; [apply Nat.eqb_neq; lia|reflexivity].
Qed.
(** Keys given by name are read from wherever they are, without moving the cursor; a key that is not listed fails. *)
Theorem C111_by_name r ks ms : Forall2 (fun k m => read_key r k = Ok m) ks ms -> forall n c, kdr_read r (Some ks) n c = (Ok (ms, ks), r).
Proof. intros F n c. unfold KaldiOld.kdr_read. rewrite (read_mapM r _ ms F). destruct r; reflexivity. Qed.
Theorem C111_missing r k ks n c : ~ In k (kdr_keys r) -> fst (kdr_read r (Some (k :: ks)) n c) = Err KeyError.
Proof.
  intros N. unfold KaldiOld.kdr_read. cbn [fst mapM]. unfold KaldiOld.read_key. unfold kdr_keys in N.
  assert (G : od_get (kd_scp r) k = Err KeyError).
  { induction (kd_scp r) as [|[j v] d IH]; [reflexivity|]. cbn [od_get map fst] in *. destruct (String.eqb_spec j k) as [->|_]; [elim N; left; reflexivity|]. apply IH. intros H. apply N. right. exact H. }
  rewrite G. reflexivity.
Qed.

(** ** ark2hyp *)
Lemma hyp_write_app conv field a : forall out b, hyp_write conv field out (a ++ b) = (o <- hyp_write conv field out a ;; hyp_write conv field o b).
Proof. induction a as [|[k m] a IH]; intros out b; [reflexivity|]. cbn [app hyp_write]. destruct (create_dataset _ _ _); [|reflexivity]. cbn [bind]. apply IH. Qed.
Lemma hyp_write_ok conv field l : forall out, Forall plain (map (fun kv : string * km => (fst kv ++ field)%string) l) -> NoDup (map fst out ++ map (fun kv : string * km => (fst kv ++ field)%string) l) ->
  hyp_write conv field out l = Ok (out ++ map (fun kv => ((fst kv ++ field)%string, conv (snd kv))) l).
Proof.
  induction l as [|[k m] l IH]; intros out PL N; [cbn; rewrite app_nil_r; reflexivity|]. cbn [hyp_write map fst snd] in *. inversion_clear PL as [|? ? (P1 & P2) PL']. unfold create_dataset.
  rewrite P1. destruct (String.eqb_spec (k ++ field)%string ".") as [Q|_]; [contradiction|].
  replace (h5_in out (k ++ field)%string) with false.
  2:{ symmetry. unfold h5_in. rewrite (proj2 (h5_get_none out (k ++ field)%string)); [reflexivity|]. intros H. apply NoDup_remove_2 in N. apply N. apply in_or_app. left. exact H. }
  cbn [bind]. rewrite IH; [rewrite <- app_assoc; reflexivity|exact PL'|]. rewrite map_app. cbn [map fst]. rewrite <- app_assoc. exact N.
Qed.
Lemma combine_skip {A B} n : forall (a : list A) (b : list B), combine (skipn n a) (skipn n b) = skipn n (combine a b).
Proof. induction n as [|n IH]; intros [|x a] [|y b]; try reflexivity; cbn; [destruct (skipn n a); reflexivity|apply IH]. Qed.
Lemma combine_first {A B} n : forall (a : list A) (b : list B), combine (firstn n a) (firstn n b) = firstn n (combine a b).
Proof. induction n as [|n IH]; intros [|x a] [|y b]; try reflexivity. cbn. rewrite IH. reflexivity. Qed.
Lemma loop_chunks conv field chunk ms : (0 < chunk)%nat -> forall fuel r out, readable r ms -> (kd_cur r <= len (kd_scp r))%nat -> (len (kd_scp r) - kd_cur r <= fuel)%nat ->
  ark2hyp_loop parse32 fuel disk conv field (Some chunk) r out = Some (hyp_write conv field out (skipn (kd_cur r) (combine (kdr_keys r) ms))).
Proof.
  intros CH. induction fuel as [|fuel IH]; intros r out R C F.
  - cbn [ark2hyp_loop]. unfold kdr_eof. replace (kd_cur r =? len (kd_scp r))%nat with true by (symmetry; apply Nat.eqb_eq; lia). rewrite skipn_all2; [reflexivity|]. rewrite combine_length, keys_len. lia.
  - cbn [ark2hyp_loop]. unfold kdr_eof. destruct (Nat.eqb_spec (kd_cur r) (len (kd_scp r))) as [Q|Q].
    + rewrite skipn_all2; [reflexivity|]. rewrite combine_length, keys_len. lia.
    + rewrite (read_some r chunk ms R C). rewrite combine_first, combine_skip. set (l := skipn (kd_cur r) (combine (kdr_keys r) ms)).
      rewrite <- (firstn_skipn chunk l) at 2. rewrite hyp_write_app. destruct (hyp_write conv field out (firstn chunk l)) as [o|e]; [|reflexivity]. cbn [bind].
      rewrite (IH (mk_kdr (kd_scp r) (Nat.min (kd_cur r + chunk) (len (kd_scp r))))); [|exact R|cbn; lia|cbn; lia]. cbn [kd_cur kd_scp]. f_equal. f_equal. unfold l. rewrite skipn_plus.
      change (kdr_keys (mk_kdr (kd_scp r) (Nat.min (kd_cur r + chunk) (len (kd_scp r))))) with (kdr_keys r).
      destruct (Nat.le_gt_cases (kd_cur r + chunk) (len (kd_scp r))) as [G|G]; [rewrite Nat.min_l by exact G; reflexivity|].
      rewrite Nat.min_r by lia. rewrite !skipn_all2; [reflexivity|rewrite combine_length, keys_len; lia|rewrite combine_length, keys_len; lia].
Qed.
(** The conversion: for a list of distinct keys whose matrices can be read, the HDF5 file gets one dataset for each, in list order, named
    key + field and holding the matrix in the saving precision - whatever the chunk size, if it is not 0 - when the names are plain. *)
Theorem C111_ark2hyp conv text dir out_file field chunk r ms fuel : dirname_empty out_file = false -> kdr_new text dir " "%char = Ok r -> readable r ms ->
  (forall c, chunk = Some c -> (0 < c)%nat) -> NoDup (kdr_keys r) -> Forall plain (map (fun k => (k ++ field)%string) (kdr_keys r)) -> (len (kd_scp r) <= fuel)%nat -> (0 < fuel)%nat ->
  ark2hyp parse32 fuel disk conv text dir out_file field chunk = Some (Ok (combine (map (fun k => (k ++ field)%string) (kdr_keys r)) (map conv ms))).
Proof.
  intros D E R CH N PL F F0. unfold ark2hyp. rewrite D, E. pose proof (Forall2_len _ _ _ R) as LM.
  assert (C0 : kd_cur r = 0%nat). { unfold kdr_new in E. apply bind_ok in E as (s & _ & E). inversion E. reflexivity. }
  assert (K : map (fun kv : string * km => (fst kv ++ field)%string) (combine (kdr_keys r) ms) = map (fun k => (k ++ field)%string) (kdr_keys r)).
  { rewrite <- (map_map fst (fun k => (k ++ field)%string)). rewrite combine_fst_le by lia. reflexivity. }
  assert (NI : NoDup (map (fun k => (k ++ field)%string) (kdr_keys r))).
  { clear -N. induction (kdr_keys r) as [|k ks IH]; [constructor|]. inversion_clear N as [|? ? N1 N2]. cbn. constructor; [|exact (IH N2)]. intros H. apply in_map_iff in H as (k' & Q & H).
    assert (k' = k) by (apply (append_inj_r k' k field); exact Q). subst. contradiction. }
  assert (W : hyp_write conv field [] (combine (kdr_keys r) ms) = Ok (combine (map (fun k => (k ++ field)%string) (kdr_keys r)) (map conv ms))).
  { rewrite hyp_write_ok; [|rewrite K; exact PL|rewrite K; exact NI]. cbn [app]. f_equal. clear. revert ms. induction (kdr_keys r) as [|k ks IH]; intros [|m ms]; try reflexivity. cbn. rewrite IH. reflexivity. }
  destruct chunk as [c|].
  - rewrite (loop_chunks conv field c ms (CH c eq_refl)); [|exact R|lia|lia]. rewrite C0. cbn [skipn]. rewrite W. reflexivity.
  - destruct fuel as [|fuel]; [lia|]. cbn [ark2hyp_loop]. unfold kdr_eof. rewrite C0. destruct (Nat.eqb_spec 0 (len (kd_scp r))) as [Q|Q].
    + unfold kdr_keys. destruct (kd_scp r); [reflexivity|discriminate Q].
    + destruct (C111_all r ms R C0) as (r' & RD & EOF). rewrite RD, W. destruct fuel; cbn [ark2hyp_loop]; rewrite EOF; reflexivity.
Qed.
(** With chunks of 0 records the script does not end; without a directory in the name of the output it fails. *)
Theorem C111_chunk0_refuted conv field fuel r out : kd_cur r <> len (kd_scp r) -> (kd_cur r <= len (kd_scp r))%nat -> ark2hyp_loop parse32 fuel disk conv field (Some 0%nat) r out = None.
Proof.
  intros C L. induction fuel as [|fuel IH]; cbn [ark2hyp_loop]; unfold kdr_eof; rewrite (proj2 (Nat.eqb_neq _ _) C); [reflexivity|].
  unfold KaldiOld.kdr_read. rewrite keys_len. replace (Nat.min (kd_cur r + 0) (len (kd_scp r)) - kd_cur r)%nat with 0%nat by lia. cbn [firstn mapM bind combine hyp_write].
  replace (Nat.min (kd_cur r + 0) (len (kd_scp r))) with (kd_cur r) by lia. destruct r. exact IH.
Qed.
Theorem C111_output_dir_refuted conv text dir out_file field chunk fuel : str_in "/" out_file = false -> ark2hyp parse32 fuel disk conv text dir out_file field chunk = Some (Err IOErr).
Proof. intros H. unfold ark2hyp, dirname_empty. rewrite H. reflexivity. Qed.
End Cursor.

(** ** Witnesses *)
Definition self (w : list byte) : option (list byte) := Some w.
Definition text1 : list byte := list_ascii_of_string (" [" ++ nl_str ++ "  1 2" ++ nl_str ++ " 3 4 ]" ++ nl_str)%string.
Example C111_text_witness : let l s := list_ascii_of_string (s ++ nl_str)%string in
  text1 = [" "%char; "["%char] ++ concat [l ""; l "  1 2"]%string ++ l " 3 4 ]"%string ++ [] /\
  Forall2 line_of [l ""; l "  1 2"]%string [[]; [["1"%char]; ["2"%char]]] /\ line_of (l " 3 4 ]"%string) ([["3"%char]; ["4"%char]] ++ [["]"%char]]) /\
  read_matrix self (open_file text1 (fun _ => 0%nat)) = Ok (mk_km F32 (Mat 2 2) [["1"%char]; ["2"%char]; ["3"%char]; ["4"%char]]).
Proof.
  assert (L : forall s ws, ~ In nl (list_ascii_of_string s) -> bwords (list_ascii_of_string s) = ws -> line_of (list_ascii_of_string (s ++ nl_str)%string) ws).
  { intros s ws N W. exists (list_ascii_of_string s). rewrite list_ascii_app. repeat split; assumption. }
  cbn zeta. split; [reflexivity|]. split; [|split; [|vm_compute; reflexivity]].
  - repeat constructor; (apply L; [cbn; intros H; repeat (destruct H as [H|H]; [discriminate H|]); exact H|reflexivity]).
  - apply L; [cbn; intros H; repeat (destruct H as [H|H]; [discriminate H|]); exact H|reflexivity].
Qed.
Definition file1 : list byte := marker ++ list_ascii_of_string "FM "%string ++ int_field 1 ++ int_field 2 ++ list_ascii_of_string "abcdefgh"%string.
Definition file2 : list byte := marker ++ list_ascii_of_string "FV "%string ++ int_field 1 ++ list_ascii_of_string "ijkl"%string.
Definition disk1 (p : string) : option (list byte) := if (p =? "d/f1")%string then Some file1 else if (p =? "d/f2")%string then Some file2 else None.
Definition list1 : string := ("u1 f1" ++ nl_str ++ "u2 f2" ++ nl_str)%string.
Example C111_ark2hyp_witness : exists r ms, kdr_new list1 (Some "d"%string) " "%char = Ok r /\ readable self disk1 r ms /\ NoDup (kdr_keys r) /\ Forall plain (map (fun k => (k ++ ".x")%string) (kdr_keys r)) /\
  option_map (fun o => match o with Ok o => map fst o | Err _ => [] end) (ark2hyp self 5 disk1 DRaw list1 (Some "d"%string) "o/out.h5" ".x" (Some 1%nat)) = Some ["u1.x"; "u2.x"]%string.
Proof.
  do 2 eexists. split; [vm_compute; reflexivity|]. split; [|split; [|split]].
  - repeat constructor; vm_compute; reflexivity.
  - cbn. repeat constructor; cbn; intuition discriminate.
  - cbn. repeat constructor; discriminate.
  - vm_compute. reflexivity.
Qed.
Print Assumptions C111_offset. Print Assumptions C111_text. Print Assumptions C111_closing_line_refuted. Print Assumptions C111_open. Print Assumptions C111_archive_refuted.
Print Assumptions C111_chunks. Print Assumptions C111_ark2hyp. Print Assumptions C111_rest_refuted.
