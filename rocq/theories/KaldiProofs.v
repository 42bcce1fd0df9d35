(** Lemmas about Bytes.v and Kaldi.v. *)
From Verif Require Import BaseFacts StrFacts.
From Verif Require Export Kaldi.
Open Scope list_scope.
Open Scope Z_scope.
Notation len := List.length.

(** ** Lists *)

Lemma skipn_skipn {A} (a b : nat) (l : list A) : skipn a (skipn b l) = skipn (b + a) l.
Proof.
  revert l. induction b as [|b IH]; intros l; [reflexivity|].
  destruct l; [rewrite !skipn_nil; reflexivity|]. simpl. apply IH.
Qed.

Lemma firstn_app_exact {A} (a b : list A) n : n = len a -> firstn n (a ++ b) = a.
Proof. intros ->. rewrite firstn_app, Nat.sub_diag, firstn_all. simpl. apply app_nil_r. Qed.

Lemma skipn_app_exact {A} (a b : list A) n : n = len a -> skipn n (a ++ b) = b.
Proof. intros ->. rewrite skipn_app, Nat.sub_diag, skipn_all. reflexivity. Qed.

Lemma concat_len_uniform {A} (ls : list (list A)) k :
  Forall (fun l => len l = k) ls -> len (concat ls) = (len ls * k)%nat.
Proof. induction 1 as [|x l E _ IH]; simpl; [reflexivity|]. rewrite app_length, IH, E. lia. Qed.

Lemma chunks_concat {A} (ls : list (list A)) k :
  Forall (fun l => len l = k) ls -> chunks (len ls) k (concat ls) = ls.
Proof.
  induction 1 as [|x l E _ IH]; simpl; [reflexivity|].
  rewrite firstn_app_exact, skipn_app_exact by (symmetry; exact E). rewrite IH. reflexivity.
Qed.

Lemma chunks_len {A} n k (l : list A) : len (chunks n k l) = n.
Proof. revert l. induction n; intros; simpl; [reflexivity|]. rewrite IHn. reflexivity. Qed.

Lemma chunks_nth {A} n k (l : list A) i : (i < n)%nat ->
  nth_error (chunks n k l) i = Some (firstn k (skipn (i * k) l)).
Proof.
  revert l i. induction n; intros l i Hi; [lia|].
  destruct i as [|i]; simpl; [reflexivity|].
  rewrite IHn by lia. rewrite skipn_skipn. reflexivity.
Qed.

Lemma chunks_forall {A} n k (l : list A) : (n * k <= len l)%nat ->
  Forall (fun x => len x = k) (chunks n k l).
Proof.
  revert l. induction n; intros l Hl; simpl; constructor.
  - rewrite firstn_length. lia.
  - apply IHn. rewrite skipn_length. lia.
Qed.

Lemma chunks_concat_id {A} n k (l : list A) : len l = (n * k)%nat -> concat (chunks n k l) = l.
Proof.
  revert l. induction n; intros l Hl; simpl.
  - destruct l; [reflexivity|discriminate].
  - rewrite IHn by (rewrite skipn_length; lia). apply firstn_skipn.
Qed.

Lemma frombuffer_concat ls k : (0 < k)%nat -> Forall (fun l => len l = k) ls ->
  frombuffer k (concat ls) = Ok ls.
Proof.
  intros Hk H. unfold frombuffer. rewrite (concat_len_uniform _ _ H).
  rewrite Nat.mod_mul, Nat.div_mul by lia. simpl. rewrite (chunks_concat _ _ H). reflexivity.
Qed.

Lemma frombuffer_len k n data : (0 < k)%nat -> len data = (n * k)%nat ->
  frombuffer k data = Ok (chunks n k data).
Proof.
  intros Hk H. unfold frombuffer. rewrite H, Nat.mod_mul, Nat.div_mul by lia. reflexivity.
Qed.

Lemma nth_concat_uniform {A} (ls : list (list A)) k i j : Forall (fun l => len l = k) ls ->
  (j < k)%nat ->
  nth_error (concat ls) (i * k + j) = match nth_error ls i with Some l => nth_error l j | None => None end.
Proof.
  intros H Hj. revert i. induction H as [|x l E _ IH]; intros i.
  - cbn [concat]. destruct (i * k + j)%nat; destruct i; reflexivity.
  - simpl concat. destruct i as [|i].
    + simpl. apply nth_error_app1. lia.
    + simpl nth_error at 2. rewrite nth_error_app2 by lia.
      replace (S i * k + j - len x)%nat with (i * k + j)%nat by lia. apply IH.
Qed.

Lemma firstn_firstn_le {A} (l : list A) a b : (a <= b)%nat -> firstn a (firstn b l) = firstn a l.
Proof. intros. rewrite firstn_firstn. f_equal. lia. Qed.

Lemma firstn_len_firstn {A} m (l : list A) : firstn m l = firstn (len (firstn m l)) l.
Proof.
  rewrite firstn_length. destruct (Nat.le_gt_cases m (len l)).
  - f_equal. lia.
  - rewrite Nat.min_r by lia. rewrite firstn_all. apply firstn_all2. lia.
Qed.

(** a window of a window *)
Lemma firstn_skipn_window {A} (l : list A) a n b m : (b + m <= n)%nat ->
  firstn m (skipn b (firstn n (skipn a l))) = firstn m (skipn (a + b) l).
Proof.
  intros H. rewrite skipn_firstn_comm, skipn_skipn, firstn_firstn. f_equal. lia.
Qed.

(** ** struct *)

Lemma byte_val_range b : 0 <= byte_val b < 256.
Proof.
  unfold byte_val. pose proof (N_ascii_bounded b). lia.
Qed.

Lemma byte_val_of z : byte_val (byte_of z) = z mod 256.
Proof.
  unfold byte_val, byte_of. rewrite N_ascii_embedding; [|lia].
  rewrite Z2N.id; lia.
Qed.

Lemma byte_of_val b : byte_of (byte_val b) = b.
Proof.
  unfold byte_of. rewrite Z.mod_small by apply byte_val_range.
  unfold byte_val. rewrite N2Z.id. apply ascii_N_embedding.
Qed.

Lemma le_bytes_len n z : len (le_bytes n z) = n.
Proof. revert z. induction n; intros; simpl; [reflexivity|]. rewrite IHn. reflexivity. Qed.

Lemma le_val_bytes n z : 0 <= z < 256 ^ Z.of_nat n -> le_val (le_bytes n z) = z.
Proof.
  revert z. induction n; intros z Hz; [simpl in *; lia|].
  cbn [le_bytes le_val]. rewrite byte_val_of, IHn.
  - lia.
  - rewrite Nat2Z.inj_succ, Z.pow_succ_r in Hz by lia.
    split; [apply Z.div_pos; lia|]. apply Z.div_lt_upper_bound; lia.
Qed.

Lemma le_bytes_mod n z : le_bytes n (z mod 256 ^ Z.of_nat n) = le_bytes n z.
Proof.
  revert z. induction n; intros z; [reflexivity|].
  cbn [le_bytes]. rewrite Nat2Z.inj_succ, Z.pow_succ_r by lia.
  assert (0 < 256 ^ Z.of_nat n) by (apply Z.pow_pos_nonneg; lia).
  rewrite Z.rem_mul_r by lia.
  rewrite (Z.mul_comm 256 (_ mod _)). f_equal.
  - unfold byte_of. do 2 f_equal. rewrite Z.add_mod, Z.mod_mul, Z.add_0_r, !Z.mod_mod by lia. reflexivity.
  - rewrite Z.div_add by lia.
    rewrite (Z.div_small (z mod 256)) by (apply Z.mod_pos_bound; lia).
    rewrite Z.add_0_l. apply IHn.
Qed.

Lemma le_val_range bs : 0 <= le_val bs < 256 ^ Z.of_nat (len bs).
Proof.
  induction bs as [|b bs IH]; [simpl; lia|].
  cbn [le_val List.length]. pose proof (byte_val_range b).
  rewrite Nat2Z.inj_succ, Z.pow_succ_r by lia. lia.
Qed.

Lemma unpack_pack_i z bs : pack_i z = Ok bs -> unpack_i bs = Ok z.
Proof.
  unfold pack_i, unpack_i. destruct (_ && _) eqn:E; [|discriminate].
  intros H. assert (E2 : bs = le_bytes 4 z) by congruence. rewrite E2, le_bytes_len. cbn [Nat.eqb].
  rewrite <- le_bytes_mod, le_val_bytes.
  - change (256 ^ Z.of_nat 4) with (2 ^ 32). change (2^31) with 2147483648 in *.
    change (2^32) with 4294967296 in *. f_equal. apply andb_true_iff in E. destruct E as [Ea Eb].
    clear E2 H. destruct (z mod 4294967296 <? 2147483648) eqn:E3; lia.
  - apply Z.mod_pos_bound. reflexivity.
Qed.

Lemma pack_i_ok z : 0 <= z < 2 ^ 31 -> pack_i z = Ok (le_bytes 4 z).
Proof.
  intros H. unfold pack_i. change (2^31) with 2147483648 in *.
  replace (_ && _) with true by lia. reflexivity.
Qed.

Lemma unpack_i_le z : - 2 ^ 31 <= z < 2 ^ 31 -> unpack_i (le_bytes 4 z) = Ok z.
Proof.
  intros H. apply unpack_pack_i. unfold pack_i. change (2^31) with 2147483648 in *.
  replace (_ && _) with true by lia. reflexivity.
Qed.

(** ** Readers *)

(** [f'] is [f] advanced by [k] bytes. *)
Definition adv (f : file) (k : nat) (f' : file) : Prop :=
  f_bytes f' = f_bytes f /\ f_buf f' = f_buf f /\ f_pos f' = (f_pos f + k)%nat.

Lemma adv_rest f k f' : adv f k f' -> rest f' = skipn k (rest f).
Proof. intros (A & B & C). unfold rest. rewrite A, C, skipn_skipn. reflexivity. Qed.

Lemma adv_rest_app f bs post f' : adv f (len bs) f' -> rest f = bs ++ post -> rest f' = post.
Proof. intros A E. rewrite (adv_rest _ _ _ A), E. apply skipn_app_exact. reflexivity. Qed.

Lemma adv_trans f a f1 b f2 : adv f a f1 -> adv f1 b f2 -> adv f (a + b) f2.
Proof. intros (A & B & C) (D & E & F). repeat split; congruence || lia. Qed.

Lemma adv_refl f : adv f 0 f.
Proof. repeat split. lia. Qed.

Lemma adv_goto f k : adv f k (goto f (f_pos f + k)).
Proof. repeat split. Qed.

Lemma f_read_ok f n d post : rest f = d ++ post -> n = Z.of_nat (len d) ->
  f_read f n = Ok (d, goto f (f_pos f + len d)).
Proof.
  intros E ->. unfold f_read. rewrite E.
  replace (_ <? _) with false by lia. replace (_ =? _) with false by lia.
  rewrite Nat2Z.id, firstn_app_exact by reflexivity. reflexivity.
Qed.

(** reading [n] of the [n] or more bytes left *)
Lemma f_read_n f n : 0 <= n -> (Z.to_nat n <= len (rest f))%nat ->
  f_read f n = Ok (firstn (Z.to_nat n) (rest f), goto f (f_pos f + Z.to_nat n)).
Proof.
  intros H L. unfold f_read.
  replace (_ <? _) with false by lia. replace (_ =? _) with false by lia.
  rewrite firstn_length_le by exact L. reflexivity.
Qed.

Lemma f_seek_cur_ok f d : 0 <= d -> f_seek_cur f d = Ok (goto f (f_pos f + Z.to_nat d)).
Proof.
  intros H. unfold f_seek_cur. replace (_ <? _) with false by lia.
  do 2 f_equal. lia.
Qed.

(** ** Tokens and integers *)

Definition no_space (s : string) : Prop := str_in space s = false.

Lemma list_ascii_app s t :
  list_ascii_of_string (s ++ t)%string = (list_ascii_of_string s ++ list_ascii_of_string t)%list.
Proof. induction s; simpl; [reflexivity|]. rewrite IHs. reflexivity. Qed.

Lemma str_forallb_list p s : str_forallb p s = forallb p (list_ascii_of_string s).
Proof. induction s; simpl; [reflexivity|]. rewrite IHs. reflexivity. Qed.

Lemma str_in_list c s : str_in c s = existsb (Ascii.eqb c) (list_ascii_of_string s).
Proof.
  unfold str_in. rewrite str_forallb_list. induction (list_ascii_of_string s); simpl; [reflexivity|].
  rewrite negb_andb, negb_involutive, IHl, (Ascii.eqb_sym a c). reflexivity.
Qed.

Lemma write_token_ok s : str_forallb is_ascii s = true -> str_in space s = false ->
  write_token s = Ok (list_ascii_of_string s ++ [space]).
Proof.
  intros A N. unfold write_token, check_token. rewrite N. simpl.
  unfold encode_ascii. rewrite str_forallb_list, list_ascii_app, forallb_app.
  rewrite <- str_forallb_list, A. reflexivity.
Qed.

Lemma write_token_inv s bs : write_token s = Ok bs ->
  str_forallb is_ascii s = true /\ str_in space s = false /\ bs = list_ascii_of_string s ++ [space].
Proof.
  unfold write_token, check_token. destruct (str_in space s) eqn:N; simpl; [discriminate|].
  unfold encode_ascii. rewrite str_forallb_list, list_ascii_app, forallb_app, <- str_forallb_list.
  destruct (str_forallb is_ascii s); simpl; [|discriminate].
  intros H. injection H as <-. auto.
Qed.

Lemma read_token_loop_ok t : forall fuel f acc post, existsb (Ascii.eqb space) t = false ->
  rest f = t ++ space :: post -> (len t < fuel)%nat ->
  read_token_loop fuel f acc = Ok (acc ++ t, goto f (f_pos f + (len t + 1))).
Proof.
  induction t as [|b t IH]; intros fuel f acc post N E L; (destruct fuel as [|fuel]; [simpl in L; lia|]);
    cbn [read_token_loop].
  - rewrite (f_read_ok f 1 [space] post) by (auto). cbn [bind]. rewrite Ascii.eqb_refl, app_nil_r. reflexivity.
  - cbn [existsb] in N. apply orb_false_iff in N. destruct N as [N1 N2].
    rewrite (f_read_ok f 1 [b] (t ++ space :: post)) by auto. cbn [bind].
    rewrite Ascii.eqb_sym, N1.
    rewrite (IH fuel _ (acc ++ [b]) post N2).
    + rewrite <- app_assoc. cbn [app List.length goto f_pos f_bytes f_tick f_buf].
      unfold goto. cbn [f_pos f_bytes f_tick f_buf].
      replace (f_pos f + 1 + (len t + 1))%nat with (f_pos f + (S (len t) + 1))%nat by lia. reflexivity.
    + erewrite adv_rest by apply adv_goto. rewrite E. reflexivity.
    + simpl in L. lia.
Qed.

Lemma string_of_list_of s : string_of_list_ascii (list_ascii_of_string s) = s.
Proof. apply string_of_list_ascii_of_string. Qed.

Lemma read_token_ok_true s f post :
  str_forallb is_ascii s = true -> str_in space s = false ->
  rest f = list_ascii_of_string s ++ space :: post ->
  read_token f true = Ok (s, goto f (f_pos f + (len (list_ascii_of_string s) + 1))).
Proof.
  intros A N E. unfold read_token. cbn [bind].
  rewrite (read_token_loop_ok (list_ascii_of_string s) _ f [] post).
  - cbn [bind app]. unfold decode_ascii. rewrite <- str_forallb_list, A. cbn [bind].
    rewrite string_of_list_of. reflexivity.
  - rewrite <- str_in_list. exact N.
  - exact E.
  - rewrite E, app_length. simpl. lia.
Qed.

Lemma skip_single_none f fuel : (0 < fuel)%nat ->
  (forall b l, rest f = b :: l -> b <> space) ->
  exists f', skip_single_spaces fuel f = Ok f' /\ adv f 0 f'.
Proof.
  intros Hf H. destruct fuel as [|fuel]; [lia|]. cbn [skip_single_spaces].
  unfold f_peek. destruct (rest f) as [|b l] eqn:E.
  - simpl. eexists. split; [reflexivity|]. repeat split. cbn. lia.
  - specialize (H b l eq_refl). cbn [firstn].
    assert (Hn : Ascii.eqb b space = false) by (apply Ascii.eqb_neq; exact H).
    destruct (firstn _ l); [rewrite Hn|]; eexists; (split; [reflexivity|]); repeat split; cbn; lia.
Qed.

(** Token followed by anything; in text mode the token must be non-empty, since leading
    spaces may be skipped. *)
Lemma read_token_ok s f binary post :
  str_forallb is_ascii s = true -> str_in space s = false ->
  (binary = true \/ s <> ""%string) ->
  rest f = list_ascii_of_string s ++ space :: post ->
  exists f', read_token f binary = Ok (s, f') /\ adv f (len (list_ascii_of_string s) + 1) f'.
Proof.
  intros A N Hb E. destruct binary.
  - exists (goto f (f_pos f + (len (list_ascii_of_string s) + 1))). split.
    + exact (read_token_ok_true s f post A N E).
    + apply adv_goto.
  - destruct Hb as [Hb|Hb]; [discriminate|].
    destruct (skip_single_none f (S (len (rest f)))) as (f1 & E1 & A1); [lia| |].
    { intros b l El. rewrite El in E. destruct s as [|a s]; [congruence|].
      cbn in E. injection E as -> _. rewrite str_in_list in N. cbn [list_ascii_of_string existsb] in N.
      intros ->. rewrite Ascii.eqb_refl in N. discriminate. }
    assert (Er : rest f1 = rest f) by (rewrite (adv_rest _ _ _ A1); reflexivity).
    assert (Hx : read_token f false = read_token f1 true).
    { unfold read_token. rewrite E1. reflexivity. }
    rewrite Hx. rewrite (read_token_ok_true s f1 post A N) by (rewrite Er; exact E).
    eexists. split; [reflexivity|].
    change (len (list_ascii_of_string s) + 1)%nat with (0 + (len (list_ascii_of_string s) + 1))%nat.
    eapply adv_trans; [exact A1|apply adv_goto].
Qed.

(** End of file: the empty token. *)
Lemma read_token_eof f binary : rest f = [] ->
  exists f', read_token f binary = Ok (""%string, f') /\ adv f 0 f'.
Proof.
  intros E.
  assert (H : forall g, rest g = [] -> exists g', read_token g true = Ok (""%string, g') /\ adv g 0 g').
  { intros g Eg. unfold read_token. cbn [bind]. rewrite Eg. cbn [List.length read_token_loop].
    unfold f_read. rewrite Eg. cbn. eexists. split; [reflexivity|].
    repeat split; cbn; lia. }
  destruct binary; [apply H; exact E|].
  destruct (skip_single_none f (S (len (rest f)))) as (f1 & E1 & A1); [lia| |].
  { intros b l El. congruence. }
  destruct (H f1) as (f2 & E2 & A2).
  { rewrite (adv_rest _ _ _ A1), E. reflexivity. }
  exists f2. split.
  - rewrite <- E2. unfold read_token. rewrite E1. reflexivity.
  - eapply (adv_trans _ 0 _ 0); eassumption.
Qed.

Lemma write_int32_ok z : 0 <= z < 2 ^ 31 -> write_int32 z = Ok (byte_of 4 :: le_bytes 4 z).
Proof. intros H. unfold write_int32. rewrite pack_i_ok by exact H. reflexivity. Qed.

Lemma write_int32_inv z bs : write_int32 z = Ok bs ->
  - 2 ^ 31 <= z < 2 ^ 31 /\ bs = byte_of 4 :: le_bytes 4 z.
Proof.
  unfold write_int32, pack_i. destruct (_ && _) eqn:E; cbn [bind]; [|discriminate].
  intros H. split; [lia|congruence].
Qed.

Lemma read_int32_ok f z post : - 2 ^ 31 <= z < 2 ^ 31 ->
  rest f = byte_of 4 :: le_bytes 4 z ++ post ->
  read_int32 f = Ok (z, goto f (f_pos f + 5)).
Proof.
  intros Hz E. unfold read_int32.
  rewrite (f_read_ok f 1 [byte_of 4] (le_bytes 4 z ++ post)) by auto. cbn [bind].
  replace (unpack_b [byte_of 4]) with (Ok 4) by reflexivity. cbn [bind].
  replace (assert (4 =? 4)) with (Ok tt) by reflexivity. cbn [bind].
  rewrite (f_read_ok _ 4 (le_bytes 4 z) post).
  - cbn [bind]. rewrite unpack_i_le by exact Hz. cbn [bind]. rewrite le_bytes_len.
    unfold goto. cbn [f_pos f_bytes f_tick f_buf List.length].
    replace (f_pos f + 1 + 4)%nat with (f_pos f + 5)%nat by lia. reflexivity.
  - erewrite adv_rest by apply adv_goto. rewrite E. reflexivity.
  - reflexivity.
Qed.

(** ** peek *)

Lemma peek_spec f n : 0 <= n <= 2 ->
  exists f', peek f n = Ok (firstn (Z.to_nat n) (rest f), f') /\ adv f 0 f'.
Proof.
  intros Hn. unfold peek, f_peek. set (k := S (f_buf f (f_tick f))).
  set (p := firstn (Z.to_nat n) (firstn k (rest f))).
  set (f1 := mk_file _ _ _ _).
  assert (E1 : rest f1 = rest f) by reflexivity.
  assert (A1 : adv f 0 f1) by (repeat split; cbn; lia).
  cbv zeta.
  assert (Lp : len p = Nat.min (Z.to_nat n) (Nat.min k (len (rest f)))).
  { unfold p. rewrite firstn_length, firstn_length. reflexivity. }
  assert (Pk : p = firstn (Nat.min (Z.to_nat n) k) (rest f)).
  { unfold p. rewrite firstn_firstn. reflexivity. }
  destruct (Z.of_nat (len p) <? n) eqn:Q.
  - assert (Rd : f_read f1 (Z.of_nat (len p)) = Ok (firstn (len p) (rest f1), goto f1 (f_pos f1 + len p))).
    { rewrite f_read_n; rewrite ?Nat2Z.id; try reflexivity; try lia. rewrite E1. lia. }
    rewrite Rd. cbn [bind]. cbn [goto f_bytes f_pos f_buf f_tick].
    set (f2 := goto f1 _). set (k2 := S _). cbv zeta.
    unfold f_seek_cur. cbn [f_pos]. replace (_ <? 0) with false by lia. cbn [bind].
    match goal with |- exists f', Ok (_, ?x) = _ /\ _ => exists x end.
    split; [|unfold f2, f1; repeat split; cbn; lia].
    f_equal. f_equal.
    assert (E2 : rest f2 = skipn (len p) (rest f)).
    { unfold f2. erewrite adv_rest by apply adv_goto. rewrite E1. reflexivity. }
    rewrite E2.
    rewrite firstn_firstn.
    rewrite <- (firstn_skipn (len p) (firstn (Z.to_nat n) (rest f))). f_equal.
    + rewrite firstn_firstn. replace (Nat.min (len p) (Z.to_nat n)) with (len p) by lia.
      rewrite Pk. apply firstn_len_firstn.
    + rewrite skipn_firstn_comm.
      assert (Hc : (Z.to_nat (n - Z.of_nat (len p)) <= 1 \/ len (skipn (len p) (rest f)) = 0)%nat).
      { rewrite skipn_length. lia. }
      destruct Hc as [Hc|Hc].
      * f_equal. lia.
      * apply length_zero_iff_nil in Hc. rewrite Hc, !firstn_nil. reflexivity.
  - exists f1. split; [|exact A1]. f_equal. f_equal.
    unfold p. rewrite firstn_firstn. 
    assert (H : (Z.to_nat n <= k \/ Z.to_nat n <= len p)%nat) by lia.
    f_equal. lia.
Qed.
