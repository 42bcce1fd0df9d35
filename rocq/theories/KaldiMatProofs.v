(** Round trip and row ranges of Kaldi matrices. *)
From Verif Require Import BaseFacts.
From Verif Require Export KaldiProofs.
Open Scope list_scope.
Open Scope Z_scope.

(** A float array as numpy holds it: dimensions that fit int32, as many elements as the shape
    says, each of the size of its type. *)
Definition mat_ok (m : km) : Prop :=
  0 <= km_rows m < 2 ^ 31 /\ 0 <= km_cols m < 2 ^ 31 /\
  Z.of_nat (len (k_data m)) = km_rows m * km_cols m /\
  Forall (fun e => Z.of_nat (len e) = itemsize (k_dt m)) (k_data m).

(** Element (i, j), in C order. *)
Definition elem_at (m : km) (i j : nat) : option elem :=
  nth_error (k_data m) (i * Z.to_nat (km_cols m) + j).

(** [m'] holds rows r, r+1, ..., r+n-1 of the matrix [m]. *)
Definition is_row_slice (m : km) (r n : Z) (m' : km) : Prop :=
  k_dt m' = k_dt m /\ k_shape m' = Mat n (km_cols m) /\
  Z.of_nat (len (k_data m')) = n * km_cols m /\
  forall i j, Z.of_nat i < n -> Z.of_nat j < km_cols m ->
    elem_at m' i j = elem_at m (Z.to_nat r + i) j.

(** Number of rows a request for [n] rows from row [r] yields. *)
Definition req_rows (total r n : Z) : Z := if n =? 0 then total - r else n.

Lemma adv_trans0 f k f1 f2 : adv f 0 f1 -> adv f1 k f2 -> adv f k f2.
Proof. intros A B. exact (adv_trans _ _ _ _ _ A B). Qed.

Lemma rest_goto f k : rest (goto f (f_pos f + k)) = skipn k (rest f).
Proof. apply adv_rest, adv_goto. Qed.

(** the header bytes of a stored matrix *)
Definition tag1 (d : dtype) : ascii := match d with F32 => "F" | F64 => "D" end%char.
Definition int_field (z : Z) : list byte := byte_of 4 :: le_bytes 4 z.
Lemma int_field_len z : len (int_field z) = 5%nat.
Proof. unfold int_field. cbn [List.length]. rewrite le_bytes_len. reflexivity. Qed.

Lemma km_write_mat m r c : k_shape m = Mat r c -> 0 <= r < 2^31 -> 0 <= c < 2^31 ->
  km_write m = Ok ([tag1 (k_dt m); "M"%char; space] ++ int_field r ++ int_field c ++ concat (k_data m)).
Proof.
  intros E Hr Hc. unfold km_write, km_rows, km_cols. rewrite E.
  rewrite write_token_ok by (destruct (k_dt m); reflexivity). cbn [bind].
  rewrite !write_int32_ok by assumption. cbn [bind].
  destruct (k_dt m); reflexivity.
Qed.

Lemma km_write_vec m c : k_shape m = Vec c -> 0 <= c < 2^31 ->
  km_write m = Ok ([tag1 (k_dt m); "V"%char; space] ++ int_field c ++ concat (k_data m)).
Proof.
  intros E Hc. unfold km_write, km_rows, km_cols. rewrite E.
  rewrite write_token_ok by (destruct (k_dt m); reflexivity). cbn [bind].
  rewrite !write_int32_ok by assumption. cbn [bind].
  destruct (k_dt m); reflexivity.
Qed.

Lemma itemsize_pos d : 0 < itemsize d.
Proof. destruct d; reflexivity. Qed.

Lemma read_tag d x f post : (x = "M" \/ x = "V")%char ->
  rest f = [tag1 d; x; space] ++ post ->
  read_token f true = Ok (String (tag1 d) (String x ""), goto f (f_pos f + 3)).
Proof.
  intros Hx E. rewrite (read_token_ok_true (String (tag1 d) (String x "")) f post).
  - reflexivity.
  - destruct d, Hx; subst; reflexivity.
  - destruct d, Hx; subst; reflexivity.
  - exact E.
Qed.

Lemma read_field z f post : 0 <= z < 2^31 -> rest f = int_field z ++ post ->
  read_int32 f = Ok (z, goto f (f_pos f + 5)) /\ rest (goto f (f_pos f + 5)) = post.
Proof.
  intros Hz E. split.
  - apply read_int32_ok with post; [lia|exact E].
  - rewrite rest_goto, E. apply skipn_app_exact. rewrite int_field_len. reflexivity.
Qed.

Lemma skipn_concat_uniform {A} (ls : list (list A)) k n :
  Forall (fun l => len l = k) ls -> skipn (n * k) (concat ls) = concat (skipn n ls).
Proof.
  intros H. revert n. induction H as [|x l E _ IH]; intros n.
  - rewrite !skipn_nil. reflexivity.
  - destruct n; [reflexivity|]. cbn [concat skipn].
    replace (S n * k)%nat with (len x + n * k)%nat by lia.
    rewrite <- skipn_skipn, skipn_app_exact by reflexivity. apply IH.
Qed.

Lemma firstn_concat_uniform {A} (ls : list (list A)) k n :
  Forall (fun l => len l = k) ls -> firstn (n * k) (concat ls) = concat (firstn n ls).
Proof.
  intros H. revert n. induction H as [|x l E _ IH]; intros n.
  - rewrite !firstn_nil. reflexivity.
  - destruct n; [reflexivity|]. cbn [concat firstn].
    replace (S n * k)%nat with (len x + n * k)%nat by lia.
    rewrite firstn_app_2. f_equal. apply IH.
Qed.

Lemma Forall_skipn {A} (P : A -> Prop) l n : Forall P l -> Forall P (skipn n l).
Proof. intros H. apply Forall_forall. intros x Hx. rewrite Forall_forall in H. apply H.
  rewrite <- (firstn_skipn n l). apply in_or_app. right. exact Hx. Qed.
Lemma Forall_firstn {A} (P : A -> Prop) l n : Forall P l -> Forall P (firstn n l).
Proof. intros H. apply Forall_forall. intros x Hx. rewrite Forall_forall in H. apply H.
  rewrite <- (firstn_skipn n l). apply in_or_app. left. exact Hx. Qed.

(** The elements of rows r..r+n-1. *)
Definition row_window (c r n : Z) (data : list elem) : list elem :=
  firstn (Z.to_nat n * Z.to_nat c) (skipn (Z.to_nat r * Z.to_nat c) data).

Lemma row_window_slice m R r n : k_shape m = Mat R (km_cols m) -> mat_ok m ->
  0 <= r -> 0 <= n -> r + n <= R ->
  is_row_slice m r n (mk_km (k_dt m) (Mat n (km_cols m)) (row_window (km_cols m) r n (k_data m))).
Proof.
  intros Es (Hr & Hc & Hl & Hf) H0 Hn Hle.
  assert (ER : km_rows m = R) by (unfold km_rows; rewrite Es; reflexivity). rewrite ER in *.
  assert (HL : (Z.to_nat r * Z.to_nat (km_cols m) + Z.to_nat n * Z.to_nat (km_cols m) <= len (k_data m))%nat).
  { nia. }
  split; [reflexivity|]. split; [reflexivity|]. split.
  - cbn [k_data]. unfold row_window. rewrite firstn_length_le by (rewrite skipn_length; lia).
    rewrite Nat2Z.inj_mul, !Z2Nat.id by lia. reflexivity.
  - intros i j Hi Hj. unfold elem_at, row_window. cbn [k_data].
    unfold km_cols at 3. cbn [k_shape].
    rewrite nth_error_firstn.
    replace (i * Z.to_nat (km_cols m) + j <? _)%nat with true by (symmetry; apply Nat.ltb_lt; nia).
    rewrite nth_error_skipn. f_equal. lia.
Qed.

Lemma bind_assert_true {A} b (k : unit -> res A) : b = true -> bind (assert b) k = k tt.
Proof. intros ->. reflexivity. Qed.

(** Reading rows of an uncompressed matrix. *)
Lemma km_read_raw_mat m R C f post r n seq bs :
  k_shape m = Mat R C -> mat_ok m -> km_write m = Ok bs -> rest f = bs ++ post ->
  0 <= r -> 0 <= n -> r + n <= R ->
  exists f', km_read_raw f r n seq =
     Ok (mk_km (k_dt m) (Mat (req_rows R r n) C) (row_window C r (req_rows R r n) (k_data m)), f')
   /\ (seq = true -> adv f (len bs) f').
Proof.
  intros Es (Hr & Hc & Hl & Hf) Hw E H0 Hn Hle.
  unfold km_rows, km_cols in *. rewrite Es in *.
  rewrite (km_write_mat m R C Es Hr Hc) in Hw.
  assert (Hw' : bs = [tag1 (k_dt m); "M"%char; space] ++ int_field R ++ int_field C ++ concat (k_data m)) by congruence.
  clear Hw. subst bs. rewrite <- !app_assoc in E.
  unfold km_read_raw.
  rewrite (read_tag (k_dt m) "M"%char f _ (or_introl eq_refl) E). cbn [bind].
  set (f1 := goto f _).
  assert (E1 : rest f1 = int_field R ++ int_field C ++ concat (k_data m) ++ post).
  { unfold f1. rewrite rest_goto, E. reflexivity. }
  destruct (read_field R f1 _ Hr E1) as [Rd1 E2]. set (f2 := goto f1 _) in *.
  destruct (read_field C f2 _ Hc E2) as [Rd2 E3]. set (f3 := goto f2 _) in *.
  change (tok_char (String (tag1 (k_dt m)) "M") 0) with (Ok (tag1 (k_dt m))).
  change (tok_char (String (tag1 (k_dt m)) "M") 1) with (Ok "M"%char).
  cbn [bind]. change (ndim_of "M") with (Some true). cbn [bind bound_var].
  rewrite Rd1. cbn [bind]. rewrite bind_assert_true by lia.
  set (N := req_rows R r n).
  set (L := if n =? 0 then 0 else R - r - n).
  match goal with |- context [bind (if n =? 0 then ?a else ?b) ?k] =>
    assert (Hb : (if n =? 0 then a else b) = Ok (N, L, f2)) end.
  { unfold N, L, req_rows. destruct (n =? 0) eqn:En; [reflexivity|].
    rewrite bind_assert_true by lia. reflexivity. }
  rewrite Hb. clear Hb. cbn [bind]. rewrite Rd2. cbn [bind].
  replace (dtype_of (tag1 (k_dt m))) with (Some (k_dt m)) by (destruct (k_dt m); reflexivity).
  cbn [bind bound_var].
  pose proof (itemsize_pos (k_dt m)) as Hi. set (I := itemsize (k_dt m)) in *.
  assert (HN : 0 <= N /\ 0 <= L /\ r + N + L = R).
  { unfold N, L, req_rows. destruct (n =? 0) eqn:En; lia. }
  destruct HN as (HN & HL & Hsum).
  assert (Hlc : Z.of_nat (len (concat (k_data m))) = R * C * I).
  { rewrite (concat_len_uniform _ (Z.to_nat I)).
    - rewrite Nat2Z.inj_mul, Hl, Z2Nat.id by lia. reflexivity.
    - eapply Forall_impl; [|exact Hf]. cbn. intros a Ha. lia. }
  set (kr := Z.to_nat (r * C * I)). set (kn := Z.to_nat (N * C * I)). set (kl := Z.to_nat (L * C * I)).
  assert (Hk : (kr + kn + kl = len (concat (k_data m)))%nat).
  { unfold kr, kn, kl. rewrite <- !Z2Nat.inj_add by nia.
    replace (r * C * I + N * C * I + L * C * I) with (R * C * I) by (rewrite <- Hsum; ring). lia. }
  set (f4 := goto f3 (f_pos f3 + kr)).
  assert (Hs : (if 0 <? r then f_seek_cur f3 (r * C * I) else Ok f3) = Ok f4).
  { destruct (0 <? r) eqn:Er.
    - rewrite f_seek_cur_ok by nia. reflexivity.
    - unfold f4, kr. replace (Z.to_nat (r * C * I)) with 0%nat by nia.
      rewrite Nat.add_0_r. destruct f3; reflexivity. }
  rewrite Hs. cbn [bind].
  assert (E4 : rest f4 = skipn kr (concat (k_data m)) ++ post).
  { unfold f4. rewrite rest_goto, E3, skipn_app. f_equal.
    replace (kr - _)%nat with 0%nat by lia. reflexivity. }
  rewrite f_read_n; [|nia|].
  2:{ rewrite E4, app_length, skipn_length. fold kn. lia. }
  fold kn. cbn [bind]. set (f5 := goto f4 _).
  set (f6 := if (0 <? L) && seq then goto f5 (f_pos f5 + kl) else f5).
  match goal with |- context [bind (if (0 <? L) && seq then ?a else ?b) ?k] =>
    assert (Hs2 : (if (0 <? L) && seq then a else b) = Ok f6) end.
  { unfold f6. destruct ((0 <? L) && seq); [|reflexivity]. rewrite f_seek_cur_ok by nia. reflexivity. }
  rewrite Hs2. cbn [bind].
  assert (Hd : firstn kn (rest f4) = concat (row_window C r N (k_data m))).
  { rewrite E4, firstn_app. rewrite skipn_length.
    replace (kn - _)%nat with 0%nat by lia. cbn [firstn]. rewrite app_nil_r.
    assert (Hu : Forall (fun l => len l = Z.to_nat I) (k_data m)).
    { eapply Forall_impl; [|exact Hf]. cbn. intros a Ha. lia. }
    unfold row_window, kr, kn.
    replace (Z.to_nat (r * C * I)) with (Z.to_nat r * Z.to_nat C * Z.to_nat I)%nat.
    2:{ rewrite !Z2Nat.inj_mul by nia. reflexivity. }
    replace (Z.to_nat (N * C * I)) with (Z.to_nat N * Z.to_nat C * Z.to_nat I)%nat.
    2:{ rewrite !Z2Nat.inj_mul by nia. reflexivity. }
    rewrite (skipn_concat_uniform _ _ _ Hu).
    rewrite firstn_concat_uniform by (apply Forall_skipn; exact Hu). reflexivity. }
  rewrite Hd. rewrite frombuffer_concat; [|lia|].
  2:{ apply Forall_firstn, Forall_skipn. eapply Forall_impl; [|exact Hf]. cbn. intros a Ha. lia. }
  cbn [bind].
  assert (Hrs : reshape_ok (row_window C r N (k_data m)) N C = Ok (row_window C r N (k_data m))).
  { unfold reshape_ok. unfold row_window at 1. rewrite firstn_length_le.
    - replace (_ && _) with true; [reflexivity|]. symmetry.
      rewrite !andb_true_iff, !Z.leb_le, Z.eqb_eq. rewrite Nat2Z.inj_mul, !Z2Nat.id by lia. lia.
    - rewrite skipn_length. nia. }
  rewrite Hrs. cbn [bind].
  exists f6. split; [reflexivity|]. intros ->.
  unfold adv. unfold f6. rewrite andb_true_r.
  repeat split; try (destruct (0 <? L); reflexivity).
  rewrite !app_length, !int_field_len. cbn [List.length].
  destruct (0 <? L) eqn:EL; unfold f5, f4, f3, f2, f1; cbn [goto f_pos].
  - rewrite <- Hk. lia.
  - assert (kl = 0%nat) by (unfold kl; nia). lia.
Qed.

Lemma km_read_raw_vec m C f post seq bs :
  k_shape m = Vec C -> mat_ok m -> km_write m = Ok bs -> rest f = bs ++ post ->
  exists f', km_read_raw f 0 0 seq = Ok (m, f') /\ adv f (len bs) f'.
Proof.
  intros Es (Hr & Hc & Hl & Hf) Hw E.
  unfold km_rows, km_cols in *. rewrite Es in *.
  rewrite (km_write_vec m C Es Hc) in Hw.
  assert (Hw' : bs = [tag1 (k_dt m); "V"%char; space] ++ int_field C ++ concat (k_data m)) by congruence.
  clear Hw. subst bs. rewrite <- !app_assoc in E.
  unfold km_read_raw.
  rewrite (read_tag (k_dt m) "V"%char f _ (or_intror eq_refl) E). cbn [bind].
  set (f1 := goto f _).
  assert (E1 : rest f1 = int_field C ++ concat (k_data m) ++ post).
  { unfold f1. rewrite rest_goto, E. reflexivity. }
  destruct (read_field C f1 _ Hc E1) as [Rd1 E2]. set (f2 := goto f1 _) in *.
  change (tok_char (String (tag1 (k_dt m)) "V") 0) with (Ok (tag1 (k_dt m))).
  change (tok_char (String (tag1 (k_dt m)) "V") 1) with (Ok "V"%char).
  cbn [bind]. change (ndim_of "V") with (Some false). cbn [bind bound_var].
  rewrite Rd1. cbn [bind].
  replace (dtype_of (tag1 (k_dt m))) with (Some (k_dt m)) by (destruct (k_dt m); reflexivity).
  cbn [bind bound_var Z.ltb Z.compare andb].
  pose proof (itemsize_pos (k_dt m)) as Hi. set (I := itemsize (k_dt m)) in *.
  assert (Hlc : Z.of_nat (len (concat (k_data m))) = C * I).
  { rewrite (concat_len_uniform _ (Z.to_nat I)).
    - rewrite Nat2Z.inj_mul, Hl, Z2Nat.id by lia. ring.
    - eapply Forall_impl; [|exact Hf]. cbn. intros a Ha. lia. }
  rewrite (f_read_ok f2 _ (concat (k_data m)) post E2) by lia. cbn [bind].
  rewrite frombuffer_concat; [|lia|].
  2:{ eapply Forall_impl; [|exact Hf]. cbn. intros a Ha. lia. }
  cbn [bind]. eexists. split.
  - rewrite Hl. replace (1 * C) with C by ring. rewrite <- Es.
    replace (mk_km (k_dt m) (k_shape m) (k_data m)) with m by (destruct m; reflexivity). reflexivity.
  - unfold adv. cbn [goto f_bytes f_buf f_pos]. repeat split.
    rewrite !app_length, !int_field_len. unfold f2, f1. cbn [goto f_pos List.length]. lia.
Qed.

Lemma row_window_all R C l : Z.of_nat (len l) = R * C -> 0 <= R -> 0 <= C ->
  row_window C 0 R l = l.
Proof.
  intros H HR HC. unfold row_window. change (Z.to_nat 0) with 0%nat. cbn [Nat.mul skipn].
  apply firstn_all2. nia.
Qed.

(** peek sees the first byte of the record *)
Lemma peek1 f b l : rest f = b :: l -> exists f', peek f 1 = Ok ([b], f') /\ adv f 0 f'.
Proof.
  intros E. destruct (peek_spec f 1) as (f' & E' & A); [lia|].
  rewrite E in E'. cbn in E'. eauto.
Qed.

Lemma bytes_eqb_true a b : bytes_eqb a b = true <-> a = b.
Proof. unfold bytes_eqb. destruct (list_eq_dec _ a b); split; congruence. Qed.

Lemma bytes_eqb_false a b : bytes_eqb a b = false <-> a <> b.
Proof. unfold bytes_eqb. destruct (list_eq_dec _ a b); split; congruence. Qed.

Lemma km_write_first m bs : mat_ok m -> km_write m = Ok bs ->
  exists l, bs = tag1 (k_dt m) :: l.
Proof.
  intros (Hr & Hc & _) Hw. unfold km_rows, km_cols in *.
  destruct (k_shape m) as [c|r c] eqn:Es.
  - rewrite (km_write_vec m c Es Hc) in Hw. eexists.
    assert (X : forall a b : list byte, Ok a = Ok b -> b = a) by congruence. apply X in Hw. exact Hw.
  - rewrite (km_write_mat m r c Es Hr Hc) in Hw. eexists.
    assert (X : forall a b : list byte, Ok a = Ok b -> b = a) by congruence. apply X in Hw. exact Hw.
Qed.

(** KaldiMatrix.read on an uncompressed record *)
Lemma km_read_is_raw dec m bs f post r n seq :
  mat_ok m -> km_write m = Ok bs -> rest f = bs ++ post ->
  exists f1, adv f 0 f1 /\ km_read dec f r n seq = km_read_raw f1 r n seq.
Proof.
  intros Hm Hw E. destruct (km_write_first m bs Hm Hw) as [l ->].
  destruct (peek1 f _ _ E) as (f1 & P & A). exists f1. split; [exact A|].
  unfold km_read. rewrite P. cbn [bind].
  replace (bytes_eqb _ _) with false; [reflexivity|].
  symmetry. apply bytes_eqb_false. destruct (k_dt m); discriminate.
Qed.

Lemma km_writable m : mat_ok m -> exists bs, km_write m = Ok bs.
Proof.
  intros (Hr & Hc & _). unfold km_rows, km_cols in *.
  destruct (k_shape m) as [c|r c] eqn:Es.
  - rewrite (km_write_vec m c Es Hc). eauto.
  - rewrite (km_write_mat m r c Es Hr Hc). eauto.
Qed.

Lemma adv0_rest f f1 : adv f 0 f1 -> rest f1 = rest f.
Proof. intros A. rewrite (adv_rest _ _ _ A). reflexivity. Qed.

Lemma km_roundtrip dec m bs f post seq :
  mat_ok m -> km_write m = Ok bs -> rest f = bs ++ post ->
  exists f', km_read dec f 0 0 seq = Ok (m, f') /\ (seq = true \/ (exists n, k_shape m = Vec n) -> adv f (len bs) f').
Proof.
  intros Hm Hw E. destruct (km_read_is_raw dec m bs f post 0 0 seq Hm Hw E) as (f1 & A & ->).
  assert (E1 : rest f1 = bs ++ post) by (rewrite (adv0_rest _ _ A); exact E).
  destruct (k_shape m) as [c|r c] eqn:Es.
  - destruct (km_read_raw_vec m c f1 post seq bs Es Hm Hw E1) as (f' & -> & A').
    exists f'. split; [reflexivity|]. intros _. exact (adv_trans _ _ _ _ _ A A').
  - pose proof Hm as (Hr & Hc & Hl & Hf). unfold km_rows, km_cols in *. rewrite Es in *.
    destruct (km_read_raw_mat m r c f1 post 0 0 seq bs Es Hm Hw E1) as (f' & -> & A'); try lia.
    exists f'. split.
    + unfold req_rows. cbn [Z.eqb]. rewrite Z.sub_0_r, row_window_all by lia.
      destruct m; cbn in *. rewrite Es. reflexivity.
    + intros [->|[n Hn]]; [|discriminate]. exact (adv_trans _ _ _ _ _ A (A' eq_refl)).
Qed.

Lemma km_read_rows dec m R C bs f post r n seq :
  k_shape m = Mat R C -> mat_ok m -> km_write m = Ok bs -> rest f = bs ++ post ->
  0 <= r -> 0 <= n -> r + n <= R ->
  exists m' f', km_read dec f r n seq = Ok (m', f') /\ is_row_slice m r (req_rows R r n) m' /\
    (seq = true -> adv f (len bs) f').
Proof.
  intros Es Hm Hw E H0 Hn Hle.
  destruct (km_read_is_raw dec m bs f post r n seq Hm Hw E) as (f1 & A & ->).
  assert (E1 : rest f1 = bs ++ post) by (rewrite (adv0_rest _ _ A); exact E).
  destruct (km_read_raw_mat m R C f1 post r n seq bs Es Hm Hw E1 H0 Hn Hle) as (f' & -> & A').
  eexists _, f'. split; [reflexivity|]. split.
  - assert (EC : km_cols m = C) by (unfold km_cols; rewrite Es; reflexivity). rewrite <- EC.
    apply row_window_slice with R; try assumption; try (rewrite EC; exact Es);
      unfold req_rows; destruct (n =? 0) eqn:En; lia.
  - intros Hs. exact (adv_trans _ _ _ _ _ A (A' Hs)).
Qed.

(** KaldiMatrix.read_shape *)
Lemma km_read_shape_ok m bs f post seq :
  mat_ok m -> km_write m = Ok bs -> rest f = bs ++ post ->
  exists f', km_read_shape f seq = Ok (k_shape m, f') /\ (seq = true -> adv f (len bs) f').
Proof.
  intros Hm Hw E. destruct (km_write_first m bs Hm Hw) as [l Hfirst]. 
  assert (E0 : rest f = tag1 (k_dt m) :: (l ++ post)) by (rewrite E, Hfirst; reflexivity).
  destruct (peek1 f _ _ E0) as (f0 & P & A).
  unfold km_read_shape. rewrite P. cbn [bind].
  replace (bytes_eqb _ _) with false
    by (symmetry; apply bytes_eqb_false; destruct (k_dt m); discriminate).
  clear Hfirst E0.
  assert (E1 : rest f0 = bs ++ post) by (rewrite (adv0_rest _ _ A); exact E).
  pose proof Hm as (Hr & Hc & Hl & Hf). unfold km_rows, km_cols in *.
  pose proof (itemsize_pos (k_dt m)) as Hi.
  assert (Hlc : Z.of_nat (len (concat (k_data m))) = Z.of_nat (len (k_data m)) * itemsize (k_dt m)).
  { rewrite (concat_len_uniform _ (Z.to_nat (itemsize (k_dt m)))).
    - rewrite Nat2Z.inj_mul, Z2Nat.id by lia. reflexivity.
    - eapply Forall_impl; [|exact Hf]. cbn. intros a Ha. lia. }
  destruct (k_shape m) as [c|r c] eqn:Es.
  - rewrite (km_write_vec m c Es Hc) in Hw.
    assert (X : forall a b : list byte, Ok a = Ok b -> b = a) by congruence. apply X in Hw. clear X. subst bs.
    rewrite <- !app_assoc in E1.
    rewrite (read_tag (k_dt m) "V"%char f0 _ (or_intror eq_refl) E1). cbn [bind].
    set (f1 := goto f0 _).
    assert (E2 : rest f1 = int_field c ++ concat (k_data m) ++ post).
    { unfold f1. rewrite rest_goto, E1. reflexivity. }
    destruct (read_field c f1 _ Hc E2) as [Rd1 E3]. set (f2 := goto f1 _) in *.
    change (tok_char (String (tag1 (k_dt m)) "V") 0) with (Ok (tag1 (k_dt m))).
    change (tok_char (String (tag1 (k_dt m)) "V") 1) with (Ok "V"%char).
    cbn [bind]. change (ndim_of "V") with (Some false). cbn [bind bound_var].
    rewrite Rd1. cbn [bind].
    replace (dtype_of (tag1 (k_dt m))) with (Some (k_dt m)) by (destruct (k_dt m); reflexivity).
    cbn [bind bound_var].
    destruct seq.
    + rewrite f_seek_cur_ok by nia. cbn [bind]. eexists. split; [reflexivity|]. intros _.
      apply (adv_trans0 _ _ _ _ A). unfold adv. cbn [goto f_bytes f_buf f_pos]. repeat split.
      rewrite !app_length, !int_field_len. unfold f2, f1. cbn [goto f_pos List.length].
      nia.
    + cbn [bind]. eexists. split; [reflexivity|]. discriminate.
  - rewrite (km_write_mat m r c Es Hr Hc) in Hw.
    assert (X : forall a b : list byte, Ok a = Ok b -> b = a) by congruence. apply X in Hw. clear X. subst bs.
    rewrite <- !app_assoc in E1.
    rewrite (read_tag (k_dt m) "M"%char f0 _ (or_introl eq_refl) E1). cbn [bind].
    set (f1 := goto f0 _).
    assert (E2 : rest f1 = int_field r ++ int_field c ++ concat (k_data m) ++ post).
    { unfold f1. rewrite rest_goto, E1. reflexivity. }
    destruct (read_field r f1 _ Hr E2) as [Rd1 E3]. set (f2 := goto f1 _) in *.
    destruct (read_field c f2 _ Hc E3) as [Rd2 E4]. set (f3 := goto f2 _) in *.
    change (tok_char (String (tag1 (k_dt m)) "M") 0) with (Ok (tag1 (k_dt m))).
    change (tok_char (String (tag1 (k_dt m)) "M") 1) with (Ok "M"%char).
    cbn [bind]. change (ndim_of "M") with (Some true). cbn [bind bound_var].
    rewrite Rd1. cbn [bind]. rewrite Rd2. cbn [bind].
    replace (dtype_of (tag1 (k_dt m))) with (Some (k_dt m)) by (destruct (k_dt m); reflexivity).
    cbn [bind bound_var].
    destruct seq.
    + rewrite f_seek_cur_ok by nia. cbn [bind]. eexists. split; [reflexivity|]. intros _.
      apply (adv_trans0 _ _ _ _ A). unfold adv. cbn [goto f_bytes f_buf f_pos]. repeat split.
      rewrite !app_length, !int_field_len. unfold f3, f2, f1. cbn [goto f_pos List.length].
      nia.
    + cbn [bind]. eexists. split; [reflexivity|]. discriminate.
Qed.
