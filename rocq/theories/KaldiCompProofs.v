(** Compressed Kaldi matrices: framing, row ranges, shapes (no arithmetic). *)
From Verif Require Import BaseFacts.
From Verif Require Export KaldiMatProofs.
Open Scope list_scope.
Open Scope Z_scope.

(** Bytes per coded value. *)
Definition code_size (fmt : Z) : Z := if fmt =? 2 then 2 else 1.

Definition cm_header (fmt : Z) (mn rg : elem) (r c : Z) : list byte :=
  le_bytes 4 fmt ++ mn ++ rg ++ le_bytes 4 r ++ le_bytes 4 c.

(** A well-formed compressed matrix: header, then (format 1) 8 bytes per column, then the
    coded values. *)
Record cm_parts (c : cm) (ch pl : list byte) : Prop := {
  cp_fmt : c_fmt c = 1 \/ c_fmt c = 2 \/ c_fmt c = 3;
  cp_rows : 0 <= c_rows c < 2 ^ 31;
  cp_cols : 0 <= c_cols c < 2 ^ 31;
  cp_min : len (c_min c) = 4%nat;
  cp_range : len (c_range c) = 4%nat;
  cp_data : c_data c = cm_header (c_fmt c) (c_min c) (c_range c) (c_rows c) (c_cols c) ++ ch ++ pl;
  cp_ch : Z.of_nat (len ch) = if c_fmt c =? 1 then 8 * c_cols c else 0;
  cp_pl : Z.of_nat (len pl) = code_size (c_fmt c) * (c_rows c * c_cols c) }.

Definition cm_ok (c : cm) : Prop := exists ch pl, cm_parts c ch pl.

Lemma cm_header_len fmt mn rg r c : len mn = 4%nat -> len rg = 4%nat ->
  len (cm_header fmt mn rg r c) = 20%nat.
Proof. intros A B. unfold cm_header. rewrite !app_length, !le_bytes_len, A, B. reflexivity. Qed.

Lemma slice_app_l {A} (a b : list A) x y : 0 <= x -> y <= Z.of_nat (len a) ->
  slice (a ++ b) x y = slice a x y.
Proof.
  intros Hx Hy. unfold slice. rewrite skipn_app, firstn_app, skipn_length.
  replace (Z.to_nat (y - x) - _)%nat with 0%nat by lia. cbn [firstn]. apply app_nil_r.
Qed.

Lemma slice_app_r {A} (a b : list A) x y : Z.of_nat (len a) <= x ->
  slice (a ++ b) x y = slice b (x - Z.of_nat (len a)) (y - Z.of_nat (len a)).
Proof.
  intros Hx. unfold slice. rewrite skipn_app. rewrite skipn_all2 by lia. cbn [app].
  f_equal; [f_equal; lia|]. f_equal. lia.
Qed.

Lemma slice_all {A} (a : list A) y : y = Z.of_nat (len a) -> slice a 0 y = a.
Proof. intros ->. unfold slice. cbn [Z.to_nat skipn]. apply firstn_all2. lia. Qed.

Lemma unpack_cm_header fmt mn rg r c :
  1 <= fmt <= 3 -> 0 <= r < 2^31 -> 0 <= c < 2^31 -> len mn = 4%nat -> len rg = 4%nat ->
  unpack_header (cm_header fmt mn rg r c) = Ok (fmt, mn, rg, r, c).
Proof.
  intros Hf Hr Hc Hm Hg. unfold unpack_header. rewrite cm_header_len by assumption. cbn [Nat.eqb].
  unfold cm_header.
  set (a := le_bytes 4 fmt). set (b := le_bytes 4 r). set (d := le_bytes 4 c).
  assert (La : len a = 4%nat) by apply le_bytes_len.
  assert (Lb : len b = 4%nat) by apply le_bytes_len.
  assert (Ld : len d = 4%nat) by apply le_bytes_len.
  assert (S1 : slice (a ++ mn ++ rg ++ b ++ d) 0 4 = a).
  { rewrite slice_app_l by lia. apply slice_all. lia. }
  assert (S2 : slice (a ++ mn ++ rg ++ b ++ d) 4 8 = mn).
  { rewrite slice_app_r, slice_app_l by lia. rewrite La. apply slice_all. lia. }
  assert (S3 : slice (a ++ mn ++ rg ++ b ++ d) 8 12 = rg).
  { rewrite slice_app_r, slice_app_r, slice_app_l by lia. rewrite La, Hm. apply slice_all. lia. }
  assert (S4 : slice (a ++ mn ++ rg ++ b ++ d) 12 16 = b).
  { rewrite slice_app_r, slice_app_r, slice_app_r, slice_app_l by lia. rewrite La, Hm, Hg. apply slice_all. lia. }
  assert (S5 : slice (a ++ mn ++ rg ++ b ++ d) 16 20 = d).
  { rewrite slice_app_r, slice_app_r, slice_app_r, slice_app_r by lia. rewrite La, Hm, Hg, Lb. apply slice_all. lia. }
  rewrite S1, S2, S3, S4, S5. unfold a, b, d. rewrite !unpack_i_le by lia. reflexivity.
Qed.

Lemma cm_new_header fmt mn rg r c x :
  1 <= fmt <= 3 -> 0 <= r < 2^31 -> 0 <= c < 2^31 -> len mn = 4%nat -> len rg = 4%nat ->
  cm_new (cm_header fmt mn rg r c ++ x) = Ok (mk_cm (cm_header fmt mn rg r c ++ x) fmt mn rg r c).
Proof.
  intros. unfold cm_new. rewrite slice_app_l by (rewrite ?cm_header_len by assumption; lia).
  rewrite slice_all by (rewrite cm_header_len by assumption; reflexivity).
  rewrite unpack_cm_header by assumption. reflexivity.
Qed.

(** ** Expansion *)

(** Coded value of element (i, j): where the format puts it. *)
Definition code_at (fmt : Z) (R C : nat) (pl : list byte) (i j : nat) : list byte :=
  if fmt =? 1 then firstn 1 (skipn (j * R + i) pl)
  else let k := Z.to_nat (code_size fmt) in firstn k (skipn ((i * C + j) * k) pl).

Definition decode_elem (dec : decoder) (fmt : Z) (mn rg ch : list byte) (j : nat) (code : list byte) : elem :=
  if fmt =? 1 then d_chr dec mn rg (firstn 8 (skipn (j * 8) ch)) (le_val code)
  else if fmt =? 2 then d_u16 dec mn rg (le_val code)
  else d_u8 dec mn rg (le_val code).

Lemma nth_error_map_some {A B} (f : A -> B) l i x : nth_error l i = Some x -> nth_error (map f l) i = Some (f x).
Proof. intros H. rewrite nth_error_map, H. reflexivity. Qed.

Lemma nth_error_seq s n i : (i < n)%nat -> nth_error (seq s n) i = Some (s + i)%nat.
Proof.
  revert s i. induction n; intros s i H; [lia|]. destruct i; simpl; [f_equal; lia|].
  rewrite IHn by lia. f_equal. lia.
Qed.

Lemma from_columns_nth R cols i j col : (i < R)%nat -> nth_error cols j = Some col ->
  nth_error (from_columns R cols) (i * len cols + j) = Some (nth i col []).
Proof.
  intros Hi Hj. unfold from_columns.
  rewrite nth_concat_uniform.
  - rewrite (nth_error_map_some _ _ _ i) by (rewrite nth_error_seq by exact Hi; reflexivity).
    rewrite nth_error_map, Hj. reflexivity.
  - apply Forall_forall. intros x Hx. apply in_map_iff in Hx. destruct Hx as (k & <- & _). apply map_length.
  - apply nth_error_Some. congruence.
Qed.

Lemma from_columns_len R cols : len (from_columns R cols) = (R * len cols)%nat.
Proof.
  unfold from_columns. rewrite (concat_len_uniform _ (len cols)).
  - rewrite map_length, seq_length. reflexivity.
  - apply Forall_forall. intros x Hx. apply in_map_iff in Hx. destruct Hx as (k & <- & _). apply map_length.
Qed.

Lemma nth_default_nth {A} (l : list A) i d x : nth_error l i = Some x -> nth i l d = x.
Proof. apply nth_error_nth. Qed.

Lemma firstn1_nth {A} (l : list A) i x : nth_error l i = Some x -> firstn 1 (skipn i l) = [x].
Proof.
  revert i. induction l; intros [|i] H; try discriminate; simpl in *.
  - congruence.
  - apply IHl. exact H.
Qed.

Lemma nth_error_firstn_skipn {A} (l : list A) a n i : (i < n)%nat ->
  nth_error (firstn n (skipn a l)) i = nth_error l (a + i).
Proof.
  intros H. rewrite nth_error_firstn. replace (i <? n)%nat with true by (symmetry; apply Nat.ltb_lt; exact H).
  apply nth_error_skipn.
Qed.

Lemma expand_spec dec c ch pl : cm_parts c ch pl ->
  exists m, cm_to_ndarray dec c = Ok m /\
    k_dt m = F64 /\ k_shape m = Mat (c_rows c) (c_cols c) /\
    Z.of_nat (len (k_data m)) = c_rows c * c_cols c /\
    forall i j, Z.of_nat i < c_rows c -> Z.of_nat j < c_cols c ->
      elem_at m i j = Some (decode_elem dec (c_fmt c) (c_min c) (c_range c) ch j
        (code_at (c_fmt c) (Z.to_nat (c_rows c)) (Z.to_nat (c_cols c)) pl i j)).
Proof.
  intros P. destruct P as [Pf Pr Pc Pm Pg Pd Ph Pl].
  set (R := c_rows c) in *. set (C := c_cols c) in *.
  assert (LH : len (cm_header (c_fmt c) (c_min c) (c_range c) R C) = 20%nat) by (apply cm_header_len; assumption).
  set (H := cm_header _ _ _ _ _) in *.
  assert (S20 : skipn 20 (c_data c) = ch ++ pl) by (rewrite Pd; apply skipn_app_exact; symmetry; exact LH).
  unfold cm_to_ndarray. fold R C.
  destruct Pf as [E|Pf].
  - (* format 1 *)
    rewrite E in *. cbn [Z.eqb Pos.eqb] in *.
    replace ((R <? 0) || (C <? 0)) with false by lia.
    set (g := fun jz : Z => let j := Z.to_nat jz in
        map (fun b => d_chr dec (c_min c) (c_range c) (firstn 8 (skipn (j * 8) ch)) (byte_val b))
            (firstn (Z.to_nat R) (skipn (j * Z.to_nat R) pl))).
    assert (HM : mapM (uncompress_column dec c) (arange 0 C) = Ok (map g (arange 0 C))).
    { apply mapM_pure. intros jz Hj. apply arange_in in Hj. unfold uncompress_column.
      fold R C.
      assert (S1 : slice (c_data c) (20 + 8 * jz) (20 + 8 * jz + 8) = firstn 8 (skipn (Z.to_nat jz * 8) ch)).
      { rewrite Pd, slice_app_r, slice_app_l by lia. unfold slice. rewrite LH. f_equal; [lia|]. f_equal. lia. }
      assert (S2 : slice (c_data c) (20 + C * 8 + R * jz) (20 + C * 8 + R * jz + R)
                   = firstn (Z.to_nat R) (skipn (Z.to_nat jz * Z.to_nat R) pl)).
      { rewrite Pd, slice_app_r, slice_app_r by nia. unfold slice. rewrite LH, Ph.
        f_equal; [lia|]. f_equal. nia. }
      rewrite S1, S2.
      assert (L1 : len (firstn 8 (skipn (Z.to_nat jz * 8) ch)) = 8%nat).
      { rewrite firstn_length_le; [reflexivity|]. rewrite skipn_length. lia. }
      assert (L2 : len (firstn (Z.to_nat R) (skipn (Z.to_nat jz * Z.to_nat R) pl)) = Z.to_nat R).
      { rewrite firstn_length_le; [reflexivity|]. rewrite skipn_length.
        assert (Z.of_nat (len pl) = R * C) by (rewrite Pl; change (code_size 1) with 1; lia). nia. }
      rewrite L1, L2. cbn [Nat.eqb andb]. replace (_ =? _) with true by lia. reflexivity. }
    rewrite HM. cbn [bind]. eexists. split; [reflexivity|].
    split; [reflexivity|]. split; [reflexivity|]. cbn [k_data].
    split; [rewrite from_columns_len, map_length, arange_length; lia|].
    intros i j Hi Hj. unfold elem_at, km_cols. cbn [k_data k_shape].
    assert (HR : (i < Z.to_nat R)%nat) by lia.
    assert (HC : (j < Z.to_nat C)%nat) by lia.
    assert (Hcol : nth_error (map g (arange 0 C)) j = Some (g (Z.of_nat j))).
    { apply nth_error_map_some. unfold arange.
      rewrite (nth_error_map_some _ _ _ j) by (rewrite nth_error_seq by lia; reflexivity). f_equal. }
    replace (Z.to_nat C) with (len (map g (arange 0 C))) at 1 by (rewrite map_length, arange_length; lia).
    rewrite (from_columns_nth _ _ _ _ _ HR Hcol). f_equal.
    unfold decode_elem, code_at. cbn [Z.eqb Pos.eqb].
    unfold g. rewrite Nat2Z.id. cbv zeta.
    assert (Hb : exists b, nth_error pl (j * Z.to_nat R + i) = Some b).
    { destruct (nth_error pl (j * Z.to_nat R + i)) eqn:En; [eauto|].
      apply nth_error_None in En. exfalso.
      assert (Z.of_nat (len pl) = R * C) by (rewrite Pl; change (code_size 1) with 1; lia). nia. }
    destruct Hb as [b Hb].
    rewrite (firstn1_nth _ _ _ Hb).
    apply nth_default_nth. rewrite (nth_error_map_some _ _ i b).
    + cbn [le_val]. do 2 f_equal. lia.
    + rewrite nth_error_firstn_skipn by exact HR. exact Hb.
  - assert (Nf : c_fmt c =? 1 = false) by lia. rewrite Nf in *.
    assert (Hch : ch = []) by (destruct ch; [reflexivity|simpl in Ph; lia]). subst ch. cbn [app] in S20.
    rewrite S20.
    set (k := Z.to_nat (code_size (c_fmt c))).
    set (n := Z.to_nat (R * C)).
    assert (Hk : (0 < k)%nat) by (unfold k, code_size; destruct (_ =? 2); cbn; lia).
    assert (Lp : len pl = (n * k)%nat).
    { unfold n, k. assert (0 <= R * C) by nia. unfold code_size in *. destruct (_ =? 2); lia. }
    set (dd := if c_fmt c =? 2 then d_u16 dec else d_u8 dec).
    assert (HH : (if c_fmt c =? 2
       then us <- frombuffer 2 pl ;;
            v <- reshape_ok (map (fun u => d_u16 dec (c_min c) (c_range c) (le_val u)) us) R C ;;
            Ok (mk_km F64 (Mat R C) v)
       else us <- frombuffer 1 pl ;;
            v <- reshape_ok (map (fun u => d_u8 dec (c_min c) (c_range c) (le_val u)) us) R C ;;
            Ok (mk_km F64 (Mat R C) v)) =
       Ok (mk_km F64 (Mat R C) (map (fun u => dd (c_min c) (c_range c) (le_val u)) (chunks n k pl)))).
    { assert (RO : forall g, reshape_ok (map g (chunks n k pl)) R C = Ok (map g (chunks n k pl)) :> res (list elem)).
      { intros g. unfold reshape_ok. rewrite map_length, chunks_len. unfold n.
        assert (0 <= R * C) by nia.
        replace (_ && _) with true by lia. reflexivity. }
      unfold dd, k, code_size in *. destruct (c_fmt c =? 2).
      - change (Z.to_nat 2) with 2%nat in *. rewrite (frombuffer_len 2 n pl) by lia. cbn [bind].
        rewrite RO. reflexivity.
      - change (Z.to_nat 1) with 1%nat in *. rewrite (frombuffer_len 1 n pl) by lia. cbn [bind].
        rewrite RO. reflexivity. }
    rewrite HH. clear HH. eexists. split; [reflexivity|].
    split; [reflexivity|]. split; [reflexivity|]. cbn [k_data].
    split; [rewrite map_length, chunks_len; unfold n; nia|].
    intros i j Hi Hj. unfold elem_at, km_cols. cbn [k_data k_shape].
    erewrite nth_error_map_some by (apply chunks_nth; unfold n; nia).
    unfold decode_elem, code_at. rewrite Nf. cbv zeta. fold k. f_equal.
    unfold dd. destruct (_ =? 2); reflexivity.
Qed.

(** ** Reading a range *)

Definition cm_tok (fmt : Z) : string :=
  if fmt =? 1 then "CM" else if fmt =? 2 then "CM2" else "CM3".

Lemma cm_write_ok c ch pl : cm_parts c ch pl ->
  cm_write c = Ok (list_ascii_of_string (cm_tok (c_fmt c)) ++ [space] ++
    c_min c ++ c_range c ++ le_bytes 4 (c_rows c) ++ le_bytes 4 (c_cols c) ++ ch ++ pl).
Proof.
  intros [Pf Pr Pc Pm Pg Pd Ph Pl]. unfold cm_write, cm_tok. rewrite Pd.
  unfold cm_header. rewrite <- !app_assoc.
  rewrite (skipn_app_exact (le_bytes 4 (c_fmt c))) by (rewrite le_bytes_len; reflexivity).
  destruct Pf as [->|[->| ->]]; cbn [Z.eqb Pos.eqb];
    rewrite write_token_ok by reflexivity; cbn [bind]; rewrite <- app_assoc; reflexivity.
Qed.

(** the column loop *)
Lemma read_cols_ok cols : forall f post r n l acc,
  0 <= r -> 0 <= n -> 0 <= l ->
  Forall (fun col => Z.of_nat (len col) = r + n + l) cols ->
  rest f = concat cols ++ post ->
  exists f', read_cols (len cols) f r n l acc =
    Ok (acc ++ concat (map (fun col => firstn (Z.to_nat n) (skipn (Z.to_nat r) col)) cols), f')
  /\ adv f (len (concat cols)) f'.
Proof.
  induction cols as [|col cols IH]; intros f post r n l acc Hr Hn Hl HF E.
  - cbn. exists f. rewrite app_nil_r. split; [reflexivity|apply adv_refl].
  - inversion HF as [|? ? Lc HF']; subst. cbn [List.length read_cols concat map].
    set (f1 := goto f (f_pos f + Z.to_nat r)).
    assert (H1 : (if 0 <? r then f_seek_cur f r else Ok f) = Ok f1).
    { destruct (0 <? r) eqn:Er.
      - rewrite f_seek_cur_ok by lia. reflexivity.
      - unfold f1. replace (Z.to_nat r) with 0%nat by lia. rewrite Nat.add_0_r. destruct f; reflexivity. }
    rewrite H1. cbn [bind].
    assert (E1 : rest f1 = skipn (Z.to_nat r) col ++ concat cols ++ post).
    { unfold f1. rewrite rest_goto, E. cbn [concat]. rewrite <- app_assoc, skipn_app. f_equal.
      replace (Z.to_nat r - len col)%nat with 0%nat by lia. reflexivity. }
    rewrite f_read_n; [|lia|rewrite E1, app_length, skipn_length; lia].
    cbn [bind]. set (f2 := goto f1 _).
    set (f3 := goto f2 (f_pos f2 + Z.to_nat l)).
    assert (H3 : (if 0 <? l then f_seek_cur f2 l else Ok f2) = Ok f3).
    { destruct (0 <? l) eqn:Er.
      - rewrite f_seek_cur_ok by lia. reflexivity.
      - unfold f3. replace (Z.to_nat l) with 0%nat by lia. rewrite Nat.add_0_r. destruct f2; reflexivity. }
    rewrite H3. cbn [bind].
    assert (A3 : adv f (len col) f3).
    { unfold adv, f3, f2, f1. cbn [goto f_bytes f_buf f_pos]. repeat split. lia. }
    assert (E3 : rest f3 = concat cols ++ post).
    { eapply adv_rest_app; [exact A3|]. rewrite E. cbn [concat]. rewrite <- app_assoc. reflexivity. }
    destruct (IH f3 post r n l (acc ++ firstn (Z.to_nat n) (rest f1)) Hr Hn Hl HF' E3) as (f' & Hread & A').
    rewrite Hread. exists f'. split.
    + rewrite <- app_assoc. do 3 f_equal. f_equal. rewrite E1, firstn_app, skipn_length.
      replace (Z.to_nat n - _)%nat with 0%nat by lia. cbn [firstn]. apply app_nil_r.
    + rewrite app_length. exact (adv_trans _ _ _ _ _ A3 A').
Qed.

(** The coded values of rows r..r+n-1. *)
Definition pl_window (fmt : Z) (R C : Z) (r n : Z) (pl : list byte) : list byte :=
  if fmt =? 1
  then concat (map (fun col => firstn (Z.to_nat n) (skipn (Z.to_nat r) col))
                   (chunks (Z.to_nat C) (Z.to_nat R) pl))
  else firstn (Z.to_nat (n * C * code_size fmt)) (skipn (Z.to_nat (r * C * code_size fmt)) pl).

Lemma pl_window_len fmt R C r n pl : 0 <= r -> 0 <= n -> r + n <= R -> 0 <= C ->
  Z.of_nat (len pl) = code_size fmt * (R * C) -> 
  Z.of_nat (len (pl_window fmt R C r n pl)) = code_size fmt * (n * C).
Proof.
  intros Hr Hn Hle HC Hl. unfold pl_window.
  assert (Hk : 1 <= code_size fmt) by (unfold code_size; destruct (_ =? 2); lia).
  destruct (fmt =? 1) eqn:E.
  - assert (Ek : code_size fmt = 1) by (unfold code_size; replace (fmt =? 2) with false by lia; reflexivity).
    rewrite Ek in *.
    rewrite (concat_len_uniform _ (Z.to_nat n)).
    + rewrite map_length, chunks_len. nia.
    + apply Forall_forall. intros x Hx. apply in_map_iff in Hx. destruct Hx as (col & <- & Hc).
      assert (HF := chunks_forall (Z.to_nat C) (Z.to_nat R) pl). rewrite Forall_forall in HF.
      specialize (HF ltac:(nia) col Hc).
      rewrite firstn_length_le; [reflexivity|]. rewrite skipn_length. lia.
  - rewrite firstn_length_le.
    + rewrite Z2Nat.id by nia. ring.
    + rewrite skipn_length.
      assert (r * C * code_size fmt + n * C * code_size fmt <= R * C * code_size fmt).
      { rewrite <- !Z.mul_add_distr_r. apply Z.mul_le_mono_nonneg_r; [lia|]. nia. }
      assert (0 <= r * C * code_size fmt) by nia. assert (0 <= n * C * code_size fmt) by nia. nia.
Qed.

Lemma code_at_window fmt R C r n pl i j : 0 <= r -> 0 <= n -> r + n <= R -> 0 <= C ->
  Z.of_nat (len pl) = code_size fmt * (R * C) ->
  Z.of_nat i < n -> Z.of_nat j < C ->
  code_at fmt (Z.to_nat n) (Z.to_nat C) (pl_window fmt R C r n pl) i j
  = code_at fmt (Z.to_nat R) (Z.to_nat C) pl (Z.to_nat r + i) j.
Proof.
  intros Hr Hn Hle HC Hl Hi Hj. unfold code_at, pl_window.
  assert (Hk : 1 <= code_size fmt) by (unfold code_size; destruct (_ =? 2); lia).
  destruct (fmt =? 1) eqn:E.
  - assert (Ek : code_size fmt = 1) by (unfold code_size; replace (fmt =? 2) with false by lia; reflexivity).
    rewrite Ek in *.
    set (g := fun col : list byte => firstn (Z.to_nat n) (skipn (Z.to_nat r) col)).
    assert (HF := chunks_forall (Z.to_nat C) (Z.to_nat R) pl ltac:(nia)).
    assert (HF2 : Forall (fun l => len l = Z.to_nat n) (map g (chunks (Z.to_nat C) (Z.to_nat R) pl))).
    { apply Forall_forall. intros x Hx. apply in_map_iff in Hx. destruct Hx as (col & <- & Hc).
      rewrite Forall_forall in HF. specialize (HF col Hc). unfold g.
      rewrite firstn_length_le; [reflexivity|]. rewrite skipn_length. lia. }
    assert (Hb : exists b, nth_error pl (j * Z.to_nat R + (Z.to_nat r + i)) = Some b).
    { destruct (nth_error pl _) eqn:En; [eauto|]. apply nth_error_None in En. exfalso. nia. }
    destruct Hb as [b Hb]. rewrite (firstn1_nth _ _ _ Hb).
    apply firstn1_nth. rewrite (nth_concat_uniform _ _ _ _ HF2) by lia.
    rewrite nth_error_map, chunks_nth by lia. cbn [option_map]. unfold g.
    rewrite nth_error_firstn_skipn by lia. rewrite nth_error_firstn_skipn by lia. exact Hb.
  - set (k := Z.to_nat (code_size fmt)).
    replace (Z.to_nat (n * C * code_size fmt)) with (Z.to_nat n * Z.to_nat C * k)%nat
      by (unfold k; rewrite !Z2Nat.inj_mul by nia; reflexivity).
    replace (Z.to_nat (r * C * code_size fmt)) with (Z.to_nat r * Z.to_nat C * k)%nat
      by (unfold k; rewrite !Z2Nat.inj_mul by nia; reflexivity).
    rewrite firstn_skipn_window.
    + f_equal. f_equal. ring.
    + assert (i * Z.to_nat C + j + 1 <= Z.to_nat n * Z.to_nat C)%nat by nia.
      replace ((i * Z.to_nat C + j) * k + k)%nat with ((i * Z.to_nat C + j + 1) * k)%nat by ring.
      apply Nat.mul_le_mono_r. exact H.
Qed.

Lemma read_info_ok fmt mn rg R C r n :
  1 <= fmt <= 3 -> 0 <= R < 2^31 -> 0 <= C < 2^31 -> len mn = 4%nat -> len rg = 4%nat ->
  0 <= r -> 0 <= n -> r + n <= R ->
  let N := req_rows R r n in let k := code_size fmt in
  get_read_info (cm_header fmt mn rg R C) r n =
    Ok (cm_header fmt mn rg N C, C, (if fmt =? 1 then C * 8 else 0), k * r, k * N, k * (R - r - N)).
Proof.
  intros Hf HR HC Hm Hg Hr Hn Hle N k. unfold get_read_info.
  rewrite unpack_cm_header by assumption. cbn [bind]. rewrite bind_assert_true by lia.
  assert (HN : 0 <= N <= R - r) by (unfold N, req_rows; destruct (n =? 0) eqn:En; lia).
  assert (E1 : (if n =? 0 then Ok (R - r, 0)
      else _ <- assert (n <=? R - r) ;; Ok (n, R - r - n)) = Ok (N, R - r - N)).
  { unfold N, req_rows. destruct (n =? 0) eqn:En.
    - do 2 f_equal. lia.
    - rewrite bind_assert_true by lia. reflexivity. }
  rewrite E1. cbn [bind].
  assert (E2 : forall a : Z * Z * Z * Z,
     (if negb (r =? 0) || negb (n =? 0) then pack_header fmt mn rg N C else Ok (cm_header fmt mn rg R C))
     = Ok (cm_header fmt mn rg N C)).
  { intros _. destruct (negb (r =? 0) || negb (n =? 0)) eqn:Eb.
    - unfold pack_header. rewrite !pack_i_ok by lia. reflexivity.
    - assert (N = R) by (unfold N, req_rows; replace (n =? 0) with true by lia; lia). congruence. }
  unfold k, code_size. destruct Hf as [Hf1 Hf2].
  destruct (fmt =? 1) eqn:F1; [|destruct (fmt =? 2) eqn:F2].
  - assert (fmt =? 2 = false) as -> by lia.
    rewrite E2 by exact (0,0,0,0). cbn [bind]. rewrite !Z.mul_1_l. reflexivity.
  - rewrite E2 by exact (0,0,0,0). cbn [bind]. reflexivity.
  - rewrite E2 by exact (0,0,0,0). cbn [bind]. rewrite !Z.mul_1_l. reflexivity.
Qed.

Lemma read_ctok fmt f post : fmt = 1 \/ fmt = 2 \/ fmt = 3 ->
  rest f = list_ascii_of_string (cm_tok fmt) ++ [space] ++ post ->
  read_token f true = Ok (cm_tok fmt, goto f (f_pos f + (len (list_ascii_of_string (cm_tok fmt)) + 1))) /\
  fmt_of_token (cm_tok fmt) = Ok fmt.
Proof.
  intros Hf E. split.
  - apply (read_token_ok_true (cm_tok fmt) f post); [| |exact E];
      destruct Hf as [->|[->| ->]]; reflexivity.
  - destruct Hf as [->|[->| ->]]; reflexivity.
Qed.

Lemma cm_read_ok c ch pl bs f post r n :
  cm_parts c ch pl -> cm_write c = Ok bs -> rest f = bs ++ post ->
  0 <= r -> 0 <= n -> r + n <= c_rows c ->
  let N := req_rows (c_rows c) r n in
  exists c' f', cm_read f r n = Ok (c', f') /\ adv f (len bs) f' /\
    c_fmt c' = c_fmt c /\ c_min c' = c_min c /\ c_range c' = c_range c /\
    c_rows c' = N /\ c_cols c' = c_cols c /\
    cm_parts c' ch (pl_window (c_fmt c) (c_rows c) (c_cols c) r N pl).
Proof.
  intros P Hw E Hr Hn Hle N. rewrite (cm_write_ok c ch pl P) in Hw.
  assert (X : forall a b : list byte, Ok a = Ok b -> b = a) by congruence. apply X in Hw. clear X.
  pose proof P as [Pf Pr Pc Pm Pg Pd Ph Pl].
  set (R := c_rows c) in *. set (C := c_cols c) in *. set (fmt := c_fmt c) in *.
  set (mn := c_min c) in *. set (rg := c_range c) in *.
  subst bs. rewrite <- !app_assoc in E.
  destruct (read_ctok fmt f _ Pf E) as [Rt Ft].
  unfold cm_read. rewrite Rt. cbn [bind]. rewrite Ft. cbn [bind].
  set (lt := (len (list_ascii_of_string (cm_tok fmt)) + 1)%nat) in *.
  set (f1 := goto f _).
  assert (E1 : rest f1 = (mn ++ rg ++ le_bytes 4 R ++ le_bytes 4 C) ++ ch ++ pl ++ post).
  { unfold f1. rewrite rest_goto, E. rewrite app_assoc. rewrite skipn_app_exact.
    - rewrite <- !app_assoc. reflexivity.
    - rewrite app_length. cbn [List.length]. reflexivity. }
  assert (L16 : len (mn ++ rg ++ le_bytes 4 R ++ le_bytes 4 C) = 16%nat).
  { rewrite !app_length, !le_bytes_len, Pm, Pg. reflexivity. }
  rewrite (f_read_ok f1 16 _ _ E1) by (rewrite L16; reflexivity). cbn [bind].
  rewrite L16. set (f2 := goto f1 _).
  assert (E2 : rest f2 = ch ++ pl ++ post).
  { unfold f2. rewrite rest_goto, E1. apply skipn_app_exact. symmetry. exact L16. }
  change (le_bytes 4 fmt ++ mn ++ rg ++ le_bytes 4 R ++ le_bytes 4 C) with (cm_header fmt mn rg R C).
  assert (Hf : 1 <= fmt <= 3) by lia.
  rewrite read_info_ok by assumption. fold N. cbn [bind].
  set (k := code_size fmt) in *.
  assert (Hk : 1 <= k <= 2) by (unfold k, code_size; destruct (_ =? 2); lia).
  assert (HN : 0 <= N <= R - r) by (unfold N, req_rows; destruct (n =? 0) eqn:En; lia).
  assert (Key : exists f',
    (if (k * r =? 0) && (k * (R - r - N) =? 0) then
       '(d, f) <- f_read f2 ((if fmt =? 1 then C * 8 else 0) + C * (k * N)) ;; Ok (cm_header fmt mn rg N C ++ d, f)
     else if fmt =? 1 then
       '(col_header, f) <- f_read f2 (if fmt =? 1 then C * 8 else 0) ;;
       '(d, f) <- read_cols (Z.to_nat C) f (k * r) (k * N) (k * (R - r - N)) [] ;;
       Ok (cm_header fmt mn rg N C ++ col_header ++ d, f)
     else
       f <- (if 0 <? k * r then f_seek_cur f2 (k * r * C) else Ok f2) ;;
       '(d, f) <- f_read f (k * N * C) ;;
       f <- (if 0 <? k * (R - r - N) then f_seek_cur f (k * (R - r - N) * C) else Ok f) ;;
       Ok (cm_header fmt mn rg N C ++ d, f)) =
    Ok (cm_header fmt mn rg N C ++ ch ++ pl_window fmt R C r N pl, f') /\ adv f2 (len ch + len pl) f').
  { destruct ((k * r =? 0) && (k * (R - r - N) =? 0)) eqn:Efast.
    - assert (r = 0) by nia. assert (N = R) by nia.
      rewrite (f_read_ok f2 _ (ch ++ pl) post).
      + cbn [bind]. eexists. split.
        * do 4 f_equal. f_equal. unfold pl_window. destruct (fmt =? 1) eqn:F1.
          -- assert (Hk1 : k = 1) by (unfold k, code_size; replace (fmt =? 2) with false by lia; reflexivity).
             rewrite H, H0. change (Z.to_nat 0) with 0%nat. cbn [skipn].
             assert (Hid : map (fun col : list byte => firstn (Z.to_nat R) col) (chunks (Z.to_nat C) (Z.to_nat R) pl)
                    = chunks (Z.to_nat C) (Z.to_nat R) pl).
             { rewrite <- map_id. apply map_ext_in. intros a Ha.
               assert (HF := chunks_forall (Z.to_nat C) (Z.to_nat R) pl ltac:(nia)).
               rewrite Forall_forall in HF. specialize (HF a Ha). apply firstn_all2. lia. }
             rewrite Hid. symmetry. apply chunks_concat_id. nia.
          -- fold k. rewrite H, H0. cbn [Z.mul Z.to_nat skipn]. symmetry. apply firstn_all2. nia.
        * unfold adv. cbn [goto f_bytes f_buf f_pos]. rewrite app_length. repeat split.
      + rewrite E2, app_assoc. reflexivity.
      + rewrite app_length, Nat2Z.inj_add, Ph, Pl. destruct (fmt =? 1); nia.
    - destruct (fmt =? 1) eqn:F1.
      + assert (Hk1 : k = 1) by (unfold k, code_size; replace (fmt =? 2) with false by lia; reflexivity).
        rewrite (f_read_ok f2 _ ch (pl ++ post) E2) by lia. cbn [bind].
        set (f3 := goto f2 _).
        set (cols := chunks (Z.to_nat C) (Z.to_nat R) pl).
        assert (Hid : concat cols = pl) by (apply chunks_concat_id; nia).
        assert (E3 : rest f3 = concat cols ++ post).
        { unfold f3. rewrite rest_goto, E2, Hid. apply skipn_app_exact. reflexivity. }
        destruct (read_cols_ok cols f3 post (k * r) (k * N) (k * (R - r - N)) []) as (f' & Hc & A'); try nia.
        { assert (HF := chunks_forall (Z.to_nat C) (Z.to_nat R) pl ltac:(nia)).
          eapply Forall_impl; [|exact HF]. cbn. intros a Ha. nia. }
        { exact E3. }
        assert (Lc : len cols = Z.to_nat C) by apply chunks_len. rewrite Lc in Hc.
        rewrite Hc. cbn [bind app]. exists f'. split.
        * do 4 f_equal. unfold pl_window. rewrite F1. fold cols. rewrite Hk1.
          rewrite !Z.mul_1_l. reflexivity.
        * eapply adv_trans; [|rewrite <- Hid; exact A']. unfold f3. apply adv_goto.
      + assert (Hch : ch = []) by (destruct ch; [reflexivity|simpl in Ph; lia]).
        rewrite Hch in *. cbn [app List.length Nat.add] in *.
        set (f3 := goto f2 (f_pos f2 + Z.to_nat (k * r * C))).
        assert (H3 : (if 0 <? k * r then f_seek_cur f2 (k * r * C) else Ok f2) = Ok f3).
        { destruct (0 <? k * r) eqn:Er.
          - rewrite f_seek_cur_ok by nia. reflexivity.
          - unfold f3. replace (Z.to_nat (k * r * C)) with 0%nat by nia. rewrite Nat.add_0_r. destruct f2; reflexivity. }
        rewrite H3. cbn [bind].
        assert (Htot : k * r * C + k * N * C + k * (R - r - N) * C = k * (R * C)) by ring.
        assert (0 <= k * r * C) by nia. assert (0 <= k * N * C) by nia. assert (0 <= k * (R - r - N) * C) by nia.
        assert (E3 : rest f3 = skipn (Z.to_nat (k * r * C)) pl ++ post).
        { unfold f3. rewrite rest_goto, E2, skipn_app. f_equal.
          replace (Z.to_nat (k * r * C) - len pl)%nat with 0%nat by lia. reflexivity. }
        rewrite f_read_n; [|lia|rewrite E3, app_length, skipn_length; lia].
        cbn [bind]. set (f4 := goto f3 _).
        set (f5 := goto f4 (f_pos f4 + Z.to_nat (k * (R - r - N) * C))).
        assert (H5 : (if 0 <? k * (R - r - N) then f_seek_cur f4 (k * (R - r - N) * C) else Ok f4) = Ok f5).
        { destruct (0 <? k * (R - r - N)) eqn:Er.
          - rewrite f_seek_cur_ok by nia. reflexivity.
          - unfold f5. replace (Z.to_nat (k * (R - r - N) * C)) with 0%nat by nia.
            rewrite Nat.add_0_r. destruct f4; reflexivity. }
        rewrite H5. cbn [bind]. exists f5. split.
        * do 3 f_equal. unfold pl_window. rewrite F1, E3, firstn_app, skipn_length. fold k.
          replace (Z.to_nat (k * N * C) - _)%nat with 0%nat by lia. cbn [firstn]. rewrite app_nil_r.
          f_equal; [f_equal; ring|]. f_equal. f_equal. ring.
        * unfold adv, f5, f4, f3. cbn [goto f_bytes f_buf f_pos]. repeat split. lia. }
  destruct Key as (f' & Key & A'). rewrite Key. cbn [bind].
  rewrite cm_new_header by (assumption || lia). cbn [bind].
  eexists _, f'. split; [reflexivity|]. split.
  { assert (A2 : adv f (lt + 16) f2).
    { unfold f2, f1, adv. cbn [goto f_bytes f_buf f_pos]. repeat split. lia. }
    pose proof (adv_trans _ _ _ _ _ A2 A') as A3.
    replace (len _) with (lt + 16 + (len ch + len pl))%nat; [exact A3|].
    rewrite !app_length, !le_bytes_len, Pm, Pg. cbn [List.length]. unfold lt. lia. }
  cbn [c_fmt c_min c_range c_rows c_cols].
  do 5 (split; [reflexivity|]).
  constructor; cbn [c_fmt c_min c_range c_rows c_cols c_data]; try assumption; try lia.
  - reflexivity.
  - apply pl_window_len; lia.
Qed.

Lemma cm_write_first c ch pl bs : cm_parts c ch pl -> cm_write c = Ok bs ->
  exists l, bs = "C"%char :: l.
Proof.
  intros P Hw. rewrite (cm_write_ok c ch pl P) in Hw.
  assert (X : forall a b : list byte, Ok a = Ok b -> b = a) by congruence. apply X in Hw. clear X.
  destruct P as [Pf _ _ _ _ _ _ _]. rewrite Hw.
  destruct Pf as [->|[->| ->]]; eexists; reflexivity.
Qed.

Lemma km_read_compressed dec c ch pl bs f post r n seq :
  cm_parts c ch pl -> cm_write c = Ok bs -> rest f = bs ++ post ->
  0 <= r -> 0 <= n -> r + n <= c_rows c ->
  exists c' m' f', km_read dec f r n seq = Ok (m', f') /\ adv f (len bs) f' /\
    cm_to_ndarray dec c' = Ok m' /\ c_min c' = c_min c /\ c_range c' = c_range c /\
    c_fmt c' = c_fmt c /\ c_cols c' = c_cols c /\ c_rows c' = req_rows (c_rows c) r n /\
    cm_parts c' ch (pl_window (c_fmt c) (c_rows c) (c_cols c) r (req_rows (c_rows c) r n) pl).
Proof.
  intros P Hw E Hr Hn Hle.
  destruct (cm_write_first _ _ _ _ P Hw) as [l Hl].
  assert (E0 : rest f = "C"%char :: (l ++ post)) by (rewrite E, Hl; reflexivity).
  destruct (peek1 f _ _ E0) as (f0 & P0 & A0).
  destruct (peek1 f0 "C"%char (l ++ post)) as (f1 & P1 & A1); [rewrite (adv0_rest _ _ A0); exact E0|].
  assert (E1 : rest f1 = bs ++ post).
  { rewrite (adv0_rest _ _ A1), (adv0_rest _ _ A0). exact E. }
  destruct (cm_read_ok c ch pl bs f1 post r n P Hw E1 Hr Hn Hle)
    as (c' & f' & Hread & A' & Q1 & Q2 & Q3 & Q4 & Q5 & Q6).
  destruct (expand_spec dec c' _ _ Q6) as (m' & Hm & _).
  exists c', m', f'. unfold km_read. rewrite P0. cbn [bind].
  replace (bytes_eqb ["C"%char] ["C"%char]) with true by reflexivity.
  rewrite P1. cbn [bind]. rewrite Hread. cbn [bind]. rewrite Hm. cbn [bind].
  split; [reflexivity|]. split; [exact (adv_trans0 _ _ _ _ A0 (adv_trans0 _ _ _ _ A1 A'))|].
  auto 10.
Qed.

(** Reading a range of a compressed record gives the rows of the expanded full matrix. *)
Lemma km_read_compressed_rows dec c bs f post r n seq :
  cm_ok c -> cm_write c = Ok bs -> rest f = bs ++ post ->
  0 <= r -> 0 <= n -> r + n <= c_rows c ->
  exists m m' f', cm_to_ndarray dec c = Ok m /\ k_shape m = Mat (c_rows c) (c_cols c) /\
    km_read dec f r n seq = Ok (m', f') /\
    is_row_slice m r (req_rows (c_rows c) r n) m' /\ adv f (len bs) f'.
Proof.
  intros (ch & pl & P) Hw E Hr Hn Hle.
  destruct (km_read_compressed dec c ch pl bs f post r n seq P Hw E Hr Hn Hle)
    as (c' & m' & f' & Hread & A & Hm' & Q1 & Q2 & Q3 & Q4 & Q5 & Q6).
  destruct (expand_spec dec c ch pl P) as (m & Hm & Hd & Hs & Hlen & Hel).
  destruct (expand_spec dec c' _ _ Q6) as (m2 & Hm2 & Hd2 & Hs2 & Hlen2 & Hel2).
  assert (m2 = m') by congruence. subst m2.
  exists m, m', f'. split; [exact Hm|]. split; [exact Hs|]. split; [exact Hread|]. split; [|exact A].
  assert (EC : km_cols m = c_cols c) by (unfold km_cols; rewrite Hs; reflexivity).
  rewrite Q4, Q5 in *. set (N := req_rows (c_rows c) r n) in *.
  assert (HN : 0 <= N <= c_rows c - r).
  { unfold N, req_rows. destruct (n =? 0) eqn:En; lia. }
  pose proof P as [Pf Pr Pc Pm Pg Pd Ph Pl].
  split; [congruence|]. split; [rewrite EC; exact Hs2|]. split; [rewrite EC; exact Hlen2|].
  intros i j Hi Hj. rewrite EC in Hj.
  rewrite (Hel2 i j Hi Hj), (Hel (Z.to_nat r + i)%nat j) by lia.
  rewrite Q1, Q2, Q3. do 2 f_equal. apply code_at_window; lia.
Qed.

Lemma cm_roundtrip c bs f post :
  cm_ok c -> cm_write c = Ok bs -> rest f = bs ++ post ->
  exists f', cm_read f 0 0 = Ok (c, f') /\ adv f (len bs) f'.
Proof.
  intros (ch & pl & P) Hw E. pose proof P as [Pf Pr Pc Pm Pg Pd Ph Pl].
  destruct (cm_read_ok c ch pl bs f post 0 0 P Hw E) as (c' & f' & Hread & A & Q1 & Q2 & Q3 & Q4 & Q5 & Q6); try lia.
  exists f'. split; [|exact A]. rewrite Hread. do 2 f_equal.
  assert (EN : req_rows (c_rows c) 0 0 = c_rows c) by (unfold req_rows; cbn [Z.eqb]; lia).
  rewrite EN in *.
  assert (Hpl : pl_window (c_fmt c) (c_rows c) (c_cols c) 0 (c_rows c) pl = pl).
  { unfold pl_window. change (Z.to_nat 0) with 0%nat. cbn [skipn Z.mul].
    destruct (c_fmt c =? 1) eqn:F1.
    - assert (Hk1 : code_size (c_fmt c) = 1) by (unfold code_size; replace (c_fmt c =? 2) with false by lia; reflexivity).
      rewrite Hk1 in Pl.
      assert (Hid : map (fun col : list byte => firstn (Z.to_nat (c_rows c)) col) (chunks (Z.to_nat (c_cols c)) (Z.to_nat (c_rows c)) pl)
                    = chunks (Z.to_nat (c_cols c)) (Z.to_nat (c_rows c)) pl).
      { rewrite <- map_id. apply map_ext_in. intros a Ha.
        assert (HF := chunks_forall (Z.to_nat (c_cols c)) (Z.to_nat (c_rows c)) pl ltac:(nia)).
        rewrite Forall_forall in HF. specialize (HF a Ha). apply firstn_all2. lia. }
      rewrite Hid. apply chunks_concat_id. nia.
    - apply firstn_all2. nia. }
  rewrite Hpl in Q6. destruct Q6 as [_ _ _ _ _ Pd' _ _].
  destruct c, c'; cbn in *. subst. reflexivity.
Qed.

Lemma cm_read_shape_ok c bs f post seq :
  cm_ok c -> cm_write c = Ok bs -> rest f = bs ++ post ->
  exists f', km_read_shape f seq = Ok (Mat (c_rows c) (c_cols c), f') /\ (seq = true -> adv f (len bs) f').
Proof.
  intros (ch & pl & P) Hw E. pose proof P as [Pf Pr Pc Pm Pg Pd Ph Pl].
  destruct (cm_write_first _ _ _ _ P Hw) as [l Hl].
  assert (E0 : rest f = "C"%char :: (l ++ post)) by (rewrite E, Hl; reflexivity).
  destruct (peek1 f _ _ E0) as (f0 & P0 & A0).
  destruct (peek1 f0 "C"%char (l ++ post)) as (f1 & P1 & A1); [rewrite (adv0_rest _ _ A0); exact E0|].
  assert (E1 : rest f1 = bs ++ post).
  { rewrite (adv0_rest _ _ A1), (adv0_rest _ _ A0). exact E. }
  clear E0 Hl l E.
  unfold km_read_shape. rewrite P0. cbn [bind].
  replace (bytes_eqb ["C"%char] ["C"%char]) with true by reflexivity. rewrite P1. cbn [bind].
  rewrite (cm_write_ok c ch pl P) in Hw.
  assert (X : forall a b : list byte, Ok a = Ok b -> b = a) by congruence. apply X in Hw. clear X.
  set (R := c_rows c) in *. set (C := c_cols c) in *. set (fmt := c_fmt c) in *.
  set (mn := c_min c) in *. set (rg := c_range c) in *.
  subst bs. rewrite <- !app_assoc in E1.
  destruct (read_ctok fmt f1 _ Pf E1) as [Rt Ft].
  unfold cm_read_shape. rewrite Rt. cbn [bind]. rewrite Ft. cbn [bind].
  set (lt := (len (list_ascii_of_string (cm_tok fmt)) + 1)%nat) in *.
  set (f2 := goto f1 _).
  assert (E2 : rest f2 = (mn ++ rg ++ le_bytes 4 R ++ le_bytes 4 C) ++ ch ++ pl ++ post).
  { unfold f2. rewrite rest_goto, E1. rewrite app_assoc. rewrite skipn_app_exact.
    - rewrite <- !app_assoc. reflexivity.
    - rewrite app_length. cbn [List.length]. reflexivity. }
  assert (L16 : len (mn ++ rg ++ le_bytes 4 R ++ le_bytes 4 C) = 16%nat).
  { rewrite !app_length, !le_bytes_len, Pm, Pg. reflexivity. }
  rewrite (f_read_ok f2 16 _ _ E2) by (rewrite L16; reflexivity). cbn [bind].
  rewrite L16. set (f3 := goto f2 _).
  change (le_bytes 4 fmt ++ mn ++ rg ++ le_bytes 4 R ++ le_bytes 4 C) with (cm_header fmt mn rg R C).
  assert (Hf : 1 <= fmt <= 3) by lia.
  rewrite unpack_cm_header by assumption. cbn [bind].
  destruct seq.
  - unfold data_size. rewrite unpack_cm_header by assumption. cbn [bind].
    rewrite cm_header_len by assumption.
    set (sz := if fmt =? 1 then _ else _).
    assert (Hsz : sz - Z.of_nat 20 = Z.of_nat (len ch + len pl)).
    { unfold sz. rewrite Nat2Z.inj_add, Ph, Pl. unfold code_size.
      destruct (fmt =? 1) eqn:F1; [|destruct (fmt =? 2)].
      - replace (fmt =? 2) with false by lia. lia.
      - lia.
      - lia. }
    rewrite Hsz, f_seek_cur_ok by lia. cbn [bind]. eexists. split; [reflexivity|]. intros _.
    apply (adv_trans0 _ _ _ _ A0). apply (adv_trans0 _ _ _ _ A1).
    unfold adv, f3, f2. cbn [goto f_bytes f_buf f_pos]. repeat split.
    rewrite !app_length, !le_bytes_len, Pm, Pg. cbn [List.length]. unfold lt. lia.
  - cbn [bind]. eexists. split; [reflexivity|]. discriminate.
Qed.
