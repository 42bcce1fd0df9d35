(** Lemmas about H5.v: coded values and attributes, row ranges of datasets. *)
From Verif Require Import BaseFacts.
From Verif Require Export KaldiCompProofs H5.
Open Scope list_scope.
Open Scope Z_scope.

Lemma transpose_len r c l : len (transpose_flat r c l) = (r * c)%nat.
Proof.
  unfold transpose_flat. rewrite (concat_len_uniform _ c).
  - rewrite map_length, seq_length. reflexivity.
  - apply Forall_forall. intros x Hx. apply in_map_iff in Hx. destruct Hx as (k & <- & _).
    rewrite map_length, seq_length. reflexivity.
Qed.

Lemma transpose_nth r c l i j : (i < r)%nat -> (j < c)%nat ->
  nth_error (transpose_flat r c l) (i * c + j) = Some (nth (j * r + i) l []).
Proof.
  intros Hi Hj. unfold transpose_flat. rewrite nth_concat_uniform.
  - rewrite (nth_error_map_some _ _ _ i) by (rewrite nth_error_seq by exact Hi; reflexivity).
    rewrite (nth_error_map_some _ _ _ j) by (rewrite nth_error_seq by exact Hj; reflexivity).
    reflexivity.
  - apply Forall_forall. intros x Hx. apply in_map_iff in Hx. destruct Hx as (k & <- & _).
    rewrite map_length, seq_length. reflexivity.
  - exact Hj.
Qed.

Lemma transpose_forall (P : elem -> Prop) r c l : len l = (c * r)%nat -> Forall P l -> Forall P (transpose_flat r c l).
Proof.
  intros L H. apply Forall_concat. apply Forall_forall. intros x Hx. apply in_map_iff in Hx.
  destruct Hx as (i & <- & Hi). apply in_seq in Hi. apply Forall_forall. intros y Hy. apply in_map_iff in Hy.
  destruct Hy as (j & <- & Hj). apply in_seq in Hj. rewrite Forall_forall in H. apply H. apply nth_In. nia.
Qed.

Definition fmt_attrs (c : cm) (ch : list byte) : cattrs :=
  mk_attrs (c_fmt c) (c_min c) (c_range c) (if c_fmt c =? 1 then Some ch else None).

Lemma code_size_nat fmt : (0 < Z.to_nat (code_size fmt))%nat.
Proof. unfold code_size. destruct (fmt =? 2); cbn; lia. Qed.

(** The coded values are laid out by rows. *)
Lemma get_attrs_ok c ch pl : cm_parts c ch pl ->
  exists codes, get_data_attrs c = Ok (codes, fmt_attrs c ch) /\
    Z.of_nat (len codes) = c_rows c * c_cols c /\
    Forall (fun x => len x = Z.to_nat (code_size (c_fmt c))) codes /\
    forall i j, Z.of_nat i < c_rows c -> Z.of_nat j < c_cols c ->
      nth_error codes (i * Z.to_nat (c_cols c) + j)
      = Some (code_at (c_fmt c) (Z.to_nat (c_rows c)) (Z.to_nat (c_cols c)) pl i j).
Proof.
  intros P. destruct P as [Pf Pr Pc Pm Pg Pd Ph Pl].
  unfold get_data_attrs, fmt_attrs, code_at.
  set (R := c_rows c) in *. set (C := c_cols c) in *.
  assert (LH : len (cm_header (c_fmt c) (c_min c) (c_range c) R C) = 20%nat) by (apply cm_header_len; assumption).
  set (H := cm_header _ _ _ _ _) in *.
  set (n := Z.to_nat (R * C)).
  assert (RO : forall (us : list elem) a b, len us = n -> 0 <= a -> 0 <= b -> R * C = a * b -> reshape_ok us a b = Ok us).
  { intros us a b L Ha Hb E. unfold reshape_ok. rewrite L. replace (_ && _) with true by (unfold n; nia). reflexivity. }
  destruct (Z.eqb_spec (c_fmt c) 1) as [F|NF].
  - change (code_size (c_fmt c)) with (if c_fmt c =? 2 then 2 else 1) in *.
    replace (c_fmt c =? 2) with false in * by lia.
    assert (S1 : skipn (Z.to_nat (20 + C * 8)) (c_data c) = pl).
    { rewrite Pd, app_assoc. apply skipn_app_exact. rewrite app_length. lia. }
    assert (S2 : slice (c_data c) 20 (20 + C * 8) = ch).
    { rewrite Pd, slice_app_r, slice_app_l by lia. rewrite LH. apply slice_all. lia. }
    rewrite S1, S2. rewrite (frombuffer_len 1 n pl) by (unfold n; nia). cbn [bind].
    rewrite RO by (rewrite ?chunks_len; nia). cbn [bind]. rewrite F.
    eexists. split; [reflexivity|]. rewrite transpose_len. split; [nia|]. split.
    + apply transpose_forall; [rewrite chunks_len; unfold n; nia|]. apply chunks_forall. unfold n. nia.
    + intros i j Hi Hj. rewrite transpose_nth by lia. f_equal.
      apply nth_default_nth. rewrite chunks_nth by (unfold n; nia). rewrite Nat.mul_1_r. reflexivity.
  - assert (Hch : ch = []) by (destruct ch; [reflexivity|simpl in Ph; lia]). subst ch. cbn [app] in Pd.
    assert (S20 : skipn 20 (c_data c) = pl) by (rewrite Pd; apply skipn_app_exact; symmetry; exact LH).
    rewrite S20. set (k := Z.to_nat (code_size (c_fmt c))).
    pose proof (code_size_nat (c_fmt c)) as Hk. fold k in Hk.
    assert (Lp : len pl = (n * k)%nat) by (unfold n, k; unfold code_size in *; destruct (_ =? 2); nia).
    exists (chunks n k pl). split.
    + unfold k, code_size in *. destruct (Z.eqb_spec (c_fmt c) 2) as [F2|NF2].
      * change (Z.to_nat 2) with 2%nat in *. rewrite (frombuffer_len 2 n pl) by lia. cbn [bind].
        rewrite RO by (rewrite ?chunks_len; nia). cbn [bind]. rewrite F2. reflexivity.
      * change (Z.to_nat 1) with 1%nat in *. rewrite (frombuffer_len 1 n pl) by lia. cbn [bind].
        rewrite RO by (rewrite ?chunks_len; nia). reflexivity.
    + rewrite chunks_len. split; [unfold n; nia|]. split; [apply chunks_forall; lia|].
      intros i j Hi Hj. rewrite chunks_nth by (unfold n; nia). reflexivity.
Qed.

(** Building from coded values. *)
Lemma build_attrs_ok fmt mn rg ch n C codes :
  fmt = 1 \/ fmt = 2 \/ fmt = 3 -> len mn = 4%nat -> len rg = 4%nat ->
  0 <= n < 2 ^ 31 -> 0 <= C < 2 ^ 31 ->
  Z.of_nat (len ch) = (if fmt =? 1 then 8 * C else 0) ->
  Z.of_nat (len codes) = n * C -> Forall (fun x => len x = Z.to_nat (code_size fmt)) codes ->
  exists m' pl', build_from_data_attrs n C codes (mk_attrs fmt mn rg (if fmt =? 1 then Some ch else None)) = Ok m' /\
    cm_parts m' ch pl' /\ c_fmt m' = fmt /\ c_min m' = mn /\ c_range m' = rg /\ c_rows m' = n /\ c_cols m' = C /\
    forall i j, Z.of_nat i < n -> Z.of_nat j < C ->
      Some (code_at fmt (Z.to_nat n) (Z.to_nat C) pl' i j) = nth_error codes (i * Z.to_nat C + j).
Proof.
  intros Hf Hm Hg Hn HC Lch Lc Fc. unfold build_from_data_attrs. cbn [at_fmt at_min at_range at_perc].
  assert (PH : pack_header fmt mn rg n C = Ok (cm_header fmt mn rg n C)).
  { unfold pack_header. rewrite !pack_i_ok by lia. reflexivity. }
  rewrite PH. cbn [bind].
  destruct (Z.eqb_spec fmt 1) as [F|NF].
  - rewrite <- app_assoc. rewrite cm_new_header by (assumption || lia).
    change (code_size fmt) with (if fmt =? 2 then 2 else 1) in *. replace (fmt =? 2) with false in * by lia.
    change (Z.to_nat 1) with 1%nat in *.
    set (t := transpose_flat (Z.to_nat C) (Z.to_nat n) codes).
    assert (Ft : Forall (fun x => len x = 1%nat) t) by (apply transpose_forall; [nia|exact Fc]).
    assert (Lt : len (concat t) = (Z.to_nat C * Z.to_nat n)%nat).
    { rewrite (concat_len_uniform _ 1 Ft). unfold t. rewrite transpose_len. lia. }
    eexists. exists (concat t). split; [reflexivity|]. split; [|repeat split].
    + constructor; cbn [c_fmt c_min c_range c_rows c_cols c_data]; try assumption; try lia.
      * reflexivity.
      * replace (fmt =? 1) with true by lia. exact Lch.
      * unfold code_size. replace (fmt =? 2) with false by lia. nia.
    + intros i j Hi Hj. unfold code_at. replace (fmt =? 1) with true by lia.
      destruct (nth_error codes (i * Z.to_nat C + j)) as [x|] eqn:Ex; [|apply nth_error_None in Ex; nia].
      assert (Lx : len x = 1%nat) by (rewrite Forall_forall in Fc; apply Fc; eapply nth_error_In; exact Ex).
      destruct x as [|b [|? ?]]; try discriminate. f_equal. apply firstn1_nth.
      replace (j * Z.to_nat n + i)%nat with ((j * Z.to_nat n + i) * 1 + 0)%nat by lia.
      rewrite (nth_concat_uniform _ _ _ _ Ft) by lia. unfold t. rewrite transpose_nth by lia.
      rewrite (nth_default_nth _ _ _ _ Ex). reflexivity.
  - rewrite cm_new_header by (assumption || lia).
    assert (Hch : ch = []) by (destruct ch; [reflexivity|simpl in Lch; lia]). subst ch.
    eexists. exists (concat codes). split; [reflexivity|]. split; [|repeat split].
    + constructor; cbn [c_fmt c_min c_range c_rows c_cols c_data]; try assumption; try lia.
      * reflexivity.
      * replace (fmt =? 1) with false by lia. reflexivity.
      * rewrite (concat_len_uniform _ _ Fc). unfold code_size. destruct (fmt =? 2); nia.
    + intros i j Hi Hj. unfold code_at. replace (fmt =? 1) with false by lia. cbv zeta.
      set (k := Z.to_nat (code_size fmt)) in *.
      assert (Hx : (i * Z.to_nat C + j < len codes)%nat) by nia.
      assert (CC : chunks (len codes) k (concat codes) = codes) by (apply chunks_concat; exact Fc).
      rewrite <- CC at 2. rewrite chunks_nth by exact Hx. reflexivity.
Qed.

(** Two payloads with the same codes are equal. *)
Lemma code_at_inj fmt R C pl1 pl2 : 0 <= R -> 0 <= C ->
  Z.of_nat (len pl1) = code_size fmt * (R * C) -> Z.of_nat (len pl2) = code_size fmt * (R * C) ->
  (forall i j, Z.of_nat i < R -> Z.of_nat j < C ->
     code_at fmt (Z.to_nat R) (Z.to_nat C) pl1 i j = code_at fmt (Z.to_nat R) (Z.to_nat C) pl2 i j) -> pl1 = pl2.
Proof.
  intros HR HC L1 L2 H. set (k := Z.to_nat (code_size fmt)). set (n := Z.to_nat (R * C)).
  pose proof (code_size_nat fmt) as Hk. fold k in Hk.
  assert (E1 : len pl1 = (n * k)%nat) by (unfold n, k, code_size in *; destruct (fmt =? 2); nia).
  assert (E2 : len pl2 = (n * k)%nat) by (unfold n, k, code_size in *; destruct (fmt =? 2); nia).
  rewrite <- (chunks_concat_id n k pl1 E1), <- (chunks_concat_id n k pl2 E2). f_equal.
  apply nth_error_ext. intros t.
  destruct (Nat.lt_ge_cases t n) as [Ht|Ht].
  2:{ rewrite !(proj2 (nth_error_None _ t)) by (rewrite chunks_len; exact Ht). reflexivity. }
  rewrite !chunks_nth by exact Ht. f_equal.
  unfold code_at in H. destruct (Z.eqb_spec fmt 1) as [F|NF].
  - assert (k = 1%nat) as -> by (unfold k, code_size; replace (fmt =? 2) with false by lia; reflexivity).
    set (r := Z.to_nat R) in *. assert (r <> 0)%nat by (unfold n in Ht; nia).
    pose proof (Nat.div_mod t r H0) as DM. pose proof (Nat.mod_upper_bound t r H0) as MB.
    specialize (H (t mod r)%nat (t / r)%nat). replace (t / r * r + t mod r)%nat with t in H by lia.
    rewrite Nat.mul_1_r. apply H; [lia|].
    assert (t / r < Z.to_nat C)%nat; [|lia]. apply Nat.div_lt_upper_bound; [lia|]. unfold n in Ht. nia.
  - cbv zeta in H. fold k in H. set (r := Z.to_nat C) in *. assert (r <> 0)%nat by (unfold n in Ht; nia).
    pose proof (Nat.div_mod t r H0) as DM. pose proof (Nat.mod_upper_bound t r H0) as MB.
    specialize (H (t / r)%nat (t mod r)%nat). replace (t / r * r + t mod r)%nat with t in H by lia.
    apply H; [|lia].
    assert (t / r < Z.to_nat R)%nat; [|lia]. apply Nat.div_lt_upper_bound; [lia|]. unfold n in Ht. nia.
Qed.

Lemma attrs_roundtrip c : cm_ok c ->
  exists codes a, get_data_attrs c = Ok (codes, a) /\ build_from_data_attrs (c_rows c) (c_cols c) codes a = Ok c.
Proof.
  intros (ch & pl & P). destruct (get_attrs_ok c ch pl P) as (codes & G & L & F & N).
  exists codes. eexists. split; [exact G|]. pose proof P as [Pf Pr Pc Pm Pg Pd Ph Pl].
  destruct (build_attrs_ok (c_fmt c) (c_min c) (c_range c) ch (c_rows c) (c_cols c) codes)
    as (m' & pl' & B & P' & E1 & E2 & E3 & E4 & E5 & N'); try assumption.
  unfold fmt_attrs. rewrite B. f_equal.
  assert (pl' = pl).
  { apply (code_at_inj (c_fmt c) (c_rows c) (c_cols c)); try lia.
    - pose proof (cp_pl _ _ _ P') as Q. rewrite E1, E4, E5 in Q. exact Q.
    - intros i j Hi Hj. specialize (N' i j Hi Hj). rewrite (N i j Hi Hj) in N'. congruence. }
  subst pl'. pose proof (cp_data _ _ _ P') as Q. rewrite E1, E2, E3, E4, E5, <- Pd in Q.
  destruct c, m'; cbn in *; congruence.
Qed.

(** ** Reading a range *)

(** Positions r .. r+n-1 of the first axis (r .. to the end if n = 0): same type, same other
    axis, the corresponding consecutive elements (C order). *)
Definition ax0_fits (m : km) (r n : Z) : Prop := 0 <= r /\ 0 <= n /\ r + n <= shape0 (k_shape m).
Definition ax0_rows (m : km) (r n : Z) (m' : km) : Prop :=
  let N := if n =? 0 then shape0 (k_shape m) - r else n in
  let w := match k_shape m with Vec _ => 1 | Mat _ c => c end in
  k_dt m' = k_dt m /\
  k_shape m' = (match k_shape m with Vec _ => Vec N | Mat _ c => Mat N c end) /\
  k_data m' = firstn (Z.to_nat (N * w)) (skipn (Z.to_nat (r * w)) (k_data m)).

(** A well formed array: as many elements as the shape says. *)
Definition arr_ok (m : km) : Prop :=
  0 <= shape0 (k_shape m) /\ 0 <= stride (k_shape m) /\
  Z.of_nat (len (k_data m)) = shape0 (k_shape m) * stride (k_shape m).

Lemma d_slice_raw m lo hi : arr_ok m -> 0 <= lo <= hi -> hi <= shape0 (k_shape m) ->
  exists m', d_slice (DRaw m) lo hi = DRaw m' /\ k_dt m' = k_dt m /\
    k_shape m' = (match k_shape m with Vec _ => Vec (hi - lo) | Mat _ c => Mat (hi - lo) c end) /\
    k_data m' = firstn (Z.to_nat ((hi - lo) * stride (k_shape m))) (skipn (Z.to_nat (lo * stride (k_shape m))) (k_data m)).
Proof.
  intros (A1 & A2 & A3) H1 H2. unfold d_slice. cbn [d_shape].
  rewrite (Z.min_l lo) by lia. rewrite (Z.min_l hi) by lia. rewrite (Z.max_r lo hi) by lia.
  eexists. split; [reflexivity|]. cbn [k_dt k_shape k_data]. split; [reflexivity|]. split.
  - unfold with0. destruct (k_shape m); reflexivity.
  - unfold slice. f_equal. f_equal. lia.
Qed.

Lemma read_raw dec m r n : arr_ok m -> ax0_fits m r n ->
  exists m', read_h5_data dec (DRaw m) r n = Ok m' /\ ax0_rows m r n m'.
Proof.
  intros A (Hr & Hn & Hf). unfold read_h5_data. cbn [d_shape].
  assert (SL : forall lo hi N, lo = r -> N = hi - lo -> 0 <= N -> hi <= shape0 (k_shape m) -> (n = 0 \/ N = n) -> N = (if n =? 0 then shape0 (k_shape m) - r else n) ->
    exists m', (m0 <- match d_slice (DRaw m) lo hi with DRaw m0 => Ok m0
         | DCodes r0 c0 codes a => x <- build_from_data_attrs r0 c0 codes a ;; cm_to_ndarray dec x end ;;
       _ <- assert ((n =? 0) || (shape0 (k_shape m0) =? n)) ;; Ok m0) = Ok m' /\ ax0_rows m r n m').
  { intros lo hi N El EN HN Hhi Hor EN2. subst lo.
    destruct (d_slice_raw m r hi A ltac:(lia) Hhi) as (m' & E & D1 & D2 & D3). rewrite E. cbn [bind].
    assert (S0 : shape0 (k_shape m') = N) by (rewrite D2; destruct (k_shape m); cbn [shape0]; lia).
    rewrite S0. replace ((n =? 0) || (N =? n)) with true by lia. cbn [assert bind].
    exists m'. split; [reflexivity|]. unfold ax0_rows. rewrite <- EN2. split; [exact D1|].
    rewrite <- EN in D2, D3. split; [exact D2|exact D3]. }
  destruct (Z.ltb_spec 0 r) as [Pr|Pr].
  - destruct (Z.eqb_spec n 0) as [->|Nn].
    + apply (SL r (shape0 (k_shape m)) (shape0 (k_shape m) - r)); try lia.
    + apply (SL r (r + n) n); try lia; reflexivity.
  - destruct (Z.ltb_spec 0 n) as [Pn|Pn].
    + destruct (SL 0 n n) as (m' & E & Q); try lia.
      { destruct (Z.eqb_spec n 0); lia. }
      exists m'. split; [exact E|exact Q].
    + assert (r = 0) by lia. assert (n = 0) by lia. subst. cbn [bind Z.eqb orb assert].
      exists m. split; [reflexivity|]. unfold ax0_rows. cbn [Z.eqb]. cbv zeta. rewrite Z.sub_0_r, Z.mul_0_l. cbn [Z.to_nat skipn]. split; [reflexivity|]. split; [destruct (k_shape m); reflexivity|].
      destruct A as (A1 & A2 & A3). unfold stride in A3. rewrite <- A3, Nat2Z.id. symmetry. apply firstn_all.
Qed.

Lemma nth_error_slice {A} (l : list A) a b t : 0 <= a -> (t < Z.to_nat (b - a))%nat ->
  nth_error (slice l a b) t = nth_error l (Z.to_nat a + t).
Proof. intros Ha Ht. unfold slice. apply nth_error_firstn_skipn. exact Ht. Qed.

Lemma slice_len {A} (l : list A) a b : 0 <= a <= b -> b <= Z.of_nat (len l) -> Z.of_nat (len (slice l a b)) = b - a.
Proof. intros H1 H2. unfold slice. rewrite firstn_length_le; [lia|]. rewrite skipn_length. lia. Qed.

Lemma Forall_slice {A} (P : A -> Prop) (l : list A) a b : Forall P l -> Forall P (slice l a b).
Proof. intros H. unfold slice. apply Forall_firstn, Forall_skipn, H. Qed.

(** One window of the coded values expands to that window of the rows. *)
Lemma read_window dec c ch pl codes m lo hi : cm_parts c ch pl -> get_data_attrs c = Ok (codes, fmt_attrs c ch) ->
  cm_to_ndarray dec c = Ok m -> 0 <= lo <= hi -> hi <= c_rows c ->
  exists x m', build_from_data_attrs (hi - lo) (c_cols c) (slice codes (lo * c_cols c) (hi * c_cols c)) (fmt_attrs c ch) = Ok x /\
    cm_to_ndarray dec x = Ok m' /\ k_dt m' = k_dt m /\ k_shape m' = Mat (hi - lo) (c_cols c) /\
    k_data m' = firstn (Z.to_nat ((hi - lo) * c_cols c)) (skipn (Z.to_nat (lo * c_cols c)) (k_data m)).
Proof.
  intros P G E Hl Hh. pose proof P as [Pf Pr Pc Pm Pg Pd Ph Pl].
  destruct (get_attrs_ok c ch pl P) as (codes' & G' & L & F & N). rewrite G in G'. injection G' as <-.
  set (C := c_cols c) in *. set (R := c_rows c) in *.
  assert (LW : Z.of_nat (len (slice codes (lo * C) (hi * C))) = (hi - lo) * C).
  { rewrite slice_len; [lia|nia|nia]. }
  destruct (build_attrs_ok (c_fmt c) (c_min c) (c_range c) ch (hi - lo) C (slice codes (lo * C) (hi * C)))
    as (x & pl' & B & P' & E1 & E2 & E3 & E4 & E5 & N'); try assumption; try lia.
  { apply Forall_slice. exact F. }
  destruct (expand_spec dec x ch pl' P') as (m' & X & T1 & T2 & T3 & T4).
  destruct (expand_spec dec c ch pl P) as (m0 & X0 & S1 & S2 & S3 & S4). rewrite E in X0. injection X0 as <-.
  exists x, m'. split; [exact B|]. split; [exact X|]. split; [congruence|]. split; [congruence|].
  rewrite E4, E5 in T3. fold R C in S3.
  apply nth_error_ext. intros t.
  destruct (Nat.lt_ge_cases t (Z.to_nat ((hi - lo) * C))) as [Ht|Ht].
  2:{ rewrite !(proj2 (nth_error_None _ t)); [reflexivity| |].
      - rewrite firstn_length. lia.
      - lia. }
  rewrite nth_error_firstn_skipn by exact Ht.
  set (w := Z.to_nat C). assert (W0 : (w <> 0)%nat) by (unfold w; nia).
  pose proof (Nat.div_mod t w W0) as DM. pose proof (Nat.mod_upper_bound t w W0) as MB.
  set (i := (t / w)%nat) in *. set (j := (t mod w)%nat) in *.
  assert (Hi : Z.of_nat i < hi - lo).
  { assert (t / w < Z.to_nat (hi - lo))%nat; [|unfold i; lia]. apply Nat.div_lt_upper_bound; [exact W0|]. unfold w. nia. }
  assert (Hj : Z.of_nat j < C) by (unfold w in MB; lia).
  rewrite E4, E5, E1, E2, E3 in T4. specialize (T4 i j Hi Hj).
  unfold elem_at, km_cols in T4. rewrite T2, E5 in T4. fold w in T4. replace (i * w + j)%nat with t in T4 by lia. rewrite T4.
  specialize (S4 (Z.to_nat lo + i)%nat j ltac:(fold R; lia) Hj).
  unfold elem_at, km_cols in S4. rewrite S2 in S4. fold C w in S4.
  replace ((Z.to_nat lo + i) * w + j)%nat with (Z.to_nat (lo * C) + t)%nat in S4 by (unfold w in *; nia).
  rewrite S4. do 2 f_equal.
  specialize (N' i j Hi Hj). fold w in N'. replace (i * w + j)%nat with t in N' by lia.
  rewrite nth_error_slice in N' by nia.
  specialize (N (Z.to_nat lo + i)%nat j ltac:(fold R; lia) Hj). fold w in N.
  replace ((Z.to_nat lo + i) * w + j)%nat with (Z.to_nat (lo * C) + t)%nat in N by (unfold w in *; nia).
  rewrite N in N'. fold w R. injection N' as ->. reflexivity.
Qed.

Lemma read_codes dec c codes a m r n : cm_ok c -> get_data_attrs c = Ok (codes, a) ->
  cm_to_ndarray dec c = Ok m -> ax0_fits m r n ->
  exists m', read_h5_data dec (DCodes (c_rows c) (c_cols c) codes a) r n = Ok m' /\ ax0_rows m r n m'.
Proof.
  intros (ch & pl & P) G E (Hr & Hn & Hf).
  destruct (get_attrs_ok c ch pl P) as (codes' & G' & L & F & N). rewrite G in G'. injection G' as <- ->.
  destruct (expand_spec dec c ch pl P) as (m0 & X0 & S1 & S2 & S3 & _). rewrite E in X0. injection X0 as <-.
  rewrite S2 in Hf. cbn [shape0] in Hf. pose proof (cp_rows _ _ _ P) as Pr. pose proof (cp_cols _ _ _ P) as Pc.
  unfold read_h5_data, ax0_rows. rewrite S2. cbn [d_shape shape0].
  set (R := c_rows c) in *. set (C := c_cols c) in *.
  assert (SL : forall hi N, N = hi - r -> 0 <= N -> hi <= R -> (n = 0 \/ N = n) -> N = (if n =? 0 then R - r else n) ->
    exists m', (m0 <- match d_slice (DCodes R C codes (fmt_attrs c ch)) r hi with DRaw m0 => Ok m0
         | DCodes r0 c0 codes a => x <- build_from_data_attrs r0 c0 codes a ;; cm_to_ndarray dec x end ;;
       _ <- assert ((n =? 0) || (shape0 (k_shape m0) =? n)) ;; Ok m0) = Ok m' /\
      k_dt m' = k_dt m /\ k_shape m' = Mat (if n =? 0 then R - r else n) C /\
      k_data m' = firstn (Z.to_nat ((if n =? 0 then R - r else n) * C)) (skipn (Z.to_nat (r * C)) (k_data m))).
  { intros hi N0 EN HN Hhi Hor EN2. unfold d_slice. cbn [d_shape shape0 stride].
    rewrite (Z.min_l r) by lia. rewrite (Z.min_l hi) by lia. rewrite (Z.max_r r hi) by lia.
    destruct (read_window dec c ch pl codes m r hi P G E ltac:(lia) Hhi) as (x & m' & B & X & D1 & D2 & D3).
    fold C in B, D2, D3. rewrite B. cbn [bind]. rewrite X. cbn [bind]. rewrite D2. cbn [shape0].
    replace ((n =? 0) || (hi - r =? n)) with true by lia. cbn [assert bind].
    exists m'. split; [reflexivity|]. rewrite <- EN2, EN. auto. }
  destruct (Z.ltb_spec 0 r) as [Pr0|Pr0].
  - destruct (Z.eqb_spec n 0) as [->|Nn].
    + apply (SL R (R - r)); try lia.
    + apply (SL (r + n) n); try lia.
  - destruct (Z.ltb_spec 0 n) as [Pn|Pn].
    + assert (r = 0) by lia. subst r. apply (SL n n); try lia. destruct (Z.eqb_spec n 0); lia.
    + assert (r = 0) by lia. assert (n = 0) by lia. subst. cbn [bind Z.eqb orb].
      destruct (attrs_roundtrip c (ex_intro _ ch (ex_intro _ pl P))) as (codes2 & a2 & G2 & B2).
      rewrite G in G2. injection G2 as <- <-. fold R C in B2. rewrite B2. cbn [bind]. rewrite E. cbn [bind assert].
      exists m. split; [reflexivity|]. rewrite Z.sub_0_r, Z.mul_0_l. cbn [Z.to_nat skipn].
      split; [reflexivity|]. split; [exact S2|]. fold R C in S3. rewrite <- S3, Nat2Z.id. symmetry. apply firstn_all.
Qed.
