(** Error bounds and monotonicity of the compressed formats. *)
From Verif Require Import BaseFacts.
From Verif Require Export KaldiCodec.
Open Scope Q_scope.

Lemma qltb_lt x y : qltb x y = true <-> x < y.
Proof.
  unfold qltb. rewrite negb_true_iff. rewrite <- not_true_iff_false, Qle_bool_iff.
  split; [apply Qnot_le_lt | apply Qlt_not_le].
Qed.
Lemma qltb_ge x y : qltb x y = false <-> y <= x.
Proof.
  unfold qltb. rewrite negb_false_iff, Qle_bool_iff. reflexivity.
Qed.
Lemma Qle_bool_false x y : Qle_bool x y = false <-> y < x.
Proof.
  rewrite <- not_true_iff_false, Qle_bool_iff. split; [apply Qnot_le_lt | apply Qlt_not_le].
Qed.

Lemma fold_qmin_le l : forall x, fold_left qmin l x <= x /\ (forall y, In y l -> fold_left qmin l x <= y).
Proof.
  induction l as [|a l IH]; intros x; simpl; [split; [lra|tauto]|].
  destruct (IH (qmin x a)) as [H1 H2]. 
  assert (qmin x a <= x /\ qmin x a <= a) as [Ha Hb].
  { unfold qmin. destruct (Qle_bool x a) eqn:E; [apply Qle_bool_iff in E|apply Qle_bool_false in E]; split; lra. }
  split; [lra|]. intros y [->|Hy]; [lra|auto].
Qed.
Lemma fold_qmin_in l : forall x, In (fold_left qmin l x) (x :: l).
Proof.
  induction l as [|a l IH]; intros x; cbn [fold_left]; [left; reflexivity|].
  specialize (IH (qmin x a)). destruct IH as [H|H]; [|right; right; exact H].
  rewrite <- H. unfold qmin. destruct (Qle_bool x a); [left|right; left]; reflexivity.
Qed.
Lemma fold_qmax_ge l : forall x, x <= fold_left qmax l x /\ (forall y, In y l -> y <= fold_left qmax l x).
Proof.
  induction l as [|a l IH]; intros x; simpl; [split; [lra|tauto]|].
  destruct (IH (qmax x a)) as [H1 H2].
  assert (x <= qmax x a /\ a <= qmax x a) as [Ha Hb].
  { unfold qmax. destruct (Qle_bool x a) eqn:E; [apply Qle_bool_iff in E|apply Qle_bool_false in E]; split; lra. }
  split; [lra|]. intros y [->|Hy]; [lra|auto].
Qed.

Lemma np_min_spec l m : np_min l = Ok m -> In m l /\ forall x, In x l -> m <= x.
Proof.
  destruct l as [|a l]; [discriminate|]. cbn. intros H. injection H as <-.
  split; [apply fold_qmin_in|]. destruct (fold_qmin_le l a) as [P Q].
  intros x [E|Hx]; [subst x; exact P|exact (Q x Hx)].
Qed.
Lemma np_max_spec l m : np_max l = Ok m -> forall x, In x l -> x <= m.
Proof.
  destruct l as [|a l]; [discriminate|]. cbn. intros H. injection H as <-.
  destruct (fold_qmax_ge l a) as [P Q].
  intros x [E|Hx]; [subst x; exact P|exact (Q x Hx)].
Qed.

(** The automatic methods cover the matrix. *)
Lemma auto_range m mat mn rg : m = SpeechFeat \/ m = Auto2 \/ m = Auto1 ->
  global_range m mat = Ok (mn, rg) ->
  0 < rg /\ In mn mat /\ forall x, In x mat -> mn <= x <= mn + rg.
Proof.
  intros Hm H.
  assert (H' : (mn <- np_min mat ;; mx <- np_max mat ;;
      let mx := if Qeq_bool mx mn then mn + 1 + Qabs mn else mx in
      _ <- assert (qltb 0 (mx - mn)) ;; Ok (mn, mx - mn)) = Ok (mn, rg)).
  { destruct Hm as [->|[->| ->]]; exact H. }
  clear H Hm. destruct (np_min mat) as [a|] eqn:Ea; [|discriminate].
  destruct (np_max mat) as [b|] eqn:Eb; [|discriminate]. cbn [bind] in H'.
  destruct (np_min_spec _ _ Ea) as [I1 I2]. pose proof (np_max_spec _ _ Eb) as I3.
  set (c := if Qeq_bool b a then a + 1 + Qabs a else b) in *. cbv zeta in H'.
  destruct (qltb 0 (c - a)) eqn:Ec; cbn [assert bind] in H'; [|discriminate].
  injection H' as <- <-. apply qltb_lt in Ec. split; [exact Ec|]. split; [exact I1|].
  intros x Hx. split; [auto|]. specialize (I3 x Hx).
  assert (b <= c). { unfold c. destruct (Qeq_bool b a) eqn:E; [|lra].
    apply Qeq_bool_iff in E. pose proof (Qabs_nonneg a). lra. }
  lra.
Qed.

(** and succeed on every non-empty matrix *)
Lemma auto_range_total m mat : m = SpeechFeat \/ m = Auto2 \/ m = Auto1 -> mat <> [] ->
  exists mn rg, global_range m mat = Ok (mn, rg).
Proof.
  intros Hm Hne.
  assert (H : exists mn rg, (mn <- np_min mat ;; mx <- np_max mat ;;
      let mx := if Qeq_bool mx mn then mn + 1 + Qabs mn else mx in
      _ <- assert (qltb 0 (mx - mn)) ;; Ok (mn, mx - mn)) = Ok (mn, rg)).
  { destruct (np_min mat) as [a|] eqn:Ea; [|destruct mat; [congruence|discriminate]].
    destruct (np_max mat) as [b|] eqn:Eb; [|destruct mat; [congruence|discriminate]].
    destruct (np_min_spec _ _ Ea) as [I1 I2]. pose proof (np_max_spec _ _ Eb _ I1) as I3.
    cbn [bind]. set (c := if Qeq_bool b a then a + 1 + Qabs a else b). cbv zeta.
    assert (Hc : qltb 0 (c - a) = true).
    { apply qltb_lt. unfold c. destruct (Qeq_bool b a) eqn:E.
      - pose proof (Qabs_nonneg a). lra.
      - apply Qeq_bool_neq in E. assert (a < b).
        { apply Qle_lteq in I3. destruct I3 as [I3|I3]; [exact I3|]. exfalso. apply E. symmetry. exact I3. }
        lra. }
    rewrite Hc. cbn. eauto. }
  destruct H as (mn & rg & H). exists mn, rg. destruct Hm as [->|[->| ->]]; exact H.
Qed.

Lemma clamp01_id f : 0 <= f <= 1 -> clamp01 f = f.
Proof.
  intros [A B]. unfold clamp01.
  destruct (qltb 1 f) eqn:E1; [apply qltb_lt in E1; lra|].
  destruct (qltb f 0) eqn:E2; [apply qltb_lt in E2; lra|]. reflexivity.
Qed.
Lemma clamp01_range f : 0 <= clamp01 f <= 1.
Proof.
  unfold clamp01. destruct (qltb 1 f) eqn:E1.
  - destruct (qltb 1 0) eqn:E2; [apply qltb_lt in E2|]; split; lra.
  - apply qltb_ge in E1. destruct (qltb f 0) eqn:E2; [|apply qltb_ge in E2]; split; lra.
Qed.

Lemma Qfloor_bounds x : inject_Z (Qfloor x) <= x /\ x < inject_Z (Qfloor x) + 1.
Proof.
  split; [apply Qfloor_le|]. pose proof (Qlt_floor x) as H.
  rewrite inject_Z_plus in H. exact H.
Qed.

Lemma inject_Z_le a b : (a <= b)%Z -> inject_Z a <= inject_Z b.
Proof. rewrite <- Zle_Qle. auto. Qed.
Lemma inject_Z_le_inv a b : inject_Z a <= inject_Z b -> (a <= b)%Z.
Proof. rewrite Zle_Qle. auto. Qed.
Lemma inject_Z_lt_inv a b : inject_Z a < inject_Z b -> (a < b)%Z.
Proof. rewrite Zlt_Qlt. auto. Qed.

(** codes fit their types *)
Lemma uint16_range mn rg x : (0 <= float_to_uint16 mn rg x <= 65535)%Z.
Proof.
  unfold float_to_uint16. pose proof (clamp01_range ((x - mn) / rg)) as [A B].
  set (f := clamp01 _) in *. clearbody f.
  pose proof (Qfloor_bounds (f * (65535 # 1) + (499 # 1000))) as [C D].
  set (u := Qfloor _) in *. clearbody u. split.
  - assert (H : inject_Z (-1) < inject_Z u) by (change (inject_Z (-1)) with (-1 # 1); lra).
    apply inject_Z_lt_inv in H. lia.
  - assert (H : inject_Z u < inject_Z 65536) by (change (inject_Z 65536) with (65536 # 1); lra).
    apply inject_Z_lt_inv in H. lia.
Qed.
Lemma uint8_range mn rg x : (0 <= float_to_uint8 mn rg x <= 255)%Z.
Proof.
  unfold float_to_uint8. pose proof (clamp01_range ((x - mn) / rg)) as [A B].
  set (f := clamp01 _) in *. clearbody f.
  pose proof (Qfloor_bounds (f * (255 # 1) + (499 # 1000))) as [C D].
  set (u := Qfloor _) in *. clearbody u. split.
  - assert (H : inject_Z (-1) < inject_Z u) by (change (inject_Z (-1)) with (-1 # 1); lra).
    apply inject_Z_lt_inv in H. lia.
  - assert (H : inject_Z u < inject_Z 256) by (change (inject_Z 256) with (256 # 1); lra).
    apply inject_Z_lt_inv in H. lia.
Qed.

Lemma ratio_range mn rg x : 0 < rg -> mn <= x <= mn + rg -> 0 <= (x - mn) / rg <= 1.
Proof.
  intros Hr [A B]. split.
  - apply Qle_shift_div_l; lra.
  - apply Qle_shift_div_r; lra.
Qed.
Lemma ratio_mul mn rg x : 0 < rg -> x == mn + rg * ((x - mn) / rg).
Proof. intros Hr. field. intros E. rewrite E in Hr. discriminate. Qed.

Lemma k16_bounds : k16 * (65535 # 1) <= 1 /\ 1 - (15 # 10000000000000000) <= k16 * (65535 # 1) /\ 0 < k16.
Proof. unfold k16. repeat split; vm_compute; congruence. Qed.

Lemma mul_le_pos a x y : 0 < a -> x <= y -> a * x <= a * y.
Proof. intros Ha H. rewrite !(Qmult_comm a). apply Qmult_le_compat_r; lra. Qed.

(** 2-byte codes: range and error of one element *)
Lemma codec16 mn rg x : 0 < rg -> mn <= x <= mn + rg ->
  let y := uint16_to_float mn rg (float_to_uint16 mn rg x) in
  mn <= y <= mn + rg /\
  Qabs (y - x) <= rg * ((501 # 1000) / (65535 # 1) + (15 # 10000000000000000)).
Proof.
  intros Hr Hx y. subst y.
  pose proof (uint16_range mn rg x) as [U0 U1].
  unfold uint16_to_float. unfold float_to_uint16 in *.
  pose proof (ratio_range mn rg x Hr Hx) as Hf. rewrite clamp01_id in * by exact Hf.
  pose proof (ratio_mul mn rg x Hr) as Ex.
  set (f := (x - mn) / rg) in *. clearbody f.
  pose proof (Qfloor_bounds (f * (65535 # 1) + (499 # 1000))) as [C D].
  set (u := Qfloor _) in *. clearbody u.
  apply inject_Z_le in U0, U1. change (inject_Z 0) with 0 in U0. change (inject_Z 65535) with (65535 # 1) in U1.
  set (v := inject_Z u) in *. clearbody v. clear u.
  destruct k16_bounds as (K1 & K2 & K3).
  assert (B1 : 0 <= k16 * v) by (unfold k16 in *; lra).
  assert (B2 : k16 * v <= 1) by (unfold k16 in *; lra).
  split.
  - split.
    + pose proof (mul_le_pos rg 0 (k16 * v) Hr B1). lra.
    + pose proof (mul_le_pos rg (k16 * v) 1 Hr B2). lra.
  - set (B := (501 # 1000) / (65535 # 1) + (15 # 10000000000000000)).
    assert (EB : B == (501 # 65535000) + (15 # 10000000000000000)) by reflexivity.
    apply Qabs_Qle_condition.
    assert (G1 : k16 * v - f <= B) by (rewrite EB; unfold k16; lra).
    assert (G2 : - B <= k16 * v - f) by (rewrite EB; unfold k16; lra).
    pose proof (mul_le_pos rg _ _ Hr G1). pose proof (mul_le_pos rg _ _ Hr G2).
    rewrite Ex. split; lra.
Qed.

Lemma codec8 mn rg x : 0 < rg -> mn <= x <= mn + rg ->
  let y := uint8_to_float mn rg (float_to_uint8 mn rg x) in
  mn <= y <= mn + rg /\ Qabs (y - x) <= rg * ((501 # 1000) / (255 # 1)).
Proof.
  intros Hr Hx y. subst y.
  pose proof (uint8_range mn rg x) as [U0 U1].
  unfold uint8_to_float. unfold float_to_uint8 in *.
  pose proof (ratio_range mn rg x Hr Hx) as Hf. rewrite clamp01_id in * by exact Hf.
  pose proof (ratio_mul mn rg x Hr) as Ex.
  set (f := (x - mn) / rg) in *. clearbody f.
  pose proof (Qfloor_bounds (f * (255 # 1) + (499 # 1000))) as [C D].
  set (u := Qfloor _) in *. clearbody u.
  apply inject_Z_le in U0, U1. change (inject_Z 0) with 0 in U0. change (inject_Z 255) with (255 # 1) in U1.
  set (v := inject_Z u) in *. clearbody v. clear u.
  assert (Ey : rg / (255 # 1) * v == rg * (v * (1 # 255))) by (field).
  rewrite Ey.
  assert (B1 : 0 <= v * (1 # 255)) by lra.
  assert (B2 : v * (1 # 255) <= 1) by lra.
  split.
  - split.
    + pose proof (mul_le_pos rg 0 _ Hr B1). lra.
    + pose proof (mul_le_pos rg _ 1 Hr B2). lra.
  - assert (EB : (501 # 1000) / (255 # 1) == 501 # 255000) by reflexivity.
    rewrite EB. apply Qabs_Qle_condition.
    assert (G1 : v * (1 # 255) - f <= 501 # 255000) by lra.
    assert (G2 : - (501 # 255000) <= v * (1 # 255) - f) by lra.
    pose proof (mul_le_pos rg _ _ Hr G1). pose proof (mul_le_pos rg _ _ Hr G2).
    rewrite Ex. split; lra.
Qed.

Lemma Qfloor_mono x y : x <= y -> (Qfloor x <= Qfloor y)%Z.
Proof. apply Qfloor_resp_le. Qed.

Lemma clamp01_mono f g : f <= g -> clamp01 f <= clamp01 g.
Proof.
  intros H. unfold clamp01.
  destruct (qltb 1 f) eqn:E1; destruct (qltb 1 g) eqn:E2;
    repeat match goal with
    | H : qltb _ _ = true |- _ => apply qltb_lt in H
    | H : qltb _ _ = false |- _ => apply qltb_ge in H
    end.
  - destruct (qltb 1 0); lra.
  - lra.
  - destruct (qltb f 0) eqn:E3; destruct (qltb 1 0) eqn:E4;
    repeat match goal with
    | H : qltb _ _ = true |- _ => apply qltb_lt in H
    | H : qltb _ _ = false |- _ => apply qltb_ge in H
    end; lra.
  - destruct (qltb f 0) eqn:E3; destruct (qltb g 0) eqn:E4;
    repeat match goal with
    | H : qltb _ _ = true |- _ => apply qltb_lt in H
    | H : qltb _ _ = false |- _ => apply qltb_ge in H
    end; lra.
Qed.

Lemma codec16_mono mn rg x x' : 0 < rg -> x <= x' ->
  uint16_to_float mn rg (float_to_uint16 mn rg x) <= uint16_to_float mn rg (float_to_uint16 mn rg x').
Proof.
  intros Hr H. unfold uint16_to_float, float_to_uint16.
  assert (Hd : (x - mn) / rg <= (x' - mn) / rg).
  { unfold Qdiv. apply Qmult_le_compat_r; [lra|]. apply Qlt_le_weak, Qinv_lt_0_compat, Hr. }
  apply clamp01_mono in Hd.
  assert (Hz := Qfloor_mono (clamp01 ((x - mn) / rg) * (65535 # 1) + (499 # 1000))
                            (clamp01 ((x' - mn) / rg) * (65535 # 1) + (499 # 1000)) ltac:(lra)).
  apply inject_Z_le in Hz.
  set (u := inject_Z (Qfloor (_ ((x - mn) / rg) * _ + _))) in *.
  set (u' := inject_Z (Qfloor (_ ((x' - mn) / rg) * _ + _))) in *.
  assert (k16 * u <= k16 * u') by (unfold k16; lra).
  pose proof (mul_le_pos rg _ _ Hr H0). lra.
Qed.

Lemma codec8_mono mn rg x x' : 0 < rg -> x <= x' ->
  uint8_to_float mn rg (float_to_uint8 mn rg x) <= uint8_to_float mn rg (float_to_uint8 mn rg x').
Proof.
  intros Hr H. unfold uint8_to_float, float_to_uint8.
  assert (Hd : (x - mn) / rg <= (x' - mn) / rg).
  { unfold Qdiv. apply Qmult_le_compat_r; [lra|]. apply Qlt_le_weak, Qinv_lt_0_compat, Hr. }
  apply clamp01_mono in Hd.
  assert (Hz := Qfloor_mono (clamp01 ((x - mn) / rg) * (255 # 1) + (499 # 1000))
                            (clamp01 ((x' - mn) / rg) * (255 # 1) + (499 # 1000)) ltac:(lra)).
  apply inject_Z_le in Hz.
  set (u := inject_Z (Qfloor (_ ((x - mn) / rg) * _ + _))) in *.
  set (u' := inject_Z (Qfloor (_ ((x' - mn) / rg) * _ + _))) in *.
  assert (Ey : forall v, rg / (255 # 1) * v == rg * (v * (1 # 255))) by (intros; field).
  rewrite !Ey.
  assert (u * (1 # 255) <= u' * (1 # 255)) by lra.
  pose proof (mul_le_pos rg _ _ Hr H0). lra.
Qed.

Lemma codec16_min mn rg : 0 < rg -> uint16_to_float mn rg (float_to_uint16 mn rg mn) == mn.
Proof.
  intros Hr. unfold float_to_uint16.
  assert (E : (mn - mn) / rg == 0) by (unfold Qdiv; ring).
  rewrite clamp01_id by (rewrite E; lra).
  assert (F : Qfloor ((mn - mn) / rg * (65535 # 1) + (499 # 1000)) = Qfloor (499 # 1000)).
  { apply Qfloor_comp. rewrite E. reflexivity. }
  rewrite F. change (Qfloor (499 # 1000)) with 0%Z. unfold uint16_to_float.
  change (inject_Z 0) with 0. ring.
Qed.
Lemma codec8_min mn rg : 0 < rg -> uint8_to_float mn rg (float_to_uint8 mn rg mn) == mn.
Proof.
  intros Hr. unfold float_to_uint8.
  assert (E : (mn - mn) / rg == 0) by (unfold Qdiv; ring).
  rewrite clamp01_id by (rewrite E; lra).
  assert (F : Qfloor ((mn - mn) / rg * (255 # 1) + (499 # 1000)) = Qfloor (499 # 1000)).
  { apply Qfloor_comp. rewrite E. reflexivity. }
  rewrite F. change (Qfloor (499 # 1000)) with 0%Z. unfold uint8_to_float.
  change (inject_Z 0) with 0. ring.
Qed.

(** integers with the unsigned-byte method are exact *)
Lemma codec_uint1 (k : Z) : (0 <= k <= 255)%Z ->
  float_to_uint8 0 (255 # 1) (inject_Z k) = k /\ uint8_to_float 0 (255 # 1) k == inject_Z k.
Proof.
  intros [A B]. pose proof (inject_Z_le _ _ A) as A'. pose proof (inject_Z_le _ _ B) as B'.
  change (inject_Z 0) with 0 in A'. change (inject_Z 255) with (255 # 1) in B'.
  split.
  - unfold float_to_uint8.
    assert (E : (inject_Z k - 0) / (255 # 1) == inject_Z k * (1 # 255)) by field.
    rewrite clamp01_id by (rewrite E; lra).
    assert (F : Qfloor ((inject_Z k - 0) / (255 # 1) * (255 # 1) + (499 # 1000)) = Qfloor (inject_Z k + (499 # 1000))).
    { apply Qfloor_comp. rewrite E. field. }
    rewrite F. clear F. pose proof (Qfloor_bounds (inject_Z k + (499 # 1000))) as [C D].
    set (u := Qfloor (inject_Z k + (499 # 1000))) in *. clearbody u.
    assert (inject_Z u < inject_Z (k + 1)) by (rewrite inject_Z_plus; change (inject_Z 1) with 1; lra).
    assert (inject_Z (k - 1) < inject_Z u).
    { replace (k - 1)%Z with (k + -1)%Z by lia. rewrite inject_Z_plus. change (inject_Z (-1)) with (-1#1). lra. }
    apply inject_Z_lt_inv in H, H0. lia.
  - unfold uint8_to_float. field.
Qed.

(** ** Speech-feature columns *)

Lemma get_item_ok {A} (l : list A) i : (- Z.of_nat (List.length l) <= i < Z.of_nat (List.length l))%Z ->
  exists x, get_item l i = Ok x.
Proof.
  intros H. unfold get_item, py_index.
  destruct ((0 <=? i) && (i <? Z.of_nat (List.length l)))%Z eqn:E1.
  - destruct (nth_error l (Z.to_nat i)) eqn:En; [eauto|]. apply nth_error_None in En. lia.
  - replace ((- Z.of_nat (List.length l) <=? i) && (i <? 0))%Z with true by lia.
    destruct (nth_error l (Z.to_nat (Z.of_nat (List.length l) + i))) eqn:En; [eauto|].
    apply nth_error_None in En. lia.
Qed.

Lemma qinsert_len x l : List.length (qinsert x l) = S (List.length l).
Proof. induction l; simpl; [reflexivity|]. destruct (Qle_bool x a); simpl; lia. Qed.
Lemma qsort_len l : List.length (qsort l) = List.length l.
Proof. induction l; simpl; [reflexivity|]. rewrite qinsert_len, IHl. reflexivity. Qed.

Lemma column_header_ok mn rg v : v <> [] ->
  exists a b c d, column_header mn rg v = Ok (a, b, c, d) /\
    (0 <= a)%Z /\ (a < b)%Z /\ (b < c)%Z /\ (c < d)%Z /\ (d <= 65535)%Z.
Proof.
  intros Hne.
  assert (Hlen : (1 <= Z.of_nat (List.length v))%Z) by (destruct v; [congruence|simpl; lia]).
  unfold column_header. set (n := Z.of_nat (List.length v)) in *.
  assert (Q : forall i, (- n <= i < n)%Z -> exists u, (x <- get_item (qsort v) i ;; Ok (float_to_uint16 mn rg x)) = Ok u
       /\ (0 <= u <= 65535)%Z).
  { intros i Hi. destruct (get_item_ok (qsort v) i) as [x Hx]; [rewrite qsort_len; exact Hi|].
    rewrite Hx. cbn [bind]. eexists. split; [reflexivity|apply uint16_range]. }
  destruct (5 <=? n)%Z eqn:E5.
  - destruct (Q 0%Z) as (u0 & -> & U0); [lia|]. cbn [bind].
    destruct (Q (n / 4)%Z) as (u1 & -> & U1); [lia|]. cbn [bind].
    destruct (Q (3 * (n / 4))%Z) as (u2 & -> & U2); [lia|]. cbn [bind].
    destruct (Q (-1)%Z) as (u3 & -> & U3); [lia|]. cbn [bind].
    do 4 eexists. split; [reflexivity|]. lia.
  - destruct (Q 0%Z) as (u0 & -> & U0); [lia|]. cbn [bind].
    destruct (1 <? n)%Z eqn:E1.
    + destruct (Q 1%Z) as (u1 & -> & U1); [lia|]. cbn [bind].
      destruct (2 <? n)%Z eqn:E2.
      * destruct (Q 2%Z) as (u2 & -> & U2); [lia|]. cbn [bind].
        destruct (3 <? n)%Z eqn:E3.
        -- destruct (Q 3%Z) as (u3 & -> & U3); [lia|]. cbn [bind].
           do 4 eexists. split; [reflexivity|]. lia.
        -- cbn [bind]. do 4 eexists. split; [reflexivity|]. lia.
      * cbn [bind]. replace (3 <? n)%Z with false by lia. cbn [bind].
        do 4 eexists. split; [reflexivity|]. lia.
    + cbn [bind]. replace (2 <? n)%Z with false by lia. replace (3 <? n)%Z with false by lia. cbn [bind].
      do 4 eexists. split; [reflexivity|]. lia.
Qed.

Lemma uint16_strict mn rg a b : 0 < rg -> (a < b)%Z -> uint16_to_float mn rg a < uint16_to_float mn rg b.
Proof.
  intros Hr H. unfold uint16_to_float.
  assert (H1 : inject_Z a < inject_Z b) by (rewrite <- Zlt_Qlt; exact H).
  assert (H2 : 0 < rg * k16). { destruct k16_bounds as (_ & _ & K). apply Qmult_lt_0_compat; assumption. }
  assert (H3 : rg * k16 * inject_Z a < rg * k16 * inject_Z b).
  { rewrite !(Qmult_comm (rg * k16)). apply Qmult_lt_compat_r; assumption. }
  lra.
Qed.

Lemma char_to_float_strict p0 p25 p75 p100 a b :
  p0 < p25 -> p25 < p75 -> p75 < p100 -> (0 <= a)%Z -> (a < b)%Z -> (b <= 255)%Z ->
  char_to_float p0 p25 p75 p100 a < char_to_float p0 p25 p75 p100 b.
Proof.
  intros H1 H2 H3 A AB B. unfold char_to_float.
  assert (Q0 : inject_Z 0 <= inject_Z a) by (apply inject_Z_le; exact A). change (inject_Z 0) with 0 in Q0.
  assert (Q1 : inject_Z a < inject_Z b) by (rewrite <- Zlt_Qlt; exact AB).
  assert (Q2 : inject_Z b <= inject_Z 255) by (apply inject_Z_le; exact B). change (inject_Z 255) with (255#1) in Q2.
  assert (S : forall k, ((a <= k)%Z -> inject_Z a <= inject_Z k) /\ ((b <= k)%Z -> inject_Z b <= inject_Z k) /\
      ((k < a)%Z -> inject_Z k < inject_Z a) /\ ((k < b)%Z -> inject_Z k < inject_Z b)).
  { intros k. repeat split; intros; try (apply inject_Z_le; assumption); rewrite <- Zlt_Qlt; assumption. }
  pose proof (S 64%Z) as (A1 & B1 & A2 & B2). pose proof (S 192%Z) as (A3 & B3 & A4 & B4). clear S.
  change (inject_Z 64) with (64#1) in *. change (inject_Z 192) with (192#1) in *.
  set (x := inject_Z a) in *. set (y := inject_Z b) in *.
  assert (F1 : forall v, p0 + (p25 - p0) * v / (64 # 1) == p0 + (p25 - p0) * (v * (1#64))) by (intros; field).
  assert (F2 : forall v, p25 + (p75 - p25) * (v - (64 # 1)) / (128 # 1) == p25 + (p75 - p25) * ((v - (64#1)) * (1#128))) by (intros; field).
  assert (F3 : forall v, p75 + (p100 - p75) * (v - (192 # 1)) / (63 # 1) == p75 + (p100 - p75) * ((v - (192#1)) * (1#63))) by (intros; field).
  destruct (a <=? 64)%Z eqn:Ea; [|destruct (a <=? 192)%Z eqn:Ea2].
  - specialize (A1 ltac:(lia)). destruct (b <=? 64)%Z eqn:Eb; [|destruct (b <=? 192)%Z eqn:Eb2].
    + rewrite !F1. nra.
    + specialize (B2 ltac:(lia)). rewrite F1, F2. nra.
    + specialize (B4 ltac:(lia)). rewrite F1, F3. nra.
  - specialize (A2 ltac:(lia)). specialize (A3 ltac:(lia)).
    destruct (b <=? 64)%Z eqn:Eb; [lia|destruct (b <=? 192)%Z eqn:Eb2].
    + rewrite !F2. nra.
    + specialize (B4 ltac:(lia)). rewrite F2, F3. nra.
  - specialize (A4 ltac:(lia)). destruct (b <=? 64)%Z eqn:Eb; [lia|destruct (b <=? 192)%Z eqn:Eb2; [lia|]].
    rewrite !F3. nra.
Qed.

(** *** Error of the speech-feature columns *)

Lemma float_to_uint16_mono mn rg x x' : 0 < rg -> x <= x' ->
  (float_to_uint16 mn rg x <= float_to_uint16 mn rg x')%Z.
Proof.
  intros Hr H. unfold float_to_uint16.
  assert (Hd : (x - mn) / rg <= (x' - mn) / rg).
  { unfold Qdiv. apply Qmult_le_compat_r; [lra|]. apply Qlt_le_weak, Qinv_lt_0_compat, Hr. }
  apply clamp01_mono in Hd. apply Qfloor_mono. lra.
Qed.

Lemma uint16_to_float_mono mn rg a b : 0 < rg -> (a <= b)%Z -> uint16_to_float mn rg a <= uint16_to_float mn rg b.
Proof.
  intros Hr H. destruct (Z.eq_dec a b) as [->|N]; [lra|].
  apply Qlt_le_weak, uint16_strict; [exact Hr|lia].
Qed.

Lemma qinsert_in x y l : In y (qinsert x l) <-> y = x \/ In y l.
Proof.
  induction l as [|a l IH]; simpl; [intuition congruence|].
  destruct (Qle_bool x a); simpl; [intuition congruence|]. rewrite IH. tauto.
Qed.
Lemma qsort_in y l : In y (qsort l) <-> In y l.
Proof. induction l as [|a l IH]; simpl; [tauto|]. rewrite qinsert_in, IH. intuition congruence. Qed.
Lemma qinsert_sorted x l : StronglySorted Qle l -> StronglySorted Qle (qinsert x l).
Proof.
  induction 1 as [|a l Hl IH Ha]; simpl; [repeat constructor|].
  destruct (Qle_bool x a) eqn:E.
  - apply Qle_bool_iff in E. constructor; [constructor; assumption|]. constructor; [exact E|].
    eapply Forall_impl; [|exact Ha]. cbn. intros b Hb. lra.
  - apply Qle_bool_false in E. constructor; [exact IH|]. apply Forall_forall. intros y Hy.
    apply qinsert_in in Hy. destruct Hy as [->|Hy]; [lra|]. rewrite Forall_forall in Ha. auto.
Qed.
Lemma qsort_sorted l : StronglySorted Qle (qsort l).
Proof. induction l; simpl; [constructor|]. apply qinsert_sorted. exact IHl. Qed.

Lemma sorted_nth_le l i j x y : StronglySorted Qle l -> (i <= j)%nat ->
  nth_error l i = Some x -> nth_error l j = Some y -> x <= y.
Proof.
  intros H. revert i j. induction H as [|a l Hl IH Ha]; intros i j Hij Hi Hj; [destruct i; discriminate|].
  destruct i as [|i], j as [|j]; simpl in *; try lia.
  - assert (x = y) by congruence. subst. lra.
  - injection Hi as ->. rewrite Forall_forall in Ha. apply Ha. eapply nth_error_In; eauto.
  - apply (IH i j); try assumption; lia.
Qed.

Lemma get_item_last {A} (l : list A) x : get_item l (-1) = Ok x -> nth_error l (List.length l - 1) = Some x.
Proof.
  unfold get_item, py_index. destruct ((0 <=? -1) && _)%Z eqn:E; [discriminate|].
  destruct ((- Z.of_nat (List.length l) <=? -1) && (-1 <? 0))%Z eqn:E2; [|discriminate].
  replace (Z.to_nat (Z.of_nat (List.length l) + -1)) with (List.length l - 1)%nat by lia.
  destruct (nth_error l _); congruence.
Qed.

Lemma get_item_pos {A} (l : list A) (i : Z) x : (0 <= i)%Z -> get_item l i = Ok x -> nth_error l (Z.to_nat i) = Some x.
Proof.
  intros Hi H. rewrite <- (Z2Nat.id i Hi) in H. apply get_item_nat_inv in H. exact H.
Qed.

(** the stored extremes cover the codes of the column *)
Lemma column_header_covers mn rg v a b c d : 0 < rg ->
  column_header mn rg v = Ok (a, b, c, d) -> forall x, In x v ->
    (a <= float_to_uint16 mn rg x)%Z /\ (float_to_uint16 mn rg x <= d)%Z.
Proof.
  intros Hr H x Hx. unfold column_header in H. set (n := Z.of_nat (List.length v)) in *.
  set (s := qsort v) in *.
  assert (Ls : List.length s = List.length v) by apply qsort_len.
  apply qsort_in in Hx. fold s in Hx. apply In_nth_error in Hx. destruct Hx as [k Hk].
  assert (Hkn : (k < List.length s)%nat) by (apply nth_error_Some; congruence).
  assert (Hs : StronglySorted Qle s) by apply qsort_sorted.
  pose proof (uint16_range mn rg x) as Ux.
  assert (Q0 : forall y, get_item s 0 = Ok y -> (float_to_uint16 mn rg y <= float_to_uint16 mn rg x)%Z).
  { intros y Hy. apply get_item_pos in Hy; [|lia]. apply float_to_uint16_mono; [exact Hr|].
    apply (sorted_nth_le s 0 k); try assumption. lia. }
  assert (Qi : forall i y, get_item s (Z.of_nat i) = Ok y -> (i = List.length s - 1)%nat ->
       (float_to_uint16 mn rg x <= float_to_uint16 mn rg y)%Z).
  { intros i y Hy Hi. apply get_item_nat_inv in Hy. apply float_to_uint16_mono; [exact Hr|].
    apply (sorted_nth_le s k i); try assumption. lia. }
  assert (Ql : forall y, get_item s (-1) = Ok y -> (float_to_uint16 mn rg x <= float_to_uint16 mn rg y)%Z).
  { intros y Hy. apply get_item_last in Hy. apply float_to_uint16_mono; [exact Hr|].
    apply (sorted_nth_le s k (List.length s - 1)); try assumption. lia. }
  destruct (5 <=? n)%Z eqn:E5.
  - destruct (get_item s 0) as [y0|] eqn:G0; [|discriminate]. cbn [bind] in H.
    destruct (get_item s (n / 4)) as [y1|] eqn:G1; [|discriminate]. cbn [bind] in H.
    destruct (get_item s (3 * (n / 4))) as [y2|] eqn:G2; [|discriminate]. cbn [bind] in H.
    destruct (get_item s (-1)) as [y3|] eqn:G3; [|discriminate]. cbn [bind] in H.
    specialize (Q0 _ eq_refl). specialize (Ql _ eq_refl).
    injection H as <- <- <- <-. lia.
  - destruct (get_item s 0) as [y0|] eqn:G0; [|discriminate]. cbn [bind] in H.
    specialize (Q0 _ eq_refl).
    pose proof (Qi 0%nat) as Qi0. pose proof (Qi 1%nat) as Qi1. pose proof (Qi 2%nat) as Qi2. pose proof (Qi 3%nat) as Qi3.
    clear Qi. change (Z.of_nat 0) with 0%Z in *. change (Z.of_nat 1) with 1%Z in *.
    change (Z.of_nat 2) with 2%Z in *. change (Z.of_nat 3) with 3%Z in *.
    specialize (Qi0 _ G0).
    destruct (1 <? n)%Z eqn:E1.
    + destruct (get_item s 1) as [y1|] eqn:G1; [|discriminate]. cbn [bind] in H. specialize (Qi1 _ eq_refl).
      destruct (2 <? n)%Z eqn:E2.
      * destruct (get_item s 2) as [y2|] eqn:G2; [|discriminate]. cbn [bind] in H. specialize (Qi2 _ eq_refl).
        destruct (3 <? n)%Z eqn:E3.
        -- destruct (get_item s 3) as [y3|] eqn:G3; [|discriminate]. cbn [bind] in H. specialize (Qi3 _ eq_refl).
           injection H as <- <- <- <-. specialize (Qi3 ltac:(lia)). lia.
        -- cbn [bind] in H. injection H as <- <- <- <-. specialize (Qi2 ltac:(lia)). lia.
      * replace (3 <? n)%Z with false in H by lia.
        cbn [bind] in H. injection H as <- <- <- <-. specialize (Qi1 ltac:(lia)). lia.
    + replace (2 <? n)%Z with false in H by lia. replace (3 <? n)%Z with false in H by lia.
      cbn [bind] in H. injection H as <- <- <- <-. specialize (Qi0 ltac:(lia)). lia.
Qed.

Lemma qtrunc_pos x : 0 <= x -> qtrunc x = Qfloor x.
Proof. intros H. unfold qtrunc. apply Qle_bool_iff in H. rewrite H. reflexivity. Qed.
Lemma qtrunc_nonpos x : x < 1 -> (qtrunc x <= 0)%Z.
Proof.
  intros H. unfold qtrunc. destruct (Qle_bool 0 x) eqn:E.
  - pose proof (Qfloor_bounds x) as [A _].
    assert (B : inject_Z (Qfloor x) < inject_Z 1) by (change (inject_Z 1) with 1; lra).
    apply inject_Z_lt_inv in B. lia.
  - apply Qle_bool_false in E.
    pose proof (Qceiling_lt x) as C. rewrite <- (Z.sub_add 1 (Qceiling x)).
    assert (B : inject_Z (Qceiling x - 1) < inject_Z 0) by (change (inject_Z 0) with 0; lra).
    apply inject_Z_lt_inv in B. lia.
Qed.

(** One segment: width w, s steps, offset o. *)
Lemma segment_error (w f s : Q) (k : Z) : 0 < w -> 0 < s ->
  k = Qfloor (f * s + (1#2)) -> Qabs (w * (inject_Z k / s) - w * f) <= w * ((1#2) / s).
Proof.
  intros Hw Hs ->. pose proof (Qfloor_bounds (f * s + (1#2))) as [A B].
  set (u := inject_Z _) in *. clearbody u.
  assert (E : u / s * s == u) by (field; lra).
  assert (E2 : (1#2) / s * s == (1#2)) by (field; lra).
  apply Qabs_Qle_condition.
  assert (G1 : u / s - f <= (1#2) / s).
  { apply Qmult_lt_0_le_reg_r with s; [exact Hs|]. rewrite E2. 
    setoid_replace ((u / s - f) * s) with (u - f * s) by (field; lra). lra. }
  assert (G2 : - ((1#2) / s) <= u / s - f).
  { apply Qmult_lt_0_le_reg_r with s; [exact Hs|].
    setoid_replace (- ((1 # 2) / s) * s) with (- (1#2)) by (field; lra).
    setoid_replace ((u / s - f) * s) with (u - f * s) by (field; lra). lra. }
  pose proof (mul_le_pos w _ _ Hw G1). pose proof (mul_le_pos w _ _ Hw G2). split; lra.
Qed.

Lemma zclamp_id lo hi c : (lo <= c <= hi)%Z -> zclamp lo hi c = c.
Proof. intros H. unfold zclamp. replace (c <? lo)%Z with false by lia. replace (hi <? c)%Z with false by lia. reflexivity. Qed.

Lemma floor_range f s n : 0 <= f <= 1 -> inject_Z n == s -> 0 < s -> (0 <= Qfloor (f * s + (1#2)) <= n)%Z.
Proof.
  intros [F0 F1] En Hs. pose proof (Qfloor_bounds (f * s + (1#2))) as [A B].
  assert (0 <= f * s) by (apply Qmult_le_0_compat; lra).
  assert (f * s <= s) by (setoid_replace s with (1 * s) at 2 by ring; apply Qmult_le_compat_r; lra).
  split.
  - assert (C : inject_Z (-1) < inject_Z (Qfloor (f * s + (1 # 2)))) by (change (inject_Z (-1)) with (-1#1); lra).
    apply inject_Z_lt_inv in C. lia.
  - assert (C : inject_Z (Qfloor (f * s + (1 # 2))) < inject_Z (n + 1)).
    { rewrite inject_Z_plus, En. change (inject_Z 1) with 1. lra. }
    apply inject_Z_lt_inv in C. lia.
Qed.

(** Inside [p0, p100] the error is at most half a step of the segment the value is in. *)
Lemma char_error p0 p25 p75 p100 v : p0 < p25 -> p25 < p75 -> p75 < p100 -> p0 <= v <= p100 ->
  let y := char_to_float p0 p25 p75 p100 (float_to_char p0 p25 p75 p100 v) in
  Qabs (y - v) <= (if qltb v p25 then (p25 - p0) * (1 # 128)
                   else if qltb v p75 then (p75 - p25) * (1 # 256) else (p100 - p75) * (1 # 126)).
Proof.
  intros H1 H2 H3 [V0 V1]. cbv zeta. unfold float_to_char.
  destruct (qltb v p25) eqn:E1; [apply qltb_lt in E1|apply qltb_ge in E1; destruct (qltb v p75) eqn:E2;
     [apply qltb_lt in E2|apply qltb_ge in E2]].
  - assert (Hw : 0 < p25 - p0) by lra.
    pose proof (ratio_range p0 (p25 - p0) v Hw ltac:(lra)) as Hf.
    pose proof (ratio_mul p0 (p25 - p0) v Hw) as Ev.
    set (f := (v - p0) / (p25 - p0)) in *.
    assert (0 <= f * (64#1)) by lra. rewrite qtrunc_pos by lra.
    pose proof (floor_range f (64#1) 64 Hf ltac:(reflexivity) ltac:(lra)) as Hk.
    pose proof (segment_error (p25 - p0) f (64#1) _ Hw ltac:(lra) eq_refl) as Se.
    set (k := Qfloor (f * (64 # 1) + (1 # 2))) in *. rewrite zclamp_id by lia.
    unfold char_to_float. replace (k <=? 64)%Z with true by lia.
    assert (Ed : p0 + (p25 - p0) * inject_Z k / (64 # 1) - v == (p25 - p0) * (inject_Z k / (64 # 1)) - (p25 - p0) * f).
    { rewrite Ev. field. }
    rewrite Ed. eapply Qle_trans; [exact Se|]. apply mul_le_pos; [lra|]. vm_compute. congruence.
  - assert (Hw : 0 < p75 - p25) by lra.
    pose proof (ratio_range p25 (p75 - p25) v Hw ltac:(lra)) as Hf.
    pose proof (ratio_mul p25 (p75 - p25) v Hw) as Ev.
    set (f := (v - p25) / (p75 - p25)) in *.
    assert (0 <= f * (128#1)) by lra. rewrite qtrunc_pos by lra.
    pose proof (floor_range f (128#1) 128 Hf ltac:(reflexivity) ltac:(lra)) as Hk.
    pose proof (segment_error (p75 - p25) f (128#1) _ Hw ltac:(lra) eq_refl) as Se.
    set (k := Qfloor (f * (128 # 1) + (1 # 2))) in *. rewrite zclamp_id by lia.
    assert (Ed : char_to_float p0 p25 p75 p100 (64 + k) - v == (p75 - p25) * (inject_Z k / (128 # 1)) - (p75 - p25) * f).
    { rewrite Ev. unfold char_to_float. destruct (64 + k <=? 64)%Z eqn:Ek.
      - assert (k = 0%Z) by lia. rewrite H0. cbn [Z.add]. change (inject_Z 64) with (64#1). change (inject_Z 0) with 0. field.
      - replace (64 + k <=? 192)%Z with true by lia. rewrite inject_Z_plus. change (inject_Z 64) with (64#1). field. }
    rewrite Ed. eapply Qle_trans; [exact Se|]. apply mul_le_pos; [lra|]. vm_compute. congruence.
  - assert (Hw : 0 < p100 - p75) by lra.
    pose proof (ratio_range p75 (p100 - p75) v Hw ltac:(lra)) as Hf.
    pose proof (ratio_mul p75 (p100 - p75) v Hw) as Ev.
    set (f := (v - p75) / (p100 - p75)) in *.
    assert (0 <= f * (63#1)) by lra. rewrite qtrunc_pos by lra.
    pose proof (floor_range f (63#1) 63 Hf ltac:(reflexivity) ltac:(lra)) as Hk.
    pose proof (segment_error (p100 - p75) f (63#1) _ Hw ltac:(lra) eq_refl) as Se.
    set (k := Qfloor (f * (63 # 1) + (1 # 2))) in *. rewrite zclamp_id by lia.
    assert (Ed : char_to_float p0 p25 p75 p100 (192 + k) - v == (p100 - p75) * (inject_Z k / (63 # 1)) - (p100 - p75) * f).
    { rewrite Ev. unfold char_to_float. replace (192 + k <=? 64)%Z with false by lia.
      destruct (192 + k <=? 192)%Z eqn:Ek.
      - assert (k = 0%Z) by lia. rewrite H0. cbn [Z.add]. change (inject_Z 192) with (192#1). change (inject_Z 0) with 0. field.
      - rewrite inject_Z_plus. change (inject_Z 192) with (192#1). field. }
    rewrite Ed. eapply Qle_trans; [exact Se|]. apply mul_le_pos; [lra|]. vm_compute. congruence.
Qed.

(** Below p0 and above p100 the value is clamped. *)
Lemma char_below p0 p25 p75 p100 v : p0 < p25 -> p25 < p75 -> p75 < p100 -> v <= p0 ->
  char_to_float p0 p25 p75 p100 (float_to_char p0 p25 p75 p100 v) == p0.
Proof.
  intros H1 H2 H3 H. unfold float_to_char.
  replace (qltb v p25) with true by (symmetry; apply qltb_lt; lra).
  assert (Hf : (v - p0) / (p25 - p0) <= 0) by (apply Qle_shift_div_r; lra).
  set (f := (v - p0) / (p25 - p0)) in *.
  assert (Ht := qtrunc_nonpos (f * (64#1) + (1#2)) ltac:(lra)).
  set (t := qtrunc _) in *.
  assert (Ez : zclamp 0 64 t = 0%Z) by (unfold zclamp; destruct (t <? 0)%Z eqn:E; [reflexivity|]; replace (64 <? t)%Z with false by lia; lia).
  rewrite Ez. unfold char_to_float. cbn [Z.leb Z.compare]. change (inject_Z 0) with 0. field.
Qed.

Lemma char_above p0 p25 p75 p100 v : p0 < p25 -> p25 < p75 -> p75 < p100 -> p100 <= v ->
  char_to_float p0 p25 p75 p100 (float_to_char p0 p25 p75 p100 v) == p100.
Proof.
  intros H1 H2 H3 H. unfold float_to_char.
  replace (qltb v p25) with false by (symmetry; apply qltb_ge; lra).
  replace (qltb v p75) with false by (symmetry; apply qltb_ge; lra).
  assert (Hf : 1 <= (v - p75) / (p100 - p75)) by (apply Qle_shift_div_l; lra).
  set (f := (v - p75) / (p100 - p75)) in *.
  rewrite qtrunc_pos by lra.
  pose proof (Qfloor_bounds (f * (63#1) + (1#2))) as [A B]. set (t := Qfloor _) in *.
  assert (C : inject_Z 62 < inject_Z t) by (change (inject_Z 62) with (62#1); lra).
  apply inject_Z_lt_inv in C.
  assert (Ez : zclamp 192 255 (192 + t) = 255%Z).
  { unfold zclamp. replace (192 + t <? 192)%Z with false by lia. destruct (255 <? 192 + t)%Z eqn:E; lia. }
  rewrite Ez. unfold char_to_float. cbn [Z.leb Z.compare Pos.compare Pos.compare_cont].
  change (inject_Z 255) with (255#1). field.
Qed.

(** Every value of a column, end to end. *)
Lemma column_error mn rg v h bs : 0 < rg -> (forall x, In x v -> mn <= x <= mn + rg) ->
  compress_column mn rg v = Ok (h, bs) ->
  (List.length bs = List.length v)%nat /\
  forall i x, nth_error v i = Some x -> exists y,
    nth_error (uncompress_col mn rg h bs) i = Some y /\ mn <= y <= mn + rg /\
    Qabs (y - x) <= rg * ((1 # 126) + (501 # 1000) / (65535 # 1) + (15 # 10000000000000000)).
Proof.
  intros Hr Hv H. unfold compress_column in H.
  destruct (column_header mn rg v) as [[[[a b] c] d]|] eqn:Eh; [|discriminate]. cbn [bind column_percentiles] in H.
  injection H as <- <-. split; [apply map_length|]. intros i x Hi.
  assert (Hx : In x v) by (eapply nth_error_In; eauto).
  assert (Hne : v <> []) by (intros ->; destruct Hx).
  destruct (column_header_ok mn rg v Hne) as (a' & b' & c' & d' & Eh' & I0 & I1 & I2 & I3 & I4).
  rewrite Eh in Eh'. injection Eh' as <- <- <- <-.
  destruct (column_header_covers mn rg v a b c d Hr Eh x Hx) as [Ca Cd].
  unfold uncompress_col, column_percentiles.
  set (p0 := uint16_to_float mn rg a). set (p25 := uint16_to_float mn rg b).
  set (p75 := uint16_to_float mn rg c). set (p100 := uint16_to_float mn rg d).
  assert (P1 : p0 < p25) by (apply uint16_strict; assumption).
  assert (P2 : p25 < p75) by (apply uint16_strict; assumption).
  assert (P3 : p75 < p100) by (apply uint16_strict; assumption).
  rewrite map_map. rewrite nth_error_map, Hi. cbn [option_map]. eexists. split; [reflexivity|].
  destruct (codec16 mn rg x Hr (Hv x Hx)) as [_ Ex].
  set (e := rg * ((501 # 1000) / (65535 # 1) + (15 # 10000000000000000))) in *.
  apply Qabs_Qle_condition in Ex.
  assert (L0 : p0 <= x + e).
  { pose proof (uint16_to_float_mono mn rg _ _ Hr Ca). fold p0 in H. lra. }
  assert (L1 : x - e <= p100).
  { pose proof (uint16_to_float_mono mn rg _ _ Hr Cd). fold p100 in H. lra. }
  assert (M0 : mn <= p0).
  { pose proof (uint16_to_float_mono mn rg 0 a Hr I0). fold p0 in H. unfold uint16_to_float in H at 1.
    change (inject_Z 0) with 0 in H. lra. }
  assert (M1 : p100 <= mn + rg).
  { pose proof (uint16_to_float_mono mn rg d 65535 Hr I4). fold p100 in H. unfold uint16_to_float in H at 1.
    change (inject_Z 65535) with (65535#1) in H.
    destruct k16_bounds as (K1 & _ & _). pose proof (mul_le_pos rg _ _ Hr K1). lra. }
  assert (Hb : rg * ((1 # 126) + (501 # 1000) / (65535 # 1) + (15 # 10000000000000000)) == rg * (1#126) + e) by (unfold e; ring).
  rewrite Hb. 
  assert (He : 0 <= e) by lra.
  destruct (Qlt_le_dec x p0) as [B0|B0]; [|destruct (Qlt_le_dec p100 x) as [B1|B1]].
  - rewrite (char_below p0 p25 p75 p100 x P1 P2 P3 ltac:(lra)). split; [lra|].
    apply Qabs_Qle_condition. split; lra.
  - rewrite (char_above p0 p25 p75 p100 x P1 P2 P3 ltac:(lra)). split; [lra|].
    apply Qabs_Qle_condition. split; lra.
  - pose proof (char_error p0 p25 p75 p100 x P1 P2 P3 (conj B0 B1)) as Ec. cbv zeta in Ec.
    split.
    + assert (Hc : (0 <= float_to_char p0 p25 p75 p100 x <= 255)%Z).
      { unfold float_to_char, zclamp. destruct (qltb x p25); [|destruct (qltb x p75)];
          match goal with |- context [qtrunc ?t] => set (k := qtrunc t) end;
          repeat match goal with |- context [if ?b then _ else _] => destruct b eqn:? end; lia. }
      set (k := float_to_char p0 p25 p75 p100 x) in *.
      assert (C0 : char_to_float p0 p25 p75 p100 0 == p0).
      { unfold char_to_float. cbn [Z.leb Z.compare]. change (inject_Z 0) with 0. field. }
      assert (C1 : char_to_float p0 p25 p75 p100 255 == p100).
      { unfold char_to_float. cbn [Z.leb Z.compare Pos.compare Pos.compare_cont]. change (inject_Z 255) with (255#1). field. }
      assert (G0 : char_to_float p0 p25 p75 p100 0 <= char_to_float p0 p25 p75 p100 k).
      { destruct (Z.eq_dec 0 k) as [<-|N]; [lra|]. apply Qlt_le_weak, char_to_float_strict; lia || assumption. }
      assert (G1 : char_to_float p0 p25 p75 p100 k <= char_to_float p0 p25 p75 p100 255).
      { destruct (Z.eq_dec k 255) as [->|N]; [lra|]. apply Qlt_le_weak, char_to_float_strict; lia || assumption. }
      lra.
    + eapply Qle_trans; [exact Ec|].
      destruct (qltb x p25); [|destruct (qltb x p75)]; lra.
Qed.
