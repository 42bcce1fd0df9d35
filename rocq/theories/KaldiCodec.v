(** Model of the arithmetic of KaldiCompressedMatrix (hyperion/utils/kaldi_matrix.py:366-638).

    Numbers are exact rationals.  Simplifications: float rounding, infinities and NaN are not
    modelled (the assertion of l.391 rejects the latter two), and the header keeps min_value and
    data_range exactly (the code stores them as float32). *)
From Verif Require Export Base.
From Coq Require Export QArith Qround Qabs Lqa.
Open Scope Q_scope.

Definition qltb (x y : Q) : bool := negb (Qle_bool y x).

(** np.min / np.max of a non-empty array; ValueError on an empty one. *)
Definition qmin (x y : Q) : Q := if Qle_bool x y then x else y.
Definition qmax (x y : Q) : Q := if Qle_bool x y then y else x.
Definition np_min (l : list Q) : res Q :=
  match l with [] => Err ValueError | x :: l' => Ok (fold_left qmin l' x) end.
Definition np_max (l : list Q) : res Q :=
  match l with [] => Err ValueError | x :: l' => Ok (fold_left qmax l' x) end.

Inductive cmethod := SpeechFeat | Auto2 | SInt2 | Auto1 | UInt1 | ZeroOne1.

(** kaldi_matrix.py:246-251 compression_method2format.  'auto' (l.376-380)
    picks SpeechFeat for more than 8 rows and Auto2 otherwise; the theorems cover both. *)
Definition method_format (m : cmethod) : Z :=
  match m with SpeechFeat => 1 | Auto2 | SInt2 => 2 | Auto1 | UInt1 | ZeroOne1 => 3 end.

(** kaldi_matrix.py:366-408: min_value and data_range.  [mat] are the elements of the matrix. *)
Definition global_range (m : cmethod) (mat : list Q) : res (Q * Q) :=
  match m with
  | SpeechFeat | Auto2 | Auto1 =>
      mn <- np_min mat ;;
      mx <- np_max mat ;;
      let mx := if Qeq_bool mx mn then mn + 1 + Qabs mn else mx in
      _ <- assert (qltb 0 (mx - mn)) ;;
      Ok (mn, mx - mn)
  | SInt2 => Ok (-32768 # 1, 65535 # 1)
  | UInt1 => Ok (0, 255 # 1)
  | ZeroOne1 => Ok (0, 1)
  end.

(** [f[f>1.0] = 1; f[f<0.0] = 0] *)
Definition clamp01 (f : Q) : Q :=
  let f := if qltb 1 f then 1 else f in
  if qltb f 0 then 0 else f.

(** kaldi_matrix.py:504-508 and 512-516; astype truncates, the operand is not negative *)
Definition float_to_uint16 (mn rg x : Q) : Z :=
  Qfloor (clamp01 ((x - mn) / rg) * (65535 # 1) + (499 # 1000)).
Definition float_to_uint8 (mn rg x : Q) : Z :=
  Qfloor (clamp01 ((x - mn) / rg) * (255 # 1) + (499 # 1000)).

(** kaldi_matrix.py:520-528.  The literal 1.52590218966964e-05 of l.521. *)
Definition k16 : Q := 152590218966964 # 10000000000000000000.
Definition uint16_to_float (mn rg : Q) (u : Z) : Q := mn + rg * k16 * inject_Z u.
Definition uint8_to_float (mn rg : Q) (u : Z) : Q := mn + rg / (255 # 1) * inject_Z u.

(** np.sort *)
Fixpoint qinsert (x : Q) (l : list Q) : list Q :=
  match l with [] => [x] | y :: l' => if Qle_bool x y then x :: l else y :: qinsert x l' end.
Definition qsort (l : list Q) : list Q := fold_right qinsert [] l.

(** kaldi_matrix.py:532-565 [_compute_column_header].  [np.partition(v, ks)[k]] for k in ks is
    the k-th smallest element, i.e. [np.sort(v)[k]]. *)
Definition column_header (mn rg : Q) (v : list Q) : res (Z * Z * Z * Z) :=
  let num_rows := Z.of_nat (List.length v) in
  let v_sort := qsort v in
  let q (i : Z) := x <- get_item v_sort i ;; Ok (float_to_uint16 mn rg x) in
  if (5 <=? num_rows)%Z then
    let quarter_nr := (num_rows / 4)%Z in
    a <- q 0%Z ;; let perc_0 := Z.min a 65532 in
    b <- q quarter_nr ;; let perc_25 := Z.min (Z.max b (perc_0 + 1)) 65533 in
    c <- q (3 * quarter_nr)%Z ;; let perc_75 := Z.min (Z.max c (perc_25 + 1)) 65534 in
    d <- q (-1)%Z ;; let perc_100 := Z.max d (perc_75 + 1) in
    Ok (perc_0, perc_25, perc_75, perc_100)
  else
    a <- q 0%Z ;; let perc_0 := Z.min a 65532 in
    perc_25 <- (if (1 <? num_rows)%Z then b <- q 1%Z ;; Ok (Z.min (Z.max b (perc_0 + 1)) 65533)
                else Ok (perc_0 + 1)%Z) ;;
    perc_75 <- (if (2 <? num_rows)%Z then c <- q 2%Z ;; Ok (Z.min (Z.max c (perc_25 + 1)) 65534)
                else Ok (perc_25 + 1)%Z) ;;
    perc_100 <- (if (3 <? num_rows)%Z then d <- q 3%Z ;; Ok (Z.max d (perc_75 + 1))
                 else Ok (perc_75 + 1)%Z) ;;
    Ok (perc_0, perc_25, perc_75, perc_100).

(** [x.astype(np.int32)]: truncation towards zero *)
Definition qtrunc (x : Q) : Z := if Qle_bool 0 x then Qfloor x else Qceiling x.

(** [c[c<lo] = lo; c[c>hi] = hi] *)
Definition zclamp (lo hi c : Z) : Z :=
  let c := if (c <? lo)%Z then lo else c in if (hi <? c)%Z then hi else c.

(** kaldi_matrix.py:601-623 [_float_to_char] on one value *)
Definition float_to_char (p0 p25 p75 p100 v : Q) : Z :=
  if qltb v p25 then zclamp 0 64 (qtrunc ((v - p0) / (p25 - p0) * (64 # 1) + (1 # 2)))
  else if qltb v p75 then
    zclamp 64 192 (64 + qtrunc ((v - p25) / (p75 - p25) * (128 # 1) + (1 # 2)))
  else zclamp 192 255 (192 + qtrunc ((v - p75) / (p100 - p75) * (63 # 1) + (1 # 2))).

(** kaldi_matrix.py:627-638 [_char_to_float] on one byte *)
Definition char_to_float (p0 p25 p75 p100 : Q) (b : Z) : Q :=
  let v := inject_Z b in
  if (b <=? 64)%Z then p0 + (p25 - p0) * v / (64 # 1)
  else if (b <=? 192)%Z then p25 + (p75 - p25) * (v - (64 # 1)) / (128 # 1)
  else p75 + (p100 - p75) * (v - (192 # 1)) / (63 # 1).

(** kaldi_matrix.py:569-597: one column compressed and expanded again *)
Definition column_percentiles (mn rg : Q) (h : Z * Z * Z * Z) : Q * Q * Q * Q :=
  let '(a, b, c, d) := h in
  (uint16_to_float mn rg a, uint16_to_float mn rg b, uint16_to_float mn rg c, uint16_to_float mn rg d).
Definition compress_column (mn rg : Q) (v : list Q) : res ((Z * Z * Z * Z) * list Z) :=
  h <- column_header mn rg v ;;
  let '(p0, p25, p75, p100) := column_percentiles mn rg h in
  Ok (h, map (float_to_char p0 p25 p75 p100) v).
Definition uncompress_col (mn rg : Q) (h : Z * Z * Z * Z) (bs : list Z) : list Q :=
  let '(p0, p25, p75, p100) := column_percentiles mn rg h in
  map (char_to_float p0 p25 p75 p100) bs.

(** kaldi_matrix.py:471-500 [compress] and 642-664 [to_ndarray] for formats 2 and 3, element by
    element: header and codes. *)
Definition compress_flat (m : cmethod) (mat : list Q) : res (Q * Q * list Z) :=
  '(mn, rg) <- global_range m mat ;;
  Ok (mn, rg, map (if (method_format m =? 2)%Z then float_to_uint16 mn rg else float_to_uint8 mn rg) mat).
Definition expand_flat (m : cmethod) (c : Q * Q * list Z) : list Q :=
  let '(mn, rg, codes) := c in
  map (if (method_format m =? 2)%Z then uint16_to_float mn rg else uint8_to_float mn rg) codes.
