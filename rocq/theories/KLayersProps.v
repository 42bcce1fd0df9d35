(** C113: the small keras layers: elementwise functions, Swish, the discrete cosine transform, liftering, masks. *)
From Coq Require Import Reals Lra Lia ZArith List.
From Verif Require Import Base BaseFacts Mfcc NormalDiag NormalDiagProps GmmDiagProps GmmTiedProps ScoreNorm ScoreNormProps KLayers.
Import ListNotations.
Open Scope list_scope.
Open Scope R_scope.

(** ** The discrete cosine transform *)
Lemma sumn_0 f : sumn 0 f = 0. Proof. reflexivity. Qed.
Lemma sumn_first n f : sumn (S n) f = f 0%nat + sumn n (fun k => f (S k)).
Proof. change (S n) with (1 + n)%nat. rewrite sumn_split. f_equal. unfold sumn. cbn. ring. Qed.
Lemma dirichlet th m : 2 * sin (th / 2) * sumn m (fun k => cos (INR (S k) * th)) = sin ((INR m + / 2) * th) - sin (th / 2).
Proof. induction m as [|m IH]; [rewrite sumn_0; cbn [INR]; replace ((0 + / 2) * th) with (th / 2) by field; ring|].
  rewrite sumn_S, Rmult_plus_distr_l, IH, S_INR.
  replace ((INR m + 1 + / 2) * th) with ((INR m + 1) * th + th / 2) by field.
  replace ((INR m + / 2) * th) with ((INR m + 1) * th - th / 2) by field. rewrite sin_plus, sin_minus. ring. Qed.
Lemma half_sum th m : 2 * sin (th / 2) * sumn m (fun k => cos ((INR k + / 2) * th)) = sin (INR m * th).
Proof. induction m as [|m IH]; [rewrite sumn_0; cbn [INR]; rewrite !Rmult_0_l, sin_0; ring|].
  rewrite sumn_S, Rmult_plus_distr_l, IH, S_INR.
  replace ((INR m + 1) * th) with ((INR m + / 2) * th + th / 2) by field.
  replace (INR m * th) with ((INR m + / 2) * th - th / 2) by field. rewrite sin_plus, sin_minus. ring. Qed.
Definition ev (p : nat) : R := cos (INR p * PI).
Lemma ev_S p : ev (S p) = - ev p.
Proof. unfold ev. rewrite S_INR. replace ((INR p + 1) * PI) with (INR p * PI + PI) by ring. apply neg_cos. Qed.
Lemma ev_odd q m : ev (q + (2 * m + 1)) = - ev q.
Proof. induction m as [|m IH]; [rewrite Nat.add_1_r; apply ev_S|]. replace (q + (2 * S m + 1))%nat with (S (S (q + (2 * m + 1)))) by lia. rewrite !ev_S, IH. ring. Qed.
Lemma sin_pi p : sin (INR p * PI) = 0.
Proof. apply sin_eq_0_1. exists (Z.of_nat p). rewrite <- INR_IZR_INZ. reflexivity. Qed.
Lemma sin_half N p : (0 < p < 2 * N)%nat -> 0 < sin (PI * INR p / INR N / 2).
Proof. intros [H0 H]. assert (HN : 0 < INR N) by (apply (lt_INR 0); lia). assert (Hp : 0 < INR p) by (apply (lt_INR 0); lia).
  assert (H2 : INR p < 2 * INR N) by (change 2 with (INR 2); rewrite <- mult_INR; apply lt_INR; lia). assert (P := PI_RGT_0). apply sin_gt_0.
  - apply Rmult_lt_0_compat; [|lra]. apply Rmult_lt_0_compat; [apply Rmult_lt_0_compat; assumption|apply Rinv_0_lt_compat; assumption].
  - apply Rmult_lt_reg_r with (2 * INR N); [lra|]. replace (PI * INR p / INR N / 2 * (2 * INR N)) with (PI * INR p) by (field; lra).
    apply Rmult_lt_compat_l; assumption. Qed.
Lemma cos_sum N p : (0 < p < 2 * N)%nat -> sumn (N - 1) (fun k => cos (INR (S k) * (PI * INR p / INR N))) = - (1 + ev p) / 2.
Proof. intro H. assert (Q := sin_half N p H). assert (D := dirichlet (PI * INR p / INR N) (N - 1)).
  assert (HN : 0 < INR N) by (apply (lt_INR 0); lia). rewrite minus_INR in D by lia. change (INR 1) with 1 in D.
  replace ((INR N - 1 + / 2) * (PI * INR p / INR N)) with (INR p * PI - PI * INR p / INR N / 2) in D by (field; lra).
  rewrite sin_minus, sin_pi in D. fold (ev p) in D. set (s := sin (PI * INR p / INR N / 2)) in *.
  apply Rmult_eq_reg_l with (2 * s); [|lra]. rewrite D. field. Qed.
Lemma cos_sum_half N p : (0 < p < 2 * N)%nat -> sumn N (fun n => cos (PI * INR p * (2 * INR n + 1) / (2 * INR N))) = 0.
Proof. intro H. assert (Q := sin_half N p H). assert (D := half_sum (PI * INR p / INR N) N). assert (HN : 0 < INR N) by (apply (lt_INR 0); lia).
  replace (INR N * (PI * INR p / INR N)) with (INR p * PI) in D by (field; lra). rewrite sin_pi in D.
  rewrite (sumn_ext N _ (fun k => cos (PI * INR p * (2 * INR k + 1) / (2 * INR N)))) in D.
  - apply Rmult_eq_reg_l with (2 * sin (PI * INR p / INR N / 2)); [|lra]. rewrite D. ring.
  - intros k _. f_equal. field. lra. Qed.

(** the entries of the orthonormal transform *)
Definition ck (N k n : nat) : R := cos (PI * INR k * (2 * INR n + 1) / (2 * INR N)).
Definition ak (N k : nat) : R := if Nat.eqb k 0 then / sqrt (INR N) else sqrt (2 / INR N).
Lemma ck_0 N n : ck N 0 n = 1.
Proof. unfold ck. cbn [INR]. replace (PI * 0 * (2 * INR n + 1) / (2 * INR N)) with 0 by (unfold Rdiv; ring). apply cos_0. Qed.
Lemma ak_sq N k : (0 < N)%nat -> ak N k * ak N k = if Nat.eqb k 0 then / INR N else 2 / INR N.
Proof. intro H. assert (HN : 0 < INR N) by (apply (lt_INR 0); lia). unfold ak. destruct (Nat.eqb k 0).
  - rewrite <- Rinv_mult. rewrite sqrt_sqrt by lra. reflexivity.
  - apply sqrt_sqrt. apply Rmult_le_pos; [lra|left; apply Rinv_0_lt_compat, HN]. Qed.
Lemma cos_prod a b : cos a * cos b = (cos (a + b) + cos (a - b)) / 2.
Proof. rewrite cos_plus, cos_minus. field. Qed.
Lemma orth_k_lt N n m : (m < n < N)%nat -> sumn N (fun k => ak N k * ak N k * ck N k n * ck N k m) = 0.
Proof. intro H. assert (HN : 0 < INR N) by (apply (lt_INR 0); lia). destruct N as [|N0]; [lia|]. rewrite sumn_first, ak_sq, !ck_0 by lia. cbn [Nat.eqb].
  rewrite (sumn_ext N0 _ (fun k => / INR (S N0) * (cos (INR (S k) * (PI * INR (n + m + 1) / INR (S N0))) + cos (INR (S k) * (PI * INR (n - m) / INR (S N0)))))).
  - rewrite sumn_mul, sumn_add. assert (A := cos_sum (S N0) (n + m + 1)). assert (B := cos_sum (S N0) (n - m)). cbn [Nat.sub] in A, B. rewrite Nat.sub_0_r in A, B.
    rewrite A, B by lia. replace (n + m + 1)%nat with ((n - m) + (2 * m + 1))%nat by lia. rewrite ev_odd. field. lra.
  - intros k _. rewrite ak_sq by lia. cbn [Nat.eqb]. unfold ck. rewrite (Rmult_assoc (2 / _)), cos_prod. rewrite plus_INR, plus_INR, minus_INR by lia. change (INR 1) with 1.
    replace (PI * INR (S k) * (2 * INR n + 1) / (2 * INR (S N0)) + PI * INR (S k) * (2 * INR m + 1) / (2 * INR (S N0))) with (INR (S k) * (PI * (INR n + INR m + 1) / INR (S N0))) by (field; lra).
    replace (PI * INR (S k) * (2 * INR n + 1) / (2 * INR (S N0)) - PI * INR (S k) * (2 * INR m + 1) / (2 * INR (S N0))) with (INR (S k) * (PI * (INR n - INR m) / INR (S N0))) by (field; lra).
    field. lra. Qed.
Lemma orth_k_eq N n : (n < N)%nat -> sumn N (fun k => ak N k * ak N k * ck N k n * ck N k n) = 1.
Proof. intro H. assert (HN : 0 < INR N) by (apply (lt_INR 0); lia). destruct N as [|N0]; [lia|]. rewrite sumn_first, ak_sq, !ck_0 by lia. cbn [Nat.eqb].
  rewrite (sumn_ext N0 _ (fun k => / INR (S N0) * (cos (INR (S k) * (PI * INR (n + n + 1) / INR (S N0))) + 1))).
  - rewrite sumn_mul, sumn_add, sumn_const. assert (A := cos_sum (S N0) (n + n + 1)). cbn [Nat.sub] in A. rewrite Nat.sub_0_r in A. rewrite A by lia.
    replace (n + n + 1)%nat with (0 + (2 * n + 1))%nat by lia. rewrite ev_odd. unfold ev. change (INR 0) with 0. rewrite Rmult_0_l, cos_0.
    replace (INR N0) with (INR (S N0) - 1) by (rewrite S_INR; ring). field. lra.
  - intros k _. rewrite ak_sq by lia. cbn [Nat.eqb]. unfold ck. rewrite (Rmult_assoc (2 / _)), cos_prod. rewrite plus_INR, plus_INR. change (INR 1) with 1.
    replace (PI * INR (S k) * (2 * INR n + 1) / (2 * INR (S N0)) + PI * INR (S k) * (2 * INR n + 1) / (2 * INR (S N0))) with (INR (S k) * (PI * (INR n + INR n + 1) / INR (S N0))) by (field; lra).
    rewrite Rminus_diag_eq, cos_0 by reflexivity. field. lra. Qed.
Lemma orth_k N n m : (n < N)%nat -> (m < N)%nat -> sumn N (fun k => ak N k * ak N k * ck N k n * ck N k m) = if Nat.eqb n m then 1 else 0.
Proof. intros Hn Hm. destruct (Nat.eqb_spec n m) as [->|NE]; [apply orth_k_eq, Hm|]. destruct (Nat.lt_ge_cases m n) as [L|L]; [apply orth_k_lt; lia|].
  rewrite (sumn_ext N _ (fun k => ak N k * ak N k * ck N k m * ck N k n)) by (intros; ring). apply orth_k_lt. lia. Qed.
Lemma orth_n_lt N k l : (l < k < N)%nat -> sumn N (fun n => ck N k n * ck N l n) = 0.
Proof. intro H. assert (HN : 0 < INR N) by (apply (lt_INR 0); lia).
  rewrite (sumn_ext N _ (fun n => / 2 * (cos (PI * INR (k + l) * (2 * INR n + 1) / (2 * INR N)) + cos (PI * INR (k - l) * (2 * INR n + 1) / (2 * INR N))))).
  - rewrite sumn_mul, sumn_add, !cos_sum_half by lia. ring.
  - intros n _. unfold ck. rewrite cos_prod, plus_INR, minus_INR by lia.
    replace (PI * INR k * (2 * INR n + 1) / (2 * INR N) + PI * INR l * (2 * INR n + 1) / (2 * INR N)) with (PI * (INR k + INR l) * (2 * INR n + 1) / (2 * INR N)) by (field; lra).
    replace (PI * INR k * (2 * INR n + 1) / (2 * INR N) - PI * INR l * (2 * INR n + 1) / (2 * INR N)) with (PI * (INR k - INR l) * (2 * INR n + 1) / (2 * INR N)) by (field; lra). field. Qed.
Lemma orth_n_eq N k : (k < N)%nat -> ak N k * ak N k * sumn N (fun n => ck N k n * ck N k n) = 1.
Proof. intro H. assert (HN : 0 < INR N) by (apply (lt_INR 0); lia). rewrite ak_sq by lia. destruct (Nat.eqb_spec k 0) as [->|K0].
  - rewrite (sumn_ext N _ (fun _ => 1)) by (intros; rewrite ck_0; ring). rewrite sumn_const. field. lra.
  - rewrite (sumn_ext N _ (fun n => / 2 * (cos (PI * INR (k + k) * (2 * INR n + 1) / (2 * INR N)) + 1))).
    + rewrite sumn_mul, sumn_add, cos_sum_half, sumn_const by lia. field. lra.
    + intros n _. unfold ck. rewrite cos_prod, plus_INR. rewrite (Rminus_diag_eq _ _ eq_refl), cos_0.
      replace (PI * INR k * (2 * INR n + 1) / (2 * INR N) + PI * INR k * (2 * INR n + 1) / (2 * INR N)) with (PI * (INR k + INR k) * (2 * INR n + 1) / (2 * INR N)) by (field; lra). field. Qed.
Lemma orth_n N k l : (k < N)%nat -> (l < N)%nat -> ak N k * ak N l * sumn N (fun n => ck N k n * ck N l n) = if Nat.eqb k l then 1 else 0.
Proof. intros Hk Hl. destruct (Nat.eqb_spec k l) as [->|NE]; [apply orth_n_eq, Hl|]. destruct (Nat.lt_ge_cases l k) as [L|L]; [rewrite orth_n_lt by lia; ring|].
  rewrite (sumn_ext N _ (fun n => ck N l n * ck N k n)) by (intros; ring). rewrite orth_n_lt by lia. ring. Qed.
Lemma nth_map_seq {A} (f : nat -> A) N i d : (i < N)%nat -> nth i (map f (seq 0 N)) d = f i.
Proof. intro H. rewrite (nth_indep _ d (f 0%nat)) by (rewrite map_length, seq_length; exact H). rewrite map_nth, seq_nth by exact H. reflexivity. Qed.
Lemma scale_E N k : (0 < N)%nat -> 2 * (if Nat.eqb k 0 then sqrt (1 / (4 * INR N)) else sqrt (1 / (2 * INR N))) = ak N k.
Proof. intro H. assert (HN : 0 < INR N) by (apply (lt_INR 0); lia). assert (S4 : sqrt 4 = 2) by (replace 4 with (2 * 2) by ring; apply sqrt_square; lra).
  unfold ak. destruct (Nat.eqb k 0).
  - rewrite <- S4 at 1. rewrite <- sqrt_mult; [|lra|apply Rmult_le_pos; [lra|left; apply Rinv_0_lt_compat; lra]].
    replace (4 * (1 / (4 * INR N))) with (/ INR N) by (field; lra). apply sqrt_inv.
  - rewrite <- S4 at 1. rewrite <- sqrt_mult; [|lra|apply Rmult_le_pos; [lra|left; apply Rinv_0_lt_compat; lra]]. f_equal. field. lra. Qed.
Lemma dct_E x k : (k < List.length x)%nat -> nth k (dct true x) 0 = ak (List.length x) k * sumn (List.length x) (fun n => nth n x 0 * ck (List.length x) k n).
Proof. intro H. unfold dct. rewrite nth_map_seq by exact H. fold (ck (List.length x) k). rewrite <- (scale_E (List.length x) k) by lia. unfold ck. ring. Qed.
Lemma idct_E y n : (n < List.length y)%nat -> nth n (idct true y) 0 = sumn (List.length y) (fun k => ak (List.length y) k * nth k y 0 * ck (List.length y) k n).
Proof. intro H. unfold idct. rewrite nth_map_seq by exact H. destruct (List.length y) as [|N0] eqn:EL; [lia|]. rewrite sumn_first, ck_0. cbn [Nat.sub]. rewrite Nat.sub_0_r. f_equal.
  - unfold ak. cbn [Nat.eqb]. unfold Rdiv. ring.
  - rewrite <- sumn_mul. apply sumn_ext. intros k _. unfold ak. cbn [Nat.eqb]. unfold ck. ring. Qed.
Lemma dct_len o x : List.length (dct o x) = List.length x. Proof. unfold dct. rewrite map_length, seq_length. reflexivity. Qed.
Lemma idct_len o x : List.length (idct o x) = List.length x. Proof. unfold idct. rewrite map_length, seq_length. reflexivity. Qed.
Lemma pick N i (f : nat -> R) : (i < N)%nat -> sumn N (fun j => f j * (if Nat.eqb j i then 1 else 0)) = f i.
Proof. induction N as [|N IH]; intro H; [lia|]. rewrite sumn_S. destruct (Nat.eqb_spec N i) as [->|NE].
  - rewrite (sumn_ext i _ (fun _ => 0)); [rewrite sumn_const; ring|]. intros j Hj. destruct (Nat.eqb_spec j i); [lia|ring].
  - rewrite IH by lia. ring. Qed.

(** the inverse transform gives the signal back, and the transform of the inverse gives the coefficients back *)
Theorem C113_idct_dct x : idct true (dct true x) = x.
Proof. apply nth_ext with (d := 0) (d' := 0); [rewrite idct_len, dct_len; reflexivity|]. intros m Hm. rewrite idct_len in Hm. assert (Hm' := Hm). rewrite dct_len in Hm'.
  rewrite idct_E by exact Hm. rewrite dct_len. set (N := List.length x) in *.
  rewrite (sumn_ext N _ (fun k => sumn N (fun n => nth n x 0 * (ak N k * ak N k * ck N k n * ck N k m)))).
  - rewrite sumn_swap. rewrite (sumn_ext N _ (fun n => nth n x 0 * (if Nat.eqb n m then 1 else 0))); [apply pick, Hm'|].
    intros n Hn. rewrite sumn_mul, orth_k by assumption. reflexivity.
  - intros k Hk. rewrite dct_E by exact Hk. fold N. rewrite <- sumn_mul, Rmult_comm, <- !sumn_mul. apply sumn_ext. intros; ring. Qed.
Theorem C113_dct_idct y : dct true (idct true y) = y.
Proof. apply nth_ext with (d := 0) (d' := 0); [rewrite dct_len, idct_len; reflexivity|]. intros l Hl. rewrite dct_len in Hl. assert (Hl' := Hl). rewrite idct_len in Hl'.
  rewrite dct_E by exact Hl. rewrite idct_len. set (N := List.length y) in *.
  rewrite (sumn_ext N _ (fun n => sumn N (fun k => nth k y 0 * (ak N k * (ck N k n * ck N l n))))).
  - rewrite sumn_swap, <- sumn_mul. rewrite (sumn_ext N _ (fun k => nth k y 0 * (if Nat.eqb k l then 1 else 0))); [apply pick, Hl'|].
    intros k Hk. rewrite !sumn_mul. rewrite <- (orth_n N k l) by assumption. ring.
  - intros n Hn. rewrite idct_E by exact Hn. fold N. rewrite Rmult_comm, <- sumn_mul. apply sumn_ext. intros; ring. Qed.
(** it keeps the energy *)
Theorem C113_energy x : sumn (List.length x) (fun k => nth k (dct true x) 0 * nth k (dct true x) 0) = sumn (List.length x) (fun n => nth n x 0 * nth n x 0).
Proof. set (N := List.length x). rewrite (sumn_ext N _ (fun k => sumn N (fun n => ak N k * ck N k n * nth k (dct true x) 0 * nth n x 0))).
  - rewrite sumn_swap. apply sumn_ext. intros n Hn. rewrite (sumn_ext N _ (fun k => nth n x 0 * (ak N k * nth k (dct true x) 0 * ck N k n))) by (intros; ring).
    rewrite sumn_mul. f_equal. assert (E := idct_E (dct true x) n). rewrite dct_len in E. fold N in E. rewrite <- E by exact Hn. rewrite C113_idct_dct. reflexivity.
  - intros k Hk. rewrite dct_E at 1 by exact Hk. fold N. rewrite Rmult_comm, <- Rmult_assoc, <- sumn_mul. apply sumn_ext. intros; ring. Qed.
(** the layer: every coefficient it gives is a coefficient of the transform of its input, whatever the normalization and the direction *)
Lemma eye_row N i : (i < N)%nat -> nth i (eye N) [] = map (fun j => if Nat.eqb j i then 1 else 0) (seq 0 N).
Proof. intro H. unfold eye. rewrite nth_map_seq by exact H. reflexivity. Qed.
Lemma nth_eye N i j : (j < N)%nat -> nth j (map (fun j => if Nat.eqb j i then 1 else 0) (seq 0 N)) 0 = if Nat.eqb j i then 1 else 0.
Proof. intro H. rewrite nth_map_seq by exact H. reflexivity. Qed.
Lemma dct_eye o N i j : (i < N)%nat -> (j < N)%nat -> nth j (dct o (map (fun j => if Nat.eqb j i then 1 else 0) (seq 0 N))) 0 =
  (if o then (if Nat.eqb j 0 then sqrt (1 / (4 * INR N)) else sqrt (1 / (2 * INR N))) else 1) * (2 * cos (PI * INR j * (2 * INR i + 1) / (2 * INR N))).
Proof. intros Hi Hj. unfold dct. rewrite map_length, seq_length. rewrite nth_map_seq by exact Hj. f_equal. f_equal.
  rewrite (sumn_ext N _ (fun n => cos (PI * INR j * (2 * INR n + 1) / (2 * INR N)) * (if Nat.eqb n i then 1 else 0))); [apply (pick N i (fun n => cos _)), Hi|].
  intros n Hn. rewrite nth_eye by exact Hn. ring. Qed.
Lemma idct_eye o N i j : (i < N)%nat -> (j < N)%nat -> nth j (idct o (map (fun j => if Nat.eqb j i then 1 else 0) (seq 0 N))) 0 =
  if Nat.eqb i 0 then (if o then 1 / sqrt (INR N) else 1) else (if o then sqrt (2 / INR N) else 2) * cos (PI * INR i * (2 * INR j + 1) / (2 * INR N)).
Proof. intros Hi Hj. unfold idct. rewrite map_length, seq_length. rewrite nth_map_seq by exact Hj. rewrite nth_eye by lia. rewrite (Nat.eqb_sym 0 i).
  rewrite (sumn_ext (N - 1) _ (fun n => cos (PI * INR (S n) * (2 * INR j + 1) / (2 * INR N)) * (if Nat.eqb (S n) i then 1 else 0))).
  - destruct i as [|i0].
    + cbn [Nat.eqb]. rewrite (sumn_ext (N - 1) _ (fun _ => 0)) by (intros; ring). rewrite sumn_const. destruct o; unfold Rdiv; ring.
    + cbn [Nat.eqb]. rewrite (pick (N - 1) i0 (fun n => cos (PI * INR (S n) * (2 * INR j + 1) / (2 * INR N)))) by lia. destruct o; unfold Rdiv; ring.
  - intros n Hn. rewrite nth_eye by lia. ring. Qed.
Lemma dct_build_ok units inv o N : (units <= N)%nat -> dct_build units inv o N = Ok (make_dct N units inv o).
Proof. intro H. unfold dct_build. replace (forallb _ _) with true; [reflexivity|]. symmetry. apply forallb_forall. intros r Hr. apply Nat.eqb_eq.
  unfold make_dct in Hr. apply in_map_iff in Hr. destruct Hr as (e & <- & He). unfold eye in He. apply in_map_iff in He. destruct He as (i & <- & _).
  rewrite firstn_length. destruct inv; rewrite ?idct_len, ?dct_len, map_length, seq_length; lia. Qed.
Lemma kernel_entry N units inv o i j : (i < N)%nat -> (j < units)%nat -> (units <= N)%nat ->
  nth j (nth i (make_dct N units inv o) []) 0 = nth j ((if inv then idct o else dct o) (map (fun j => if Nat.eqb j i then 1 else 0) (seq 0 N))) 0.
Proof. intros Hi Hj Hu. unfold make_dct. rewrite (nth_indep _ [] ((fun r => firstn units (if inv then idct o r else dct o r)) [])) by (unfold eye; rewrite !map_length, seq_length; exact Hi).
  rewrite (map_nth (fun r => firstn units (if inv then idct o r else dct o r)) (eye N) []). rewrite eye_row by exact Hi.
  set (r := map _ (seq 0 N)). assert (L : List.length ((if inv then idct o else dct o) r) = N) by (destruct inv; rewrite ?idct_len, ?dct_len; unfold r; rewrite map_length, seq_length; reflexivity).
  replace (if inv then idct o r else dct o r) with ((if inv then idct o else dct o) r) by (destruct inv; reflexivity).
  rewrite <- (firstn_skipn units ((if inv then idct o else dct o) r)) at 2. rewrite app_nth1; [reflexivity|]. rewrite firstn_length. lia. Qed.
Theorem C113_layer units inv o x : (units <= List.length x)%nat -> dct_layer units inv o x = Ok (firstn units ((if inv then idct o else dct o) x)).
Proof. intro H. unfold dct_layer. rewrite dct_build_ok by exact H. cbn [bind]. f_equal. set (N := List.length x) in *. unfold dense_call. fold N.
  assert (L : List.length ((if inv then idct o else dct o) x) = N) by (destruct inv; rewrite ?idct_len, ?dct_len; reflexivity).
  apply nth_ext with (d := 0) (d' := 0); [rewrite map_length, seq_length, firstn_length; lia|]. intros j Hj. rewrite map_length, seq_length in Hj. rewrite nth_map_seq by exact Hj.
  replace (nth j (firstn units ((if inv then idct o else dct o) x)) 0) with (nth j ((if inv then idct o else dct o) x) 0)
    by (rewrite <- (firstn_skipn units ((if inv then idct o else dct o) x)) at 1; apply app_nth1; rewrite firstn_length; lia).
  rewrite (sumn_ext N _ (fun i => nth i x 0 * nth j ((if inv then idct o else dct o) (map (fun j => if Nat.eqb j i then 1 else 0) (seq 0 N))) 0)) by (intros i Hi; rewrite kernel_entry by lia; reflexivity).
  destruct inv.
  - rewrite (sumn_ext N _ (fun i => nth i x 0 * (if Nat.eqb i 0 then (if o then 1 / sqrt (INR N) else 1) else (if o then sqrt (2 / INR N) else 2) * cos (PI * INR i * (2 * INR j + 1) / (2 * INR N)))))
      by (intros i Hi; rewrite idct_eye by lia; reflexivity).
    unfold idct. fold N. rewrite nth_map_seq by lia. destruct N as [|N0]; [lia|]. rewrite sumn_first. cbn [Nat.eqb Nat.sub]. rewrite Nat.sub_0_r.
    destruct o; (f_equal; [unfold Rdiv; ring|]); rewrite <- sumn_mul; apply sumn_ext; intros; ring.
  - rewrite (sumn_ext N _ (fun i => (if o then (if Nat.eqb j 0 then sqrt (1 / (4 * INR N)) else sqrt (1 / (2 * INR N))) else 1) * (2 * (nth i x 0 * cos (PI * INR j * (2 * INR i + 1) / (2 * INR N))))))
      by (intros i Hi; rewrite dct_eye by lia; ring).
    unfold dct. fold N. rewrite nth_map_seq by lia. rewrite !sumn_mul. reflexivity. Qed.
(** two layers of the full size, one the inverse of the other, give the input back *)
Theorem C113_round_trip x : exists y, dct_layer (List.length x) false true x = Ok y /\ dct_layer (List.length x) true true y = Ok x.
Proof. exists (dct true x). rewrite C113_layer by lia. split; [f_equal; rewrite <- (dct_len true x); apply firstn_all|].
  rewrite <- (dct_len true x). rewrite C113_layer by lia. f_equal. rewrite <- (idct_len true (dct true x)), firstn_all. apply C113_idct_dct. Qed.
(** a layer with fewer coefficients cannot be inverted by a layer of the original size: the kernel does not fit. The same for more units than inputs *)
Theorem C113_units_refuted units inv o x : x <> [] -> (List.length x < units)%nat -> dct_layer units inv o x = Err ValueError.
Proof. intros X H. unfold dct_layer, dct_build. replace (forallb _ _) with false; [reflexivity|]. symmetry. destruct x as [|v x]; [congruence|]. cbn [List.length] in *.
  unfold make_dct, eye. cbn [seq map forallb]. apply andb_false_iff. left. apply Nat.eqb_neq. rewrite firstn_length.
  destruct inv; rewrite ?idct_len, ?dct_len; cbn [List.length]; rewrite map_length, seq_length; lia. Qed.

(** ** Liftering *)
(** filters as long as the lifter allows have weights between 1 and 1 + Q/2, and the inverse layer undoes the layer *)
Lemma lifter_len N Q : List.length (lifter N Q) = N. Proof. unfold lifter. rewrite map_length, seq_length. reflexivity. Qed.
Lemma lifter_range N Q f : 0 < Q -> INR N <= Q + 1 -> In f (lifter N Q) -> 1 <= f <= 1 + Q / 2.
Proof. intros HQ HN Hf. unfold lifter in Hf. apply in_map_iff in Hf. destruct Hf as (n & <- & Hn). apply in_seq in Hn. destruct Hn as [_ Hn]. cbn in Hn.
  assert (A : 0 <= INR n) by apply pos_INR. assert (B : INR n <= Q) by (assert (INR n + 1 <= INR N) by (rewrite <- S_INR; apply le_INR; lia); lra). assert (P := PI_RGT_0).
  assert (S0 : 0 <= sin (PI * INR n / Q)).
  { apply sin_ge_0; [unfold Rdiv; apply Rmult_le_pos; [apply Rmult_le_pos; lra|left; apply Rinv_0_lt_compat, HQ]|].
    apply Rmult_le_reg_r with Q; [exact HQ|]. replace (PI * INR n / Q * Q) with (PI * INR n) by (field; lra). apply Rmult_le_compat_l; lra. }
  assert (S1 := proj2 (SIN_bound (PI * INR n / Q))).
  assert (0 <= Q * sin (PI * INR n / Q)) by (apply Rmult_le_pos; lra). assert (Q * sin (PI * INR n / Q) <= Q * 1) by (apply Rmult_le_compat_l; lra). lra. Qed.
Lemma lift_inv_len Q x (g : R -> option R) : List.length (map (fun p : R * option R => option_map (fun f => fst p * f) (snd p)) (combine x (map g (lifter (List.length x) Q)))) = List.length x.
Proof. rewrite map_length, combine_length, map_length, lifter_len. apply Nat.min_id. Qed.
Theorem C113_liftering Q x : 0 < Q -> INR (List.length x) <= Q + 1 ->
  (forall f, In f (lifter (List.length x) Q) -> 1 <= f <= 1 + Q / 2) /\
  exists y, liftering Q false x = map Some y /\ List.length y = List.length x /\ liftering Q true y = map Some x.
Proof. intros HQ HN. split; [intros f Hf; eapply lifter_range; eauto|]. assert (RG := fun f => lifter_range (List.length x) Q f HQ HN). assert (LL := lifter_len (List.length x) Q).
  exists (map (fun p => fst p * snd p) (combine x (lifter (List.length x) Q))).
  assert (LY : List.length (map (fun p => fst p * snd p) (combine x (lifter (List.length x) Q))) = List.length x) by (rewrite map_length, combine_length, LL; apply Nat.min_id).
  unfold liftering, lift_filter. rewrite LY. split; [|split; [reflexivity|]]; clear LY HN; revert RG LL; generalize (lifter (List.length x) Q) as l.
  - induction x as [|v x IH]; intros [|f l] RG LL; cbn in LL; try discriminate; [reflexivity|]. cbn. f_equal. apply IH; [intros g Hg; apply RG; right; exact Hg|congruence].
  - induction x as [|v x IH]; intros [|f l] RG LL; cbn in LL; try discriminate; [reflexivity|]. cbn [combine map fst snd].
    assert (F := RG f (or_introl eq_refl)). destruct (Req_EM_T f 0) as [Z|Z]; [lra|]. cbn [option_map]. f_equal; [f_equal; field; exact Z|].
    apply IH; [intros g Hg; apply RG; right; exact Hg|congruence]. Qed.
(** longer filters go below zero, and the inverse layer can divide by 0: with Q = 2 the fourth weight is 0 *)
Theorem C113_liftering_refuted x a b c d : x = [a; b; c; d] -> exists y, liftering 2 false x = map Some y /\ nth 3 y 1 = 0 /\ nth_error (liftering 2 true y) 3 = Some None.
Proof. intros ->. assert (S3 : 1 + 5 / 10 * 2 * sin (PI * INR 3 / 2) = 0).
  { cbn [INR]. replace (PI * (1 + 1 + 1) / 2) with (3 * (PI / 2)) by field. rewrite sin_3PI2. field. }
  unfold liftering, lift_filter, lifter. cbn [List.length seq map combine option_map fst snd].
  eexists [_; _; _; _]. cbn [map]. split; [reflexivity|]. cbn [nth]. rewrite S3. split; [ring|]. cbn [List.length seq map combine option_map fst snd nth_error]. rewrite S3.
  destruct (Req_EM_T 0 0); [reflexivity|congruence]. Qed.

(** ** Elementwise layers *)
Lemma k_log_pos x : 0 < x -> k_log x = Some (ln x). Proof. intro H. unfold k_log. destruct (Rlt_dec 0 x); [reflexivity|lra]. Qed.
(** the logarithm undoes the exponential and conversely; log1 and neg_log1 are the layers after add1; neg_log is the log of the inverse; all give a value
    exactly on the positive inputs *)
Theorem C113_logs x : log_layer (exp x) = Some x /\ (0 < x -> exists y, log_layer x = Some y /\ exp y = x) /\
  log1_layer x = log_layer (add1 x) /\ neg_log1 x = neg_log (add1 x) /\ (0 < x -> exists y, invert x = Some y /\ log_layer y = neg_log x) /\ (x <= 0 -> log_layer x = None /\ neg_log x = None).
Proof. assert (E := exp_pos x). unfold log_layer. rewrite k_log_pos, ln_exp by exact E. split; [reflexivity|].
  split; [intro H; exists (ln x); rewrite k_log_pos by exact H; split; [reflexivity|apply exp_ln, H]|]. split; [reflexivity|]. split; [reflexivity|]. split.
  - intro H. exists (1 / x). unfold invert. destruct (Req_EM_T x 0); [lra|]. split; [reflexivity|]. unfold neg_log. rewrite !k_log_pos; [|exact H|unfold Rdiv; apply Rmult_lt_0_compat; [lra|apply Rinv_0_lt_compat, H]].
    cbn. f_equal. unfold Rdiv. rewrite Rmult_1_l. apply ln_Rinv, H.
  - intro H. unfold neg_log, k_log. destruct (Rlt_dec 0 x); [lra|]. split; reflexivity. Qed.
Lemma sigmoid_range x : 0 < sigmoid x < 1.
Proof. unfold sigmoid. assert (E := exp_pos (- x)). split; [unfold Rdiv; apply Rmult_lt_0_compat; [lra|apply Rinv_0_lt_compat; lra]|].
  apply Rmult_lt_reg_r with (1 + exp (- x)); [lra|]. unfold Rdiv. rewrite Rmult_assoc, Rinv_l by lra. lra. Qed.
Lemma sigmoid_neg x : sigmoid (- x) = 1 - sigmoid x.
Proof. unfold sigmoid. rewrite Ropp_involutive. assert (E := exp_pos x). assert (E' := exp_pos (- x)). assert (P : exp x * exp (- x) = 1) by (rewrite <- exp_plus, Rplus_opp_r; apply exp_0).
  replace (exp (- x)) with (/ exp x) by (rewrite exp_Ropp; reflexivity). field. split; lra. Qed.
(** NegSoftplus is the logarithm of the sigmoid: negative, below its input, within ln 2 of min(x, 0), increasing, and its values at x and -x differ by x *)
Definition log_sigmoid (x : R) : R := ln (sigmoid x).
Theorem C113_neg_softplus x : neg_softplus x = Some (log_sigmoid x) /\ log_sigmoid x < 0 /\ log_sigmoid x < x /\ Rmin x 0 - ln 2 <= log_sigmoid x /\
  log_sigmoid x - log_sigmoid (- x) = x /\ (forall y, x < y -> log_sigmoid x < log_sigmoid y).
Proof. assert (L : forall x, log_sigmoid x = - ln (1 + exp (- x))).
  { intro z. unfold log_sigmoid, sigmoid, Rdiv. rewrite Rmult_1_l. apply ln_Rinv. assert (E := exp_pos (- z)). lra. }
  assert (E := exp_pos (- x)). split; [unfold neg_softplus; rewrite k_log_pos by lra; cbn; rewrite L; reflexivity|].
  split; [rewrite L; assert (0 < ln (1 + exp (- x))); [rewrite <- ln_1; apply ln_increasing; lra|lra]|].
  split; [rewrite L; assert (- x < ln (1 + exp (- x))); [rewrite <- (ln_exp (- x)) at 1; apply ln_increasing; lra|lra]|]. split.
  - rewrite L. assert (ln (1 + exp (- x)) <= ln 2 - Rmin x 0); [|lra].
    assert (M : 1 + exp (- x) <= 2 * exp (- Rmin x 0)).
    { unfold Rmin. destruct (Rle_dec x 0) as [H|H].
      - assert (1 <= exp (- x)); [|lra]. rewrite <- exp_0. destruct (Req_dec x 0) as [->|]; [rewrite Ropp_0; lra|left; apply exp_increasing; lra].
      - rewrite Ropp_0, exp_0. assert (exp (- x) < 1); [|lra]. rewrite <- exp_0. apply exp_increasing. lra. }
    replace (ln 2 - Rmin x 0) with (ln (2 * exp (- Rmin x 0))) by (rewrite ln_mult; [rewrite ln_exp; ring|lra|apply exp_pos]).
    destruct M as [M|M]; [left; apply ln_increasing; [lra|exact M]|rewrite M; lra].
  - split.
    + rewrite !L, Ropp_involutive. assert (E' := exp_pos x). assert (P : exp x * exp (- x) = 1) by (rewrite <- exp_plus, Rplus_opp_r; apply exp_0).
      replace (1 + exp x) with (exp x * (1 + exp (- x))) by (rewrite Rmult_plus_distr_l, P; ring). rewrite ln_mult, ln_exp by lra. ring.
    + intros y H. rewrite !L. assert (ln (1 + exp (- y)) < ln (1 + exp (- x))); [|lra]. apply ln_increasing; [assert (E2 := exp_pos (- y)); lra|].
      apply Rplus_lt_compat_l, exp_increasing. lra. Qed.
(** Swish: the values at x and -x differ by x, it never exceeds |x|, is half the identity for beta = 0, and for beta > 0 lies below the rectifier by at most
    1/(e beta), so that it tends to the rectifier uniformly as beta grows *)
Theorem C113_swish beta x : swish beta x - swish beta (- x) = x /\ Rabs (swish beta x) <= Rabs x /\ swish 0 x = x / 2 /\
  (0 < beta -> 0 <= Rmax x 0 - swish beta x <= 1 / (exp 1 * beta)).
Proof. assert (SR := sigmoid_range (beta * x)). split; [|split; [|split]].
  - unfold swish. replace (beta * - x) with (- (beta * x)) by ring. rewrite sigmoid_neg. ring.
  - unfold swish. rewrite Rabs_mult, (Rabs_right (sigmoid _)) by lra. rewrite <- (Rmult_1_r (Rabs x)) at 2. apply Rmult_le_compat_l; [apply Rabs_pos|lra].
  - unfold swish, sigmoid. rewrite Rmult_0_l, Ropp_0, exp_0. field.
  - intro HB. assert (X : forall t, 0 <= t -> 0 <= t * sigmoid (- (beta * t)) <= 1 / (exp 1 * beta)).
    { intros t Ht. assert (ST := sigmoid_range (- (beta * t))). split; [apply Rmult_le_pos; lra|]. assert (E1 := exp_pos 1). assert (Et := exp_pos (beta * t)).
      assert (U : beta * t * exp 1 <= exp (beta * t)).
      { assert (Q := exp_ineq1_le (beta * t - 1)). replace (beta * t) with ((beta * t - 1) + 1) at 2 by ring. rewrite exp_plus. apply Rmult_le_compat_r; lra. }
      assert (SE : sigmoid (- (beta * t)) <= / exp (beta * t)).
      { unfold sigmoid. rewrite Ropp_involutive. unfold Rdiv. rewrite Rmult_1_l. apply Rinv_le_contravar; lra. }
      apply Rle_trans with (t * / exp (beta * t)); [apply Rmult_le_compat_l; assumption|].
      apply Rmult_le_reg_r with (exp (beta * t) * (exp 1 * beta)); [apply Rmult_lt_0_compat; [exact Et|apply Rmult_lt_0_compat; assumption]|].
      replace (t * / exp (beta * t) * (exp (beta * t) * (exp 1 * beta))) with (beta * t * exp 1) by (field; lra).
      replace (1 / (exp 1 * beta) * (exp (beta * t) * (exp 1 * beta))) with (exp (beta * t)) by (field; lra). exact U. }
    unfold swish. unfold Rmax. destruct (Rle_dec x 0) as [H|H].
    + specialize (X (- x)). replace (- (beta * - x)) with (beta * x) in X by ring. specialize (X ltac:(lra)). replace (0 - x * sigmoid (beta * x)) with (- x * sigmoid (beta * x)) by ring. exact X.
    + specialize (X x ltac:(lra)). rewrite sigmoid_neg in X. replace (x - x * sigmoid (beta * x)) with (x * (1 - sigmoid (beta * x))) by ring. exact X. Qed.
(** SwishBeta cannot be constructed; ExpandAndTile cannot be called and ExpandDim cannot be constructed; the Mel filter bank layer cannot be built *)
Theorem C113_broken_refuted : swish_beta = Err TypeError /\ expand_tile_call = Err AttributeError /\ expand_dim_init = Err NameError /\
  (forall shape, (2 <= List.length shape)%nat -> mel_build shape = Err NameError).
Proof. repeat split. intros shape H. unfold mel_build. destruct (Nat.ltb_spec (List.length shape) 2); [lia|reflexivity]. Qed.

(** ** ExpTaylor *)
(** the product 1! 2! ... m! *)
Fixpoint superfact (m : nat) : R := match m with O => 1 | S k => superfact k * INR (fact (S k)) end.
Lemma INR_fact_pos n : 0 < INR (fact n). Proof. apply (lt_INR 0). apply lt_O_fact. Qed.
Lemma superfact_pos m : 0 < superfact m.
Proof. induction m; cbn [superfact]; [lra|]. apply Rmult_lt_0_compat; [assumption|apply INR_fact_pos]. Qed.
Lemma taylor_run x steps : forall i y, taylor_loop x steps (S i) (INR (fact i)) (x ^ S i / superfact i) y = y + sumn steps (fun k => x ^ (S (S (i + k))) / superfact (S (i + k))).
Proof. induction steps as [|n IH]; intros i y; [cbn [taylor_loop]; rewrite sumn_0; ring|]. cbn [taylor_loop].
  replace (INR (S i) * INR (fact i)) with (INR (fact (S i))) by (rewrite <- mult_INR; reflexivity).
  replace (x ^ S i / superfact i * x / INR (fact (S i))) with (x ^ S (S i) / superfact (S i)).
  - rewrite IH, sumn_first, Nat.add_0_r. rewrite <- Rplus_assoc. f_equal. apply sumn_ext. intros k _. rewrite Nat.add_succ_r. reflexivity.
  - assert (P1 := superfact_pos i). assert (P2 := INR_fact_pos (S i)). cbn [superfact]. replace (x ^ S (S i)) with (x ^ S i * x) by (cbn; ring). field. split; lra. Qed.
(** what it computes: the coefficient of x^(k+1) is 1/(1! 2! ... k!) *)
Theorem C113_taylor order x : exp_taylor order x = 1 + x + sumn (order - 1) (fun k => x ^ (S (S k)) / superfact (S k)).
Proof. unfold exp_taylor. assert (T := taylor_run x (order - 1) 0 (x + 1)). cbn [fact superfact INR] in T. replace (x ^ 1 / 1) with x in T by (cbn; field). rewrite T. rewrite (Rplus_comm x 1). reflexivity. Qed.
(** of order one it is the tangent, below the exponential everywhere *)
Theorem C113_taylor_1 x : exp_taylor 1 x = 1 + x /\ exp_taylor 1 x <= exp x.
Proof. rewrite C113_taylor. cbn [Nat.sub]. rewrite sumn_0. split; [ring|]. rewrite Rplus_0_r. apply exp_ineq1_le. Qed.
(** from order two on it is not the Taylor polynomial (the coefficient of x^2 is 1, not 1/2): it exceeds the exponential on (0, 1/4], and order two is a
    worse approximation than order one at every negative input *)
Lemma exp_upper x : 0 < x <= 1 / 4 -> exp x < 1 + x + x * x.
Proof. intros [H0 H1]. assert (Q := exp_ineq1 (- (x / 2)) ltac:(lra)). assert (P : exp (x / 2) * exp (- (x / 2)) = 1) by (rewrite <- exp_plus, Rplus_opp_r; apply exp_0).
  assert (E : exp x = exp (x / 2) * exp (x / 2)) by (rewrite <- exp_plus; f_equal; field). assert (Ep := exp_pos (x / 2)).
  set (e := exp (x / 2)) in *. set (d := exp (- (x / 2))) in *. rewrite E.
  assert (B : e * (1 - x / 2) < 1) by (rewrite <- P; apply Rmult_lt_compat_l; lra).
  assert (B2 : e * e * ((1 - x / 2) * (1 - x / 2)) < 1).
  { replace (e * e * ((1 - x / 2) * (1 - x / 2))) with ((e * (1 - x / 2)) * (e * (1 - x / 2))) by ring. assert (0 <= e * (1 - x / 2)) by (apply Rmult_le_pos; lra). nra. }
  assert (C : 1 < (1 + x + x * x) * ((1 - x / 2) * (1 - x / 2))).
  { replace ((1 + x + x * x) * ((1 - x / 2) * (1 - x / 2))) with (1 + x * x * ((1 - 3 * x + x * x) / 4)) by field.
    assert (0 < x * x * ((1 - 3 * x + x * x) / 4)); [|lra]. apply Rmult_lt_0_compat; [apply Rmult_lt_0_compat; assumption|]. assert (0 < x * x) by (apply Rmult_lt_0_compat; assumption). lra. }
  apply Rmult_lt_reg_r with ((1 - x / 2) * (1 - x / 2)); [apply Rmult_lt_0_compat; lra|]. lra. Qed.
Lemma exp_neg_upper x : x < 0 -> exp x < 1 + x + x * x / 2.
Proof. intro H. destruct (MVT_cor2 (fun z => 1 + z + z * z / 2 - exp z) (fun z => 1 + z - exp z) x 0 H) as (c & E & Hc).
  - intros z _. change (fun z => 1 + z + z * z / 2 - exp z) with (((fct_cte 1 + id) + (id * id) * fct_cte (/ 2)) - exp)%F.
    replace (1 + z - exp z) with ((0 + 1) + ((1 * id z + id z * 1) * fct_cte (/ 2) z + (id * id)%F z * 0) - exp z) by (unfold id, fct_cte; field).
    apply derivable_pt_lim_minus; [|apply derivable_pt_lim_exp]. apply derivable_pt_lim_plus.
    + apply derivable_pt_lim_plus; [apply derivable_pt_lim_const|apply derivable_pt_lim_id].
    + apply derivable_pt_lim_mult; [apply derivable_pt_lim_mult; apply derivable_pt_lim_id|apply derivable_pt_lim_const].
  - rewrite exp_0 in E. assert (Q := exp_ineq1 c ltac:(lra)). assert (0 < (exp c - (1 + c)) * (0 - x)) by (apply Rmult_lt_0_compat; lra).
    assert ((1 + c - exp c) * (0 - x) = - ((exp c - (1 + c)) * (0 - x))) by ring. lra. Qed.
Theorem C113_taylor_refuted x : (forall order, (2 <= order)%nat -> 0 < x <= 1 / 4 -> exp x < exp_taylor order x) /\
  exp_taylor 2 x = 1 + x + x * x /\ (x < 0 -> Rabs (exp x - exp_taylor 1 x) < Rabs (exp x - exp_taylor 2 x)).
Proof. assert (S1 : superfact 1 = 1) by (cbn; ring). assert (T2 : exp_taylor 2 x = 1 + x + x * x).
  { rewrite C113_taylor. change (2 - 1)%nat with 1%nat. rewrite sumn_first, sumn_0, S1. cbn [pow]. field. }
  split; [|split; [exact T2|]].
  - intros order HO HX. rewrite C113_taylor. replace (order - 1)%nat with (S (order - 2)) by lia. rewrite sumn_first, S1. assert (U := exp_upper x HX).
    assert (0 <= sumn (order - 2) (fun k => x ^ S (S (S k)) / superfact (S (S k)))).
    { apply sumn_nonneg. intros k _. apply Rmult_le_pos; [apply pow_le; lra|left; apply Rinv_0_lt_compat, superfact_pos]. }
    replace (x ^ 2 / 1) with (x * x) by field. lra.
  - intro H. rewrite T2. destruct (C113_taylor_1 x) as [-> L]. assert (U := exp_neg_upper x H). assert (U2 := exp_ineq1 x ltac:(lra)). assert (0 < x * x) by nra.
    rewrite Rabs_right by lra. rewrite Rabs_left by lra. lra. Qed.

(** ** Masks, biases, shapes *)
(** the frames padded with the mask value get 0, the others 1 exactly when some feature differs from it *)
Theorem C113_mask v x m d : Forall (fun r => exists u, In u r /\ u <> v) x -> create_mask v (x ++ repeat (repeat v d) m) = repeat 1 (List.length x) ++ repeat 0 m.
Proof. intro F. unfold create_mask. rewrite map_app. f_equal.
  - induction F as [|r x (u & Hu & NE) _ IH]; [reflexivity|]. cbn [map List.length repeat]. rewrite IH. f_equal. replace (existsb _ r) with true; [reflexivity|].
    symmetry. apply existsb_exists. exists u. split; [exact Hu|]. destruct (Req_EM_T u v); [contradiction|reflexivity].
  - induction m as [|m IH]; [reflexivity|]. cbn [repeat map]. rewrite IH. f_equal. replace (existsb _ _) with false; [reflexivity|]. symmetry. apply not_true_is_false. intro E.
    apply existsb_exists in E. destruct E as (u & Hu & E). apply repeat_spec in Hu. subst u. destruct (Req_EM_T v v); congruence. Qed.
(** a frame of the sequence all of whose features equal the mask value is taken for padding *)
Theorem C113_mask_refuted v x y d : nth (List.length x) (create_mask v (x ++ repeat v d :: y)) 1 = 0.
Proof. unfold create_mask. rewrite map_app, app_nth2; rewrite map_length; [|lia]. rewrite Nat.sub_diag. cbn [map nth]. replace (existsb _ _) with false; [reflexivity|].
  symmetry. apply not_true_is_false. intro E. apply existsb_exists in E. destruct E as (u & Hu & E). apply repeat_spec in Hu. subst u. destruct (Req_EM_T v v); congruence. Qed.
(** a bias of the size of the input adds its values, and the declared size is right; a single bias goes to every feature but the declared size is then 1; a
    bias of any other size is refused when the input has more than one feature *)
Theorem C113_bias b x : List.length b = List.length x -> exists y, bias_call b x = Ok y /\ List.length y = List.length x /\ (forall j, (j < List.length x)%nat -> nth j y 0 = nth j x 0 + nth j b 0) /\
  (x <> [] -> bias_output_size (List.length b) (List.length x) = Ok (List.length y)).
Proof. intro L. exists (map (fun p => fst p + snd p) (combine x b)). assert (LY : List.length (map (fun p => fst p + snd p) (combine x b)) = List.length x) by (rewrite map_length, combine_length, L; apply Nat.min_id).
  unfold bias_call, broadcast_add. rewrite L, Nat.eqb_refl. split; [reflexivity|]. split; [exact LY|]. split.
  - intros j Hj. rewrite (nth_indep _ 0 ((fun p => fst p + snd p) (0, 0))) by (rewrite LY; exact Hj). rewrite (map_nth (fun p => fst p + snd p)). rewrite combine_nth by congruence. reflexivity.
  - intro X. unfold bias_output_size. destruct x; [congruence|]. cbn [List.length Nat.eqb]. f_equal. symmetry. exact LY. Qed.
Theorem C113_bias_refuted y x : (2 <= List.length x)%nat -> bias_call [y] x = Ok (map (fun v => v + y) x) /\ bias_output_size 1 (List.length x) = Ok 1%nat /\
  (forall b, List.length b <> 1%nat -> List.length b <> List.length x -> bias_call b x = Err ValueError).
Proof. intro H. destruct x as [|v [|w x]]; cbn [List.length] in H; try lia. split; [reflexivity|]. split; [reflexivity|]. intros b B1 B2. unfold bias_call, broadcast_add.
  destruct (Nat.eqb_spec (List.length (v :: w :: x)) (List.length b)) as [E|E]; [congruence|]. destruct b as [|p [|q b]]; [reflexivity|cbn in B1; congruence|reflexivity]. Qed.
(** the shape ExpandAndTile declares is right from the left, and wrong for every negative axis: the size multiplied is not the new one's. With the default
    axis -1 the last size is multiplied instead *)
Theorem C113_expand n axis shape : (0 <= axis <= Z.of_nat (List.length shape))%Z -> expand_tile_shape n axis shape = Ok (firstn (Z.to_nat axis) shape ++ n :: skipn (Z.to_nat axis) shape).
Proof. intro H. set (k := Z.to_nat axis). assert (K : (k <= List.length shape)%nat) by lia. unfold expand_tile_shape, py_insert.
  destruct (Z.ltb_spec axis 0); [lia|]. rewrite Z.min_r by lia. fold k. assert (F : List.length (firstn k shape) = k) by (rewrite firstn_length; lia).
  unfold py_mul_at. rewrite app_length, F. cbn [List.length]. rewrite skipn_length.
  destruct (Z.ltb_spec axis 0); [lia|]. destruct (Z.leb_spec 0 axis); [|lia]. destruct (Z.ltb_spec axis (Z.of_nat (k + S (List.length shape - k)))); [|lia]. cbn [andb]. fold k. f_equal.
  rewrite firstn_app, F, Nat.sub_diag. cbn [firstn]. rewrite app_nil_r, firstn_firstn, Nat.min_id. f_equal. rewrite app_nth2, F, Nat.sub_diag by lia. cbn [nth]. f_equal; [destruct n; reflexivity|].
  rewrite skipn_app, F, (skipn_all2 (firstn k shape)) by lia. replace (S k - k)%nat with 1%nat by lia. reflexivity. Qed.
Theorem C113_expand_refuted n shape d : expand_tile_shape n (-1) (shape ++ [d]) = Ok (shape ++ [1%Z; (d * n)%Z]).
Proof. unfold expand_tile_shape, py_insert. rewrite app_length. cbn [List.length]. change (-1 <? 0)%Z with true. cbv iota.
  replace (Z.to_nat (Z.min (Z.of_nat (List.length shape + 1)) (Z.max 0 (Z.of_nat (List.length shape + 1) + -1)))) with (List.length shape) by lia.
  rewrite firstn_app, Nat.sub_diag, firstn_all, skipn_app, Nat.sub_diag, skipn_all. cbn [firstn skipn app]. rewrite app_nil_r.
  unfold py_mul_at. change (-1 <? 0)%Z with true. cbv iota. rewrite app_length. cbn [List.length].
  destruct (Z.leb_spec 0 (Z.of_nat (List.length shape + 2) + -1)); [|lia]. destruct (Z.ltb_spec (Z.of_nat (List.length shape + 2) + -1) (Z.of_nat (List.length shape + 2))); [|lia]. cbn [andb]. f_equal.
  replace (Z.to_nat (Z.of_nat (List.length shape + 2) + -1)) with (S (List.length shape)) by lia.
  rewrite firstn_app, app_nth2, skipn_app by lia. rewrite firstn_all2 by lia. rewrite (skipn_all2 shape) by lia.
  replace (S (List.length shape) - List.length shape)%nat with 1%nat by lia. replace (S (S (List.length shape)) - List.length shape)%nat with 2%nat by lia.
  cbn [firstn nth skipn app]. rewrite <- app_assoc. reflexivity. Qed.
Print Assumptions C113_round_trip. Print Assumptions C113_energy. Print Assumptions C113_layer. Print Assumptions C113_liftering.
Print Assumptions C113_swish. Print Assumptions C113_neg_softplus. Print Assumptions C113_taylor_refuted. Print Assumptions C113_mask. Print Assumptions C113_expand.
(** ** Witnesses *)
Example C113_lift_witness : 0 < 22 /\ INR (List.length [1; 2; 3]) <= 22 + 1. Proof. cbn. lra. Qed.
Example C113_mask_witness : Forall (fun r => exists u, In u r /\ u <> 0) [[0; 1]; [2; 0]].
Proof. repeat constructor; [exists 1|exists 2]; cbn; (split; [auto|lra]). Qed.
Example C113_expand_witness : expand_tile_shape 7 1 [4; 5; 6]%Z = Ok [4; 7; 5; 6]%Z /\ expand_tile_shape 7 (-1) [4; 5; 6]%Z = Ok [4; 5; 1; 42]%Z. Proof. split; reflexivity. Qed.
