(** rocch2eer on a convex polyline. *)
From Coq Require Import QArith Lqa.
From Verif Require Import Metrics.
Open Scope list_scope.
Open Scope nat_scope.

(** consecutive vertices *)
Definition seg_of (vs : list (Q * Q)) (i : nat) (p q : Q * Q) : Prop := nth_error vs i = Some p /\ nth_error vs (S i) = Some q.

(** a polyline of points (miss, false alarm) going down from (0, A) to (B, 0) *)
Record descending (vs : list (Q * Q)) (A B : Q) : Prop := {
  d_first : exists p, nth_error vs 0 = Some p /\ (fst p == 0 /\ snd p == A)%Q;
  d_last : exists p, nth_error vs (len vs - 1) = Some p /\ (fst p == B /\ snd p == 0)%Q;
  d_two : 2 <= len vs;
  d_step : forall i p q, seg_of vs i p q -> (fst p <= fst q /\ snd q <= snd p /\ fst p - snd p < fst q - snd q)%Q }.
Definition convex (vs : list (Q * Q)) : Prop :=
  forall i j p q r s, i < j -> seg_of vs i p q -> seg_of vs j r s -> ((fst q - fst p) * (snd r - snd s) < (fst s - fst r) * (snd p - snd q))%Q.

(** the point (x, y) is on the polyline *)
Definition on_polyline (vs : list (Q * Q)) (x y : Q) : Prop :=
  exists i p q a, seg_of vs i p q /\ (0 <= a <= 1 /\ x == fst p + a * (fst q - fst p) /\ y == snd p + a * (snd q - snd p))%Q.

Section Poly.
Variables (vs : list (Q * Q)) (A B : Q).
Hypothesis D : descending vs A B.
Hypothesis C : convex vs.

Lemma vx i : i < len vs -> exists p, nth_error vs i = Some p.
Proof. intros L. destruct (nth_error vs i) eqn:E; [eexists; reflexivity|apply nth_error_None in E; lia]. Qed.
Lemma v_lt i p : nth_error vs i = Some p -> i < len vs.
Proof. intros E. apply nth_error_Some. congruence. Qed.

Lemma v_mono i j p q : i <= j -> nth_error vs i = Some p -> nth_error vs j = Some q -> (fst p <= fst q /\ snd q <= snd p)%Q.
Proof.
  intros L. revert q. induction L as [|j L IH]; intros q P Q; [rewrite P in Q; injection Q as ->; split; apply Qle_refl|].
  destruct (vx j) as (r & R); [apply v_lt in Q; lia|]. destruct (IH r P R). destruct (d_step _ _ _ D j r q (conj R Q)) as (X & Y & _). lra.
Qed.
Lemma v_nonneg i p : nth_error vs i = Some p -> (0 <= fst p /\ 0 <= snd p)%Q.
Proof.
  intros P. destruct (d_first _ _ _ D) as (f & F1 & F2 & F3). destruct (d_last _ _ _ D) as (l & L1 & L2 & L3). pose proof (v_lt i p P).
  destruct (v_mono 0 i f p ltac:(lia) F1 P) as (X & _). destruct (v_mono i (len vs - 1) p l ltac:(lia) P L1) as (_ & Y). lra.
Qed.

(** every vertex is on or above the line of a segment *)
Lemma support j r s i p : seg_of vs j r s -> nth_error vs i = Some p ->
  ((snd r - snd s) * fst r + (fst s - fst r) * snd r <= (snd r - snd s) * fst p + (fst s - fst r) * snd p)%Q.
Proof.
  intros Sg P. destruct (le_lt_dec i j) as [L|L].
  - (* before: walk down from j to i *)
    assert (G : forall d i p, i + d = j -> nth_error vs i = Some p -> ((snd r - snd s) * fst r + (fst s - fst r) * snd r <= (snd r - snd s) * fst p + (fst s - fst r) * snd p)%Q).
    { clear i p P L. induction d as [|d IH]; intros i p E P.
      - rewrite Nat.add_0_r in E. subst i. destruct Sg as (R & _). rewrite P in R. injection R as ->. apply Qle_refl.
      - destruct (vx (S i)) as (q & Q). { destruct Sg as (_ & R). apply v_lt in R. lia. }
        specialize (IH (S i) q ltac:(lia) Q). pose proof (C i j p q r s ltac:(lia) (conj P Q) Sg). lra. }
    apply (G (j - i) i p); [lia|exact P].
  - assert (G : forall d i p, i = S j + d -> nth_error vs i = Some p -> ((snd r - snd s) * fst r + (fst s - fst r) * snd r <= (snd r - snd s) * fst p + (fst s - fst r) * snd p)%Q).
    { clear i p P L. induction d as [|d IH]; intros i p E P.
      - rewrite Nat.add_0_r in E. subst i. destruct Sg as (_ & R). rewrite P in R. injection R as ->. lra.
      - destruct (vx (S j + d)) as (q & Q). { apply v_lt in P. lia. } subst i. replace (S j + S d) with (S (S j + d)) in P by lia.
        specialize (IH (S j + d) q eq_refl Q). pose proof (C j (S j + d) r s q p ltac:(lia) Sg (conj Q P)). lra. }
    apply (G (i - S j) i p); [lia|exact P].
Qed.

(** the crossing with the diagonal *)
Lemma ends_pos : (0 <= A /\ 0 <= B /\ 0 < A + B)%Q.
Proof.
  destruct (d_first _ _ _ D) as (f & F1 & F2 & F3). destruct (d_last _ _ _ D) as (l & L1 & L2 & L3). pose proof (d_two _ _ _ D).
  destruct (v_nonneg _ _ F1). destruct (v_nonneg _ _ L1). destruct (vx 1) as (q & Q); [lia|]. destruct (d_step _ _ _ D 0 f q (conj F1 Q)) as (X & Y & Z).
  destruct (v_mono 1 (len vs - 1) q l ltac:(lia) Q L1). lra.
Qed.

Lemma crossing : exists i p q, seg_of vs i p q /\ (fst p <= snd p /\ snd q <= fst q)%Q.
Proof.
  destruct (d_first _ _ _ D) as (f & F1 & F2 & F3). destruct (d_last _ _ _ D) as (l & L1 & L2 & L3). pose proof (d_two _ _ _ D) as T. destruct ends_pos as (PA & PB & _).
  assert (G : forall k p, k <= len vs - 1 -> nth_error vs k = Some p -> (snd p <= fst p)%Q -> exists i p q, seg_of vs i p q /\ (fst p <= snd p /\ snd q <= fst q)%Q).
  { induction k as [|k IH]; intros p K P X.
    - rewrite F1 in P. injection P as <-. destruct (vx 1) as (q & Q); [lia|]. exists 0, f, q. split; [split; assumption|]. destruct (d_step _ _ _ D 0 f q (conj F1 Q)) as (_ & _ & Z). lra.
    - destruct (vx k) as (r & R); [lia|]. destruct (Qlt_le_dec (fst r) (snd r)) as [Y|Y].
      + exists k, r, p. split; [split; assumption|]. lra.
      + apply (IH r); [lia|exact R|exact Y]. }
  apply (G (len vs - 1) l (le_n _) L1). lra.
Qed.

(** the height of the crossing *)
Definition cross_at (p q : Q * Q) : Q := ((snd p * fst q - fst p * snd q) / ((fst q - fst p) + (snd p - snd q)))%Q.

Lemma cross_on i p q : seg_of vs i p q -> (fst p <= snd p)%Q -> (snd q <= fst q)%Q -> on_polyline vs (cross_at p q) (cross_at p q).
Proof.
  intros Sg X Y. destruct (d_step _ _ _ D i p q Sg) as (S1 & S2 & S3). set (w := ((fst q - fst p) + (snd p - snd q))%Q). assert (W : (0 < w)%Q) by (unfold w; lra).
  exists i, p, q, ((snd p - fst p) / w)%Q. split; [exact Sg|]. split; [split|split].
  - apply Qle_shift_div_l; [exact W|lra].
  - apply Qle_shift_div_r; [exact W|unfold w; lra].
  - unfold cross_at. fold w. assert (E : (w == (fst q - fst p) + (snd p - snd q))%Q) by reflexivity. field_simplify_eq; [|lra]. rewrite E. ring.
  - unfold cross_at. fold w. assert (E : (w == (fst q - fst p) + (snd p - snd q))%Q) by reflexivity. field_simplify_eq; [|lra]. rewrite E. ring.
Qed.

Lemma on_above j r s x y : seg_of vs j r s -> on_polyline vs x y -> ((snd r - snd s) * fst r + (fst s - fst r) * snd r <= (snd r - snd s) * x + (fst s - fst r) * y)%Q.
Proof.
  intros Sg (i & p & q & a & (P & Q) & A0 & X & Y). pose proof (support j r s i p Sg P) as S1. pose proof (support j r s (S i) q Sg Q) as S2. rewrite X, Y.
  set (al := (snd r - snd s)%Q) in *. set (be := (fst s - fst r)%Q) in *. set (c := (al * fst r + be * snd r)%Q) in *. clearbody al be c. nra.
Qed.

Lemma on_nonneg x y : on_polyline vs x y -> (0 <= x /\ 0 <= y)%Q.
Proof.
  intros (i & p & q & a & (P & Q) & A0 & X & Y). destruct (v_nonneg i p P). destruct (v_nonneg (S i) q Q). rewrite X, Y. split; nra.
Qed.

(** one candidate *)
Lemma seg_value i p q e : seg_of vs i p q -> on_polyline vs e e -> exists c, eer_seg p q = Ok c /\ (0 <= c <= e)%Q /\
  ((~ snd p == snd q)%Q -> (~ fst p == fst q)%Q -> (c == cross_at p q)%Q).
Proof.
  intros Sg On. destruct (on_nonneg e e On) as (E0 & _). destruct (d_step _ _ _ D i p q Sg) as (S1 & S2 & S3). destruct p as (m0, f0), q as (m1, f1). cbn [fst snd] in *. unfold eer_seg.
  destruct (Qeq_bool (f0 - f1) 0) eqn:Z1.
  - apply Qeq_bool_iff in Z1. exists 0%Q. split; [reflexivity|]. split; [split; [apply Qle_refl|exact E0]|]. intros N _. exfalso. apply N. lra.
  - destruct (Qeq_bool (m0 - m1) 0) eqn:Z2; cbn [orb].
    + apply Qeq_bool_iff in Z2. exists 0%Q. split; [reflexivity|]. split; [split; [apply Qle_refl|exact E0]|]. intros _ N. exfalso. apply N. lra.
    + assert (N1 : (~ f0 - f1 == 0)%Q) by (intros X; apply Qeq_bool_iff in X; congruence). assert (N2 : (~ m0 - m1 == 0)%Q) by (intros X; apply Qeq_bool_iff in X; congruence).
      assert (P1 : (f1 < f0)%Q) by (apply Qnot_le_lt; intros X; apply N1; lra). assert (P2 : (m0 < m1)%Q) by (apply Qnot_le_lt; intros X; apply N2; lra).
      destruct (v_nonneg _ _ (proj1 Sg)) as (M0 & _). destruct (v_nonneg _ _ (proj2 Sg)) as (_ & F1). cbn [fst snd] in *.
      assert (DP : (0 < f0 * m1 - m0 * f1)%Q) by nra. destruct (Qeq_bool (f0 * m1 - m0 * f1) 0) eqn:Z3; [apply Qeq_bool_iff in Z3; lra|].
      set (det := (f0 * m1 - m0 * f1)%Q) in *. eexists. split; [reflexivity|].
      assert (EC : (1 / ((m1 - m0) / det + (f0 - f1) / det) == det / ((m1 - m0) + (f0 - f1)))%Q) by (field; repeat split; lra).
      pose proof (on_above i (m0, f0) (m1, f1) e e Sg On) as AB. cbn [fst snd] in AB. rewrite EC. split; [split|].
      * apply Qle_shift_div_l; lra.
      * apply Qle_shift_div_r; [lra|]. unfold det. lra.
      * intros _ _. unfold cross_at. cbn [fst snd]. reflexivity.
Qed.
End Poly.

Lemma qmax_spec a b : (a <= qmax a b /\ b <= qmax a b)%Q /\ (qmax a b = a \/ qmax a b = b).
Proof. unfold qmax. destruct (Qle_bool a b) eqn:E; [apply Qle_bool_iff in E; split; [split; [exact E|apply Qle_refl]|right; reflexivity]|]. split; [|left; reflexivity]. split; [apply Qle_refl|]. destruct (Qlt_le_dec a b) as [X|X]; [|exact X]. apply Qlt_le_weak, Qle_bool_iff in X. congruence. Qed.

Lemma eer_loop_max E : forall vs e0, (0 <= e0 <= E)%Q -> (forall i p q, seg_of vs i p q -> exists c, eer_seg p q = Ok c /\ (0 <= c <= E)%Q) ->
  exists e, eer_loop e0 vs = Ok e /\ (e0 <= e <= E)%Q /\ forall i p q c, seg_of vs i p q -> eer_seg p q = Ok c -> (c <= e)%Q.
Proof.
  induction vs as [|p vs IH]; intros e0 H0 Hs; [exists e0; split; [reflexivity|]; split; [lra|]; intros i p q c (X & _); destruct i; discriminate X|].
  destruct vs as [|q vs]; [exists e0; split; [reflexivity|]; split; [lra|]; intros i x y c (_ & X); destruct i; discriminate X|].
  change (eer_loop e0 (p :: q :: vs)) with (e <- eer_seg p q ;; eer_loop (qmax e0 e) (q :: vs)). destruct (Hs 0 p q (conj eq_refl eq_refl)) as (c & Ec & Bc). rewrite Ec. cbn [bind].
  destruct (qmax_spec e0 c) as ((M1 & M2) & M3). destruct (IH (qmax e0 c)) as (e & E1 & E2 & E3).
  - destruct M3 as [->| ->]; lra.
  - intros i x y (X & Y). apply (Hs (S i) x y). split; assumption.
  - exists e. split; [exact E1|]. split; [lra|]. intros [|i] x y c' (X & Y) Ec'.
    + cbn in X, Y. injection X as <-. injection Y as <-. rewrite Ec in Ec'. injection Ec' as <-. lra.
    + apply (E3 i x y c'); [split; assumption|exact Ec'].
Qed.

Lemma qsorted_ok l : (forall i a b, nth_error l i = Some a -> nth_error l (S i) = Some b -> (a <= b)%Q) -> qsorted l = true.
Proof.
  induction l as [|a l IH]; intros Hl; [reflexivity|]. destruct l as [|b l]; [reflexivity|]. change (qsorted (a :: b :: l)) with (Qle_bool a b && qsorted (b :: l)). rewrite IH by (intros i x y X Y; apply (Hl (S i)); assumption).
  rewrite (proj2 (Qle_bool_iff a b)); [reflexivity|]. apply (Hl 0); reflexivity.
Qed.
Lemma nth_error_rev {A} (l : list A) i : i < len l -> nth_error (rev l) i = nth_error l (len l - 1 - i).
Proof.
  intros L. destruct (nth_error l (len l - 1 - i)) as [x|] eqn:E; [|apply nth_error_None in E; lia]. assert (X : nth (len l - 1 - i) l x = x) by (apply nth_error_nth; exact E).
  rewrite (nth_error_nth' _ x) by (rewrite rev_length; exact L). rewrite rev_nth by exact L. f_equal. replace (len l - S i) with (len l - 1 - i) by lia. exact X.
Qed.

(** the polyline meets the diagonal once *)
Lemma on_diag vs A B : descending vs A B -> forall x y, on_polyline vs x x -> on_polyline vs y y -> (x <= y)%Q.
Proof.
  intros D x y (i & p & q & a & (P & Q) & A0 & X & X') (j & r & s & b & (R & S) & B0 & Y & Y'). destruct (lt_eq_lt_dec i j) as [[L|L]|L].
  - destruct (v_mono vs A B D (Datatypes.S i) j q r L Q R) as (V1 & _). destruct (d_step _ _ _ D i p q (conj P Q)) as (W1 & _). destruct (d_step _ _ _ D j r s (conj R S)) as (W2 & _). rewrite X, Y. nra.
  - subst j. rewrite P in R. rewrite Q in S. injection R as <-. injection S as <-. destruct (d_step _ _ _ D i p q (conj P Q)) as (W1 & W2 & W3).
    destruct (Qlt_le_dec b a) as [T|T]; [|rewrite X, Y; nra]. rewrite X', Y'. nra.
  - destruct (v_mono vs A B D (Datatypes.S j) i s p L S P) as (_ & V1). destruct (d_step _ _ _ D i p q (conj P Q)) as (_ & W1 & _). destruct (d_step _ _ _ D j r s (conj R S)) as (_ & W2 & _). rewrite X', Y'. nra.
Qed.

(** The result of rocch2eer is the height at which the polyline crosses the diagonal. *)
Lemma rocch2eer_ok vs A B : descending vs A B -> convex vs -> exists e, rocch2eer vs = Ok e /\ on_polyline vs e e /\
  (forall j r s, seg_of vs j r s -> (fst r <= snd r)%Q -> (snd s <= fst s)%Q -> (e == cross_at r s)%Q).
Proof.
  intros D C. unfold rocch2eer, assert.
  rewrite qsorted_ok. 2:{ intros i a b X Y. rewrite nth_error_map in X, Y. destruct (nth_error vs i) as [p|] eqn:P; [|discriminate]. destruct (nth_error vs (S i)) as [q|] eqn:Q; [|discriminate]. injection X as <-. injection Y as <-. apply (d_step _ _ _ D i p q (conj P Q)). }
  rewrite qsorted_ok. 2:{ intros i a b X Y. assert (L : S i < len vs) by (assert (S i < len (rev (map snd vs))) by (apply nth_error_Some; congruence); rewrite rev_length, map_length in *; lia).
    rewrite nth_error_rev in X, Y by (rewrite map_length; lia). rewrite map_length, nth_error_map in X, Y. replace (len vs - 1 - i) with (S (len vs - 1 - S i)) in X by lia.
    destruct (nth_error vs (len vs - 1 - S i)) as [p|] eqn:P; [|discriminate]. destruct (nth_error vs (S (len vs - 1 - S i))) as [q|] eqn:Q; [|discriminate]. injection X as <-. injection Y as <-. apply (d_step _ _ _ D _ p q (conj P Q)). }
  cbn [bind]. destruct (crossing vs A B D) as (i & p & q & Sg & X & Y). pose proof (cross_on vs A B D i p q Sg X Y) as On. set (E := cross_at p q) in *. destruct (on_nonneg vs A B D E E On) as (E0 & _).
  destruct (eer_loop_max E vs 0%Q ltac:(lra)) as (e & E1 & E2 & E3).
  { intros j r s Sj. destruct (seg_value vs A B D C j r s E Sj On) as (c & A1 & A2 & _). exists c. split; assumption. }
  assert (EE : (e == E)%Q).
  { destruct (seg_value vs A B D C i p q E Sg On) as (c & A1 & A2 & A3). pose proof (E3 i p q c Sg A1) as LC.
    destruct (Qeq_dec (fst p) (fst q)) as [M|M].
    - (* horizontal in misses: only the first segment, at miss = 0 *)
      assert (I0 : i = 0). { destruct i as [|i]; [reflexivity|]. exfalso. destruct (vx vs i) as (o & O); [destruct Sg as (X1 & _); apply v_lt in X1; lia|]. pose proof (C i (S i) o p p q ltac:(lia) (conj O (proj1 Sg)) Sg) as CC. destruct (d_step _ _ _ D i o p (conj O (proj1 Sg))) as (T1 & T2 & _). destruct (d_step _ _ _ D (S i) p q Sg) as (T3 & T4 & _).
        assert ((fst q - fst p) * (snd o - snd p) == 0)%Q by (rewrite M; ring). nra. }
      subst i. destruct (d_first _ _ _ D) as (f & F1 & F2 & F3). destruct Sg as (S1 & S2). rewrite F1 in S1. injection S1 as <-.
      assert (Ez : (E == 0)%Q). { unfold E, cross_at. assert (N : (snd f * fst q - fst f * snd q == 0)%Q) by (rewrite <- M, F2; ring). rewrite N. unfold Qdiv. ring. } rewrite Ez in *. lra.
    - destruct (Qeq_dec (snd p) (snd q)) as [M'|M'].
      + assert (IL : S i = len vs - 1). { destruct (Nat.eq_dec (S i) (len vs - 1)) as [T|T]; [exact T|]. exfalso. assert (L : S (S i) < len vs) by (destruct Sg as (_ & X1); apply v_lt in X1; lia). destruct (vx vs (S (S i)) L) as (o & O). pose proof (C i (S i) p q q o ltac:(lia) Sg (conj (proj2 Sg) O)) as CC.
          destruct (d_step _ _ _ D i p q Sg) as (T1 & T2 & _). destruct (d_step _ _ _ D (S i) q o (conj (proj2 Sg) O)) as (T3 & T4 & _). assert ((fst o - fst q) * (snd p - snd q) == 0)%Q by (rewrite M'; ring). nra. }
        destruct (d_last _ _ _ D) as (l & L1 & L2 & L3). destruct Sg as (S1 & S2). rewrite IL, L1 in S2. injection S2 as <-.
        assert (Ez : (E == 0)%Q). { unfold E, cross_at. assert (N : (snd p * fst l - fst p * snd l == 0)%Q) by (rewrite M', L3; ring). rewrite N. unfold Qdiv. ring. } rewrite Ez in *. lra.
      + specialize (A3 M' M). fold E in A3. lra. }
  exists e. split; [exact E1|]. split.
  - destruct On as (k & r & s & a & O1 & O2 & O3 & O4). exists k, r, s, a. split; [exact O1|]. split; [exact O2|]. rewrite EE. split; assumption.
  - (* any crossing segment gives the same value: the height decreases strictly along the polyline *)
    intros j r s Sj R1 R2. rewrite EE. pose proof (cross_on vs A B D j r s Sj R1 R2) as On'. unfold E in *.
    apply Qle_antisym; apply (on_diag vs A B D); assumption.
Qed.

(** all of a convex polyline lies on or below the straight line between its ends *)
Lemma below_chord vs A B i p : descending vs A B -> convex vs -> nth_error vs i = Some p -> (A * fst p + B * snd p <= A * B)%Q.
Proof.
  intros D C P. destruct (d_first _ _ _ D) as (f & F1 & F2 & F3). destruct (d_last _ _ _ D) as (l & L1 & L2 & L3). destruct (ends_pos vs A B D) as (PA & PB & _).
  destruct i as [|i]; [rewrite F1 in P; injection P as <-; rewrite F2, F3; lra|].
  destruct (vx vs i) as (o & O); [apply v_lt in P; lia|].
  destruct (Qlt_le_dec (A * (fst p - fst o)) (B * (snd o - snd p))) as [X|X].
  - (* still going down: everything before goes down *)
    assert (G : forall d k q, k + d = S i -> nth_error vs k = Some q -> (A * fst p + B * snd p <= A * fst q + B * snd q)%Q).
    { induction d as [|d IH]; intros k q K Q; [rewrite Nat.add_0_r in K; subst k; rewrite P in Q; injection Q as <-; apply Qle_refl|].
      destruct (vx vs (S k)) as (q' & Q'); [apply v_lt in P; lia|]. specialize (IH (S k) q' ltac:(lia) Q').
      destruct (Nat.eq_dec k i) as [->|NE]. { rewrite O in Q. injection Q as <-. rewrite P in Q'. injection Q' as <-. lra. }
      pose proof (C k i q q' o p ltac:(lia) (conj Q Q') (conj O P)) as CC. destruct (d_step _ _ _ D k q q' (conj Q Q')) as (T1 & T2 & _). destruct (d_step _ _ _ D i o p (conj O P)) as (T3 & T4 & T5).
      set (dm := (fst q' - fst q)%Q) in *. set (df := (snd q - snd q')%Q) in *. set (em := (fst p - fst o)%Q) in *. set (ef := (snd o - snd p)%Q) in *.
      assert (0 <= dm /\ 0 <= df /\ 0 <= em /\ 0 <= ef)%Q by (unfold dm, df, em, ef; lra). assert (A * dm <= B * df)%Q.
      { destruct (Qlt_le_dec (B * df) (A * dm)) as [Z|Z]; [exfalso|exact Z]. assert (0 < ef)%Q by (destruct (Qlt_le_dec 0 ef) as [Y|Y]; [exact Y|exfalso; assert (ef == 0)%Q by lra; nra]).
        assert (A * dm * ef <= A * (em * df))%Q by nra. assert (A * em * df <= B * ef * df)%Q by nra. nra. }
      unfold dm, df in *. lra. }
    specialize (G (S i) 0 f eq_refl F1). rewrite F2, F3 in G. lra.
  - assert (G : forall d k q, k = S i + d -> nth_error vs k = Some q -> (A * fst p + B * snd p <= A * fst q + B * snd q)%Q).
    { induction d as [|d IH]; intros k q K Q; [rewrite Nat.add_0_r in K; subst k; rewrite P in Q; injection Q as <-; apply Qle_refl|].
      destruct (vx vs (S i + d)) as (q' & Q'); [apply v_lt in Q; lia|]. specialize (IH (S i + d) q' eq_refl Q'). subst k. replace (S i + S d) with (S (S i + d)) in Q by lia.
      pose proof (C i (S i + d) o p q' q ltac:(lia) (conj O P) (conj Q' Q)) as CC. destruct (d_step _ _ _ D _ q' q (conj Q' Q)) as (T1 & T2 & _). destruct (d_step _ _ _ D i o p (conj O P)) as (T3 & T4 & T5).
      set (dm := (fst q - fst q')%Q) in *. set (df := (snd q' - snd q)%Q) in *. set (em := (fst p - fst o)%Q) in *. set (ef := (snd o - snd p)%Q) in *.
      assert (0 <= dm /\ 0 <= df /\ 0 <= em /\ 0 <= ef)%Q by (unfold dm, df, em, ef; lra). assert (B * df <= A * dm)%Q.
      { destruct (Qlt_le_dec (A * dm) (B * df)) as [Z|Z]; [exfalso|exact Z]. assert (0 < ef)%Q by (destruct (Qlt_le_dec 0 ef) as [Y|Y]; [exact Y|exfalso; assert (ef == 0)%Q by lra; nra]).
        assert (A * em * df <= A * (dm * ef))%Q by nra. assert (B * ef * df <= A * em * df)%Q by nra. nra. }
      unfold dm, df in *. lra. }
    specialize (G (len vs - 1 - S i) (len vs - 1) l ltac:(apply v_lt in P; lia) L1). rewrite L2, L3 in G. lra.
Qed.
