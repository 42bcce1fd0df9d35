(** Properties of compute_rocch, compute_eer and compute_prbep. *)
From Coq Require Import QArith Lqa.
From Verif Require Import Metrics MetricsSpec SortFacts PavProofs PavProps RocProofs RocProps RocchProofs EerProofs MatProofs.
Open Scope list_scope.
Open Scope nat_scope.

(** polylines with equal vertices *)
Definition same_line (vs ws : list (Q * Q)) : Prop := Forall2 (fun p q => fst p == fst q /\ snd p == snd q)%Q vs ws.
Lemma same_nth vs ws : same_line vs ws -> forall i q, nth_error ws i = Some q -> exists p, nth_error vs i = Some p /\ (fst p == fst q /\ snd p == snd q)%Q.
Proof. induction 1 as [|x y l l' R _ IH]; intros [|i] q E; try discriminate E; [injection E as <-; exists x; split; [reflexivity|exact R]|apply IH; exact E]. Qed.
Lemma same_sym vs ws : same_line vs ws -> same_line ws vs.
Proof. induction 1 as [|x y l l' (R1 & R2) _ IH]; constructor; [split; symmetry; assumption|exact IH]. Qed.
Lemma same_seg vs ws i p q : same_line vs ws -> seg_of ws i p q -> exists p' q', seg_of vs i p' q' /\ (fst p' == fst p /\ snd p' == snd p /\ fst q' == fst q /\ snd q' == snd q)%Q.
Proof. intros F (P & Q). destruct (same_nth vs ws F _ _ P) as (p' & P1 & P2 & P3). destruct (same_nth vs ws F _ _ Q) as (q' & Q1 & Q2 & Q3). exists p', q'. split; [split; assumption|]. repeat split; assumption. Qed.
Lemma same_desc vs ws A B : same_line vs ws -> descending vs A B -> descending ws A B.
Proof.
  intros F D. pose proof (F2_len _ _ _ F) as L. pose proof (same_sym _ _ F) as G. split.
  - destruct (d_first _ _ _ D) as (p & P & P1 & P2). destruct (same_nth _ _ G _ _ P) as (q & Q & Q1 & Q2). exists q. split; [exact Q|]. rewrite Q1, Q2. split; assumption.
  - destruct (d_last _ _ _ D) as (p & P & P1 & P2). destruct (same_nth _ _ G _ _ P) as (q & Q & Q1 & Q2). exists q. rewrite <- L. split; [exact Q|]. rewrite Q1, Q2. split; assumption.
  - rewrite <- L. apply (d_two _ _ _ D).
  - intros i p q Sg. destruct (same_seg _ _ _ _ _ F Sg) as (p' & q' & Sg' & A1 & A2 & A3 & A4). rewrite <- A1, <- A2, <- A3, <- A4. apply (d_step _ _ _ D i). exact Sg'.
Qed.
Lemma same_convex vs ws : same_line vs ws -> convex vs -> convex ws.
Proof.
  intros F C i j p q r s L Sp Sr. destruct (same_seg _ _ _ _ _ F Sp) as (p' & q' & Sp' & A1 & A2 & A3 & A4). destruct (same_seg _ _ _ _ _ F Sr) as (r' & s' & Sr' & B1 & B2 & B3 & B4).
  rewrite <- A1, <- A2, <- A3, <- A4, <- B1, <- B2, <- B3, <- B4. apply (C i j); assumption.
Qed.

Section Hull.
Context {S : Type} `{Ord S}.
Variables tar non : list S.
Hypothesis NT : tar <> [].
Hypothesis NN : non <> [].
Let N := len tar + len non.
Notation U := (@U S tar). Notation V := (@V S non).

(** a step of the hull *)
Lemma hull_seg vs bs ms i p q : hull tar non vs bs ms -> seg_of vs i p q -> exists mu w, nth_error ms i = Some mu /\ (0 <= mu <= 1 /\ 0 < w /\ fst q - fst p == mu * w * U /\ snd p - snd q == (1 - mu) * w * V)%Q.
Proof.
  intros Hh (P & Q). pose proof Hh as (C & NB & F & I & LV & Vx). assert (L : Datatypes.S i < len vs) by (apply nth_error_Some; congruence).
  assert (LM : len ms = len bs) by (eapply F2_len; exact F).
  destruct (nth_error bs i) as [b|] eqn:B; [|apply nth_error_None in B; lia]. destruct (nth_error ms i) as [mu|] eqn:M; [|apply nth_error_None in M; lia].
  destruct (hull_end tar non vs bs ms i b mu Hh B M) as (E1 & E2 & LB & MU).
  destruct (Vx i ltac:(lia)) as (m & f & X1 & X2 & X3). destruct (Vx (Datatypes.S i) ltac:(lia)) as (m' & f' & Y1 & Y2 & Y3).
  rewrite P in X1. rewrite Q in Y1. injection X1 as ->. injection Y1 as ->. cbn [fst snd]. exists mu, (qn (len b)). split; [reflexivity|]. split; [exact MU|]. split; [apply qn_pos; exact LB|].
  pose proof (kpos_le tar non bs i C) as K1. pose proof (kpos_le tar non bs (Datatypes.S i) C) as K2.
  rewrite X2, X3, Y2, Y3, !point_m_eq, (point_f_eq tar non _ K1), (point_f_eq tar non _ K2), E1, E2, qn_add. split; ring.
Qed.

(** some vertex is at least as good as any cut, for every linear cost *)
Lemma hull_lin vs bs ms al be k : hull tar non vs bs ms -> (0 <= al)%Q -> (0 <= be)%Q -> k <= N ->
  exists i v, nth_error vs i = Some v /\ (al * fst v + be * snd v <= al * point_m tar non k + be * point_f tar non k)%Q.
Proof.
  intros Hh A B K. pose proof Hh as (C & NB & F & I & LV & Vx). assert (LM : len ms = len bs) by (eapply F2_len; exact F).
  destruct (kpos_find bs k NB) as (i & b & t & Bi & T & Ek). { rewrite C. rewrite P_len. exact K. }
  destruct (nth_error ms i) as [mu|] eqn:M. 2:{ apply nth_error_None in M. assert (i < len bs) by (apply nth_error_Some; congruence). lia. }
  assert (Li : i < len bs) by (apply nth_error_Some; congruence).
  destruct (hull_end tar non vs bs ms i b mu Hh Bi M) as (E1 & E2 & LB & MU). pose proof (hull_in tar non vs bs ms i b mu t Hh Bi M T) as HI.
  fold (kpos bs i) in Ek. destruct (Vx i ltac:(lia)) as (m & f & X1 & X2 & X3). destruct (Vx (Datatypes.S i) ltac:(lia)) as (m' & f' & Y1 & Y2 & Y3).
  pose proof (kpos_le tar non bs i C) as K1. pose proof (kpos_le tar non bs (Datatypes.S i) C) as K2.
  pose proof (U_pos tar NT) as UP. pose proof (V_pos non NN) as VP.
  rewrite <- Ek in HI.
  assert (Ck : (al * point_m tar non k + be * point_f tar non k == (al * U + be * V) * qn (cnt tar non k) + be * V * (qn (len non) - qn k))%Q) by (rewrite point_m_eq, (point_f_eq tar non _ K); ring).
  assert (Ci : (al * m + be * f == (al * U + be * V) * qn (cnt tar non (kpos bs i)) + be * V * (qn (len non) - qn (kpos bs i)))%Q) by (rewrite X2, X3, point_m_eq, (point_f_eq tar non _ K1); ring).
  assert (Cj : (al * m' + be * f' == (al * U + be * V) * (qn (cnt tar non (kpos bs i)) + mu * qn (len b)) + be * V * (qn (len non) - qn (kpos bs i) - qn (len b)))%Q) by (rewrite Y2, Y3, point_m_eq, (point_f_eq tar non _ K2), E1, E2, qn_add; ring).
  assert (Qk : (qn k == qn (kpos bs i) + qn t)%Q) by (rewrite Ek, qn_add; reflexivity).
  assert (Tb : (0 <= qn t <= qn (len b))%Q) by (split; [apply qn_nonneg|unfold qn; rewrite <- Zle_Qle; lia]).
  assert (G0 : (0 <= al * U)%Q) by (apply Qmult_le_0_compat; lra). assert (G1 : (0 <= be * V)%Q) by (apply Qmult_le_0_compat; lra).
  set (g := (al * U + be * V)%Q) in *. set (h := (be * V)%Q) in *. assert (Gg : (0 <= g)%Q) by (unfold g; lra).
  set (c0 := qn (cnt tar non (kpos bs i))) in *. set (ck := qn (cnt tar non k)) in *. set (k0 := qn (kpos bs i)) in *. set (tt := qn t) in *. set (bb := qn (len b)) in *. set (n := qn (len non)) in *.
  assert (HG : (g * (c0 + mu * tt) <= g * ck)%Q) by (rewrite (Qmult_comm g), (Qmult_comm g); apply Qmult_le_compat_r; [exact HI|exact Gg]).
  destruct (Qlt_le_dec (g * mu) h) as [Z|Z].
  - exists (Datatypes.S i), (m', f'). split; [exact Y1|]. cbn [fst snd]. rewrite Cj, Ck, Qk. assert (0 <= (h - g * mu) * (bb - tt))%Q by (apply Qmult_le_0_compat; lra). lra.
  - exists i, (m, f). split; [exact X1|]. cbn [fst snd]. rewrite Ci, Ck, Qk. assert (0 <= (g * mu - h) * tt)%Q by (apply Qmult_le_0_compat; lra). lra.
Qed.

Definition scale (a b : Q) (vs : list (Q * Q)) : list (Q * Q) := map (fun v => (fst v * a, snd v * b)%Q) vs.
Lemma scale_seg a b vs i p q : seg_of (scale a b vs) i p q -> exists p' q', seg_of vs i p' q' /\ p = (fst p' * a, snd p' * b)%Q /\ q = (fst q' * a, snd q' * b)%Q.
Proof.
  intros (P & Q). unfold scale in P, Q. rewrite nth_error_map in P, Q. destruct (nth_error vs i) as [p'|] eqn:P'; [|discriminate]. destruct (nth_error vs (Datatypes.S i)) as [q'|] eqn:Q'; [|discriminate].
  injection P as <-. injection Q as <-. exists p', q'. repeat split; assumption.
Qed.

Lemma hull_desc vs bs ms a b : hull tar non vs bs ms -> (0 < a)%Q -> (0 < b)%Q -> descending (scale a b vs) b a.
Proof.
  intros Hh A B. pose proof Hh as (C & NB & F & I & LV & Vx). pose proof (U_pos tar NT) as UP. pose proof (V_pos non NN) as VP.
  assert (LS : len (scale a b vs) = len vs) by apply map_length.
  split.
  - destruct (Vx 0 ltac:(lia)) as (m & f & X1 & X2 & X3). unfold scale. rewrite nth_error_map, X1. eexists. split; [reflexivity|]. cbn [fst snd]. destruct (point_0 tar non NN) as (P0 & P1). change (kpos bs 0) with 0 in *. rewrite X2, X3, P0, P1. split; ring.
  - destruct (Vx (len bs) ltac:(lia)) as (m & f & X1 & X2 & X3). rewrite LS, LV. replace (len bs + 1 - 1) with (len bs) by lia. unfold scale. rewrite nth_error_map, X1. eexists. split; [reflexivity|]. cbn [fst snd].
    assert (K : kpos bs (len bs) = N) by (unfold kpos; rewrite firstn_all, C; apply P_len). rewrite K in X2, X3. destruct (point_N tar non NT) as (P0 & P1). fold N in P0, P1. rewrite X2, X3, P0, P1. split; ring.
  - rewrite LS, LV. destruct bs; [congruence|cbn; lia].
  - intros i p q Sg. destruct (scale_seg _ _ _ _ _ _ Sg) as (p' & q' & Sg' & -> & ->). cbn [fst snd]. destruct (hull_seg vs bs ms i p' q' Hh Sg') as (mu & w & _ & MU & W & E1 & E2).
    assert (T1 : (0 <= w * (U * a))%Q) by (repeat apply Qmult_le_0_compat; lra). assert (T2 : (0 <= w * (V * b))%Q) by (repeat apply Qmult_le_0_compat; lra).
    assert (T3 : (0 < w * (U * a))%Q) by (repeat apply Qmult_lt_0_compat; lra). assert (T4 : (0 < w * (V * b))%Q) by (repeat apply Qmult_lt_0_compat; lra).
    assert (F1 : (fst q' * a - fst p' * a == mu * (w * (U * a)))%Q) by (rewrite <- (Qplus_0_r (fst q' * a - fst p' * a)); setoid_replace (fst q' * a - fst p' * a + 0)%Q with ((fst q' - fst p') * a)%Q by ring; rewrite E1; ring).
    assert (F2 : (snd p' * b - snd q' * b == (1 - mu) * (w * (V * b)))%Q) by (setoid_replace (snd p' * b - snd q' * b)%Q with ((snd p' - snd q') * b)%Q by ring; rewrite E2; ring).
    set (x := (w * (U * a))%Q) in *. set (y := (w * (V * b))%Q) in *.
    assert (0 <= mu * x)%Q by (apply Qmult_le_0_compat; lra). assert (0 <= (1 - mu) * y)%Q by (apply Qmult_le_0_compat; lra). split; [lra|]. split; [lra|].
    assert (0 < mu * x + (1 - mu) * y)%Q; [|lra]. destruct (Qlt_le_dec 0 mu) as [Z|Z]; [pose proof (Qmult_lt_0_compat _ _ Z T3); lra|]. assert (mu == 0)%Q as M0 by lra. setoid_replace ((1 - mu) * y)%Q with y by (rewrite M0; ring). lra.
Qed.

Lemma hull_convex vs bs ms a b : hull tar non vs bs ms -> (0 < a)%Q -> (0 < b)%Q -> convex (scale a b vs).
Proof.
  intros Hh A B i j p q r s L Sp Sr. pose proof Hh as (C & NB & F & I & LV & Vx). pose proof (U_pos tar NT) as UP. pose proof (V_pos non NN) as VP.
  destruct (scale_seg _ _ _ _ _ _ Sp) as (p' & q' & Sp' & -> & ->). destruct (scale_seg _ _ _ _ _ _ Sr) as (r' & s' & Sr' & -> & ->). cbn [fst snd].
  destruct (hull_seg vs bs ms i p' q' Hh Sp') as (mu & w & M1 & MU & W & E1 & E2). destruct (hull_seg vs bs ms j r' s' Hh Sr') as (nu & z & M2 & NU & Z & E3 & E4).
  assert (MN : (mu < nu)%Q) by (apply (ss_nth Qlt ms i j mu nu I L M1 M2)).
  setoid_replace (fst q' * a - fst p' * a)%Q with ((fst q' - fst p') * a)%Q by ring. setoid_replace (snd r' * b - snd s' * b)%Q with ((snd r' - snd s') * b)%Q by ring.
  setoid_replace (fst s' * a - fst r' * a)%Q with ((fst s' - fst r') * a)%Q by ring. setoid_replace (snd p' * b - snd q' * b)%Q with ((snd p' - snd q') * b)%Q by ring. rewrite E1, E2, E3, E4.
  assert (K : (0 < w * z * (U * a) * (V * b))%Q) by (repeat apply Qmult_lt_0_compat; lra).
  assert (0 < (nu - mu) * (w * z * (U * a) * (V * b)))%Q by (apply Qmult_lt_0_compat; lra).
  setoid_replace (mu * w * U * a * ((1 - nu) * z * V * b))%Q with (mu * (1 - nu) * (w * z * (U * a) * (V * b)))%Q by ring.
  setoid_replace (nu * z * U * a * ((1 - mu) * w * V * b))%Q with (nu * (1 - mu) * (w * z * (U * a) * (V * b)))%Q by ring. set (kk := (w * z * (U * a) * (V * b))%Q) in *. lra.
Qed.

(** no operating point is below the line of an edge *)
Lemma hull_support vs bs ms a b ws j r s th : hull tar non vs bs ms -> (0 < a)%Q -> (0 < b)%Q -> same_line (scale a b vs) ws -> seg_of ws j r s ->
  ((snd r - snd s) * fst r + (fst s - fst r) * snd r <= (snd r - snd s) * (miss_rate th tar * a) + (fst s - fst r) * (fa_rate th non * b))%Q.
Proof.
  intros Hh A B SL Sg. pose proof (same_desc _ _ _ _ SL (hull_desc vs bs ms a b Hh A B)) as D. pose proof (same_convex _ _ SL (hull_convex vs bs ms a b Hh A B)) as C.
  destruct (th_point tar non th) as (k & K & P1 & P2). destruct (d_step _ _ _ D j r s Sg) as (X & Y & _).
  destruct (hull_lin vs bs ms ((snd r - snd s) * a) ((fst s - fst r) * b) k Hh ltac:(apply Qmult_le_0_compat; lra) ltac:(apply Qmult_le_0_compat; lra) K) as (i & v & Vi & L).
  assert (Vs : nth_error (scale a b vs) i = Some (fst v * a, snd v * b)%Q) by (unfold scale; rewrite nth_error_map, Vi; reflexivity).
  destruct (same_nth _ _ (same_sym _ _ SL) _ _ Vs) as (w & W & W1 & W2). cbn [fst snd] in W1, W2. pose proof (support _ C j r s i _ Sg W) as G. rewrite W1, W2 in G. rewrite P1, P2 in L. lra.
Qed.

Lemma hull_eer vs bs ms a b ws : hull tar non vs bs ms -> (0 < a)%Q -> (0 < b)%Q -> same_line (scale a b vs) ws -> exists e, rocch2eer ws = Ok e /\ on_polyline ws e e /\
  (forall x, on_polyline ws x x -> x == e)%Q /\ (0 <= e /\ (a + b) * e <= a * b)%Q /\ forall th, (e <= miss_rate th tar * a \/ e <= fa_rate th non * b)%Q.
Proof.
  intros Hh A B SL. pose proof (same_desc _ _ _ _ SL (hull_desc vs bs ms a b Hh A B)) as D. pose proof (same_convex _ _ SL (hull_convex vs bs ms a b Hh A B)) as C.
  destruct (rocch2eer_ok _ _ _ D C) as (e & E1 & E2 & E3). exists e. split; [exact E1|]. split; [exact E2|]. split; [intros x X; apply Qle_antisym; apply (on_diag _ _ _ D); assumption|].
  split. { destruct (on_nonneg _ _ _ D e e E2) as (Z & _). split; [exact Z|]. destruct E2 as (i & p & q & t & (P & Q) & T & X & Y). pose proof (below_chord _ _ _ i p D C P) as B1. pose proof (below_chord _ _ _ (Datatypes.S i) q D C Q) as B2.
    assert (E : ((a + b) * e == b * fst p + a * snd p + t * ((b * fst q + a * snd q) - (b * fst p + a * snd p)))%Q) by (setoid_replace ((a + b) * e)%Q with (b * e + a * e)%Q by ring; rewrite X at 1; rewrite Y; ring).
    rewrite E. set (u := (b * fst p + a * snd p)%Q) in *. set (v := (b * fst q + a * snd q)%Q) in *. set (ab := (b * a)%Q) in *. assert (0 <= t * (ab - v))%Q by (apply Qmult_le_0_compat; lra). assert (0 <= (1 - t) * (ab - u))%Q by (apply Qmult_le_0_compat; lra). setoid_replace (a * b)%Q with ab by (unfold ab; ring). lra. }
  intros th. destruct E2 as (j & r & s & t & Sg & T & X & Y). pose proof (hull_support vs bs ms a b ws j r s th Hh A B SL Sg) as G. destruct (d_step _ _ _ D j r s Sg) as (D1 & D2 & D3).
  destruct (Qlt_le_dec (miss_rate th tar * a) e) as [Z1|Z1]; [|left; exact Z1]. right. destruct (Qlt_le_dec (fa_rate th non * b) e) as [Z2|Z2]; [|exact Z2]. exfalso.
  set (al := (snd r - snd s)%Q) in *. set (be := (fst s - fst r)%Q) in *. assert (AL : (0 <= al)%Q) by (unfold al; lra). assert (BE : (0 <= be)%Q) by (unfold be; lra). assert (AB : (0 < al + be)%Q) by (unfold al, be; lra).
  assert (Ee : (al * fst r + be * snd r == al * e + be * e)%Q) by (rewrite X at 1; rewrite Y; unfold al, be; ring).
  set (x := (miss_rate th tar * a)%Q) in *. set (y := (fa_rate th non * b)%Q) in *. assert (0 <= al * (e - x))%Q by (apply Qmult_le_0_compat; lra). assert (0 <= be * (e - y))%Q by (apply Qmult_le_0_compat; lra).
  destruct (Qlt_le_dec 0 al) as [W|W]; [assert (0 < al * (e - x))%Q by (apply Qmult_lt_0_compat; lra); lra|]. assert (0 < be * (e - y))%Q by (apply Qmult_lt_0_compat; lra). lra.
Qed.
End Hull.

Lemma scale_one vs : same_line (scale 1 1 vs) vs.
Proof. induction vs as [|v vs IH]; constructor; [split; cbn [fst snd]; ring|exact IH]. Qed.
Lemma same_refl vs : same_line vs vs.
Proof. induction vs; constructor; [split; reflexivity|assumption]. Qed.

(** compute_rocch is the lower convex hull of the operating points: it starts at (0, 1) (accept everything),
    ends at (1, 0) (reject everything), goes down strictly from vertex to vertex, is strictly convex, every
    vertex is the operating point of a threshold, and no threshold gives a point below the line of an edge. *)
Theorem C38_rocch : forall (S : Type) (O : Ord S) (tar non : list S), tar <> [] -> non <> [] ->
  exists vs, compute_rocch tar non = Ok vs /\ 2 <= List.length vs /\
    (exists m f, nth_error vs 0 = Some (m, f) /\ (m == 0 /\ f == 1)%Q) /\
    (exists m f, nth_error vs (List.length vs - 1) = Some (m, f) /\ (m == 1 /\ f == 0)%Q) /\
    (forall i m f m' f', nth_error vs i = Some (m, f) -> nth_error vs (i + 1) = Some (m', f') -> (m <= m' /\ f' <= f /\ ~ (m == m' /\ f == f'))%Q) /\
    (forall i m0 f0 m1 f1 m2 f2, nth_error vs i = Some (m0, f0) -> nth_error vs (i + 1) = Some (m1, f1) -> nth_error vs (i + 2) = Some (m2, f2) ->
      ((m1 - m0) * (f1 - f2) < (m2 - m1) * (f0 - f1))%Q) /\
    (forall i m f, nth_error vs i = Some (m, f) -> exists th, (m == miss_rate th tar /\ f == fa_rate th non)%Q) /\
    (forall th i m f m' f', nth_error vs i = Some (m, f) -> nth_error vs (i + 1) = Some (m', f') ->
      ((f - f') * m + (m' - m) * f <= (f - f') * miss_rate th tar + (m' - m) * fa_rate th non)%Q).
Proof.
  intros S O tar non NT NN. destruct (rocch_hull tar non NT NN) as (vs & bs & ms & E & Hh). pose proof Hh as (C & NB & F & I & LV & Vx).
  pose proof (same_desc _ _ _ _ (scale_one vs) (hull_desc tar non NT NN vs bs ms 1 1 Hh ltac:(lra) ltac:(lra))) as D. pose proof (same_convex _ _ (scale_one vs) (hull_convex tar non NT NN vs bs ms 1 1 Hh ltac:(lra) ltac:(lra))) as CV.
  exists vs. split; [exact E|]. split; [exact (d_two _ _ _ D)|]. split. { destruct (d_first _ _ _ D) as ((m & f) & P). exists m, f. exact P. } split. { destruct (d_last _ _ _ D) as ((m & f) & P). exists m, f. exact P. }
  split. { intros i m f m' f' P Q. rewrite Nat.add_1_r in Q. destruct (d_step _ _ _ D i _ _ (conj P Q)) as (A1 & A2 & A3). cbn [fst snd] in *. split; [exact A1|]. split; [exact A2|]. intros (X & Y). lra. }
  split. { intros i m0 f0 m1 f1 m2 f2 P Q R. rewrite Nat.add_1_r in Q. replace (i + 2) with (Datatypes.S (Datatypes.S i)) in R by lia. exact (CV i (Datatypes.S i) _ _ _ _ (Nat.lt_succ_diag_r i) (conj P Q) (conj Q R)). }
  split. { intros i m f P. assert (L : i <= len bs) by (assert (i < len vs) by (apply nth_error_Some; congruence); lia). destruct (Vx i L) as (m' & f' & X1 & X2 & X3). rewrite P in X1. injection X1 as <- <-. destruct (point_th tar non _ (hull_real tar non vs bs ms i Hh L)) as (th & T1 & T2). exists th. rewrite X2, X3. split; assumption. }
  intros th i m f m' f' P Q. rewrite Nat.add_1_r in Q. pose proof (hull_support tar non NT NN vs bs ms 1 1 vs i (m, f) (m', f') th Hh ltac:(lra) ltac:(lra) (scale_one vs) (conj P Q)) as G. cbn [fst snd] in G. lra.
Qed.

(** the point with both coordinates x lies on an edge of the polyline *)
Definition diagonal_at (vs : list (Q * Q)) (x : Q) : Prop :=
  exists i m f m' f' a, nth_error vs i = Some (m, f) /\ nth_error vs (i + 1) = Some (m', f') /\ (0 <= a <= 1 /\ x == m + a * (m' - m) /\ x == f + a * (f' - f))%Q.
Lemma diag_on vs x : diagonal_at vs x <-> on_polyline vs x x.
Proof.
  split.
  - intros (i & m & f & m' & f' & a & P & Q & A). rewrite Nat.add_1_r in Q. exists i, (m, f), (m', f'), a. split; [split; assumption|exact A].
  - intros (i & (m, f) & (m', f') & a & (P & Q) & A). exists i, m, f, m', f', a. rewrite Nat.add_1_r. split; [exact P|]. split; [exact Q|exact A].
Qed.

(** compute_eer returns the one point of the convex hull with equal miss and false alarm rates; it is at most
    one half, and no threshold has both rates smaller. *)
Theorem C38_eer : forall (S : Type) (O : Ord S) (tar non : list S), tar <> [] -> non <> [] ->
  exists vs e, compute_rocch tar non = Ok vs /\ compute_eer tar non = Ok e /\ diagonal_at vs e /\ (forall x, diagonal_at vs x -> x == e)%Q /\
    (0 <= e <= 1 # 2)%Q /\ forall th, (e <= miss_rate th tar \/ e <= fa_rate th non)%Q.
Proof.
  intros S O tar non NT NN. destruct (rocch_hull tar non NT NN) as (vs & bs & ms & E & Hh). destruct (hull_eer tar non NT NN vs bs ms 1 1 vs Hh ltac:(lra) ltac:(lra) (scale_one vs)) as (e & E1 & E2 & E3 & E4 & E5).
  exists vs, e. split; [exact E|]. split; [unfold compute_eer; rewrite E; exact E1|]. split; [apply diag_on; exact E2|]. split; [intros x X; apply E3, diag_on, X|]. split; [lra|].
  intros th. destruct (E5 th) as [X|X]; [left|right]; lra.
Qed.

(** compute_prbep: the number of misses at the point of the hull where there are as many misses as false alarms. *)
Theorem C38_prbep : forall (S : Type) (O : Ord S) (tar non : list S), tar <> [] -> non <> [] ->
  exists vs e, compute_rocch tar non = Ok vs /\ compute_prbep tar non = Ok e /\
    let counts := map (fun v => (fst v * inject_Z (Z.of_nat (List.length tar)), snd v * inject_Z (Z.of_nat (List.length non)))%Q) vs in
    diagonal_at counts e /\ (forall x, diagonal_at counts x -> x == e)%Q /\ (0 <= e)%Q /\
    forall th, (e <= inject_Z (Z.of_nat (List.length (filter (rejects th) tar))) \/ e <= inject_Z (Z.of_nat (List.length (filter (fun s => negb (rejects th s)) non))))%Q.
Proof.
  intros S O tar non NT NN. destruct (rocch_hull tar non NT NN) as (vs & bs & ms & E & Hh). pose proof (qn_len_pos tar NT) as PT. pose proof (qn_len_pos non NN) as PN.
  destruct (hull_eer tar non NT NN vs bs ms (qn (len tar)) (qn (len non)) (scaled (len tar) (len non) vs) Hh PT PN (same_refl _)) as (e & E1 & E2 & E3 & E4 & E5).
  exists vs, e. split; [exact E|]. split; [unfold compute_prbep; rewrite E; exact E1|]. cbv zeta. change (map _ vs) with (scaled (len tar) (len non) vs). split; [apply diag_on; exact E2|]. split; [intros x X; apply E3, diag_on, X|]. split; [lra|].
  intros th. assert (R : forall a n, (0 < qn n)%Q -> (ratio a n * qn n == inject_Z (Z.of_nat a))%Q) by (intros a n P; unfold ratio, qn in *; field; lra).
  destruct (E5 th) as [X|X]; [left|right]; unfold miss_rate, fa_rate in X; rewrite R in X by assumption; exact X.
Qed.

(** an empty list of scores is an error *)
Theorem C38_empty : forall (S : Type) (O : Ord S) (tar non : list S), tar = [] \/ non = [] ->
  (forall vs, compute_rocch tar non <> Ok vs) /\ (forall e, compute_eer tar non <> Ok e) /\ (forall e, compute_prbep tar non <> Ok e) /\ (forall r, compute_roc tar non <> Ok r).
Proof.
  intros S O tar non Em. assert (R : forall vs, compute_rocch tar non <> Ok vs).
  { intros vs X. unfold compute_rocch in X. cbv zeta in X. destruct (gather _ _) as [P|]; [|discriminate X]. cbn [bind] in X. destruct (pavx P) as [((? & ?) & ?)|]; [|discriminate X]. cbn [bind] in X. destruct Em as [-> | ->]; [discriminate X|]. destruct (len tar); discriminate X. }
  split; [exact R|]. split; [|split].
  - intros e X. unfold compute_eer in X. destruct (compute_rocch tar non) as [vs|] eqn:Q; [exact (R vs eq_refl)|discriminate X].
  - intros e X. unfold compute_prbep in X. destruct (compute_rocch tar non) as [vs|] eqn:Q; [exact (R vs eq_refl)|discriminate X].
  - intros r X. unfold compute_roc in X. cbv zeta in X. destruct Em as [-> | ->]; [discriminate X|]. destruct (assert (0 <? Z.of_nat (len tar))%Z); discriminate X.
Qed.

(** filter_roc never returns: it reads the undefined name new_fa. *)
Theorem C38_filter_roc_refuted : forall pm pf r, filter_roc pm pf <> Ok r.
Proof.
  intros pm pf r X. unfold filter_roc in X. destruct (foldM _ _ _) as [((o & nm) & nf)|]; [|discriminate X]. cbn [bind] in X. destruct (rd (rev pm) 0); [|discriminate X]. cbn [bind] in X. destruct (wr nm _ _); [|discriminate X]. cbn [bind] in X.
  destruct (rd (rev pf) 0); [|discriminate X]. cbn [bind] in X. destruct (wr nf _ _); discriminate X.
Qed.

(** compute_area_under_rocch fails on every hull: its last step reads past the end of p_fa. *)
Theorem C38_area_refuted : forall vs, 2 <= List.length vs -> forall a, area_under_rocch vs <> Ok a.
Proof.
  intros vs L a X. unfold area_under_rocch in X. destruct (assert (qsorted (map fst vs))); [|discriminate X]. destruct (assert (qsorted (rev (map snd vs)))); [|discriminate X]. cbn [bind] in X.
  replace (len vs - 1) with (len vs - 2 + 1) in X by lia. rewrite seq_app in X. cbn [seq] in X. replace (1 + (len vs - 2)) with (len vs - 1) in X by lia.
  assert (G : forall (f : Q -> nat -> res Q) (l : list nat) z0, (forall a1, exists e, f a1 (len vs - 1) = Err e) -> forall r, foldM f z0 (l ++ [len vs - 1]) <> Ok r).
  { intros f. induction l as [|x l IH]; intros z0 Hf r Y.
    - cbn [app foldM] in Y. destruct (Hf z0) as (e & Ef). rewrite Ef in Y. discriminate Y.
    - cbn [app foldM] in Y. destruct (f z0 x) as [b|]; [|discriminate Y]. exact (IH b Hf r Y). }
  revert X. apply G. intros z1. destruct (rd (map fst vs) (len vs - 1)) as [m1|e]; [|exists e; reflexivity]. cbn [bind]. destruct (rd (map fst vs) (len vs - 1 - 1)) as [m0|e]; [|exists e; reflexivity]. cbn [bind]. destruct (rd (map snd vs) (len vs - 1)) as [f1|e]; [|exists e; reflexivity]. cbn [bind].
  unfold rd at 1. replace (nth_error (map snd vs) (Datatypes.S (len vs - 1))) with (@None Q) by (symmetry; apply nth_error_None; rewrite map_length; lia). eexists. reflexivity.
Qed.

Example C38_witness : compute_rocch [0; 2; 5; 7]%Z [1; -3; 4; -5]%Z = Ok [(0 # 4, 4 # 4); (0 # 4, 2 # 4); (2 # 4, 0 # 4); (4 # 4, 0 # 4)]%Q /\
  (exists e, compute_eer [0; 2; 5; 7]%Z [1; -3; 4; -5]%Z = Ok e /\ e == 1 # 4)%Q.
Proof. split; [vm_compute; reflexivity|]. eexists. split; [vm_compute; reflexivity|reflexivity]. Qed.
Print Assumptions C38_rocch. Print Assumptions C38_eer. Print Assumptions C38_prbep. Print Assumptions C38_empty. Print Assumptions C38_filter_roc_refuted. Print Assumptions C38_area_refuted.
