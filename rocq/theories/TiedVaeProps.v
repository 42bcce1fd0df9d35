(** C116: trial scoring with a tied variational autoencoder. *)
From Coq Require Import ZArith List Bool Reals Lra Lia.
From Verif Require Import Base BaseFacts NormalDiagProps TiedVae.
Import ListNotations.
Open Scope list_scope. Open Scope R_scope.

(** ** Specification: log-densities with one (mean, log-variance) per coordinate; the standard normal prior; the product of two posteriors over the prior *)
Definition logdens (q : list (R * R)) (y : list R) : R := vsum (map (fun t => ln (gauss (fst (fst t)) (exp (- snd (fst t))) (snd t))) (combine q y)).
Definition std (d : nat) : list (R * R) := repeat (0, 0) d.
Definition joint1 (a b : R * R) : R * R :=
  let p := exp (- snd a) + exp (- snd b) - 1 in ((exp (- snd a) * fst a + exp (- snd b) * fst b) / p, - ln p).
Fixpoint joint (a b : list (R * R)) : list (R * R) := match a, b with x :: a, y :: b => joint1 x y :: joint a b | _, _ => [] end.
(** the product of the two posteriors over the prior can be normalised *)
Fixpoint proper (a b : list (R * R)) : Prop := match a, b with x :: a, y :: b => 1 < exp (- snd x) + exp (- snd y) /\ proper a b | _, _ => True end.
(** what the encoder says of a sequence *)
Definition post (m : tvae) (d : nat) (s : list (list R)) (q : list (R * R)) : Prop :=
  exists mu lv rest, tv_enc m s = mu :: lv :: rest /\ List.length mu = d /\ List.length lv = d /\ q = combine mu lv.
Definition alone (m : tvae) (x : list R) : list (list R) := x :: repeat (zero_frame x) (pred (tv_len m)).
Definition together (m : tvae) (x2 x1 : list R) : list (list R) := x2 :: x1 :: repeat (zero_frame x2) (pred (pred (tv_len m))).

(** ** Proofs *)
Lemma lg m l y : ln (gauss m (exp (- l)) y) = 1 / 2 * (- l - ln (2 * PI) - exp (- l) * (y - m)²).
Proof. rewrite ln_gauss by apply exp_pos. rewrite ln_exp. lra. Qed.
Lemma lg' m p y : 0 < p -> ln (gauss m p y) = 1 / 2 * (ln p - ln (2 * PI) - p * (y - m)²).
Proof. intro P. rewrite ln_gauss by exact P. lra. Qed.
Lemma pair_identity m1 l1 m2 l2 y : List.length m1 = List.length y -> List.length l1 = List.length y -> List.length m2 = List.length y -> List.length l2 = List.length y ->
  proper (combine m1 l1) (combine m2 l2) ->
  logdens (combine m1 l1) y + logdens (combine m2 l2) y =
  (logq (m1, l1) + logq (m2, l2) + pair_part (m1, l1) (m2, l2)) + logdens (std (List.length y)) y + logdens (joint (combine m1 l1) (combine m2 l2)) y.
Proof. revert l1 m2 l2 y. induction m1 as [|a m1 IH]; intros [|b l1] [|c m2] [|e l2] [|z y] H1 H2 H3 H4 P; try discriminate.
  - unfold logdens, logq, pair_part, nat_params, vsum. cbn. lra.
  - cbn [combine proper snd] in P. destruct P as [P0 P]. cbn in H1, H2, H3, H4. specialize (IH l1 m2 l2 y ltac:(lia) ltac:(lia) ltac:(lia) ltac:(lia) P).
    unfold logdens, logq, pair_part, nat_params, std, vsum in *. cbn [combine joint map fst snd zipr fold_right List.length repeat] in *. rewrite !lg. unfold joint1. cbn [fst snd]. rewrite Ropp_involutive.
    set (pa := exp (- b)) in *. set (pc := exp (- e)) in *. assert (Q : 0 < pa + pc - 1) by lra. rewrite (exp_ln (pa + pc - 1) Q).
    replace (exp (- 0)) with 1 by (rewrite Ropp_0, exp_0; reflexivity).
    set (S1 := fold_right Rplus 0 (map _ (combine (combine m1 l1) y))) in *. set (S2 := fold_right Rplus 0 (map _ (combine (combine m2 l2) y))) in *.
    set (S3 := fold_right Rplus 0 (map _ (combine (repeat (0, 0) _) y))) in *. set (S4 := fold_right Rplus 0 (map _ (combine (joint _ _) y))) in *.
    set (T1 := fold_right Rplus 0 (zipr Rplus l1 _)) in *. set (T2 := fold_right Rplus 0 (zipr Rplus l2 _)) in *. set (T3 := fold_right Rplus 0 (zipr Rplus (map _ _) _)) in *.
    assert (PA : 0 < pa) by apply exp_pos. assert (PC : 0 < pc) by apply exp_pos.
    replace (pa * a * (pa * a) / pa) with (pa * (a * a)) by (field; lra). replace (pc * c * (pc * c) / pc) with (pc * (c * c)) by (field; lra).
    assert (E : 1 / 2 * (- b - ln (2 * PI) - pa * (z - a)²) + 1 / 2 * (- e - ln (2 * PI) - pc * (z - c)²) =
      - (1 / 2) * (b + pa * (a * a)) + - (1 / 2) * (e + pc * (c * c)) + 1 / 2 * (- ln (pa + pc - 1) + (pa * a + pc * c) * (pa * a + pc * c) / (pa + pc - 1))
      + 1 / 2 * (- 0 - ln (2 * PI) - 1 * (z - 0)²) + 1 / 2 * (ln (pa + pc - 1) - ln (2 * PI) - (pa + pc - 1) * (z - (pa * a + pc * c) / (pa + pc - 1))²)).
    { unfold Rsqr. field. lra. }
    lra. Qed.
Lemma first2_post m d s q : post m d s q -> exists mu lv, first2 (tv_enc m s) = Ok (mu, lv) /\ List.length mu = d /\ List.length lv = d /\ q = combine mu lv.
Proof. intros (mu & lv & r & E & H). exists mu, lv. rewrite E. split; [reflexivity|exact H]. Qed.
Lemma seq1_ok m x : (1 <= tv_len m)%nat -> seq1 m x = Ok (alone m x).
Proof. unfold seq1, alone. destruct (tv_len m); [lia|reflexivity]. Qed.
Lemma seq2_ok m x2 x1 : (2 <= tv_len m)%nat -> seq2 m x2 x1 = Ok (together m x2 x1).
Proof. unfold seq2, together. destruct (tv_len m) as [|[|n]]; [lia|lia|reflexivity]. Qed.
Definition posts (m : tvae) (d : nat) (x : list (list R)) : Prop := forall r, In r x -> exists q, post m d (alone m r) q.
Lemma encode_all {B} m d x (f : list R * list R -> B) : (1 <= tv_len m)%nat -> posts m d x ->
  exists qs, mapM (fun x => s <- seq1 m x ;; first2 (tv_enc m s)) x = Ok qs /\ Forall2 (fun r q => first2 (tv_enc m (alone m r)) = Ok q /\ List.length (fst q) = d /\ List.length (snd q) = d /\ post m d (alone m r) (combine (fst q) (snd q))) x qs.
Proof. intros L P. induction x as [|r x IH]; [exists []; split; [reflexivity|constructor]|]. destruct IH as (qs & E & F); [intros r' H; apply P; right; exact H|].
  destruct (P r (or_introl eq_refl)) as [q Hq]. pose proof (first2_post m d _ q Hq) as (mu & lv & E1 & L1 & L2 & ->). exists ((mu, lv) :: qs). cbn [mapM]. rewrite seq1_ok by exact L. cbn [bind]. rewrite E1. cbn [bind]. rewrite E. split; [reflexivity|].
  constructor; [|exact F]. repeat split; try assumption. Qed.
Lemma post_fun m d s q q' : post m d s q -> post m d s q' -> q = q'.
Proof. intros (mu & lv & r & E & _ & _ & ->) (mu' & lv' & r' & E' & _ & _ & ->). rewrite E in E'. injection E' as -> -> ->. reflexivity. Qed.
Lemma F2_nth {X Y} (P : X -> Y -> Prop) a b i y : Forall2 P a b -> nth_error b i = Some y -> exists x, nth_error a i = Some x /\ P x y.
Proof. intro F. revert i. induction F as [|u v a b H _ IH]; intros [|i] E; try discriminate; [injection E as <-; exists u; split; [reflexivity|exact H]|apply IH, E]. Qed.
Lemma F2_len {X Y} (P : X -> Y -> Prop) a b : Forall2 P a b -> List.length a = List.length b.
Proof. induction 1; cbn; congruence. Qed.

(** 'qscr': the score of a pair is the log of the integral of q(y|x1) q(y|x2) / p(y), for every pair: the two log-densities are, at every y, the score plus
    the log-density of the prior and that of the normalised product *)
Theorem C116_qscr m d x1 x2 : (1 <= tv_len m)%nat -> posts m d x1 -> posts m d x2 -> exists s, qscr m x1 x2 = Ok s /\ List.length s = List.length x1 /\
  forall i j r v, nth_error s i = Some r -> nth_error r j = Some v -> exists a b qa qb, nth_error x1 i = Some a /\ nth_error x2 j = Some b /\ post m d (alone m a) qa /\ post m d (alone m b) qb /\
  (proper qa qb -> forall y, List.length y = d -> logdens qa y + logdens qb y = v + logdens (std d) y + logdens (joint qa qb) y).
Proof. intros L P1 P2. destruct (encode_all m d x1 (fun q => q) L P1) as (q1 & E1 & F1). destruct (encode_all m d x2 (fun q => q) L P2) as (q2 & E2 & F2).
  eexists. split; [unfold qscr; rewrite E1; cbn [bind]; rewrite E2; reflexivity|]. split; [rewrite map_length; symmetry; eapply F2_len, F1|].
  intros i j r v Hr Hv. rewrite nth_error_map in Hr. destruct (nth_error q1 i) as [qa|] eqn:EA; [|discriminate]. injection Hr as <-. rewrite nth_error_map in Hv. destruct (nth_error q2 j) as [qb|] eqn:EB; [|discriminate]. injection Hv as <-.
  destruct (F2_nth _ _ _ _ _ F1 EA) as (a & Ha & A1 & A2 & A3 & A4). destruct (F2_nth _ _ _ _ _ F2 EB) as (b & Hb & B1 & B2 & B3 & B4).
  exists a, b, (combine (fst qa) (snd qa)), (combine (fst qb) (snd qb)). split; [exact Ha|]. split; [exact Hb|]. split; [exact A4|]. split; [exact B4|]. intros PR y Ly.
  destruct qa as [m1 l1], qb as [m2 l2]. cbn [fst snd] in *. rewrite <- Ly. apply pair_identity; [..|exact PR]; congruence. Qed.
(** the order of the two sides does not matter *)
Lemma zipr_comm f a b : (forall u v, f u v = f v u) -> zipr f a b = zipr f b a.
Proof. intro C. revert b. induction a as [|x a IH]; intros [|y b]; try reflexivity. cbn. rewrite C, IH. reflexivity. Qed.
Lemma pair_comm a b : pair_part a b = pair_part b a.
Proof. unfold pair_part, nat_params. rewrite (zipr_comm (fun a b => a + b - 1) (map _ (snd a))) by (intros; ring). rewrite (zipr_comm Rplus (zipr Rmult _ (fst a))) by (intros; ring). reflexivity. Qed.
Theorem C116_qscr_symmetric m x1 x2 s s' i j r v : qscr m x1 x2 = Ok s -> qscr m x2 x1 = Ok s' -> nth_error s i = Some r -> nth_error r j = Some v ->
  exists r', nth_error s' j = Some r' /\ nth_error r' i = Some v.
Proof. unfold qscr. intros E E' Hr Hv. destruct (mapM _ x1) as [q1|] eqn:E1; [|discriminate]. cbn [bind] in E. destruct (mapM _ x2) as [q2|] eqn:E2; [|discriminate]. cbn [bind] in *. rewrite ?E1 in E'. cbn [bind] in E'.
  assert (Q : s = map (fun a => map (fun b => logq a + logq b + pair_part a b) q2) q1) by congruence. assert (Q' : s' = map (fun a => map (fun b => logq a + logq b + pair_part a b) q1) q2) by congruence. subst.
  rewrite nth_error_map in Hr. destruct (nth_error q1 i) as [qa|] eqn:EA; [|discriminate]. injection Hr as <-. rewrite nth_error_map in Hv. destruct (nth_error q2 j) as [qb|] eqn:EB; [|discriminate]. injection Hv as <-.
  eexists. split; [rewrite nth_error_map, EB; reflexivity|]. rewrite nth_error_map, EA. cbn [option_map]. f_equal. rewrite (pair_comm qb qa). ring. Qed.
(** a vector of which the encoder says nothing (its posterior is the prior) scores zero against everything *)
Theorem C116_qscr_prior m d x1 x2 s i j r v a qa : (1 <= tv_len m)%nat -> posts m d x1 -> posts m d x2 -> qscr m x1 x2 = Ok s -> nth_error s i = Some r -> nth_error r j = Some v ->
  nth_error x1 i = Some a -> post m d (alone m a) qa -> qa = std d -> v = 0.
Proof. intros L P1 P2 E Hr Hv Ha Pa Q. destruct (C116_qscr m d x1 x2 L P1 P2) as (s' & E' & _ & H). rewrite E in E'. injection E' as <-. destruct (H i j r v Hr Hv) as (a' & b & qa' & qb & Ha' & _ & Pa' & Pb & I).
  rewrite Ha in Ha'. injection Ha' as <-. rewrite (post_fun _ _ _ _ _ Pa' Pa) in I. subst qa. assert (LB : List.length qb = d) by (destruct Pb as (mu & lv & r0 & _ & L1 & L2 & ->); rewrite combine_length; lia).
  assert (PR : proper (std d) qb /\ joint (std d) qb = qb).
  { clear - LB. revert qb LB. induction d as [|d IH]; intros [|[mb lb] qb] LB; try discriminate; [split; [exact Logic.I|reflexivity]|]. destruct (IH qb) as [I1 I2]; [cbn in LB; lia|]. unfold std in *. cbn [repeat proper joint snd]. rewrite I2. assert (X := exp_pos (- lb)).
    replace (exp (- 0)) with 1 by (rewrite Ropp_0, exp_0; reflexivity). split; [split; [lra|exact I1]|]. f_equal. unfold joint1. cbn [fst snd]. replace (exp (- 0)) with 1 by (rewrite Ropp_0, exp_0; reflexivity).
    replace (1 + exp (- lb) - 1) with (exp (- lb)) by ring. rewrite ln_exp, Ropp_involutive. f_equal. field. lra. }
  destruct PR as [PR J]. specialize (I PR (repeat 0 d) (repeat_length 0 d)). rewrite J in I. lra. Qed.

(** *** 'cand': Candidate's formula at y = 0 *)
Lemma logqy0_dens mu lv d : List.length mu = d -> List.length lv = d -> logqy0 mu lv - logdens (combine mu lv) (repeat 0 d) = - logdens (std d) (repeat 0 d).
Proof. intros <- L. revert lv L. induction mu as [|a mu IH]; intros [|b lv] L; try discriminate; [unfold logqy0, logdens, vsum; cbn; lra|]. cbn in L. specialize (IH lv ltac:(lia)).
  unfold logqy0, logdens, std, vsum in *. cbn [combine map fst snd zipr fold_right List.length repeat] in *. rewrite !lg.
  set (S1 := fold_right Rplus 0 (zipr _ mu lv)) in *. set (S2 := fold_right Rplus 0 (map _ (combine (combine mu lv) _))) in *. set (S3 := fold_right Rplus 0 (map _ (combine (repeat (0, 0) _) _))) in *.
  replace (exp (- 0)) with 1 by (rewrite Ropp_0, exp_0; reflexivity). assert (X := exp_pos b). replace (a * a / exp b) with (exp (- b) * (a * a)) by (rewrite exp_Ropp; field; lra). unfold Rsqr. lra. Qed.
Lemma first3_post m d s q : post m d s q -> (3 <= List.length (tv_enc m s))%nat -> exists mu lv, first3 (tv_enc m s) = Ok (mu, lv) /\ List.length mu = d /\ List.length lv = d /\ q = combine mu lv.
Proof. intros (mu & lv & [|z r] & E & H) L; rewrite E in *; [cbn in L; lia|]. exists mu, lv. split; [reflexivity|exact H]. Qed.
Definition enough (m : tvae) : Prop := forall s, (3 <= List.length (tv_enc m s))%nat.
Lemma cand_side m d x : (1 <= tv_len m)%nat -> enough m -> posts m d x ->
  exists l, mapM (fun x => s <- seq1 m x ;; '(a, b) <- first3 (tv_enc m s) ;; Ok (logqy0 a b)) x = Ok l /\
  Forall2 (fun r v => forall q, post m d (alone m r) q -> v = logdens q (repeat 0 d) - logdens (std d) (repeat 0 d)) x l.
Proof. intros L EN P. induction x as [|r x IH]; [exists []; split; [reflexivity|constructor]|]. destruct IH as (l & E & F); [intros r' H; apply P; right; exact H|]. destruct (P r (or_introl eq_refl)) as [q Hq].
  destruct (first3_post m d _ q Hq (EN _)) as (mu & lv & E1 & L1 & L2 & ->). eexists. cbn [mapM]. rewrite seq1_ok by exact L. cbn [bind]. rewrite E1. cbn [bind]. rewrite E. split; [reflexivity|]. constructor; [|exact F].
  intros q' Hq'. rewrite (post_fun _ _ _ _ _ Hq' Hq). assert (X := logqy0_dens mu lv d L1 L2). lra. Qed.
(** 'cand' on sequences of at least two frames: with the posterior of the two vectors together, the score is
    log q(0|x1) + log q(0|x2) - log q(0|x1, x2) - log p(0) *)
Theorem C116_cand m d x1 x2 : (2 <= tv_len m)%nat -> enough m -> posts m d x1 -> posts m d x2 ->
  (forall a b, In a x1 -> In b x2 -> exists q, post m d (together m b a) q) -> exists s, cand m x1 x2 = Ok s /\ List.length s = List.length x1 /\
  forall i j a b, nth_error x1 i = Some a -> nth_error x2 j = Some b -> exists r v, nth_error s i = Some r /\ nth_error r j = Some v /\ List.length r = List.length x2 /\
  forall qa qb qab, post m d (alone m a) qa -> post m d (alone m b) qb -> post m d (together m b a) qab ->
  v = logdens qa (repeat 0 d) + logdens qb (repeat 0 d) - logdens qab (repeat 0 d) - logdens (std d) (repeat 0 d).
Proof. intros L EN P1 P2 PJ. destruct (cand_side m d x1 ltac:(lia) EN P1) as (l1 & E1 & F1). destruct (cand_side m d x2 ltac:(lia) EN P2) as (l2 & E2 & F2).
  set (val := fun p q : list R * R => match first3 (tv_enc m (together m (fst q) (fst p))) with Ok (a, b) => snd p + snd q - logqy0 a b | Err _ => 0 end).
  assert (EC : cand m x1 x2 = Ok (map (fun p => map (fun q => val p q) (combine x2 l2)) (combine x1 l1))).
  { unfold cand. rewrite E1. cbn [bind]. rewrite E2. cbn [bind]. apply mapM_pure. intros [a va] Ha. apply mapM_pure. intros [b vb] Hb. cbn [fst snd]. apply in_combine_l in Ha. apply in_combine_l in Hb.
    destruct (PJ a b Ha Hb) as [q Hq]. rewrite seq2_ok by exact L. cbn [bind]. destruct (first3_post m d _ q Hq (EN _)) as (mu & lv & E3 & _). unfold val. cbn [fst snd]. rewrite E3. reflexivity. }
  eexists. split; [exact EC|]. assert (L1 := F2_len _ _ _ F1). assert (L2 := F2_len _ _ _ F2). split; [rewrite map_length, combine_length; lia|].
  assert (NC : forall (x : list (list R)) (l : list R) i a, List.length x = List.length l -> nth_error x i = Some a -> exists v, nth_error l i = Some v /\ nth_error (combine x l) i = Some (a, v)).
  { clear. intros x. induction x as [|c x IH]; intros [|w l] [|i] a Hl H; try discriminate; [injection H as ->; exists w; split; reflexivity|]. cbn in *. apply IH; [lia|exact H]. }
  intros i j a b Ha Hb. destruct (NC _ _ _ _ L1 Ha) as (va & Hva & HA). destruct (NC _ _ _ _ L2 Hb) as (vb & Hvb & HB). eexists; eexists. split; [rewrite nth_error_map, HA; reflexivity|]. split; [rewrite nth_error_map, HB; reflexivity|].
  split; [rewrite map_length, combine_length; lia|]. intros qa qb qab Qa Qb Qab. destruct (first3_post m d _ qab Qab (EN _)) as (mu & lv & E3 & M1 & M2 & ->). unfold val. cbn [fst snd]. rewrite E3.
  destruct (F2_nth _ _ _ _ _ F1 Hva) as (a' & Ha' & VA). destruct (F2_nth _ _ _ _ _ F2 Hvb) as (b' & Hb' & VB). rewrite Ha in Ha'. injection Ha' as <-. rewrite Hb in Hb'. injection Hb' as <-.
  rewrite (VA _ Qa), (VB _ Qb). assert (X := logqy0_dens mu lv d M1 M2). lra. Qed.
(** if the encoder's posterior of two vectors is the product of theirs over the prior, the two scores agree *)
Theorem C116_cand_is_qscr m d x1 x2 c s i j a b rc rs v w qa qb : (2 <= tv_len m)%nat -> enough m -> posts m d x1 -> posts m d x2 ->
  (forall a b, In a x1 -> In b x2 -> exists q, post m d (together m b a) q) -> cand m x1 x2 = Ok c -> qscr m x1 x2 = Ok s ->
  nth_error x1 i = Some a -> nth_error x2 j = Some b -> nth_error c i = Some rc -> nth_error rc j = Some v -> nth_error s i = Some rs -> nth_error rs j = Some w ->
  post m d (alone m a) qa -> post m d (alone m b) qb -> proper qa qb -> post m d (together m b a) (joint qa qb) -> v = w.
Proof. intros L EN P1 P2 PJ EC ES Ha Hb Hrc Hv Hrs Hw Qa Qb PR Qab.
  destruct (C116_cand m d x1 x2 L EN P1 P2 PJ) as (c' & EC' & _ & HC). rewrite EC in EC'. injection EC' as <-. destruct (HC i j a b Ha Hb) as (r & v' & R1 & R2 & _ & V). rewrite Hrc in R1. injection R1 as <-. rewrite Hv in R2. injection R2 as <-.
  destruct (C116_qscr m d x1 x2 ltac:(lia) P1 P2) as (s' & ES' & _ & HS). rewrite ES in ES'. injection ES' as <-. destruct (HS i j rs w Hrs Hw) as (a' & b' & qa' & qb' & Ha' & Hb' & Qa' & Qb' & I).
  rewrite Ha in Ha'. injection Ha' as <-. rewrite Hb in Hb'. injection Hb' as <-. rewrite (post_fun _ _ _ _ _ Qa' Qa), (post_fun _ _ _ _ _ Qb' Qb) in I.
  specialize (I PR (repeat 0 d) (repeat_length 0 d)). specialize (V _ _ _ Qa Qb Qab). lra. Qed.

(** *** what cannot be used *)
Theorem C116_elbo_refuted m x1 x2 : (1 <= tv_len m)%nat -> llr_1vs1 m x1 x2 MElbo = Err NameError.
Proof. intro L. unfold llr_1vs1, elbo_llr. assert (E : forall x, mapM (fun x => s <- seq1 m x ;; Ok (tv_elbo m s)) x = Ok (map (fun x => tv_elbo m (alone m x)) x)) by (intro x; apply mapM_pure; intros r _; rewrite seq1_ok by exact L; reflexivity).
  rewrite !E. reflexivity. Qed.
(** 'cand' reads three outputs of the encoder: an encoder with two (mean and log-variance, as TiedVAE_qY has) is refused *)
Theorem C116_cand_two_outputs_refuted m x1 x2 : (1 <= tv_len m)%nat -> (forall s, List.length (tv_enc m s) = 2%nat) -> x1 <> [] -> cand m x1 x2 = Err ValueError.
Proof. intros L E NE. destruct x1 as [|a x1]; [congruence|]. unfold cand. cbn [mapM]. rewrite seq1_ok by exact L. cbn [bind]. specialize (E (alone m a)). destruct (tv_enc m (alone m a)) as [|u [|v [|w r]]]; try discriminate. reflexivity. Qed.
(** ... and needs room for two frames *)
Theorem C116_cand_one_frame_refuted m d x1 x2 : tv_len m = 1%nat -> enough m -> posts m d x1 -> posts m d x2 -> x1 <> [] -> x2 <> [] -> cand m x1 x2 = Err IndexError.
Proof. intros L EN P1 P2 N1 N2. destruct (cand_side m d x1 ltac:(lia) EN P1) as (l1 & E1 & F1). destruct (cand_side m d x2 ltac:(lia) EN P2) as (l2 & E2 & F2). unfold cand. rewrite E1. cbn [bind]. rewrite E2. cbn [bind].
  destruct F1 as [|a va x1 l1 _ _]; [congruence|]. destruct F2 as [|b vb x2 l2 _ _]; [congruence|]. cbn [combine mapM fst snd]. unfold seq2. rewrite L. reflexivity. Qed.

(** *** many enrollment vectors per speaker *)
Lemma vadd_len a : forall b d, List.length a = d -> List.length b = d -> List.length (vadd a b) = d.
Proof. unfold vadd. induction a as [|x a IH]; intros [|y b] d H1 H2; cbn in *; try congruence. destruct d as [|d]; [discriminate|]. f_equal. apply IH; lia. Qed.
Lemma vadd_nth a : forall b j, List.length a = List.length b -> nth j (vadd a b) 0 = nth j a 0 + nth j b 0.
Proof. unfold vadd. induction a as [|x a IH]; intros [|y b] j H; cbn in *; try discriminate; [destruct j; lra|]. destruct j as [|j]; [reflexivity|]. apply IH. lia. Qed.
Lemma sum_len d l : Forall (fun r => List.length r = d) l -> List.length (class_sum d l) = d.
Proof. induction 1 as [|r l H _ IH]; [apply repeat_length|]. cbn [class_sum fold_right]. apply vadd_len; [exact H|exact IH]. Qed.
Lemma sum_nth d l j : Forall (fun r => List.length r = d) l -> nth j (class_sum d l) 0 = vsum (map (fun r => nth j r 0) l).
Proof. induction 1 as [|r l H F IH].
  - cbn. destruct (nth_in_or_default j (repeat 0 d) 0) as [Hx|Hx]; [apply repeat_spec in Hx; exact Hx|exact Hx].
  - cbn [class_sum fold_right map vsum]. rewrite vadd_nth by (rewrite H; symmetry; apply sum_len, F). fold (class_sum d l). rewrite IH. reflexivity. Qed.
(** the vector of class c is the mean of the enrollment vectors with that class *)
Theorem C116_average d x ids c j : Forall (fun r => List.length r = d) x -> nth j (class_avg d x ids c) 0 = vsum (map (fun r => nth j r 0) (class_rows x ids c)) / INR (List.length (class_rows x ids c)) /\
  forall r, In r (class_rows x ids c) <-> exists i, nth_error x i = Some r /\ nth_error ids i = Some c.
Proof. intro F. assert (M : forall r, In r (class_rows x ids c) <-> exists i, nth_error x i = Some r /\ nth_error ids i = Some c).
  { intro r. unfold class_rows. rewrite in_map_iff. split.
    - intros ([r' k] & <- & H). apply filter_In in H. destruct H as [H E]. apply Nat.eqb_eq in E. cbn in *. subst k. clear - H. revert ids H. induction x as [|a x IH]; intros [|k ids] H; try destruct H; [exists O; injection H as -> ->; split; reflexivity|]. destruct (IH ids H) as (i & H1 & H2). exists (S i). split; assumption.
    - intros (i & H1 & H2). exists (r, c). split; [reflexivity|]. apply filter_In. split; [|apply Nat.eqb_refl]. clear - H1 H2. revert ids i H1 H2. induction x as [|a x IH]; intros [|k ids] [|i] H1 H2; try discriminate; cbn in *; [left; congruence|right; apply (IH ids i); assumption]. }
  split; [|exact M]. unfold class_avg. assert (F' : Forall (fun r => List.length r = d) (class_rows x ids c)) by (apply Forall_forall; intros r Hr; apply M in Hr; destruct Hr as (i & Hr & _); rewrite Forall_forall in F; apply F; eapply nth_error_In, Hr).
  set (g := fun v : R => v / INR (List.length (class_rows x ids c))). assert (D : g 0 = 0) by (unfold g, Rdiv; ring). rewrite <- D, map_nth, D. unfold g. rewrite sum_nth by exact F'. reflexivity. Qed.
Theorem C116_vavg m d x1 ids x2 e : llr_Nvs1 m d x1 ids x2 PVavg e = llr_1vs1 m (map (class_avg d x1 ids) (seq 0 (S (list_max ids)))) x2 e /\
  llr_Nvs1 m d x1 ids x2 PVavgLnorm e = llr_1vs1 m (map lnorm (map (class_avg d x1 ids) (seq 0 (S (list_max ids))))) (map lnorm x2) e.
Proof. split; reflexivity. Qed.
(** one vector per class, in order: the scores are those of the vectors themselves *)
Theorem C116_one_each m d x1 x2 e : x1 <> [] -> Forall (fun r => List.length r = d) x1 -> llr_Nvs1 m d x1 (seq 0 (List.length x1)) x2 PVavg e = llr_1vs1 m x1 x2 e.
Proof. intros NE F. cbn [llr_Nvs1]. f_equal. assert (LM : S (list_max (seq 0 (List.length x1))) = List.length x1).
  { destruct x1 as [|a x1]; [congruence|]. clear. cbn [List.length]. generalize (List.length x1) as n. intro n. assert (X : forall n s, list_max (seq s (S n)) = (s + n)%nat); [|rewrite X; lia]. clear. induction n as [|n IH]; intro s; [cbn; lia|]. change (seq s (S (S n))) with (s :: seq (S s) (S n)). cbn [list_max fold_right]. fold (list_max (seq (S s) (S n))). rewrite IH. lia. }
  rewrite LM. assert (X : forall c r, nth_error x1 c = Some r -> class_avg d x1 (seq 0 (List.length x1)) c = r).
  { intros c r Hc. unfold class_avg. assert (CR : class_rows x1 (seq 0 (List.length x1)) c = [r]).
    { unfold class_rows. clear - Hc. assert (G : forall s, map fst (filter (fun p => Nat.eqb (snd p) (s + c)) (combine x1 (seq s (List.length x1)))) = [r]); [|apply (G O)]. revert c Hc. induction x1 as [|a x1 IH]; intros c Hc s; [destruct c; discriminate|]. cbn [List.length seq combine filter snd]. destruct c as [|c].
      - injection Hc as ->. rewrite Nat.add_0_r, Nat.eqb_refl. cbn [map fst]. f_equal. clear. assert (Z : forall t, (s < t)%nat -> filter (fun p : list R * nat => Nat.eqb (snd p) s) (combine x1 (seq t (List.length x1))) = []); [|rewrite Z by lia; reflexivity].
        induction x1 as [|b x1 IH]; intros t Ht; [reflexivity|]. cbn [List.length seq combine filter snd]. destruct (Nat.eqb_spec t s); [lia|]. apply IH. lia.
      - destruct (Nat.eqb_spec s (s + S c)); [lia|]. replace (s + S c)%nat with (S s + c)%nat by lia. apply IH, Hc. }
    rewrite CR. cbn [List.length]. change (INR 1) with 1. assert (Lr : List.length r = d) by (rewrite Forall_forall in F; apply F; eapply nth_error_In, Hc). cbn [class_sum fold_right]. subst d. clear. unfold vadd. induction r as [|v r IH]; [reflexivity|]. cbn. rewrite IH. f_equal. field. }
  clear - X. assert (G : forall l s, (forall c r, nth_error l c = Some r -> class_avg d x1 (seq 0 (List.length x1)) (s + c) = r) -> map (class_avg d x1 (seq 0 (List.length x1))) (seq s (List.length l)) = l).
  { induction l as [|a l IH]; intros s H; [reflexivity|]. cbn [List.length seq map]. f_equal; [rewrite <- (Nat.add_0_r s); apply H; reflexivity|]. apply IH. intros c r Hc. replace (S s + c)%nat with (s + S c)%nat by lia. apply H. exact Hc. }
  apply (G x1 O). exact X. Qed.
(** length normalization gives norm sqrt(d) n / (n + 1e-10) *)
Theorem C116_lnorm x : let n := sqrt (vsum (map (fun v => v * v) x)) in sqrt (vsum (map (fun v => v * v) (lnorm x))) = sqrt (INR (List.length x)) * n / (n + / 10 ^ 10).
Proof. intro n. unfold lnorm. fold n. assert (N : 0 <= n) by apply sqrt_pos. assert (K : 0 < / 10 ^ 10) by (apply Rinv_0_lt_compat, pow_lt; lra). set (k := sqrt (INR (List.length x)) / (n + / 10 ^ 10)).
  assert (K0 : 0 <= k) by (unfold k, Rdiv; apply Rmult_le_pos; [apply sqrt_pos|left; apply Rinv_0_lt_compat; lra]).
  assert (E : vsum (map (fun v => v * v) (map (fun v => sqrt (INR (List.length x)) * v / (n + / 10 ^ 10)) x)) = k * k * vsum (map (fun v => v * v) x)).
  { rewrite map_map. transitivity (vsum (map (fun v => k * k * (v * v)) x)).
    - f_equal. apply map_ext. intro v. unfold k. field. lra.
    - unfold vsum. induction x as [|v x IH]; [cbn; ring|]. clear. generalize (k * k) as c. intro c. generalize (v :: x) as l. induction l as [|w l IH]; [cbn; ring|]. cbn [map fold_right]. rewrite IH. ring. }
  rewrite E, sqrt_mult_alt by nra. rewrite sqrt_square by exact K0. fold n. unfold k. field. lra. Qed.
Theorem C116_savg_refuted m d x1 ids x2 e s : llr_1vs1 m x1 x2 e = Ok s -> llr_Nvs1 m d x1 ids x2 PSavg e = Err AttributeError.
Proof. intro E. unfold llr_Nvs1. rewrite E. reflexivity. Qed.
Theorem C116_book_refuted m d x1 ids x2 e : llr_Nvs1 m d x1 ids x2 PBook e = Ok None.
Proof. reflexivity. Qed.
Definition wenc (s : list (list R)) : list (list R) :=
  let p := 1 + vsum (map (fun f => Rabs (nth 0 f 0)) s) in [[vsum (map (fun f => nth 0 f 0) s) / p]; [- ln p]; []].
Definition wm : tvae := mk_tvae 2 wenc (fun _ => 0).
Example C116_witness : (2 <= tv_len wm)%nat /\ enough wm /\ posts wm 1 [[1]] /\ posts wm 1 [[2]] /\
  (forall a b, In a [[1]] -> In b [[2]] -> exists q, post wm 1 (together wm b a) q) /\
  post wm 1 (alone wm [1]) [(1 / 2, - ln 2)] /\ post wm 1 (alone wm [2]) [(2 / 3, - ln 3)] /\
  proper [(1 / 2, - ln 2)] [(2 / 3, - ln 3)] /\ post wm 1 (together wm [2] [1]) (joint [(1 / 2, - ln 2)] [(2 / 3, - ln 3)]).
Proof. assert (P1 : post wm 1 (alone wm [1]) [(1 / 2, - ln 2)]).
  { unfold post, alone, wm, wenc, vsum, zero_frame. cbn. rewrite Rabs_R0, (Rabs_right 1) by lra. replace (1 + (1 + (0 + 0))) with 2 by ring. replace (1 + (0 + 0)) with 1 by ring. do 3 eexists. repeat split. }
  assert (P2 : post wm 1 (alone wm [2]) [(2 / 3, - ln 3)]).
  { unfold post, alone, wm, wenc, vsum, zero_frame. cbn. rewrite Rabs_R0, (Rabs_right 2) by lra. replace (1 + (2 + (0 + 0))) with 3 by ring. replace (2 + (0 + 0)) with 2 by ring. do 3 eexists. repeat split. }
  assert (P3 : post wm 1 (together wm [2] [1]) (joint [(1 / 2, - ln 2)] [(2 / 3, - ln 3)])).
  { unfold post, together, joint, joint1, wm, wenc, vsum, zero_frame. cbn. rewrite !Ropp_involutive, !exp_ln by lra. rewrite (Rabs_right 1), (Rabs_right 2) by lra. do 3 eexists. repeat split. cbn. do 2 f_equal; [field|do 2 f_equal; ring]. }
  split; [cbn; lia|]. split; [intro s; cbn; lia|]. split; [intros r [<-|[]]; eexists; exact P1|]. split; [intros r [<-|[]]; eexists; exact P2|].
  split; [intros a b [<-|[]] [<-|[]]; eexists; exact P3|]. split; [exact P1|]. split; [exact P2|]. split; [|exact P3].
  cbn. rewrite !Ropp_involutive, !exp_ln by lra. split; [lra|exact Logic.I]. Qed.
Print Assumptions C116_qscr. Print Assumptions C116_cand_is_qscr.
