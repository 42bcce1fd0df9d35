(** C90: evaluation of trial lists — the score of a pair (model, segment) is the score of the vectors enrolled and tested under these names;
    C91: conversion of scores to the LRE table. *)
From Coq Require Import ZArith List Bool Arith String Reals Lia Lra Permutation.
From Verif Require Import Base BaseFacts Mat MatProofs Str StrFacts Trials TrialsSpec TrialsProofs TrialsProps ScoresProofs ScoresProps Utt2Info Utt2InfoProps Segments TrialEval.
Import ListNotations.
Open Scope list_scope.
Open Scope nat_scope.

Section Props.
Context {X A : Type}.
Variable zero : X.
Variable fetch : string -> res (list X).
Variable preproc : option (list X -> list X).
Variable score : list X -> list X -> A.
Variable F : sops A.

(** the preprocessing of one vector *)
Definition prep (x : list X) : list X := match preproc with Some f => f x | None => x end.

Lemma squeeze_rows b data M : @squeeze X zero b data = Ok M -> b = false -> m_rows M = data.
Proof.
  intros E ->. unfold squeeze in E. destruct data as [|d0 data]; [discriminate|]. destruct (forallb _ _); [|discriminate].
  destruct (existsb _ _); [discriminate|]. injection E as <-. reflexivity.
Qed.

Lemma read_rows keys M : read_matrix zero fetch keys = Ok M -> mapM fetch keys = Ok (m_rows M).
Proof.
  unfold read_matrix. intros E. destruct (mapM fetch keys) as [d|e] eqn:Ed; [|discriminate]. cbn [bind] in E. apply squeeze_rows in E; [|reflexivity]. congruence.
Qed.

(** the part of the evaluation that follows the selection of the enrolment rows and of the trials *)
Definition core (n : ndx) (o : u2i) : res (scores A) :=
  '(x_e, x_t, models, n) <- reader_read zero fetch preproc (Some n, o) ;;
  S <- all_pairs score x_e x_t ;;
  scores_new F models (n_seg n) S (mfull (len models) (len (n_seg n)) true).

Lemma prep_rows (M : mat X) : m_rows (match preproc with Some f => map_rows f | None => fun M => M end M) = map prep (m_rows M).
Proof. unfold prep. destruct preproc; [reflexivity|]. rewrite map_id. reflexivity. Qed.

Lemma core_sound n o s : core n o = Ok s ->
  NoDup (map snd (u_rows o)) /\ NoDup (n_seg n) /\ s_mod s = map snd (u_rows o) /\ s_seg s = n_seg n /\ scores_ok F s /\
  (forall m t, In m (s_mod s) -> In t (s_seg s) -> scored s m t) /\
  (forall k m t, In (k, m) (u_rows o) -> In t (n_seg n) -> exists xe xt, fetch k = Ok xe /\ fetch t = Ok xt /\ score_of s m t = Some (score (prep xe) (prep xt))).
Proof.
  unfold core, reader_read. cbn [fst snd]. intros E.
  destruct (read_matrix zero fetch (map fst (u_rows o))) as [xe|] eqn:E1; [|discriminate]. cbn [bind] in E.
  destruct (read_matrix zero fetch (n_seg n)) as [xt|] eqn:E2; [|discriminate]. cbn [bind] in E. apply read_rows in E1, E2.
  set (g := match preproc with Some f => map_rows f | None => fun M => M end) in *.
  unfold all_pairs in E. destruct (m_cols (g xe) =? m_cols (g xt)); [|discriminate]. cbn [bind] in E.
  assert (Re : m_rows (g xe) = map prep (m_rows xe)) by apply prep_rows. assert (Rt : m_rows (g xt) = map prep (m_rows xt)) by apply prep_rows.
  rewrite Re, Rt in E. clear Re Rt. unfold scores_new in E.
  destruct (distinct (map snd (u_rows o))) eqn:D1; [|discriminate]. destruct (distinct (n_seg n)) eqn:D2; [|discriminate].
  cbn [bind assert] in E. set (Sm := mk_mat _ _) in E. destruct (shape_is Sm _ _) eqn:D3; [|discriminate]. cbn [bind assert] in E.
  destruct (mall _) eqn:D4; [|discriminate]. cbn [bind assert] in E. destruct (shape_is (mfull _ _ _) _ _); [|discriminate]. cbn [bind assert] in E. injection E as <-.
  apply distinct_iff in D1, D2. cbn [s_mod s_seg s_scr s_mask].
  pose proof (mapM_length _ _ _ E1) as L1. pose proof (mapM_length _ _ _ E2) as L2. rewrite map_length in L1.
  assert (SH : has_shape Sm (len (map snd (u_rows o))) (len (n_seg n))).
  { unfold Sm. split; [|split]; cbn [m_rows m_cols]; rewrite ?map_length; [lia|lia|]. apply Forall_forall. intros r Ir. apply in_map_iff in Ir as (e & <- & _). rewrite !map_length. lia. }
  split; [exact D1|]. split; [exact D2|]. split; [reflexivity|]. split; [reflexivity|]. split; [|split].
  - split; [exact D1|]. split; [exact D2|]. split; [exact SH|]. split; [cbn [s_mask s_mod s_seg]; apply mfull_shape|]. cbn [s_scr]. intros i j x Ex.
    rewrite mall_iff in D4. apply (D4 i j). rewrite mmap_get, Ex. reflexivity.
  - intros m t Im It. unfold scored. cbn [s_mod s_seg s_mask]. apply cell_full; assumption.
  - intros k m t Ik It. apply In_nth_error in Ik as (i & Ei). apply In_nth_error in It as (j & Ej).
    apply mapM_ok_iff in E1, E2.
    assert (N1 : exists xi, nth_error (m_rows xe) i = Some xi /\ fetch k = Ok xi).
    { assert (nth_error (map fst (u_rows o)) i = Some k) by (rewrite nth_error_map, Ei; reflexivity). clear - E1 H. revert i H.
      induction E1 as [|a b la lb H1 E1 IH]; intros [|i] H; cbn in *; try discriminate; [injection H as ->; eauto|apply IH; exact H]. }
    assert (N2 : exists xi, nth_error (m_rows xt) j = Some xi /\ fetch t = Ok xi).
    { clear - E2 Ej. revert j Ej. induction E2 as [|a b la lb H1 E2 IH]; intros [|j] H; cbn in *; try discriminate; [injection H as ->; eauto|apply IH; exact H]. }
    destruct N1 as (vi & N1 & F1), N2 as (vj & N2 & F2). exists vi, vj. split; [exact F1|]. split; [exact F2|].
    unfold score_of. cbn [s_mod s_seg s_scr]. rewrite (cell_nth _ _ _ m t i j D1 D2); [|rewrite nth_error_map, Ei; reflexivity|exact Ej].
    unfold mget, Sm. cbn [m_rows]. rewrite !nth_error_map, N1. cbn. rewrite nth_error_map, nth_error_map, N2. reflexivity.
Qed.

Lemma mapM_fetch_vec (vec : string -> list X) keys : (forall k, In k keys -> fetch k = Ok (vec k)) -> mapM fetch keys = Ok (map vec keys).
Proof.
  induction keys as [|k keys IH]; intros H; [reflexivity|]. cbn. rewrite (H k) by (left; reflexivity). cbn. rewrite IH by (intros; apply H; right; assumption). reflexivity.
Qed.

Lemma read_ok (vec : string -> list X) d keys : keys <> [] -> 0 < d -> (forall k, In k keys -> fetch k = Ok (vec k) /\ len (vec k) = d) ->
  read_matrix zero fetch keys = Ok (mk_mat d (map vec keys)).
Proof.
  intros NE P H. unfold read_matrix. rewrite (mapM_fetch_vec vec) by (intros k Ik; apply H; exact Ik). cbn [bind]. unfold squeeze.
  destruct keys as [|k0 keys]; [congruence|]. cbn [map]. assert (L0 : len (vec k0) = d) by (apply H; left; reflexivity). rewrite L0.
  change (vec k0 :: map vec keys) with (map vec (k0 :: keys)).
  assert (Q : forallb (fun x => (len x =? 0) || (len x =? d)) (map vec (k0 :: keys)) = true).
  { apply forallb_forall. intros x Ix. apply in_map_iff in Ix as (k & <- & Ik). rewrite (proj2 (H k Ik)), Nat.eqb_refl. apply orb_true_r. }
  assert (Q2 : existsb (fun x : list X => len x =? 0) (map vec (k0 :: keys)) = false).
  { destruct (existsb _ _) eqn:Q2; [|reflexivity]. apply existsb_exists in Q2 as (x & Ix & Hx). apply in_map_iff in Ix as (k & <- & Ik). rewrite (proj2 (H k Ik)) in Hx. apply Nat.eqb_eq in Hx. lia. }
  rewrite Q, Q2. reflexivity.
Qed.

Lemma core_complete n o (vec : string -> list X) d d' : u_rows o <> [] -> n_seg n <> [] -> 0 < d ->
  (forall k, In k (map fst (u_rows o)) \/ In k (n_seg n) -> fetch k = Ok (vec k) /\ len (vec k) = d) ->
  (forall x, len x = d -> len (prep x) = d') -> NoDup (map snd (u_rows o)) -> NoDup (n_seg n) -> (forall x y, s_fin F (score x y) = true) ->
  exists s, core n o = Ok s.
Proof.
  intros NE NS P H HP ND NDs FIN. unfold core, reader_read. cbn [fst snd].
  assert (NK : map fst (u_rows o) <> []) by (intros Q; apply map_eq_nil in Q; congruence).
  assert (Hk : forall k, In k (map fst (u_rows o)) -> fetch k = Ok (vec k) /\ len (vec k) = d) by (intros k Ik; apply H; left; exact Ik).
  assert (Hs : forall k, In k (n_seg n) -> fetch k = Ok (vec k) /\ len (vec k) = d) by (intros k Ik; apply H; right; exact Ik).
  rewrite (read_ok vec d _ NK P Hk). cbn [bind]. rewrite (read_ok vec d _ NS P Hs). cbn [bind].
  set (g := match preproc with Some f => map_rows f | None => fun M => M end).
  assert (C : forall keys, keys <> [] -> (forall k, In k keys -> len (vec k) = d) -> m_cols (g (mk_mat d (map vec keys))) = d').
  { intros keys Nk Hq. unfold g. unfold prep in HP. destruct keys as [|k0 keys]; [congruence|]. pose proof (HP (vec k0) (Hq k0 (or_introl eq_refl))) as Q.
    destruct preproc; cbn; [exact Q|]. rewrite (Hq k0) in Q by (left; reflexivity). exact Q. }
  unfold all_pairs. rewrite (C _ NK (fun k Ik => proj2 (Hk k Ik))), (C _ NS (fun k Ik => proj2 (Hs k Ik))), Nat.eqb_refl. cbn [bind].
  assert (Re : forall M, m_rows (g M) = map prep (m_rows M)) by (intros M; apply prep_rows). rewrite !Re. cbn [m_rows].
  unfold scores_new. rewrite (proj2 (distinct_iff _) ND), (proj2 (distinct_iff _) NDs). cbn [bind assert].
  unfold shape_is at 1. cbn [m_rows m_cols]. rewrite !map_length, !Nat.eqb_refl. cbn [andb bind assert].
  match goal with |- context [mall ?M] => replace (mall M) with true end.
  2:{ symmetry. apply mall_iff. intros i j b. unfold mget, mmap. cbn [m_rows]. rewrite !nth_error_map. destruct (nth_error (u_rows o) i); cbn; [|discriminate].
      rewrite !nth_error_map. destruct (nth_error (n_seg n) j); cbn; [|discriminate]. rewrite FIN. congruence. }
  cbn [bind assert]. unfold shape_is, mfull. cbn [m_rows m_cols]. rewrite repeat_length, !Nat.eqb_refl. cbn. eauto.
Qed.

(** the rows of the enrolment list that belong to the models of the trial list, in the order of the enrolment list *)
Definition enrolled (enroll : u2i) (n : ndx) : list (string * string) := filter (fun r => inb (snd r) (n_mod n)) (u_rows enroll).

Lemma eval_core n enroll test :
  (forall m, In m (n_mod n) -> exists k, In (k, m) (u_rows enroll)) ->
  exists o, u_rows o = enrolled enroll n /\ eval_1vs1 zero fetch preproc score F (Some n) enroll test 1 1 EnrollTest = core n o.
Proof.
  intros H. destruct (C60_filter_info enroll (n_mod n)) as (C & _). destruct C as (o & E & R).
  { intros v Iv. destruct (H v Iv) as (k & Ik). exists (k, v). split; [exact Ik|reflexivity]. }
  exists o. split; [exact R|]. unfold eval_1vs1, reader_new, parse_eval_set. rewrite E. reflexivity.
Qed.

(** Whatever the evaluation returns, its models are those of the trial list, each enrolled exactly once, its segments are those of the trial
    list, and the score of a pair is the score of the vector enrolled under the name of the model and of the vector of the segment. *)
Theorem C90_alignment : forall n enroll test s, eval_1vs1 zero fetch preproc score F (Some n) enroll test 1 1 EnrollTest = Ok s ->
  (forall m, In m (s_mod s) <-> In m (n_mod n)) /\ s_mod s = map snd (enrolled enroll n) /\ s_seg s = n_seg n /\ scores_ok F s /\
  (forall m t, In m (n_mod n) -> In t (n_seg n) -> scored s m t) /\
  (forall k m t, In (k, m) (u_rows enroll) -> In m (n_mod n) -> In t (n_seg n) ->
     exists xe xt, fetch k = Ok xe /\ fetch t = Ok xt /\ score_of s m t = Some (score (prep xe) (prep xt))) /\
  (forall k k' m, In (k, m) (u_rows enroll) -> In (k', m) (u_rows enroll) -> In m (n_mod n) -> k = k').
Proof.
  intros n enroll test s E.
  assert (H : forall m, In m (n_mod n) -> exists k, In (k, m) (u_rows enroll)).
  { intros m Im. destruct (in_dec string_dec m (map snd (u_rows enroll))) as [I|I].
    - apply in_map_iff in I as ((k & m') & <- & I). exists k. exact I.
    - exfalso. destruct (C60_filter_info enroll (n_mod n)) as (_ & C & _). specialize (C m Im).
      unfold eval_1vs1, reader_new, parse_eval_set in E. rewrite C in E; [discriminate|]. intros r Ir Q. apply I. subst. apply in_map. exact Ir. }
  destruct (eval_core n enroll test H) as (o & R & Q). rewrite Q in E. apply core_sound in E as (N1 & N2 & M & S & OK & T & V). rewrite R in *.
  assert (IN : forall k m, In (k, m) (u_rows enroll) -> In m (n_mod n) -> In (k, m) (enrolled enroll n)).
  { intros k m Ik Im. apply filter_In. split; [exact Ik|]. apply inb_iff. exact Im. }
  assert (SM : forall m, In m (s_mod s) <-> In m (n_mod n)).
  { intros m. rewrite M. rewrite in_map_iff. split.
    - intros ((k & m') & <- & I). apply filter_In in I as (_ & I). apply inb_iff in I. exact I.
    - intros Im. destruct (H m Im) as (k & Ik). exists (k, m). split; [reflexivity|]. apply IN; assumption. }
  split; [exact SM|]. split; [exact M|]. split; [exact S|]. split; [exact OK|]. split; [|split].
  - intros m t Im It. apply T; [apply SM; exact Im|rewrite S; exact It].
  - intros k m t Ik Im It. apply V; [apply IN; assumption|exact It].
  - intros k k' m I1 I2 Im. pose proof (IN _ _ I1 Im) as J1. pose proof (IN _ _ I2 Im) as J2.
    apply In_nth_error in J1 as (i & J1). apply In_nth_error in J2 as (j & J2).
    rewrite NoDup_nth_error in N1. assert (i = j).
    { apply N1; [apply nth_error_Some; rewrite nth_error_map, J1; discriminate|rewrite !nth_error_map, J1, J2; reflexivity]. }
    subst j. congruence.
Qed.

(** It succeeds when every model of the trial list is enrolled with exactly one vector, all vectors can be read and have the same positive
    dimension, the preprocessing maps that dimension to one dimension, and the scores are finite. *)
Theorem C90_evaluates : forall n enroll test (vec : string -> list X) d d', ndx_ok n -> n_mod n <> [] -> n_seg n <> [] -> 0 < d ->
  (forall m, In m (n_mod n) -> exists k, In (k, m) (u_rows enroll)) -> NoDup (map snd (enrolled enroll n)) ->
  (forall k, In k (map fst (enrolled enroll n)) \/ In k (n_seg n) -> fetch k = Ok (vec k) /\ len (vec k) = d) ->
  (forall x, len x = d -> len (prep x) = d') -> (forall x y, s_fin F (score x y) = true) ->
  exists s, eval_1vs1 zero fetch preproc score F (Some n) enroll test 1 1 EnrollTest = Ok s.
Proof.
  intros n enroll test vec d d' (ON & OS & _) NM NS P H ND V HP FIN. destruct (eval_core n enroll test H) as (o & R & Q). rewrite Q.
  apply (core_complete n o vec d d'); try assumption; rewrite ?R; try assumption.
  destruct (n_mod n) as [|m l] eqn:Em; [congruence|]. destruct (H m (or_introl eq_refl)) as (k & Ik). intros Z.
  assert (I : In (k, m) (enrolled enroll n)). { apply filter_In. split; [exact Ik|]. apply inb_iff. rewrite Em. left; reflexivity. } rewrite Z in I. destruct I.
Qed.

(** A model with two enrolment utterances, a model with none, several parts, cohorts on the test side and N enrolment utterances: none of these
    evaluations ever returns, whatever the vectors. *)
Theorem C90_two_enrolments_refuted : forall n enroll test k k' m s, In m (n_mod n) -> In (k, m) (u_rows enroll) -> In (k', m) (u_rows enroll) -> k <> k' ->
  eval_1vs1 zero fetch preproc score F (Some n) enroll test 1 1 EnrollTest <> Ok s.
Proof.
  intros n enroll test k k' m s Im I1 I2 N E. apply C90_alignment in E as (_ & _ & _ & _ & _ & _ & U). apply N. apply (U k k' m); assumption.
Qed.

Theorem C90_not_enrolled : forall n enroll test p q m, In m (n_mod n) -> ~ In m (map snd (u_rows enroll)) ->
  eval_1vs1 zero fetch preproc score F (Some n) enroll test p q EnrollTest = Err BareException.
Proof.
  intros n enroll test p q m Im NI. destruct (C60_filter_info enroll (n_mod n)) as (_ & C & _). specialize (C m Im).
  unfold eval_1vs1, reader_new, parse_eval_set. rewrite C; [reflexivity|]. intros r Ir Q. apply NI. subst. apply in_map. exact Ir.
Qed.

Theorem C90_parts_refuted : forall n enroll test p q e s, (1 < p)%Z \/ (1 < q)%Z -> eval_1vs1 zero fetch preproc score F n enroll test p q e <> Ok s.
Proof.
  intros n enroll test p q e s H. unfold eval_1vs1, reader_new. destruct (parse_eval_set n enroll test e); [|discriminate]. cbn [bind].
  replace ((1 <? p)%Z || (1 <? q)%Z) with true; [discriminate|]. symmetry. apply orb_true_iff. destruct H; [left|right]; apply Z.ltb_lt; assumption.
Qed.

Theorem C90_cohort_refuted : forall n enroll test p q, eval_1vs1 zero fetch preproc score F n enroll test p q EnrollCoh = Err AttributeError /\
  eval_1vs1 zero fetch preproc score F n enroll test p q CohCoh = Err AttributeError /\ eval_1vs1 zero fetch preproc score F None enroll test p q CohTest = Err AttributeError.
Proof. repeat split. Qed.

Theorem C90_several_enrolments_refuted : forall n enroll test p q e s, @eval_Nvs1 X A zero fetch preproc F n enroll test p q e <> Ok s.
Proof.
  intros. unfold eval_Nvs1. destruct (reader_new n enroll test p q e); [|discriminate]. cbn [bind]. destruct (reader_read zero fetch preproc _); discriminate.
Qed.

(** Cohort against test: every cohort vector is scored against every test segment, under the name in the second column of the cohort list;
    these names must be distinct, and so must be the keys. *)
Theorem C90_cohort_test : forall n cohort test s, eval_1vs1 zero fetch preproc score F (Some n) cohort test 1 1 CohTest = Ok s ->
  s_mod s = map snd (u_rows cohort) /\ s_seg s = n_seg n /\ scores_ok F s /\ NoDup (map fst (u_rows cohort)) /\
  (forall k m t, In (k, m) (u_rows cohort) -> In t (n_seg n) ->
     scored s m t /\ exists xe xt, fetch k = Ok xe /\ fetch t = Ok xt /\ score_of s m t = Some (score (prep xe) (prep xt))).
Proof.
  intros n cohort test s E. unfold eval_1vs1, reader_new, parse_eval_set in E. destruct (ndx_new _ _ _) as [n'|] eqn:En; [|discriminate].
  change (core n' cohort = Ok s) in E. unfold ndx_new in En. destruct (distinct (map fst (u_rows cohort))) eqn:D; [|discriminate]. destruct (distinct (n_seg n)); [|discriminate].
  cbn [bind assert] in En. injection En as <-. apply core_sound in E as (N1 & N2 & M & S & OK & T & V). cbn [n_seg] in *.
  split; [exact M|]. split; [exact S|]. split; [exact OK|]. split; [apply distinct_iff; exact D|]. intros k m t Ik It. split.
  - apply T; [rewrite M; apply (in_map snd) in Ik; exact Ik|rewrite S; exact It].
  - apply (V k); assumption.
Qed.

(** Stacking vectors: equal lengths are stacked unchanged; in permissive mode empty vectors become zeros, except that an empty first vector makes
    the call fail although its documentation promises a row of zeros; with different lengths it always fails. *)
Theorem C90_squeeze : forall (data : list (list X)) d, data <> [] -> 0 < d ->
  ((forall x, In x data -> len x = d) -> forall b, squeeze zero b data = Ok (mk_mat d data)) /\
  ((forall x, In x data -> len x = d \/ x = []) -> len (hd [] data) = d ->
     exists M, squeeze zero true data = Ok M /\ m_cols M = d /\ len (m_rows M) = len data /\
       forall i x, nth_error data i = Some x -> nth_error (m_rows M) i = Some (if (len x =? 0) then repeat zero d else x)) /\
  (In [] data -> exists e, squeeze zero false data = Err e) /\
  (forall x y b, In x data -> In y data -> x <> [] -> y <> [] -> len x <> len y -> squeeze zero b data = Err AssertionError).
Proof.
  intros data d NE P. destruct data as [|d0 data]; [congruence|]. set (l := d0 :: data) in *. clear NE. split; [|split; [|split]].
  - intros H b. assert (L0 : len d0 = d) by (apply H; left; reflexivity). unfold squeeze, l. rewrite L0. fold l.
    assert (Q : forallb (fun x => (len x =? 0) || (len x =? d)) l = true) by (apply forallb_forall; intros x Ix; rewrite (H x Ix), Nat.eqb_refl; apply orb_true_r). rewrite Q.
    destruct b.
    + f_equal. f_equal. rewrite <- (map_id l) at 2. apply map_ext_in. intros x Ix. rewrite (H x Ix). destruct (Nat.eqb_spec d 0); [lia|reflexivity].
    + destruct (existsb _ _) eqn:Q2; [|reflexivity]. apply existsb_exists in Q2 as (x & Ix & Hx). rewrite (H x Ix) in Hx. apply Nat.eqb_eq in Hx. lia.
  - intros H L0. cbn in L0. unfold squeeze, l. rewrite L0. fold l.
    assert (Q : forallb (fun x => (len x =? 0) || (len x =? d)) l = true).
    { apply forallb_forall. intros x Ix. destruct (H x Ix) as [->| ->]; [rewrite Nat.eqb_refl; apply orb_true_r|reflexivity]. } rewrite Q.
    eexists. split; [reflexivity|]. cbn [m_cols m_rows]. split; [reflexivity|]. split; [apply map_length|]. intros i x Ex. rewrite nth_error_map, Ex. reflexivity.
  - intros I. unfold squeeze, l. fold l. destruct (forallb _ _); [|eauto]. destruct (existsb _ _) eqn:Q2; [eauto|].
    exfalso. assert (existsb (fun x : list X => len x =? 0) l = true) by (apply existsb_exists; exists []; split; [exact I|reflexivity]). congruence.
  - intros x y b Ix Iy Nx Ny N. unfold squeeze, l. fold l. destruct (forallb _ _) eqn:Q; [|reflexivity]. exfalso. rewrite forallb_forall in Q.
    pose proof (Q x Ix) as Qx. pose proof (Q y Iy) as Qy. apply orb_true_iff in Qx, Qy. rewrite !Nat.eqb_eq in Qx, Qy.
    assert (len x <> 0) by (destruct x; [congruence|discriminate]). assert (len y <> 0) by (destruct y; [congruence|discriminate]). lia.
Qed.

Theorem C90_squeeze_refuted : forall x (data : list (list X)), In x data -> x <> [] -> squeeze zero true ([] :: data) = Err AssertionError.
Proof.
  intros x data Ix Nx. unfold squeeze. destruct (forallb _ _) eqn:Q; [|reflexivity]. exfalso. rewrite forallb_forall in Q. specialize (Q x (or_intror Ix)).
  cbn in Q. rewrite orb_diag in Q. apply Nat.eqb_eq in Q. destruct x; [congruence|discriminate].
Qed.
End Props.
Print Assumptions C90_alignment.
Print Assumptions C90_evaluates.
Print Assumptions C90_two_enrolments_refuted.
Print Assumptions C90_not_enrolled.
Print Assumptions C90_parts_refuted.
Print Assumptions C90_cohort_refuted.
Print Assumptions C90_several_enrolments_refuted.
Print Assumptions C90_cohort_test.
Print Assumptions C90_squeeze.
Print Assumptions C90_squeeze_refuted.

(** ** Segmentation of the test side *)

(** the extended segment [e] has a segment in file [f] *)
Definition member (segs : list eseg) (f e : string) : Prop := exists s, In s segs /\ e_file s = f /\ e_ext s = e.

Lemma ext_ids_ok segs b f l : ext_ids segs b f = Ok l -> NoDup l /\ (forall e, In e l <-> member segs f e).
Proof.
  unfold ext_ids. set (rows := filter _ segs).
  assert (R : forall s, In s rows <-> In s segs /\ e_file s = f). { intros s. unfold rows. rewrite filter_In. destruct (eqb_spec (e_file s) f) as [->|N]; split; intros (H1 & H2); split; auto; congruence. }
  destruct rows as [|r0 rows0] eqn:E.
  - destruct b; [discriminate|]. intros Q. injection Q as <-. split; [constructor|]. intros e. split; [intros []|]. intros (s & I & F1 & _). apply (proj2 (R s)). auto.
  - intros Q. assert (QE : l = unique (map e_ext (r0 :: rows0))) by congruence. rewrite QE. clear Q QE. split; [apply unique_nodup|]. intros e. rewrite unique_in, in_map_iff. split.
    + intros (s & <- & I). apply R in I. exists s. tauto.
    + intros (s & I & F1 & F2). exists s. split; [exact F2|]. apply R. auto.
Qed.

Lemma ext_ids_some segs b f : (b = true -> exists s, In s segs /\ e_file s = f) -> exists l, ext_ids segs b f = Ok l.
Proof.
  intros H. unfold ext_ids. set (rows := filter _ segs). destruct rows as [|r0 rows0] eqn:E; [|eauto]. destruct b; [|eauto].
  destruct (H eq_refl) as (s & I & Q). exfalso. assert (In s []) as []. rewrite <- E. apply filter_In. split; [exact I|]. rewrite Q. destruct (eqb_spec f f); congruence.
Qed.

Lemma concat_zip (row : list bool) (ids : list (list string)) : len row = len ids ->
  len (concat (zip_with (fun b l => repeat b (len l)) row ids)) = len (concat ids).
Proof.
  revert row. induction ids as [|l ids IH]; intros [|b row] E; cbn in *; try discriminate; [reflexivity|]. rewrite !app_length, repeat_length, IH by lia. reflexivity.
Qed.

Lemma concat_pos (ids : list (list string)) j e : nth_error (concat ids) j = Some e ->
  exists i l, nth_error ids i = Some l /\ In e l /\
    forall row : list bool, len row = len ids -> nth_error (concat (zip_with (fun b l => repeat b (len l)) row ids)) j = nth_error row i.
Proof.
  revert j. induction ids as [|l ids IH]; intros j E; cbn in E; [destruct j; discriminate|].
  destruct (Nat.lt_ge_cases j (len l)) as [L|L].
  - rewrite nth_error_app1 in E by exact L. exists 0, l. split; [reflexivity|]. split; [eapply nth_error_In; exact E|]. intros [|b row] Q; [discriminate|]. cbn.
    rewrite nth_error_app1 by (rewrite repeat_length; exact L). apply nth_error_repeat. exact L.
  - rewrite nth_error_app2 in E by exact L. destruct (IH _ E) as (i & l' & E1 & E2 & E3). exists (S i), l'. split; [exact E1|]. split; [exact E2|].
    intros [|b row] Q; [discriminate|]. cbn in *. rewrite nth_error_app2 by (rewrite repeat_length; exact L). rewrite repeat_length. apply E3. lia.
Qed.

Lemma nodup_concat (f : string -> list string) segs : NoDup segs -> (forall x, In x segs -> NoDup (f x)) ->
  (forall x y e, In x segs -> In y segs -> In e (f x) -> In e (f y) -> x = y) -> NoDup (concat (map f segs)).
Proof.
  induction segs as [|x segs IH]; intros N H1 H2; cbn; [constructor|]. inversion_clear N.
  assert (AP : forall a b : list string, NoDup a -> NoDup b -> (forall e, In e a -> In e b -> False) -> NoDup (a ++ b)).
  { clear. induction a as [|x a IH]; intros b Na Nb D; [exact Nb|]. inversion_clear Na. cbn. constructor; [rewrite in_app_iff; intros [I|I]; [auto|apply (D x); [left; reflexivity|exact I]]|]. apply IH; auto. intros e I1 I2. apply (D e); [right; exact I1|exact I2]. }
  apply AP; [apply H1; left; reflexivity| |].
  - apply IH; [assumption|intros; apply H1; right; assumption|]. intros y z e Iy Iz E1 E2. apply (H2 y z e); auto; right; assumption.
  - intros e I1 I2. apply in_concat in I2 as (l & Il & Ie). apply in_map_iff in Il as (y & <- & Iy).
    assert (x = y) by (apply (H2 x y e); auto; [left; reflexivity|right; exact Iy]). subst. contradiction.
Qed.

(** The trials of the segmented list are exactly the pairs of a model and an extended segment of a file that the model was to be tested on. *)
Theorem C90_segmentation : forall o segs by_file, ndx_ok o -> n_seg o <> [] ->
  (by_file = true -> forall f, In f (n_seg o) -> exists s, In s segs /\ e_file s = f) ->
  (forall f f' e, In f (n_seg o) -> In f' (n_seg o) -> member segs f e -> member segs f' e -> f = f') ->
  exists r, apply_segmentation o segs by_file = Ok r /\ ndx_ok r /\ n_mod r = n_mod o /\
    (forall e, In e (n_seg r) <-> exists f, In f (n_seg o) /\ member segs f e) /\
    (forall m e, trial r m e <-> exists f, member segs f e /\ trial o m f).
Proof.
  intros o segs b (N1 & N2 & S1 & S2 & S3) NE HF HU.
  assert (G : exists idf, forall f, In f (n_seg o) -> ext_ids segs b f = Ok (idf f)).
  { exists (fun f => match ext_ids segs b f with Ok l => l | Err _ => [] end). intros f If. destruct (ext_ids_some segs b f) as (l & E); [auto|]. rewrite E. reflexivity. }
  destruct G as (idf & G).
  assert (K : mapM (ext_ids segs b) (n_seg o) = Ok (map idf (n_seg o))).
  { clear - G. revert G. generalize (n_seg o). induction l as [|f l IH]; intros G; [reflexivity|]. cbn. rewrite (G f) by (left; reflexivity). cbn. rewrite IH by (intros; apply G; right; assumption). reflexivity. }
  assert (P : forall f, In f (n_seg o) -> NoDup (idf f) /\ forall e, In e (idf f) <-> member segs f e) by (intros f If; apply (ext_ids_ok segs b f); apply G; exact If).
  assert (ND : NoDup (concat (map idf (n_seg o)))).
  { apply nodup_concat; [exact N2|intros x Ix; apply P; exact Ix|]. intros x y e Ix Iy Ex Ey. apply (HU x y e); auto; apply P; assumption. }
  unfold apply_segmentation. rewrite K. cbn [bind]. assert (MM : forall B (x y : B), match n_seg o with [] => x | _ :: _ => y end = y) by (clear - NE; intros B x y; destruct (n_seg o); [congruence|reflexivity]). rewrite MM. set (ids := map idf (n_seg o)) in *. clear NE MM.
  unfold ndx_new. rewrite (proj2 (distinct_iff _) N1), (proj2 (distinct_iff _) ND). cbn [bind assert].
  unfold shape_is. cbn [m_rows m_cols]. rewrite map_length, S1, !Nat.eqb_refl. cbn [andb bind assert].
  assert (LI : len ids = len (n_seg o)) by apply map_length.
  assert (RL : forall row, In row (m_rows (n_mask o)) -> len row = len ids). { intros row Ir. rewrite LI. rewrite Forall_forall in S3. apply S3. exact Ir. }
  eexists. split; [reflexivity|]. cbn [n_mod n_seg n_mask]. split; [|split; [reflexivity|]].
  - split; [exact N1|]. split; [exact ND|]. split; [cbn [m_rows n_mod n_mask]; rewrite map_length; exact S1|]. split; [reflexivity|]. cbn [m_rows n_seg n_mask].
    apply Forall_forall. intros r Ir. apply in_map_iff in Ir as (row & <- & Ir). apply concat_zip. apply RL. exact Ir.
  - assert (SEG : forall e, In e (concat ids) <-> exists f, In f (n_seg o) /\ member segs f e).
    { intros e. rewrite in_concat. split.
      - intros (l & Il & Ie). apply in_map_iff in Il as (f & <- & If). exists f. split; [exact If|]. apply P; assumption.
      - intros (f & If & M). exists (idf f). split; [apply in_map; exact If|]. apply P; assumption. }
    split; [exact SEG|].
    assert (CELL : forall m e f, In f (n_seg o) -> member segs f e ->
      cell (n_mod o) (concat ids) (mk_mat (len (concat ids)) (map (fun row => concat (zip_with (fun b l => repeat b (len l)) row ids)) (m_rows (n_mask o)))) m e = cell (n_mod o) (n_seg o) (n_mask o) m f).
    { intros m e f If M. destruct (in_dec string_dec m (n_mod o)) as [Im|Im]; [|rewrite !cell_none by tauto; reflexivity].
      apply In_nth_error in Im as (i & Ei). assert (Ie : In e (concat ids)) by (apply SEG; eauto). apply In_nth_error in Ie as (j & Ej).
      rewrite (cell_nth _ _ _ m e i j N1 ND Ei Ej). destruct (concat_pos _ _ _ Ej) as (c & l & E1 & E2 & E3). unfold ids in E1. rewrite nth_error_map in E1.
      destruct (nth_error (n_seg o) c) as [f'|] eqn:E4; [|discriminate]. cbn in E1. injection E1 as <-.
      assert (f' = f). { apply (HU f' f e); auto; [eapply nth_error_In; exact E4|apply P; [eapply nth_error_In; exact E4|exact E2]]. } subst f'.
      rewrite (cell_nth _ _ _ m f i c N1 N2 Ei E4). unfold mget. cbn [m_rows]. rewrite nth_error_map. destruct (nth_error (m_rows (n_mask o)) i) as [row|] eqn:Er; [|reflexivity].
      cbn. apply E3. apply RL. eapply nth_error_In; exact Er. }
    intros m e. unfold trial. cbn [n_mod n_seg n_mask]. split.
    + intros C. pose proof (cell_some_in _ _ _ _ _ _ C) as (Im & Ie). apply SEG in Ie as (f & If & M). exists f. split; [exact M|]. rewrite <- (CELL m e f If M). exact C.
    + intros (f & M & C). pose proof (cell_some_in _ _ _ _ _ _ C) as (Im & If). rewrite (CELL m e f If M). exact C.
Qed.
Print Assumptions C90_segmentation.

(** It fails when two test files share an extended segment, and, on a list indexed by file, when a test file has no segment. *)
Theorem C90_segmentation_fails : forall o segs by_file r, apply_segmentation o segs by_file = Ok r ->
  (forall f f' e, In f (n_seg o) -> In f' (n_seg o) -> NoDup (n_seg o) -> member segs f e -> member segs f' e -> f = f') /\
  (by_file = true -> forall f, In f (n_seg o) -> exists s, In s segs /\ e_file s = f).
Proof.
  intros o segs b r E. unfold apply_segmentation in E. destruct (mapM _ _) as [ids|] eqn:K; [|discriminate]. cbn [bind] in E.
  assert (L : forall f, In f (n_seg o) -> exists l, ext_ids segs b f = Ok l).
  { intros f If. apply mapM_ok_iff in K. apply In_nth_error in If as (i & Ei). clear E. revert i Ei. induction K as [|x y lx ly H K IH]; intros [|i] Ei; cbn in Ei; try discriminate; [injection Ei as ->; eauto|eapply IH; exact Ei]. }
  split.
  - intros f f' e If If' N2 M M'. assert (NE : n_seg o <> []) by (intros Q; rewrite Q in If; destruct If). assert (MM : forall B (x y : B), match n_seg o with [] => x | _ :: _ => y end = y) by (clear - NE; intros B x y; destruct (n_seg o); [congruence|reflexivity]). rewrite MM in E. clear NE MM.
    unfold ndx_new in E. destruct (distinct (n_mod o)); [|discriminate]. cbn [bind assert] in E. destruct (distinct (concat ids)) eqn:D; [|discriminate]. clear E. apply distinct_iff in D.
    apply In_nth_error in If as (i & Ei). apply In_nth_error in If' as (i' & Ei').
    apply mapM_ok_iff in K.
    assert (Q : forall j g, nth_error (n_seg o) j = Some g -> exists l, nth_error ids j = Some l /\ ext_ids segs b g = Ok l).
    { clear - K. induction K as [|x y lx ly H K IH]; intros [|j] g Ej; cbn in Ej; try discriminate; [injection Ej as ->; exists y; split; [reflexivity|exact H]|exact (IH j g Ej)]. }
    destruct (Q _ _ Ei) as (l & El & Xl), (Q _ _ Ei') as (l' & El' & Xl'). apply ext_ids_ok in Xl as (_ & Xl), Xl' as (_ & Xl'). apply Xl in M. apply Xl' in M'.
    assert (i = i').
    { clear - D El El' M M'. revert i i' El El'. induction ids as [|l0 ids IH]; intros i i' El El'; [destruct i; discriminate|]. cbn in D.
      assert (W : forall j lj, nth_error ids j = Some lj -> In e lj -> In e (concat ids)) by (intros j lj Ej Ie; apply in_concat; exists lj; split; [eapply nth_error_In; exact Ej|exact Ie]).
      assert (DJ : In e l0 -> In e (concat ids) -> False). { intros I1 I2. clear - D I1 I2. induction l0 as [|a l0 IHl]; [destruct I1|]. cbn in D. inversion_clear D. destruct I1 as [->|I1]; [apply H, in_or_app; right; exact I2|auto]. }
      assert (ND : NoDup (concat ids)). { clear - D. induction l0 as [|a l0 IHl]; [exact D|]. cbn in D. inversion_clear D. auto. }
      destruct i as [|i], i' as [|i']; cbn in El, El'; [reflexivity| | |f_equal; apply IH; assumption].
      - injection El as ->. exfalso. apply DJ; [exact M|eapply W; eassumption].
      - injection El' as ->. exfalso. apply DJ; [exact M'|eapply W; eassumption]. }
    congruence.
  - intros -> f If. destruct (L f If) as (l & El). unfold ext_ids in El. destruct (filter _ segs) as [|s rows] eqn:Ef; [discriminate|].
    exists s. assert (I : In s (filter (fun s => eqb (e_file s) f) segs)) by (rewrite Ef; left; reflexivity). apply filter_In in I as (I & J). split; [exact I|]. destruct (eqb_spec (e_file s) f); [assumption|discriminate].
Qed.
Print Assumptions C90_segmentation_fails.

(** Reading for tracking: the rows of the test matrix are the vectors of the segments of the segmented trial list; reading one file never works. *)
Theorem C90_tracking : forall X zero fetch preproc n enroll segs by_file (x_e x_t : mat X) models r,
  tracking_read zero fetch preproc n enroll segs by_file None = Ok (x_e, x_t, models, r) ->
  apply_segmentation n segs by_file = Ok r /\ models = map snd (enrolled enroll n) /\
  (exists de, mapM fetch (map fst (enrolled enroll n)) = Ok de /\ m_rows x_e = map (prep preproc) de) /\
  (exists dt, mapM fetch (n_seg r) = Ok dt /\ m_rows x_t = map (prep preproc) dt).
Proof.
  intros X zero fetch preproc n enroll segs b x_e x_t models r E. unfold tracking_read, reader_new, parse_eval_set in E.
  destruct (u2i_filter_info enroll (n_mod n) true) as [o|] eqn:Eo; [|discriminate]. cbn [bind] in E. change ((1 <? 1)%Z || (1 <? 1)%Z) with false in E. cbn [bind] in E.
  destruct (apply_segmentation n segs b) as [r'|] eqn:Es; [|discriminate]. cbn [bind] in E. unfold reader_read in E. cbn [fst snd] in E.
  assert (R : u_rows o = enrolled enroll n).
  { destruct (C60_filter_info enroll (n_mod n)) as (C & C2 & _).
    assert (H : forall v, In v (n_mod n) -> exists r, In r (u_rows enroll) /\ snd r = v).
    { intros v Iv. destruct (in_dec string_dec v (map snd (u_rows enroll))) as [I|I]; [apply in_map_iff in I as (x & <- & I); eauto|].
      specialize (C2 v Iv). rewrite C2 in Eo; [discriminate|]. intros x Ix <-. apply I. apply in_map. exact Ix. }
    destruct (C H) as (o1 & E1 & R1). rewrite Eo in E1. injection E1 as <-. exact R1. }
  rewrite R in E. destruct (read_matrix zero fetch (map fst (enrolled enroll n))) as [xe|] eqn:E1; [|discriminate]. cbn [bind] in E.
  destruct (read_matrix zero fetch (n_seg r')) as [xt|] eqn:E2; [|discriminate]. cbn [bind] in E. apply read_rows in E1, E2.
  assert (Q : x_e = match preproc with Some f => map_rows f | None => fun M => M end xe /\ x_t = match preproc with Some f => map_rows f | None => fun M => M end xt /\ models = map snd (enrolled enroll n) /\ r = r') by (injection E; intros; subst; auto).
  destruct Q as (-> & -> & -> & ->). split; [reflexivity|]. split; [reflexivity|]. rewrite !prep_rows. split; eauto.
Qed.
Print Assumptions C90_tracking.

Theorem C90_tracking_one_file_refuted : forall X zero fetch preproc n enroll segs by_file k (r : mat X * mat X * list string * ndx),
  tracking_read zero fetch preproc n enroll segs by_file (Some k) <> Ok r.
Proof.
  intros. unfold tracking_read. destruct (reader_new _ _ _ _ _ _); [|discriminate]. cbn [bind]. destruct (ndx_filter _ _ _ _); [|discriminate]. cbn [bind].
  destruct (apply_segmentation _ _ _); discriminate.
Qed.
Print Assumptions C90_tracking_one_file_refuted.
