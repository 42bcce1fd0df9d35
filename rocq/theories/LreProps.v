(** C90: cosine scores; C91: conversion of scores to the LRE table; both over hyperion/bin. *)
From Coq Require Import ZArith QArith List Bool Arith String Reals Lia Lra Permutation.
From Verif Require Import Base BaseFacts Mat MatProofs Str StrFacts Trials TrialsSpec TrialsProofs TrialsProps ScoresProofs ScoresProps Utt2Info Utt2InfoProps Segments TrialEval TrialEvalProps.
Import ListNotations.
Open Scope list_scope.
Open Scope nat_scope.

(** ** Cosine scoring *)
Section Cos.
Open Scope R_scope.
(** the scalar product *)
Fixpoint inner (a b : list R) : R := match a, b with x :: a, y :: b => x * y + inner a b | _, _ => 0 end.
Definition length2 (a : list R) : R := sqrt (inner a a).

Lemma dot_inner a b : dot_rows a b = inner a b.
Proof. revert b. induction a as [|x a IH]; intros [|y b]; cbn; try reflexivity. rewrite <- IH. reflexivity. Qed.
Lemma inner_scale s t a b : inner (map (fun x => s * x) a) (map (fun x => t * x) b) = s * t * inner a b.
Proof. revert b. induction a as [|x a IH]; intros [|y b]; cbn; try ring. rewrite IH. ring. Qed.
Lemma inner_comm a b : inner a b = inner b a.
Proof. revert b. induction a as [|x a IH]; intros [|y b]; cbn; try ring. rewrite IH. ring. Qed.
Lemma inner_pos a : 0 <= inner a a.
Proof. induction a as [|x a IH]; cbn; [lra|]. pose proof (Rle_0_sqr x). unfold Rsqr in *. lra. Qed.
Lemma norm_length a : norm_row a = length2 a.
Proof. unfold norm_row, length2. f_equal. induction a as [|x a IH]; cbn; [reflexivity|]. rewrite IH. reflexivity. Qed.

Lemma cauchy a b : (inner a b)² <= inner a a * inner b b.
Proof.
  revert b. induction a as [|x a IH]; intros [|y b]; cbn; unfold Rsqr; try lra.
  specialize (IH b). unfold Rsqr in IH. set (P := inner a a) in *. set (Q := inner b b) in *. set (c := inner a b) in *.
  assert (HP : 0 <= P) by apply inner_pos. assert (HQ : 0 <= Q) by apply inner_pos.
  assert (K : 2 * (x * y * c) <= P * (y * y) + Q * (x * x)).
  { assert (U : 0 <= P * (y * y) + Q * (x * x)) by (apply Rplus_le_le_0_compat; apply Rmult_le_pos; auto; apply Rle_0_sqr).
    destruct (Rle_or_lt (2 * (x * y * c)) 0) as [L|L]; [lra|]. apply Rsqr_incr_0; [|lra|exact U]. unfold Rsqr.
    assert (0 <= (P * (y * y) - Q * (x * x)) * (P * (y * y) - Q * (x * x))) by apply Rle_0_sqr.
    assert (0 <= (x * x) * (y * y) * (P * Q - c * c)) by (apply Rmult_le_pos; [apply Rmult_le_pos; apply Rle_0_sqr|lra]). nra. }
  nra.
Qed.

Lemma cauchy_abs a b : Rabs (inner a b) <= length2 a * length2 b.
Proof.
  unfold length2. rewrite <- sqrt_mult by apply inner_pos. rewrite <- sqrt_Rsqr_abs. apply sqrt_le_1_alt. apply cauchy.
Qed.

Lemma cos_form a b d : List.length a = d -> List.length b = d ->
  cos_score a b = INR d * inner a b / ((length2 a + / 10 ^ 10) * (length2 b + / 10 ^ 10)).
Proof.
  intros La Lb. unfold cos_score, lnorm_row. rewrite dot_inner, La, Lb, !norm_length.
  assert (E : 0 < / 10 ^ 10) by (apply Rinv_0_lt_compat, pow_lt; lra). set (e := / 10 ^ 10) in *.
  assert (Pa : 0 <= length2 a) by apply sqrt_pos. assert (Pb : 0 <= length2 b) by apply sqrt_pos.
  rewrite (map_ext (fun v => sqrt (INR d) * v / (length2 a + e)) (fun v => (sqrt (INR d) / (length2 a + e)) * v)) by (intros; unfold Rdiv; ring).
  rewrite (map_ext (fun v => sqrt (INR d) * v / (length2 b + e)) (fun v => (sqrt (INR d) / (length2 b + e)) * v)) by (intros; unfold Rdiv; ring).
  rewrite inner_scale. rewrite <- (sqrt_sqrt (INR d)) at 3 by apply pos_INR. field. lra.
Qed.

(** The cosine score of two vectors of dimension d is d times their scalar product over the product of their lengths, each length increased by
    1e-10: it lies strictly between -d and d, is symmetric, has the sign of the scalar product, is 0 for a zero vector, and differs from d times
    the cosine by at most d (1e-10/|a| + 1e-10/|b|). *)
Theorem C90_cosine : forall a b d, List.length a = d -> List.length b = d -> (0 < d)%nat ->
  let e := / 10 ^ 10 in let s := cos_score a b in
  s = INR d * inner a b / ((length2 a + e) * (length2 b + e)) /\ s = cos_score b a /\ - INR d < s < INR d /\
  (0 < s <-> 0 < inner a b) /\ (s = 0 <-> inner a b = 0) /\
  (0 < length2 a -> 0 < length2 b -> Rabs (s - INR d * (inner a b / (length2 a * length2 b))) <= INR d * (e / length2 a + e / length2 b)).
Proof.
  intros a b d La Lb P e s. assert (S1 : s = INR d * inner a b / ((length2 a + e) * (length2 b + e))) by (apply cos_form; assumption).
  assert (S2 : cos_score b a = INR d * inner b a / ((length2 b + e) * (length2 a + e))) by (apply cos_form; assumption).
  assert (E : 0 < e) by (apply Rinv_0_lt_compat, pow_lt; lra). clearbody e. assert (D : 0 < INR d) by (apply lt_0_INR; exact P).
  pose proof (cauchy_abs a b) as C. assert (Pa : 0 <= length2 a) by apply sqrt_pos. assert (Pb : 0 <= length2 b) by apply sqrt_pos.
  rewrite (inner_comm b a) in S2. rewrite S2. clear S2. clearbody s. revert C Pa Pb S1. generalize (length2 a) (length2 b) (inner a b). intros u v i C Pa Pb S1.
  assert (W : 0 < (u + e) * (v + e)) by (apply Rmult_lt_0_compat; lra).
  assert (UV : u * v < (u + e) * (v + e)) by nra.
  assert (NZ : (u + e) <> 0 /\ (v + e) <> 0) by (split; lra).
  assert (CB : - (u * v) <= i <= u * v) by (split; [pose proof (Rle_abs (- i)) as Q; rewrite Rabs_Ropp in Q; lra|pose proof (Rle_abs i); lra]).
  set (w := (u + e) * (v + e)) in *. assert (IW : 0 < / w) by (apply Rinv_0_lt_compat; exact W).
  assert (R : s = INR d * (i / w)) by (rewrite S1; unfold Rdiv; ring).
  assert (B : -1 < i / w < 1).
  { split; [apply (Rmult_lt_reg_r w); [exact W|]|apply (Rmult_lt_reg_r w); [exact W|]]; unfold Rdiv; rewrite Rmult_assoc, Rinv_l by lra; lra. }
  split; [exact S1|]. split; [rewrite S1; unfold w; field; exact NZ|]. split; [rewrite R; split; nra|].
  assert (II : i = (i / w) * w) by (field; lra).
  split; [|split].
  - rewrite R. split; intros H.
    + assert (0 < i / w) by nra. rewrite II. apply Rmult_lt_0_compat; assumption.
    + apply Rmult_lt_0_compat; [exact D|]. apply Rmult_lt_0_compat; assumption.
  - rewrite R. split; intros H.
    + apply Rmult_integral in H as [H|H]; [lra|]. rewrite II, H. ring.
    + rewrite H. unfold Rdiv. ring.
  - intros Hu Hv. assert (UVP : 0 < u * v) by (apply Rmult_lt_0_compat; assumption).
    replace (s - INR d * (i / (u * v))) with (- (INR d * ((i / (u * v)) * ((w - u * v) / w)))) by (rewrite R; field; lra).
    rewrite Rabs_Ropp, Rabs_mult, (Rabs_pos_eq (INR d)) by lra. apply Rmult_le_compat_l; [lra|]. rewrite Rabs_mult.
    assert (H1 : Rabs (i / (u * v)) <= 1).
    { unfold Rdiv. rewrite Rabs_mult, (Rabs_pos_eq (/ (u * v))) by (left; apply Rinv_0_lt_compat; exact UVP). apply (Rmult_le_reg_r (u * v)); [exact UVP|]. rewrite Rmult_assoc, Rinv_l by lra. lra. }
    assert (H2 : 0 <= (w - u * v) / w) by (apply Rmult_le_pos; lra). rewrite (Rabs_pos_eq ((w - u * v) / w)) by exact H2.
    assert (H3 : (w - u * v) / w <= e / u + e / v).
    { replace (e / u + e / v) with (e * (u + v) / (u * v)) by (field; lra). apply (Rmult_le_reg_r (w * (u * v))); [apply Rmult_lt_0_compat; assumption|].
      replace ((w - u * v) / w * (w * (u * v))) with ((w - u * v) * (u * v)) by (field; lra).
      replace (e * (u + v) / (u * v) * (w * (u * v))) with (e * (u + v) * w) by (field; lra).
      replace (w - u * v) with (e * (u + v) + e * e) by (unfold w; ring). unfold w.
      assert (0 <= e * (u + v) * (e * (u + v) + e * e)) by (apply Rmult_le_pos; nra). assert (e * e * (u * v) <= e * (u + v) * (e * (u + v))) by nra. nra. }
    pose proof (Rabs_pos (i / (u * v))). nra.
Qed.
Print Assumptions C90_cosine.
End Cos.

(** ** The LRE table *)

Fixpoint join (sep : string) (l : list string) : string :=
  match l with [] => EmptyString | [x] => x | x :: l => (x ++ sep ++ join sep l)%string end.
(** what the table shows for model [m] and segment [t]: the score, or [low] when there is none *)
Definition shown {A} (sc : scores A) (low : A) (m t : string) (v : A) : Prop :=
  (scored sc m t /\ score_of sc m t = Some v) \/ (~ scored sc m t /\ v = low).

Lemma join_last sep l x : (str_concat (map (fun m => (m ++ sep)%string) l) ++ x)%string = join sep (l ++ [x]).
Proof.
  induction l as [|y l IH]; [reflexivity|]. cbn [map str_concat app]. rewrite !append_assoc, IH. destruct l; reflexivity.
Qed.


Lemma mapM_nth {A B} (f : nat -> res B) (g : A -> B) (l : list A) k : (forall j m, nth_error l j = Some m -> f (k + j) = Ok (g m)) ->
  mapM f (seq k (len l)) = Ok (map g l).
Proof.
  revert k. induction l as [|x l IH]; intros k H; [reflexivity|]. cbn [len seq mapM map]. pose proof (H 0 x eq_refl) as H0. rewrite Nat.add_0_r in H0. rewrite H0. cbn [bind].
  rewrite IH; [reflexivity|]. intros j m E. rewrite Nat.add_succ_comm. apply H. exact E.
Qed.

(** The conversion writes a header with the models and one line per test segment with its full name and, for every model in order, the score of
    that model and that segment, or [low] (-100) when the scores have none. *)
Theorem C91_lre_table : forall A (F : sops A) low fmt (splitext : string -> string * string) sc test_list class_list (add_ext : bool), scores_ok F sc -> s_fin F (s_zero F) = true ->
  let models := match class_list with None => s_mod sc | Some l => l end in
  let tests := match test_list with None => s_seg sc | Some l => filter (fun x => negb (eqb x "segmentid"%string)) l end in
  let key := fun t : string => if add_ext then fst (splitext t) else t in
  models <> [] -> NoDup models -> NoDup (map key tests) -> (add_ext = true -> test_list <> None) -> (forall t, (fst (splitext t) ++ snd (splitext t))%string = t) ->
  exists vals, (forall m t, In m models -> In t tests -> shown sc low m (key t) (vals m t)) /\
    to_lre F low fmt splitext sc test_list class_list add_ext =
      Ok (str_concat (map (fun l => (join tab_str l ++ nl_str)%string)
        (("segmentid"%string :: models) :: map (fun t => t :: map (fun m => fmt (vals m t)) models) tests))).
Proof.
  intros A F low fmt splitext sc test_list class_list add_ext O Z models tests key NM DM DT HA SP.
  set (segs := map key tests) in *.
  assert (LS : exists ex, lre_segs splitext sc test_list add_ext = (segs, ex) /\ (add_ext = true -> ex = Ok (map (fun x => snd (splitext x)) tests))).
  { unfold lre_segs, segs, tests, key. destruct test_list as [l|]; destruct add_ext; try (destruct (HA eq_refl eq_refl)); rewrite ?map_id; eexists; (split; [reflexivity|]); congruence. }
  destruct LS as (ex & LS & EX).
  assert (Hn : exists n, ndx_new models segs None = Ok n /\ n_mod n = models /\ n_seg n = segs /\ ndx_ok n /\ forall m t, In m models -> In t segs -> trial n m t).
  { unfold ndx_new. rewrite (proj2 (distinct_iff _) DM), (proj2 (distinct_iff _) DT). cbn [bind assert]. eexists. split; [reflexivity|]. split; [reflexivity|]. split; [reflexivity|].
    split; [split; [exact DM|]; split; [exact DT|]; apply mfull_shape|]. intros m t Im It. unfold trial. cbn [n_mod n_seg n_mask]. apply cell_full; assumption. }
  destruct Hn as (n & En & Em & Es & On & Tn).
  destruct (C29_set_missing A F sc (ANdx n) low O Z On) as (r & Er & Mr & Sr & SHr & T & V1 & V2). cbn [arg_mod arg_seg listed] in *. rewrite Em in Mr. rewrite Es in Sr.
  set (vals := fun m t : string => match score_of r m (key t) with Some v => v | None => low end).
  assert (VO : forall m t, In m models -> In t tests -> score_of r m (key t) = Some (vals m t)).
  { intros m t Im It. unfold vals. destruct SHr as (_ & _ & SHr & _). rewrite Mr, Sr in SHr.
    destruct (cell_total models segs (s_scr r) m (key t) SHr Im (in_map key _ _ It)) as (v & Ev). unfold score_of. rewrite Mr, Sr, Ev. reflexivity. }
  exists vals. split.
  - intros m t Im It. pose proof (Tn m (key t) Im (in_map key _ _ It)) as L. pose proof (VO m t Im It) as V.
    assert (DEC : scored sc m (key t) \/ ~ scored sc m (key t)) by (unfold scored; destruct (cell _ _ _ m (key t)) as [[|]|]; [left; reflexivity|right; discriminate|right; discriminate]).
    destruct DEC as [Q|Q]; [left|right]; (split; [exact Q|]); [rewrite <- (V1 m (key t) L Q); exact V|]. pose proof (V2 m (key t) L Q). congruence.
  - unfold to_lre. rewrite LS. fold models. rewrite En. cbn [bind]. rewrite Er. cbn [bind].
    assert (NA : (if add_ext then exts <- ex ;; Ok (zip_with (fun s e => (s ++ e)%string) (s_seg r) exts) else Ok (s_seg r)) = Ok tests).
    { rewrite Sr. unfold segs, key. destruct add_ext; [|rewrite map_id; reflexivity]. rewrite (EX eq_refl). cbn [bind]. f_equal. clear - SP.
      induction tests as [|t l IH]; [reflexivity|]. cbn. rewrite SP. f_equal. exact IH. }
    rewrite NA. cbn [bind]. rewrite Mr. destruct (exists_last NM) as (l' & x & EL). rewrite EL.
    assert (GL : get_item (l' ++ [x]) (-1) = Ok x).
    { unfold get_item, py_index. rewrite app_length. cbn [len]. replace (0 <=? -1)%Z with false by reflexivity. cbn [andb].
      replace (- Z.of_nat (len l' + 1) <=? -1)%Z with true by (symmetry; apply Z.leb_le; lia). replace (-1 <? 0)%Z with true by reflexivity. cbn [andb].
      replace (Z.to_nat (Z.of_nat (len l' + 1) + -1)) with (len l') by lia. rewrite nth_error_app2, Nat.sub_diag by lia. reflexivity. }
    rewrite GL. cbn [bind]. rewrite removelast_last.
    destruct SHr as (_ & _ & (H1 & H2 & _) & _). rewrite Mr in H1. rewrite Sr in H2.
    assert (LT : m_cols (s_scr r) = len tests) by (rewrite H2; apply map_length). rewrite LT.
    rewrite (mapM_nth _ (fun t => (join tab_str (t :: map (fun m => fmt (vals m t)) models) ++ nl_str)%string)).
    + cbn [bind]. rewrite EL. cbn [map str_concat]. f_equal. change ("segmentid"%string :: l' ++ [x]) with (("segmentid"%string :: l') ++ [x]). rewrite <- (join_last tab_str ("segmentid"%string :: l') x). cbn [map str_concat]. rewrite !append_assoc. rewrite map_map. reflexivity.
    + intros j t Ej. rewrite Nat.add_0_l. assert (It : In t tests) by (eapply nth_error_In; exact Ej).
      assert (G : forall i m, nth_error models i = Some m -> mget (s_scr r) i j = Some (vals m t)).
      { intros i m Ei. rewrite <- (VO m t (nth_error_In _ _ Ei) It). unfold score_of. rewrite Mr, Sr. symmetry. apply cell_nth; try assumption. unfold segs. rewrite nth_error_map, Ej. reflexivity. }
      unfold lre_line. rewrite (get_item_nat _ _ _ Ej). cbn [bind]. rewrite H1, EL, app_length, Nat.add_sub.
      rewrite (mapM_nth _ (fun m => (fmt (vals m t) ++ tab_str)%string) l' 0).
      2:{ intros i m Ei. rewrite Nat.add_0_l. rewrite (G i m); [reflexivity|]. rewrite EL, nth_error_app1; [exact Ei|]. apply nth_error_Some. congruence. }
      cbn [bind]. rewrite (G (len l') x) by (rewrite EL, nth_error_app2, Nat.sub_diag by lia; reflexivity). cbn [bind]. f_equal.
      rewrite map_app. cbn [map]. change (t :: map (fun m => fmt (vals m t)) l' ++ [fmt (vals x t)]) with ((t :: map (fun m => fmt (vals m t)) l') ++ [fmt (vals x t)]). rewrite <- (join_last tab_str (t :: map (fun m => fmt (vals m t)) l') (fmt (vals x t))). cbn [map str_concat]. rewrite map_map, !append_assoc. reflexivity.
Qed.
Print Assumptions C91_lre_table.

(** Without models, and with extensions but no list of tests, nothing is written; the script for score normalization never runs, and its function
    to load the scores accepts no cohort. *)
Theorem C91_lre_fails : forall A (F : sops A) low fmt splitext sc class_list text, to_lre F low fmt splitext sc None class_list true <> Ok text.
Proof.
  intros. unfold to_lre. cbn. destruct (ndx_new _ _ _); [|discriminate]. cbn [bind]. destruct (set_missing_to_value _ _ _ _); discriminate.
Qed.
Print Assumptions C91_lre_fails.

Theorem C91_score_norm_refuted : forall A (sc : scores A) ec ct cc, score_norm_script sc ec ct cc = Err NameError /\
  forall r, score_norm_load sc ec ct cc = Ok r -> ec = None /\ ct = None /\ cc = None.
Proof. intros. split; [reflexivity|]. intros r. destruct ec, ct, cc; try discriminate. auto. Qed.
Print Assumptions C91_score_norm_refuted.

(** ** Witnesses *)
Section Witness.
Open Scope string_scope.
Let vec (k : string) : list Z := if String.eqb k "a" then [1; 2]%Z else if String.eqb k "b" then [3; 4]%Z else if String.eqb k "t" then [5; 6]%Z else [7; 8]%Z.
Let dotZ (a b : list Z) : Z := fold_right Z.add 0%Z (zip_with Z.mul a b).
Let SZ : sops Z := mk_sops 0%Z Z.add (fun _ => true).
Let nd : ndx := mk_ndx ["m2"; "m1"] ["t"; "u"] (mk_mat 2 [[true; false]; [true; true]]).
Let enr : u2i := u2i_new [("a", "m1"); ("z", "m9"); ("b", "m2")].
(** the models come in the order of the enrolment list; the pair (m2, u) is scored although it is not a trial *)
Example C90_example : eval_1vs1 0%Z (fun k => Ok (vec k)) None dotZ SZ (Some nd) enr None 1 1 EnrollTest =
  Ok (mk_scores ["m1"; "m2"] ["t"; "u"] (mk_mat 2 [[17; 23]; [39; 53]]%Z) (mk_mat 2 [[true; true]; [true; true]])).
Proof. vm_compute. reflexivity. Qed.
Let sgs : list eseg := [mk_eseg "s1" "t" 0 1 "e1"; mk_eseg "s2" "u" 0 1 "e2"; mk_eseg "s3" "t" 1 2 "e3"; mk_eseg "s4" "t" 2 3 "e1"]%Q.
Example C90_segmentation_example : apply_segmentation nd sgs true =
  Ok (mk_ndx ["m2"; "m1"] ["e1"; "e3"; "e2"] (mk_mat 3 [[true; true; false]; [true; true; true]])).
Proof. vm_compute. reflexivity. Qed.
Let sc : scores Z := mk_scores ["m1"; "m2"] ["t"; "u"] (mk_mat 2 [[17; 23]; [39; 53]]%Z) (mk_mat 2 [[true; true]; [false; true]]).
Let fz (z : Z) : string := if (z =? 17)%Z then "17" else if (z =? 23)%Z then "23" else if (z =? 53)%Z then "53" else "-100".
Example C91_example : to_lre SZ (-100)%Z fz (fun s => (s, "")) sc (Some ["segmentid"; "u"; "v"; "t"]) None false =
  Ok (str_concat (map (fun l => (join tab_str l ++ nl_str)%string)
    [["segmentid"; "m1"; "m2"]; ["u"; "23"; "53"]; ["v"; "-100"; "-100"]; ["t"; "17"; "-100"]])).
Proof. vm_compute. reflexivity. Qed.
End Witness.
Example C90_cosine_example : (0 < cos_score [1; 2] [3; 4])%R.
Proof. apply (C90_cosine [1; 2]%R [3; 4]%R 2); [reflexivity|reflexivity|lia|]. cbn [inner]. lra. Qed.
