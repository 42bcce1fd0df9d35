(** Lemmas about Str.v. *)
From Verif Require Import Base Str.
From Coq Require Import DecimalString DecimalZ DecimalPos Decimal.
Open Scope string_scope.

Lemma str_in_app c a b : str_in c (a ++ b) = str_in c a || str_in c b.
Proof.
  unfold str_in. rewrite <- negb_andb. f_equal.
  induction a as [|x a IH]; simpl; [reflexivity|]. rewrite IH. apply andb_assoc.
Qed.

Lemma str_in_cons c x s : str_in c (String x s) = Ascii.eqb x c || str_in c s.
Proof. unfold str_in. simpl. rewrite negb_andb, negb_involutive. reflexivity. Qed.

Lemma split1_at c a r : str_in c a = false -> split1 c (a ++ String c r) = (a, Some r).
Proof.
  induction a as [|x a IH]; simpl; intros H.
  - rewrite Ascii.eqb_refl. reflexivity.
  - rewrite str_in_cons in H. apply orb_false_iff in H as [H1 H2]. rewrite H1, IH by exact H2. reflexivity.
Qed.

Lemma split1_none c a : str_in c a = false -> split1 c a = (a, None).
Proof.
  induction a as [|x a IH]; simpl; intros H; [reflexivity|].
  rewrite str_in_cons in H. apply orb_false_iff in H as [H1 H2]. rewrite H1, IH by exact H2. reflexivity.
Qed.

(** Last character test. *)
Fixpoint last_ok (p : ascii -> bool) (s : string) : bool :=
  match s with
  | EmptyString => false
  | String x EmptyString => negb (p x)
  | String x s' => last_ok p s'
  end.

Lemma rstrip_if_last p s : last_ok p s = true -> rstrip_if p s = s.
Proof.
  induction s as [|x s IH]; [discriminate|]. destruct s as [|y s].
  - simpl. destruct (p x); [discriminate|reflexivity].
  - intros H. change (last_ok p (String y s) = true) in H. apply IH in H.
    cbn [rstrip_if] in *. rewrite H. reflexivity.
Qed.

Lemma last_ok_app p a b : last_ok p b = true -> last_ok p (a ++ b) = true.
Proof.
  intros H. induction a as [|x a IH]; [exact H|].
  change (String x a ++ b) with (String x (a ++ b)).
  destruct (a ++ b) as [|y t] eqn:E; [discriminate|]. exact IH.
Qed.

Lemma append_nil_r s : s ++ "" = s.
Proof. induction s as [|x s IH]; simpl; [reflexivity|]. rewrite IH. reflexivity. Qed.

Lemma append_assoc (a b c : string) : (a ++ b) ++ c = a ++ (b ++ c).
Proof. induction a as [|x a IH]; simpl; [reflexivity|]. rewrite IH. reflexivity. Qed.

Lemma append_inj_l (a b c : string) : a ++ b = a ++ c -> b = c.
Proof. induction a as [|x a IH]; simpl; intros E; [exact E|]. inversion E. auto. Qed.

Lemma str_forallb_app p a b : str_forallb p (a ++ b) = str_forallb p a && str_forallb p b.
Proof. induction a as [|x a IH]; simpl; [reflexivity|]. rewrite IH. apply andb_assoc. Qed.

Lemma str_forallb_impl (p q : ascii -> bool) s :
  (forall x, p x = true -> q x = true) -> str_forallb p s = true -> str_forallb q s = true.
Proof.
  intros I. induction s as [|x s IH]; simpl; [reflexivity|].
  rewrite !andb_true_iff. intros [H1 H2]. split; auto.
Qed.

Lemma str_forallb_last p s : s <> "" -> str_forallb p s = true -> last_ok (fun x => negb (p x)) s = true.
Proof.
  induction s as [|x s IH]; [congruence|]. intros _ H. simpl in H. apply andb_true_iff in H as [H1 H2].
  destruct s as [|y s]; simpl; [rewrite H1; reflexivity|]. apply IH; [discriminate|exact H2].
Qed.

Lemma last_ok_impl (p q : ascii -> bool) s :
  (forall x, q x = true -> p x = true) -> last_ok p s = true -> last_ok q s = true.
Proof.
  intros I. induction s as [|x s IH]; simpl; [discriminate|].
  destruct s; [|exact IH]. rewrite !negb_true_iff. intros H.
  destruct (q x) eqn:E; [|reflexivity]. apply I in E. congruence.
Qed.

(** ** Decimal printing *)

Lemma string_of_uint_digits u : str_forallb is_digit (NilEmpty.string_of_uint u) = true.
Proof. induction u; simpl; try assumption; reflexivity. Qed.

Lemma nilzero_uint u : u <> Nil -> NilZero.string_of_uint u = NilEmpty.string_of_uint u.
Proof. destruct u; [congruence|reflexivity..]. Qed.

Lemma digits_val_acc u : forall acc,
  digits_val (Z.pos acc) (NilEmpty.string_of_uint u) = Z.pos (Pos.of_uint_acc u acc).
Proof.
  induction u; intros acc; [reflexivity|..];
    cbn [NilEmpty.string_of_uint digits_val Pos.of_uint_acc]; rewrite <- IHu; f_equal;
    (match goal with |- context[Z.of_nat ?x] =>
       let v := eval vm_compute in (Z.of_nat x) in change (Z.of_nat x) with v end); lia.
Qed.

Lemma digits_val_uint u :
  digits_val 0 (NilEmpty.string_of_uint u) = Z.of_N (Pos.of_uint u).
Proof.
  induction u; cbn [NilEmpty.string_of_uint digits_val Pos.of_uint]; try reflexivity;
    try (exact IHu);
    (match goal with |- digits_val ?a _ = Z.of_N (N.pos (Pos.of_uint_acc _ ?p)) =>
       change a with (Z.pos p) end; rewrite digits_val_acc; reflexivity).
Qed.

Lemma fmt_d_nonneg z : (0 <= z)%Z ->
  exists u, u <> Nil /\ fmt_d z = NilEmpty.string_of_uint u /\ Z.of_N (Pos.of_uint u) = z.
Proof.
  intros Hz. unfold fmt_d.
  destruct z as [|p|p]; [| |lia].
  - exists (D0 Nil). split; [discriminate|]. split; reflexivity.
  - cbn [Z.to_int]. exists (Pos.to_uint p). split; [apply Unsigned.to_uint_nonnil|].
    split; [unfold NilZero.string_of_int; apply nilzero_uint, Unsigned.to_uint_nonnil|].
    rewrite Unsigned.of_to. reflexivity.
Qed.

Lemma fmt_d_neg p : exists u, u <> Nil /\ fmt_d (Z.neg p) = String "-" (NilEmpty.string_of_uint u) /\
   Z.of_N (Pos.of_uint u) = Z.pos p.
Proof.
  exists (Pos.to_uint p). split; [apply Unsigned.to_uint_nonnil|].
  split; [unfold fmt_d; simpl; rewrite nilzero_uint by apply Unsigned.to_uint_nonnil; reflexivity|].
  rewrite Unsigned.of_to. reflexivity.
Qed.

Lemma string_of_uint_nonempty u : u <> Nil -> NilEmpty.string_of_uint u <> "".
Proof. destruct u; simpl; congruence. Qed.

Lemma digit_not_space x : is_digit x = true -> is_space x = false.
Proof. unfold is_digit, is_space. intros H. lia. Qed.

Lemma digit_neq x c : is_digit x = true -> is_digit c = false -> Ascii.eqb x c = false.
Proof.
  intros H1 H2. destruct (Ascii.eqb_spec x c) as [->|N]; [congruence|reflexivity].
Qed.

Lemma strip_underscores_digits s : str_forallb is_digit s = true ->
  (s <> "" -> strip_underscores false s = Some s) /\ strip_underscores true s = Some s.
Proof.
  induction s as [|x s IH]; simpl; intros H.
  - split; [congruence|reflexivity].
  - apply andb_true_iff in H as [H1 H2]. rewrite H1. destruct (IH H2) as [_ I2]. rewrite I2. split; reflexivity.
Qed.

Lemma lstrip_digits s : str_forallb is_digit s = true -> lstrip s = s.
Proof.
  destruct s as [|x s]; [reflexivity|]. simpl. rewrite andb_true_iff. intros [H _].
  rewrite digit_not_space by exact H. reflexivity.
Qed.

Lemma rstrip_digits s : str_forallb is_digit s = true -> rstrip s = s.
Proof.
  intros H. destruct s as [|x s]; [reflexivity|]. unfold rstrip. apply rstrip_if_last.
  eapply last_ok_impl; [|apply str_forallb_last with (p := is_digit); [discriminate|exact H]].
  intros y Hy. cbn beta. destruct (is_digit y) eqn:D; [|reflexivity].
  apply digit_not_space in D. congruence.
Qed.

Lemma py_int_digits s : s <> "" -> str_forallb is_digit s = true -> py_int s = Some (digits_val 0 s).
Proof.
  intros Hne H. unfold py_int. rewrite rstrip_digits, lstrip_digits by exact H.
  destruct s as [|x s]; [congruence|].
  assert (Hx : is_digit x = true) by (simpl in H; apply andb_true_iff in H; tauto).
  destruct (strip_underscores_digits _ H) as [S1 _]. specialize (S1 Hne).
  assert (E : forall (A : Type) (a b c : A),
     match String x s with String "-" t => a | String "+" t => b | _ => c end = c).
  { intros A a b c. destruct x as [b0 b1 b2 b3 b4 b5 b6 b7].
    destruct b0, b1, b2, b3, b4, b5, b6, b7; try reflexivity; discriminate Hx. }
  assert (E' : (match String x s with String "-" t => ((-1)%Z, t) | String "+" t => (1%Z, t) | _ => (1%Z, String x s) end) = (1%Z, String x s)).
  { destruct x as [b0 b1 b2 b3 b4 b5 b6 b7].
    destruct b0, b1, b2, b3, b4, b5, b6, b7; try reflexivity; discriminate Hx. }
  rewrite E'. rewrite S1. f_equal. lia.
Qed.

Lemma py_int_fmt z : py_int (fmt_d z) = Some z.
Proof.
  destruct (Z.le_gt_cases 0 z) as [Hz|Hz].
  - destruct (fmt_d_nonneg z Hz) as [u [Hu [E V]]]. rewrite E.
    rewrite py_int_digits; [|apply string_of_uint_nonempty; exact Hu|apply string_of_uint_digits].
    rewrite digits_val_uint, V. reflexivity.
  - destruct z as [|p|p]; try lia. destruct (fmt_d_neg p) as [u [Hu [E V]]]. rewrite E.
    pose proof (string_of_uint_digits u) as D. pose proof (string_of_uint_nonempty u Hu) as NE.
    unfold py_int.
    assert (R : rstrip (String "-" (NilEmpty.string_of_uint u)) = String "-" (NilEmpty.string_of_uint u)).
    { unfold rstrip. cbn [rstrip_if]. fold (rstrip (NilEmpty.string_of_uint u)).
      rewrite rstrip_digits by exact D. destruct (NilEmpty.string_of_uint u); [congruence|reflexivity]. }
    rewrite R. cbn [lstrip is_space]. change (is_space "-") with false. cbn iota.
    destruct (NilEmpty.string_of_uint u) as [|y t] eqn:Et; [congruence|].
    destruct (strip_underscores_digits _ D) as [S1 _]. rewrite S1 by discriminate.
    rewrite <- Et, digits_val_uint, V. reflexivity.
Qed.

Lemma fmt_d_digits z : (0 <= z)%Z -> str_forallb is_digit (fmt_d z) = true /\ fmt_d z <> "".
Proof.
  intros Hz. destruct (fmt_d_nonneg z Hz) as [u [Hu [E V]]]. rewrite E.
  split; [apply string_of_uint_digits|apply string_of_uint_nonempty; exact Hu].
Qed.

Lemma fmt_d_isdecimal z : (0 <= z)%Z -> isdecimal (fmt_d z) = true.
Proof.
  intros Hz. destruct (fmt_d_digits z Hz) as [D NE]. unfold isdecimal.
  destruct (fmt_d z); [congruence|exact D].
Qed.

Lemma str_in_digits c s : is_digit c = false -> str_forallb is_digit s = true -> str_in c s = false.
Proof.
  intros Hc. induction s as [|x s IH]; [reflexivity|]. rewrite str_in_cons. simpl. rewrite andb_true_iff.
  intros [H1 H2]. rewrite IH by exact H2. rewrite digit_neq by assumption. reflexivity.
Qed.

(** characters of '%d' output: digits and '-' *)
Lemma str_in_fmt c z : is_digit c = false -> c <> "-"%char -> str_in c (fmt_d z) = false.
Proof.
  intros Hc Hm. destruct (Z.le_gt_cases 0 z) as [Hz|Hz].
  - apply str_in_digits; [exact Hc|apply fmt_d_digits; exact Hz].
  - destruct z as [|p|p]; try lia. destruct (fmt_d_neg p) as [u [Hu [E V]]]. rewrite E.
    rewrite str_in_cons. rewrite str_in_digits; [|exact Hc|apply string_of_uint_digits].
    destruct (Ascii.eqb_spec "-" c); [congruence|reflexivity].
Qed.

Lemma fmt_d_last z : last_ok is_space (fmt_d z) = true.
Proof.
  assert (G : forall u, u <> Nil -> last_ok is_space (NilEmpty.string_of_uint u) = true).
  { intros u Hu. eapply last_ok_impl;
     [|apply str_forallb_last with (p := is_digit); [apply string_of_uint_nonempty; exact Hu|apply string_of_uint_digits]].
    intros y Hy. cbn beta. destruct (is_digit y) eqn:D; [|reflexivity].
    apply digit_not_space in D. congruence. }
  destruct (Z.le_gt_cases 0 z) as [Hz|Hz].
  - destruct (fmt_d_nonneg z Hz) as [u [Hu [E V]]]. rewrite E. apply G, Hu.
  - destruct z as [|p|p]; try lia. destruct (fmt_d_neg p) as [u [Hu [E V]]]. rewrite E.
    apply (last_ok_app is_space "-"). apply G, Hu.
Qed.

Lemma fmt_d_inj a b : fmt_d a = fmt_d b -> a = b.
Proof. intros E. apply (f_equal py_int) in E. rewrite !py_int_fmt in E. congruence. Qed.

(** ** Lines *)

Lemma lines_aux_line l rest : str_in nl l = false -> str_in cr l = false ->
  lines_aux (l ++ String nl rest) = (l, fst (lines_aux rest) :: snd (lines_aux rest)).
Proof.
  induction l as [|x l IH]; intros Hn Hc.
  - cbn [append lines_aux]. destruct (lines_aux rest) as [a b]. rewrite Ascii.eqb_refl. reflexivity.
  - rewrite str_in_cons in Hn, Hc. apply orb_false_iff in Hn as [N1 N2]. apply orb_false_iff in Hc as [C1 C2].
    change (String x l ++ String nl rest) with (String x (l ++ String nl rest)).
    cbn [lines_aux]. rewrite IH by assumption. rewrite N1, C1. reflexivity.
Qed.

Lemma drop_last_empty_cons x l : l <> [] -> drop_last_empty (x :: l) = x :: drop_last_empty l.
Proof. destruct l; [congruence|reflexivity]. Qed.

(** Reading back newline-terminated lines. *)
Lemma py_lines_concat (ls : list string) :
  Forall (fun l => str_in nl l = false /\ str_in cr l = false) ls ->
  py_lines (str_concat (map (fun l => l ++ nl_str) ls)) = ls.
Proof.
  intros F. unfold py_lines.
  assert (G : lines_aux (str_concat (map (fun l => l ++ nl_str) ls)) =
              match ls with [] => ("", []) | l :: ls' => (l, ls' ++ [""])%list end).
  { induction F as [|l ls [H1 H2] F IH]; [reflexivity|].
    cbn [map str_concat]. unfold nl_str. rewrite append_assoc.
    change (String nl "" ++ str_concat (map (fun l0 => l0 ++ String nl "") ls))
      with (String nl (str_concat (map (fun l0 => l0 ++ nl_str) ls))).
    rewrite lines_aux_line by assumption. rewrite IH.
    destruct ls; reflexivity. }
  rewrite G. destruct ls as [|l ls]; [reflexivity|].
  assert (D : forall l0 : list string, drop_last_empty (l0 ++ [""]) = l0).
  { induction l0 as [|y l0 IH]; [reflexivity|].
    change ((y :: l0) ++ [""])%list with (y :: (l0 ++ [""]))%list.
    rewrite drop_last_empty_cons by (destruct l0; discriminate). rewrite IH. reflexivity. }
  apply (D (l :: ls)).
Qed.
