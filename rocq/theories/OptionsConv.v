(** C102: what the words after an option stand for. *)
From Coq Require Import ZArith List Bool Ascii String Lia.
From Verif Require Import Base BaseFacts Str StrFacts Options OptTables OptionsProps.
Import ListNotations.
Open Scope list_scope. Open Scope Z_scope.

(** ** Specification *)
(** d is the character c, or the small letter of the capital letter c *)
Definition small (c d : ascii) : Prop :=
  let n := Z.of_nat (nat_of_ascii c) in
  (65 <= n <= 90 /\ Z.of_nat (nat_of_ascii d) = n + 32) \/ (~ 65 <= n <= 90 /\ d = c).
Inductive in_small : string -> string -> Prop :=
| in_small_nil : in_small "" ""
| in_small_cons c d s t : small c d -> in_small s t -> in_small (String c s) (String d t).
Definition allowed (ch : option (list string)) (s : string) : Prop := match ch with Some l => In s l | None => True end.
Definition sign_text (s : string) : Prop := s = ""%string \/ s = "+"%string \/ s = "-"%string.
Fixpoint digit_text (s : string) : Prop := match s with String c s => 48 <= Z.of_nat (nat_of_ascii c) <= 57 /\ digit_text s | EmptyString => True end.
Definition exponent_text (s : string) : Prop :=
  s = ""%string \/ exists e g a, (e = "e" \/ e = "E")%string /\ sign_text g /\ digit_text a /\ a <> ""%string /\ s = (e ++ g ++ a)%string.
Definition float_text (s : string) : Prop := exists g a x,
  sign_text g /\ digit_text a /\ exponent_text x /\
  ((a <> ""%string /\ s = (g ++ a ++ x)%string) \/ (exists b, digit_text b /\ (a <> ""%string \/ b <> ""%string) /\ s = (g ++ a ++ "." ++ b ++ x)%string)).
(** The words w after an option of this type stand for the value v *)
Inductive denotes (ch : option (list string)) : kind -> list string -> val -> Prop :=
| d_true : denotes ch SetTrue [] (VBool true)
| d_false : denotes ch SetFalse [] (VBool false)
| d_text s : allowed ch s -> denotes ch Text [s] (VText s)
| d_lower s t : in_small s t -> allowed ch t -> denotes ch Lower [s] (VText t)
| d_int s n : py_int s = Some n -> denotes ch Int [s] (VInt n)
| d_float s : float_text s -> denotes ch Float [s] (VFloat s)
| d_bool s b : (b = true <-> s <> ""%string) -> denotes ch Bool [s] (VBool b)
| d_yes s t : in_small s t -> In t ["true"; "t"; "yes"; "y"]%string -> denotes ch Str2Bool [s] (VBool true)
| d_no s t : in_small s t -> In t ["false"; "f"; "no"; "n"]%string -> denotes ch Str2Bool [s] (VBool false)
| d_auto : denotes ch AutoInt ["auto"%string] (VText "auto")
| d_autoint s n : s <> "auto"%string -> py_int s = Some n -> denotes ch AutoInt [s] (VInt n)
| d_words w : w <> [] -> denotes ch Words w (VList w).

(** ** Proofs *)
Lemma small_iff c d : small c d <-> d = lower_chr c.
Proof.
  unfold small, lower_chr. set (n := Z.of_nat (nat_of_ascii c)). destruct ((65 <=? n) && (n <=? 90)) eqn:B.
  - apply andb_true_iff in B as [B1 B2]. apply Z.leb_le in B1, B2. split.
    + intros [[_ E]|[E _]]; [|lia]. rewrite <- E, Nat2Z.id, ascii_nat_embedding. reflexivity.
    + intros ->. left. split; [lia|]. rewrite nat_ascii_embedding by lia. lia.
  - apply andb_false_iff in B. assert (~ 65 <= n <= 90) by (destruct B as [B|B]; apply Z.leb_gt in B; lia). split; [intros [[E _]|[_ E]]; [lia|exact E]|intros ->; right; split; [assumption|reflexivity]].
Qed.
Lemma in_small_iff s : forall t, in_small s t <-> t = lower s.
Proof.
  induction s as [|c s IH]; intros t; cbn [lower]; split; intros H.
  - inversion H. reflexivity.
  - subst. constructor.
  - inversion H as [|? d ? t' Q R]; subst. apply small_iff in Q. apply IH in R. congruence.
  - subst. constructor; [apply small_iff; reflexivity|apply IH; reflexivity].
Qed.
Lemma existsb_in s l : existsb (String.eqb s) l = true <-> In s l.
Proof. rewrite existsb_exists. split; [intros (x & Hx & E); apply String.eqb_eq in E; subst; exact Hx|intros H; exists s; split; [exact H|apply String.eqb_refl]]. Qed.
Lemma choice_iff ch s v : choice ch s = Ok v <-> allowed ch s /\ v = VText s.
Proof.
  unfold choice, allowed. destruct ch as [l|]; [|split; [intros [= <-]; auto|intros [_ ->]; reflexivity]].
  destruct (existsb (String.eqb s) l) eqn:B; [apply existsb_in in B; split; [intros [= <-]; auto|intros [_ ->]; reflexivity]|].
  split; [discriminate|]. intros [H _]. apply existsb_in in H. congruence.
Qed.
Lemma is_dig_iff c : is_dig c = true <-> 48 <= Z.of_nat (nat_of_ascii c) <= 57.
Proof. unfold is_dig. cbv zeta. rewrite andb_true_iff, !Z.leb_le. reflexivity. Qed.
(** a text that does not start with a digit *)
Definition stops (s : string) : Prop := match s with String c _ => is_dig c = false | EmptyString => True end.
Definition filled (s : string) : bool := match s with EmptyString => false | _ => true end.
Lemma digits_at a : forall r seen, digit_text a -> stops r -> digits seen (a ++ r) = (seen || filled a, r)%bool.
Proof.
  induction a as [|c a IH]; intros r seen D T; cbn [String.append].
  - rewrite orb_false_r. destruct r as [|c r]; [reflexivity|]. cbn [digits]. cbn in T. rewrite T. reflexivity.
  - destruct D as [D1 D2]. cbn [digits]. rewrite (proj2 (is_dig_iff c) D1). rewrite IH by assumption. rewrite orb_true_r. reflexivity.
Qed.
Lemma digits_split s : forall seen, exists a r, s = (a ++ r)%string /\ digit_text a /\ stops r /\ digits seen s = (seen || filled a, r)%bool.
Proof.
  induction s as [|c s IH]; intros seen.
  - exists ""%string, ""%string. repeat split. cbn. rewrite orb_false_r. reflexivity.
  - destruct (is_dig c) eqn:B.
    + destruct (IH true) as (a & r & -> & D & T & E). exists (String c a), r. split; [reflexivity|]. split; [split; [apply is_dig_iff; exact B|exact D]|]. split; [exact T|]. apply (digits_at (String c a) r seen); [split; [apply is_dig_iff; exact B|exact D]|exact T].
    + exists ""%string, (String c s). repeat split; [exact B|]. cbn [digits]. rewrite B, orb_false_r. reflexivity.
Qed.
Definition unsigned (s : string) : Prop := match s with String c _ => (Ascii.eqb c "-" || Ascii.eqb c "+")%char = false | EmptyString => True end.
Lemma unsign_at g r : sign_text g -> unsigned r -> unsign (g ++ r) = r.
Proof. intros [->|[->| ->]] U; [|reflexivity|reflexivity]. destruct r as [|c r]; [reflexivity|]. cbn [String.append unsign]. cbn in U. rewrite U. reflexivity. Qed.
Lemma unsign_split s : exists g, sign_text g /\ s = (g ++ unsign s)%string.
Proof.
  destruct s as [|c s]; [exists ""%string; split; [left|]; reflexivity|]. cbn [unsign]. destruct (Ascii.eqb c "-") eqn:B.
  - apply Ascii.eqb_eq in B. subst. exists "-"%string. split; [right; right|]; reflexivity.
  - destruct (Ascii.eqb c "+") eqn:B2; [apply Ascii.eqb_eq in B2; subst; exists "+"%string; split; [right; left|]; reflexivity|exists ""%string; split; [left|]; reflexivity].
Qed.
Lemma dig_unsigned c r : is_dig c = true -> unsigned (String c r).
Proof. intros H. cbn. apply is_dig_iff in H. destruct (Ascii.eqb c "-") eqn:B; [apply Ascii.eqb_eq in B; subst; cbn in H; lia|]. destruct (Ascii.eqb c "+") eqn:B2; [apply Ascii.eqb_eq in B2; subst; cbn in H; lia|]. reflexivity. Qed.
Definition exp_ok (s : string) : bool :=
  match s with
  | EmptyString => true
  | String c t => (Ascii.eqb c "e" || Ascii.eqb c "E") && (let '(b, r) := digits false (unsign t) in b && match r with EmptyString => true | _ => false end)
  end.
Lemma append_nil s : (s ++ "")%string = s.
Proof. induction s as [|c s IH]; cbn; [|rewrite IH]; reflexivity. Qed.
Lemma exp_iff s : exp_ok s = true <-> exponent_text s.
Proof.
  destruct s as [|c t]; cbn [exp_ok]; [split; [intros _; left; reflexivity|reflexivity]|]. split.
  - intros H. apply andb_true_iff in H as [H1 H2]. right. destruct (unsign_split t) as (g & Sg & Et). destruct (digits_split (unsign t) false) as (a & r & Er & D & T & Ed). rewrite Ed in H2. apply andb_true_iff in H2 as [F R].
    destruct r; [|discriminate]. rewrite append_nil in Er. exists (String c ""), g, a. repeat split; try assumption.
    + apply orb_true_iff in H1 as [H1|H1]; apply Ascii.eqb_eq in H1; subst; [left|right]; reflexivity.
    + destruct a; [discriminate F|discriminate].
    + cbn. congruence.
  - intros [E|(e & g & a & He & Sg & D & N & E)]; [discriminate|]. destruct a as [|d a]; [congruence|]. destruct D as [D1 D2].
    assert (Et : t = (g ++ String d a)%string /\ (c = "e" \/ c = "E")%char) by (destruct He as [->| ->]; cbn in E; injection E as -> ->; auto). destruct Et as [-> Hc].
    rewrite unsign_at; [|exact Sg|apply dig_unsigned; apply is_dig_iff; exact D1]. rewrite <- (append_nil (String d a)) at 1. rewrite digits_at by (cbn; auto). cbn [filled orb andb].
    destruct Hc as [->| ->]; reflexivity.
Qed.
Lemma is_float_unfold s : is_float s =
  let '(a, s1) := digits false (unsign s) in let '(a2, s2) := match s1 with String "." t => digits a t | _ => (a, s1) end in (a2 && exp_ok s2)%bool.
Proof. reflexivity. Qed.
Lemma exp_stops x : exponent_text x -> stops x.
Proof. intros [->|(e & g & a & [->| ->] & _ & _ & _ & ->)]; reflexivity. Qed.
Lemma exp_unsigned x : exponent_text x -> unsigned x.
Proof. intros [->|(e & g & a & [->| ->] & _ & _ & _ & ->)]; reflexivity. Qed.
Lemma digits_unsigned a r : digit_text a -> unsigned r -> unsigned (a ++ r).
Proof. destruct a as [|c a]; [intros _ H; exact H|]. intros [H _] _. cbn [String.append]. apply dig_unsigned. apply is_dig_iff. exact H. Qed.
Lemma dot_or (t : string) : (exists u, t = String "." u) \/ (forall (A : Type) (f : string -> A) (z : A), match t with String "." u => f u | _ => z end = z).
Proof. destruct t as [|[[] [] [] [] [] [] [] []] u]; try (right; reflexivity). left. exists u. reflexivity. Qed.
Lemma filled_iff a : filled a = true <-> a <> ""%string.
Proof. destruct a; cbn; split; congruence. Qed.
Lemma float_iff s : is_float s = true <-> float_text s.
Proof.
  rewrite is_float_unfold. split.
  - destruct (unsign_split s) as (g & Sg & Es). destruct (digits_split (unsign s) false) as (a & r & Er & D & T & Ed). rewrite Ed. cbn [orb]. intros H. destruct (dot_or r) as [(u & ->)|Q].
    + destruct (digits_split u (filled a)) as (b & r & Er2 & D2 & T2 & Ed2). rewrite Ed2 in H. apply andb_true_iff in H as [F X]. apply exp_iff in X.
      exists g, a, r. split; [exact Sg|]. split; [exact D|]. split; [exact X|]. right. exists b. split; [exact D2|]. split; [apply orb_true_iff in F as [F|F]; apply filled_iff in F; auto|]. rewrite Es, Er, Er2. reflexivity.
    + rewrite (Q _ (fun u => digits (filled a) u) (filled a, r)) in H. apply andb_true_iff in H as [F X]. apply exp_iff in X. apply filled_iff in F. exists g, a, r. split; [exact Sg|]. split; [exact D|]. split; [exact X|]. left. split; [exact F|]. congruence.
  - intros (g & a & x & Sg & D & X & [[N ->]|(b & D2 & N & ->)]).
    + rewrite unsign_at; [|exact Sg|apply digits_unsigned; [exact D|apply exp_unsigned; exact X]]. rewrite digits_at; [|exact D|apply exp_stops; exact X]. cbn [orb].
      assert (E : match x with String "." t => digits (filled a) t | _ => (filled a, x) end = (filled a, x)) by (destruct X as [->|(e & g' & a' & [->| ->] & _ & _ & _ & ->)]; reflexivity).
      rewrite E, (proj2 (filled_iff a) N), (proj2 (exp_iff x) X). reflexivity.
    + rewrite unsign_at; [|exact Sg|apply digits_unsigned; [exact D|reflexivity]]. rewrite (digits_at a ("." ++ b ++ x)); [|exact D|reflexivity]. cbn [orb String.append]. rewrite digits_at; [|exact D2|apply exp_stops; exact X].
      rewrite (proj2 (exp_iff x) X), andb_true_r. apply orb_true_iff. destruct N as [N|N]; [left|right]; apply filled_iff; exact N.
Qed.
(** An option is accepted with a value exactly when the words after it stand for that value; otherwise the program exits. *)
Theorem C102_values : forall k ch w v, convert k ch w = Ok v <-> denotes ch k w v.
Proof.
  intros k ch w v. split.
  - intros H. destruct k, w as [|s [|s' w]]; try discriminate H; cbn in H.
    + apply choice_iff in H as [A ->]. constructor. exact A.
    + apply choice_iff in H as [A ->]. econstructor; [apply in_small_iff; reflexivity|exact A].
    + destruct (py_int s) as [n|] eqn:E; [|discriminate]. injection H as <-. constructor. exact E.
    + destruct (is_float s) eqn:E; [|discriminate]. injection H as <-. constructor. apply float_iff. exact E.
    + injection H as <-. constructor. rewrite negb_true_iff, String.eqb_neq. reflexivity.
    + unfold str2bool in H. destruct (existsb (String.eqb (lower s)) ["true"; "t"; "yes"; "y"]%string) eqn:E; [|destruct (existsb (String.eqb (lower s)) ["false"; "f"; "no"; "n"]%string) eqn:E2; [|discriminate]].
      * injection H as <-. apply existsb_in in E. eapply d_yes; [apply in_small_iff; reflexivity|exact E].
      * injection H as <-. apply existsb_in in E2. eapply d_no; [apply in_small_iff; reflexivity|exact E2].
    + destruct (s =? "auto")%string eqn:E; [apply String.eqb_eq in E; subst; injection H as <-; constructor|]. apply String.eqb_neq in E. destruct (py_int s) as [n|] eqn:E2; [|discriminate]. injection H as <-. constructor; assumption.
    + injection H as <-. constructor. discriminate.
    + injection H as <-. constructor. discriminate.
    + injection H as <-. constructor.
    + injection H as <-. constructor.
  - intros H. destruct H as [| |s A|s t L A|s n E|s E|s b E|s t L A|s t L A| |s n N E|w N]; cbn [convert].
    + reflexivity. + reflexivity.
    + apply choice_iff. auto.
    + apply in_small_iff in L. subst t. apply choice_iff. auto.
    + rewrite E. reflexivity.
    + rewrite (proj2 (float_iff s) E). reflexivity.
    + f_equal. f_equal. apply eq_true_iff_eq. rewrite E, negb_true_iff, String.eqb_neq. reflexivity.
    + apply in_small_iff in L. subst t. unfold str2bool. rewrite (proj2 (existsb_in _ _) A). reflexivity.
    + apply in_small_iff in L. subst t. unfold str2bool. rewrite (proj2 (existsb_in _ _) A). destruct (existsb (String.eqb (lower s)) ["true"; "t"; "yes"; "y"]%string) eqn:B; [|reflexivity].
      apply existsb_in in B. exfalso. cbn in A, B. destruct A as [A|[A|[A|[A|[]]]]]; rewrite <- A in B; destruct B as [B|[B|[B|[B|[]]]]]; discriminate.
    + reflexivity.
    + rewrite (proj2 (String.eqb_neq _ _) N), E. reflexivity.
    + destruct w as [|a w]; [congruence|]. reflexivity.
Qed.
Theorem C102_refused : forall k ch w, (forall v, ~ denotes ch k w v) -> convert k ch w = Err SystemExit.
Proof.
  intros k ch w H. destruct (convert k ch w) as [v|e] eqn:E; [exfalso; apply (H v); apply C102_values; exact E|]. f_equal. clear H.
  destruct k, w as [|s [|s' w]]; cbn in E; try congruence; try (unfold choice in E; destruct ch as [l|]; [|discriminate]; match type of E with (if ?b then _ else _) = _ => destruct b end; congruence).
  - destruct (py_int s); congruence.
  - destruct (is_float s); congruence.
  - destruct (str2bool s); congruence.
  - destruct (s =? "auto")%string; [congruence|]. destruct (py_int s); congruence.
Qed.
Print Assumptions C102_values.
Print Assumptions C102_refused.

(** ** Witnesses *)
Example C102_w_values : denotes None Str2Bool ["YeS"%string] (VBool true) /\ denotes None Float ["-1.5e-3"%string] (VFloat "-1.5e-3") /\ denotes (Some ["none"; "hamming"]%string) Lower ["Hamming"%string] (VText "hamming") /\
  (forall v, ~ denotes None Str2Bool ["1"%string] v) /\ (forall v, ~ denotes None Float ["."%string] v).
Proof. split; [|split; [|split; [|split]]]; try (apply C102_values; vm_compute; reflexivity); intros v H; apply C102_values in H; vm_compute in H; discriminate. Qed.
