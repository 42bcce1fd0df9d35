(** save / load round trip of SCPList. *)
From Verif Require Import Base BaseFacts ListUtils ListUtilsProofs Str StrFacts Scp ScpProofs ScpHist.
Open Scope Z_scope.

(** No line break in a string. *)
Definition one_line (s : string) : Prop := str_in nl s = false /\ str_in cr s = false.

(** Conditions on one element for the text format to be faithful. *)
Definition savable (sep osep : ascii) (e : entry) : Prop :=
  let '(k, p, o, r) := e in
  one_line k /\ one_line p /\
  str_in sep k = false /\ str_in osep p = false /\ str_in "[" p = false /\
  (o = None -> last_ok is_space p = true) /\
  (forall z, o = Some z -> z <> -1) /\
  (forall a b, r = Some (a, b) -> 0 <= a /\ 0 <= b).

Definition sep_ok (sep osep : ascii) : Prop :=
  sep <> nl /\ sep <> cr /\ osep <> nl /\ osep <> cr /\ osep <> "["%char.

Section Row.
Variables (sep osep : ascii) (ho hr : bool).
Hypothesis Hsep : sep_ok sep osep.

Definition rtxt (r : frow) : string := if hr then fmt_range (r_rng r) else ""%string.
Definition otxt (r : frow) : string := if ho then (sstr osep ++ fmt_d (r_off r))%string else ""%string.
Definition script (r : frow) : string := (r_path r ++ otxt r ++ rtxt r)%string.
Definition line (r : frow) : string := (r_key r ++ sstr sep ++ script r)%string.

Lemma save_lines R c : scp_save (build R ho hr c) sep osep = str_concat (map (fun l => l ++ nl_str)%string (map line R)).
Proof.
  unfold scp_save. simpl.
  assert (E : match opt_col hr r_rng R with Some l => map fmt_range l | None => map (fun _ => ""%string) (map r_key R) end = map rtxt R).
  { unfold rtxt. destruct hr; simpl; rewrite map_map; apply map_ext; reflexivity. }
  rewrite E.
  clear E. f_equal. f_equal. destruct ho eqn:Eh; simpl.
  - induction R as [|r R' IH]; simpl; [reflexivity|]. rewrite IH. f_equal.
    unfold line, script, otxt. rewrite Eh. rewrite !append_assoc. reflexivity.
  - induction R as [|r R' IH]; simpl; [reflexivity|]. rewrite IH. f_equal.
    unfold line, script, otxt. rewrite Eh. reflexivity.
Qed.

Lemma str_in_rtxt c r : (forall a b, hr = true -> r_rng r = (a, b) -> 0 <= a /\ 0 <= b) ->
  is_digit c = false -> c <> "-"%char -> c <> "["%char -> c <> ":"%char -> c <> "]"%char -> str_in c (rtxt r) = false.
Proof.
  intros H D N1 N2 N3 N4. unfold rtxt. destruct hr; [|reflexivity]. destruct (r_rng r) as [a b]. unfold fmt_range.
  destruct ((a =? 0) && (b =? 0)); [reflexivity|].
  assert (E2 : Ascii.eqb "[" c = false) by (apply Ascii.eqb_neq; congruence).
  assert (E3 : Ascii.eqb ":" c = false) by (apply Ascii.eqb_neq; congruence).
  assert (E4 : Ascii.eqb "]" c = false) by (apply Ascii.eqb_neq; congruence).
  destruct (b =? 0); cbn [append]; rewrite str_in_cons, E2; rewrite !str_in_app, !str_in_cons, ?str_in_app, ?str_in_cons, E3, E4;
    rewrite !str_in_fmt by assumption; reflexivity.
Qed.

Lemma rtxt_shape r : (forall a b, hr = true -> r_rng r = (a, b) -> 0 <= a /\ 0 <= b) ->
  rtxt r = ""%string \/ exists t, rtxt r = ("[" ++ t ++ "]")%string /\ hr = true /\ r_rng r <> (0, 0) /\
     parse_range (""%string, Some (t ++ "]"))%string = Ok (r_rng r).
Proof.
  intros H. unfold rtxt. destruct hr eqn:Eh; [|left; reflexivity].
  destruct (r_rng r) as [a b]. destruct (H a b eq_refl eq_refl) as [Ha Hb]. unfold fmt_range.
  destruct ((a =? 0) && (b =? 0)) eqn:Z0; [left; reflexivity|]. right.
  assert (NZ : (a, b) <> (0, 0)).
  { intros Q. inversion Q; subst. discriminate. }
  assert (RS : forall t c, is_digit c = true \/ c = ":"%char ->
      rstrip_if (fun x => Ascii.eqb x "]") ((t ++ String c "") ++ "]") = (t ++ String c "")%string).
  { intros t c Hc. assert (Nc : Ascii.eqb c "]" = false).
    { destruct Hc as [Hc | ->]; [apply digit_neq; [exact Hc|reflexivity]|reflexivity]. }
    induction t as [|x t IH].
    - simpl. rewrite Nc. reflexivity.
    - simpl in *. rewrite IH. destruct (t ++ String c "")%string eqn:Q; [destruct t; discriminate|reflexivity]. }
  destruct (b =? 0) eqn:B0.
  - apply Z.eqb_eq in B0. subst b. exists (fmt_d a ++ ":")%string.
    split; [rewrite append_assoc; reflexivity|]. split; [reflexivity|]. split; [exact NZ|].
    unfold parse_range, snd. rewrite (RS (fmt_d a) ":"%char) by (right; reflexivity).
    rewrite split1_at by (apply str_in_fmt; [reflexivity|discriminate]).
    rewrite fmt_d_isdecimal by exact Ha. simpl.
    destruct (fmt_d_nonneg a Ha) as [u [Hu [E V]]]. rewrite E, digits_val_uint, V. reflexivity.
  - exists (fmt_d a ++ ":" ++ fmt_d (a + b))%string.
    split; [rewrite !append_assoc; reflexivity|]. split; [reflexivity|]. split; [exact NZ|].
    unfold parse_range, snd.
    assert (Hab : 0 <= a + b) by lia.
    assert (LD : exists t c, fmt_d (a + b) = (t ++ String c "")%string /\ is_digit c = true).
    { destruct (fmt_d_digits (a + b) Hab) as [D NE]. revert D NE. generalize (fmt_d (a + b)). intros s.
      induction s as [|x s IH]; [congruence|]. intros D _. simpl in D. apply andb_true_iff in D as [D1 D2].
      destruct s as [|y s]; [exists ""%string, x; split; [reflexivity|exact D1]|].
      destruct IH as [t [c [E1 E2]]]; [exact D2|discriminate|]. exists (String x t), c. rewrite E1. split; [reflexivity|exact E2]. }
    destruct LD as [t [c [ELD Dc]]].
    assert (E' : (fmt_d a ++ ":" ++ fmt_d (a + b))%string = ((fmt_d a ++ ":" ++ t) ++ String c "")%string).
    { rewrite ELD, !append_assoc. reflexivity. }
    rewrite E', RS by (left; exact Dc). rewrite <- E'.
    cbn [append]. rewrite split1_at by (apply str_in_fmt; [reflexivity|discriminate]).
    rewrite !fmt_d_isdecimal by assumption. cbv beta iota.
    destruct (fmt_d_nonneg a Ha) as [u [Hu [E V]]].
    destruct (fmt_d_nonneg (a + b) Hab) as [u' [Hu' [E'' V']]].
    rewrite E, E'', !digits_val_uint, V, V'. f_equal. f_equal. lia.
Qed.

Definition row_ok (r : frow) : Prop := savable sep osep (ent ho hr r).

Lemma row_ok_rng r : row_ok r -> forall a b, hr = true -> r_rng r = (a, b) -> 0 <= a /\ 0 <= b.
Proof.
  unfold row_ok, savable, ent. intros H a b Eh E. destruct H as [_ [_ [_ [_ [_ [_ [_ H]]]]]]].
  apply H. rewrite Eh, E. reflexivity.
Qed.

Lemma nl_facts : is_digit nl = false /\ nl <> "-"%char /\ nl <> "["%char /\ nl <> ":"%char /\ nl <> "]"%char.
Proof. repeat split; discriminate. Qed.
Lemma cr_facts : is_digit cr = false /\ cr <> "-"%char /\ cr <> "["%char /\ cr <> ":"%char /\ cr <> "]"%char.
Proof. repeat split; discriminate. Qed.

Lemma str_in_otxt c r : is_digit c = false -> c <> "-"%char -> c <> osep -> str_in c (otxt r) = false.
Proof.
  intros D N1 N2. unfold otxt. destruct ho; [|reflexivity]. unfold sstr. cbn [append].
  rewrite str_in_cons, str_in_fmt by assumption. rewrite orb_false_r. apply Ascii.eqb_neq. congruence.
Qed.

Lemma line_one_line r : row_ok r -> str_in nl (line r) = false /\ str_in cr (line r) = false.
Proof.
  intros H. pose proof (row_ok_rng r H) as HR.
  destruct H as [[K1 K2] [[P1 P2] _]]. destruct Hsep as [S1 [S2 [S3 [S4 S5]]]].
  unfold line, script, sstr.
  assert (N1 : Ascii.eqb sep nl = false) by (apply Ascii.eqb_neq; exact S1).
  assert (N2 : Ascii.eqb sep cr = false) by (apply Ascii.eqb_neq; exact S2).
  split.
  - rewrite str_in_app. cbn [append]. rewrite str_in_cons, !str_in_app, K1, P1, N1.
    destruct nl_facts as [A [B [C [D E]]]].
    rewrite str_in_otxt, str_in_rtxt by (try assumption; congruence). reflexivity.
  - rewrite str_in_app. cbn [append]. rewrite str_in_cons, !str_in_app, K2, P2, N2.
    destruct cr_facts as [A [B [C [D E]]]].
    rewrite str_in_otxt, str_in_rtxt by (try assumption; congruence). reflexivity.
Qed.

Lemma line_last r : row_ok r -> rstrip (line r) = line r.
Proof.
  intros H. apply rstrip_if_last. unfold line, script. apply last_ok_app. unfold sstr. cbn [append].
  change (String sep (r_path r ++ otxt r ++ rtxt r))%string with (sstr sep ++ (r_path r ++ otxt r ++ rtxt r))%string.
  apply last_ok_app.
  destruct (rtxt_shape r (row_ok_rng r H)) as [E|[t [E _]]]; rewrite E.
  - rewrite append_nil_r. unfold otxt. destruct H as [_ [_ [_ [_ [_ [H _]]]]]]. destruct ho.
    + apply last_ok_app, last_ok_app, fmt_d_last.
    + rewrite append_nil_r. apply H. reflexivity.
  - apply last_ok_app, last_ok_app, last_ok_app, last_ok_app. reflexivity.
Qed.

Lemma line_split r : row_ok r -> split1 sep (line r) = (r_key r, Some (script r)).
Proof. intros H. unfold line, sstr. cbn [append]. apply split1_at. apply H. Qed.

Definition has_rtxt (r : frow) : bool := hr && negb ((fst (r_rng r) =? 0) && (snd (r_rng r) =? 0)).

Lemma script_range r : row_ok r ->
  exists ro, split1 "[" (script r) = ((r_path r ++ otxt r)%string, ro) /\
    has_range ((r_path r ++ otxt r)%string, ro) = has_rtxt r /\
    (hr = true -> parse_range ((r_path r ++ otxt r)%string, ro) = Ok (r_rng r)).
Proof.
  intros H.
  assert (NP : str_in "[" (r_path r ++ otxt r) = false).
  { rewrite str_in_app. destruct H as [_ [_ [_ [_ [H _]]]]]. rewrite H. simpl. apply str_in_otxt; [reflexivity|discriminate|].
    destruct Hsep as [_ [_ [_ [_ S]]]]. congruence. }
  unfold script. rewrite <- append_assoc.
  destruct (rtxt_shape r (row_ok_rng r H)) as [E|[t [E [Eh [NZ PR]]]]].
  - exists None. rewrite E, append_nil_r. split; [apply split1_none; exact NP|].
    unfold has_rtxt. revert E. unfold rtxt. destruct hr; [|intros _; split; [reflexivity|discriminate]].
    destruct (r_rng r) as [a b]. unfold fmt_range. simpl fst. simpl snd.
    destruct ((a =? 0) && (b =? 0)) eqn:Q.
    + intros _. split; [reflexivity|]. intros _. apply andb_true_iff in Q as [Q1 Q2].
      apply Z.eqb_eq in Q1, Q2. subst. reflexivity.
    + destruct (b =? 0); discriminate.
  - exists (Some (t ++ "]")%string). rewrite E. cbn [append]. split; [apply split1_at; exact NP|].
    unfold has_rtxt. rewrite Eh. simpl. split.
    + destruct (r_rng r) as [a b]. simpl. destruct ((a =? 0) && (b =? 0)) eqn:Q; [|reflexivity].
      exfalso. apply NZ. apply andb_true_iff in Q as [Q1 Q2]. apply Z.eqb_eq in Q1, Q2. congruence.
    + intros _. exact PR.
Qed.

Lemma script_offset r : row_ok r ->
  exists oo, split1 osep (r_path r ++ otxt r) = (r_path r, oo) /\
    (ho = true -> oo = Some (fmt_d (r_off r)) /\ r_off r <> -1) /\ (ho = false -> oo = None).
Proof.
  intros H. destruct H as [_ [_ [_ [NP [_ [_ [HO _]]]]]]].
  unfold otxt. destruct ho.
  - exists (Some (fmt_d (r_off r))). unfold sstr. cbn [append]. split; [apply split1_at; exact NP|].
    split; [intros _; split; [reflexivity|apply HO; reflexivity]|discriminate].
  - exists None. rewrite append_nil_r. split; [apply split1_none; exact NP|]. split; [discriminate|reflexivity].
Qed.

Lemma parse_lemma R : R <> [] -> Forall row_ok R ->
  parse_script (map script R) osep =
  Ok (map r_path R, opt_col ho r_off R, if existsb has_rtxt R then Some (map r_rng R) else None).
Proof.
  intros NE F.
  set (fr := fun r => split1 "[" (script r)).
  assert (FR : forall r, In r R -> fst (fr r) = (r_path r ++ otxt r)%string /\ has_range (fr r) = has_rtxt r /\
              (hr = true -> parse_range (fr r) = Ok (r_rng r))).
  { intros r Hr. rewrite Forall_forall in F. destruct (script_range r (F r Hr)) as [ro [E1 [E2 E3]]].
    unfold fr. rewrite E1. split; [reflexivity|]. split; assumption. }
  set (fo := fun r => split1 osep (fst (fr r))).
  assert (FO : forall r, In r R -> fst (fo r) = r_path r /\
      (ho = true -> snd (fo r) = Some (fmt_d (r_off r)) /\ r_off r <> -1) /\ (ho = false -> snd (fo r) = None)).
  { intros r Hr. rewrite Forall_forall in F. destruct (script_offset r (F r Hr)) as [oo [E1 E2]].
    unfold fo. rewrite (proj1 (FR r Hr)), E1. split; [reflexivity|exact E2]. }
  unfold parse_script. rewrite !map_map.
  change (map (fun x => split1 "[" (script x)) R) with (map fr R).
  change (map (fun x => split1 osep (fst (split1 "[" (script x)))) R) with (map fo R).
  change (map (fun x => fst (split1 osep (fst (split1 "[" (script x))))) R) with (map (fun x => fst (fo x)) R).
  replace (map (fun x => fst (fo x)) R) with (map r_path R)
    by (apply map_ext_in; intros r Hr; symmetry; apply FO; exact Hr).
  assert (ER : (if existsb has_range (map fr R) then r <- mapM parse_range (map fr R) ;; Ok (Some r) else Ok None)
          = Ok (if existsb has_rtxt R then Some (map r_rng R) else None)).
  { replace (existsb has_range (map fr R)) with (existsb has_rtxt R).
    2:{ clear - FR. induction R as [|r R' IH]; simpl; [reflexivity|].
        rewrite IH by (intros q Hq; apply FR; right; exact Hq).
        rewrite (proj1 (proj2 (FR r (or_introl eq_refl)))). reflexivity. }
    destruct (existsb has_rtxt R) eqn:EX; [|reflexivity].
    assert (Hh : hr = true).
    { apply existsb_exists in EX as [r [_ Er]]. unfold has_rtxt in Er. destruct hr; [reflexivity|discriminate]. }
    assert (M : mapM parse_range (map fr R) = Ok (map r_rng R)).
    { clear - FR Hh. induction R as [|r R' IH]; simpl; [reflexivity|].
      rewrite (proj2 (proj2 (FR r (or_introl eq_refl))) Hh). simpl.
      rewrite IH by (intros q Hq; apply FR; right; exact Hq). reflexivity. }
    rewrite M. reflexivity. }
  rewrite ER. clear ER.
  assert (EO : match map fo R with [] => Err IndexError | fo0 :: _ =>
      match snd fo0 with None => Ok None | Some _ =>
        o <- mapM parse_offset (map fo R) ;; if existsb (Z.eqb (-1)) o then Err UnboundLocalError else Ok (Some o) end end
      = Ok (opt_col ho r_off R)).
  { destruct R as [|r0 R']; [congruence|].
    destruct (FO r0 (or_introl eq_refl)) as [_ [H1 H2]]. cbn [map]. 
    destruct ho eqn:Eh.
    - destruct (H1 eq_refl) as [-> _]. change (fo r0 :: map fo R') with (map fo (r0 :: R')).
      assert (M : mapM parse_offset (map fo (r0 :: R')) = Ok (map r_off (r0 :: R'))).
      { generalize dependent (r0 :: R'). intros l _ _ _ FO. clear - FO. induction l as [|r l IH]; simpl; [reflexivity|].
        destruct (FO r (or_introl eq_refl)) as [_ [H1 _]]. destruct (H1 eq_refl) as [E _].
        unfold parse_offset at 1. rewrite E, py_int_fmt. simpl.
        rewrite IH by (intros q Hq; apply FO; right; exact Hq). reflexivity. }
      rewrite M. cbn [bind].
      assert (NX : existsb (Z.eqb (-1)) (map r_off (r0 :: R')) = false).
      { destruct (existsb _ _) eqn:Q; [|reflexivity]. apply existsb_exists in Q as [z [Hz Ez]].
        apply in_map_iff in Hz as [r [<- Hr]]. destruct (FO r Hr) as [_ [H3 _]]. destruct (H3 eq_refl) as [_ N].
        lia. }
      rewrite NX. reflexivity.
    - rewrite H2 by reflexivity. reflexivity. }
  destruct (map fo R) as [|f0 fs] eqn:EM; [destruct R; [congruence|discriminate]|].
  rewrite EO. reflexivity.
Qed.

Lemma load_save_rows R c : R <> [] -> Forall row_ok R ->
  scp_load (scp_save (build R ho hr c) sep osep) sep osep = Ok (build R ho (existsb has_rtxt R) None).
Proof.
  intros NE F. unfold scp_load. rewrite save_lines, py_lines_concat.
  2:{ apply Forall_forall. intros l Hl. apply in_map_iff in Hl as [r [<- Hr]].
      rewrite Forall_forall in F. apply line_one_line. apply F. exact Hr. }
  rewrite map_map.
  replace (map (fun x => split1 sep (rstrip (line x))) R) with (map (fun r => (r_key r, Some (script r))) R).
  2:{ apply map_ext_in. intros r Hr. rewrite Forall_forall in F. rewrite line_last, line_split by (apply F; exact Hr). reflexivity. }
  rewrite map_map. cbn [fst].
  assert (M : mapM get_pair_1 (map (fun r => (r_key r, Some (script r))) R) = Ok (map script R)).
  { clear. induction R as [|r R IH]; simpl; [reflexivity|]. rewrite IH. reflexivity. }
  rewrite M. cbn [bind]. rewrite parse_lemma by assumption. cbn [bind].
  replace (if existsb has_rtxt R then Some (map r_rng R) else None) with (opt_col (existsb has_rtxt R) r_rng R) by reflexivity.
  change (map (fun x => r_key x) R) with (map r_key R).
  rewrite scp_new_build. destruct R; [congruence|]. simpl negb. rewrite andb_true_r. reflexivity.
Qed.

End Row.
