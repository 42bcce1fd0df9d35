(** C101: the training log: one row per epoch, readable back, complete after every epoch; progress lines and times. *)
From Coq Require Import ZArith QArith List Bool Ascii String Lia.
From Verif Require Import Base BaseFacts Str StrFacts TrainLog.
Import ListNotations.
Open Scope list_scope. Open Scope Z_scope.

(** ** Reading a csv file: Python's csv.reader in the excel dialect with delimiter d, on a file opened with newline='' *)
Inductive rstate := RStart | RField | RPlain | RQuoted | RQuote | RCr.
Definition snoc (s : string) (c : ascii) : string := (s ++ String c "")%string.
Definition is_nl (c : ascii) : bool := Ascii.eqb c cr || Ascii.eqb c nl.
Definition after_nl (c : ascii) : rstate := if Ascii.eqb c cr then RCr else RStart.
Fixpoint csv_parse (d : ascii) (st : rstate) (fld : string) (row : list string) (s : string) : list (list string) :=
  match s with
  | EmptyString => match st with RStart | RCr => [] | _ => [row ++ [fld]] end
  | String c s =>
    match st with
    | RPlain => if is_nl c then (row ++ [fld]) :: csv_parse d (after_nl c) "" [] s else if Ascii.eqb c d then csv_parse d RField "" (row ++ [fld]) s else csv_parse d RPlain (snoc fld c) row s
    | RQuoted => if Ascii.eqb c quote then csv_parse d RQuote fld row s else csv_parse d RQuoted (snoc fld c) row s
    | RQuote => if Ascii.eqb c quote then csv_parse d RQuoted (snoc fld c) row s else if Ascii.eqb c d then csv_parse d RField "" (row ++ [fld]) s
                else if is_nl c then (row ++ [fld]) :: csv_parse d (after_nl c) "" [] s else csv_parse d RPlain (snoc fld c) row s
    | RField => if is_nl c then (row ++ [""%string]) :: csv_parse d (after_nl c) "" [] s else if Ascii.eqb c quote then csv_parse d RQuoted "" row s
                else if Ascii.eqb c d then csv_parse d RField "" (row ++ [""%string]) s else csv_parse d RPlain (String c "") row s
    | RStart | RCr =>
      if (match st with RCr => Ascii.eqb c nl | _ => false end) then csv_parse d RStart "" [] s else
      if is_nl c then [] :: csv_parse d (after_nl c) "" [] s else if Ascii.eqb c quote then csv_parse d RQuoted "" [] s
      else if Ascii.eqb c d then csv_parse d RField "" [""%string] s else csv_parse d RPlain (String c "") [] s
    end
  end.
Definition read_csv (d : ascii) (text : string) : list (list string) := csv_parse d RStart "" [] text.
Definition good_sep (d : ascii) : Prop := d <> quote /\ d <> cr /\ d <> nl.

Section Csv.
Variable d : ascii.
Hypothesis GD : good_sep d.
Lemma snoc_app f c s : (snoc f c ++ s = f ++ String c s)%string.
Proof. unfold snoc. rewrite append_assoc. reflexivity. Qed.
Lemma special_no c : special d c = false -> is_nl c = false /\ Ascii.eqb c d = false /\ Ascii.eqb c quote = false.
Proof. unfold special, is_nl. rewrite !orb_false_iff. tauto. Qed.
Lemma plain_chunk s : forall fld row rest, str_forallb (fun c => negb (special d c)) s = true -> csv_parse d RPlain fld row (s ++ rest) = csv_parse d RPlain (fld ++ s) row rest.
Proof.
  induction s as [|c s IH]; intros fld row rest H; cbn [String.append]; [rewrite append_nil_r; reflexivity|]. cbn [str_forallb] in H. apply andb_true_iff in H as (H1 & H2). apply negb_true_iff in H1. destruct (special_no c H1) as (A & B & _).
  cbn [csv_parse]. rewrite A, B, IH, snoc_app by exact H2. reflexivity.
Qed.
Lemma quoted_chunk s : forall fld row rest, csv_parse d RQuoted fld row (doubled s ++ rest) = csv_parse d RQuoted (fld ++ s) row rest.
Proof.
  induction s as [|c s IH]; intros fld row rest; cbn [doubled]; [rewrite append_nil_r; reflexivity|]. destruct (Ascii.eqb c quote) eqn:Q.
  - cbn [String.append csv_parse]. rewrite (Ascii.eqb_refl quote), IH, snoc_app. apply Ascii.eqb_eq in Q. subst c. reflexivity.
  - cbn [String.append csv_parse]. rewrite Q, IH, snoc_app. reflexivity.
Qed.
Lemma d_nl : is_nl d = false. Proof. destruct GD as (A & B & C). unfold is_nl. rewrite (proj2 (Ascii.eqb_neq _ _) B), (proj2 (Ascii.eqb_neq _ _) C). reflexivity. Qed.
Lemma d_quote : Ascii.eqb d quote = false. Proof. apply Ascii.eqb_neq. apply GD. Qed.
(** a field followed by the delimiter or by the end of the line *)
Lemma field_sep s row rest : csv_parse d RField "" row (csv_field d s ++ String d rest) = csv_parse d RField "" (row ++ [s]) rest.
Proof.
  unfold csv_field. destruct (str_forallb _ s) eqn:F.
  - destruct s as [|c s]; cbn [String.append csv_parse]; [rewrite d_nl, d_quote, Ascii.eqb_refl; reflexivity|]. cbn [str_forallb] in F. apply andb_true_iff in F as (F1 & F2). apply negb_true_iff in F1. destruct (special_no c F1) as (A & B & C). rewrite A, B, C.
    rewrite plain_chunk by exact F2. cbn [csv_parse]. rewrite d_nl, Ascii.eqb_refl. reflexivity.
  - unfold quoted. cbn [String.append csv_parse]. change (is_nl quote) with false. change (Ascii.eqb quote quote) with true. cbv iota. rewrite append_assoc, quoted_chunk. cbn [String.append csv_parse]. change (Ascii.eqb quote quote) with true. cbv iota. rewrite d_quote, Ascii.eqb_refl. reflexivity.
Qed.
Lemma field_end s row rest : csv_parse d RField "" row (csv_field d s ++ String cr (String nl rest)) = (row ++ [s]) :: read_csv d rest.
Proof.
  unfold csv_field. destruct (str_forallb _ s) eqn:F.
  - destruct s as [|c s]; cbn [String.append csv_parse]; [reflexivity|]. cbn [str_forallb] in F. apply andb_true_iff in F as (F1 & F2). apply negb_true_iff in F1. destruct (special_no c F1) as (A & B & C). rewrite A, B, C. rewrite plain_chunk by exact F2. reflexivity.
  - unfold quoted. cbn [String.append csv_parse]. change (is_nl quote) with false. change (Ascii.eqb quote quote) with true. cbv iota. rewrite append_assoc, quoted_chunk. cbn [String.append csv_parse]. change (Ascii.eqb quote quote) with true. change (Ascii.eqb cr quote) with false. change (is_nl cr) with true. cbv iota.
    assert (E : Ascii.eqb cr d = false) by (apply Ascii.eqb_neq; intros E; apply (proj1 (proj2 GD)); symmetry; exact E). rewrite E. reflexivity.
Qed.
Lemma join_parse : forall l row rest, l <> [] -> csv_parse d RField "" row (csv_join d l ++ String cr (String nl rest)) = (row ++ l) :: read_csv d rest.
Proof.
  induction l as [|s l IH]; intros row rest N; [congruence|]. destruct l as [|s' l]; cbn [csv_join]; [apply field_end|]. change (csv_join d (s' :: l)) with (csv_join d (s' :: l)). rewrite append_assoc. cbn [String.append]. rewrite field_sep, IH by discriminate. rewrite <- app_assoc. reflexivity.
Qed.
Lemma start_field c s : is_nl c = false -> csv_parse d RStart "" [] (String c s) = csv_parse d RField "" [] (String c s).
Proof. intros H. cbn [csv_parse]. rewrite H. reflexivity. Qed.
Lemma quoted_first s : exists t, quoted s = String quote t. Proof. unfold quoted. eauto. Qed.
Lemma field_first s c t : csv_field d s = String c t -> is_nl c = false.
Proof.
  unfold csv_field. destruct (str_forallb _ s) eqn:F; [intros ->; cbn [str_forallb] in F; apply andb_true_iff in F as (F1 & _); apply negb_true_iff in F1; apply special_no in F1; tauto|]. unfold quoted. intros [= <- _]. reflexivity.
Qed.
Lemma row_parse l rest : l <> [] -> read_csv d (csv_row d l ++ rest) = l :: read_csv d rest.
Proof.
  intros N. unfold csv_row. rewrite append_assoc. cbn [String.append]. destruct l as [|s [|s' l]]; [congruence| |].
  - destruct (String.eqb_spec s "") as [->|Ns].
    + assert (E : Ascii.eqb cr d = false) by (apply Ascii.eqb_neq; intros E; apply (proj1 (proj2 GD)); symmetry; exact E). unfold read_csv at 1, quoted. cbn [doubled String.append csv_parse]. change (is_nl quote) with false. change (Ascii.eqb quote quote) with true. change (Ascii.eqb cr quote) with false. cbv iota. rewrite E. reflexivity.
    + assert (E := field_end s [] rest). destruct (csv_field d s) as [|c t] eqn:F; [exfalso; unfold csv_field in F; destruct (str_forallb _ s); [congruence|discriminate F]|]. unfold read_csv at 1. cbn [String.append] in *. rewrite start_field by (eapply field_first; exact F). exact E.
  - assert (E := join_parse (s :: s' :: l) [] rest N). change (csv_join d (s :: s' :: l)) with (csv_field d s ++ String d (csv_join d (s' :: l)))%string in *. destruct (csv_field d s) as [|c t] eqn:F; unfold read_csv at 1; cbn [String.append] in *.
    + rewrite start_field by exact d_nl. exact E.
    + rewrite start_field by (eapply field_first; exact F). exact E.
Qed.
(** What the csv module writes is read back, for every rows of one field or more, whatever characters the fields contain. *)
Theorem C101_csv : forall rows, (forall r, In r rows -> r <> []) -> read_csv d (str_concat (map (csv_row d) rows)) = rows.
Proof.
  induction rows as [|r rows IH]; intros H; [reflexivity|]. cbn [map str_concat]. rewrite row_parse by (apply H; left; reflexivity). rewrite IH by (intros; apply H; right; assumption). reflexivity.
Qed.
End Csv.
Print Assumptions C101_csv.

(** ** The log of a training *)
(** the value of an entry *)
Definition value (lg : logs) (k v : string) : Prop := In (k, v) lg.
(** a training log: its columns are those of the first epoch; row number i is for epoch e + i, counted from 1 *)
Definition log_rows (keys : list string) (e : Z) (ls : list logs) (rows : list (list string)) : Prop :=
  List.length rows = List.length ls /\
  forall i lg row, nth_error ls i = Some lg -> nth_error rows i = Some row -> exists vals, row = fmt_d (e + Z.of_nat i + 1) :: vals /\ Forall2 (value lg) keys vals.
Definition has_keys (keys : list string) (lg : logs) : Prop := incl keys (map fst lg).
Lemma get_value lg k : In k (map fst lg) -> exists v, log_get lg k = Ok v /\ In (k, v) lg.
Proof.
  intros H. unfold log_get. destruct (find _ lg) as [[k' v]|] eqn:F.
  - apply find_some in F as (A & B). cbn [fst] in B. apply String.eqb_eq in B. subst k'. eauto.
  - exfalso. apply in_map_iff in H as ((k' & v) & <- & Hi). apply (find_none _ _ F) in Hi. cbn [fst] in Hi. rewrite String.eqb_refl in Hi. discriminate.
Qed.
Lemma get_values lg keys : incl keys (map fst lg) -> exists vals, mapM (log_get lg) keys = Ok vals /\ Forall2 (value lg) keys vals.
Proof.
  induction keys as [|k keys IH]; intros H; [exists []; split; [reflexivity|constructor]|]. destruct (get_value lg k) as (v & E & I); [apply H; left; reflexivity|]. destruct IH as (vals & E' & F); [intros a Ha; apply H; right; exact Ha|].
  exists (v :: vals). cbn [mapM]. rewrite E. cbn [bind]. rewrite E'. split; [reflexivity|]. constructor; assumption.
Qed.
Lemma put_same f p t : f_files (put f p t) p = Some t. Proof. cbn. rewrite String.eqb_refl. reflexivity. Qed.
Lemma put_other f p t q : q <> p -> f_files (put f p t) q = f_files f q. Proof. intros N. cbn. rewrite (proj2 (String.eqb_neq _ _) N). reflexivity. Qed.
Lemma later_epochs d path ap keys : forall ls e l f t, l_path l = path -> l_sep l = String d "" -> l_keys l = Some keys -> l_writer l = true -> l_append l = ap -> f_files f path = Some t -> Forall (has_keys keys) ls ->
  exists l' f' rows, csv_epochs l e ls f = Ok (l', f') /\ f_files f' path = Some (t ++ str_concat (map (csv_row d) rows))%string /\ log_rows keys e ls rows /\ (forall q, q <> path -> f_files f' q = f_files f q) /\
  l_path l' = path /\ l_sep l' = String d "" /\ l_keys l' = Some keys /\ l_writer l' = true.
Proof.
  induction ls as [|lg ls IH]; intros e l f t P SP K W A T HK.
  - exists l, f, []. cbn [csv_epochs map str_concat]. rewrite append_nil_r. repeat split; try assumption. intros i lg row H. destruct i; discriminate.
  - inversion HK as [|? ? H1 H2]; subst. destruct (get_values lg keys H1) as (vals & E & FV). cbn [csv_epochs]. unfold csv_epoch_end, csv_epoch_begin. cbn [l_path l_sep l_keys l_writer l_header l_epoch l_append]. rewrite SP, K, W, T, E. cbn [bind].
    match goal with |- context [csv_epochs ?L (e + 1) ls ?F] => destruct (IH (e + 1) L F (t ++ csv_row d (fmt_d (e + 1) :: vals))%string) as (l' & f' & rows & E' & T' & (R1 & R2) & O & Q) end; try reflexivity; [apply put_same|exact H2|]. cbn [l_path] in *. exists l', f', ((fmt_d (e + 1) :: vals) :: rows). split; [exact E'|]. split; [|split; [|split; [|exact Q]]].
    + rewrite T'. cbn [map str_concat String.append]. rewrite !append_assoc. reflexivity.
    + split; [cbn [List.length]; rewrite R1; reflexivity|]. intros [|i] lg' row L R; cbn [nth_error] in L, R.
      * injection L as <-. injection R as <-. exists vals. split; [f_equal; f_equal; lia|exact FV].
      * destruct (R2 i lg' row L R) as (v & -> & F). exists v. split; [f_equal; f_equal; lia|exact F].
    + intros q N. rewrite (O q N). apply put_other. exact N.
Qed.
Definition in_dir (path : string) : Prop := dirname path <> EmptyString.
(** A training that ends, or is stopped, after the epochs e, ..., e + n - 1: its log file holds a header and one row for each of these epochs, in order, with the values of the epoch under the names of the first epoch. *)
Theorem C101_log : forall d path e first rest f, good_sep d -> in_dir path -> NoDup (map fst first) -> Forall (has_keys (map fst first)) rest ->
  exists l f' text rows, csv_train path (String d "") false e (first :: rest) f = Ok (l, f') /\ f_files f' path = Some text /\
  read_csv d text = ("epoch"%string :: map fst first) :: rows /\ log_rows (map fst first) e (first :: rest) rows /\ forall q, q <> path -> f_files f' q = f_files f q.
Proof.
  intros d path e first rest f GD ID ND HK. unfold csv_train, csv_train_begin, csv_new. cbn [l_path l_append l_header]. rewrite (proj2 (String.eqb_neq _ _) ID).
  set (f0 := if existsb (String.eqb (dirname path)) (f_dirs f) then f else mk_fs (dirname path :: f_dirs f) (f_files f)).
  assert (E0 : (if existsb (String.eqb (dirname path)) (f_dirs f) then Ok f else Ok (mk_fs (dirname path :: f_dirs f) (f_files f))) = Ok f0) by (unfold f0; destruct (existsb _ _); reflexivity). rewrite E0. cbn [bind].
  assert (F0 : forall q, f_files f0 q = f_files f q) by (intros q; unfold f0; destruct (existsb _ _); reflexivity). cbn [csv_epochs]. unfold csv_epoch_end, csv_epoch_begin. cbn [l_path l_sep l_keys l_writer l_header l_epoch l_append]. rewrite put_same.
  destruct (get_values first (map fst first) (incl_refl _)) as (vals & E & FV). rewrite E. cbn [bind String.append].
  match goal with |- context [csv_epochs ?L (e + 1) rest ?F] => destruct (later_epochs d path false (map fst first) rest (e + 1) L F (csv_row d ("epoch"%string :: map fst first) ++ csv_row d (fmt_d (e + 1) :: vals))%string) as (l' & f' & rows & E' & T' & (R1 & R2) & O & Q) end; try reflexivity; [apply put_same|exact HK|].
  eexists l', f', _, ((fmt_d (e + 1) :: vals) :: rows). split; [exact E'|]. split; [exact T'|]. split; [|split].
  - rewrite append_assoc. rewrite row_parse by (first [exact GD | discriminate]). rewrite row_parse by (first [exact GD | discriminate]). f_equal. f_equal. apply C101_csv; [exact GD|].
    intros r Hr. apply In_nth_error in Hr as (i & Hi). assert (L : (i < List.length rest)%nat) by (rewrite <- R1; apply nth_error_Some; congruence). destruct (nth_error rest i) as [lg|] eqn:G; [|apply nth_error_None in G; lia]. destruct (R2 i lg r G Hi) as (v & -> & _). discriminate.
  - split; [cbn [List.length]; rewrite R1; reflexivity|]. intros [|i] lg' row L R; cbn [nth_error] in L, R.
    + injection L as <-. injection R as <-. exists vals. split; [f_equal; f_equal; lia|exact FV].
    + destruct (R2 i lg' row L R) as (v & -> & F). exists v. split; [f_equal; f_equal; lia|exact F].
  - intros q N. rewrite (O q N), put_other by exact N. rewrite put_other by exact N. apply F0.
Qed.
Print Assumptions C101_log.
(** An epoch without one of the first epoch's metrics raises and leaves the file as it was. *)
Theorem C101_missing : forall l lg f keys k d, l_sep l = String d "" -> l_keys l = Some keys -> In k keys -> ~ In k (map fst lg) -> csv_epoch_end l lg f = Err KeyError.
Proof.
  intros l lg f keys k d SP K Hk N. unfold csv_epoch_end. rewrite SP, K. assert (E : mapM (log_get lg) keys = Err KeyError).
  { clear SP K. induction keys as [|a keys IH]; [destruct Hk|]. cbn [mapM]. destruct (log_get lg a) as [v|x] eqn:G.
    - cbn [bind]. destruct Hk as [->|Hk]; [exfalso; apply N; unfold log_get in G; destruct (find _ lg) as [[k' v']|] eqn:F; [|discriminate]; apply find_some in F as (A & B); cbn [fst] in B; apply String.eqb_eq in B; subst k'; apply in_map_iff; exists (k, v'); auto|]. rewrite IH by exact Hk. reflexivity.
    - unfold log_get in G. destruct (find _ lg); [discriminate|]. injection G as <-. reflexivity. }
  rewrite E. reflexivity.
Qed.
Print Assumptions C101_missing.
(** Continuing a log is impossible: append=True always raises, and a new training without it empties the log of an earlier one. *)
Theorem C101_append_refuted : forall path sep e ls f, in_dir path -> csv_train path sep true e ls f = Err AttributeError.
Proof. intros. unfold csv_train, csv_train_begin, csv_new. cbn [l_path l_append]. rewrite (proj2 (String.eqb_neq _ _) H). destruct (existsb _ _); reflexivity. Qed.
Print Assumptions C101_append_refuted.
Theorem C101_restart_refuted : forall path sep e f, in_dir path -> exists l f', csv_train path sep false e [] f = Ok (l, f') /\ f_files f' path = Some EmptyString.
Proof. intros. unfold csv_train, csv_train_begin, csv_new. cbn [l_path l_append l_header csv_epochs]. rewrite (proj2 (String.eqb_neq _ _) H). destruct (existsb _ _); cbn [bind]; eexists _, _; (split; [reflexivity|apply put_same]). Qed.
Print Assumptions C101_restart_refuted.
(** A log path without a directory always raises. *)
Theorem C101_no_dir_refuted : forall path sep ap e ls f, has_slash path = false -> csv_train path sep ap e ls f = Err IOErr.
Proof. intros path sep ap e ls f H. unfold csv_train, csv_train_begin, csv_new. cbn [l_path]. assert (D : dirname path = EmptyString) by (unfold dirname; destruct path as [|c p]; [reflexivity|]; cbn [head_of]; rewrite H; reflexivity). rewrite D. reflexivity. Qed.
Print Assumptions C101_no_dir_refuted.

(** ** Times *)
(** reading a time: days, hours, minutes and seconds between colons, the last alone with an s *)
Definition weigh (l : list (option Z)) : option Z :=
  match l with
  | [Some m; Some s] => Some (m * 60 + s)
  | [Some h; Some m; Some s] => Some ((h * 60 + m) * 60 + s)
  | [Some d; Some h; Some m; Some s] => Some (((d * 24 + h) * 60 + m) * 60 + s)
  | _ => None
  end.
Fixpoint cut (fuel : nat) (s : string) : list string :=
  match fuel with O => [s] | S fuel => match split1 ":" s with (a, Some r) => a :: cut fuel r | (a, None) => [a] end end.
Definition read_time (s : string) : option Z :=
  match split1 "s" s with (a, Some _) => py_int a | (_, None) => weigh (map py_int (cut 4 s)) end.
Definition day : Z := 86400.
Lemma fmt_colon z : 0 <= z -> str_in ":" (fmt_d z) = false. Proof. intros H. apply str_in_digits; [reflexivity|apply fmt_d_digits; exact H]. Qed.
Lemma fmt_s z : 0 <= z -> str_in "s" (fmt_d z) = false. Proof. intros H. apply str_in_digits; [reflexivity|apply fmt_d_digits; exact H]. Qed.
Lemma read_s s : 0 <= s -> read_time (fmt_d s ++ "s") = Some s.
Proof. intros H. unfold read_time. rewrite split1_at by (apply fmt_s; exact H). apply py_int_fmt. Qed.
Lemma no_s s : str_in "s" s = false -> read_time s = weigh (map py_int (cut 4 s)).
Proof. intros H. unfold read_time. rewrite split1_none by exact H. reflexivity. Qed.
Lemma cut_more n z r : 0 <= z -> cut (S n) (fmt_d z ++ ":" ++ r) = fmt_d z :: cut n r.
Proof. intros H. cbn [cut]. change ((fmt_d z ++ ":" ++ r)%string) with (fmt_d z ++ String ":" r)%string. rewrite split1_at by (apply fmt_colon; exact H). reflexivity. Qed.
Lemma cut_last n z : 0 <= z -> cut n (fmt_d z) = [fmt_d z].
Proof. intros H. destruct n; [reflexivity|]. cbn [cut]. rewrite split1_none by (apply fmt_colon; exact H). reflexivity. Qed.
Lemma mday_first n y d : d < 31 -> mday n y d = d + 1.
Proof. intros H. destruct n; cbn [mday in_months months]; rewrite (proj2 (Z.ltb_lt d 31)) by exact H; reflexivity. Qed.
Ltac in_s := repeat (rewrite ?str_in_app; rewrite ?fmt_s by lia; cbn [orb]); try reflexivity.
(** Times below 31 days are shown exactly (to the second). *)
Theorem C101_time : forall t, 0 <= t < 31 * day -> read_time (sec2str t) = Some t.
Proof.
  intros t H. unfold day in H. unfold sec2str. assert (D : 0 <= t / 86400 < 31) by (split; [apply Z.div_pos; lia|apply Z.div_lt_upper_bound; lia]). rewrite mday_first by lia. replace (t / 86400 + 1 - 1) with (t / 86400) by lia.
  pose proof (Z.mod_pos_bound t 60 ltac:(lia)). pose proof (Z.mod_pos_bound (t / 60) 60 ltac:(lia)). pose proof (Z.mod_pos_bound (t / 3600) 24 ltac:(lia)).
  assert (E1 := Z.div_mod t 60 ltac:(lia)). assert (E2 := Z.div_mod (t / 60) 60 ltac:(lia)). assert (E3 := Z.div_mod (t / 3600) 24 ltac:(lia)).
  rewrite Z.div_div in E2 by lia. rewrite Z.div_div in E3 by lia. change (60 * 60) with 3600 in E2. change (3600 * 24) with 86400 in E3.
  set (s := t mod 60) in *. set (m := (t / 60) mod 60) in *. set (h := (t / 3600) mod 24) in *. set (d := t / 86400) in *. clearbody s m h d.
  destruct (Z.ltb_spec 0 d); [|destruct (Z.ltb_spec 0 h); [|destruct (Z.ltb_spec 0 m)]].
  - rewrite no_s by in_s. rewrite !cut_more, cut_last by lia. cbn [map]. rewrite !py_int_fmt. cbn [weigh]. f_equal. lia.
  - rewrite no_s by in_s. rewrite !cut_more, cut_last by lia. cbn [map]. rewrite !py_int_fmt. cbn [weigh]. f_equal. lia.
  - rewrite no_s by in_s. rewrite !cut_more, cut_last by lia. cbn [map]. rewrite !py_int_fmt. cbn [weigh]. f_equal. lia.
  - rewrite read_s by lia. f_equal. lia.
Qed.
Print Assumptions C101_time.
(** From 31 days on, the month is lost. *)
Theorem C101_time_refuted : forall t, 31 * day <= t < 59 * day -> sec2str t = sec2str (t - 31 * day) /\ read_time (sec2str t) = Some (t - 31 * day).
Proof.
  intros t H. assert (G : sec2str t = sec2str (t - 31 * day)); [|split; [exact G|rewrite G; apply C101_time; unfold day in *; lia]]. unfold day in H.
  assert (D : 31 <= t / 86400 < 59) by (split; [apply Z.div_le_lower_bound; lia|apply Z.div_lt_upper_bound; lia]). unfold sec2str, day.
  replace ((t - 31 * 86400) / 86400) with (t / 86400 - 31) by (replace (t - 31 * 86400) with (t + (-31) * 86400) by lia; rewrite Z.div_add by lia; lia).
  replace ((t - 31 * 86400) / 3600) with (t / 3600 + (-31) * 24) by (replace (t - 31 * 86400) with (t + (-744) * 3600) by lia; rewrite Z.div_add by lia; lia).
  replace ((t - 31 * 86400) / 60) with (t / 60 + (-744) * 60) by (replace (t - 31 * 86400) with (t + (-44640) * 60) by lia; rewrite Z.div_add by lia; lia).
  replace ((t - 31 * 86400) mod 60) with (t mod 60) by (replace (t - 31 * 86400) with (t + (-44640) * 60) by lia; rewrite Z.mod_add by lia; reflexivity). rewrite !Z.mod_add by lia. rewrite (mday_first _ 1970 (t / 86400 - 31)) by lia.
  assert (MD : forall n, mday n 1970 (t / 86400) = t / 86400 - 31 + 1). { intros n. assert (IM : in_months (months 1970) (t / 86400) = inl (t / 86400 - 31 + 1)); [|destruct n; cbn [mday]; rewrite IM; reflexivity]. change (months 1970) with [31; 28; 31; 30; 31; 30; 31; 31; 30; 31; 30; 31]. cbn [in_months]. rewrite (proj2 (Z.ltb_ge (t / 86400) 31)) by lia. rewrite (proj2 (Z.ltb_lt (t / 86400 - 31) 28)) by lia. reflexivity. }
  rewrite MD. reflexivity.
Qed.
Print Assumptions C101_time_refuted.

(** ** Progress lines *)
Definition done (bs : list (Z * Q)) (k : nat) : Z := fold_right Z.add 0 (map fst (firstn (k + 1) bs)).
Definition shown (e epochs samples : Z) (bs : list (Z * Q)) (k : nat) (n : line) : Prop :=
  n_epoch n = e + 1 /\ n_epochs n = epochs /\ n_batch n = Z.of_nat k /\ n_sample n = Some (done bs k, Some (samples, 100 * done bs k / samples)) /\
  exists size eta, nth_error bs k = Some (size, n_elapsed n) /\ n_eta n = Some eta /\ (eta == n_elapsed n * (inject_Z samples - inject_Z (done bs k)) / inject_Z (done bs k))%Q.
Lemma inj_nz a : 0 < a -> ~ (inject_Z a == 0)%Q. Proof. intros H E. unfold Qeq, inject_Z in E. cbn in E. lia. Qed.
(** In an epoch of a training, batches 0, i, 2i, ... give one line each, with the number of samples done, their percentage, and the remaining time if the pace stays the same. *)
Theorem C101_progress : forall p e epochs samples bs, 0 < p_interval p -> 0 < samples -> (forall b, In b bs -> 0 < fst b) ->
  exists p' lines, prog_batches (prog_epoch_begin p epochs e samples 0) 0 bs = Ok (p', lines) /\
  Forall2 (shown e epochs samples bs) (filter (fun k => Z.of_nat k mod p_interval p =? 0) (seq 0 (List.length bs))) lines.
Proof.
  intros p e epochs samples bs HI HS HB. set (i := p_interval p) in *.
  assert (G : forall rest past acc pb, past ++ rest = bs -> acc = fold_right Z.add 0 (map fst past) -> 0 <= acc ->
    exists p' lines, prog_batches (mk_prog i epochs samples 0 e pb acc) (Z.of_nat (List.length past)) rest = Ok (p', lines) /\ Forall2 (shown e epochs samples bs) (filter (fun k => Z.of_nat k mod i =? 0) (seq (List.length past) (List.length rest))) lines).
  { induction rest as [|[size et] rest IH]; intros past acc pb EB EA HA; [exists (mk_prog i epochs samples 0 e pb acc), []; split; [reflexivity|constructor]|].
    assert (SZ : 0 < size) by (apply (HB (size, et)); rewrite <- EB; apply in_or_app; right; left; reflexivity).
    destruct (IH (past ++ [(size, et)]) (acc + size) (Z.of_nat (List.length past))) as (p' & lines & E & F); [rewrite <- app_assoc; exact EB|rewrite map_app, fold_right_app; cbn [map fold_right fst]; rewrite EA; clear; induction past as [|a past IHp]; cbn; lia|lia|]. rewrite app_length in E, F. cbn [List.length] in E, F.
    assert (DN : done bs (List.length past) = acc + size). { unfold done. rewrite <- EB, Nat.add_1_r. replace (S (List.length past)) with (List.length (past ++ [(size, et)])) by (rewrite app_length; cbn; lia). change ((size, et) :: rest) with ([(size, et)] ++ rest). rewrite app_assoc, firstn_app, Nat.sub_diag, firstn_all. cbn [firstn]. rewrite app_nil_r, map_app, fold_right_app. cbn [map fold_right fst]. rewrite EA. clear. induction past as [|a past IHp]; cbn; lia. }
    cbn [prog_batches]. unfold prog_batch. cbn [p_interval p_epochs p_samples p_batches p_epoch p_sample]. rewrite (proj2 (Z.eqb_neq i 0)) by lia. cbn [List.length seq filter]. replace (Z.of_nat (List.length past) + 1) with (Z.of_nat (List.length past + 1)) by lia. rewrite Nat.add_1_r in E, F. rewrite Nat.add_1_r.
    destruct (Z.of_nat (List.length past) mod i =? 0).
    - unfold estimate. cbn [p_batches p_samples p_sample p_batch]. change (0 <? 0) with false. cbv iota. rewrite (proj2 (Z.ltb_lt 0 samples)) by lia. rewrite (proj2 (Z.eqb_neq (acc + size) 0)) by lia. cbn [bind]. rewrite E. cbn [bind]. eexists p', _. split; [reflexivity|]. cbn [app]. constructor; [|exact F].
      unfold shown. cbn [n_epoch n_epochs n_batch n_sample n_elapsed n_eta]. rewrite DN, (proj2 (Z.ltb_lt 0 (acc + size))) by lia. split; [reflexivity|]. split; [reflexivity|]. split; [reflexivity|]. split; [reflexivity|]. eexists size, _. split; [rewrite <- EB, nth_error_app2, Nat.sub_diag by lia; reflexivity|]. split; [reflexivity|].
      field. apply inj_nz. lia.
    - cbn [bind]. rewrite E. cbn [bind app]. eexists p', lines. split; [reflexivity|exact F]. }
  apply (G bs [] 0 0); [reflexivity|reflexivity|lia].
Qed.
Print Assumptions C101_progress.
(** If the number of batches is given, which the trainer does not do, the first batch raises. *)
Theorem C101_batches_refuted : forall p e epochs samples batches size et bs, 0 < batches -> p_interval p <> 0 -> prog_batches (prog_epoch_begin p epochs e samples batches) 0 ((size, et) :: bs) = Err ZeroDivisionError.
Proof. intros. cbn [prog_batches]. unfold prog_batch, prog_epoch_begin. cbn [p_interval p_epochs p_samples p_batches p_epoch p_sample]. rewrite (proj2 (Z.eqb_neq _ _)) by assumption. rewrite Z.mod_0_l by assumption. unfold estimate. cbn [p_batches p_batch]. rewrite (proj2 (Z.ltb_lt 0 batches)) by lia. reflexivity. Qed.
Print Assumptions C101_batches_refuted.

(** ** The list of loggers: every logger gets every event, as if it were alone *)
Section Fan.
Context {St Ev Msg : Type} (step : St -> Ev -> res (St * list Msg)).
Fixpoint alone (s : St) (es : list Ev) : res (St * list Msg) :=
  match es with [] => Ok (s, []) | e :: es => '(s, a) <- step s e ;; '(s, b) <- alone s es ;; Ok (s, a ++ b) end.
Lemma cast_iff ls e : forall ls', (exists ms, broadcast step ls e = Ok (ls', ms)) <-> Forall2 (fun s s' => exists ms, step s e = Ok (s', ms)) ls ls'.
Proof.
  induction ls as [|s ls IH]; intros ls'; cbn [broadcast].
  - split; [intros (ms & [= <- _]); constructor|intros H; inversion H; eexists; reflexivity].
  - destruct (step s e) as [[s' a]|x] eqn:E; cbn [bind].
    + split.
      * intros (ms & H). destruct (broadcast step ls e) as [[l b]|x] eqn:B; [|discriminate]. cbn [bind] in H. injection H as <- _. constructor; [eexists; exact E|]. apply IH. eauto.
      * intros H. inversion H as [|? s'' ? l'' (m & Em) F]; subst. apply IH in F as (b & B). rewrite B. cbn [bind]. rewrite E in Em. injection Em as <- <-. eauto.
    + split; [intros (ms & H); discriminate|]. intros H. inversion H as [|? ? ? ? (m & Em) F]; subst. congruence.
Qed.
Theorem C101_fanout : forall es ls ls', (exists ms, broadcasts step ls es = Ok (ls', ms)) <-> Forall2 (fun s s' => exists ms, alone s es = Ok (s', ms)) ls ls'.
Proof.
  induction es as [|e es IH]; intros ls ls'; cbn [broadcasts alone].
  - split; [intros (ms & [= <- _]); induction ls; constructor; [eexists; reflexivity|assumption]|]. intros H. assert (ls = ls') by (induction H as [|a b la lb (m & [= Em _]) F IHF]; [reflexivity|congruence]). subst. eexists. reflexivity.
  - split.
    + intros (ms & H). destruct (broadcast step ls e) as [[l a]|x] eqn:B; [|discriminate]. cbn [bind] in H. destruct (broadcasts step l es) as [[l2 b]|x] eqn:B2; [|discriminate]. cbn [bind] in H. injection H as <- _.
      assert (F1 := proj1 (cast_iff ls e l) (ex_intro _ a B)). assert (F2 := proj1 (IH l l2) (ex_intro _ b B2)). clear -F1 F2. revert l2 F2. induction F1 as [|s s1 ls l (m & E) F IHF]; intros l2 F2; inversion F2 as [|? s2 ? ? (m2 & E2) G]; subst; constructor; [|apply IHF; assumption]. rewrite E. cbn [bind]. rewrite E2. cbn [bind]. eauto.
    + intros H. assert (M : exists l, Forall2 (fun s s' => exists ms, step s e = Ok (s', ms)) ls l /\ Forall2 (fun s s' => exists ms, alone s es = Ok (s', ms)) l ls').
      { clear IH. induction H as [|s s2 ls l2 (m & E) F (l & F1 & F2)]; [exists []; split; constructor|]. destruct (step s e) as [[s1 a]|x] eqn:E1; [|discriminate]. cbn [bind] in E. destruct (alone s1 es) as [[s3 b]|x] eqn:E2; [|discriminate]. cbn [bind] in E. injection E as <- _. exists (s1 :: l). split; constructor; eauto. }
      destruct M as (l & F1 & F2). apply cast_iff in F1 as (a & B). apply IH in F2 as (b & B2). rewrite B. cbn [bind]. rewrite B2. cbn [bind]. eauto.
Qed.
(** and what they say comes out event by event, in the order of the loggers: nothing is lost. *)
Inductive happens : list St -> list Ev -> list St -> list Msg -> Prop :=
| happens_nil ls : happens ls [] ls []
| happens_cons ls e es rs ls' ms : Forall2 (fun s r => step s e = Ok r) ls rs -> happens (map fst rs) es ls' ms ->
    happens ls (e :: es) ls' (concat (map snd rs) ++ ms).
Lemma cast_says e : forall ls ls' ms, broadcast step ls e = Ok (ls', ms) <-> exists rs, Forall2 (fun s r => step s e = Ok r) ls rs /\ ls' = map fst rs /\ ms = concat (map snd rs).
Proof.
  induction ls as [|s ls IH]; intros ls' ms; cbn [broadcast].
  - split; [intros [= <- <-]; exists []; repeat split; constructor|intros (rs & F & -> & ->); inversion F; reflexivity].
  - destruct (step s e) as [[s' a]|x] eqn:E; cbn [bind].
    + split.
      * intros H. destruct (broadcast step ls e) as [[l b]|x] eqn:B; [|discriminate]. cbn [bind] in H. injection H as <- <-.
        destruct (proj1 (IH l b) eq_refl) as (rs & F & -> & ->). exists ((s', a) :: rs). repeat split. constructor; assumption.
      * intros (rs & F & -> & ->). inversion F as [|? r ? rs' Er F']; subst. rewrite E in Er. injection Er as <-. rewrite (proj2 (IH _ _) (ex_intro _ rs' (conj F' (conj eq_refl eq_refl)))). reflexivity.
    + split; [discriminate|]. intros (rs & F & _). inversion F as [|? r ? rs' Er F']; subst. congruence.
Qed.
Theorem C101_messages : forall es ls ls' ms, broadcasts step ls es = Ok (ls', ms) <-> happens ls es ls' ms.
Proof.
  induction es as [|e es IH]; intros ls ls' ms; cbn [broadcasts].
  - split; [intros [= <- <-]; constructor|intros H; inversion H; reflexivity].
  - split.
    + intros H. destruct (broadcast step ls e) as [[l a]|x] eqn:B; [|discriminate]. cbn [bind] in H. destruct (broadcasts step l es) as [[l2 b]|x] eqn:B2; [|discriminate]. cbn [bind] in H. injection H as <- <-.
      apply cast_says in B as (rs & F & -> & ->). constructor; [exact F|]. apply IH. exact B2.
    + intros H. inversion H as [|? ? ? rs ? m F G]; subst. rewrite (proj2 (cast_says e ls _ _) (ex_intro _ rs (conj F (conj eq_refl eq_refl)))). cbn [bind]. rewrite (proj2 (IH _ _ _) G). reflexivity.
Qed.
End Fan.
Print Assumptions C101_messages.
Print Assumptions C101_fanout.

(** ** Witnesses *)
Definition w_fs := mk_fs [] (fun _ => None).
Example C101_w1 : exists l f t, csv_train "exp/train.log" "," false 0 [[("loss", "0.5"); ("acc", "a,""b")]; [("acc", "2"); ("x", "9"); ("loss", "0.25")]]%string w_fs = Ok (l, f) /\ f_files f "exp/train.log"%string = Some t /\
  read_csv "," t = [["epoch"; "loss"; "acc"]; ["1"; "0.5"; "a,""b"]; ["2"; "0.25"; "2"]]%string.
Proof. eexists _, _, _. split; [vm_compute; reflexivity|]. split; vm_compute; reflexivity. Qed.
Example C101_w2 : good_sep "," /\ in_dir "exp/train.log" /\ ~ in_dir "train.log".
Proof. split; [repeat split; discriminate|]. split; [discriminate|]. intros H. apply H. reflexivity. Qed.
Example C101_w3 : sec2str 5 = "5s"%string /\ sec2str 65 = "1:5"%string /\ sec2str 3661 = "1:1:1"%string /\ sec2str 90000 = "1:1:0:0"%string /\ sec2str (31 * day) = "0s"%string.
Proof. repeat split; vm_compute; reflexivity. Qed.
Example C101_w4 : exists p' l, prog_batches (prog_epoch_begin (mk_prog 2 0 0 0 0 0 0) 5 1 30 0) 0 [(10, 1%Q); (10, 2%Q); (10, 3%Q)] = Ok (p', l) /\ map n_batch l = [0; 2] /\ map n_sample l = [Some (10, Some (30, 33)); Some (30, Some (30, 100))].
Proof. eexists _, _. split; [vm_compute; reflexivity|]. split; reflexivity. Qed.
