(** C108: what AudioWriter leaves on the disk, and what the readers make of it. *)
From Coq Require Import ZArith QArith List Bool Arith String Ascii Lia.
From Verif Require Import Base BaseFacts Mat Str StrFacts Scp ScpProofs ScpRound Kaldi ArkHist Audio AudioProps AudioOut.
Import ListNotations.
Open Scope list_scope. Open Scope Z_scope.

(** ** Specification *)
(** one recording that is handed over: key, samples, sampling frequency *)
Definition item := (string * list Q * Z)%type.
Definition rate_list (r : rates) (n : nat) : list Z := match r with OneRate f => repeat f n | RateList l => l end.
(** the i-th key goes with the i-th waveform and the i-th frequency *)
Definition items_of (c : list string * list (list Q) * rates) : list item :=
  let '(keys, data, r) := c in
  map (fun t : string * (list Q * Z) => (fst t, fst (snd t), snd (snd t))) (combine keys (combine data (rate_list r (List.length data)))).
Definition all_items calls : list item := concat (map items_of calls).
(** the path of a recording; the lines of the script *)
Definition path_for (dir fmt key : string) : string := (dir ++ "/" ++ dashes key ++ "." ++ fmt)%string.
Definition i_key (it : item) : string := fst (fst it).
Definition i_path (dir fmt : string) (it : item) : string := path_for dir fmt (i_key it).
Definition i_line (dir fmt sep : string) (it : item) : string := (i_key it ++ sep ++ i_path dir fmt it ++ nl_str)%string.
(** the last of the items that satisfies p *)
Definition last_such (p : item -> bool) (l : list item) : option item := find p (rev l).
(** the integer part, towards zero *)
Definition trunc (q : Q) : Z := Z.quot (Qnum q) (Zpos (Qden q)).
(** the sample that AudioReader gives for a written sample *)
Definition expected (sub : string) (q : Q) : Q :=
  if String.eqb sub "PCM_16" then inject_Z (trunc q)
  else if String.eqb sub "PCM_32" then (inject_Z (trunc q) / inject_Z 65536)%Q
  else (inject_Z 32768 * q)%Q.
(** the sample fits in the integers of the format *)
Definition in_range (sub : string) (q : Q) : Prop :=
  (sub = "PCM_16"%string -> - 2 ^ 15 <= trunc q < 2 ^ 15) /\ (sub = "PCM_32"%string -> - 2 ^ 31 <= trunc q < 2 ^ 31).

Section P.
Variable wrap : Z -> Q -> Z.
Variable chk : string -> string -> bool.
Variable dflt : string -> res string.
Notation write := (write wrap chk).
Notation writes := (writes wrap chk).
Notation write1 := (write1 wrap chk).
Notation write_from := (write_from wrap chk).

Definition content_of (dt : string) (x : list Q) : content := match astype wrap dt x with Ok c => c | Err _ => Floats [] end.
Definition put (w : writer) (p : string) (f : Z) (c : content) : writer :=
  mk_writer (w_dir w) (w_fmt w) (w_sub w) (w_sep w) (w_script w) (store (w_disk w) p (mk_snd (w_sub w) f c)).
Definition done1 (dt : string) (w : writer) (it : item) : writer :=
  let '(k, x, f) := it in add_line (put w (out_file w k) f (content_of dt x)) k (out_file w k).
Definition done (dt : string) (w : writer) (l : list item) : writer := fold_left (done1 dt) l w.
(** the state where a write fails: either nothing of that recording is there, or its file without samples *)
Definition stopped (w w' : writer) : Prop := w' = w \/ exists k f b, w' = put w (out_file w k) f (Ints b []).

Lemma done1_fields dt w it : w_dir (done1 dt w it) = w_dir w /\ w_fmt (done1 dt w it) = w_fmt w /\ w_sub (done1 dt w it) = w_sub w /\ w_sep (done1 dt w it) = w_sep w.
Proof. destruct it as [[k x] f]. repeat split; reflexivity. Qed.
Lemma done_fields dt l : forall w, w_dir (done dt w l) = w_dir w /\ w_fmt (done dt w l) = w_fmt w /\ w_sub (done dt w l) = w_sub w /\ w_sep (done dt w l) = w_sep w.
Proof.
  induction l as [|it l IH]; intros w; [repeat split; reflexivity|]. change (done dt w (it :: l)) with (done dt (done1 dt w it) l).
  destruct (IH (done1 dt w it)) as (A & B & C & E), (done1_fields dt w it) as (A' & B' & C' & E'). repeat split; congruence.
Qed.
Lemma str_app_assoc a b c : ((a ++ b) ++ c)%string = (a ++ b ++ c)%string.
Proof. induction a as [|x a IH]; [reflexivity|]. cbn. rewrite IH. reflexivity. Qed.
Lemma app_nil_s a : (a ++ "")%string = a.
Proof. induction a as [|x a IH]; [reflexivity|]. cbn. rewrite IH. reflexivity. Qed.
Lemma done_script dt l : forall w, w_script (done dt w l) = option_map (fun t => (t ++ str_concat (map (i_line (w_dir w) (w_fmt w) (w_sep w)) l))%string) (w_script w).
Proof.
  induction l as [|it l IH]; intros w. { cbn. destruct (w_script w); cbn; [rewrite app_nil_s|]; reflexivity. }
  change (done dt w (it :: l)) with (done dt (done1 dt w it) l). rewrite IH. destruct (done1_fields dt w it) as (-> & -> & _ & ->).
  destruct it as [[k x] f]. cbn [done1 add_line w_script put]. destruct (w_script w) as [t|]; [|reflexivity]. cbn [option_map map str_concat].
  f_equal. unfold i_line, i_path, i_key, out_file, path_for. cbn [fst w_sep w_dir w_fmt put]. rewrite !str_app_assoc. reflexivity.
Qed.
Definition at_path (dir fmt p : string) (it : item) : bool := String.eqb p (i_path dir fmt it).
Lemma done_disk dt l : forall w p, w_disk (done dt w l) p =
  match last_such (at_path (w_dir w) (w_fmt w) p) l with Some (_, x, f) => Some (mk_snd (w_sub w) f (content_of dt x)) | None => w_disk w p end.
Proof.
  induction l as [|it l IH] using rev_ind; intros w p; [reflexivity|]. unfold done. rewrite fold_left_app. cbn [fold_left]. fold (done dt w l).
  unfold last_such. rewrite rev_app_distr. cbn [rev app find]. fold (last_such (at_path (w_dir w) (w_fmt w) p) l).
  destruct it as [[k x] f]. cbn [done1 add_line w_disk put]. unfold store. destruct (done_fields dt l w) as (E1 & E2 & E3 & E4).
  unfold at_path at 1. cbn [i_path i_key fst]. unfold out_file, i_path, i_key, path_for. cbn [fst]. rewrite E1, E2, E3.
  destruct (String.eqb p _); [reflexivity|]. apply IH.
Qed.

Lemma write1_spec w dt r data i k w' o : write1 w dt r data i k = (w', o) ->
  match o with
  | Ok _ => is_token k = true /\ exists x f c, nth_error data i = Some x /\ rate_at r i = Ok f /\ astype wrap dt x = Ok c /\ chk (w_fmt w) (w_sub w) = true /\ w' = done1 dt w (k, x, f)
  | Err _ => stopped w w'
  end.
Proof.
  unfold AudioOut.write1. destruct (is_token k); cbn [negb]; [|intros H; injection H as <- <-; left; reflexivity].
  destruct (rate_at r i) as [f|e] eqn:F; [|intros H; injection H as <- <-; left; reflexivity].
  destruct (nth_error data i) as [x|] eqn:X; [|intros H; injection H as <- <-; left; reflexivity].
  destruct (astype wrap dt x) as [c|e] eqn:A; [|intros H; injection H as <- <-; left; reflexivity].
  unfold sf_write. destruct (chk (w_fmt w) (w_sub w)) eqn:CK; [|intros H; injection H as <- <-; left; reflexivity].
  assert (D : add_line (put w (out_file w k) f c) k (out_file w k) = done1 dt w (k, x, f)) by (unfold done1, content_of; rewrite A; reflexivity).
  assert (OKC : forall w' o, (add_line (put w (out_file w k) f c) k (out_file w k), Ok tt) = (w', o) ->
     match o with Ok _ => true = true /\ exists x0 f0 c0, Some x = Some x0 /\ Ok f = Ok f0 /\ astype wrap dt x0 = Ok c0 /\ true = true /\ w' = done1 dt w (k, x0, f0) | Err _ => stopped w w' end).
  { intros w1 o1 H. injection H as <- <-. split; [reflexivity|]. exists x, f, c. repeat split; auto. }
  assert (BAD : forall b w' o, (put w (out_file w k) f (Ints b []), Err TypeError) = (w', o : res unit) ->
     match o with Ok _ => true = true /\ exists x0 f0 c0, Some x = Some x0 /\ Ok f = Ok f0 /\ astype wrap dt x0 = Ok c0 /\ true = true /\ w' = done1 dt w (k, x0, f0) | Err _ => stopped w w' end).
  { intros b w1 o1 H. injection H as <- <-. right. exists k, f, b. reflexivity. }
  destruct c as [b l|l]; [|exact (OKC w' o)].
  repeat match goal with |- (match (match ?z with _ => _ end) with _ => _ end) = _ -> _ => destruct z end; try exact (OKC w' o); exact (BAD _ w' o).
Qed.
Lemma skipn_cons {A} (l : list A) i x : nth_error l i = Some x -> skipn i l = x :: skipn (S i) l.
Proof. revert i. induction l as [|y l IH]; intros [|i] H; cbn in H; try discriminate; [injection H as ->; reflexivity|]. exact (IH i H). Qed.
Lemma rate_list_at r n i f : rate_at r i = Ok f -> (i < n)%nat -> nth_error (rate_list r n) i = Some f.
Proof.
  destruct r as [g|l]; cbn; intros H L.
  - injection H as ->. revert i L. induction n as [|n IH]; intros [|i] L; try lia; [reflexivity|]. cbn. apply IH. lia.
  - destruct (nth_error l i); [injection H as ->; reflexivity|discriminate].
Qed.
Definition zip3 (keys : list string) (data : list (list Q)) (fs : list Z) : list item :=
  map (fun t : string * (list Q * Z) => (fst t, fst (snd t), snd (snd t))) (combine keys (combine data fs)).
Lemma write_from_spec dt r data keys : forall i w w' o, write_from w dt r data i keys = (w', o) ->
  let its := zip3 keys (skipn i data) (skipn i (rate_list r (List.length data))) in
  match o with
  | Ok _ => w' = done dt w its /\ List.length its = List.length keys /\ Forall (fun it => is_token (i_key it) = true) its /\ map i_key its = keys /\
            (its <> [] -> chk (w_fmt w) (w_sub w) = true) /\ Forall (fun it => exists c, astype wrap dt (snd (fst it)) = Ok c) its
  | Err _ => exists n, stopped (done dt w (firstn n its)) w' /\ Forall (fun it => is_token (i_key it) = true) (firstn n its)
  end.
Proof.
  induction keys as [|k keys IH]; intros i w w' o H; cbn zeta.
  - cbn in H. injection H as <- <-. cbn. repeat split; auto; try congruence.
  - cbn [AudioOut.write_from] in H. destruct (write1 w dt r data i k) as [w1 [u|e]] eqn:E; apply write1_spec in E.
    + destruct E as (T & x & f & c & X & F & A & CK & ->).
      assert (L : (i < List.length data)%nat) by (apply nth_error_Some; congruence).
      pose proof (skipn_cons _ _ _ X) as SX. pose proof (skipn_cons _ _ _ (rate_list_at _ _ _ _ F L)) as SF.
      assert (Z3 : zip3 (k :: keys) (skipn i data) (skipn i (rate_list r (List.length data))) = (k, x, f) :: zip3 keys (skipn (S i) data) (skipn (S i) (rate_list r (List.length data)))) by (rewrite SX, SF; reflexivity).
      specialize (IH (S i) _ _ _ H). cbn zeta in IH. destruct (done1_fields dt w (k, x, f)) as (E1 & E2 & E3 & E4). destruct o as [v|e].
      * destruct IH as (W & LE & TK & MK & CK' & AS). rewrite Z3. split; [exact W|]. split; [cbn [List.length]; rewrite LE; reflexivity|]. split; [constructor; [exact T|exact TK]|].
        split; [cbn [map]; rewrite MK; reflexivity|]. split; [intros _; exact CK|]. constructor; [exists c; exact A|exact AS].
      * destruct IH as (n & ST & TK). exists (S n). rewrite Z3. cbn [firstn]. split; [exact ST|]. constructor; [exact T|exact TK].
    + injection H as <- <-. exists 0%nat. cbn [firstn]. split; [exact E|constructor].
Qed.
Lemma write_spec w keys data r w' o dt : npdtype (w_sub w) = Some dt -> write w keys data r = (w', o) ->
  let its := items_of (keys, data, r) in
  match o with
  | Ok _ => w' = done dt w its /\ Forall (fun it => is_token (i_key it) = true) its /\ map i_key its = keys /\
            (its <> [] -> chk (w_fmt w) (w_sub w) = true) /\ Forall (fun it => exists c, astype wrap dt (snd (fst it)) = Ok c) its
  | Err _ => exists n, stopped (done dt w (firstn n its)) w' /\ Forall (fun it => is_token (i_key it) = true) (firstn n its)
  end.
Proof.
  intros DT H. unfold AudioOut.write in H. rewrite DT in H. apply write_from_spec in H. cbn [skipn] in H. cbn zeta in *.
  change (items_of (keys, data, r)) with (zip3 keys data (rate_list r (List.length data))). destruct o; [|exact H].
  destruct H as (A & _ & B & C & E & G). repeat split; assumption.
Qed.
Lemma done_app dt w l1 l2 : done dt w (l1 ++ l2) = done dt (done dt w l1) l2. Proof. unfold done. apply fold_left_app. Qed.
Lemma firstn_plus {A} (l1 l2 : list A) n : firstn (List.length l1 + n) (l1 ++ l2) = l1 ++ firstn n l2.
Proof. induction l1 as [|x l1 IH]; [reflexivity|]. cbn. rewrite IH. reflexivity. Qed.
Lemma firstn_in_app {A} (l1 l2 : list A) n : exists m, firstn m (l1 ++ l2) = firstn n l1.
Proof.
  exists (Nat.min n (List.length l1)). rewrite firstn_app. replace (Nat.min n (List.length l1) - List.length l1)%nat with 0%nat by lia. cbn. rewrite app_nil_r.
  destruct (Nat.le_ge_cases n (List.length l1)) as [L|L]; [rewrite Nat.min_l by exact L; reflexivity|]. rewrite Nat.min_r by exact L. rewrite !firstn_all2 by lia. reflexivity.
Qed.
Lemma writes_spec dt calls : forall w w' o, npdtype (w_sub w) = Some dt -> writes w calls = (w', o) ->
  let its := all_items calls in
  match o with
  | Ok _ => w' = done dt w its /\ Forall (fun it => is_token (i_key it) = true) its /\ map i_key its = concat (map (fun c => fst (fst c)) calls) /\
            (its <> [] -> chk (w_fmt w) (w_sub w) = true) /\ Forall (fun it => exists c, astype wrap dt (snd (fst it)) = Ok c) its
  | Err _ => exists n, stopped (done dt w (firstn n its)) w' /\ Forall (fun it => is_token (i_key it) = true) (firstn n its)
  end.
Proof.
  induction calls as [|[[keys data] r] calls IH]; intros w w' o DT H; cbn zeta.
  - cbn in H. injection H as <- <-. cbn. repeat split; auto; try congruence.
  - cbn [AudioOut.writes] in H. destruct (write w keys data r) as [w1 [u|e]] eqn:E; apply (write_spec _ _ _ _ _ _ dt DT) in E; cbn zeta in E.
    + destruct E as (-> & TK & MK & CK & AS). change (all_items ((keys, data, r) :: calls)) with (items_of (keys, data, r) ++ all_items calls).
      set (l1 := items_of (keys, data, r)) in *. destruct (done_fields dt l1 w) as (E1 & E2 & E3 & E4).
      apply IH in H; [|rewrite E3; exact DT]. cbn zeta in H. destruct o as [v|e].
      * destruct H as (W & TK' & MK' & CK' & AS'). split; [rewrite done_app; exact W|]. split; [apply Forall_app; split; assumption|].
        split; [rewrite map_app, MK, MK'; reflexivity|]. split; [|apply Forall_app; split; assumption].
        intros NE. destruct l1 as [|x l1]; [|apply CK; discriminate]. apply CK'. exact NE.
      * destruct H as (n & ST & TK'). exists (List.length l1 + n)%nat. rewrite firstn_plus. split; [rewrite done_app; exact ST|]. apply Forall_app. split; assumption.
    + injection H as <- <-. destruct E as (n & ST & TK). change (all_items ((keys, data, r) :: calls)) with (items_of (keys, data, r) ++ all_items calls).
      destruct (firstn_in_app (items_of (keys, data, r)) (all_items calls) n) as (m & M). exists m. rewrite M. split; assumption.
Qed.

(** *** What is on the disk *)
(** After calls that succeed, the script has one line for each key, in order, and the file of a path holds the last waveform written
    under a key with that path. *)
Theorem C108_disk : forall w calls w' o dt, npdtype (w_sub w) = Some dt -> writes w calls = (w', Ok o) ->
  concat (map (fun c => fst (fst c)) calls) = map i_key (all_items calls) /\
  w_script w' = option_map (fun t => (t ++ str_concat (map (i_line (w_dir w) (w_fmt w) (w_sep w)) (all_items calls)))%string) (w_script w) /\
  (forall p, last_such (at_path (w_dir w) (w_fmt w) p) (all_items calls) = None -> w_disk w' p = w_disk w p) /\
  (forall p k x f, last_such (at_path (w_dir w) (w_fmt w) p) (all_items calls) = Some (k, x, f) ->
     exists c, astype wrap dt x = Ok c /\ w_disk w' p = Some (mk_snd (w_sub w) f c)).
Proof.
  intros w calls w' o dt DT H. apply (writes_spec dt) in H; [|exact DT]. cbn zeta in H. destruct H as (-> & TK & MK & CK & AS).
  split; [symmetry; exact MK|]. split; [apply done_script|]. split.
  - intros p P. rewrite done_disk, P. reflexivity.
  - intros p k x f P. rewrite done_disk, P. unfold last_such in P. apply find_some in P. destruct P as [P _]. apply in_rev in P.
    rewrite Forall_forall in AS. destruct (AS _ P) as (c & A). cbn [fst snd] in A. exists c. split; [exact A|]. unfold content_of. rewrite A. reflexivity.
Qed.
(** Whenever the calls stop, also in the middle of one, each line of the script names a file that was written before the line, with the
    samples of that or of a later recording, or the empty file of the recording that failed; no path outside of the keys changes. *)
Theorem C108_prefix : forall w calls w' o dt, npdtype (w_sub w) = Some dt -> writes w calls = (w', o) ->
  exists n, w_script w' = option_map (fun t => (t ++ str_concat (map (i_line (w_dir w) (w_fmt w) (w_sep w)) (firstn n (all_items calls))))%string) (w_script w) /\
    Forall (fun it => is_token (i_key it) = true /\ exists s, w_disk w' (i_path (w_dir w) (w_fmt w) it) = Some s) (firstn n (all_items calls)) /\
    (forall o', o = Ok o' -> firstn n (all_items calls) = all_items calls).
Proof.
  intros w calls w' o dt DT H. apply (writes_spec dt) in H; [|exact DT]. cbn zeta in H.
  assert (EX : forall l it, In it l -> exists s, w_disk (done dt w l) (i_path (w_dir w) (w_fmt w) it) = Some s).
  { intros l it I. rewrite done_disk. destruct (last_such _ l) as [[[k x] f]|] eqn:LS; [eexists; reflexivity|]. exfalso.
    unfold last_such in LS. apply in_rev in I; apply (find_none _ _ LS it) in I.
    unfold at_path in I. rewrite String.eqb_refl in I. discriminate. }
  destruct o as [u|e].
  - destruct H as (-> & TK & _). exists (List.length (all_items calls)). rewrite firstn_all. split; [apply done_script|]. split; [|reflexivity].
    rewrite Forall_forall in *. intros it I. split; [apply TK; exact I|apply EX; exact I].
  - destruct H as (n & ST & TK). exists n. set (l := firstn n (all_items calls)) in *.
    assert (SC : w_script w' = w_script (done dt w l)) by (destruct ST as [->|(k & f & b & ->)]; reflexivity).
    split; [rewrite SC; apply done_script|]. split; [|discriminate].
    rewrite Forall_forall in *. intros it I. split; [apply TK; exact I|]. destruct (EX l it I) as (s & S0).
    destruct ST as [->|(k & f & b & ->)]; [exists s; exact S0|]. cbn [put w_disk]. unfold store. destruct (String.eqb _ _); [eexists; reflexivity|exists s; exact S0].
Qed.
End P.

(** *** Reading it back *)
Lemma str_in_dashes c s : c <> "-"%char -> str_in c s = false -> str_in c (dashes s) = false.
Proof.
  intros NC. induction s as [|x s IH]; [reflexivity|]. rewrite str_in_cons. intros H. apply orb_false_iff in H as [H1 H2]. cbn [dashes]. rewrite str_in_cons, (IH H2), orb_false_r.
  destruct (Ascii.eqb_spec x "/") as [->|]; [|exact H1]. apply Ascii.eqb_neq. congruence.
Qed.
Lemma no_slash_dashes s : str_in "/" (dashes s) = false.
Proof. induction s as [|x s IH]; [reflexivity|]. cbn [dashes]. rewrite str_in_cons, IH, orb_false_r. destruct (Ascii.eqb_spec x "/"); [reflexivity|]. apply Ascii.eqb_neq. congruence. Qed.
Lemma skip_dots_dashes s : skip_dots s <> ""%string -> exists x t, skip_dots (dashes s) = String x t /\ x <> "."%char /\ forall c, str_in c (dashes s) = false -> str_in c (String x t) = false.
Proof.
  induction s as [|x s IH]; cbn [dashes skip_dots]; [congruence|]. intros H.
  destruct (Ascii.eqb_spec x ".") as [->|N].
  - cbn [Ascii.eqb] in *. change (Ascii.eqb "." "/") with false. cbn [Ascii.eqb Bool.eqb] in *. destruct (IH H) as (y & t & E & NY & P). exists y, t. split; [exact E|]. split; [exact NY|].
    intros c C. apply P. rewrite str_in_cons in C. apply orb_false_iff in C. apply C.
  - assert (N2 : (if Ascii.eqb x "/" then "-"%char else x) <> "."%char) by (destruct (Ascii.eqb x "/"); [discriminate|exact N]).
    eexists. eexists. apply Ascii.eqb_neq in N2. rewrite N2. split; [reflexivity|]. split; [apply Ascii.eqb_neq; exact N2|]. auto.
Qed.
Lemma last_part_app a b : str_in "/" b = false -> last_part (a ++ String "/" b) = b.
Proof.
  intros H. induction a as [|x a IH].
  - cbn [append last_part]. rewrite H. reflexivity.
  - cbn [append last_part]. rewrite str_in_app, str_in_cons, Ascii.eqb_refl, orb_true_r. exact IH.
Qed.
Lemma dot_suffix_app a fmt : str_in "." fmt = false -> dot_suffix (a ++ String "." fmt) = String "." fmt.
Proof.
  intros H. induction a as [|x a IH].
  - cbn [append dot_suffix]. rewrite H. reflexivity.
  - cbn [append dot_suffix]. rewrite str_in_app, str_in_cons, Ascii.eqb_refl, orb_true_r. exact IH.
Qed.
Lemma skip_dots_app a b : skip_dots a <> ""%string -> skip_dots (a ++ b) = (skip_dots a ++ b)%string.
Proof. induction a as [|x a IH]; cbn [skip_dots append]; [congruence|]. destruct (Ascii.eqb x "."); [exact IH|reflexivity]. Qed.
Definition good_format (fmt : string) : bool := existsb (String.eqb ("." ++ fmt)) valid_ext.
Lemma format_facts fmt : good_format fmt = true -> str_in "." fmt = false /\ str_in "/" fmt = false /\ str_in ":" fmt = false /\ str_in "[" fmt = false /\ one_line fmt /\
  last_ok is_space fmt = true /\ (forall a, exists c, last_char (a ++ fmt) = Some c /\ c <> "|"%char).
Proof.
  unfold good_format, valid_ext. cbn [existsb append].
  assert (L : forall a c t, exists d, last_char (a ++ String c t) = Some d /\ last_char (String c t) = Some d).
  { intros a c t. induction a as [|x a IH].
    - revert c. induction t as [|y t IH]; intros c; [eexists; split; reflexivity|]. destruct (IH y) as (d & E & _). exists d. split; exact E.
    - destruct IH as (d & E1 & E2). exists d. split; [|exact E2]. cbn [append]. destruct (a ++ String c t)%string as [|z u] eqn:Q; [destruct a; discriminate|]. exact E1. }
  intros H. repeat (apply orb_prop in H; destruct H as [H|H]; [apply String.eqb_eq in H; first [discriminate | (injection H as ->);
    repeat (split; [first [reflexivity | (split; reflexivity)]|]); intros a; match goal with |- context [(_ ++ String ?c ?t)%string] => destruct (L a c t) as (d & E1 & E2) end; exists d; split; [exact E1|]; cbn in E2; injection E2 as <-; discriminate]|]).
  discriminate.
Qed.
Lemma ext_path dir fmt k : good_format fmt = true -> skip_dots k <> ""%string -> ext_of (path_for dir fmt k) = ("." ++ fmt)%string.
Proof.
  intros G K. destruct (format_facts _ G) as (F1 & F2 & _). destruct (skip_dots_dashes k K) as (x & t & E & NX & P).
  unfold ext_of, path_for. cbn [append]. rewrite last_part_app.
  2:{ rewrite str_in_app, no_slash_dashes, str_in_cons, F2. reflexivity. }
  rewrite skip_dots_app by (rewrite E; discriminate). rewrite E. apply dot_suffix_app. exact F1.
Qed.
Lemma strip_path dir fmt k : good_format fmt = true -> lstrip dir = dir -> rstrip (lstrip (path_for dir fmt k)) = path_for dir fmt k.
Proof.
  intros G D. destruct (format_facts _ G) as (_ & _ & _ & _ & _ & LO & _).
  assert (L : lstrip (path_for dir fmt k) = path_for dir fmt k).
  { unfold path_for. destruct dir as [|x dir]; [reflexivity|]. cbn [append lstrip] in *. destruct (is_space x) eqn:S; [|reflexivity]. exfalso.
    clear - D S. assert (forall s, (String.length (lstrip s) <= String.length s)%nat) as LL.
    { induction s as [|y s IH]; cbn; [lia|]. destruct (is_space y); cbn; lia. }
    specialize (LL dir). rewrite D in LL. cbn in LL. lia. }
  rewrite L. apply rstrip_if_last. unfold path_for. cbn [append].
  apply last_ok_app.
  assert (A : last_ok is_space ("." ++ fmt) = true) by (apply last_ok_app; exact LO).
  replace (String "/" (dashes k ++ String "." fmt)) with (("/" ++ dashes k) ++ ("." ++ fmt))%string by (rewrite str_app_assoc; reflexivity).
  apply last_ok_app. exact A.
Qed.

Definition lossless : list string := ["PCM_16"; "PCM_32"; "FLOAT"; "DOUBLE"]%string.
Lemma to_int_trunc wrap b q : - 2 ^ (b - 1) <= trunc q < 2 ^ (b - 1) -> to_int wrap b q = trunc q.
Proof. intros [A B]. unfold to_int. fold (trunc q). destruct (Z.leb_spec (- 2 ^ (b - 1)) (trunc q)); [|lia]. destruct (Z.ltb_spec (trunc q) (2 ^ (b - 1))); [reflexivity|lia]. Qed.
Lemma content_read wrap sub x f lossy d p c dt : In sub lossless -> npdtype sub = Some dt -> Forall (in_range sub) x -> astype wrap dt x = Ok c ->
  d p = Some (mk_snd sub f c) -> exists y, sf_read lossy d p = Ok (y, f) /\ Forall2 Qeq (map wav_scale y) (map (expected sub) x).
Proof.
  intros L DT R A D. unfold sf_read. rewrite D. cbn [f_content f_sub f_rate].
  assert (INT : forall b g, Ok (Ints b (map (to_int wrap b) x)) = Ok c -> (forall z, (inject_Z 32768 * (inject_Z z / inject_Z (2 ^ (b - 1))) == g z)%Q) ->
     (forall q, In q x -> - 2 ^ (b - 1) <= trunc q < 2 ^ (b - 1)) -> (forall q, expected sub q = g (trunc q)) -> String.eqb sub "PCM_16" || String.eqb sub "PCM_32" = true ->
     exists y, Ok (match c with Ints b l => if String.eqb sub "PCM_16" || String.eqb sub "PCM_32" then map (fun z => inject_Z z / inject_Z (2 ^ (b - 1)))%Q l else lossy (mk_snd sub f c)
       | Floats l => if String.eqb sub "FLOAT" || String.eqb sub "DOUBLE" then l else lossy (mk_snd sub f c) end, f) = Ok (y, f) /\ Forall2 Qeq (map wav_scale y) (map (expected sub) x)).
  { intros b g E G RG EX S. injection E as <-. rewrite S. eexists. split; [reflexivity|]. rewrite !map_map. clear R A D S. revert RG.
    induction x as [|q x IH]; intros RG; [constructor|]. cbn [map]. constructor; [|apply IH; intros; apply RG; right; assumption].
    rewrite (to_int_trunc wrap b q) by (apply RG; left; reflexivity). rewrite EX. apply G. }
  rewrite Forall_forall in R. cbn in L. destruct L as [<-|[<-|[<-|[<-|[]]]]]; cbn in DT; injection DT as <-; cbn in A.
  - apply (INT 16 inject_Z A); try reflexivity. { intros z. change (2 ^ (16 - 1)) with 32768. field. } intros q Q. apply (R q Q). reflexivity.
  - apply (INT 32 (fun z => inject_Z z / inject_Z 65536)%Q A); try reflexivity. { intros z. change (inject_Z (2 ^ (32 - 1))) with (inject_Z 32768 * inject_Z 65536)%Q. field. } intros q Q. apply (R q Q). reflexivity.
  - injection A as <-. eexists. split; [reflexivity|]. clear. induction x; constructor; [reflexivity|assumption].
  - injection A as <-. eexists. split; [reflexivity|]. clear. induction x; constructor; [reflexivity|assumption].
Qed.
Lemma find_map_path dir fmt l k : find (fun p : string * string => eqb (fst p) k) (map (fun it => (i_key it, i_path dir fmt it)) l)
  = match find (fun it => String.eqb k (i_key it)) l with Some it => Some (k, path_for dir fmt k) | None => None end.
Proof.
  induction l as [|it l IH]; [reflexivity|]. cbn [map find fst]. destruct (eqb_spec (i_key it) k) as [E|N].
  - rewrite <- E, String.eqb_refl. reflexivity.
  - replace (String.eqb k (i_key it)) with false by (symmetry; apply String.eqb_neq; congruence). exact IH.
Qed.
Lemma find_ext_in {A} (f g : A -> bool) l : (forall x, In x l -> f x = g x) -> find f l = find g l.
Proof. induction l as [|x l IH]; intros H; [reflexivity|]. cbn. rewrite (H x (or_introl eq_refl)), IH; [reflexivity|]. intros; apply H; right; assumption. Qed.
Lemma app_inj_front (a b c : string) : (a ++ b)%string = (a ++ c)%string -> b = c.
Proof. induction a as [|x a IH]; cbn; intros H; [exact H|]. injection H as H. exact (IH H). Qed.
Lemma app_inj_back (c : string) : forall a b, (a ++ c)%string = (b ++ c)%string -> a = b.
Proof.
  assert (L : forall a b, String.length (a ++ b) = (String.length a + String.length b)%nat) by (induction a; intros; cbn; auto).
  induction a as [|x a IH]; intros [|y b] H; cbn in H.
  - reflexivity.
  - exfalso. apply (f_equal String.length) in H. cbn in H. rewrite L in H. lia.
  - exfalso. apply (f_equal String.length) in H. cbn in H. rewrite L in H. lia.
  - injection H as -> H. rewrite (IH b H). reflexivity.
Qed.
Lemma path_inj dir fmt a b : path_for dir fmt a = path_for dir fmt b -> dashes a = dashes b.
Proof. unfold path_for. intros H. apply app_inj_front in H. apply app_inj_front in H. apply app_inj_back in H. exact H. Qed.
(** With distinct file names, the script loads back to the keys in order, and a reader gives for each key the samples and the frequency
    that were last written under it, each sample as [expected]. *)
Theorem C108_read_back : forall wrap chk dflt lossy pipe dir fmt sub d calls w w' o,
  w_open chk dflt dir true fmt (Some sub) " " d = Ok w -> In sub lossless -> writes wrap chk w calls = (w', Ok o) ->
  lstrip dir = dir -> one_line dir -> str_in ":" dir = false -> str_in "[" dir = false -> all_items calls <> [] ->
  (forall it, In it (all_items calls) -> skip_dots (i_key it) <> ""%string /\ str_in ":" (i_key it) = false /\ str_in "[" (i_key it) = false /\ Forall (in_range sub) (snd (fst it))) ->
  (forall a b, In a (all_items calls) -> In b (all_items calls) -> dashes (i_key a) = dashes (i_key b) -> i_key a = i_key b) ->
  exists text s, w_script w' = Some text /\ scp_load text " " ":" = Ok s /\ s_key s = map i_key (all_items calls) /\ s_off s = None /\ s_rng s = None /\
    forall k k' x f, last_such (fun it => String.eqb k (i_key it)) (all_items calls) = Some (k', x, f) ->
      exists y, random_read1 wav_scale (sf_read lossy (w_disk w')) pipe ext_of (combine (s_key s) (s_path s)) None k = Ok (y, f) /\ Forall2 Qeq y (map (expected sub) x).
Proof.
  intros wrap chk dflt lossy pipe dir fmt sub d calls w w' o OP SB WR LD OL D1 D2 NE KS INJ. set (its := all_items calls) in *.
  unfold w_open in OP. fold (good_format fmt) in OP. destruct (good_format fmt) eqn:GF; [|discriminate]. cbn [negb] in OP. destruct (chk fmt sub) eqn:CK; [|discriminate]. cbn [bind] in OP. injection OP as <-.
  assert (DT : exists dt, npdtype sub = Some dt) by (cbn in SB; destruct SB as [<-|[<-|[<-|[<-|[]]]]]; eexists; reflexivity). destruct DT as (dt & DT).
  pose proof (C108_disk wrap chk _ _ _ _ dt (DT : npdtype (w_sub (mk_writer dir fmt sub " " (Some ""%string) d)) = Some dt) WR) as (_ & SC & _ & DK). pose proof (C108_prefix wrap chk _ _ _ _ dt (DT : npdtype (w_sub (mk_writer dir fmt sub " " (Some ""%string) d)) = Some dt) WR) as (n & _ & TK & FN). fold its in SC, DK, TK, FN.
  rewrite (FN _ eq_refl) in TK. cbn [w_dir w_fmt w_sub w_sep w_script option_map append] in *.
  destruct (format_facts _ GF) as (F1 & F2 & F3 & F4 & (F5 & F6) & F7 & F8).
  set (R := map (fun it => (i_key it, i_path dir fmt it, 0, (0, 0)) : frow) its).
  assert (TXT : str_concat (map (i_line dir fmt " ") its) = scp_save (build R false false None) " " ":").
  { rewrite (save_lines " " ":" false false R None). unfold R. rewrite !map_map. f_equal. apply map_ext. intros it. unfold i_line, line, script, otxt, rtxt, sstr. cbn [r_key r_path append].
    rewrite !app_nil_s. rewrite !str_app_assoc. reflexivity. }
  assert (RO : Forall (row_ok " " ":" false false) R).
  { apply Forall_forall. intros r I. apply in_map_iff in I. destruct I as (it & <- & I). destruct (KS it I) as (_ & K1 & K2 & _). rewrite Forall_forall in TK. destruct (TK it I) as [T _].
    destruct (token_one_line _ T) as [O1 O2]. destruct OL as [O3 O4].
    assert (PTH : forall c, c <> "-"%char -> c <> "."%char -> c <> "/"%char -> str_in c dir = false -> str_in c (i_key it) = false -> str_in c fmt = false -> str_in c (i_path dir fmt it) = false).
    { intros c C1 C2 C3 A B C. unfold i_path, path_for. cbn [append]. rewrite !str_in_app, A. cbn [orb]. rewrite str_in_cons, str_in_app, str_in_dashes by assumption. rewrite str_in_cons, C.
      replace (Ascii.eqb "/" c) with false by (symmetry; apply Ascii.eqb_neq; congruence). replace (Ascii.eqb "." c) with false by (symmetry; apply Ascii.eqb_neq; congruence). reflexivity. }
    unfold row_ok, savable, ent. cbn [r_key r_path]. split; [split; assumption|]. split; [split; apply PTH; try assumption; discriminate|].
    split. { unfold is_token in T. apply andb_prop in T. destruct T as [_ T]. apply negb_true_iff in T. exact T. }
    split; [apply PTH; try assumption; discriminate|]. split; [apply PTH; try assumption; discriminate|].
    split; [|split; intros; discriminate]. intros _. unfold i_path, path_for. apply last_ok_app. cbn [append]. change (String "/" (dashes (i_key it) ++ String "." fmt)) with (("/" ++ dashes (i_key it)) ++ ("." ++ fmt))%string.
    apply last_ok_app, last_ok_app. exact F7. }
  assert (RN : R <> []) by (unfold R; destruct its; [congruence|discriminate]).
  pose proof (load_save_rows " " ":" false false ltac:(repeat split; discriminate) R None RN RO) as LS.
  assert (HX : existsb (has_rtxt false) R = false) by (clear; induction R as [|r R IH]; [reflexivity|exact IH]). rewrite HX in LS.
  exists (scp_save (build R false false None) " " ":"), (build R false false None). split; [rewrite SC, TXT; reflexivity|]. split; [exact LS|].
  unfold build at 1 2 3. cbn [s_key s_off s_rng opt_col]. split; [unfold R; rewrite map_map; reflexivity|]. split; [reflexivity|]. split; [reflexivity|].
  intros k k' x f LST. unfold build. cbn [s_key s_path].
  assert (CB : combine (map r_key R) (map r_path R) = map (fun it => (i_key it, i_path dir fmt it)) its).
  { unfold R. rewrite !map_map. clear. induction its as [|it l IH]; [reflexivity|]. cbn [map combine]. f_equal. exact IH. }
  rewrite CB. unfold last_such in LST. pose proof (find_some _ _ LST) as [IL EK]. apply in_rev in IL. apply String.eqb_eq in EK. cbn in EK. subst k'.
  cbn [random_read1]. assert (IB : inb k (map fst (map (fun it => (i_key it, i_path dir fmt it)) its)) = true).
  { apply inb_iff. rewrite map_map. cbn [fst]. apply in_map_iff. exists (k, x, f). split; [reflexivity|exact IL]. }
  rewrite IB. unfold path_of. rewrite <- map_rev, find_map_path, LST. cbn [snd bind].
  unfold read_wavspecifier. rewrite (strip_path dir fmt k GF LD). destruct (KS _ IL) as (SK & _ & _ & RG). cbn [i_key fst snd] in SK, RG.
  destruct (F8 (dir ++ "/" ++ dashes k ++ ".")%string) as (c & LC & NB). rewrite !str_app_assoc in LC. fold (path_for dir fmt k) in LC. rewrite LC.
  replace (Ascii.eqb c "|") with false by (symmetry; apply Ascii.eqb_neq; exact NB). rewrite (ext_path dir fmt k GF SK). unfold good_format in GF.
  replace (existsb (String.eqb ("." ++ fmt)%string) valid_ext) with true by (symmetry; exact GF).
  assert (LP : last_such (at_path dir fmt (path_for dir fmt k)) its = Some (k, x, f)).
  { unfold last_such. rewrite <- LST. apply find_ext_in. intros it I. apply in_rev in I. unfold at_path. destruct (String.eqb_spec k (i_key it)) as [E|N].
    - apply String.eqb_eq. unfold i_path. congruence.
    - apply String.eqb_neq. intros E. apply N. apply (INJ (k, x, f) it IL I). unfold i_path in E. apply path_inj in E. exact E. }
  destruct (DK _ _ _ _ LP) as (ct & AS & DP). destruct (content_read wrap sub x f lossy (w_disk w') _ ct dt SB DT RG AS DP) as (y & SR & FQ).
  rewrite SR. cbn [bind]. eexists. split; [reflexivity|exact FQ].
Qed.
(** Integer samples that fit come back as they were from PCM_16. *)
Theorem C108_pcm16_exact : forall q z, (q == inject_Z z)%Q -> (expected "PCM_16" q == q)%Q.
Proof.
  intros [a b] z H. unfold Qeq in H. cbn in H. rewrite Z.mul_1_r in H. subst a. cbn. unfold trunc. cbn [Qnum Qden].
  rewrite Z.quot_mul by discriminate. unfold Qeq. cbn. lia.
Qed.
(** In the other formats that keep the samples, the samples come back multiplied by another number: integers divided by 65536 in PCM_32,
    and everything multiplied by 32768 in FLOAT and DOUBLE; so that what AudioReader gives cannot be written and read again. *)
Theorem C108_scale_refuted : (forall z, z <> 0 -> ~ (expected "PCM_32" (inject_Z z) == inject_Z z)%Q) /\
  (forall sub q, sub = "FLOAT"%string \/ sub = "DOUBLE"%string -> ~ (q == 0)%Q -> ~ (expected sub q == q)%Q).
Proof.
  split.
  - intros z N H. apply N. cbn in H. unfold trunc in H. cbn [Qnum Qden inject_Z] in H. rewrite Z.quot_1_r in H. unfold Qeq in H. cbn in H. lia.
  - intros sub q S N H. apply N. assert (E : (inject_Z 32768 * q == q)%Q) by (destruct S as [->| ->]; exact H). destruct q as [a b]. unfold Qeq in *. unfold Qmult, inject_Z in *. cbn [Qnum Qden] in *. clear - E. rewrite Pos.mul_1_l in E. nia.
Qed.
(** Samples between -1 and 1, which is what other tools give, become silence in PCM_16. *)
Theorem C108_unit_scale_silent : forall q, (- (1) < q)%Q -> (q < 1)%Q -> expected "PCM_16" q = 0%Q.
Proof.
  intros [a b] H1 H2. cbn. unfold trunc. cbn. replace (a ÷ Z.pos b) with 0; [reflexivity|]. symmetry. unfold Qlt in *. cbn in *.
  destruct (Z.le_gt_cases 0 a) as [P|P]; [apply Z.quot_small; lia|]. replace a with (- (- a)) by lia. rewrite Z.quot_opp_l by discriminate. rewrite Z.quot_small by lia. reflexivity.
Qed.
(** Two keys that differ only in / and - share one file: the second waveform replaces the first. *)
Theorem C108_collision_refuted : forall wrap chk w k1 k2 x1 x2 f w' o dt, npdtype (w_sub w) = Some dt -> k1 <> k2 -> dashes k1 = dashes k2 ->
  writes wrap chk w [([k1; k2], [x1; x2], OneRate f)] = (w', Ok o) ->
  exists c, astype wrap dt x2 = Ok c /\ w_disk w' (path_for (w_dir w) (w_fmt w) k1) = Some (mk_snd (w_sub w) f c).
Proof.
  intros wrap chk w k1 k2 x1 x2 f w' o dt DT _ E H. destruct (C108_disk wrap chk _ _ _ _ dt DT H) as (_ & _ & _ & P). apply (P _ k2).
  cbn. unfold last_such. cbn [rev app find]. unfold at_path, i_path, path_for. cbn [i_key fst]. rewrite E, String.eqb_refl. reflexivity.
Qed.
(** The formats of 8 bits fail at the first recording and leave its file without samples; the one of 24 bits fails without a file. *)
Theorem C108_subtypes_refuted : forall wrap chk w k x f, is_token k = true -> chk (w_fmt w) (w_sub w) = true ->
  (w_sub w = "PCM_U8"%string \/ w_sub w = "PCM_S8"%string -> exists w', write wrap chk w [k] [x] (OneRate f) = (w', Err TypeError) /\
     w_script w' = w_script w /\ w_disk w' (path_for (w_dir w) (w_fmt w) k) = Some (mk_snd (w_sub w) f (Ints 8 []))) /\
  (w_sub w = "PCM_24"%string -> write wrap chk w [k] [x] (OneRate f) = (w, Err TypeError)).
Proof.
  intros wrap chk w k x f T C. split.
  - intros [E|E]; unfold write; rewrite E; cbn; unfold write1; rewrite T; cbn; unfold sf_write; rewrite C; eexists; (split; [reflexivity|]); (split; [reflexivity|]); cbn; unfold store, out_file, path_for; rewrite String.eqb_refl, E; reflexivity.
  - intros E. unfold write. rewrite E. cbn. unfold write1. rewrite T. reflexivity.
Qed.
(** w64 is not a valid audio_format, although it is in the list of extensions (without its dot). *)
Theorem C108_w64_refuted : forall chk dflt dir s sub sep d, w_open chk dflt dir s "w64" sub sep d = Err AssertionError.
Proof. reflexivity. Qed.
(** A key of dots only is written, and its file cannot be read. *)
Lemma dashes_dots k : skip_dots k = ""%string -> dashes k = k.
Proof. induction k as [|x k IH]; [reflexivity|]. cbn [skip_dots dashes]. destruct (Ascii.eqb_spec x ".") as [->|]; [|discriminate]. intros H. rewrite (IH H). reflexivity. Qed.
Theorem C108_dots_refuted : forall sound pipe dir fmt k, good_format fmt = true -> lstrip dir = dir -> skip_dots k = ""%string ->
  read_wavspecifier wav_scale sound pipe ext_of (path_for dir fmt k) = Err BareException.
Proof.
  intros sound pipe dir fmt k G L K. unfold read_wavspecifier. rewrite (strip_path dir fmt k G L).
  destruct (format_facts _ G) as (F1 & F2 & _ & _ & _ & _ & F8). destruct (F8 (dir ++ "/" ++ dashes k ++ ".")%string) as (c & LC & NB). rewrite !str_app_assoc in LC. fold (path_for dir fmt k) in LC. rewrite LC.
  replace (Ascii.eqb c "|") with false by (symmetry; apply Ascii.eqb_neq; exact NB).
  assert (X : ext_of (path_for dir fmt k) = dot_suffix (skip_dots fmt)).
  { unfold ext_of, path_for. cbn [append]. rewrite last_part_app by (rewrite str_in_app, no_slash_dashes, str_in_cons, F2; reflexivity).
    rewrite (dashes_dots k K). clear - K. f_equal. induction k as [|x k IH]; [reflexivity|]. cbn [skip_dots append] in *. destruct (Ascii.eqb x "."); [exact (IH K)|discriminate]. }
  rewrite X. assert (Y : skip_dots fmt = fmt /\ dot_suffix fmt = ""%string).
  { clear - F1 G. split. { destruct fmt as [|x fmt]; [reflexivity|]. rewrite str_in_cons in F1. apply orb_false_iff in F1 as [F1 _]. cbn. rewrite F1. reflexivity. }
    clear G. induction fmt as [|x fmt IH]; [reflexivity|]. rewrite str_in_cons in F1. apply orb_false_iff in F1 as [F1 F2]. cbn. rewrite F1, F2. reflexivity. }
  destruct Y as [-> ->]. reflexivity.
Qed.
(** Waveforms beyond the number of keys are dropped without an error. *)
Theorem C108_extra_data_refuted : forall wrap chk w keys data extra f, (List.length keys <= List.length data)%nat ->
  write wrap chk w keys (data ++ extra) (OneRate f) = write wrap chk w keys data (OneRate f).
Proof.
  intros wrap chk w keys data extra f L. unfold write. destruct (npdtype (w_sub w)) as [dt|]; [|reflexivity].
  assert (P : forall keys i w, (i + List.length keys <= List.length data)%nat -> write_from wrap chk w dt (OneRate f) (data ++ extra) i keys = write_from wrap chk w dt (OneRate f) data i keys).
  { clear. induction keys as [|k keys IH]; intros i w H; [reflexivity|]. cbn [write_from List.length] in *. unfold write1.
    rewrite nth_error_app1 by lia. destruct (is_token k); [|reflexivity]. cbn [negb rate_at]. destruct (nth_error data i); [|reflexivity]. destruct (astype wrap dt _); [|reflexivity].
    destruct (sf_write chk w _ _ f) as [w1 [u|e]]; [|reflexivity]. apply IH. lia. }
  apply P. exact L.
Qed.
(** A script with another separator does not load in the readers. *)
Theorem C108_separator_refuted : forall sep dir fmt it, str_in " " (i_line dir fmt sep it) = false -> one_line (i_key it ++ sep ++ i_path dir fmt it) ->
  last_ok is_space (i_key it ++ sep ++ i_path dir fmt it) = true -> scp_load (i_line dir fmt sep it) " " ":" = Err IndexError.
Proof.
  intros sep dir fmt it NS OL LO. unfold scp_load. replace (i_line dir fmt sep it) with (str_concat (map (fun l => l ++ nl_str)%string [(i_key it ++ sep ++ i_path dir fmt it)%string])).
  2:{ cbn [map str_concat]. rewrite app_nil_s. unfold i_line. rewrite !str_app_assoc. reflexivity. }
  rewrite py_lines_concat by (constructor; [exact OL|constructor]). cbn [map]. unfold rstrip. rewrite rstrip_if_last by exact LO.
  rewrite split1_none. { reflexivity. }
  unfold i_line in NS. rewrite <- !str_app_assoc in NS. rewrite <- !str_app_assoc. rewrite str_in_app in NS. apply orb_false_iff in NS. apply NS.
Qed.
Example C108_witness : exists w w' o, let chk := fun _ _ => true in let wrap := fun _ _ => 0 in
  let calls := [(["a"; "b/c"], [[(3#1)%Q; (-5#1)%Q]; [(7#1)%Q]], RateList [8000; 16000])]%string in
  w_open chk (fun _ => Ok "PCM_16"%string) "/d" true "wav" (Some "PCM_16"%string) " " (fun _ => None) = Ok w /\
  writes wrap chk w calls = (w', Ok o) /\ w_script w' = Some ("a /d/a.wav" ++ nl_str ++ "b/c /d/b-c.wav" ++ nl_str)%string /\
  random_read1 wav_scale (sf_read (fun _ => []) (w_disk w')) (fun _ => Err RuntimeErr) ext_of [("a", "/d/a.wav"); ("b/c", "/d/b-c.wav")]%string None "b/c" = Ok ([(229376 # 32768)%Q], 16000).
Proof. eexists. eexists. eexists. cbn zeta. split; [reflexivity|]. split; [vm_compute; reflexivity|]. split; vm_compute; reflexivity. Qed.
Print Assumptions C108_read_back.
Print Assumptions C108_prefix.
Print Assumptions C108_dots_refuted.
