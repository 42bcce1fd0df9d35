(** Properties C19-C22: Kaldi archives written by ArkDataWriter and read by the sequential and
    random-access readers, directly or through a script (scp) file.

    [value dec d] is the array a stored record stands for ([dec] decodes compressed values);
    [rows_of m r n m'] says that m' is rows r .. r+n-1 of m (rows r .. if n = 0; m itself if
    r = n = 0). *)
From Verif Require Import Base BaseFacts ListUtils ListUtilsProofs Str StrFacts Scp ScpProofs ScpHist ScpSplit ScpRound.
From Verif Require Import Bytes Kaldi KaldiProofs KaldiMatProofs KaldiCompProofs KaldiKeeps Ark ArkProofs ArkScript ArkHist.
Open Scope list_scope.
Open Scope Z_scope.

(** ** Specification *)

(** A sequence of read calls with arguments Ns (for the sequential readers: how many records,
    0 meaning all that are left; for the random access reader: a list of keys). *)
Fixpoint read_calls {R A X} (rd : R -> A -> res (list X * R)) (r : R) (Ns : list A) : res (list (list X) * R) :=
  match Ns with
  | [] => Ok ([], r)
  | N :: Ns' => '(l, r) <- rd r N ;; '(ls, r) <- read_calls rd r Ns' ;; Ok (l :: ls, r)
  end.

(** What such a sequence must return, for the records [recs]. *)
Fixpoint batches {X} (Ns : list Z) (recs : list X) : list (list X) :=
  match Ns with
  | [] => []
  | N :: Ns' => let k := if N =? 0 then len recs else Z.to_nat N in
                firstn k recs :: batches Ns' (skipn k recs)
  end.

(** [batches] loses and reorders nothing. *)
Lemma batches_prefix {X} Ns : forall recs : list X, exists left, concat (batches Ns recs) ++ left = recs.
Proof.
  induction Ns as [|N Ns IH]; intros recs; [exists recs; reflexivity|].
  cbn [batches concat]. set (k := if N =? 0 then len recs else Z.to_nat N).
  destruct (IH (skipn k recs)) as (l & E). exists l. rewrite <- app_assoc, E. apply firstn_skipn.
Qed.

(** What the writer stores for one record of the caller, and what must be read back. *)
Definition written_as (cfg : wcfg) (dec : decoder) (a : wdata) (m : km) : Prop :=
  exists d, convert_data cfg a = Ok d /\ value dec d = Ok m.

(** The (possibly compressed) data fits the format: dimensions below 2^31, etc. *)
Definition data_ok (cfg : wcfg) (recs : list (string * wdata)) : Prop :=
  forall k d d', In (k, d) recs -> convert_data cfg d = Ok d' -> stored_ok d'.

(** ** C19 *)

Lemma Forall_firstn' {A} (P : A -> Prop) l n : Forall P l -> Forall P (firstn n l).
Proof. apply Forall_firstn. Qed.

Lemma is_archive_split recs bytes k : is_archive recs bytes ->
  exists b1 b2, bytes = b1 ++ b2 /\ is_archive (firstn k recs) b1 /\ is_archive (skipn k recs) b2.
Proof.
  intros H. revert k. induction H as [|key d bs recs bytes K S W A IH]; intros k.
  - exists [], []. rewrite firstn_nil, skipn_nil. repeat split; constructor.
  - destruct k as [|k].
    + exists [], (frame key bs ++ bytes). split; [reflexivity|]. split; constructor; auto.
    + destruct (IH k) as (b1 & b2 & -> & A1 & A2). exists (frame key bs ++ b1), b2.
      split; [rewrite <- app_assoc; reflexivity|]. split; [constructor; auto|exact A2].
Qed.

Lemma aseq_read_keeps dec x N r n l0 y0 : aseq_read dec x N r n = Ok (l0, y0) -> f_bytes (a_f y0) = f_bytes (a_f x).
Proof.
  intros E. unfold aseq_read in E.
    match type of E with bind ?q _ = _ => destruct q as [[l y]|] eqn:Q; [|discriminate] end.
    cbn [bind] in E. injection E as _ <-. cbn [a_f].
    revert Q. generalize (S (len (rest (a_f x)))) as fu. intros fu.
    generalize (@nil (string * km)) as acc. generalize false as b. generalize (a_f x) as f.
    match goal with |- context [aseq_loop _ _ _ _ ?l _ _ _] => generalize l as left end.
    induction fu as [|fu IHf]; intros left f b acc Q.
    - destruct left as [[|q]|]; cbn [aseq_loop] in Q; try discriminate. injection Q as _ <-. reflexivity.
    - assert (Q' : (left = Some 0%nat /\ y = mk_aseq f false) \/
         ('(key, f) <- read_token f b ;;
          (if String.eqb key "" then Ok (acc, mk_aseq f true)
           else '(binary, f) <- init_kaldi_input_stream f ;;
           '(data, f) <- km_read_b dec binary f r n true ;;
           _ <- assert ((n =? 0) || (shape0 (k_shape data) =? n)) ;;
           aseq_loop fu dec f binary (option_map pred left) r n (acc ++ [(key, data)]))) = Ok (l, y)).
      { destruct left as [[|q]|]; cbn [aseq_loop] in Q; [left; split; congruence|right; exact Q|right; exact Q]. }
      destruct Q' as [(_ & ->)|Q']; [reflexivity|]. clear Q.
      destruct (read_token f b) as [[key f1]|] eqn:E1; [|discriminate]. cbn [bind] in Q'. apply read_token_keeps in E1.
      destruct (String.eqb key ""); [injection Q' as _ <-; exact E1|].
      destruct (init_kaldi_input_stream f1) as [[b2 f2]|] eqn:E2; [|discriminate]. cbn [bind] in Q'. apply init_stream_keeps in E2.
      destruct (km_read_b dec b2 f2 r n true) as [[dt f3]|] eqn:E3; [|discriminate]. cbn [bind] in Q'.
      destruct b2; [|discriminate]. cbn [km_read_b] in E3. apply km_read_keeps in E3.
      destruct (assert _); [|discriminate]. cbn [bind] in Q'. apply IHf in Q'. congruence.
Qed.

Lemma read_calls_ok dec r n Ns : forall recs bytes x,
  is_archive recs bytes -> Forall (readable dec r n) recs -> rest (a_f x) = bytes ->
  Forall (fun N => 0 <= N) Ns ->
  exists outs x', read_calls (fun x N => aseq_read dec x N r n) x Ns = Ok (outs, x') /\
    Forall2 (Forall2 (reads_as dec r n)) (batches Ns recs) outs /\
    f_bytes (a_f x') = f_bytes (a_f x) /\
    (a_eof x' = true <-> a_eof x = true \/ In 0 Ns \/ Z.of_nat (len recs) < fold_right Z.add 0 Ns).
Proof.
  induction Ns as [|N Ns IH]; intros recs bytes x A Hr R HN.
  - exists [], x. split; [reflexivity|]. split; [constructor|]. split; [reflexivity|].
    cbn [fold_right In]. split; [auto|]. intros [H|[[]|H]]; [exact H|lia].
  - assert (HN1 : 0 <= N) by exact (Forall_inv HN). assert (HN2 := Forall_inv_tail HN). cbn [read_calls batches fold_right].
    assert (NNs : 0 <= fold_right Z.add 0 Ns).
    { clear - HN2. induction Ns; cbn [fold_right]; [lia|]. inversion HN2; subst. specialize (IHNs H2). lia. }
    set (k := if N =? 0 then len recs else Z.to_nat N).
    destruct (Z.eq_dec N 0) as [Z0|NZ].
    2: destruct (Z_lt_le_dec (Z.of_nat (len recs)) N) as [Big|Small].
    + (* everything *)
      destruct (aseq_read_end dec x recs _ N r n A Hr R (or_introl Z0)) as (outs & f' & E & F & R').
      rewrite E. cbn [bind].
      assert (FB : f_bytes f' = f_bytes (a_f x)).
      { change f' with (a_f (mk_aseq f' true)). eapply aseq_read_keeps. exact E. }
      destruct (IH [] [] (mk_aseq f' true) arch_nil (Forall_nil _)) as (outs2 & x' & E2 & F2 & FB2 & EO).
      { exact R'. }
      { exact HN2. }
      rewrite E2. cbn [bind]. eexists. eexists. split; [reflexivity|].
      assert (k = len recs) by (unfold k; rewrite Z0; reflexivity).
      rewrite H, firstn_all, skipn_all. split; [constructor; assumption|]. split; [cbn [a_f] in FB2; congruence|].
      rewrite EO. cbn [a_eof In]. split; intros; [right; left; left; exact Z0|left; reflexivity].
    + (* more than there are *)
      destruct (aseq_read_end dec x recs _ N r n A Hr R (or_intror Big)) as (outs & f' & E & F & R').
      rewrite E. cbn [bind].
      assert (FB : f_bytes f' = f_bytes (a_f x)).
      { change f' with (a_f (mk_aseq f' true)). eapply aseq_read_keeps. exact E. }
      destruct (IH [] [] (mk_aseq f' true) arch_nil (Forall_nil _)) as (outs2 & x' & E2 & F2 & FB2 & EO).
      { exact R'. }
      { exact HN2. }
      rewrite E2. cbn [bind]. eexists. eexists. split; [reflexivity|].
      assert (Hk : (len recs <= k)%nat) by (unfold k; destruct (Z.eqb_spec N 0); lia).
      rewrite (firstn_all2 recs Hk), (skipn_all2 recs Hk). split; [constructor; assumption|]. split; [cbn [a_f] in FB2; congruence|].
      rewrite EO. cbn [a_eof In]. split; intros; [right; right; lia|left; reflexivity].
    + (* k <= len recs, k > 0 *)
      assert (Ek : k = Z.to_nat N) by (unfold k; destruct (Z.eqb_spec N 0); [contradiction|reflexivity]). clearbody k.
      destruct (is_archive_split recs _ k A) as (b1 & b2 & Eb & A1 & A2).
      assert (L1 : len (firstn k recs) = k) by (rewrite firstn_length; lia).
      destruct (aseq_read_exact dec x (firstn k recs) b1 b2 r n A1 (Forall_firstn _ _ _ Hr)) as (outs & f' & E & F & Ad).
      { rewrite R. exact Eb. }
      { intros Q. rewrite Q in L1. cbn in L1. lia. }
      rewrite L1 in E. replace (Z.of_nat k) with N in E by lia. rewrite E. cbn [bind].
      destruct (IH (skipn k recs) b2 (mk_aseq f' (a_eof x)) A2 (Forall_skipn _ _ _ Hr)) as (outs2 & x' & E2 & F2 & FB2 & EO).
      { cbn [a_f]. eapply adv_rest_app; [exact Ad|]. rewrite R. exact Eb. }
      { exact HN2. }
      rewrite E2. cbn [bind]. eexists. eexists. split; [reflexivity|]. split; [constructor; assumption|].
      destruct Ad as (Ad & _). split; [cbn [a_f] in FB2; congruence|].
      rewrite EO. cbn [a_eof In]. rewrite skipn_length.
      split; intros [H|[H|H]]; auto; [right; right; lia|destruct H; [contradiction|auto]|right; right; lia].
Qed.

Lemma Forall2_len {A B} (P : A -> B -> Prop) l l' : Forall2 P l l' -> len l = len l'.
Proof. induction 1; cbn; congruence. Qed.

Lemma conv_batches cfg dec Ns : forall recs recs' outs, converted cfg recs recs' ->
  Forall2 (Forall2 (reads_as dec 0 0)) (batches Ns recs') outs ->
  Forall2 (Forall2 (fun a b => fst b = fst a /\ written_as cfg dec (snd a) (snd b))) (batches Ns recs) outs.
Proof.
  induction Ns as [|N Ns IH]; intros recs recs' outs C H; cbn [batches] in *; [inversion H; constructor|].
  assert (L : len recs' = len recs) by (symmetry; eapply Forall2_len; exact C).
  rewrite L in H. set (k := if N =? 0 then len recs else Z.to_nat N) in *. clearbody k.
  inversion H as [|? o ? outs' H1 H2]; subst. constructor.
  - assert (C1 : converted cfg (firstn k recs) (firstn k recs')).
    { clear - C. revert recs recs' C. induction k; intros recs recs' C; [constructor|].
      inversion C; subst; [constructor|]. cbn [firstn]. constructor; [assumption|apply IHk; assumption]. }
    clear - C1 H1. revert C1 o H1. generalize (firstn k recs) as l, (firstn k recs') as l'.
    induction 1 as [|a b l l' (Hk & Hc) Hl IH]; intros o H; inversion H as [|? y ? o' (Y1 & m & V & RO) Ho]; subst; constructor.
    + split; [congruence|]. exists (snd b). split; [exact Hc|].
      destruct RO as [(_ & _ & ->)|(Q & _)]; [exact V|exfalso; apply Q; split; reflexivity].
    + apply IH. exact Ho.
  - eapply IH; [|exact H2]. clear - C. revert recs recs' C. induction k; intros recs recs' C; [exact C|].
    inversion C; subst; [constructor|]. cbn [skipn]. apply IHk. assumption.
Qed.

(** Write any sequence of records with any grouping in write calls, then read with any sequence
    of read calls: the records come back in order, batch by batch; the end-of-file flag is set
    exactly when more was asked for than there was. *)
Theorem C19_sequential : forall cfg dec calls st Ns buf,
  ark_writes cfg wst0 calls = Ok st -> data_ok cfg (concat calls) -> Forall (fun N => 0 <= N) Ns ->
  exists outs x',
    read_calls (fun x N => aseq_read dec x N 0 0) (aseq_open (w_ark st) buf) Ns = Ok (outs, x') /\
    Forall2 (Forall2 (fun a b => fst b = fst a /\ written_as cfg dec (snd a) (snd b)))
      (batches Ns (concat calls)) outs /\
    (a_eof x' = true <-> In 0 Ns \/ Z.of_nat (len (concat calls)) < fold_right Z.add 0 Ns) /\
    (* reset starts again from the first record *)
    rest (a_f (aseq_reset x')) = w_ark st.
Proof.
  intros cfg dec calls st Ns buf W D HN. rewrite ark_writes_concat in W.
  destruct (ark_write_archive cfg _ _ _ W D) as (recs' & bytes & C & A & E). cbn [w_ark wst0 app] in E.
  assert (RD : Forall (readable dec 0 0) recs').
  { apply Forall_forall. intros a _ m _. left. auto. }
  destruct (read_calls_ok dec 0 0 Ns recs' bytes (aseq_open (w_ark st) buf) A RD) as (outs & x' & E1 & F & FB & EO).
  { rewrite E. reflexivity. }
  { exact HN. }
  exists outs, x'. split; [exact E1|]. split; [eapply conv_batches; eauto|]. split.
  - rewrite EO. rewrite <- (Forall2_len _ _ _ C). cbn [a_eof aseq_open]. split; [intros [H|H]; [discriminate|exact H]|auto].
  - unfold aseq_reset, rest. cbn [a_f goto f_pos f_bytes skipn]. exact FB.
Qed.
Print Assumptions C19_sequential.

(** The same with a row range asked of every record. *)
Theorem C19_row_range : forall cfg dec calls st Ns buf r n,
  ark_writes cfg wst0 calls = Ok st -> data_ok cfg (concat calls) -> Forall (fun N => 0 <= N) Ns ->
  (forall k d m, In (k, d) (concat calls) -> written_as cfg dec d m -> rows_ok m r n) ->
  exists recs outs x',
    converted cfg (concat calls) recs /\
    read_calls (fun x N => aseq_read dec x N r n) (aseq_open (w_ark st) buf) Ns = Ok (outs, x') /\
    Forall2 (Forall2 (fun a b => fst b = fst a /\ exists m, value dec (snd a) = Ok m /\ rows_of m r n (snd b)))
      (batches Ns recs) outs.
Proof.
  intros cfg dec calls st Ns buf r n W D HN HR. rewrite ark_writes_concat in W.
  destruct (ark_write_archive cfg _ _ _ W D) as (recs' & bytes & C & A & E). cbn [w_ark wst0 app] in E.
  assert (RD : Forall (readable dec r n) recs').
  { clear - HR C. induction C as [|(k, d) (k', d') l l' (H1 & H2) Hl IH]; constructor.
    - intros m V. cbn in *. apply (HR k d m); [left; reflexivity|]. exists d'. auto.
    - apply IH. intros k0 d0 m Hin. apply (HR k0 d0 m). right. exact Hin. }
  destruct (read_calls_ok dec r n Ns recs' bytes (aseq_open (w_ark st) buf) A RD) as (outs & x' & E1 & F & FB & EO).
  { rewrite E. reflexivity. }
  { exact HN. }
  exists recs', outs, x'. split; [exact C|]. split; [exact E1|]. exact F.
Qed.
Print Assumptions C19_row_range.

(** Crash of the writer: whatever follows the complete records (for instance the beginning of a
    record cut at any byte), the complete records can still be read. *)
Theorem C19_crash : forall cfg dec calls st post buf,
  ark_writes cfg wst0 calls = Ok st -> data_ok cfg (concat calls) -> concat calls <> [] ->
  exists outs x',
    aseq_read dec (aseq_open (w_ark st ++ post) buf) (Z.of_nat (len (concat calls))) 0 0 = Ok (outs, x') /\
    Forall2 (fun a b => fst b = fst a /\ written_as cfg dec (snd a) (snd b)) (concat calls) outs.
Proof.
  intros cfg dec calls st post buf W D NE. rewrite ark_writes_concat in W.
  destruct (ark_write_archive cfg _ _ _ W D) as (recs' & bytes & C & A & E). cbn [w_ark wst0 app] in E.
  assert (RD : Forall (readable dec 0 0) recs').
  { apply Forall_forall. intros a _ m _. left. auto. }
  destruct (aseq_read_exact dec (aseq_open (w_ark st ++ post) buf) recs' bytes post 0 0 A RD) as (outs & f' & E1 & F & _).
  { rewrite E. reflexivity. }
  { intros ->. apply Forall2_len in C. destruct (concat calls); [congruence|discriminate]. }
  rewrite <- (Forall2_len _ _ _ C) in E1. exists outs. eexists. split; [exact E1|].
  pose proof (conv_batches cfg dec [0] (concat calls) recs' [outs] C) as Q. cbn [batches Z.eqb] in Q.
  rewrite !firstn_all in Q. specialize (Q (Forall2_cons _ _ F (Forall2_nil _))). inversion Q; subst. assumption.
Qed.
Print Assumptions C19_crash.

(** Example: two records in two write calls; reads of 1, 1 and 1. *)
Definition cfg0 : wcfg := mk_wcfg "a.ark" " " false (fun _ => Err ValueError) (fun _ => Err ValueError).
Definition m1 : km := mk_km F32 (Mat 2 1) [le_bytes 4 1; le_bytes 4 2].
Definition m2 : km := mk_km F32 (Vec 1) [le_bytes 4 3].
Example C19_witness : forall dec,
  exists st, ark_writes cfg0 wst0 [[("u1", Raw m1)]; [("u2", Raw m2)]]%string = Ok st /\
    data_ok cfg0 [("u1", Raw m1); ("u2", Raw m2)]%string /\
    exists x', read_calls (fun x N => aseq_read dec x N 0 0) (aseq_open (w_ark st) (fun _ => 0%nat)) [1; 1; 1]
      = Ok ([[("u1", m1)]; [("u2", m2)]; []]%string, x').
Proof.
  intros dec. eexists. split; [vm_compute; reflexivity|]. split.
  - intros k d d' [H|[H|[]]]; injection H as <- <-; cbn; intros H; injection H as <-;
      (split; [cbn; lia|split; [cbn; lia|split; [reflexivity|repeat constructor]]]).
  - eexists. vm_compute. reflexivity.
Qed.

(** ** C20 *)

(** The last record written under key [k]. *)
Definition last_written (recs : list (string * wdata)) (k : string) (a : wdata) : Prop :=
  exists i, nth_error recs i = Some (k, a) /\
    forall j k' a', (i < j)%nat -> nth_error recs j = Some (k', a') -> k' <> k.

(** With distinct keys: the record written under key [k]. *)
Lemma last_written_distinct recs k a : NoDup (map fst recs) -> In (k, a) recs -> last_written recs k a.
Proof.
  intros ND Hin. apply In_nth_error in Hin. destruct Hin as (i & N). exists i. split; [exact N|].
  intros j k' a' Hj Nj ->.
  assert (E1 : nth_error (map fst recs) i = Some k) by (rewrite nth_error_map, N; reflexivity).
  assert (E2 : nth_error (map fst recs) j = Some k) by (rewrite nth_error_map, Nj; reflexivity).
  assert (i = j); [|lia]. eapply NoDup_nth_error; [exact ND| |congruence].
  apply nth_error_Some. congruence.
Qed.

Lemma last_written_ex recs k : In k (map fst recs) -> exists a, last_written recs k a.
Proof.
  induction recs as [|(k0, a0) recs IH] using rev_ind; [intros []|].
  intros H. destruct (string_dec k0 k) as [->|Ne].
  - exists a0, (len recs). split; [rewrite nth_error_app2, Nat.sub_diag by lia; reflexivity|].
    intros j k' a' Hj Nj. assert (j < len (recs ++ [(k, a0)]))%nat by (apply nth_error_Some; congruence).
    rewrite app_length in H0. cbn in H0. lia.
  - rewrite map_app, in_app_iff in H. destruct H as [H|[H|[]]]; [|cbn in H; congruence].
    destruct (IH H) as (a & i & N & L). exists a, i.
    assert (i < len recs)%nat by (apply nth_error_Some; congruence).
    split; [rewrite nth_error_app1 by lia; exact N|].
    intros j k' a' Hj Nj. destruct (Nat.lt_ge_cases j (len recs)) as [Q|Q].
    + rewrite nth_error_app1 in Nj by exact Q. eapply L; eauto.
    + rewrite nth_error_app2 in Nj by exact Q. destruct (j - len recs)%nat as [|q]; [injection Nj as <- <-; congruence|].
      destruct q; discriminate.
Qed.

Lemma last_transfer cfg ark recs R k a : Forall2 (indexed cfg ark) recs R -> last_written recs k a ->
  exists row, last_at (map (ent true false) R) k (ent true false row) /\ indexed cfg ark (k, a) row.
Proof.
  intros F (i & N & L).
  assert (G : forall l l' i x, Forall2 (indexed cfg ark) l l' -> nth_error l i = Some x -> exists y, nth_error l' i = Some y /\ indexed cfg ark x y).
  { clear. intros l l' i x F. revert i. induction F as [|b c l l' H F IH]; intros i N; [destruct i; discriminate|].
    destruct i; [injection N as <-; exists c; auto|]. apply (IH _ N). }
  assert (G' : forall l l' i y, Forall2 (indexed cfg ark) l l' -> nth_error l' i = Some y -> exists x, nth_error l i = Some x /\ indexed cfg ark x y).
  { clear. intros l l' i x F. revert i. induction F as [|b c l l' H F IH]; intros i N; [destruct i; discriminate|].
    destruct i; [injection N as <-; exists b; auto|]. apply (IH _ N). }
  destruct (G _ _ _ _ F N) as (row & Nr & IX). exists row. split; [|exact IX].
  exists i. split; [rewrite nth_error_map, Nr; reflexivity|]. split; [apply IX|].
  intros j e' Hj Nj. rewrite nth_error_map in Nj. destruct (nth_error R j) as [rj|] eqn:Ej; [|discriminate].
  cbn [option_map] in Nj. injection Nj as <-. destruct (G' _ _ _ _ F Ej) as ((k', a') & N' & IX').
  cbn. destruct IX' as (-> & _). cbn. eapply L; eauto.
Qed.

Lemma app_inv_length {A} (a b c e : list A) : a ++ b = c ++ e -> len a = len c -> a = c /\ b = e.
Proof.
  revert c. induction a as [|x a IH]; intros [|y c] H L; try discriminate; [auto|].
  cbn in *. injection H as -> H. destruct (IH c H ltac:(lia)) as (-> & ->). auto.
Qed.

Lemma last_at_unique es k e1 e2 : last_at es k e1 -> last_at es k e2 -> e1 = e2.
Proof.
  intros (i1 & N1 & K1 & L1) (i2 & N2 & K2 & L2).
  destruct (Nat.lt_trichotomy i1 i2) as [H|[H|H]].
  - exfalso. exact (L1 i2 e2 H N2 K2).
  - subst. congruence.
  - exfalso. exact (L2 i1 e1 H N1 K1).
Qed.

Lemma combine_none r n : combine_ranges None r n = Ok (r, n). Proof. reflexivity. Qed.

Lemma r_state_new d s perm : cache_ok s -> r_state d s perm (rreader_new s perm).
Proof.
  intros C. constructor; cbn; [intros p f H; discriminate|reflexivity|repeat split|exact C].
Qed.

(** One read request: keys, row offsets, numbers of rows. *)
Notation request := (list string * zarg * zarg)%type.
Definition req_ok (q : request) : Prop :=
  let '(ks, ra, na) := q in zarg_len_ok ra (len ks) = true /\ zarg_len_ok na (len ks) = true.

(** What the request must return: for the i-th key the asked rows of the last record written
    under that key, or an empty array if the key is not there. *)
Definition answers (cfg : wcfg) (dec : decoder) (recs : list (string * wdata)) (q : request) (out : list km) : Prop :=
  let '(ks, ra, na) := q in
  len out = len ks /\
  forall i k x, nth_error ks i = Some k -> nth_error out i = Some x ->
    (forall a, last_written recs k a ->
       exists m, written_as cfg dec a m /\ rows_of m (zarg_nth ra i) (zarg_nth na i) x) /\
    (~ In k (map fst recs) -> x = empty_array).

(** The rows asked for exist. *)
Definition rows_exist (cfg : wcfg) (dec : decoder) (recs : list (string * wdata)) (q : request) : Prop :=
  let '(ks, ra, na) := q in
  forall i k a m, nth_error ks i = Some k -> last_written recs k a -> written_as cfg dec a m ->
    rows_ok m (zarg_nth ra i) (zarg_nth na i).

Definition r_request dec d (r : rreader) (q : request) : res (list km * rreader) :=
  let '(ks, ra, na) := q in r_read dec d r ks ra na.

(** Write any records with any grouping, load the script, then make any sequence of requests. *)
Theorem C20_random_access : forall cfg dec calls st d,
  let recs := concat calls in
  ark_writes cfg wst0 calls = Ok st -> data_ok cfg recs -> recs <> [] -> script_ok cfg (map fst recs) ->
  d_bytes d (w_path cfg) = Some (w_ark st) ->
  exists s, scp_load (w_scp st) (w_sep cfg) ":" = Ok s /\
    forall perm qs, Forall req_ok qs -> Forall (rows_exist cfg dec recs) qs ->
      (* every key is there, or the reader is permissive *)
      (perm = true \/ (forall ks ra na k, In (ks, ra, na) qs -> In k ks -> In k (map fst recs)) ->
       exists outs r', read_calls (r_request dec d) (rreader_new s perm) qs = Ok (outs, r') /\
         Forall2 (answers cfg dec recs) qs outs) /\
      (* a key that is not there is an error otherwise *)
      (perm = false -> (exists ks ra na k, In (ks, ra, na) qs /\ In k ks /\ ~ In k (map fst recs)) ->
       read_calls (r_request dec d) (rreader_new s perm) qs = Err BareException).
Proof.
  intros cfg dec calls st d recs W D NE SO DB. rewrite ark_writes_concat in W. fold recs in W.
  destruct (ark_write_load cfg recs st W NE D SO) as (R & EL & FR).
  exists (build R true false None). split; [exact EL|].
  set (s := build R true false None). set (es := map (ent true false) R).
  assert (V : valid s) by apply build_valid.
  assert (Es : elements s = Ok es) by apply elements_build.
  assert (SK : s_key s = map fst recs).
  { unfold s. cbn [s_key build]. clear - FR. induction FR as [|a b l l' H F IH]; [reflexivity|].
    cbn [map]. rewrite IH. destruct H as (-> & _). reflexivity. }
  assert (VAL : forall k a, last_written recs k a -> exists d' m, convert_data cfg a = Ok d' /\ value dec d' = Ok m).
  { intros k a LW. destruct (last_transfer _ _ _ _ _ _ FR LW) as (row & _ & _ & _ & _ & _ & _ & d' & bs & pre & post & C & S & _).
    cbn [snd] in C. destruct (value_ok dec d' S) as (m & Vm & _). exists d', m. auto. }
  assert (SV : forall q, rows_exist cfg dec recs q -> let '(ks, ra, na) := q in
     forall j k, nth_error ks j = Some k ->
     (exists e, last_at es k e /\ servable dec d e (zarg_nth ra j) (zarg_nth na j)) \/ ~ In k (s_key s)).
  { intros ((ks, ra), na) RE j k Hj. destruct (in_dec string_dec k (s_key s)) as [I|NI]; [left|right; exact NI].
    rewrite SK in I. destruct (last_written_ex recs k I) as (a & LW). destruct (VAL k a LW) as (d' & m & C & Vm).
    destruct (last_transfer _ _ _ _ _ _ FR LW) as (row & LA & IX). exists (ent true false row). split; [exact LA|].
    exists m, (zarg_nth ra j), (zarg_nth na j). split; [|split; [apply combine_none|]].
    - eapply indexed_stored; eauto.
    - eapply RE; eauto. exists d'. auto. }
  intros perm qs RQ RE.
  assert (ST : forall q r, rows_exist cfg dec recs q -> req_ok q -> r_state d s perm r ->
     (perm = true \/ forall k, In k (fst (fst q)) -> In k (map fst recs)) ->
     exists out r', r_request dec d r q = Ok (out, r') /\ r_state d s perm r' /\ answers cfg dec recs q out).
  { intros ((ks, ra), na) r REq (L1 & L2) RS HP. cbn [fst] in HP.
    unfold r_request, r_read. rewrite L1, L2. cbn [assert bind].
    destruct (r_read_loop_ok dec d s es perm ra na (len ks) V Es L1 L2 ks 0 r RS (le_n _)) as (outs & r' & E & RS' & L & KR).
    { intros j k Hj. cbn [Nat.add]. destruct (SV _ REq j k Hj) as [Q|Q]; [left; exact Q|]. right. split; [exact Q|].
      destruct HP as [HP|HP]; [exact HP|]. exfalso. apply Q. rewrite SK. apply HP. eapply nth_error_In; eauto. }
    exists outs, r'. split; [exact E|]. split; [exact RS'|]. split; [exact L|].
    intros i k x Hk Hx. specialize (KR i k x Hk Hx). cbn [Nat.add] in KR. split.
    - intros a LW. destruct (VAL k a LW) as (d' & m & C & Vm).
      destruct (last_transfer _ _ _ _ _ _ FR LW) as (row & LA & IX).
      assert (LV : line_value dec d (ent true false row) m) by (eapply indexed_stored; eauto).
      destruct KR as [(e & LA' & m2 & ro & nr & LV2 & CR & RW)|(NI & _)].
      + assert (e = ent true false row) by (eapply last_at_unique; eauto). subst e.
        cbn [ent snd] in CR. rewrite combine_none in CR. injection CR as <- <-.
        assert (m2 = m).
        { destruct IX as (_ & P & _ & _ & _ & d2 & bs & pre & post & C2 & S2 & B2 & EB & LB).
          cbn [snd] in C2. assert (d2 = d') by congruence. subst d2.
          destruct LV2 as (off & dat & EO & (pre2 & bs2 & post2 & H2 & LP & S3 & B3) & V2).
          cbn [ent fst snd] in EO, H2. injection EO as <-. rewrite P, DB in H2.
          assert (H2' : w_ark st = pre2 ++ marker ++ bs2 ++ post2) by congruence. clear H2. rename H2' into H2.
          rewrite EB in H2. apply app_inv_length in H2; [|lia]. destruct H2 as (_ & H2).
          apply app_inv_head in H2. cbn [snd] in *.
          assert (RD : forall x y mx bx by', stored_ok x -> write_data x = Ok bx -> value dec x = Ok mx -> bx ++ by' = y ->
             exists f' : file, km_read_b dec true (open_file y (fun _ => 0%nat)) 0 0 true = Ok (mx, f')).
          { clear. intros x y mx bx by' S B Vx Ey.
            destruct (read_stored dec x bx (open_file y (fun _ => 0%nat)) by' 0 0 true mx S B) as (m' & f2 & E2 & RO & _).
            - rewrite <- Ey. reflexivity.
            - exact Vx.
            - left. auto.
            - destruct RO as [(_ & _ & ->)|(Q & _)]; [|exfalso; apply Q; auto]. exists f2. exact E2. }
          destruct (RD d' (bs ++ post) m bs post S2 B2 Vm eq_refl) as (f1 & E1).
          destruct (RD dat (bs ++ post) m2 bs2 post2 S3 B3 V2 (eq_sym H2)) as (f2 & E2). congruence. }
        subst m2. exists m. split; [exists d'; auto|exact RW].
      + exfalso. apply NI. rewrite SK. destruct LW as (i0 & N0 & _). change k with (fst (k, a)). apply in_map. eapply nth_error_In; eauto.
    - intros NI. destruct KR as [(e & LA' & _)|(_ & Q)]; [|exact Q].
      exfalso. apply NI. rewrite <- SK. destruct LA' as (i0 & N0 & K0 & _). unfold es in N0. rewrite nth_error_map in N0.
      destruct (nth_error R i0) as [row|] eqn:N1; [|discriminate]. cbn [option_map] in N0. injection N0 as <-.
      cbn in K0. subst k. unfold s. cbn [s_key build]. apply in_map. eapply nth_error_In; eauto. }
  assert (CS : cache_ok s) by (left; reflexivity).
  pose proof (r_state_new d s perm CS) as RS0. revert RS0. generalize (rreader_new s perm) as r. intros r RS0.
  split.
  - revert r RS0. induction qs as [|q qs IH]; intros r RS HP; [exists [], r; split; [reflexivity|constructor]|].
    cbn [read_calls].
    destruct (ST q r (Forall_inv RE) (Forall_inv RQ) RS) as (out & r1 & E & RS1 & AN).
    { destruct HP as [HP|HP]; [left; exact HP|right]. destruct q as ((ks, ra), na). intros k. apply (HP ks ra na k (or_introl eq_refl)). }
    rewrite E. cbn [bind].
    destruct (IH (Forall_inv_tail RQ) (Forall_inv_tail RE) r1 RS1) as (outs & r' & E2 & F).
    { destruct HP as [HP|HP]; [left; exact HP|right]. intros ks ra na k Hin. apply (HP ks ra na k (or_intror Hin)). }
    rewrite E2. cbn [bind]. exists (out :: outs), r'. split; [reflexivity|]. constructor; assumption.
  - intros Pf. revert r RS0. induction qs as [|q qs IH]; intros r RS (ks0 & ra0 & na0 & k0 & Hin & Hk & NI); [destruct Hin|].
    cbn [read_calls].
    destruct q as ((ks, ra), na). pose proof (Forall_inv RQ) as (L1 & L2). pose proof (Forall_inv RE) as REq.
    destruct (Forall_Exists_dec (fun k => In k (map fst recs)) (fun k => in_dec string_dec k (map fst recs)) ks) as [AL|EX].
    + destruct (ST (ks, ra, na) r REq (conj L1 L2) RS) as (out & r1 & E & RS1 & AN).
      { right. cbn [fst]. intros k Hk'. rewrite Forall_forall in AL. apply AL. exact Hk'. }
      rewrite E. cbn [bind]. rewrite (IH (Forall_inv_tail RQ) (Forall_inv_tail RE) r1 RS1); [reflexivity|].
      exists ks0, ra0, na0, k0. destruct Hin as [Q|Hin]; [|auto]. exfalso. injection Q as -> -> ->.
      apply NI. rewrite Forall_forall in AL. apply AL. exact Hk.
    + assert (E : r_request dec d r (ks, ra, na) = Err BareException).
      { unfold r_request, r_read. rewrite L1, L2. cbn [assert bind]. subst perm.
        apply (r_read_loop_absent dec d s es ra na (len ks) V Es L1 L2 ks 0 r RS (le_n _)).
        - intros j k Hj. cbn [Nat.add]. apply (SV _ REq j k Hj).
        - apply Exists_exists in EX. destruct EX as (k & Q1 & Q2). exists k. rewrite SK. auto. }
      rewrite E. reflexivity.
Qed.
Print Assumptions C20_random_access.

(** Example: the archive of C19_witness, keys asked in another order, an absent key. *)
Definition calls0 : list (list (string * wdata)) := [[("u1", Raw m1)]; [("u2", Raw m2)]]%string.
Definition disk_of (p : string) (bs : list byte) : disk :=
  mk_disk (fun q => if String.eqb q p then Some bs else None) (fun _ _ => 0%nat).
Example C20_witness : forall dec,
  exists st s, ark_writes cfg0 wst0 calls0 = Ok st /\ script_ok cfg0 (map fst (concat calls0)) /\
    scp_load (w_scp st) " " ":" = Ok s /\
    exists r', read_calls (r_request dec (disk_of "a.ark" (w_ark st))) (rreader_new s true)
       [(["u2"; "nope"]%string, ZConst 0, ZConst 0); (["u1"]%string, ZList [1], ZConst 1)]
      = Ok ([[m2; empty_array]; [mk_km F32 (Mat 1 1) [le_bytes 4 2]]], r').
Proof.
  intros dec. eexists. eexists. split; [vm_compute; reflexivity|]. split.
  - split; [|split; [split; reflexivity|split; [reflexivity|split; [reflexivity|]]]].
    + repeat split; discriminate.
    + intros k [<-|[<-|[]]]; reflexivity.
  - split; [vm_compute; reflexivity|]. eexists. vm_compute. reflexivity.
Qed.
