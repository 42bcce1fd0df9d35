(** Lemmas for the text files of trials, keys and scores *)
From Verif Require Import StrFacts TrialsProofs TrialsProps ScoresProofs ScoresProps.
Open Scope list_scope.
Open Scope Z_scope.

(** a name that survives a text file: not empty, no blank *)
Definition word (w : string) : Prop := w <> EmptyString /\ str_forallb (fun c => negb (is_space c)) w = true.

Lemma word_no_nl w c : is_space c = true -> str_forallb (fun c => negb (is_space c)) w = true -> str_in c w = false.
Proof.
  intros Hc H. unfold str_in. apply negb_false_iff. eapply str_forallb_impl; [|exact H]. intros x Hx. cbn beta in *.
  destruct (Ascii.eqb_spec x c) as [->|]; [rewrite Hc in Hx; discriminate|reflexivity].
Qed.

Lemma append_neq_l a b : a <> EmptyString -> (a ++ b)%string <> EmptyString.
Proof. destruct a; [congruence|discriminate]. Qed.
Lemma append_neq_r a b : b <> EmptyString -> (a ++ b)%string <> EmptyString.
Proof. destruct a; [trivial|discriminate]. Qed.

Lemma fields_word w : forall cur rest, str_forallb (fun c => negb (is_space c)) w = true ->
  fields_aux (w ++ rest)%string cur = fields_aux rest (cur ++ w)%string.
Proof.
  induction w as [|c w IH]; intros cur rest H; cbn [append]; [rewrite append_nil_r; reflexivity|].
  cbn [str_forallb] in H. apply andb_true_iff in H as (H1 & H2). cbn [fields_aux]. apply negb_true_iff in H1. rewrite H1, IH by exact H2. rewrite append_assoc. reflexivity.
Qed.

Lemma py_split_cons w rest : word w -> py_split (w ++ String " " rest)%string = w :: py_split rest.
Proof.
  intros (N & H). unfold py_split. rewrite fields_word by exact H. cbn [append fields_aux]. change (is_space " ") with true. cbv iota.
  destruct w; [congruence|reflexivity].
Qed.

Lemma py_split_one w : word w -> py_split w = [w].
Proof.
  intros (N & H). unfold py_split. rewrite <- (append_nil_r w) at 1. rewrite fields_word by exact H. cbn [append fields_aux]. destruct w; [congruence|reflexivity].
Qed.

Lemma py_split2 a b : word a -> word b -> py_split (a ++ " " ++ b)%string = [a; b].
Proof. intros Ha Hb. change (" " ++ b)%string with (String " " b). rewrite py_split_cons, py_split_one by assumption. reflexivity. Qed.

Lemma py_split3 a b c : word a -> word b -> word c -> py_split (a ++ " " ++ b ++ " " ++ c)%string = [a; b; c].
Proof.
  intros Ha Hb Hc. change (" " ++ b ++ " " ++ c)%string with (String " " (b ++ String " " c)). rewrite !py_split_cons, py_split_one by assumption. reflexivity.
Qed.

(** ** Writing: the named list of the flagged cells *)

Lemma nonzeroT_in (K : mat bool) r c i j : has_shape K r c -> (In (i, j) (nonzeroT K) <-> mget K i j = Some true).
Proof.
  intros H. pose proof H as (H1 & H2 & _). unfold nonzeroT. rewrite in_concat. split.
  - intros (l & Hl & Hin). apply in_map_iff in Hl as (j' & <- & _). apply in_map_iff in Hin as (i' & E & Hi). injection E as -> ->.
    apply filter_In in Hi as (_ & Hi). destruct (mget K i j) as [[|]|]; congruence.
  - intros E. destruct (mget_some K _ _ _ _ _ H E) as (Hi & Hj). eexists. split.
    + apply in_map_iff. exists j. split; [reflexivity|]. apply in_seq. lia.
    + apply in_map_iff. exists i. split; [reflexivity|]. apply filter_In. split; [apply in_seq; lia|]. rewrite E. reflexivity.
Qed.

Lemma nonzeroT_nodup (K : mat bool) : NoDup (nonzeroT K).
Proof.
  unfold nonzeroT. generalize (seq_NoDup (m_cols K) 0). generalize (seq 0 (m_cols K)). induction l as [|j l IH]; intros N; cbn [map concat]; [constructor|]. inversion N; subst.
  assert (D : forall a b : list (nat * nat), NoDup a -> NoDup b -> (forall x, In x a -> ~ In x b) -> NoDup (a ++ b)).
  { clear. induction a as [|x a IH]; intros b Na Nb D; cbn; [exact Nb|]. inversion Na; subst. constructor; [|apply IH; auto; intros y Hy; apply D; right; exact Hy].
    intros H. apply in_app_or in H as [H|H]; [auto|]. exact (D x (or_introl eq_refl) H). }
  apply D; [|apply IH; assumption|].
  - apply FinFun.Injective_map_NoDup; [intros x y E; congruence|]. apply NoDup_filter, seq_NoDup.
  - intros (x, y) Hx Hy. apply in_map_iff in Hx as (i & E & _). injection E as -> ->. apply in_concat in Hy as (l' & Hl & Hin).
    apply in_map_iff in Hl as (j' & <- & Hj). apply in_map_iff in Hin as (i' & E & _). injection E as -> ->. auto.
Qed.

(** the position [p] bears the names and the value of [q] *)
Definition names_pos {A} (mods segs : list string) (S : mat A) (p : nat * nat) (q : string * string * A) : Prop :=
  nth_error mods (fst p) = Some (fst (fst q)) /\ nth_error segs (snd p) = Some (snd (fst q)) /\ mget S (fst p) (snd p) = Some (snd q).

Lemma Forall2_exists {X Y} (R : X -> Y -> Prop) l : (forall x, In x l -> exists y, R x y) -> exists l', Forall2 R l l'.
Proof.
  induction l as [|x l IH]; intros H; [exists []; constructor|]. destruct (H x (or_introl eq_refl)) as (y & Hy).
  destruct IH as (l' & F); [intros z Hz; apply H; right; exact Hz|]. exists (y :: l'). constructor; assumption.
Qed.

Lemma Forall2_in_l {X Y} (R : X -> Y -> Prop) l l' x : Forall2 R l l' -> In x l -> exists y, In y l' /\ R x y.
Proof. induction 1 as [|a b l l' H F IH]; cbn; intros []; [subst; eauto|destruct IH as (y & ? & ?); eauto]. Qed.
Lemma Forall2_in_r {X Y} (R : X -> Y -> Prop) l l' y : Forall2 R l l' -> In y l' -> exists x, In x l /\ R x y.
Proof. induction 1 as [|a b l l' H F IH]; cbn; intros []; [subst; eauto|destruct IH as (x & ? & ?); eauto]. Qed.

Lemma named_list {A} mods segs (S : mat A) (K : mat bool) : NoDup mods -> NoDup segs ->
  has_shape S (len mods) (len segs) -> has_shape K (len mods) (len segs) ->
  exists L, Forall2 (names_pos mods segs S) (nonzeroT K) L /\ NoDup (map fst L) /\
    forall m s v, In ((m, s), v) L <-> cell mods segs K m s = Some true /\ cell mods segs S m s = Some v.
Proof.
  intros N1 N2 HS HK. destruct (Forall2_exists (names_pos mods segs S) (nonzeroT K)) as (L & F).
  { intros (i, j) Hp. apply (nonzeroT_in K _ _ i j HK) in Hp. destruct (mget_some K _ _ _ _ _ HK Hp) as (Hi & Hj).
    destruct (nth_error mods i) as [m|] eqn:Em; [|apply nth_error_None in Em; lia]. destruct (nth_error segs j) as [s|] eqn:Es; [|apply nth_error_None in Es; lia].
    destruct (mget_lt S _ _ i j HS Hi Hj) as (v & Ev). exists ((m, s), v). split; [exact Em|]. split; [exact Es|exact Ev]. }
  exists L. split; [exact F|]. split.
  - pose proof (nonzeroT_nodup K) as N. clear - F N N1 N2. induction F as [|p q ps L Hpq F IH]; cbn; [constructor|]. inversion N; subst. constructor; [|apply IH; assumption].
    intros Hin. apply in_map_iff in Hin as (q' & E & Hq'). destruct (Forall2_in_r _ _ _ _ F Hq') as (p' & Hp' & (A1 & A2 & _)). destruct Hpq as (B1 & B2 & _).
    rewrite E in A1, A2. assert (p' = p); [|congruence]. destruct p as (i, j), p' as (i', j'). cbn [fst snd] in *.
    rewrite NoDup_nth_error in N1, N2. f_equal; [apply N1|apply N2]; try congruence; apply nth_error_Some; congruence.
  - intros m s v. split.
    + intros Hin. destruct (Forall2_in_r _ _ _ _ F Hin) as ((i, j) & Hp & (A1 & A2 & A3)). cbn [fst snd] in *. apply (nonzeroT_in K _ _ i j HK) in Hp.
      rewrite !(cell_nth mods segs _ m s i j) by assumption. auto.
    + intros (C1 & C2). apply cell_mget in C1 as C1'. unfold cell in C1, C2. destruct (index_of m mods) as [i|] eqn:Ei; [|discriminate]. destruct (index_of s segs) as [j|] eqn:Ej; [|discriminate].
      apply (nonzeroT_in K _ _ i j HK) in C1. destruct (Forall2_in_l _ _ _ _ F C1) as (((m', s'), v') & Hin & (A1 & A2 & A3)). cbn [fst snd] in *.
      apply index_of_nth_inv in Ei, Ej. assert (m' = m) by congruence. assert (s' = s) by congruence. assert (v' = v) by congruence. subst. exact Hin.
Qed.

Lemma Forall2_impl {X Y} (R R' : X -> Y -> Prop) l l' : (forall x y, R x y -> R' x y) -> Forall2 R l l' -> Forall2 R' l l'.
Proof. induction 2; constructor; auto. Qed.

Lemma mapM_forall2 {X Y Q} (f : X -> res Y) (g : Q -> Y) l L : Forall2 (fun x q => f x = Ok (g q)) l L -> mapM f l = Ok (map g L).
Proof. induction 1 as [|x q l L H F IH]; cbn; [reflexivity|]. rewrite H. cbn. rewrite IH. reflexivity. Qed.

(** ** Reading: filling the matrix *)

Lemma set_cells_ok {A} (cells : list (nat * nat * A)) : forall M r c, has_shape M r c ->
  Forall (fun x => (fst (fst x) < r)%nat /\ (snd (fst x) < c)%nat) cells ->
  exists N, set_cells M cells = Ok N /\ has_shape N r c /\
    (forall i j, (forall v, ~ In ((i, j), v) cells) -> mget N i j = mget M i j) /\
    (forall i j v, In ((i, j), v) cells -> (forall v', In ((i, j), v') cells -> v' = v) -> mget N i j = Some v).
Proof.
  unfold set_cells. induction cells as [|((i, j), v) cells IH]; intros M r c H F.
  - exists M. split; [reflexivity|]. split; [exact H|]. split; [reflexivity|]. intros i j v [].
  - inversion F as [|? ? (Hi & Hj) F']; subst. cbn [fst snd] in *. cbn [foldM fst snd]. destruct (mset1_ok M r c i j v H Hi Hj) as (M' & E & S & G1 & G2). rewrite E. cbn [bind].
    destruct (IH M' r c S F') as (N & EN & SN & P1 & P2). exists N. split; [exact EN|]. split; [exact SN|]. split.
    + intros a b Hab. rewrite P1 by (intros v' Hv'; apply (Hab v'); right; exact Hv'). apply G2. intros [= -> ->]. apply (Hab v). left. reflexivity.
    + intros a b w Hin U. destruct (in_dec (fun x y : nat * nat => ltac:(decide equality; apply Nat.eq_dec)) (a, b) (map fst cells)) as [I|I].
      * apply in_map_iff in I as ((q, w') & E' & I). cbn in E'. subst q. assert (w' = w) by (apply U; right; exact I). subst w'. apply P2; [exact I|]. intros v' Hv'. apply U. right. exact Hv'.
      * rewrite P1 by (intros v' Hv'; apply I; apply in_map_iff; exists ((a, b), v'); split; [reflexivity|exact Hv']).
        destruct Hin as [Hin|Hin]; [injection Hin as -> -> ->; exact G1|]. exfalso. apply I. apply in_map_iff. exists ((a, b), w). split; [reflexivity|exact Hin].
Qed.

Definition ix (names : list string) (x : string) : nat := match index_of x names with Some i => i | None => 0%nat end.

Lemma ix_nth names x : In x names -> nth_error names (ix names x) = Some x.
Proof. intros H. unfold ix. destruct (index_of_in x names H) as (k & -> & _ & N). exact N. Qed.

Lemma fill_ok {A} (d : A) mods segs (L : list (string * string * A)) : NoDup mods -> NoDup segs ->
  (forall m s v, In ((m, s), v) L -> In m mods /\ In s segs) ->
  exists N, set_cells (mfull (len mods) (len segs) d) (map (fun q => ((ix mods (fst (fst q)), ix segs (snd (fst q))), snd q)) L) = Ok N /\
    has_shape N (len mods) (len segs) /\
    (forall m s, In m mods -> In s segs -> (forall v, ~ In ((m, s), v) L) -> cell mods segs N m s = Some d) /\
    (forall m s v, In ((m, s), v) L -> (forall v', In ((m, s), v') L -> v' = v) -> cell mods segs N m s = Some v).
Proof.
  intros N1 N2 HL. destruct (set_cells_ok (map (fun q => ((ix mods (fst (fst q)), ix segs (snd (fst q))), snd q)) L) (mfull (len mods) (len segs) d) _ _ (mfull_shape _ _ d)) as (N & E & S & P1 & P2).
  { apply Forall_forall. intros x Hx. apply in_map_iff in Hx as (((m, s), v) & <- & Hin). cbn [fst snd]. destruct (HL m s v Hin) as (Im & Is).
    split; apply nth_error_Some; rewrite ix_nth by assumption; discriminate. }
  assert (BK : forall m s v, In m mods -> In s segs -> In ((ix mods m, ix segs s), v) (map (fun q => ((ix mods (fst (fst q)), ix segs (snd (fst q))), snd q)) L) -> In ((m, s), v) L).
  { intros m s v Im Is Hin. apply in_map_iff in Hin as (((m', s'), v') & E' & Hin). cbn [fst snd] in E'. injection E' as E1 E2 ->. destruct (HL m' s' v Hin) as (Im' & Is').
    pose proof (ix_nth _ _ Im) as X1. pose proof (ix_nth _ _ Im') as X2. pose proof (ix_nth _ _ Is) as X3. pose proof (ix_nth _ _ Is') as X4.
    assert (m' = m) by congruence. assert (s' = s) by congruence. subst. exact Hin. }
  exists N. split; [exact E|]. split; [exact S|]. split.
  - intros m s Im Is H. rewrite (cell_nth mods segs N m s _ _ N1 N2 (ix_nth _ _ Im) (ix_nth _ _ Is)). rewrite P1 by (intros v Hv; apply (H v); apply BK; assumption).
    apply mfull_get; apply nth_error_Some; rewrite ix_nth by assumption; discriminate.
  - intros m s v Hin U. destruct (HL m s v Hin) as (Im & Is). rewrite (cell_nth mods segs N m s _ _ N1 N2 (ix_nth _ _ Im) (ix_nth _ _ Is)).
    apply P2; [apply in_map_iff; exists ((m, s), v); split; [reflexivity|exact Hin]|]. intros v' Hv'. apply U. apply BK; assumption.
Qed.

Lemma combine_map {X Y Q} (f : Q -> X) (g : Q -> Y) l : combine (map f l) (map g l) = map (fun q => (f q, g q)) l.
Proof. induction l; cbn; congruence. Qed.

Lemma inverse_ix (l : list string) : inverse l = map (ix (unique l)) l.
Proof. reflexivity. Qed.

Lemma fields_get {Q} (w : Q -> list string) (f : Q -> string) k L : (forall q, In q L -> get_item (w q) k = Ok (f q)) ->
  mapM (fun x => get_item x k) (map w L) = Ok (map f L).
Proof.
  induction L as [|q L IH]; intros H; cbn; [reflexivity|]. rewrite H by (left; reflexivity). cbn. rewrite IH by (intros q' Hq'; apply H; right; exact Hq'). reflexivity.
Qed.

(** the file of the lines [line q ++ "\n"] *)
Lemma read_fields {Q} (line : Q -> string) (w : Q -> list string) L :
  (forall q, In q L -> str_in nl (line q) = false /\ str_in cr (line q) = false /\ py_split (line q) = w q) ->
  map py_split (py_lines (str_concat (map (fun q => (line q ++ nl_str)%string) L))) = map w L.
Proof.
  intros H. rewrite <- (map_map line (fun l => (l ++ nl_str)%string)). rewrite py_lines_concat.
  - rewrite map_map. apply map_ext_in. intros q Hq. apply H. exact Hq.
  - apply Forall_forall. intros l Hl. apply in_map_iff in Hl as (q & <- & Hq). destruct (H q Hq) as (H1 & H2 & _). split; assumption.
Qed.

Lemma line2_clean a b c : c = nl \/ c = cr -> word a -> word b -> str_in c (a ++ " " ++ b)%string = false.
Proof.
  intros Hc (_ & Ha) (_ & Hb). assert (is_space c = true) by (destruct Hc as [->| ->]; reflexivity). rewrite !str_in_app, (word_no_nl a c), (word_no_nl b c) by assumption.
  destruct Hc as [->| ->]; reflexivity.
Qed.
Lemma line3_clean a b d c : c = nl \/ c = cr -> word a -> word b -> word d -> str_in c (a ++ " " ++ b ++ " " ++ d)%string = false.
Proof.
  intros Hc (_ & Ha) (_ & Hb) (_ & Hd). assert (is_space c = true) by (destruct Hc as [->| ->]; reflexivity). rewrite !str_in_app, (word_no_nl a c), (word_no_nl b c), (word_no_nl d c) by assumption.
  destruct Hc as [->| ->]; reflexivity.
Qed.
