(** C99: evaluation of classifiers gives the score of class k to the class on line k, for every segment of the test list. *)
From Coq Require Import ZArith List Bool Arith String Lia QArith.
From Verif Require Import Base BaseFacts Mat MatProofs Str StrFacts Trials TrialsSpec TrialsProofs ScoresProofs ScoresProps TrialsTextProofs TrialEval TrialEvalProps Metrics ClassReader ClassEval.
Import ListNotations.
Open Scope list_scope. Open Scope nat_scope.

(** a text file with one list of words on each line *)
Fixpoint words_line (ws : list string) : string := match ws with [] => EmptyString | [w] => w | w :: ws => (w ++ " " ++ words_line ws)%string end.
Definition table (lines : list (list string)) : string := str_concat (map (fun ws => (words_line ws ++ nl_str)%string) lines).
(** no line is empty, the words have no blank *)
Definition good_table (lines : list (list string)) : Prop := forall ws, In ws lines -> ws <> [] /\ forall w, In w ws -> word w.
Definition heads (lines : list (list string)) : list string := map (fun ws => hd EmptyString ws) lines.

Lemma split_line ws : ws <> [] -> (forall w, In w ws -> word w) -> py_split (words_line ws) = ws.
Proof.
  induction ws as [|w [|w' ws] IH]; intros N H; [congruence|apply py_split_one; apply H; left; reflexivity|]. change (words_line (w :: w' :: ws)) with (w ++ String " " (words_line (w' :: ws)))%string.
  rewrite py_split_cons by (apply H; left; reflexivity). f_equal. apply IH; [discriminate|]. intros x Hx. apply H. right. exact Hx.
Qed.
Lemma last_word w : word w -> last_ok is_space w = true.
Proof.
  intros [N H]. induction w as [|c w IH]; [congruence|]. cbn [str_forallb] in H. apply andb_true_iff in H as [H1 H2]. destruct w as [|c' w]; [exact H1|]. change (last_ok is_space (String c' w) = true). apply IH; [discriminate|exact H2].
Qed.
Lemma last_line ws : ws <> [] -> (forall w, In w ws -> word w) -> last_ok is_space (words_line ws) = true.
Proof.
  induction ws as [|w [|w' ws] IH]; intros N H; [congruence|apply last_word; apply H; left; reflexivity|]. change (words_line (w :: w' :: ws)) with (w ++ (" " ++ words_line (w' :: ws)))%string.
  apply last_ok_app, last_ok_app. apply IH; [discriminate|]. intros x Hx. apply H. right. exact Hx.
Qed.
Lemma strip_line ws : ws <> [] -> (forall w, In w ws -> word w) -> rstrip (words_line ws) = words_line ws.
Proof. intros N H. apply rstrip_if_last, last_line; assumption. Qed.
Lemma str_in_app c a b : str_in c (a ++ b)%string = str_in c a || str_in c b.
Proof. induction a as [|x a IH]; [reflexivity|]. cbn [append]. rewrite !str_in_cons, IH, orb_assoc. reflexivity. Qed.
Lemma line_clean c ws : is_space c = true -> Ascii.eqb " " c = false -> (forall w, In w ws -> word w) -> str_in c (words_line ws) = false.
Proof.
  intros S NE. induction ws as [|w [|w' ws] IH]; intros H; [reflexivity|apply word_no_nl; [exact S|apply H; left; reflexivity]|]. change (words_line (w :: w' :: ws)) with (w ++ String " " (words_line (w' :: ws)))%string.
  rewrite str_in_app, str_in_cons, (word_no_nl w c S) by (apply H; left; reflexivity). rewrite IH by (intros x Hx; apply H; right; exact Hx). rewrite ?NE. reflexivity.
Qed.
Lemma lines_table lines : good_table lines -> py_lines (table lines) = map words_line lines.
Proof.
  intros G. unfold table. rewrite <- (map_map words_line (fun l => (l ++ nl_str)%string)). apply py_lines_concat. apply Forall_forall. intros l Hl. apply in_map_iff in Hl as (ws & <- & Hw). destruct (G ws Hw) as [_ W].
  split; apply line_clean; try exact W; reflexivity.
Qed.
Lemma first_words_ok lines : good_table lines -> first_words (table lines) = Ok (heads lines).
Proof.
  intros G. unfold first_words. rewrite (lines_table lines G). unfold heads. revert G. induction lines as [|ws lines IH]; intros G; [reflexivity|]. cbn [map mapM]. destruct (G ws (or_introl eq_refl)) as [N W].
  rewrite (strip_line ws N W), (split_line ws N W). destruct ws as [|w ws]; [congruence|]. change (get_item (w :: ws) 0) with (Ok w). cbn [bind hd]. rewrite IH by (intros x Hx; apply G; right; exact Hx). reflexivity.
Qed.

Lemma mapM_map_in {A B} (f : A -> res B) (g : A -> B) l : (forall x, In x l -> f x = Ok (g x)) -> mapM f l = Ok (map g l).
Proof. induction l as [|x l IH]; intros H; [reflexivity|]. cbn [mapM map]. rewrite (H x) by (left; reflexivity). cbn [bind]. rewrite IH by (intros; apply H; right; assumption). reflexivity. Qed.
Lemma mapM_map_ok {B C D} (f : B -> res C) (g : D -> B) (h : D -> C) l : (forall d, In d l -> f (g d) = Ok (h d)) -> mapM f (map g l) = Ok (map h l).
Proof. induction l as [|x l IH]; intros H; [reflexivity|]. cbn [map mapM]. rewrite (H x) by (left; reflexivity). cbn [bind]. rewrite IH by (intros; apply H; right; assumption). reflexivity. Qed.
Lemma nth_error_combine {B C} (l : list B) (l' : list C) : forall k b c, nth_error l k = Some b -> nth_error l' k = Some c -> nth_error (combine l l') k = Some (b, c).
Proof. revert l'. induction l as [|x l IH]; intros [|y l'] [|k] b c H1 H2; cbn in *; try discriminate; [congruence|apply IH; assumption]. Qed.
Section Eval.
Context {X A : Type}.
Variable F : sops A.
(** ** The data file *)
Definition file_ok (fetch : string -> option (list X)) (field : string) (D : nat) (segs : list string) (data : string -> list X) : Prop :=
  forall s, In s segs -> fetch (s ++ field)%string = Some (data s) /\ len (data s) = D.
Definition pre (preproc : option (list X -> list X)) (x : list X) : list X := match preproc with Some f => f x | None => x end.
(** predict works on each row by itself *)
Definition rowwise (predict : mat X -> res (mat A)) (K : nat) (f : list X -> list A) : Prop :=
  forall D rows, rows <> [] -> predict (mk_mat D rows) = Ok (mk_mat K (map f rows)) /\ forall r, In r rows -> len (f r) = K.

Lemma tensor_ok fetch field D segs data : segs <> [] -> file_ok fetch field D segs data -> tensor_read fetch segs field = Ok (mk_mat D (map data segs)).
Proof.
  intros N H. unfold tensor_read. destruct segs as [|s segs]; [congruence|]. destruct (H s (or_introl eq_refl)) as [E L]. rewrite E. cbn [bind]. rewrite L.
  rewrite (mapM_map_in _ data (s :: segs)); [reflexivity|]. intros k Hk. destruct (H k Hk) as [-> ->]. rewrite Nat.eqb_refl. reflexivity.
Qed.
(** What is read when the vectors differ in size: the size is that of the first one; a vector of one number is repeated, any other size raises. *)
Definition spread (D : nat) (d : list X) : option (list X) := if (len d =? D)%nat then Some d else match d with [v] => Some (repeat v D) | _ => None end.
Theorem C99_sizes : forall fetch field k0 segs D0 (data : string -> list X),
  fetch (k0 ++ field)%string = Some D0 -> (forall k, In k (k0 :: segs) -> fetch (k ++ field)%string = Some (data k)) ->
  (forall M, tensor_read fetch (k0 :: segs) field = Ok M <-> m_cols M = len D0 /\ Forall2 (fun k r => spread (len D0) (data k) = Some r) (k0 :: segs) (m_rows M)) /\
  (forall k v, In k segs -> data k = [v] -> spread (len D0) (data k) = Some (repeat v (len D0))) /\
  ((exists k, In k segs /\ len (data k) <> len D0 /\ len (data k) <> 1%nat) -> tensor_read fetch (k0 :: segs) field = Err ValueError).
Proof.
  intros fetch field k0 segs D0 data E0 E. set (f := fun k => match fetch (k ++ field)%string with Some d => if (len d =? len D0)%nat then Ok d else match d with [v] => Ok (repeat v (len D0)) | _ => Err ValueError end | None => Err AssertionError end).
  assert (U : tensor_read fetch (k0 :: segs) field = (rows <- mapM f (k0 :: segs) ;; Ok (mk_mat (len D0) rows))) by (unfold tensor_read; rewrite E0; reflexivity).
  assert (Q : forall k, In k (k0 :: segs) -> f k = match spread (len D0) (data k) with Some r => Ok r | None => Err ValueError end).
  { intros k Hk. unfold f, spread. rewrite (E k Hk). destruct (len (data k) =? len D0)%nat; [reflexivity|]. destruct (data k) as [|a [|b l]]; reflexivity. }
  split; [|split].
  - intros M. rewrite U. destruct M as [c rows]. cbn [m_cols m_rows]. split.
    + intros H. destruct (mapM f (k0 :: segs)) as [rs|x] eqn:Em; [|discriminate]. cbn [bind] in H. injection H as <- <-. split; [reflexivity|]. apply mapM_ok_iff in Em.
      clear U. revert Q Em. generalize (k0 :: segs). clear. intros l Q Em. induction Em as [|k r l rs Ek G IH]; constructor; [|apply IH; intros; apply Q; right; assumption].
      rewrite (Q k (or_introl eq_refl)) in Ek. destruct (spread (len D0) (data k)); congruence.
    + intros [-> G]. assert (Em : mapM f (k0 :: segs) = Ok rows); [|rewrite Em; reflexivity]. apply mapM_ok_iff. clear U. revert Q G. generalize (k0 :: segs). clear. intros l Q G. induction G as [|k r l rs Ek G IH]; constructor; [|apply IH; intros; apply Q; right; assumption].
      rewrite (Q k (or_introl eq_refl)), Ek. reflexivity.
  - intros k v _ ->. unfold spread. destruct (len [v] =? len D0)%nat eqn:L; [|reflexivity]. apply Nat.eqb_eq in L. rewrite <- L. reflexivity.
  - intros (k & Hk & N0 & N1). rewrite U. assert (Em : mapM f (k0 :: segs) = Err ValueError); [|rewrite Em; reflexivity].
    assert (Hk' : In k (k0 :: segs)) by (right; exact Hk). assert (V : spread (len D0) (data k) = None) by (unfold spread; rewrite (proj2 (Nat.eqb_neq _ _) N0); destruct (data k) as [|a [|b l]]; [reflexivity|exfalso; apply N1; reflexivity|reflexivity]).
    clear U Hk E0 E. revert Q Hk'. generalize (k0 :: segs). intros l Q Hk'. induction l as [|j l IH]; [destruct Hk'|]. cbn [mapM]. rewrite (Q j (or_introl eq_refl)).
    destruct (spread (len D0) (data j)) as [r|] eqn:Ej; [|reflexivity]. cbn [bind]. destruct Hk' as [->|Hk']; [congruence|]. rewrite IH; [reflexivity| |exact Hk']. intros; apply Q; right; assumption.
Qed.
Definition full_scores (mods segs : list string) (g : string -> list A) : scores A :=
  mk_scores mods segs (mk_mat (len segs) (map (fun j => map (fun t => nth j (g t) (s_zero F)) segs) (seq 0 (len mods)))) (mfull (len mods) (len segs) true).
Lemma full_ok mods segs g : NoDup mods -> NoDup segs -> (forall t, In t segs -> len (g t) = len mods) -> (forall t a, In t segs -> In a (g t) -> s_fin F a = true) ->
  scores_ok F (full_scores mods segs g) /\ (forall m t, In m mods -> In t segs -> scored (full_scores mods segs g) m t) /\
  (forall k m t, nth_error mods k = Some m -> In t segs -> score_of (full_scores mods segs g) m t = nth_error (g t) k).
Proof.
  intros N1 N2 LG FG. set (M := mk_mat (len segs) (map (fun j => map (fun t => nth j (g t) (s_zero F)) segs) (seq 0 (len mods)))).
  assert (G : forall k j m t, nth_error mods k = Some m -> nth_error segs j = Some t -> mget M k j = nth_error (g t) k).
  { intros k j m t Ek Ej. assert (Lk : (k < len mods)) by (apply nth_error_Some; congruence). unfold mget, M. cbn [m_rows]. rewrite nth_error_map, (nth_error_nth' (seq 0 (len mods)) 0) by (rewrite seq_length; exact Lk). rewrite seq_nth by exact Lk. cbn [option_map Nat.add].
    rewrite nth_error_map, Ej. cbn [option_map]. symmetry. apply nth_error_nth'. rewrite LG; [exact Lk|]. eapply nth_error_In; exact Ej. }
  assert (SH : has_shape M (len mods) (len segs)).
  { unfold has_shape, M. cbn [m_rows m_cols]. rewrite map_length, seq_length. split; [reflexivity|]. split; [reflexivity|]. try apply Forall_forall. intros r Hr. apply in_map_iff in Hr as (j & <- & _). apply map_length. }
  split; [|split].
  - unfold full_scores. fold M. split; [exact N1|]. split; [exact N2|]. split; [exact SH|]. split; [apply mfull_shape|]. cbn [s_scr]. intros i j x E. destruct (mget_some _ _ _ _ _ _ SH E) as [Hi Hj].
    destruct (nth_error mods i) as [m|] eqn:Em; [|apply nth_error_None in Em; lia]. destruct (nth_error segs j) as [t|] eqn:Et; [|apply nth_error_None in Et; lia]. rewrite (G i j m t Em Et) in E. apply (FG t); [eapply nth_error_In; exact Et|eapply nth_error_In; exact E].
  - intros m t Hm Ht. unfold scored. cbn [s_mod s_seg s_mask full_scores]. apply cell_full; assumption.
  - intros k m t Ek Ht. apply In_nth_error in Ht as (j & Ej). unfold score_of. cbn [s_mod s_seg s_scr full_scores]. fold M. rewrite (cell_nth mods segs M m t k j N1 N2 Ek Ej). apply (G k j m t Ek Ej).
Qed.
Lemma transpose_ok D K segs (g : string -> list A) : D = K -> transpose (s_zero F) (mk_mat D (map g segs)) = mk_mat (len segs) (map (fun j => map (fun t => nth j (g t) (s_zero F)) segs) (seq 0 K)).
Proof. intros ->. unfold transpose. cbn [m_rows m_cols]. rewrite map_length. f_equal. apply map_ext. intros j. rewrite map_map. reflexivity. Qed.
Lemma ndx_ok_new mods segs : NoDup mods -> NoDup segs -> ndx_new mods segs None = Ok (mk_ndx mods segs (mfull (len mods) (len segs) true)).
Proof. intros N1 N2. unfold ndx_new. apply distinct_iff in N1, N2. rewrite N1, N2. reflexivity. Qed.
Lemma read_rows fetch preproc field D segs data (mask : mat bool) mods : segs <> [] -> file_ok fetch field D segs data ->
  exists D', classif_read fetch preproc field (mk_ndx mods segs mask) = Ok (mk_mat D' (map (fun t => pre preproc (data t)) segs)).
Proof.
  intros N H. unfold classif_read. cbn [n_seg]. rewrite (tensor_ok fetch field D segs data N H). cbn [bind]. destruct preproc as [f|]; [|eexists; reflexivity]. unfold map_rows. cbn [m_rows]. eexists. rewrite map_map. reflexivity.
Qed.
(** The score of every class of the class list for every segment of the test list is the output of the classifier for the vector of that segment, at the
    position of the line of the class; the file of score vectors has the whole output. *)
Theorem C99_eval : forall fetch preproc predict f clines tlines field D data,
  good_table clines -> good_table tlines -> NoDup (heads clines) -> NoDup (heads tlines) -> tlines <> [] -> file_ok fetch field D (heads tlines) data ->
  rowwise predict (len clines) f -> (forall t a, In t (heads tlines) -> In a (f (pre preproc (data t))) -> s_fin F a = true) ->
  exists o v, eval_classifier F fetch preproc predict (table clines) (table tlines) field 1 = Ok (o, v) /\ s_mod o = heads clines /\ s_seg o = heads tlines /\ scores_ok F o /\
  (forall c t, In c (heads clines) -> In t (heads tlines) -> scored o c t) /\
  (forall k c t, nth_error (heads clines) k = Some c -> In t (heads tlines) -> score_of o c t = nth_error (f (pre preproc (data t))) k) /\
  v = map (fun t => (t, f (pre preproc (data t)))) (heads tlines).
Proof.
  intros fetch preproc predict f clines tlines field D data G1 G2 N1 N2 NT FO RW FG. set (mods := heads clines). set (segs := heads tlines). set (g := fun t => f (pre preproc (data t))).
  assert (NS : segs <> []) by (unfold segs, heads; destruct tlines; [congruence|discriminate]). assert (LM : len clines = len mods) by (unfold mods, heads; rewrite map_length; reflexivity).
  destruct (read_rows fetch preproc field D segs data (mfull (len mods) (len segs) true) mods NS FO) as (D' & ER).
  assert (NR : map (fun t => pre preproc (data t)) segs <> []) by (destruct segs; [congruence|discriminate]). destruct (RW D' _ NR) as [EP LP]. rewrite map_map in EP. fold g in EP.
  assert (LG : forall t, In t segs -> len (g t) = len mods) by (intros t Ht; rewrite <- LM; apply LP; apply (in_map (fun t => pre preproc (data t))); exact Ht).
  destruct (full_ok mods segs g N1 N2 LG FG) as (SO & SC & SV). exists (full_scores mods segs g), (map (fun t => (t, g t)) segs). split; [|split; [reflexivity|split; [reflexivity|split; [exact SO|split; [exact SC|split; [exact SV|reflexivity]]]]]].
  unfold eval_classifier, classif_new. rewrite (first_words_ok clines G1). cbn [bind]. rewrite (first_words_ok tlines G2). cbn [bind]. fold mods segs. rewrite (ndx_ok_new mods segs N1 N2). cbn [bind]. change (1 <? 1)%Z with false. cbv iota. cbn [bind]. rewrite ER. cbn [bind]. rewrite EP. cbn [bind n_mod n_seg m_rows].
  rewrite (transpose_ok _ _ segs g LM). rewrite (scores_new_ok F mods segs _ _ SO). cbn [bind]. f_equal. f_equal. clear. induction segs as [|t segs IH]; [reflexivity|]. cbn [map combine]. f_equal. exact IH.
Qed.
(** A classifier with another number of classes, a segment without vector and a repeated name are rejected. *)
Theorem C99_eval_errors : forall fetch preproc predict f clines tlines field D data K,
  good_table clines -> good_table tlines -> tlines <> [] -> rowwise predict K f ->
  (file_ok fetch field D (heads tlines) data -> K <> len clines -> exists e, eval_classifier F fetch preproc predict (table clines) (table tlines) field 1 = Err e) /\
  ((exists t, In t (heads tlines) /\ fetch (t ++ field)%string = None) -> exists e, eval_classifier F fetch preproc predict (table clines) (table tlines) field 1 = Err e) /\
  (~ NoDup (heads clines) \/ ~ NoDup (heads tlines) -> eval_classifier F fetch preproc predict (table clines) (table tlines) field 1 = Err AssertionError).
Proof.
  intros fetch preproc predict f clines tlines field D data K G1 G2 NT RW. unfold eval_classifier, classif_new. rewrite (first_words_ok clines G1). cbn [bind]. rewrite (first_words_ok tlines G2). cbn [bind].
  set (mods := heads clines). set (segs := heads tlines). assert (NS : segs <> []) by (unfold segs, heads; destruct tlines; [congruence|discriminate]). assert (LM : len clines = len mods) by (unfold mods, heads; rewrite map_length; reflexivity).
  assert (ND : NoDup mods /\ NoDup segs -> ndx_new mods segs None = Ok (mk_ndx mods segs (mfull (len mods) (len segs) true))) by (intros []; apply ndx_ok_new; assumption).
  assert (NN : ~ (NoDup mods /\ NoDup segs) -> ndx_new mods segs None = Err AssertionError).
  { intros H. unfold ndx_new. destruct (distinct mods) eqn:E1; [|reflexivity]. destruct (distinct segs) eqn:E2; [|reflexivity]. exfalso. apply H. split; apply distinct_iff; assumption. }
  assert (DD : (NoDup mods /\ NoDup segs) \/ ~ (NoDup mods /\ NoDup segs)) by (rewrite <- !distinct_iff; destruct (distinct mods), (distinct segs); intuition congruence).
  split; [|split].
  - intros FO HK. destruct DD as [P|P]; [|rewrite (NN P); eexists; reflexivity]. rewrite (ND P). cbn [bind]. change (1 <? 1)%Z with false. cbv iota. cbn [bind].
    destruct (read_rows fetch preproc field D segs data (mfull (len mods) (len segs) true) mods NS FO) as (D' & ER). rewrite ER. cbn [bind].
    assert (NR : map (fun t => pre preproc (data t)) segs <> []) by (destruct segs; [congruence|discriminate]). destruct (RW D' _ NR) as [EP LP]. rewrite EP. cbn [bind n_mod n_seg].
    assert (SH : shape_is (transpose (s_zero F) (mk_mat K (map f (map (fun t => pre preproc (data t)) segs)))) (len mods) (len segs) = false).
    { apply not_true_iff_false. intros E. assert (HS : has_shape (transpose (s_zero F) (mk_mat K (map f (map (fun t => pre preproc (data t)) segs)))) K (len segs)).
      { unfold transpose, has_shape. cbn [m_rows m_cols]. rewrite !map_length, seq_length. split; [reflexivity|]. split; [reflexivity|]. try apply Forall_forall. intros r Hr. apply in_map_iff in Hr as (j & <- & _). rewrite !map_length. reflexivity. }
      apply (proj1 (shape_is_iff _ _ _ _ _ HS)) in E as [E _]. lia. }
    unfold scores_new. rewrite SH. destruct P as [P1 P2]. apply distinct_iff in P1, P2. rewrite P1, P2. eexists. reflexivity.
  - intros (t & Ht & Et). destruct DD as [P|P]; [|rewrite (NN P); eexists; reflexivity]. rewrite (ND P). cbn [bind]. change (1 <? 1)%Z with false. cbv iota. cbn [bind]. unfold classif_read. cbn [n_seg]. unfold tensor_read. destruct segs as [|s0 segs']; [congruence|].
    destruct (fetch (s0 ++ field)%string) as [d0|]; cbn [bind]; [|eauto]. match goal with |- context [mapM ?h ?l] => assert (E : exists e, mapM h l = Err e) end; [|destruct E as (e & ->); cbn [bind]; eauto].
    clear -Ht Et. induction (s0 :: segs') as [|s l IH]; [destruct Ht|]. cbn [mapM]. destruct Ht as [->|Ht]; [rewrite Et; cbn [bind]; eauto|]. destruct (IH Ht) as (e & Ee). match goal with |- context [bind ?m _] => destruct m; cbn [bind]; [|eauto] end. rewrite Ee. cbn [bind]. eauto.
  - intros H. rewrite NN by tauto. reflexivity.
Qed.
(** Several parts cannot be evaluated: the split of the trial list always raises. *)
Theorem C99_parts_refuted : forall (fetch : string -> option (list X)) preproc predict classes tests field parts, (1 < parts)%Z -> exists e, eval_classifier F fetch preproc predict classes tests field parts = Err e.
Proof.
  intros. unfold eval_classifier, classif_new. destruct (first_words classes); cbn [bind]; [|eauto]. destruct (first_words tests); cbn [bind]; [|eauto]. destruct (ndx_new _ _ None); cbn [bind]; [|eauto]. rewrite (proj2 (Z.ltb_lt 1 parts)) by assumption. cbn [bind]. eauto.
Qed.
(** Converting the file of score vectors, whatever the order of its records, gives the same scores. *)
Theorem C99_convert : forall clines (v : list (string * list A)), good_table clines -> NoDup (heads clines) -> NoDup (map fst v) -> v <> [] -> clines <> [] ->
  (forall t r, In (t, r) v -> len r = len clines /\ forall a, In a r -> s_fin F a = true) ->
  exists o, convert F v (table clines) = Ok o /\ s_mod o = heads clines /\ s_seg o = map fst v /\ scores_ok F o /\
  (forall c t, In c (heads clines) -> In t (map fst v) -> scored o c t) /\
  (forall k c t r, nth_error (heads clines) k = Some c -> In (t, r) v -> score_of o c t = nth_error r k).
Proof.
  intros clines v G N1 N2 NV NC H. set (mods := heads clines). set (segs := map fst v). assert (LM : len clines = len mods) by (unfold mods, heads; rewrite map_length; reflexivity).
  set (g := fun t => match find (fun p => eqb (fst p) t) v with Some p => snd p | None => [] end).
  assert (GV : forall t r, In (t, r) v -> g t = r).
  { intros t r Hin. unfold g. destruct (find _ v) as [[t' r']|] eqn:E.
    - apply find_some in E as [H1 H2]. cbn [fst snd] in *. apply eqb_eq in H2. subst t'. clear -N2 H1 Hin. induction v as [|[a b] v IH]; [destruct Hin|]. cbn [map fst] in N2. inversion N2; subst. destruct Hin as [E|Hin], H1 as [E'|H1]; try congruence.
      + injection E as -> ->. exfalso. apply H2. apply (in_map fst) in H1. exact H1.
      + injection E' as -> ->. exfalso. apply H2. apply (in_map fst) in Hin. exact Hin.
      + apply IH; assumption.
    - exfalso. apply (find_none _ _ E) in Hin. cbn [fst] in Hin. assert (eqb t t = true) by (apply eqb_eq; reflexivity). congruence. }
  assert (MV : map snd v = map g segs).
  { unfold segs. rewrite map_map. apply map_ext_in. intros [t r] Hin. cbn [fst snd]. symmetry. apply GV. exact Hin. }
  assert (LG : forall t, In t segs -> len (g t) = len mods) by (intros t Ht; unfold segs in Ht; apply in_map_iff in Ht as ([t' r] & <- & Hin); cbn [fst]; rewrite (GV t' r Hin), <- LM; apply (H t' r Hin)).
  assert (FG : forall t a, In t segs -> In a (g t) -> s_fin F a = true) by (intros t a Ht Ha; unfold segs in Ht; apply in_map_iff in Ht as ([t' r] & <- & Hin); cbn [fst] in Ha; rewrite (GV t' r Hin) in Ha; apply (H t' r Hin); exact Ha).
  destruct (full_ok mods segs g N1 N2 LG FG) as (SO & SC & SV).
  assert (SQ : squeeze (s_zero F) false (map snd v) = Ok (mk_mat (len mods) (map g segs))).
  { assert (AL : forall r, In r (map snd v) -> len r = len mods) by (intros r Hr; apply in_map_iff in Hr as ([t r'] & <- & Hin); cbn [snd]; rewrite <- LM; apply (H t r' Hin)).
    assert (NZ : len mods <> 0) by (rewrite <- LM; destruct clines; [congruence|discriminate]). rewrite MV in *. unfold squeeze. destruct (map g segs) as [|r0 rs] eqn:E; [destruct v; [congruence|discriminate]|]. rewrite (AL r0 (or_introl eq_refl)).
    assert (F1 : forallb (fun d : list A => (len d =? 0) || (len d =? len mods)) (r0 :: rs) = true) by (apply forallb_forall; intros r Hr; rewrite (AL r Hr), Nat.eqb_refl; apply orb_true_r). rewrite F1.
    assert (F2 : existsb (fun d : list A => len d =? 0) (r0 :: rs) = false) by (apply not_true_iff_false; intros E2; apply existsb_exists in E2 as (r & Hr & E2); apply Nat.eqb_eq in E2; specialize (AL r Hr); lia). rewrite F2. reflexivity. }
  exists (full_scores mods segs g). split; [|split; [reflexivity|split; [reflexivity|split; [exact SO|split; [exact SC|]]]]].
  - unfold convert. rewrite SQ. cbn [bind]. rewrite (first_words_ok clines G). cbn [bind]. fold mods segs. rewrite (transpose_ok _ _ segs g eq_refl). replace (len v) with (len segs) by (unfold segs; apply map_length). apply (scores_new_ok F mods segs _ _ SO).
  - intros k c t r Ek Hin. rewrite (SV k c t Ek) by (unfold segs; apply (in_map fst) in Hin; exact Hin). rewrite (GV t r Hin). reflexivity.
Qed.
End Eval.
Print Assumptions C99_eval.
Print Assumptions C99_eval_errors.
Print Assumptions C99_parts_refuted.
Print Assumptions C99_convert.

(** Training gives a class the number written on its line; evaluation uses the position of the line. When the line of each class has its position as number
    (counted from 0), the scores of a class are the outputs that were trained with the data of that class. *)
Definition numbered (names : list string) : list (list string) := map (fun p => [fst p; fmt_d (Z.of_nat (snd p))]) (combine names (seq 0 (len names))).
Lemma numbered_heads names : heads (numbered names) = names.
Proof. unfold heads, numbered. rewrite map_map. cbn [hd]. generalize 0. induction names as [|n names IH]; intros i; [reflexivity|]. cbn [length seq combine map fst]. f_equal. apply IH. Qed.
Lemma fmt_word z : (0 <= z)%Z -> word (fmt_d z).
Proof.
  intros Hz. destruct (fmt_d_digits z Hz) as [D N]. split; [exact N|]. eapply str_forallb_impl; [|exact D]. intros c Hc. cbv beta in *. unfold is_digit in Hc. unfold is_space. 
  repeat match goal with H : context [nat_of_ascii c] |- _ => revert H end. generalize (nat_of_ascii c). intros n Hn. apply andb_true_iff in Hn as [H1 H2]. apply Nat.leb_le in H1, H2.
  apply negb_true_iff. repeat (apply orb_false_iff; split); try (apply andb_false_iff; right; apply Nat.leb_gt; lia); try (apply Nat.eqb_neq; lia); apply andb_false_iff; left; apply Nat.leb_gt; lia.
Qed.
Lemma numbered_good names : (forall n, In n names -> word n) -> good_table (numbered names).
Proof.
  intros H ws Hw. unfold numbered in Hw. apply in_map_iff in Hw as ([n i] & <- & Hp). split; [discriminate|]. intros w [<-|[<-|[]]]; [apply H; apply in_combine_l in Hp; exact Hp|apply fmt_word; lia].
Qed.
Lemma class2int_numbered names : (forall n, In n names -> word n) -> class2int (table (numbered names)) = Ok (map (fun p => (fst p, Z.of_nat (snd p))) (combine names (seq 0 (len names)))).
Proof.
  intros H. unfold class2int. rewrite (lines_table _ (numbered_good names H)). unfold numbered. rewrite map_map. rewrite (mapM_map_ok _ _ (fun p : string * nat => (fst p, Z.of_nat (snd p)))); [reflexivity|].
  intros [n i] Hp. cbn [fst snd]. assert (W1 : word n) by (apply H; apply in_combine_l in Hp; exact Hp). assert (W2 := fmt_word (Z.of_nat i) ltac:(lia)). assert (N2 : [n; fmt_d (Z.of_nat i)] <> []) by discriminate. assert (A2 : forall w, In w [n; fmt_d (Z.of_nat i)] -> word w) by (intros w [<-|[<-|[]]]; assumption).
  cbv zeta. rewrite (strip_line _ N2 A2), (split_line _ N2 A2). change (get_item [n; fmt_d (Z.of_nat i)] 0) with (Ok n). change (get_item [n; fmt_d (Z.of_nat i)] 1) with (Ok (fmt_d (Z.of_nat i))). cbn [bind]. rewrite py_int_fmt. reflexivity.
Qed.
Theorem C99_train_eval : forall (X A : Type) (F : sops A) fetch preproc predict (f : list X -> list A) names tlines field D data rows,
  (forall n, In n names -> word n) -> NoDup names -> good_table tlines -> NoDup (heads tlines) -> tlines <> [] -> file_ok fetch field D (heads tlines) data -> rowwise predict (len names) f ->
  (forall t a, In t (heads tlines) -> In a (f (pre preproc (data t))) -> s_fin F a = true) -> (forall r, In r rows -> In (snd r) names) ->
  exists m ids o v, class2int (table (numbered names)) = Ok m /\ class_ids rows (Some m) = Ok ids /\ eval_classifier F fetch preproc predict (table (numbered names)) (table tlines) field 1 = Ok (o, v) /\
  forall i utt c id t, nth_error rows i = Some (utt, c) -> nth_error ids i = Some id -> In t (heads tlines) -> (0 <= id)%Z /\ score_of o c t = nth_error (f (pre preproc (data t))) (Z.to_nat id).
Proof.
  intros X A F fetch preproc predict f names tlines field D data rows W ND G2 N2 NT FO RW FG HR. set (m := map (fun p : string * nat => (fst p, Z.of_nat (snd p))) (combine names (seq 0 (len names)))).
  assert (LN : len (numbered names) = len names) by (unfold numbered; rewrite map_length, combine_length, seq_length; lia).
  destruct (C99_eval F fetch preproc predict f (numbered names) tlines field D data (numbered_good names W) G2 ltac:(rewrite numbered_heads; exact ND) N2 NT FO ltac:(rewrite LN; exact RW) FG) as (o & v & E & _ & _ & _ & _ & SV & _). rewrite numbered_heads in SV.
  assert (MI : forall k c, nth_error names k = Some c -> find (fun p => eqb c (fst p)) (rev m) = Some (c, Z.of_nat k)).
  { intros k c Ek. destruct (find (fun p => eqb c (fst p)) (rev m)) as [[c' z]|] eqn:Ef.
    - apply find_some in Ef as [H1 H2]. cbn [fst] in H2. apply eqb_eq in H2. subst c'. f_equal. f_equal. apply in_rev in H1. unfold m in H1. apply in_map_iff in H1 as ([c' j] & Eq & Hp). cbn [fst snd] in Eq. injection Eq as -> <-. f_equal.
      apply In_nth_error in Hp as (q & Eq). assert (A1 : nth_error names q = Some c /\ nth_error (seq 0 (len names)) q = Some j).
      { clear -Eq. revert Eq. generalize (seq 0 (len names)). revert q. induction names as [|n l IH]; intros [|q] [|y ys] Eq; cbn in *; try discriminate; [injection Eq as -> ->; split; reflexivity|apply IH; exact Eq]. }
      destruct A1 as [A1 A2]. assert (Lq : q < len names) by (apply nth_error_Some; congruence). rewrite (nth_error_nth' _ 0) in A2 by (rewrite seq_length; exact Lq). rewrite seq_nth in A2 by exact Lq. injection A2 as <-. cbn [Nat.add]. apply (proj1 (NoDup_nth_error names) ND); [exact Lq|congruence].
    - exfalso. assert (Lk : k < len names) by (apply nth_error_Some; congruence). assert (Hin : In (c, Z.of_nat k) (rev m)).
      { apply -> in_rev. unfold m. apply in_map_iff. exists (c, k). split; [reflexivity|]. apply nth_error_In with k. clear -Ek Lk. assert (nth_error (seq 0 (len names)) k = Some k) by (rewrite (nth_error_nth' _ 0) by (rewrite seq_length; exact Lk); rewrite seq_nth by exact Lk; reflexivity).
        apply nth_error_combine; assumption. }
      apply (find_none _ _ Ef) in Hin. cbn [fst] in Hin. assert (eqb c c = true) by (apply eqb_eq; reflexivity). congruence. }
  assert (CI : exists ids, class_ids rows (Some m) = Ok ids /\ forall i utt c id, nth_error rows i = Some (utt, c) -> nth_error ids i = Some id -> exists k, nth_error names k = Some c /\ id = Z.of_nat k).
  { unfold class_ids, infos. clear -MI HR. induction rows as [|[u c] rows IH]; [exists []; split; [reflexivity|intros [|i]; discriminate]|]. destruct IH as (ids & E1 & E2); [intros r Hr; apply HR; right; exact Hr|].
    destruct (In_nth_error _ _ (HR (u, c) (or_introl eq_refl))) as (k & Ek). cbn [snd] in Ek. exists (Z.of_nat k :: ids). split; [cbn [map mapM snd]; rewrite (MI k c Ek); cbn [bind snd]; rewrite E1; reflexivity|].
    intros [|i] utt c' id H1 H2; cbn [nth_error] in *; [injection H1 as <- <-; injection H2 as <-; exists k; split; [exact Ek|reflexivity]|]. eapply E2; eassumption. }
  destruct CI as (ids & E1 & E2). exists m, ids, o, v. split; [apply class2int_numbered; exact W|]. split; [exact E1|]. split; [exact E|]. intros i utt c id t H1 H2 Ht. destruct (E2 i utt c id H1 H2) as (k & Ek & ->). split; [lia|]. rewrite Nat2Z.id. apply SV; assumption.
Qed.
Print Assumptions C99_train_eval.
(** With the numbers in another order, which training accepts, the outputs are given to the wrong classes. *)
Theorem C99_order_refuted : forall (X A : Type) (F : sops A) fetch (predict : mat X -> res (mat A)) f x a b t, a <> b -> word a -> word b -> word t ->
  fetch t = Some x -> rowwise predict 2 f -> (forall v, In v (f x) -> s_fin F v = true) ->
  exists m o v, class2int (table [[a; "1"]; [b; "0"]]%string) = Ok m /\ class_ids [("utt-a", a); ("utt-b", b)]%string (Some m) = Ok [1; 0]%Z /\
  eval_classifier F fetch None predict (table [[a; "1"]; [b; "0"]]%string) (table [[t]]) "" 1 = Ok (o, v) /\ score_of o a t = nth_error (f x) 0 /\ score_of o b t = nth_error (f x) 1.
Proof.
  intros X A F fetch predict f x a b t AB Wa Wb Wt Ft RW FG. set (cl := [[a; "1"]; [b; "0"]]%string). assert (W01 : word "1" /\ word "0") by (split; split; [discriminate|reflexivity|discriminate|reflexivity]).
  assert (G1 : good_table cl) by (intros ws [<-|[<-|[]]]; (split; [discriminate|]); intros w [<-|[<-|[]]]; tauto). assert (G2 : good_table [[t]]) by (intros ws [<-|[]]; (split; [discriminate|]); intros w [<-|[]]; exact Wt).
  assert (N1 : NoDup (heads cl)) by (cbn; constructor; [intros [E|[]]; congruence|constructor; [intros []|constructor]]). assert (N2 : NoDup (heads [[t]])) by (cbn; constructor; [intros []|constructor]).
  assert (FO : file_ok fetch "" (len x) (heads [[t]]) (fun _ => x)) by (intros s [<-|[]]; cbn [hd]; rewrite append_nil_r; split; [exact Ft|reflexivity]).
  destruct (C99_eval F fetch None predict f cl [[t]] "" (len x) (fun _ => x) G1 G2 N1 N2 ltac:(discriminate) FO RW) as (o & v & E & _ & _ & _ & _ & SV & _); [intros t' v' _ Hv; apply FG; exact Hv|].
  exists [(a, 1%Z); (b, 0%Z)], o, v. split; [|split; [|split; [exact E|split; apply SV; try reflexivity; left; reflexivity]]].
  - unfold class2int. rewrite (lines_table cl G1). cbn [cl map mapM]. cbv zeta. rewrite !strip_line, !split_line by (try discriminate; intros w [<-|[<-|[]]]; tauto). reflexivity.
  - cbn [class_ids infos map snd mapM rev app find fst]. assert (NE : eqb a b = false) by (destruct (eqb a b) eqn:Q; [apply eqb_eq in Q; congruence|reflexivity]). assert (RA : eqb a a = true) by (apply eqb_eq; reflexivity). assert (RB : eqb b b = true) by (apply eqb_eq; reflexivity). rewrite NE, RA, RB. reflexivity.
Qed.
Print Assumptions C99_order_refuted.
(** The separator of the list of vectors given on the command line never reaches the reader. *)
Theorem C99_vlist_sep_refuted : forall prefix kwargs, ~ In "vlist_sep"%string (map fst (vector_filter_args prefix kwargs)).
Proof.
  intros prefix kwargs H. unfold vector_filter_args in H. apply in_map_iff in H as ([k v] & E & H). cbn [fst] in E. subst k. apply in_concat in H as (l & Hl & H). apply in_map_iff in Hl as (c & <- & Hc). destruct (find _ kwargs); [|destruct H]. destruct H as [H|[]]. injection H as H _. subst c.
  vm_compute in Hc. repeat destruct Hc as [Hc|Hc]; discriminate || destruct Hc.
Qed.
Print Assumptions C99_vlist_sep_refuted.
(** The summary of a two-class evaluation has the numbers of target and non-target trials of the key and the equal error rate of their scores; an output path
    without a directory fails. *)
Theorem C99_two_class : forall (A : Type) (OA : Ord A) (F : sops A) o k path, scores_ok F o -> s_fin F (s_zero F) = true -> key_ok k ->
  incl (k_mod k) (s_mod o) -> incl (k_seg k) (s_seg o) -> (forall m s, target k m s \/ nontarget k m s -> scored o m s) ->
  exists tar non, map Some tar = map (fun p => score_of o (fst p) (snd p)) (target_pairs k) /\ map Some non = map (fun p => score_of o (fst p) (snd p)) (nontarget_pairs k) /\
  (has_slash path = true -> forall e, compute_eer tar non = Ok e -> eval_2class F o k path = Ok (e, len (target_pairs k), len (nontarget_pairs k))) /\
  (has_slash path = false -> eval_2class F o k path = Err IOErr).
Proof.
  intros A OA F o k path O Z K I1 I2 L. destruct (proj1 (C30_get_tar_non A F o k O Z K) I1 I2 L) as (tar & non & E & T & N). exists tar, non. split; [exact T|]. split; [exact N|].
  assert (L1 : len tar = len (target_pairs k)) by (apply (f_equal (@List.length _)) in T; rewrite !map_length in T; exact T). assert (L2 : len non = len (nontarget_pairs k)) by (apply (f_equal (@List.length _)) in N; rewrite !map_length in N; exact N).
  split.
  - intros HS e Ee. unfold eval_2class. rewrite HS, E. cbn [bind]. rewrite Ee. cbn [bind]. rewrite L1, L2. reflexivity.
  - intros HS. unfold eval_2class. rewrite HS. reflexivity.
Qed.
Print Assumptions C99_two_class.

(** Witnesses *)
Definition fetch_e (s : string) : option (list Z) := if eqb s "u1.iv"%string then Some [3; 4]%Z else if eqb s "u2.iv"%string then Some [5; 7]%Z else None.
Definition predict_e (M : mat Z) : res (mat Z) := Ok (mk_mat 3 (map (fun r => [fold_left Z.add r 0; hd 0 r; 9])%Z (m_rows M))).
Example eval_w : exists o v, eval_classifier sops_Z fetch_e None predict_e (table [["eng"; "0"]; ["spa"; "1"]; ["fra"; "2"]])%string (table [["u2"]; ["u1"; "x"]])%string ".iv" 1 = Ok (o, v) /\
  s_scr o = mk_mat 2 [[12; 7]; [5; 3]; [9; 9]]%Z /\ convert sops_Z (rev v) (table [["eng"; "0"]; ["spa"; "1"]; ["fra"; "2"]])%string <> Err ValueError.
Proof. eexists _, _. split; [vm_compute; reflexivity|]. split; [reflexivity|]. vm_compute. discriminate. Qed.
Example two_class_w : eval_2class sops_Z scores_e1 key_e1 "exp/res" = Ok (0%Q, 2, 1) \/ exists q, eval_2class sops_Z scores_e1 key_e1 "exp/res" = Ok (q, 2, 1).
Proof. right. eexists. vm_compute. reflexivity. Qed.
Print Assumptions C99_sizes.
