(** C34: merging adjacent segments of an extended segment list. *)
From Coq Require Import QArith.
From Verif Require Import Segments TrialsProofs TrialsTextProofs FoldsProofs FoldsProps FoldsProps3 RttmProps.
Open Scope list_scope.
Open Scope Z_scope.

(** the name attached to a segment through the table of extended segments *)
Definition name_of (ext : ext_table) (s : eseg) : option string :=
  match find (fun e => eqb (fst e) (e_ext s)) ext with Some e => snd e | None => None end.
(** same recording and same (known) name *)
Definition same_speaker ext (a b : eseg) : bool :=
  eqb (e_file b) (e_file a) && match name_of ext a, name_of ext b with Some x, Some y => eqb y x | _, _ => false end.

(** [groups] cuts [l] into non-empty runs of at most [lim] related neighbours, as long as possible *)
Definition grouping {A} (R : A -> A -> bool) (lim : nat) (l : list A) (groups : list (list A)) : Prop :=
  concat groups = l /\ (forall g, In g groups -> g <> [] /\ (len g <= lim)%nat /\ consec R g) /\
  (forall pre g1 x y g2 post, groups = pre ++ (g1 ++ [x]) :: (y :: g2) :: post -> R x y = false \/ len (g1 ++ [x]) = lim).

Definition group_id (g : list eseg) : string := String.concat "@" (map e_id g).
Definition group_name ext (g : list eseg) : option string := match g with [] => None | s :: _ => name_of ext s end.

Lemma consec_snoc {A} (R : A -> A -> bool) l x y : consec R (l ++ [x]) -> R x y = true -> consec R ((l ++ [x]) ++ [y]).
Proof.
  intros C H i a b H1 H2. assert (L : len (l ++ [x]) = S (len l)) by (rewrite app_length; cbn; lia).
  assert (Hi : (S i <= len (l ++ [x]))%nat). { assert (S i < len ((l ++ [x]) ++ [y]))%nat by (apply nth_error_Some; congruence). rewrite (app_length (l ++ [x])) in *. cbn [length] in *. lia. }
  rewrite nth_error_app1 in H1 by lia. destruct (Nat.eq_dec (S i) (len (l ++ [x]))) as [E|N].
  - rewrite nth_error_app2 in H2 by lia. rewrite E, Nat.sub_diag in H2. injection H2 as <-. assert (Ei : i = len l) by (rewrite L in E; injection E as E; exact E). subst i. rewrite nth_error_app2, Nat.sub_diag in H1 by lia. injection H1 as <-. exact H.
  - rewrite nth_error_app1 in H2 by lia. apply (C i a b H1 H2).
Qed.
Lemma consec_one {A} (R : A -> A -> bool) x : consec R [x].
Proof. intros [|i] a b H1 H2; [discriminate H2|destruct i; discriminate H1]. Qed.

Lemma snoc_inj {A} (a b : list A) x y : a ++ [x] = b ++ [y] -> a = b /\ x = y.
Proof. apply app_inj_tail. Qed.

Lemma grouping_extend {A} (R : A -> A -> bool) lim l G cur x y : grouping R lim l (G ++ [cur ++ [x]]) -> R x y = true -> len (cur ++ [x]) <> lim ->
  grouping R lim (l ++ [y]) (G ++ [(cur ++ [x]) ++ [y]]).
Proof.
  intros (C & S & B) H N. split; [|split].
  - rewrite <- C, !concat_app. cbn [concat]. rewrite !app_nil_r, !app_assoc. reflexivity.
  - intros g Hg. apply in_app_or in Hg as [Hg|[<-|[]]]; [apply S, in_or_app; left; exact Hg|]. destruct (S (cur ++ [x]) ltac:(apply in_or_app; right; left; reflexivity)) as (_ & L & CS). split; [destruct cur; discriminate|]. split; [rewrite app_length; cbn; lia|]. apply consec_snoc; assumption.
  - intros pre g1 a b g2 post E. destruct post as [|p post'] using rev_ind.
    + (* the last pair *) change (pre ++ (g1 ++ [a]) :: (b :: g2) :: []) with (pre ++ [g1 ++ [a]] ++ [b :: g2]) in E. rewrite app_assoc in E. apply snoc_inj in E as (E1 & E2).
      subst G. destruct cur as [|z cur]; cbn [app] in E2; injection E2 as <- _; eapply (B pre g1 a _ _ []); cbn [app]; rewrite <- app_assoc; reflexivity.
    + clear IHpost'. assert (E' : G ++ [(cur ++ [x]) ++ [y]] = (pre ++ (g1 ++ [a]) :: (b :: g2) :: post') ++ [p]) by (rewrite E, <- app_assoc; reflexivity). apply snoc_inj in E' as (E1 & _).
      apply (B pre g1 a b g2 (post' ++ [cur ++ [x]])). rewrite E1, <- app_assoc. reflexivity.
Qed.

Lemma grouping_new {A} (R : A -> A -> bool) lim l G cur x y : (1 <= lim)%nat -> grouping R lim l (G ++ [cur ++ [x]]) -> R x y = false \/ len (cur ++ [x]) = lim ->
  grouping R lim (l ++ [y]) ((G ++ [cur ++ [x]]) ++ [[y]]).
Proof.
  intros HL (C & S & B) H. split; [|split].
  - rewrite <- C. rewrite (concat_app (G ++ [cur ++ [x]])). cbn [concat]. rewrite app_nil_r. reflexivity.
  - intros g Hg. apply in_app_or in Hg as [Hg|[<-|[]]]; [apply S; exact Hg|]. split; [discriminate|]. split; [exact HL|apply consec_one].
  - intros pre g1 a b g2 post E. destruct post as [|p post'] using rev_ind.
    + change (pre ++ (g1 ++ [a]) :: (b :: g2) :: []) with (pre ++ [g1 ++ [a]] ++ [b :: g2]) in E. rewrite app_assoc in E. apply snoc_inj in E as (E1 & E2). injection E2 as -> <-.
      apply snoc_inj in E1 as (_ & E1). apply snoc_inj in E1 as (E3 & E4). subst. exact H.
    + clear IHpost'. assert (E' : (G ++ [cur ++ [x]]) ++ [[y]] = (pre ++ (g1 ++ [a]) :: (b :: g2) :: post') ++ [p]) by (rewrite E, <- app_assoc; reflexivity). apply snoc_inj in E' as (E1 & _).
      apply (B pre g1 a b g2 post'). exact E1.
Qed.

Lemma join_unique segs ext : NoDup (map fst ext) -> (forall s, In s segs -> In (e_ext s) (map fst ext)) -> ext_join segs ext = map (fun s => (s, name_of ext s)) segs.
Proof.
  intros N H. unfold ext_join. induction segs as [|s segs IH]; [reflexivity|]. cbn [flat_map map]. rewrite IH by (intros x Hx; apply H; right; exact Hx).
  assert (F : filter (fun e => eqb (fst e) (e_ext s)) ext = [(e_ext s, name_of ext s)]).
  { specialize (H s ltac:(left; reflexivity)). clear IH segs. unfold name_of. induction ext as [|[k v] ext IH]; [destruct H|]. cbn [map fst] in *. inversion N as [|? ? N1 N2]; subst. cbn [filter find fst]. destruct (eqb k (e_ext s)) eqn:E.
    - apply eqb_eq in E. subst k. cbn [snd]. f_equal. clear - N1. induction ext as [|[k' v'] ext IH]; [reflexivity|]. cbn [filter fst]. destruct (eqb k' (e_ext s)) eqn:E; [apply eqb_eq in E; subst k'; exfalso; apply N1; left; reflexivity|]. apply IH. intros X. apply N1. right. exact X.
    - apply IH; [exact N2|]. destruct H as [H|H]; [|exact H]. subst k. rewrite (proj2 (eqb_eq _ _) eq_refl) in E. discriminate. }
  rewrite F. reflexivity.
Qed.

Lemma find_name ext s : In (e_ext s) (map fst ext) -> match find (fun e => eqb (fst e) (e_ext s)) ext with Some e => Ok (snd e) | None => Err KeyError end = Ok (name_of ext s).
Proof.
  intros H. unfold name_of. destruct (find _ ext) eqn:E; [reflexivity|]. exfalso. apply in_map_iff in H as (e & E1 & He). pose proof (find_none _ _ E e He) as X. cbn in X. rewrite E1, (proj2 (eqb_eq _ _) eq_refl) in X. discriminate.
Qed.

Lemma fill_seg {A} (a b c : list A) (v : A) : fill_at (a ++ b ++ c) (seq (len a) (len b)) v = a ++ repeat v (len b) ++ c.
Proof.
  apply nth_error_ext. intros p. rewrite fill_at_nth. destruct (existsb (Nat.eqb p) (seq (len a) (len b))) eqn:E.
  - apply existsb_nat, in_seq in E. rewrite (nth_error_app2 a (b ++ c)) by lia. rewrite (nth_error_app2 a (repeat v (len b) ++ c)) by lia. rewrite (nth_error_app1 (repeat v (len b)) c) by (rewrite repeat_length; lia).
    rewrite (nth_error_app1 b c) by lia. rewrite (nth_error_nth' (repeat v (len b)) v) by (rewrite repeat_length; lia). rewrite nth_repeat.
    destruct (nth_error b (p - len a)) as [y|] eqn:Y; [reflexivity|apply nth_error_None in Y; lia].
  - assert (N : ~ (len a <= p < len a + len b)%nat) by (intros X; assert (X' : existsb (Nat.eqb p) (seq (len a) (len b)) = true) by (apply existsb_nat, in_seq; lia); congruence).
    destruct (le_lt_dec (len a) p) as [L|L].
    + rewrite !(nth_error_app2 a) by lia. rewrite (nth_error_app2 b) by lia. rewrite nth_error_app2 by (rewrite repeat_length; lia). rewrite repeat_length. destruct (nth_error c _); reflexivity.
    + rewrite !nth_error_app1 by lia. destruct (nth_error a _); reflexivity.
Qed.

Definition new_ids (G : list (list eseg)) : list string := flat_map (fun g => repeat (group_id g) (len g)) G.
Definition new_dict ext (G : list (list eseg)) : ext_table := fold_left (fun d g => dict_set d (group_id g) (group_name ext g)) G [].

Lemma foldM_app {S E} (f : S -> E -> res S) l1 l2 s : foldM f s (l1 ++ l2) = (s' <- foldM f s l1 ;; foldM f s' l2).
Proof. revert s. induction l1 as [|x l1 IH]; intros s; [reflexivity|]. cbn. destruct (f s x); [apply IH|reflexivity]. Qed.

(** closing the current group *)
Lemma close_step segs ext lim G cur rest st i : concat G ++ cur ++ rest = segs -> cur <> [] ->
  (forall s, In s segs -> In (e_ext s) (map fst ext)) ->
  x_first st = len (concat G) -> S (x_last st) = (len (concat G) + len cur)%nat -> x_ext st = new_ids G ++ map e_ext (cur ++ rest) -> x_d st = new_dict ext G ->
  (if Nat.eqb i (len segs) then Ok true else
            match nth_error (ext_join segs ext) (i - 1), nth_error (ext_join segs ext) i with
            | Some a, Some b => Ok (negb (same_ext a b) || Nat.eqb (x_count st) lim)
            | _, _ => Err IndexError
            end) = Ok true ->
  ext_turn segs ext (ext_join segs ext) lim st i = Ok (mk_ext 1 (len (concat G) + len cur) (len (concat G) + len cur) (new_ids (G ++ [cur]) ++ map e_ext rest) (new_dict ext (G ++ [cur]))).
Proof.
  intros C NE IN F L X D CL. unfold ext_turn. cbv zeta. rewrite CL. cbn [bind]. rewrite L, F.
  replace (len (concat G) + len cur - len (concat G))%nat with (len cur) by lia.
  assert (LN : len (new_ids G) = len (concat G)). { unfold new_ids. clear. induction G as [|g G IH]; [reflexivity|]. cbn. rewrite !app_length, repeat_length, IH. reflexivity. }
  assert (R1 : firstn (len cur) (skipn (len (concat G)) (map e_id segs)) = map e_id cur).
  { rewrite <- C, !map_app. rewrite <- (map_length e_id (concat G)), skipn_app, skipn_all, Nat.sub_diag. cbn [app skipn]. rewrite <- (map_length e_id cur), firstn_app, firstn_all, Nat.sub_diag. cbn [firstn]. apply app_nil_r. }
  rewrite R1. assert (R2 : firstn (len cur) (skipn (len (concat G)) (x_ext st)) = map e_ext cur).
  { rewrite X, <- LN, skipn_app, skipn_all, Nat.sub_diag. cbn [app skipn]. rewrite map_app, <- (map_length e_ext cur), firstn_app, firstn_all, Nat.sub_diag. cbn [firstn]. apply app_nil_r. }
  rewrite R2. destruct cur as [|c cur']; [congruence|]. assert (G0 : get_item (map e_ext (c :: cur')) 0 = Ok (e_ext c)) by reflexivity. rewrite G0. cbn [bind].
  rewrite find_name by (apply IN; rewrite <- C; apply in_or_app; right; left; reflexivity). cbn [bind]. f_equal. f_equal.
  - rewrite X, <- LN, map_app. rewrite <- (map_length e_ext (c :: cur')). rewrite fill_seg. rewrite map_length. unfold new_ids. rewrite flat_map_app. cbn [flat_map]. rewrite app_nil_r, <- app_assoc. reflexivity.
  - rewrite D. unfold new_dict. rewrite fold_left_app. reflexivity.
Qed.

Lemma ext_invariant segs ext lim : (1 <= lim)%nat -> NoDup (map fst ext) -> (forall s, In s segs -> In (e_ext s) (map fst ext)) ->
  forall i, (i < len segs)%nat -> exists G cur x rest st,
    foldM (ext_turn segs ext (ext_join segs ext) lim) (mk_ext 1 0 0 (map e_ext segs) []) (seq 1 i) = Ok st /\
    concat G ++ (cur ++ [x]) ++ rest = segs /\ (len (concat G) + len (cur ++ [x]) = S i)%nat /\
    grouping (same_speaker ext) lim (firstn (S i) segs) (G ++ [cur ++ [x]]) /\
    x_count st = len (cur ++ [x]) /\ x_first st = len (concat G) /\ x_last st = i /\ x_ext st = new_ids G ++ map e_ext ((cur ++ [x]) ++ rest) /\ x_d st = new_dict ext G.
Proof.
  intros HL ND IN. pose proof (join_unique segs ext ND IN) as J. induction i as [|i IH]; intros Hi.
  - destruct segs as [|s segs']; [cbn in Hi; lia|]. exists [], [], s, segs'. eexists. split; [reflexivity|]. cbn [concat app len x_count x_first x_last x_ext x_d]. split; [reflexivity|]. split; [reflexivity|]. split; [|repeat split].
    split; [reflexivity|]. split; [intros g [<-|[]]; split; [discriminate|]; split; [exact HL|apply consec_one]|]. intros [|p [|q pre]] g1 a b g2 post E; discriminate E.
  - destruct IH as (G & cur & x & rest & st & E & C & L & GR & CO & FI & LA & EX & DD); [lia|].
    rewrite seq_S, foldM_app, E. cbn [bind Nat.add foldM].
    destruct rest as [|y rest']. { exfalso. rewrite app_nil_r in C. rewrite <- C, app_length in Hi. lia. }
    assert (LP : (len (concat G ++ cur ++ [x]) = S i)%nat) by (rewrite app_length; exact L).
    assert (C' : (concat G ++ cur ++ [x]) ++ y :: rest' = segs) by (rewrite <- app_assoc; exact C).
    assert (NY : nth_error segs (S i) = Some y) by (rewrite <- C', nth_error_app2 by lia; rewrite LP, Nat.sub_diag; reflexivity).
    assert (NX : nth_error segs i = Some x).
    { rewrite <- C', nth_error_app1 by lia. rewrite app_assoc. rewrite app_assoc, app_length in LP. cbn [len] in LP. rewrite nth_error_app2 by lia. replace (i - len (concat G ++ cur))%nat with 0%nat by lia. reflexivity. }
    assert (NC : Nat.eqb (S i) (len segs) = false) by (apply Nat.eqb_neq; lia).
    assert (SE : same_ext (x, name_of ext x) (y, name_of ext y) = same_speaker ext x y) by reflexivity.
    assert (FN : firstn (S (S i)) segs = firstn (S i) segs ++ [y]).
    { clear - NY. revert segs NY. induction (S i) as [|k IHk]; intros [|s0 segs] NY; try discriminate NY; [injection NY as ->; reflexivity|]. cbn [nth_error] in NY. change (firstn (S (S k)) (s0 :: segs)) with (s0 :: firstn (S k) segs). rewrite (IHk segs NY). reflexivity. }
    assert (CLS : (if Nat.eqb (S i) (len segs) then Ok true else match nth_error (ext_join segs ext) (S i - 1), nth_error (ext_join segs ext) (S i) with Some a, Some b => Ok (negb (same_ext a b) || Nat.eqb (x_count st) lim) | _, _ => Err IndexError end)
      = Ok (negb (same_speaker ext x y) || Nat.eqb (len (cur ++ [x])) lim)).
    { rewrite NC, J, !nth_error_map. replace (S i - 1)%nat with i by lia. rewrite NX, NY. cbn [option_map]. rewrite SE, CO. reflexivity. }
    destruct (negb (same_speaker ext x y) || Nat.eqb (len (cur ++ [x])) lim) eqn:CL.
    + rewrite (close_step segs ext lim G (cur ++ [x]) (y :: rest') st (S i) C); try assumption; [|destruct cur; discriminate|rewrite LA; lia]. cbn [bind].
      exists (G ++ [cur ++ [x]]), [], y, rest'. eexists. split; [reflexivity|]. cbn [x_count x_first x_last x_ext x_d app len].
      assert (CG : concat (G ++ [cur ++ [x]]) = concat G ++ cur ++ [x]) by (rewrite concat_app; cbn [concat]; rewrite app_nil_r; reflexivity). rewrite CG.
      split; [exact C'|]. split; [rewrite LP; lia|]. split; [|repeat split; [rewrite LP; exact L|exact L]]. rewrite FN. apply grouping_new; [exact HL|exact GR|]. apply orb_true_iff in CL as [CL|CL]; [left; apply negb_true_iff; exact CL|right; apply Nat.eqb_eq; exact CL].
    + apply orb_false_iff in CL as (CL1 & CL2). apply negb_false_iff in CL1. apply Nat.eqb_neq in CL2. unfold ext_turn. cbv zeta. rewrite CLS. cbn [bind negb orb].
      exists G, (cur ++ [x]), y, rest'. eexists. split; [reflexivity|]. cbn [x_count x_first x_last x_ext x_d].
      assert (EY : ((cur ++ [x]) ++ [y]) ++ rest' = (cur ++ [x]) ++ y :: rest') by (rewrite <- (app_assoc (cur ++ [x])); reflexivity).
      split; [rewrite EY; exact C|]. split; [rewrite (app_length (cur ++ [x])); cbn [len]; lia|]. split; [rewrite FN; apply grouping_extend; assumption|]. split; [rewrite CO, (app_length (cur ++ [x])); cbn [len]; lia|]. split; [exact FI|]. split; [reflexivity|]. split; [rewrite EY; exact EX|exact DD].
Qed.

(** merge_adjacent_segments: the segments are cut, in order, into groups of at most [max] neighbours of
    the same recording and name, as long as possible; the extended id of each segment becomes the joined
    ids of its group, and the table lists the groups with their names. *)
Theorem C34_ext_merge : forall segs ext max, NoDup (map fst ext) -> (forall s, In s segs -> In (e_ext s) (map fst ext)) ->
  exists groups, grouping (same_speaker ext) (match max with O => len segs | _ => max end) segs groups /\
    (exists d, ext_merge segs ext max = Ok (flat_map (fun g => repeat (group_id g) (len g)) groups, d) /\
       (NoDup (map group_id groups) -> d = map (fun g => (group_id g, group_name ext g)) groups)).
Proof.
  intros segs ext max ND IN. unfold ext_merge. cbv zeta. set (lim := match max with O => len segs | _ => max end).
  destruct (Nat.eq_dec (len segs) 0) as [Z|NZ].
  - destruct segs; [|discriminate Z]. exists []. split; [split; [reflexivity|]; split; [intros g []|intros [|p pre]; discriminate]|]. eexists. split; [reflexivity|]. reflexivity.
  - assert (HL : (1 <= lim)%nat) by (unfold lim; destruct max; lia). clearbody lim.
    destruct (ext_invariant segs ext lim HL ND IN (len segs - 1) ltac:(lia)) as (G & cur & x & rest & st & E & C & L & GR & CO & FI & LA & EX & DD).
    replace (seq 1 (len segs)) with (seq 1 (len segs - 1) ++ [len segs]) by (replace (len segs) with (S (len segs - 1)) at 3 by lia; rewrite seq_S; do 2 f_equal; lia). rewrite foldM_app, E. cbn [bind foldM]. replace (S (len segs - 1)) with (len segs) in * by lia.
    assert (RN : rest = []). { assert (LS : len segs = (len (concat G) + len (cur ++ [x]) + len rest)%nat) by (rewrite <- C at 1; rewrite !(app_length (concat G)), (app_length (cur ++ [x])); lia). destruct rest; [reflexivity|cbn [len] in LS; lia]. } subst rest.
    rewrite (close_step segs ext lim G (cur ++ [x]) [] st (len segs) C); try assumption; [|destruct cur; discriminate|rewrite LA; lia|rewrite Nat.eqb_refl; reflexivity]. cbn [bind x_ext x_d map]. rewrite app_nil_r.
    exists (G ++ [cur ++ [x]]). split; [rewrite firstn_all in GR; exact GR|]. eexists. split; [reflexivity|].
    intros NDG. clear - NDG. set (GG := G ++ [cur ++ [x]]) in *. clearbody GG. unfold new_dict.
    assert (DS : forall d k v, ~ In k (map fst d) -> dict_set d k v = d ++ [(k, v)]).
    { clear. induction d as [|[k' v'] d IH]; intros k v N; [reflexivity|]. cbn [dict_set]. destruct (eqb k' k) eqn:E; [apply eqb_eq in E; subst; exfalso; apply N; left; reflexivity|]. rewrite IH by (intros X; apply N; right; exact X). reflexivity. }
    assert (GEN : forall GG d, NoDup (map fst d ++ map group_id GG) -> fold_left (fun d g => dict_set d (group_id g) (group_name ext g)) GG d = d ++ map (fun g => (group_id g, group_name ext g)) GG).
    { clear NDG GG. induction GG as [|g GG IH]; intros d N; cbn [fold_left map]; [rewrite app_nil_r; reflexivity|]. cbn [map] in N. pose proof (NoDup_remove_2 _ _ _ N) as N2. rewrite DS by (intros X; apply N2, in_or_app; left; exact X). rewrite IH.
      - rewrite <- app_assoc. reflexivity.
      - rewrite map_app. cbn [map fst]. rewrite <- app_assoc. exact N. }
    apply (GEN GG []). exact NDG.
Qed.
Print Assumptions C34_ext_merge.

(** If the joined ids are distinct, the name of every segment is the same before and after. *)
Theorem C34_ext_merge_keeps_names : forall segs ext max ids d, NoDup (map fst ext) -> (forall s, In s segs -> In (e_ext s) (map fst ext)) ->
  ext_merge segs ext max = Ok (ids, d) ->
  (forall groups, grouping (same_speaker ext) (match max with O => len segs | _ => max end) segs groups -> NoDup (map group_id groups)) ->
  len ids = len segs /\
  forall i s id, nth_error segs i = Some s -> nth_error ids i = Some id ->
    name_of d (mk_eseg (e_id s) (e_file s) (e_tb s) (e_te s) id) = name_of ext s.
Proof.
  intros segs ext max ids d ND IN E U. destruct (C34_ext_merge segs ext max ND IN) as (groups & GR & d' & E' & DD). rewrite E in E'. injection E' as -> ->. specialize (U groups GR). specialize (DD U). subst d'.
  destruct GR as (C & S & _).
  assert (LL : len (flat_map (fun g => repeat (group_id g) (len g)) groups) = len segs). { rewrite <- C. clear. induction groups as [|g G IH]; [reflexivity|]. cbn. rewrite !app_length, repeat_length, IH. reflexivity. }
  split; [exact LL|]. intros i s id H1 H2. 
  assert (W : exists g, In g groups /\ In s g /\ id = group_id g).
  { clear - C H1 H2. revert segs i C H1 H2. induction groups as [|g G IH]; intros segs i C H1 H2; [cbn in H2; destruct i; discriminate|]. cbn [concat flat_map] in *. subst segs. destruct (le_lt_dec (len g) i) as [L|L].
    - rewrite nth_error_app2 in H1 by lia. rewrite nth_error_app2 in H2 by (rewrite repeat_length; lia). rewrite repeat_length in H2. destruct (IH _ _ eq_refl H1 H2) as (g' & A & B & D). exists g'. split; [right; exact A|]. split; assumption.
    - rewrite nth_error_app1 in H1 by lia. rewrite nth_error_app1 in H2 by (rewrite repeat_length; lia). exists g. split; [left; reflexivity|]. split; [eapply nth_error_In; exact H1|]. apply nth_error_In, repeat_spec in H2. exact H2. }
  destruct W as (g & Hg & Hs & ->). destruct (S g Hg) as (NE & _ & CS).
  assert (NM : name_of ext s = group_name ext g).
  { destruct g as [|a g']; [congruence|]. cbn [group_name]. clear - CS Hs. revert a CS Hs. induction g' as [|b g' IH]; intros a CS Hs; [destruct Hs as [<-|[]]; reflexivity|]. destruct Hs as [<-|Hs]; [reflexivity|].
    pose proof (CS 0%nat a b eq_refl eq_refl) as Q. unfold same_speaker in Q. apply andb_true_iff in Q as (_ & Q). rewrite (IH b); [|intros i x y H1 H2; apply (CS (Datatypes.S i)); assumption|exact Hs].
    destruct (name_of ext a) as [na|]; [|discriminate Q]. destruct (name_of ext b) as [nb|]; [|discriminate Q]. apply eqb_eq in Q. congruence. }
  rewrite NM. unfold name_of. cbn [e_ext]. clear - U Hg. induction groups as [|g0 G IH]; [destruct Hg|]. cbn [map find fst] in *. inversion U as [|? ? N1 N2]; subst. destruct (eqb (group_id g0) (group_id g)) eqn:Q.
  - apply eqb_eq in Q. destruct Hg as [->|Hg]; [reflexivity|]. exfalso. apply N1. rewrite Q. apply in_map. exact Hg.
  - destruct Hg as [->|Hg]; [rewrite (proj2 (eqb_eq _ _) eq_refl) in Q; discriminate|]. apply IH; assumption.
Qed.
Print Assumptions C34_ext_merge_keeps_names.

Definition ext_demo := [mk_eseg "a" "f" 0 1 "a"; mk_eseg "b" "f" 1 2 "b"; mk_eseg "c" "f" 2 3 "c"; mk_eseg "d" "f" 3 4 "d"; mk_eseg "e" "g" 0 1 "e"].
Definition ext_names : ext_table := [("a", Some "x"); ("b", Some "x"); ("c", Some "x"); ("d", None); ("e", None)]%string.
Example C34_ext_witness : ext_merge ext_demo ext_names 2 = Ok (["a@b"; "a@b"; "c"; "d"; "e"], [("a@b", Some "x"); ("c", Some "x"); ("d", None); ("e", None)])%string
  /\ ext_merge ext_demo ext_names 0 = Ok (["a@b@c"; "a@b@c"; "a@b@c"; "d"; "e"], [("a@b@c", Some "x"); ("d", None); ("e", None)])%string.
Proof. split; vm_compute; reflexivity. Qed.

(** ids containing the separator can collide: two groups then share one table row and a name is lost *)
Theorem C34_ext_id_collision_refuted : exists segs ext ids d, NoDup (map e_id segs) /\ NoDup (map fst ext) /\ (forall s, In s segs -> In (e_ext s) (map fst ext)) /\
  ext_merge segs ext 0 = Ok (ids, d) /\ exists s, In s segs /\ name_of ext s = Some "x"%string /\ ~ In (Some "x"%string) (map snd d).
Proof.
  exists [mk_eseg "a" "f" 0 1 "a"; mk_eseg "b" "f" 1 2 "b"; mk_eseg "a@b" "f" 2 3 "c"], [("a", Some "x"); ("b", Some "x"); ("c", Some "y")]%string. eexists _, _.
  split; [repeat constructor; cbn; intuition discriminate|]. split; [repeat constructor; cbn; intuition discriminate|]. split; [cbn; intuition (subst; cbn; tauto)|]. split; [vm_compute; reflexivity|].
  exists (mk_eseg "a" "f" 0 1 "a"). split; [left; reflexivity|]. split; [reflexivity|]. cbn. intuition discriminate.
Qed.
Print Assumptions C34_ext_id_collision_refuted.
