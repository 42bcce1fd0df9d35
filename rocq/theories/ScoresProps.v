(** C25 (scores), C29, C30, C52: score matrices -- filter, split, merge, alignment, extraction of
    target and non-target scores, transformation. *)
From Verif Require Import TrialsProofs TrialsProps ScoresProofs.
Open Scope list_scope.
Open Scope Z_scope.

(** ** C25: filter and split of scores *)

(** keep=True.  The requested names in the requested order; every pair keeps its score and its flag.
    With raise_missing an absent name raises; without, a pair with an absent name gets score 0 and
    is not flagged. *)
Theorem C25_scores_filter : forall A (F : sops A) o mods segs, scores_ok F o -> s_fin F (s_zero F) = true -> NoDup mods -> NoDup segs ->
  (incl mods (s_mod o) /\ incl segs (s_seg o) -> forall rm, exists r, scores_filter F o mods segs true rm = Ok r /\ scores_ok F r /\
     s_mod r = mods /\ s_seg r = segs /\
     forall m s, In m mods -> In s segs -> score_of r m s = score_of o m s /\ (scored r m s <-> scored o m s)) /\
  (~ (incl mods (s_mod o) /\ incl segs (s_seg o)) ->
     scores_filter F o mods segs true true = Err BareException /\
     exists r, scores_filter F o mods segs true false = Ok r /\ scores_ok F r /\ s_mod r = mods /\ s_seg r = segs /\
       forall m s, In m mods -> In s segs ->
         (In m (s_mod o) /\ In s (s_seg o) -> score_of r m s = score_of o m s /\ (scored r m s <-> scored o m s)) /\
         (~ (In m (s_mod o) /\ In s (s_seg o)) -> score_of r m s = Some (s_zero F) /\ ~ scored r m s)).
Proof.
  intros A F o mods segs O Z N1 N2. split.
  - intros H rm. destruct (scores_filter_ok F o mods segs rm O Z N1 N2 (or_introl H)) as (r & E & Or & M & S & G).
    exists r. split; [exact E|]. split; [exact Or|]. split; [exact M|]. split; [exact S|]. intros m s Hm Hs. destruct (G m s Hm Hs) as (G1 & G2).
    split; [|exact G2]. rewrite G1. destruct H as (I1 & I2). destruct O as (O1 & O2 & O3 & _).
    destruct (cell_total _ _ _ m s O3 (I1 _ Hm) (I2 _ Hs)) as (v & E'). unfold score_of. rewrite E'. reflexivity.
  - intros H. split; [apply scores_filter_missing; exact H|].
    destruct (scores_filter_ok F o mods segs false O Z N1 N2 (or_intror eq_refl)) as (r & E & Or & M & S & G).
    exists r. split; [exact E|]. split; [exact Or|]. split; [exact M|]. split; [exact S|]. intros m s Hm Hs. destruct (G m s Hm Hs) as (G1 & G2). split.
    + intros (I1 & I2). split; [|exact G2]. rewrite G1. destruct O as (O1 & O2 & O3 & _).
      destruct (cell_total _ _ _ m s O3 I1 I2) as (v & E'). unfold score_of. rewrite E'. reflexivity.
    + intros N. rewrite G1, G2. unfold score_of, scored. rewrite !cell_none by exact N. split; [reflexivity|discriminate].
Qed.
Print Assumptions C25_scores_filter.

Definition sops_Z : sops Z := mk_sops 0 Z.add (fun _ => true).
Definition scores_e1 : scores Z := mk_scores ["m1"; "m2"]%string ["t1"; "t2"; "t3"]%string
  (mk_mat 3 [[5; 0; 7]; [0; 2; 0]]) (mk_mat 3 [[true; false; true]; [false; true; false]]).

(** keep=False is broken: the segments are complemented against the model names, so removing nothing
    from a legal object raises instead of returning it. *)
Theorem C25_scores_remove_refuted : exists (o : scores Z), scores_ok sops_Z o /\
  scores_filter sops_Z o [] [] false true = Err BareException.
Proof.
  exists scores_e1. split; [|vm_compute; reflexivity]. split; [repeat constructor; cbn; intuition discriminate|]. split; [repeat constructor; cbn; intuition discriminate|].
  split; [split; [reflexivity|]; split; [reflexivity|]; repeat constructor|]. split; [split; [reflexivity|]; split; [reflexivity|]; repeat constructor|]. reflexivity.
Qed.

(** Every part of a split is a sub-matrix with the original entries; every pair of names belongs to
    exactly one part. *)
Theorem C25_scores_split : forall A (F : sops A) o P Q, scores_ok F o -> 1 <= P -> 1 <= Q ->
  (forall i j, 1 <= i <= P -> 1 <= j <= Q -> exists p, scores_split F o i P j Q = Ok p /\ scores_ok F p /\
     incl (s_mod p) (s_mod o) /\ incl (s_seg p) (s_seg o) /\
     forall m s, In m (s_mod p) -> In s (s_seg p) -> score_of p m s = score_of o m s /\ (scored p m s <-> scored o m s)) /\
  (forall m s, In m (s_mod o) -> In s (s_seg o) -> exists i j, 1 <= i <= P /\ 1 <= j <= Q /\
     forall i' j' p, 1 <= i' <= P -> 1 <= j' <= Q -> scores_split F o i' P j' Q = Ok p ->
       (In m (s_mod p) /\ In s (s_seg p) <-> i' = i /\ j' = j)).
Proof.
  intros A F o P Q O HP HQ. pose proof O as (O1 & O2 & O3 & O4 & _). pose proof (proj2 (proj1 (scores_ok_iff F o) O)) as FO.
  assert (SP : forall i j, 1 <= i <= P -> 1 <= j <= Q -> exists p mi si, split_list (s_mod o) i P = Ok (s_mod p, mi) /\ split_list (s_seg o) j Q = Ok (s_seg p, si) /\
     scores_split F o i P j Q = Ok p /\ scores_ok F p /\ incl (s_mod p) (s_mod o) /\ incl (s_seg p) (s_seg o) /\
     forall m s, In m (s_mod p) -> In s (s_seg p) -> score_of p m s = score_of o m s /\ (scored p m s <-> scored o m s)).
  { intros i j Hi Hj. destruct (split_loc (s_mod o) i P Hi) as (ms & mi & E1 & L1 & N1). destruct (split_loc (s_seg o) j Q Hj) as (ss & si & E2 & L2 & N2).
    specialize (N1 O1). specialize (N2 O2).
    destruct (gather (s_scr o) _ _ mi si ms ss O1 O2 N1 N2 O3 L1 L2) as (S & ES & SS & GS).
    destruct (gather (s_mask o) _ _ mi si ms ss O1 O2 N1 N2 O4 L1 L2) as (M & EM & SM & GM).
    exists (mk_scores ms ss S M), mi, si. unfold scores_split. rewrite E1, E2. cbn [bind]. rewrite ES, EM. cbn [bind].
    assert (OK : scores_ok F (mk_scores ms ss S M)).
    { apply scores_ok_iff. split; [split; [exact N1|]; split; [exact N2|]; split; assumption|]. intros m s x E. unfold score_of in E. cbn [s_mod s_seg s_scr] in E.
      pose proof (cell_some_in _ _ _ _ _ _ E) as (Im & Is). rewrite GS in E by assumption. eapply FO. exact E. }
    rewrite scores_new_ok by exact OK. cbn [s_mod s_seg s_scr s_mask]. split; [reflexivity|]. split; [reflexivity|]. split; [reflexivity|]. split; [exact OK|].
    split; [apply (locs_incl _ _ _ L1)|]. split; [apply (locs_incl _ _ _ L2)|]. intros m s Hm Hs. unfold score_of, scored. cbn [s_mod s_seg s_scr s_mask].
    rewrite GS, GM by assumption. split; reflexivity. }
  split.
  - intros i j Hi Hj. destruct (SP i j Hi Hj) as (p & _ & _ & _ & _ & H). eauto.
  - intros m s Hm Hs. destruct (split_unique _ P m HP O1 Hm) as (i & Hi & Ui). destruct (split_unique _ Q s HQ O2 Hs) as (j & Hj & Uj).
    exists i, j. split; [exact Hi|]. split; [exact Hj|]. intros i' j' p Hi' Hj' E. destruct (SP i' j' Hi' Hj') as (p' & mi & si & S1 & S2 & E' & _).
    assert (p' = p) by congruence. subst p'. rewrite (Ui i' _ mi Hi' S1), (Uj j' _ si Hj' S2). reflexivity.
Qed.
Print Assumptions C25_scores_split.

(** ** C29: merge *)

(** Objects whose scores are zero outside the mask, no pair scored twice: the merge succeeds, its
    trials are those of the inputs and each has the score of the input it comes from. *)
Theorem C29_merge : forall A (F : sops A) l, add_laws F -> Forall (scores_ok F) l -> Forall (clean F) l -> (2 <= len l)%nat -> disjoint_scores l ->
  exists r, scores_merge F l = Ok r /\ scores_ok F r /\ clean F r /\
    sorted_set (s_mod r) (fun x => exists o, In o l /\ In x (s_mod o)) /\
    sorted_set (s_seg r) (fun x => exists o, In o l /\ In x (s_seg o)) /\
    (forall m s, scored r m s <-> exists o, In o l /\ scored o m s) /\
    forall o m s, In o l -> scored o m s -> score_of r m s = score_of o m s.
Proof.
  intros A F l LW O C L D. destruct l as [|a l]; [cbn in L; lia|]. inversion O as [|? ? Oa Ol]; subst. inversion C as [|? ? Ca Cl]; subst.
  destruct (scores_fold F l LW a Oa Ca Ol Cl D) as (r & E & Or & Cr & Sr & Mr & Gr & Tr & V1 & V2).
  destruct (Sr ltac:(destruct l; [cbn in L; lia|discriminate])) as (S1 & S2).
  exists r. cbn [scores_merge]. rewrite E. cbn [bind]. split; [apply scores_ok_new; exact Or|]. split; [exact Or|]. split; [exact Cr|].
  assert (X : forall P : scores A -> Prop, (exists o, In o (a :: l) /\ P o) <-> P a \/ exists o, In o l /\ P o).
  { intros P. split; [intros (o & [<-|H] & Q); eauto|intros [Q|(o & H & Q)]; eauto with datatypes]. }
  split; [split; [exact S1|]; intros x; rewrite X; apply Mr|]. split; [split; [exact S2|]; intros x; rewrite X; apply Gr|].
  split; [intros m s; rewrite X; apply Tr|]. intros o m s [<-|Ho] H; [apply V1; exact H|apply V2; assumption].
Qed.
Print Assumptions C29_merge.

(** A pair scored by two of the inputs makes the merge fail: no score is ever silently overwritten or
    added to another valid one. *)
Theorem C29_merge_overlap : forall A (F : sops A) l, Forall (scores_ok F) l -> ~ disjoint_scores l -> scores_merge F l = Err AssertionError.
Proof.
  intros A F l O D. destruct l as [|a l]; [exfalso; apply D; constructor|]. cbn [scores_merge]. inversion O as [|? ? Oa Ol]; subst.
  rewrite scores_fold_overlap; [reflexivity|apply scores_ok_iff in Oa; apply Oa| |exact D].
  eapply Forall_impl; [|exact Ol]. intros b Hb. apply scores_ok_iff in Hb. apply Hb.
Qed.
Print Assumptions C29_merge_overlap.

(** ** C29: alignment *)

Definition arg_ok (a : ndx_or_key) : Prop := match a with ANdx n => ndx_ok n | AKey k => key_ok k end.
(** the pairs the trial list or key lists *)
Definition listed (a : ndx_or_key) (m s : string) : Prop :=
  match a with ANdx n => trial n m s | AKey k => target k m s \/ nontarget k m s end.

Lemma arg_mask_ok a : arg_ok a -> NoDup (arg_mod a) /\ NoDup (arg_seg a) /\
  exists K, arg_mask a = Ok K /\ has_shape K (len (arg_mod a)) (len (arg_seg a)) /\
  forall m s, cell (arg_mod a) (arg_seg a) K m s = Some true <-> listed a m s.
Proof.
  destruct a as [n|k]; cbn [arg_ok arg_mod arg_seg arg_mask listed].
  - intros (H1 & H2 & H3). split; [exact H1|]. split; [exact H2|]. exists (n_mask n). split; [reflexivity|]. split; [exact H3|]. reflexivity.
  - intros (H1 & H2 & H3 & H4 & _). split; [exact H1|]. split; [exact H2|].
    destruct (cell_mmap2 orb (k_mod k) (k_seg k) (k_tar k) (k_non k) _ _ H3 H4) as (K & E & S & G). exists K. split; [exact E|]. split; [exact S|].
    intros m s. rewrite G. unfold target, nontarget.
    destruct (in_dec string_dec m (k_mod k)) as [Im|Im]; [destruct (in_dec string_dec s (k_seg k)) as [Is|Is]|].
    + destruct (cell_total _ _ _ m s H3 Im Is) as (x & ->), (cell_total _ _ _ m s H4 Im Is) as (y & ->). destruct x, y; cbn; intuition congruence.
    + rewrite !cell_none by tauto. intuition discriminate.
    + rewrite !cell_none by tauto. intuition discriminate.
Qed.

(** [raise_missing=False]: always succeeds; the result has the names of the list; a pair is flagged iff
    it is listed and was scored, and then has the score of the system. *)
Theorem C29_align : forall A (F : sops A) o a, scores_ok F o -> s_fin F (s_zero F) = true -> arg_ok a ->
  exists r, scores_align F o a false = Ok r /\ scores_ok F r /\ s_mod r = arg_mod a /\ s_seg r = arg_seg a /\
    (forall m s, scored r m s <-> listed a m s /\ scored o m s) /\
    (forall m s, scored r m s -> score_of r m s = score_of o m s).
Proof.
  intros A F o a O Z Ha. destruct (arg_mask_ok a Ha) as (N1 & N2 & K & EK & SK & LK). unfold scores_align.
  destruct (scores_filter_ok F o (arg_mod a) (arg_seg a) false O Z N1 N2 (or_intror eq_refl)) as (r & E & Or & M & S & G). rewrite E. cbn [bind]. rewrite EK. cbn [bind].
  pose proof Or as (R1 & R2 & R3 & R4 & R5). rewrite M, S in R3, R4.
  destruct (cell_mmap2 andb (arg_mod a) (arg_seg a) K (s_mask r) _ _ SK R4) as (W & EW & SW & GW). rewrite EW. cbn [bind].
  destruct (cell_mmap2 andb (arg_mod a) (arg_seg a) K (mmap negb W) _ _ SK (mmap_shape negb _ _ _ SW)) as (V & EV & SV & GV). rewrite EV. cbn [bind].
  rewrite andb_false_r.
  assert (GW' : forall m s, cell (arg_mod a) (arg_seg a) W m s = Some true <-> listed a m s /\ scored o m s).
  { intros m s. split.
    - intros C. pose proof (cell_some_in _ _ _ _ _ _ C) as (Im & Is). rewrite GW in C. rewrite <- LK. destruct (G m s Im Is) as (_ & <-). unfold scored. rewrite M, S.
      destruct (cell _ _ K m s) as [[|]|], (cell _ _ (s_mask r) m s) as [[|]|]; try discriminate C; auto.
    - intros (C1 & C2). apply LK in C1. pose proof (cell_some_in _ _ _ _ _ _ C1) as (Im & Is). rewrite GW, C1. apply (G m s Im Is) in C2. unfold scored in C2. rewrite M, S in C2. rewrite C2. reflexivity. }
  eexists. split; [reflexivity|]. unfold scored at 1 3, score_of at 1. cbn [s_mod s_seg s_scr s_mask]. rewrite M, S. split.
  { split; [exact N1|]. split; [exact N2|]. split; [exact R3|]. split; [exact SW|]. exact R5. }
  split; [reflexivity|]. split; [reflexivity|]. split; [exact GW'|]. intros m s C. pose proof (cell_some_in _ _ _ _ _ _ C) as (Im & Is).
  destruct (G m s Im Is) as (G1 & _). unfold score_of in G1 at 1. rewrite M, S in G1. rewrite G1. apply GW' in C as (_ & C).
  destruct (scored_score o m s ltac:(apply scores_ok_iff in O; apply O) C) as (x & ->). reflexivity.
Qed.
Print Assumptions C29_align.

Lemma incl_str_dec (a b : list string) : {incl a b} + {~ incl a b}.
Proof. destruct (forallb (fun x => x) (fst (ismember a b))) eqn:E; [left; apply ismember_all; exact E|right; intros H; apply ismember_all in H; congruence]. Qed.

(** [raise_missing=True] fails with an exception iff a name of the list is unknown to the system or a
    listed trial has no score; otherwise the trials of the result are exactly the listed ones, each
    with the score of the system. *)
Theorem C29_align_raise : forall A (F : sops A) o a, scores_ok F o -> s_fin F (s_zero F) = true -> arg_ok a ->
  (incl (arg_mod a) (s_mod o) -> incl (arg_seg a) (s_seg o) -> (forall m s, listed a m s -> scored o m s) ->
   exists r, scores_align F o a true = Ok r /\ scores_ok F r /\ s_mod r = arg_mod a /\ s_seg r = arg_seg a /\
     forall m s, (scored r m s <-> listed a m s) /\ (listed a m s -> score_of r m s = score_of o m s)) /\
  (~ (incl (arg_mod a) (s_mod o) /\ incl (arg_seg a) (s_seg o)) -> scores_align F o a true = Err BareException) /\
  ((exists m s, listed a m s /\ ~ scored o m s) -> scores_align F o a true = Err BareException).
Proof.
  intros A F o a O Z Ha. destruct (arg_mask_ok a Ha) as (N1 & N2 & K & EK & SK & LK).
  assert (MISS : ~ (incl (arg_mod a) (s_mod o) /\ incl (arg_seg a) (s_seg o)) -> scores_align F o a true = Err BareException).
  { intros H. unfold scores_align. rewrite scores_filter_missing by exact H. reflexivity. }
  assert (IN : incl (arg_mod a) (s_mod o) /\ incl (arg_seg a) (s_seg o) ->
    exists r M V, scores_align F o a true = (if many V then Err BareException else Ok r) /\
      has_shape V (len (arg_mod a)) (len (arg_seg a)) /\ s_mod r = arg_mod a /\ s_seg r = arg_seg a /\ s_mask r = M /\ scores_ok F r /\
      (forall m s, cell (arg_mod a) (arg_seg a) V m s = Some true <-> listed a m s /\ ~ scored o m s) /\
      (forall m s, scored r m s <-> listed a m s /\ scored o m s) /\
      (forall m s, In m (arg_mod a) -> In s (arg_seg a) -> score_of r m s = score_of o m s)).
  { intros H. unfold scores_align.
    destruct (scores_filter_ok F o (arg_mod a) (arg_seg a) true O Z N1 N2 (or_introl H)) as (r & E & Or & M & S & G). rewrite E. cbn [bind]. rewrite EK. cbn [bind].
    pose proof Or as (R1 & R2 & R3 & R4 & R5). rewrite M, S in R3, R4.
    destruct (cell_mmap2 andb (arg_mod a) (arg_seg a) K (s_mask r) _ _ SK R4) as (W & EW & SW & GW). rewrite EW. cbn [bind].
    destruct (cell_mmap2 andb (arg_mod a) (arg_seg a) K (mmap negb W) _ _ SK (mmap_shape negb _ _ _ SW)) as (V & EV & SV & GV). rewrite EV. cbn [bind].
    rewrite andb_true_r. exists (mk_scores (s_mod r) (s_seg r) (s_scr r) W), W, V. cbn [s_mod s_seg s_scr s_mask].
    split; [reflexivity|]. split; [exact SV|]. split; [exact M|]. split; [exact S|]. split; [reflexivity|]. rewrite M, S.
    assert (GR : forall m s, In m (arg_mod a) -> In s (arg_seg a) -> cell (arg_mod a) (arg_seg a) (s_mask r) m s = Some true <-> scored o m s).
    { intros m s Im Is. destruct (G m s Im Is) as (_ & <-). unfold scored. rewrite M, S. reflexivity. }
    split; [split; [exact N1|]; split; [exact N2|]; split; [exact R3|]; split; [exact SW|exact R5]|].
    split; [|split].
    - intros m s. rewrite <- LK. split.
      + intros C. pose proof (cell_some_in _ _ _ _ _ _ C) as (Im & Is). rewrite GV, cell_mmap, GW in C. rewrite <- (GR m s Im Is).
        destruct (cell _ _ K m s) as [[|]|]; destruct (cell _ _ (s_mask r) m s) as [[|]|]; try discriminate C; cbn in C; try discriminate C. split; [reflexivity|discriminate].
      + intros (C1 & C2). pose proof (cell_some_in _ _ _ _ _ _ C1) as (Im & Is). rewrite GV, cell_mmap, GW, C1. rewrite <- (GR m s Im Is) in C2.
        destruct (cell_total _ _ _ m s R4 Im Is) as (b & Eb). rewrite Eb in *. destruct b; [congruence|reflexivity].
    - intros m s. unfold scored at 1. cbn [s_mod s_seg s_mask]. rewrite <- LK. split.
      + intros C. pose proof (cell_some_in _ _ _ _ _ _ C) as (Im & Is). rewrite <- (GR m s Im Is). rewrite GW in C.
        destruct (cell _ _ K m s) as [[|]|]; destruct (cell _ _ (s_mask r) m s) as [[|]|]; try discriminate C; auto.
      + intros (C1 & C2). pose proof (cell_some_in _ _ _ _ _ _ C1) as (Im & Is). rewrite GW, C1. apply GR in C2; [|exact Im|exact Is]. rewrite C2. reflexivity.
    - intros m s Im Is. destruct (G m s Im Is) as (G1 & _). unfold score_of at 1. cbn [s_mod s_seg s_scr]. unfold score_of in G1 at 1. rewrite M, S in G1. rewrite G1.
      destruct H as (I1 & I2). destruct O as (O1 & O2 & O3 & _). destruct (cell_total _ _ _ m s O3 (I1 _ Im) (I2 _ Is)) as (v & E'). unfold score_of. rewrite E'. reflexivity. }
  split; [|split; [exact MISS|]].
  - intros I1 I2 L. destruct (IN (conj I1 I2)) as (r & M & V & E & SV & Mr & Sr & _ & Or & GV & GS & GR).
    assert (Q : many V = false).
    { destruct (many V) eqn:Q; [|reflexivity]. apply (many_cell (arg_mod a) (arg_seg a)) in Q as (m & s & C); try assumption. apply GV in C as (C1 & C2). exfalso. auto. }
    rewrite Q in E. exists r. split; [exact E|]. split; [exact Or|]. split; [exact Mr|]. split; [exact Sr|]. intros m s. split; [rewrite GS; split; [tauto|auto]|].
    intros C. apply LK in C. pose proof (cell_some_in _ _ _ _ _ _ C) as (Im & Is). apply GR; assumption.
  - intros (m & s & H).
    assert (D : (incl (arg_mod a) (s_mod o) /\ incl (arg_seg a) (s_seg o)) \/ ~ (incl (arg_mod a) (s_mod o) /\ incl (arg_seg a) (s_seg o))).
    { destruct (incl_str_dec (arg_mod a) (s_mod o)) as [X|X]; [destruct (incl_str_dec (arg_seg a) (s_seg o)) as [Y|Y]|]; tauto. }
    destruct D as [D|D]; [|apply MISS; exact D]. destruct (IN D) as (r & M & V & E & SV & _ & _ & _ & _ & GV & _). rewrite E.
    assert (Q : many V = true) by (apply (many_cell (arg_mod a) (arg_seg a)); [exact N1|exact N2|exact SV|]; exists m, s; apply GV; exact H). rewrite Q. reflexivity.
Qed.
Print Assumptions C29_align_raise.

(** set_missing_to_value: the trials of the result are exactly the listed ones; a listed trial with a
    score keeps it, one without gets the value. *)
Theorem C29_set_missing : forall A (F : sops A) o a val, scores_ok F o -> s_fin F (s_zero F) = true -> arg_ok a ->
  exists r, set_missing_to_value F o a val = Ok r /\ s_mod r = arg_mod a /\ s_seg r = arg_seg a /\ scores_shape r /\
    (forall m s, scored r m s <-> listed a m s) /\
    (forall m s, listed a m s -> scored o m s -> score_of r m s = score_of o m s) /\
    (forall m s, listed a m s -> ~ scored o m s -> score_of r m s = Some val).
Proof.
  intros A F o a val O Z Ha. destruct (arg_mask_ok a Ha) as (N1 & N2 & K & EK & SK & LK).
  destruct (C29_align A F o a O Z Ha) as (r & E & Or & M & S & T & V). unfold set_missing_to_value. rewrite E. cbn [bind]. rewrite EK. cbn [bind].
  destruct Or as (R1 & R2 & R3 & R4 & _). rewrite M, S in R3, R4. unfold scored in T at 1, V at 1. unfold score_of in V at 1. rewrite M, S in T, V.
  destruct (cell_mmap2 andb (arg_mod a) (arg_seg a) (mmap negb (s_mask r)) K _ _ (mmap_shape negb _ _ _ R4) SK) as (W & EW & SW & GW). rewrite EW. cbn [bind].
  assert (FILL : forall B (X : mat B) v, has_shape X (len (arg_mod a)) (len (arg_seg a)) -> exists Y, mfill_mask X W v = Ok Y /\ has_shape Y (len (arg_mod a)) (len (arg_seg a)) /\
    forall m s, cell (arg_mod a) (arg_seg a) Y m s = match cell (arg_mod a) (arg_seg a) W m s, cell (arg_mod a) (arg_seg a) X m s with Some b, Some x => Some (if b then v else x) | _, _ => None end).
  { intros B X v HX. destruct (cell_mmap2 (fun (b : bool) x => if b then v else x) (arg_mod a) (arg_seg a) W X _ _ SW HX) as (Y & EY & SY & GY). exists Y.
    split; [|split; assumption]. unfold mmap2 in EY. unfold mfill_mask. pose proof HX as (X1 & X2 & X3). destruct SW as (W1 & W2 & W3).
    destruct (shape_is W (len (m_rows X)) (m_cols X)); [|discriminate]. rewrite <- EY. rewrite W2, X2. reflexivity. }
  destruct (FILL A (s_scr r) val R3) as (S1 & ES & SS & GS). destruct (FILL bool (s_mask r) true R4) as (M1 & EM & SM & GM). rewrite ES, EM. cbn [bind].
  eexists. split; [reflexivity|]. unfold scores_shape, scored at 1, score_of at 1 3. cbn [s_mod s_seg s_scr s_mask]. rewrite M, S.
  split; [reflexivity|]. split; [reflexivity|]. split; [split; [exact N1|]; split; [exact N2|]; split; assumption|]. split; [|split].
  - intros m s. rewrite GM, GW, cell_mmap. rewrite <- LK. specialize (T m s). rewrite <- LK in T.
    destruct (in_dec string_dec m (arg_mod a)) as [Im|Im]; [destruct (in_dec string_dec s (arg_seg a)) as [Is|Is]|].
    + destruct (cell_total _ _ _ m s R4 Im Is) as (x & Ex), (cell_total _ _ _ m s SK Im Is) as (y & Ey). rewrite Ex, Ey in *. destruct x, y; cbn; try tauto; split; congruence || (intros; exfalso; apply proj1 in T; specialize (T eq_refl); destruct T; congruence).
    + rewrite !cell_none by tauto. split; discriminate.
    + rewrite !cell_none by tauto. split; discriminate.
  - intros m s H1 H2. pose proof (proj2 (T m s) (conj H1 H2)) as C. rewrite <- (V m s C). rewrite GS, GW, cell_mmap, C. apply LK in H1. rewrite H1. cbn.
    destruct (cell _ _ (s_scr r) m s); reflexivity.
  - intros m s H1 H2. apply LK in H1. pose proof (cell_some_in _ _ _ _ _ _ H1) as (Im & Is).
    destruct (cell_total _ _ _ m s R4 Im Is) as (x & Ex). destruct (cell_total _ _ _ m s R3 Im Is) as (y & Ey). rewrite GS, GW, cell_mmap, Ex, Ey, H1.
    destruct x; [|reflexivity]. exfalso. apply H2. apply T. exact Ex.
Qed.
Print Assumptions C29_set_missing.

(** align_with_ndx clears flags but keeps the scores under them; merge adds whole matrices.  So after an
    alignment a merge of objects with disjoint trials gives a trial a wrong score: "clean" in C29_merge
    cannot be dropped. *)
Definition scores_e2 : scores Z := mk_scores ["m1"]%string ["t1"; "t2"]%string (mk_mat 2 [[5; 3]]) (mk_mat 2 [[true; true]]).
Definition scores_e3 : scores Z := mk_scores ["m1"]%string ["t1"; "t2"]%string (mk_mat 2 [[7; 0]]) (mk_mat 2 [[true; false]]).
Definition ndx_e3 : ndx := mk_ndx ["m1"]%string ["t1"; "t2"]%string (mk_mat 2 [[false; true]]).
Theorem C29_merge_unclean_refuted : exists (a b a' r : scores Z) (n : ndx),
  scores_align sops_Z a (ANdx n) true = Ok a' /\ disjoint_scores [a'; b] /\ scores_ok sops_Z a' /\ scores_ok sops_Z b /\ clean sops_Z a /\ clean sops_Z b /\
  scores_merge sops_Z [a'; b] = Ok r /\ scored b "m1" "t1" /\ score_of b "m1" "t1" = Some 7 /\ score_of r "m1" "t1" = Some 12.
Proof.
  exists scores_e2, scores_e3. eexists _, _, ndx_e3. split; [vm_compute; reflexivity|].
  assert (CL : forall m s, ~ (scored {| s_mod := ["m1"%string]; s_seg := ["t1"%string; "t2"%string]; s_scr := {| m_cols := 2; m_rows := [[5; 3]] |};
      s_mask := {| m_cols := 2; m_rows := [[false; true]] |} |} m s /\ scored scores_e3 m s)).
  { intros m s (H1 & H2). unfold scored, cell in H1, H2. cbn [s_mod s_seg s_mask scores_e3] in H1, H2.
    destruct (index_of m ["m1"%string]) as [i|] eqn:Ei; [|discriminate]. destruct (index_of s ["t1"%string; "t2"%string]) as [j|] eqn:Ej; [|discriminate].
    apply index_of_some in Ei as (Ei & _). apply index_of_some in Ej as (Ej & _). destruct i as [|[|]]; try discriminate; destruct j as [|[|[|]]]; try discriminate. }
  assert (CE2 : clean sops_Z scores_e2).
  { intros m s x E N. exfalso. apply N. unfold scored, score_of, cell in *. cbn [s_mod s_seg s_mask s_scr scores_e2] in *.
    destruct (index_of m ["m1"%string]) as [i|] eqn:Ei; [|discriminate]. destruct (index_of s ["t1"%string; "t2"%string]) as [j|] eqn:Ej; [|discriminate].
    apply index_of_some in Ei as (Ei & _). apply index_of_some in Ej as (Ej & _). destruct i as [|[|]]; try discriminate; destruct j as [|[|[|]]]; try discriminate; reflexivity. }
  assert (CE3 : clean sops_Z scores_e3).
  { intros m s x E N. unfold scored, score_of, cell in *. cbn [s_mod s_seg s_mask s_scr scores_e3] in *.
    destruct (index_of m ["m1"%string]) as [i|] eqn:Ei; [|discriminate]. destruct (index_of s ["t1"%string; "t2"%string]) as [j|] eqn:Ej; [|discriminate].
    apply index_of_some in Ei as (Ei & _). apply index_of_some in Ej as (Ej & _). destruct i as [|[|]]; try discriminate; destruct j as [|[|[|]]]; try discriminate; cbn in E; [exfalso; apply N; reflexivity|injection E as <-; reflexivity]. }
  split; [constructor; [constructor; [exact CL|constructor]|constructor; constructor]|].
  split; [apply (proj2 (scores_ok_iff _ _)); split; [|reflexivity]; unfold scores_shape; cbn;
    split; [repeat constructor; cbn; intuition discriminate|]; split; [repeat constructor; cbn; intuition discriminate|];
    split; split; [reflexivity|split; [reflexivity|repeat constructor]|reflexivity|split; [reflexivity|repeat constructor]]|].
  split; [apply (proj2 (scores_ok_iff _ _)); split; [|reflexivity]; unfold scores_shape; cbn;
    split; [repeat constructor; cbn; intuition discriminate|]; split; [repeat constructor; cbn; intuition discriminate|];
    split; split; [reflexivity|split; [reflexivity|repeat constructor]|reflexivity|split; [reflexivity|repeat constructor]]|].
  split; [exact CE2|]. split; [exact CE3|]. split; [vm_compute; reflexivity|]. split; [vm_compute; reflexivity|]. split; vm_compute; reflexivity.
Qed.

(** ** C30: target and non-target scores *)

(** all pairs of names, model by model *)
Definition pairs (mods segs : list string) : list (string * string) := list_prod mods segs.
Definition flagged (mods segs : list string) (K : mat bool) (p : string * string) : bool :=
  match cell mods segs K (fst p) (snd p) with Some b => b | None => false end.

Lemma tabulate {A} (d : A) mods segs (M : mat A) : NoDup mods -> NoDup segs -> has_shape M (len mods) (len segs) ->
  m_rows M = map (fun m => map (fun s => match cell mods segs M m s with Some v => v | None => d end) segs) mods.
Proof.
  intros N1 N2 H. apply nth_error_ext. intros i. rewrite nth_error_map. pose proof H as (H1 & H2 & H3).
  destruct (nth_error mods i) as [m|] eqn:Em; cbn [option_map].
  - destruct (nth_error (m_rows M) i) as [row|] eqn:R; [|apply nth_error_None in R; assert (i < len mods)%nat by (apply nth_error_Some; congruence); lia].
    f_equal. apply nth_error_ext. intros j. rewrite nth_error_map. assert (Lr : len row = len segs) by (rewrite Forall_forall in H3; apply H3; eapply nth_error_In; eassumption).
    destruct (nth_error segs j) as [s|] eqn:Es; cbn [option_map].
    + rewrite (cell_nth mods segs M m s i j) by assumption. unfold mget. rewrite R. destruct (nth_error row j) eqn:X; [reflexivity|].
      apply nth_error_None in X. assert (j < len segs)%nat by (apply nth_error_Some; congruence). lia.
    + apply nth_error_None. apply nth_error_None in Es. lia.
  - apply nth_error_None. apply nth_error_None in Em. lia.
Qed.

Lemma zip_map {X A B C} (f : A -> B -> C) (g : X -> A) (h : X -> B) l : zip_with f (map g l) (map h l) = map (fun x => f (g x) (h x)) l.
Proof. induction l; cbn; congruence. Qed.

Lemma filter_map {X Y} (f : X -> Y) p l : filter p (map f l) = map f (filter (fun x => p (f x)) l).
Proof. induction l as [|x l IH]; cbn; [reflexivity|]. destruct (p (f x)); cbn; congruence. Qed.

Lemma msel_mask_ok {A} (d : A) mods segs (M : mat A) (K : mat bool) : NoDup mods -> NoDup segs ->
  has_shape M (len mods) (len segs) -> has_shape K (len mods) (len segs) ->
  exists l, msel_mask M K = Ok l /\ map Some l = map (fun p => cell mods segs M (fst p) (snd p)) (filter (flagged mods segs K) (pairs mods segs)).
Proof.
  intros N1 N2 HM HK. unfold msel_mask. pose proof HM as (M1 & M2 & _). rewrite M1, M2, (shape_is_ok _ _ _ HK). eexists. split; [reflexivity|].
  rewrite (tabulate d mods segs M N1 N2 HM), (tabulate false mods segs K N1 N2 HK), zip_map. unfold pairs.
  assert (G : forall ms, incl ms mods -> map Some (concat (map (fun m => sel (map (fun s => match cell mods segs K m s with Some v => v | None => false end) segs)
      (map (fun s => match cell mods segs M m s with Some v => v | None => d end) segs)) ms)) =
    map (fun p => cell mods segs M (fst p) (snd p)) (filter (flagged mods segs K) (list_prod ms segs))).
  { induction ms as [|m ms IH]; intros I; [reflexivity|]. cbn [map concat list_prod]. rewrite map_app, filter_app, map_app, IH by (intros x Hx; apply I; right; exact Hx).
    f_equal. rewrite sel_map_fst, sel_filter, filter_map, !map_map. unfold flagged. cbn [fst snd]. apply map_ext_in. intros s Hs. apply filter_In in Hs as (Hs & _).
    destruct (cell_total mods segs M m s HM (I m (or_introl eq_refl)) Hs) as (v & ->). reflexivity. }
  apply G. apply incl_refl.
Qed.

(** the target (non-target) pairs of a key, model by model *)
Definition target_pairs (k : key) := filter (flagged (k_mod k) (k_seg k) (k_tar k)) (pairs (k_mod k) (k_seg k)).
Definition nontarget_pairs (k : key) := filter (flagged (k_mod k) (k_seg k) (k_non k)) (pairs (k_mod k) (k_seg k)).

Lemma flagged_iff mods segs K m s : flagged mods segs K (m, s) = true <-> cell mods segs K m s = Some true.
Proof. unfold flagged. cbn [fst snd]. destruct (cell mods segs K m s) as [[|]|]; split; congruence. Qed.

Theorem C30_target_pairs : forall k, key_ok k -> (NoDup (target_pairs k) /\ forall m s, In (m, s) (target_pairs k) <-> target k m s) /\
  (NoDup (nontarget_pairs k) /\ forall m s, In (m, s) (nontarget_pairs k) <-> nontarget k m s).
Proof.
  intros k (K1 & K2 & K3 & K4 & _).
  assert (ND : NoDup (pairs (k_mod k) (k_seg k))).
  { unfold pairs. clear - K1 K2. revert K1. generalize (k_mod k). induction l as [|m l IH]; intros N; cbn [list_prod]; [constructor|]. inversion N; subst.
    assert (D : forall a b, NoDup a -> NoDup b -> (forall x : string * string, In x a -> ~ In x b) -> NoDup (a ++ b)).
    { clear. induction a as [|x a IH]; intros b Na Nb D; cbn; [exact Nb|]. inversion Na; subst. constructor; [|apply IH; auto; intros y Hy; apply D; right; exact Hy].
      intros H. apply in_app_or in H as [H|H]; [auto|]. exact (D x (or_introl eq_refl) H). }
    apply D; [|apply IH; assumption|].
    - apply FinFun.Injective_map_NoDup; [intros x y E; congruence|exact K2].
    - intros (x, y) Hx Hy. apply in_map_iff in Hx as (z & E & _). injection E as -> ->. apply in_prod_iff in Hy. tauto. }
  assert (G : forall K, has_shape K (len (k_mod k)) (len (k_seg k)) -> NoDup (filter (flagged (k_mod k) (k_seg k) K) (pairs (k_mod k) (k_seg k))) /\
    forall m s, In (m, s) (filter (flagged (k_mod k) (k_seg k) K) (pairs (k_mod k) (k_seg k))) <-> cell (k_mod k) (k_seg k) K m s = Some true).
  { intros K HK. split; [apply NoDup_filter; exact ND|]. intros m s. rewrite filter_In, flagged_iff. unfold pairs. rewrite in_prod_iff. split; [tauto|].
    intros C. split; [|exact C]. eapply cell_some_in; exact C. }
  split; apply G; assumption.
Qed.

(** get_tar_non returns, for each target (non-target) trial of the key exactly once, the score the system
    gave to that pair; it fails iff a name is unknown or a trial of the key has no score. *)
Theorem C30_get_tar_non : forall A (F : sops A) o k, scores_ok F o -> s_fin F (s_zero F) = true -> key_ok k ->
  (incl (k_mod k) (s_mod o) -> incl (k_seg k) (s_seg o) -> (forall m s, target k m s \/ nontarget k m s -> scored o m s) ->
   exists tar non, get_tar_non F o k = Ok (tar, non) /\
     map Some tar = map (fun p => score_of o (fst p) (snd p)) (target_pairs k) /\
     map Some non = map (fun p => score_of o (fst p) (snd p)) (nontarget_pairs k)) /\
  (~ (incl (k_mod k) (s_mod o) /\ incl (k_seg k) (s_seg o)) -> get_tar_non F o k = Err BareException) /\
  ((exists m s, (target k m s \/ nontarget k m s) /\ ~ scored o m s) -> get_tar_non F o k = Err BareException).
Proof.
  intros A F o k O Z Hk. destruct (C29_align_raise A F o (AKey k) O Z Hk) as (P1 & P2 & P3). cbn [arg_mod arg_seg listed] in *. unfold get_tar_non. split; [|split].
  - intros I1 I2 L. destruct (P1 I1 I2 L) as (r & E & Or & M & S & G). rewrite E. cbn [bind]. destruct Hk as (K1 & K2 & K3 & K4 & _).
    destruct Or as (R1 & R2 & R3 & R4 & _). rewrite M, S in R3, R4.
    assert (MS : forall K, has_shape K (len (k_mod k)) (len (k_seg k)) -> (forall m s, cell (k_mod k) (k_seg k) K m s = Some true -> target k m s \/ nontarget k m s) ->
      exists W l, mmap2 andb (s_mask r) K = Ok W /\ msel_mask (s_scr r) W = Ok l /\
      map Some l = map (fun p => score_of o (fst p) (snd p)) (filter (flagged (k_mod k) (k_seg k) K) (pairs (k_mod k) (k_seg k)))).
    { intros K HK HL. destruct (cell_mmap2 andb (k_mod k) (k_seg k) (s_mask r) K _ _ R4 HK) as (W & EW & SW & GW).
      destruct (msel_mask_ok (s_zero F) (k_mod k) (k_seg k) (s_scr r) W K1 K2 R3 SW) as (l & El & Ml). exists W, l. split; [exact EW|]. split; [exact El|]. rewrite Ml.
      assert (FE : filter (flagged (k_mod k) (k_seg k) W) (pairs (k_mod k) (k_seg k)) = filter (flagged (k_mod k) (k_seg k) K) (pairs (k_mod k) (k_seg k))).
      { apply filter_ext_in. intros (m, s) Hp. unfold flagged. cbn [fst snd]. rewrite GW. unfold pairs in Hp. apply in_prod_iff in Hp as (Im & Is).
        destruct (cell_total _ _ _ m s HK Im Is) as (y & Ey). destruct (cell_total _ _ _ m s R4 Im Is) as (x & Ex). rewrite Ex, Ey.
        destruct y; [|destruct x; reflexivity]. pose proof (proj2 (proj1 (G m s)) (HL m s Ey)) as Q. unfold scored in Q. rewrite M, S, Ex in Q. injection Q as ->. reflexivity. }
      rewrite FE. apply map_ext_in. intros (m, s) Hp. apply filter_In in Hp as (_ & Hp). apply flagged_iff in Hp. cbn [fst snd].
      pose proof (proj2 (G m s) (HL m s Hp)) as Q. unfold score_of in Q at 1. rewrite M, S in Q. exact Q. }
    destruct (MS (k_tar k) K3) as (W1 & tar & E1 & E2 & E3); [intros; left; assumption|]. destruct (MS (k_non k) K4) as (W2 & non & F1 & F2 & F3); [intros; right; assumption|].
    rewrite E1. cbn [bind]. rewrite E2. cbn [bind]. rewrite F1. cbn [bind]. rewrite F2. cbn [bind]. exists tar, non. split; [reflexivity|]. split; assumption.
  - intros H. rewrite P2 by exact H. reflexivity.
  - intros H. rewrite P3 by exact H. reflexivity.
Qed.
Print Assumptions C30_get_tar_non.

(** ** C52: transform *)

Lemma put_mask_row_ok {A} (k : list bool) : forall (row vs : list A), len k = len row -> (len (sel k row) <= len vs)%nat ->
  exists r rest, put_mask_row k row vs = Ok (r, rest) /\ len r = len row /\ vs = sel k r ++ rest /\ len (sel k r) = len (sel k row) /\
    forall j, nth_error k j = Some false -> nth_error r j = nth_error row j.
Proof.
  induction k as [|b k IH]; intros [|x row] vs L H; cbn in L; try discriminate.
  - exists [], vs. cbn. split; [reflexivity|]. split; [reflexivity|]. split; [reflexivity|]. split; [reflexivity|]. intros [|j]; discriminate.
  - injection L as L. cbn [sel put_mask_row] in *. destruct b.
    + cbn [len] in H. destruct vs as [|v vs]; [cbn in H; lia|]. cbn in H. destruct (IH row vs L ltac:(lia)) as (r & rest & E & L1 & L2 & L3 & G).
      rewrite E. cbn [bind]. exists (v :: r), rest. split; [reflexivity|]. cbn [sel len app]. split; [congruence|]. split; [congruence|]. split; [congruence|].
      intros [|j] Hj; cbn in *; [discriminate|auto].
    + destruct (IH row vs L H) as (r & rest & E & L1 & L2 & L3 & G). rewrite E. cbn [bind]. exists (x :: r), rest. split; [reflexivity|]. cbn [sel len app].
      split; [congruence|]. split; [congruence|]. split; [congruence|]. intros [|j] Hj; cbn in *; [reflexivity|auto].
Qed.

Lemma put_mask_row_short {A} (k : list bool) : forall (row vs : list A), len k = len row -> (len vs < len (sel k row))%nat -> put_mask_row k row vs = Err ValueError.
Proof.
  induction k as [|b k IH]; intros [|x row] vs L H; cbn in L; try discriminate; cbn [sel] in H; [cbn in H; lia|]. injection L as L. cbn [put_mask_row].
  destruct b; [|rewrite IH by assumption; reflexivity]. destruct vs as [|v vs]; [reflexivity|]. cbn in H. rewrite IH by (assumption || lia). reflexivity.
Qed.

Lemma put_mask_rows_ok {A} c (ks : list (list bool)) : forall (rows : list (list A)) vs, len ks = len rows ->
  Forall (fun r => len r = c) ks -> Forall (fun r => len r = c) rows ->
  (len vs = len (concat (zip_with sel ks rows)) ->
   exists rs, put_mask_rows ks rows vs = Ok rs /\ len rs = len rows /\ Forall (fun r => len r = c) rs /\ concat (zip_with sel ks rs) = vs /\
    forall i j k, nth_error ks i = Some k -> nth_error k j = Some false ->
      match nth_error rs i, nth_error rows i with Some r, Some row => nth_error r j = nth_error row j | _, _ => False end) /\
  (len vs <> len (concat (zip_with sel ks rows)) -> put_mask_rows ks rows vs = Err ValueError).
Proof.
  induction ks as [|k ks IH]; intros [|row rows] vs L Fk Fr; cbn in L; try discriminate.
  - cbn. split; [|intros H; destruct vs; [exfalso; apply H; reflexivity|reflexivity]]. intros H. destruct vs; [|discriminate]. exists []. split; [reflexivity|]. split; [reflexivity|]. split; [constructor|].
    split; [reflexivity|]. intros [|i]; discriminate.
  - injection L as L. inversion Fk as [|? ? Lk Fk']; subst. inversion Fr as [|? ? Lr Fr']; subst. cbn [zip_with concat put_mask_rows]. rewrite app_length.
    destruct (le_lt_dec (len (sel k row)) (len vs)) as [H|H].
    + destruct (put_mask_row_ok k row vs ltac:(congruence) H) as (r & rest & E & L1 & -> & L3 & G). rewrite E. cbn [bind]. rewrite app_length, L3.
      destruct (IH rows rest L Fk' Fr') as (P1 & P2). split.
      * intros Q. destruct P1 as (rs & E' & L' & F' & C' & G'); [lia|]. rewrite E'. cbn [bind]. exists (r :: rs). split; [reflexivity|]. split; [cbn; congruence|].
        split; [constructor; [congruence|exact F']|]. split; [cbn; congruence|]. intros [|i] j k0 Hk Hj; cbn in Hk |- *; [injection Hk as <-; apply G; exact Hj|eapply G'; eassumption].
      * intros Q. rewrite P2 by lia. reflexivity.
    + rewrite put_mask_row_short by (congruence || exact H). split; [intros; lia|reflexivity].
Qed.

(** the pairs with a score, model by model *)
Definition valid_pairs {A} (o : scores A) := filter (flagged (s_mod o) (s_seg o) (s_mask o)) (pairs (s_mod o) (s_seg o)).

(** [f] receives the vector of the scores of the valid trials; the vector it returns, of the same length,
    becomes the scores of these trials in the same order, and nothing else changes.  A vector of another
    length is refused. *)
Theorem C52_transform : forall A (F : sops A) (f : list A -> list A) o v, scores_shape o ->
  map Some v = map (fun p => score_of o (fst p) (snd p)) (valid_pairs o) ->
  (len (f v) = len v -> exists r, scores_transform f o = Ok r /\ scores_shape r /\ s_mod r = s_mod o /\ s_seg r = s_seg o /\ s_mask r = s_mask o /\
     map (fun p => score_of r (fst p) (snd p)) (valid_pairs o) = map Some (f v) /\
     forall m s, ~ scored o m s -> score_of r m s = score_of o m s) /\
  (len (f v) <> len v -> scores_transform f o = Err ValueError).
Proof.
  intros A F f o v (O1 & O2 & O3 & O4) Hv. unfold scores_transform.
  destruct (msel_mask_ok (s_zero F) _ _ (s_scr o) (s_mask o) O1 O2 O3 O4) as (v' & E & Mv).
  assert (v' = v).
  { assert (Q : map Some v' = map Some v) by (rewrite Mv, Hv; reflexivity). clear - Q. revert v Q. induction v' as [|x v' IH]; intros [|y v] Q; try discriminate; [reflexivity|].
    cbn in Q. injection Q as -> Q. f_equal. apply IH. exact Q. }
  subst v'. rewrite E. cbn [bind]. unfold mput_mask. unfold msel_mask in E. pose proof O3 as (S1 & S2 & S3). pose proof O4 as (M1 & M2 & M3).
  rewrite S1, S2, (shape_is_ok _ _ _ O4) in *. injection E as Ev.
  destruct (put_mask_rows_ok (len (s_seg o)) (m_rows (s_mask o)) (m_rows (s_scr o)) (f v) ltac:(congruence) M3 S3) as (P1 & P2). rewrite Ev in P1, P2. split.
  - intros L. destruct (P1 L) as (rs & E & L1 & F1 & C1 & G1). rewrite E. cbn [bind]. set (R := mk_mat (len (s_seg o)) rs).
    assert (SR : has_shape R (len (s_mod o)) (len (s_seg o))) by (split; [cbn; congruence|]; split; [reflexivity|exact F1]).
    exists (mk_scores (s_mod o) (s_seg o) R (s_mask o)). split; [reflexivity|]. split; [split; [exact O1|]; split; [exact O2|]; split; assumption|].
    split; [reflexivity|]. split; [reflexivity|]. split; [reflexivity|]. split.
    + destruct (msel_mask_ok (s_zero F) _ _ R (s_mask o) O1 O2 SR O4) as (w & Ew & Mw). unfold msel_mask in Ew. unfold R in Ew at 1 2 3. cbn [m_rows m_cols] in Ew.
      rewrite L1, S1, (shape_is_ok _ _ _ O4), C1 in Ew. injection Ew as <-. symmetry. exact Mw.
    + intros m s N. unfold score_of. cbn [s_mod s_seg s_scr]. unfold cell. unfold scored, cell in N.
      destruct (index_of m (s_mod o)) as [i|] eqn:Ei; [|reflexivity]. destruct (index_of s (s_seg o)) as [j|] eqn:Ej; [|reflexivity].
      assert (Hi : (i < len (s_mod o))%nat) by (apply index_of_nth_inv in Ei; apply nth_error_Some; congruence).
      assert (Hj : (j < len (s_seg o))%nat) by (apply index_of_nth_inv in Ej; apply nth_error_Some; congruence).
      destruct (mget_lt (s_mask o) _ _ i j O4 Hi Hj) as (b & Eb). unfold mget in Eb. destruct (nth_error (m_rows (s_mask o)) i) as [k|] eqn:Ek; [|discriminate].
      unfold mget in N. rewrite Ek, Eb in N. destruct b; [congruence|]. specialize (G1 i j k Ek Eb). unfold mget, R. cbn [m_rows].
      destruct (nth_error rs i), (nth_error (m_rows (s_scr o)) i); try contradiction. exact G1.
  - intros L. rewrite P2 by exact L. reflexivity.
Qed.
Print Assumptions C52_transform.

Lemma map_eq_in {X Y} (f g : X -> Y) l x : map f l = map g l -> In x l -> f x = g x.
Proof. induction l as [|y l IH]; cbn; intros E []; injection E as E1 E2; [congruence|auto]. Qed.

(** Applying a function to each score changes the valid trials, each by that function, and no other. *)
Theorem C52_transform_elementwise : forall A (F : sops A) (g : A -> A) o, scores_shape o ->
  exists r, scores_transform (map g) o = Ok r /\ s_mod r = s_mod o /\ s_seg r = s_seg o /\ s_mask r = s_mask o /\
    forall m s, (scored o m s -> score_of r m s = option_map g (score_of o m s)) /\ (~ scored o m s -> score_of r m s = score_of o m s).
Proof.
  intros A F g o O. pose proof O as (O1 & O2 & O3 & O4). destruct (msel_mask_ok (s_zero F) _ _ (s_scr o) (s_mask o) O1 O2 O3 O4) as (v & _ & Mv).
  destruct (C52_transform A F (map g) o v O Mv) as (P & _). destruct (P ltac:(apply map_length)) as (r & E & _ & Em & Es & Ek & V & N).
  exists r. split; [exact E|]. split; [exact Em|]. split; [exact Es|]. split; [exact Ek|]. intros m s. split; [|apply N]. intros H.
  assert (Hin : In (m, s) (valid_pairs o)).
  { apply filter_In. split; [apply in_prod_iff; eapply cell_some_in; exact H|]. apply flagged_iff. exact H. }
  assert (Q : map (fun p => score_of r (fst p) (snd p)) (valid_pairs o) = map (fun p => option_map g (score_of o (fst p) (snd p))) (valid_pairs o)).
  { rewrite V, map_map. change (map (fun x => Some (g x)) v) with (map (fun x => option_map g (Some x)) v). rewrite <- (map_map Some (option_map g)), Mv, map_map. reflexivity. }
  exact (map_eq_in _ _ _ (m, s) Q Hin).
Qed.
Print Assumptions C52_transform_elementwise.

(** ** Witnesses *)

Definition scores_e4 : scores Z := mk_scores ["m2"; "m3"]%string ["t1"; "t2"]%string (mk_mat 2 [[4; 0]; [0; 9]]) (mk_mat 2 [[true; false]; [false; true]]).
Definition key_e1 : key := mk_key ["m2"; "m1"]%string ["t3"; "t1"; "t2"]%string (mk_mat 3 [[false; false; true]; [true; false; false]]) (mk_mat 3 [[false; false; false]; [false; true; false]])
  None None None None None None.

Lemma scores_e1_ok : scores_ok sops_Z scores_e1.
Proof.
  split; [repeat constructor; cbn; intuition discriminate|]. split; [repeat constructor; cbn; intuition discriminate|].
  split; [split; [reflexivity|]; split; [reflexivity|]; repeat constructor|]. split; [split; [reflexivity|]; split; [reflexivity|]; repeat constructor|]. reflexivity.
Qed.

Example C29_witness : add_laws sops_Z /\ exists r, scores_merge sops_Z [scores_e1; scores_e4] = Ok r /\ s_mod r = ["m1"; "m2"; "m3"]%string /\
  score_of r "m2" "t1" = Some 4 /\ score_of r "m1" "t3" = Some 7 /\ scores_merge sops_Z [scores_e1; scores_e1] = Err AssertionError.
Proof.
  split; [split; [reflexivity|reflexivity|intros x; apply Z.add_0_r]|]. eexists. split; [vm_compute; reflexivity|]. split; [reflexivity|]. split; [reflexivity|]. split; [reflexivity|]. vm_compute; reflexivity.
Qed.
Example C30_witness : scores_ok sops_Z scores_e1 /\ get_tar_non sops_Z scores_e1 key_e1 = Ok ([2; 7], [5]) /\
  target_pairs key_e1 = [("m2", "t2"); ("m1", "t3")]%string.
Proof. split; [exact scores_e1_ok|]. split; vm_compute; reflexivity. Qed.
Example C52_witness : exists r, scores_transform (map (fun x => x * 10)) scores_e1 = Ok r /\ s_scr r = mk_mat 3 [[50; 0; 70]; [0; 20; 0]].
Proof. eexists. split; vm_compute; reflexivity. Qed.
