(** C34, C35, C54: merging, overlap elimination and speaker names of RTTM files. *)
From Coq Require Import QArith Lqa Qround.
From Verif Require Import Segments TrialsProofs FoldsProofs.
Open Scope list_scope.
Open Scope Z_scope.

(** ** C34: merging adjacent segments *)

(** consecutive elements are related *)
Definition consec {A} (R : A -> A -> bool) (l : list A) : Prop :=
  forall i a b, nth_error l i = Some a -> nth_error l (S i) = Some b -> R a b = true.
(** the list is cut into non-empty runs of related neighbours, exactly where neighbours are unrelated *)
Definition cut_into {A} (R : A -> A -> bool) (l : list A) (runs : list (list A)) : Prop :=
  concat runs = l /\ (forall r, In r runs -> r <> [] /\ consec R r) /\
  (forall pre r1 x y r2 post, runs = pre ++ (r1 ++ [x]) :: (y :: r2) :: post -> R x y = false).

Fixpoint runs_of (R : row -> row -> bool) (l : list row) : list (list row) :=
  match l with
  | [] => []
  | x :: l' => match runs_of R l' with
               | ((y :: _) as r) :: rs => if R x y then (x :: r) :: rs else [x] :: r :: rs
               | _ => [[x]]
               end
  end.

Fixpoint collapse (r : list row) : row :=
  match r with
  | [] => row0
  | x :: r' => match r' with [] => x | _ => set_dur (r_end (collapse r') - r_tb x)%Q x end
  end.
Fixpoint dropped (r : list row) : list row := match r with [] => [] | x :: r' => set_type "DROP" (collapse (x :: r')) :: dropped r' end.
Definition expand (r : list row) : list row := match r with [] => [] | x :: r' => collapse (x :: r') :: dropped r' end.
Definition turns (R : row -> row -> bool) (l : list row) : list row := fold_left (merge_turn (vs_prev R l)) (rev (seq 1 (len l - 1))) l.

Lemma turns_cons idx idx' x : (forall i, (1 <= i)%nat -> nth (S i) idx false = nth i idx' false) ->
  forall is rows, (forall i, In i is -> (1 <= i)%nat) -> fold_left (merge_turn idx) (map S is) (x :: rows) = x :: fold_left (merge_turn idx') is rows.
Proof.
  intros H. induction is as [|i is IH]; intros rows Hi; [reflexivity|]. cbn [map fold_left].
  assert (E : merge_turn idx (x :: rows) (S i) = x :: merge_turn idx' rows i).
  { pose proof (Hi i ltac:(left; reflexivity)) as P. unfold merge_turn. rewrite (H i P). destruct (nth i idx' false); [|reflexivity].
    replace (S i - 1)%nat with (S (i - 1)) by lia. cbn [nth upd]. reflexivity. }
  rewrite E. apply IH. intros j Hj. apply Hi. right. exact Hj.
Qed.

Lemma runs_step R x y l : exists r rs, runs_of R (y :: l) = (y :: r) :: rs /\ runs_of R (x :: y :: l) = if R x y then (x :: y :: r) :: rs else [x] :: (y :: r) :: rs.
Proof.
  assert (G : forall l y, exists r rs, runs_of R (y :: l) = (y :: r) :: rs).
  { clear. induction l as [|z l IH]; intros y; [eexists _, _; reflexivity|]. destruct (IH z) as (r & rs & E). change (runs_of R (y :: z :: l)) with (match runs_of R (z :: l) with ((y0 :: _) as r) :: rs => if R y y0 then (y :: r) :: rs else [y] :: r :: rs | _ => [[y]] end). rewrite E. destruct (R y z); eexists _, _; reflexivity. }
  destruct (G l y) as (r & rs & E). exists r, rs. split; [exact E|]. change (runs_of R (x :: y :: l)) with (match runs_of R (y :: l) with ((y0 :: _) as r) :: rs => if R x y0 then (x :: r) :: rs else [x] :: r :: rs | _ => [[x]] end). rewrite E. reflexivity.
Qed.
Lemma runs_nonempty R l : forall r, In r (runs_of R l) -> r <> [].
Proof.
  induction l as [|x l IH]; [intros r []|]. destruct l as [|y l']; [intros r [<-|[]]; discriminate|].
  destruct (runs_step R x y l') as (r0 & rs & E & ->). rewrite E in IH. destruct (R x y); cbn [In].
  - intros r [<-|H]; [discriminate|apply IH; right; exact H].
  - intros r [<-|H]; [discriminate|apply IH; exact H].
Qed.
Lemma runs_concat R l : concat (runs_of R l) = l.
Proof.
  induction l as [|x l IH]; [reflexivity|]. destruct l as [|y l']; [reflexivity|]. destruct (runs_step R x y l') as (r & rs & E & ->). rewrite E in *. destruct (R x y); cbn [concat app] in *; rewrite IH; reflexivity.
Qed.
Lemma runs_cut R l : cut_into R l (runs_of R l).
Proof.
  split; [apply runs_concat|]. split.
  - intros r Hr. split; [eapply runs_nonempty; exact Hr|]. revert r Hr. induction l as [|x l IH]; [intros r []|]. destruct l as [|y l']; [intros r [<-|[]] [|i] a b H1 H2; cbn in H1, H2; [discriminate|destruct i; discriminate]|].
    destruct (runs_step R x y l') as (r0 & rs & E & ->). rewrite E in IH. destruct (R x y) eqn:Rxy; cbn [In].
    + intros r [<-|H]; [|apply IH; right; exact H]. intros [|i] a b H1 H2; cbn [nth_error] in H1, H2; [injection H1 as <-; injection H2 as <-; exact Rxy|]. apply (IH (y :: r0) ltac:(left; reflexivity) i a b); assumption.
    + intros r [<-|H]; [|apply IH; exact H]. intros [|i] a b H1 H2; cbn in H1, H2; [discriminate|destruct i; discriminate].
  - induction l as [|x l IH]; [intros [|? [|? ?]]; discriminate|]. destruct l as [|y l']; [intros [|? [|? ?]]; discriminate|].
    destruct (runs_step R x y l') as (r0 & rs & E & ->). rewrite E in IH. destruct (R x y) eqn:Rxy; intros pre r1 a b r2 post H.
    + destruct pre as [|p pre]; cbn [app] in H.
      * destruct r1 as [|z r1]; cbn [app] in H; [discriminate H|]. injection H as -> H1 ->. apply (IH [] r1 a b r2 post). cbn [app]. rewrite H1. reflexivity.
      * injection H as <- ->. apply (IH ((y :: r0) :: pre) r1 a b r2 post). reflexivity.
    + destruct pre as [|p pre]; cbn [app] in H.
      * destruct r1 as [|z r1]; cbn [app] in H; [|destruct r1; discriminate H]. injection H as -> -> _ _. exact Rxy.
      * injection H as <- H. apply (IH pre r1 a b r2 post). exact H.
Qed.

Lemma turns_runs R l : turns R l = flat_map expand (runs_of R l).
Proof.
  induction l as [|x l IH]; [reflexivity|]. destruct l as [|y l']; [reflexivity|].
  unfold turns. cbn [len]. replace (S (S (len l')) - 1)%nat with (S (len l')) by lia. cbn [seq]. rewrite <- seq_shift. cbn [rev]. rewrite <- map_rev, fold_left_app.
  rewrite (turns_cons _ (vs_prev R (y :: l'))).
  - assert (T : fold_left (merge_turn (vs_prev R (y :: l'))) (rev (seq 1 (len l'))) (y :: l') = turns R (y :: l')) by (unfold turns; cbn [len]; replace (S (len l') - 1)%nat with (len l') by lia; reflexivity).
    rewrite T, IH. clear T IH. cbn [fold_left]. destruct (runs_step R x y l') as (r & rs & E & ->).
    rewrite E. cbn [flat_map expand app]. unfold merge_turn. change (nth 1 (vs_prev R (x :: y :: l')) false) with (R x y). destruct (R x y).
    + cbn [Nat.sub nth upd flat_map expand dropped app]. reflexivity.
    + reflexivity.
  - intros [|i] Hi; [lia|]. reflexivity.
  - intros i Hi. apply in_rev, in_seq in Hi. lia.
Qed.

Lemma collapse_fields x r : r_type (collapse (x :: r)) = r_type x /\ r_file (collapse (x :: r)) = r_file x /\ r_name (collapse (x :: r)) = r_name x /\ r_tb (collapse (x :: r)) = r_tb x /\ r_rest (collapse (x :: r)) = r_rest x.
Proof. cbn. destruct r; cbn; auto. Qed.
Lemma collapse_end r d : r <> [] -> Qeq (r_end (collapse r)) (r_end (last r d)).
Proof.
  induction r as [|x r IH]; [congruence|]. intros _. destruct r as [|y r']; [reflexivity|]. change (last (x :: y :: r') d) with (last (y :: r') d). rewrite <- IH by discriminate. clear IH.
  change (collapse (x :: y :: r')) with (set_dur (r_end (collapse (y :: r')) - r_tb x)%Q x). unfold r_end at 1. cbn [set_dur r_tb r_dur]. ring.
Qed.

Lemma merge_runs margin rows : (forall r, In r rows -> r_type r <> "DROP"%string) -> rttm_merge margin rows = map collapse (runs_of (continues margin) rows).
Proof.
  intros ND. unfold rttm_merge. cbv zeta. fold (turns (continues margin) rows). rewrite turns_runs.
  assert (H : forall r run, In run (runs_of (continues margin) rows) -> In r run -> r_type r <> "DROP"%string).
  { intros r run H1 H2. apply ND. rewrite <- (runs_concat (continues margin) rows). apply in_concat. eauto. }
  pose proof (runs_nonempty (continues margin) rows) as NE. induction (runs_of (continues margin) rows) as [|run rs IH]; [reflexivity|]. cbn [flat_map map]. rewrite filter_app, IH.
  - destruct run as [|x r]; [exfalso; apply (NE []); [left; reflexivity|reflexivity]|]. cbn [expand filter]. destruct (collapse_fields x r) as (T & _). rewrite T.
    assert (X : eqb (r_type x) "DROP"%string = false) by (destruct (eqb (r_type x) "DROP"%string) eqn:Q; [apply eqb_eq in Q; exfalso; apply (H x (x :: r)); [left; reflexivity|left; reflexivity|exact Q]|reflexivity]). rewrite X. cbn [negb].
    assert (D : forall q, filter (fun r => negb (eqb (r_type r) "DROP"%string)) (dropped q) = []) by (clear; induction q as [|z q IHq]; [reflexivity|]; cbn [dropped filter set_type r_type]; rewrite (proj2 (eqb_eq _ _) eq_refl); exact IHq).
    rewrite D. reflexivity.
  - intros r run' H1 H2. apply (H r run'); [right; exact H1|exact H2].
  - intros r Hr. apply NE. right. exact Hr.
Qed.

(** merge_adjacent_segments cuts the rows into maximal runs of continuing rows and replaces each run by
    one row: the labels and start of its first row, the end of its last row. *)
Theorem C34_rttm_merge : forall margin rows, (forall r, In r rows -> r_type r <> "DROP"%string) ->
  exists runs, cut_into (continues margin) rows runs /\
  Forall2 (fun run out => exists x r, run = x :: r /\ r_type out = r_type x /\ r_file out = r_file x /\ r_name out = r_name x /\ r_rest out = r_rest x /\
                          r_tb out = r_tb x /\ Qeq (r_end out) (r_end (last r x)) /\ (r = [] -> out = x)) runs (rttm_merge margin rows).
Proof.
  intros margin rows ND. exists (runs_of (continues margin) rows). split; [apply runs_cut|]. rewrite merge_runs by exact ND.
  pose proof (runs_nonempty (continues margin) rows) as NE. induction (runs_of (continues margin) rows) as [|run rs IH]; cbn [map]; constructor.
  - destruct run as [|x r]; [exfalso; apply (NE []); [left; reflexivity|reflexivity]|]. exists x, r. destruct (collapse_fields x r) as (A & B & C & D & E). repeat split; try assumption.
    + rewrite (collapse_end (x :: r) x ltac:(discriminate)). destruct r; reflexivity.
    + intros ->. reflexivity.
  - apply IH. intros r Hr. apply NE. right. exact Hr.
Qed.
Print Assumptions C34_rttm_merge.

Definition same_label (a b : row) : Prop := r_type a = r_type b /\ r_file a = r_file b /\ r_name a = r_name b.
(** the half-open interval of a row contains the time [t] *)
Definition covers (r : row) (t : Q) : Prop := Qle (r_tb r) t /\ Qlt t (r_end r).
(** a row that continues the previous one does not end before it *)
Definition not_nested margin (rows : list row) : Prop :=
  forall i a b, nth_error rows i = Some a -> nth_error rows (S i) = Some b -> continues margin a b = true -> Qle (r_end a) (r_end b).

Lemma valid_consec rows : rttm_valid rows = true -> forall i a b, nth_error rows i = Some a -> nth_error rows (S i) = Some b -> r_file b = r_file a -> Qle (r_tb a) (r_tb b).
Proof.
  induction rows as [|x rows IH]; intros V i a b H1 H2 F; [destruct i; discriminate H1|]. destruct rows as [|y rows']; [destruct i as [|i]; [discriminate H2|destruct i; discriminate H2]|].
  cbn [rttm_valid] in V. apply andb_true_iff in V as (V1 & V2). destruct i as [|i].
  - injection H1 as <-. injection H2 as <-. apply orb_true_iff in V1 as [V1|V1]; [apply Qle_bool_iff; exact V1|]. apply negb_true_iff in V1. rewrite F, (proj2 (eqb_eq _ _) eq_refl) in V1. discriminate.
  - apply (IH V2 i a b H1 H2 F).
Qed.

Lemma continues_spec margin a b : continues margin a b = true <-> r_file b = r_file a /\ r_type b = r_type a /\ r_name b = r_name a /\ Qle (r_tb b - r_tb a - r_dur a) margin.
Proof. unfold continues. rewrite !andb_true_iff, !eqb_eq, Qle_bool_iff. tauto. Qed.

Lemma run_inside {A} (runs : list (list A)) run : In run runs -> exists k, forall i a, nth_error run i = Some a -> nth_error (concat runs) (k + i) = Some a.
Proof.
  induction runs as [|r rs IH]; [intros []|]. intros [->|H].
  - exists 0%nat. intros i a Hi. cbn [concat Nat.add]. rewrite nth_error_app1 by (apply nth_error_Some; congruence). exact Hi.
  - destruct (IH H) as (k & Hk). exists (len r + k)%nat. intros i a Hi. cbn [concat]. rewrite nth_error_app2 by lia. replace (len r + k + i - len r)%nat with (k + i)%nat by lia. apply Hk. exact Hi.
Qed.

Lemma run_mono (run : list row) : (forall i a b, nth_error run i = Some a -> nth_error run (S i) = Some b -> same_label b a /\ Qle (r_tb a) (r_tb b) /\ Qle (r_end a) (r_end b)) ->
  forall x r, run = x :: r -> forall z, In z run -> same_label z x /\ Qle (r_tb x) (r_tb z) /\ Qle (r_end z) (r_end (last r x)).
Proof.
  induction run as [|x0 run IH]; intros C x r E z Hz; [discriminate E|]. injection E as -> ->. destruct r as [|y r'].
  - destruct Hz as [<-|[]]. cbn. split; [repeat split|]. split; lra.
  - assert (C' : forall i a b, nth_error (y :: r') i = Some a -> nth_error (y :: r') (S i) = Some b -> same_label b a /\ Qle (r_tb a) (r_tb b) /\ Qle (r_end a) (r_end b)) by (intros i a b H1 H2; apply (C (S i)); assumption).
    destruct (C 0%nat x y eq_refl eq_refl) as (L0 & T0 & E0). change (last (y :: r') x) with (match r' with [] => y | _ => last r' x end).
    assert (LE : match r' with [] => y | _ => last r' x end = last r' y) by (destruct r' as [|w r'']; [reflexivity|]; clear; revert w; induction r'' as [|v r'' IHr]; intros w; [reflexivity|]; exact (IHr v)). rewrite LE.
    destruct Hz as [<-|Hz].
    + destruct (IH C' y r' eq_refl y ltac:(left; reflexivity)) as (_ & _ & E1). split; [repeat split|]. split; [lra|]. lra.
    + destruct (IH C' y r' eq_refl z Hz) as ((A1 & A2 & A3) & T1 & E1). destruct L0 as (B1 & B2 & B3). split; [repeat split; congruence|]. split; [lra|exact E1].
Qed.

(** Labelled time is kept: a time labelled before is labelled the same after (no nested segments). *)
Theorem C34_rttm_merge_keeps_time : forall margin rows, (forall r, In r rows -> r_type r <> "DROP"%string) ->
  rttm_valid rows = true -> not_nested margin rows ->
  forall r t, In r rows -> covers r t -> exists r', In r' (rttm_merge margin rows) /\ same_label r' r /\ covers r' t.
Proof.
  intros margin rows ND V NN r t Hr (T1 & T2). rewrite merge_runs by exact ND. rewrite <- (runs_concat (continues margin) rows) in Hr. apply in_concat in Hr as (run & Hrun & Hr).
  pose proof (runs_cut (continues margin) rows) as (CC & CU & _). destruct (CU run Hrun) as (NE & CS). destruct (run_inside _ run Hrun) as (k & Hk). rewrite CC in Hk.
  assert (C : forall i a b, nth_error run i = Some a -> nth_error run (S i) = Some b -> same_label b a /\ Qle (r_tb a) (r_tb b) /\ Qle (r_end a) (r_end b)).
  { intros i a b H1 H2. pose proof (CS i a b H1 H2) as CT. pose proof CT as CT'. apply continues_spec in CT' as (F & Ty & N & _). pose proof (Hk _ _ H1) as K1. pose proof (Hk _ _ H2) as K2. replace (k + S i)%nat with (S (k + i)) in K2 by lia.
    split; [repeat split; assumption|]. split; [apply (valid_consec rows V _ _ _ K1 K2 F)|apply (NN _ _ _ K1 K2 CT)]. }
  destruct run as [|x q]; [congruence|]. destruct (run_mono _ C x q eq_refl r Hr) as (L & A & B). exists (collapse (x :: q)). split; [apply in_map; exact Hrun|].
  destruct (collapse_fields x q) as (F1 & F2 & F3 & F4 & _). destruct L as (L1 & L2 & L3). split; [repeat split; congruence|].
  assert (EE : Qeq (r_end (collapse (x :: q))) (r_end (last q x))) by (rewrite (collapse_end (x :: q) x ltac:(discriminate)); destruct q; reflexivity).
  split; [rewrite F4; lra|]. rewrite EE. lra.
Qed.
Print Assumptions C34_rttm_merge_keeps_time.

Lemma run_find margin (run : list row) : consec (continues margin) run -> Qle margin 0 -> forall x q t, run = x :: q -> Qle (r_tb x) t -> Qlt t (r_end (last q x)) ->
  exists z, In z run /\ same_label z x /\ covers z t.
Proof.
  intros CS M. induction run as [|x0 run IH]; intros x q t E T1 T2; [discriminate E|]. injection E as -> ->.
  destruct (Qlt_le_dec t (r_end x)) as [L|L].
  - exists x. split; [left; reflexivity|]. split; [repeat split|]. split; assumption.
  - destruct q as [|y q']; [cbn in T2; lra|]. pose proof (CS 0%nat x y eq_refl eq_refl) as C. apply continues_spec in C as (F & Ty & N & D).
    assert (LE : last (y :: q') x = last q' y) by (destruct q' as [|w r'']; [reflexivity|]; clear; revert w; induction r'' as [|v r'' IHr]; intros w; [reflexivity|]; exact (IHr v)). rewrite LE in T2.
    destruct (IH ltac:(intros i a b H1 H2; apply (CS (S i)); assumption) y q' t eq_refl) as (z & Hz & (A1 & A2 & A3) & Cz).
    + unfold r_end in L. lra.
    + exact T2.
    + exists z. split; [right; exact Hz|]. split; [repeat split; congruence|exact Cz].
Qed.

(** With no gap allowed (margin at most 0) no new time is labelled. *)
Theorem C34_rttm_merge_adds_nothing : forall margin rows, (forall r, In r rows -> r_type r <> "DROP"%string) -> Qle margin 0 ->
  forall r' t, In r' (rttm_merge margin rows) -> covers r' t -> exists r, In r rows /\ same_label r r' /\ covers r t.
Proof.
  intros margin rows ND M r' t Hr (T1 & T2). rewrite merge_runs in Hr by exact ND. apply in_map_iff in Hr as (run & <- & Hrun).
  pose proof (runs_cut (continues margin) rows) as (CC & CU & _). destruct (CU run Hrun) as (NE & CS). destruct run as [|x q]; [congruence|].
  destruct (collapse_fields x q) as (F1 & F2 & F3 & F4 & _).
  assert (EE : Qeq (r_end (collapse (x :: q))) (r_end (last q x))) by (rewrite (collapse_end (x :: q) x ltac:(discriminate)); destruct q; reflexivity).
  rewrite EE in T2. rewrite F4 in T1. destruct (run_find margin (x :: q) CS M x q t eq_refl T1 T2) as (z & Hz & (L1 & L2 & L3) & Cz).
  exists z. split; [rewrite <- CC; apply in_concat; eauto|]. split; [repeat split; congruence|exact Cz].
Qed.
Print Assumptions C34_rttm_merge_adds_nothing.

(** a segment nested in the previous one cuts it short: labelled time is lost *)
Theorem C34_nested_refuted : exists rows r t, rttm_valid rows = true /\ In r rows /\ covers r t /\
  forall r', In r' (rttm_merge 0 rows) -> ~ covers r' t.
Proof.
  exists [mk_row "SPEAKER" "f" "s" 0 10 ""; mk_row "SPEAKER" "f" "s" 2 1 ""], (mk_row "SPEAKER" "f" "s" 0 10 ""), 5%Q.
  split; [reflexivity|]. split; [left; reflexivity|]. split; [split; unfold r_end; cbn; lra|].
  intros r' [<-|[]] (C1 & C2). unfold r_end in C2. cbn in C2. lra.
Qed.
Print Assumptions C34_nested_refuted.

Definition demo := [mk_row "SPEAKER" "f" "s" 0 2 ""; mk_row "SPEAKER" "f" "s" 2 3 ""; mk_row "SPEAKER" "f" "t" 4 1 ""; mk_row "SPEAKER" "f" "s" 5 1 ""; mk_row "SPEAKER" "f" "s" (55 # 10) 1 ""; mk_row "SPEAKER" "g" "s" 0 1 ""].
Example C34_witness : rttm_valid demo = true /\ not_nested 0 demo /\ map (fun r => (r_file r, r_name r, r_tb r, Qred (r_end r))) (rttm_merge 0 demo) =
  [("f", "s", 0, 5); ("f", "t", 4, 5); ("f", "s", 5, 13 # 2); ("g", "s", 0, 1)]%string%Q.
Proof.
  split; [reflexivity|]. split.
  - intros i a b H1 H2 C. do 6 (destruct i as [|i]; [cbn in H1, H2; first [discriminate H2 | injection H1 as <-; injection H2 as <-; first [discriminate C | vm_compute; discriminate]]|]). destruct i; discriminate H1.
  - vm_compute. reflexivity.
Qed.

(** ** C35: overlap elimination *)

Lemma vs_prev_nth f rows i a b : nth_error rows i = Some a -> nth_error rows (S i) = Some b -> nth (S i) (vs_prev f rows) false = f a b.
Proof.
  intros H1 H2. destruct rows as [|x rows]; [destruct i; discriminate H1|]. unfold vs_prev. cbn [nth]. revert x i H1 H2. induction rows as [|y rows IH]; intros x i H1 H2; [destruct i as [|i]; [discriminate H2|destruct i; discriminate H2]|].
  cbn [shifted]. destruct i as [|i]; [injection H1 as <-; injection H2 as <-; reflexivity|]. cbn [nth]. apply (IH y i H1 H2).
Qed.
Lemma vs_prev_end f rows i : (len rows <= i)%nat -> nth i (vs_prev f rows) false = false.
Proof.
  intros H. apply nth_overflow. destruct rows as [|x rows]; [cbn; lia|]. unfold vs_prev. cbn [len] in *. assert (L : forall y r, len (shifted f (y :: r)) = len r) by (intros y r; revert y; induction r as [|z r IHr]; intros y; [reflexivity|]; cbn [shifted len]; f_equal; apply IHr). rewrite L. lia.
Qed.

Definition ov_prev (rows : list row) (i : nat) : bool := nth i (vs_prev overlaps rows) false.
Lemma elim_nth rows i r : nth_error rows i = Some r -> exists r', nth_error (rttm_elim rows) i = Some r' /\
  r_type r' = r_type r /\ r_file r' = r_file r /\ r_name r' = r_name r /\ r_rest r' = r_rest r /\
  (r_tb r' = if ov_prev rows i then mid (nth (i - 1) rows row0) r else r_tb r) /\
  Qeq (r_end r') (if ov_prev rows i then r_end r else if ov_prev rows (S i) then mid r (nth (S i) rows row0) else r_end r).
Proof.
  intros H. unfold rttm_elim. cbv zeta. rewrite nth_error_map, combine_seq_nth, H. cbn [option_map fst snd Nat.add]. eexists. split; [reflexivity|].
  replace (S i - 1)%nat with i by lia. rewrite (nth_error_nth _ _ row0 H). unfold ov_prev.
  destruct (nth i (vs_prev overlaps rows) false), (nth (S i) (vs_prev overlaps rows) false); cbn [set_dur set_tb r_type r_file r_name r_tb r_rest r_dur]; unfold r_end; cbn [set_dur set_tb r_tb r_dur]; repeat split; try reflexivity; ring.
Qed.

(** no segment overlaps both neighbours *)
Definition no_chain (rows : list row) : Prop :=
  forall i a b c, nth_error rows i = Some a -> nth_error rows (S i) = Some b -> nth_error rows (S (S i)) = Some c -> overlaps a b = true -> overlaps b c = false.

Lemma overlaps_false a b : r_file b = r_file a -> r_type b = r_type a -> overlaps a b = false -> Qle (r_end a) (r_tb b).
Proof. intros F T H. unfold overlaps in H. rewrite F, T, !(proj2 (eqb_eq _ _) eq_refl) in H. cbn in H. apply negb_false_iff in H. apply Qle_bool_iff. exact H. Qed.
Lemma overlaps_true a b : overlaps a b = true -> r_file b = r_file a /\ r_type b = r_type a /\ Qlt (r_tb b) (r_end a).
Proof. unfold overlaps. rewrite !andb_true_iff, !eqb_eq, negb_true_iff. intros ((F & T) & H). repeat split; try assumption. apply Qnot_le_lt. intros X. apply Qle_bool_iff in X. congruence. Qed.

(** If no segment overlaps both neighbours, afterwards consecutive segments of the same file and type do
    not overlap; every row keeps its labels, and rows that overlapped nothing keep their times. *)
Theorem C35_elim_no_overlap_partial : forall rows, no_chain rows ->
  len (rttm_elim rows) = len rows /\
  (forall i a b, nth_error (rttm_elim rows) i = Some a -> nth_error (rttm_elim rows) (S i) = Some b -> r_file b = r_file a -> r_type b = r_type a -> Qle (r_end a) (r_tb b)) /\
  (forall i r, nth_error rows i = Some r -> exists r', nth_error (rttm_elim rows) i = Some r' /\ same_label r' r /\ r_rest r' = r_rest r /\
     ((forall a, nth_error rows (i - 1) = Some a -> i <> 0%nat -> overlaps a r = false) -> r_tb r' = r_tb r) /\
     ((forall b, nth_error rows (S i) = Some b -> overlaps r b = false) -> Qeq (r_end r') (r_end r))).
Proof.
  intros rows NC. assert (LEN : len (rttm_elim rows) = len rows) by (unfold rttm_elim; cbv zeta; rewrite map_length, combine_length, seq_length; lia).
  split; [exact LEN|]. split.
  - intros i a b H1 H2 F T. assert (L2 : (S i < len rows)%nat) by (rewrite <- LEN; apply nth_error_Some; congruence).
    destruct (nth_error rows i) as [x|] eqn:X; [|apply nth_error_None in X; lia]. destruct (nth_error rows (S i)) as [y|] eqn:Y; [|apply nth_error_None in Y; lia].
    destruct (elim_nth rows i x X) as (x' & Ex & Tx & Fx & Nx & Rx & Bx & Dx). destruct (elim_nth rows (S i) y Y) as (y' & Ey & Ty & Fy & Ny & Ry & By & Dy).
    assert (x' = a) by congruence. assert (y' = b) by congruence. subst x' y'. rewrite By, Dx. replace (S i - 1)%nat with i by lia. rewrite (nth_error_nth _ _ row0 X), (nth_error_nth _ _ row0 Y).
    assert (OV : ov_prev rows (S i) = overlaps x y) by (apply vs_prev_nth; assumption). rewrite OV.
    destruct (overlaps x y) eqn:O.
    + destruct (ov_prev rows i) eqn:P; [|lra]. exfalso. destruct i as [|i]; [unfold ov_prev in P; destruct rows; discriminate P|].
      assert (Lw : (i < len rows)%nat) by lia. destruct (nth_error rows i) as [w|] eqn:W; [|apply nth_error_None in W; lia]. unfold ov_prev in P. rewrite (vs_prev_nth _ _ _ _ _ W X) in P. rewrite (NC i w x y W X Y P) in O. discriminate.
    + assert (Q : Qle (r_end x) (r_tb y)) by (apply overlaps_false; congruence). destruct (ov_prev rows i); exact Q.
  - intros i r H. destruct (elim_nth rows i r H) as (r' & E & T & F & N & R & B & D). exists r'. split; [exact E|]. split; [repeat split; assumption|]. split; [exact R|]. split.
    + intros H1. rewrite B. destruct (ov_prev rows i) eqn:P; [|reflexivity]. exfalso. destruct i as [|i]; [unfold ov_prev in P; destruct rows; discriminate P|].
      assert (Lw : (i < len rows)%nat) by (assert (S i < len rows)%nat by (apply nth_error_Some; congruence); lia). destruct (nth_error rows i) as [w|] eqn:W; [|apply nth_error_None in W; lia]. unfold ov_prev in P. rewrite (vs_prev_nth _ _ _ _ _ W H) in P.
      rewrite (H1 w) in P; [discriminate|replace (S i - 1)%nat with i by lia; exact W|lia].
    + intros H1. rewrite D. destruct (ov_prev rows i); [reflexivity|]. destruct (ov_prev rows (S i)) eqn:P; [|reflexivity]. exfalso.
      destruct (nth_error rows (S i)) as [b|] eqn:Y; [|apply nth_error_None in Y; unfold ov_prev in P; rewrite vs_prev_end in P by exact Y; discriminate]. unfold ov_prev in P. rewrite (vs_prev_nth _ _ _ _ _ H Y), (H1 b eq_refl) in P. discriminate.
Qed.
Print Assumptions C35_elim_no_overlap_partial.

(** the overlapped pair is divided at the middle of the overlap; both keep a non-negative duration
    when the second does not end before the first *)
Theorem C35_elim_pair_partial : forall rows i a b, no_chain rows -> nth_error rows i = Some a -> nth_error rows (S i) = Some b -> overlaps a b = true ->
  exists a' b', nth_error (rttm_elim rows) i = Some a' /\ nth_error (rttm_elim rows) (S i) = Some b' /\
    r_tb a' = r_tb a /\ Qeq (r_end a') ((r_tb b + r_end a) / 2) /\ Qeq (r_tb b') ((r_tb b + r_end a) / 2) /\ Qeq (r_end b') (r_end b) /\
    (Qle (r_tb a) (r_tb b) -> Qle (r_end a) (r_end b) -> Qle 0 (r_dur b) -> Qle 0 (r_dur a') /\ Qle 0 (r_dur b')).
Proof.
  intros rows i a b NC A B O. destruct (elim_nth rows i a A) as (a' & Ea & _ & _ & _ & _ & Ba & Da). destruct (elim_nth rows (S i) b B) as (b' & Eb & _ & _ & _ & _ & Bb & Db).
  exists a', b'. split; [exact Ea|]. split; [exact Eb|].
  assert (OV : ov_prev rows (S i) = true) by (unfold ov_prev; rewrite (vs_prev_nth _ _ _ _ _ A B); exact O).
  assert (OP : ov_prev rows i = false).
  { destruct (ov_prev rows i) eqn:P; [|reflexivity]. exfalso. destruct i as [|i]; [unfold ov_prev in P; destruct rows; discriminate P|].
    assert (Lw : (i < len rows)%nat) by (assert (S i < len rows)%nat by (apply nth_error_Some; congruence); lia). destruct (nth_error rows i) as [w|] eqn:W; [|apply nth_error_None in W; lia]. unfold ov_prev in P. rewrite (vs_prev_nth _ _ _ _ _ W A) in P. rewrite (NC i w a b W A B P) in O. discriminate. }
  rewrite OV in Bb, Db, Da. rewrite OP in Ba, Da. replace (S i - 1)%nat with i in Bb by lia. rewrite (nth_error_nth _ _ row0 A) in Bb. rewrite (nth_error_nth _ _ row0 B) in Da.
  split; [exact Ba|]. split; [exact Da|]. split; [rewrite Bb; reflexivity|]. split; [exact Db|].
  intros T E D. destruct (overlaps_true a b O) as (_ & _ & OL).
  assert (Ma : Qeq (r_dur a') (r_end a' - r_tb a')) by (unfold r_end; ring). assert (Mb : Qeq (r_dur b') (r_end b' - r_tb b')) by (unfold r_end; ring).
  rewrite Ma, Mb, Da, Db, Ba, Bb. unfold mid. assert (HV : forall z : Q, Qeq (z / 2) (z * (1 # 2))) by (intros z; field). rewrite !HV.
  assert (EB : Qle (r_tb b) (r_end b)) by (unfold r_end; lra). set (ea := r_end a) in *. set (eb := r_end b) in *. clearbody ea eb. split; lra.
Qed.
Print Assumptions C35_elim_pair_partial.

(** three segments in a chain: after the call the second still overlaps the third *)
Theorem C35_chain_refuted : exists rows i a b, rttm_valid rows = true /\ (forall r, In r rows -> Qlt 0 (r_dur r)) /\
  nth_error (rttm_elim rows) i = Some a /\ nth_error (rttm_elim rows) (S i) = Some b /\ overlaps a b = true.
Proof.
  exists [mk_row "SPEAKER" "f" "s" 0 4 ""; mk_row "SPEAKER" "f" "t" 3 4 ""; mk_row "SPEAKER" "f" "s" 6 4 ""], 1%nat. eexists _, _.
  split; [reflexivity|]. split; [intros r [<-|[<-|[<-|[]]]]; cbn; lra|]. split; [reflexivity|]. split; [reflexivity|]. vm_compute. reflexivity.
Qed.
Print Assumptions C35_chain_refuted.
(** a nested segment gets a negative duration *)
Theorem C35_nested_refuted : exists rows i r, rttm_valid rows = true /\ (forall r, In r rows -> Qlt 0 (r_dur r)) /\ no_chain rows /\
  nth_error (rttm_elim rows) i = Some r /\ Qlt (r_dur r) 0.
Proof.
  exists [mk_row "SPEAKER" "f" "s" 0 10 ""; mk_row "SPEAKER" "f" "t" 2 1 ""], 1%nat. eexists.
  split; [reflexivity|]. split; [intros r [<-|[<-|[]]]; cbn; lra|]. split; [intros i a b c H1 H2 H3; destruct i as [|i]; [discriminate H3|]; destruct i; discriminate H2|]. split; [reflexivity|]. vm_compute. reflexivity.
Qed.
Print Assumptions C35_nested_refuted.

Example C35_witness : no_chain [mk_row "SPEAKER" "f" "s" 0 4 ""; mk_row "SPEAKER" "f" "t" 3 4 ""; mk_row "SPEAKER" "f" "s" 7 4 ""] /\
  map (fun r => (Qred (r_tb r), Qred (r_end r))) (rttm_elim [mk_row "SPEAKER" "f" "s" 0 4 ""; mk_row "SPEAKER" "f" "t" 3 4 ""; mk_row "SPEAKER" "f" "s" 7 4 ""]) = [(0, 7 # 2); (7 # 2, 7); (7, 11)]%Q.
Proof.
  split; [|vm_compute; reflexivity]. intros i a b c H1 H2 H3 O. destruct i as [|i]; [cbn in H2, H3; injection H2 as <-; injection H3 as <-; reflexivity|]. destruct i as [|i]; [discriminate H3|destruct i; discriminate H2].
Qed.

(** ** C54: names of segments *)

Lemma filter_filter {A} (f g : A -> bool) l : filter f (filter g l) = filter (fun x => g x && f x) l.
Proof. induction l as [|x l IH]; [reflexivity|]. cbn. destruct (g x); cbn; [destruct (f x); rewrite IH; reflexivity|exact IH]. Qed.

(** the fast version returns what the simple one does (no recording has an empty name) *)
Theorem C54_fast_is_slow : forall rows segs sep type, (forall s, In s segs -> sg_file s <> EmptyString) ->
  names_fast rows segs sep type = Ok (names_slow rows segs sep type).
Proof.
  intros rows segs sep type NE. unfold names_fast, names_slow. set (R := filter (fun r => eqb (r_type r) type) rows).
  assert (G : forall segs prev segf, (forall s, In s segs -> sg_file s <> EmptyString) ->
    (prev = EmptyString \/ segf = Some (filter (fun r => eqb (r_file r) prev) R)) ->
    names_loop R sep prev segf segs = Ok (map (fun s => name_field sep (filter (fun r => eqb (r_type r) type && eqb (r_file r) (sg_file s) && touches (sg_tb s) (sg_te s) r) rows)) segs)).
  { clear segs NE. induction segs as [|s segs IH]; intros prev segf NE PV; [reflexivity|]. cbn [names_loop map].
    assert (ST : (if eqb (sg_file s) prev then (prev, segf) else (sg_file s, Some (filter (fun r => eqb (r_file r) (sg_file s)) R))) = (sg_file s, Some (filter (fun r => eqb (r_file r) (sg_file s)) R))).
    { destruct (eqb (sg_file s) prev) eqn:E; [|reflexivity]. apply eqb_eq in E. subst prev. destruct PV as [PV|PV]; [exfalso; apply (NE s); [left; reflexivity|exact PV]|]. rewrite PV. reflexivity. }
    rewrite ST. rewrite IH; [|intros x Hx; apply NE; right; exact Hx|right; reflexivity]. cbn [bind]. f_equal. f_equal. f_equal. unfold R. rewrite !filter_filter. apply filter_ext. intros r. rewrite andb_assoc. reflexivity. }
  apply G; [exact NE|left; reflexivity].
Qed.
Print Assumptions C54_fast_is_slow.
Theorem C54_empty_file_refuted : forall rows s segs sep type, sg_file s = EmptyString -> names_fast rows (s :: segs) sep type = Err UnboundLocalError.
Proof. intros rows s segs sep type E. unfold names_fast. cbn [names_loop]. rewrite E. reflexivity. Qed.
Print Assumptions C54_empty_file_refuted.

Lemma uniq_first_in l x : In x (uniq_first l) <-> In x l.
Proof.
  induction l as [|y l IH]; cbn; [tauto|]. rewrite filter_In, IH, negb_true_iff. split; [tauto|]. intros [H|H]; [tauto|]. destruct (eqb x y) eqn:E; [apply eqb_eq in E; left; congruence|tauto].
Qed.
Lemma uniq_first_nodup l : NoDup (uniq_first l).
Proof. induction l as [|y l IH]; cbn; constructor; [|apply NoDup_filter; exact IH]. rewrite filter_In, (proj2 (eqb_eq y y) eq_refl). cbn. intros (_ & H). discriminate. Qed.

(** what the result means: the distinct names of the labelled rows that contain the start of the segment
    or its end ("<NA>" when there is none), in order of appearance *)
Theorem C54_names_meaning : forall rows segs sep type i s, nth_error segs i = Some s ->
  exists names, NoDup names /\
  nth_error (names_slow rows segs sep type) i = Some (match names with [] => "<NA>"%string | _ => String.concat sep names end, len names) /\
  forall n, In n names <-> exists r, In r rows /\ r_type r = type /\ r_file r = sg_file s /\ r_name r = n /\
    ((Qle (r_tb r) (sg_tb s) /\ Qlt (sg_tb s) (r_end r)) \/ (Qlt (r_tb r) (sg_te s) /\ Qle (sg_te s) (r_end r))).
Proof.
  intros rows segs sep type i s H. unfold names_slow. rewrite nth_error_map, H. cbn [option_map]. set (F := filter _ rows).
  assert (FI : forall r, In r F <-> In r rows /\ r_type r = type /\ r_file r = sg_file s /\ ((Qle (r_tb r) (sg_tb s) /\ Qlt (sg_tb s) (r_end r)) \/ (Qlt (r_tb r) (sg_te s) /\ Qle (sg_te s) (r_end r)))).
  { intros r. unfold F. rewrite filter_In, !andb_true_iff, !eqb_eq. unfold touches. rewrite orb_true_iff, !andb_true_iff, !negb_true_iff, !Qle_bool_iff.
    assert (LT : forall a b, Qle_bool a b = false <-> Qlt b a) by (intros a b; rewrite <- not_true_iff_false, Qle_bool_iff; split; [apply Qnot_le_lt|apply Qlt_not_le]). rewrite !LT. tauto. }
  exists (uniq_first (map r_name F)). split; [apply uniq_first_nodup|]. split.
  - f_equal. unfold name_field. destruct F as [|r F']; [reflexivity|]. cbn [map uniq_first]. reflexivity.
  - intros n. rewrite uniq_first_in, in_map_iff. split.
    + intros (r & E & Hr). apply FI in Hr. exists r. tauto.
    + intros (r & H1 & H2 & H3 & H4 & H5). exists r. split; [exact H4|]. apply FI. tauto.
Qed.
Print Assumptions C54_names_meaning.

(** a speaker who only talks strictly inside the segment is not listed *)
Theorem C54_inner_speaker_refuted : exists rows s r, In r rows /\ r_file r = sg_file s /\ r_type r = "SPEAKER"%string /\
  Qlt (sg_tb s) (r_tb r) /\ Qlt (r_end r) (sg_te s) /\ Qlt 0 (r_dur r) /\ names_fast rows [s] "@" "SPEAKER" = Ok [("<NA>"%string, 0%nat)].
Proof.
  exists [mk_row "SPEAKER" "f" "s" 2 1 ""], (mk_seg "x" "f" 0 10), (mk_row "SPEAKER" "f" "s" 2 1 "").
  split; [left; reflexivity|]. split; [reflexivity|]. split; [reflexivity|]. unfold r_end. cbn. split; [lra|]. split; [lra|]. split; [lra|]. reflexivity.
Qed.
Print Assumptions C54_inner_speaker_refuted.

(** to_segment_list keeps one segment per row with its file and times... *)
Theorem C54_to_segment_list : forall dec rows, (forall r, In r rows -> Qle 0 (r_dur r)) -> exists o, to_segment_list dec rows = Ok o /\
  Forall2 (fun r s => sg_file s = r_file r /\ sg_tb s = r_tb r /\ Qeq (sg_te s) (r_tb r + r_dur r)) rows (sl_segs o).
Proof.
  intros dec rows H. unfold to_segment_list, sl_new. set (segs := map _ rows). assert (E : forallb (fun s => Qle_bool (sg_tb s) (sg_te s)) segs = true).
  { apply forallb_forall. intros s Hs. apply in_map_iff in Hs as (r & <- & Hr). cbn [sg_tb sg_te]. apply Qle_bool_iff. specialize (H r Hr). unfold r_end. lra. }
  rewrite E. cbn [assert bind]. eexists. split; [reflexivity|]. cbn [sl_segs]. unfold segs. clear E segs H. induction rows as [|r rows IH]; cbn [map]; constructor; [|exact IH]. cbn. repeat split. 
Qed.
Print Assumptions C54_to_segment_list.
(** ... but the segment names keep only whole seconds and can coincide *)
Theorem C54_segment_ids_refuted : forall dec, exists rows o, to_segment_list dec rows = Ok o /\ rttm_valid rows = true /\ NoDup rows /\ ~ NoDup (map sg_id (sl_segs o)).
Proof.
  intros dec. exists [mk_row "SPEAKER" "f" "s" (1 # 10) (1 # 10) ""; mk_row "SPEAKER" "f" "s" (5 # 10) (1 # 10) ""]. eexists. split; [reflexivity|]. split; [reflexivity|]. split.
  - constructor; [intros [H|[]]; discriminate H|]. constructor; [intros []|constructor].
  - cbn [sl_segs map sg_id r_file r_tb]. intros N. inversion N as [|? ? H _]; subst. apply H. left. reflexivity.
Qed.
Print Assumptions C54_segment_ids_refuted.

Example C54_witness : names_fast demo [mk_seg "x" "f" (1 # 2) (45 # 10); mk_seg "y" "g" 3 4] "@" "SPEAKER" = Ok [("s@t", 2%nat); ("<NA>", 0%nat)]%string.
Proof. vm_compute. reflexivity. Qed.
