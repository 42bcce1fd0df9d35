(** C96: conversion of speech marks to binary decisions and of binary decisions to time marks. *)
From Coq Require Import String ZArith QArith Qround List Bool Lia Permutation.
From Verif Require Import Base BaseFacts Mat Segments SegmentsProps VadTools.
Import ListNotations.
Open Scope list_scope. Open Scope Z_scope.

(** ** Binary decisions to intervals *)
Definition binary (vad : list Z) : Prop := forall x, In x vad -> x = 0 \/ x = 1.
(** consecutive intervals from a to b *)
Fixpoint contiguous (a : nat) (ivs : list (nat * nat * bool)) (b : nat) : Prop :=
  match ivs with [] => a = b | (s, e, _) :: ivs => s = a /\ (s <= e)%nat /\ contiguous e ivs b end.
Fixpoint alternate (ivs : list (nat * nat * bool)) : Prop :=
  match ivs with a :: ((b :: _) as r) => snd b = negb (snd a) /\ alternate r | _ => True end.
(** the state that the intervals give to frame t *)
Definition marked (ivs : list (nat * nat * bool)) (t : nat) (b : bool) : Prop := exists s e, In (s, e, b) ivs /\ (s <= t < e)%nat.

Lemma loop_ok l : forall x pos prev, binary (x :: l) -> (prev <= pos)%nat ->
  let n := (pos + len (x :: l))%nat in let ivs := interval_loop prev (x =? 1) (change_points pos x l) n in
  contiguous prev ivs n /\ alternate ivs /\ (exists e ivs', ivs = (prev, e, x =? 1) :: ivs') /\
  forall t b, marked ivs t b -> (prev <= t < n)%nat /\ b = (if (t <? pos)%nat then x =? 1 else nth (Nat.min (S (t - pos)) (len l)) (x :: l) 0 =? 1).
Proof.
  induction l as [|y l IH]; intros x pos prev B P; cbv zeta.
  - cbn [change_points interval_loop contiguous alternate length]. split; [split; [reflexivity|split; [lia|reflexivity]]|]. split; [exact I|]. split; [eauto|].
    intros t b (s & e & [E|[]] & T). injection E as <- <- <-. split; [lia|]. destruct (Nat.ltb_spec t pos); [reflexivity|]. cbn [length]. rewrite Nat.min_0_r. reflexivity.
  - assert (B' : binary (y :: l)) by (intros z Hz; apply B; right; exact Hz). cbn [change_points]. replace (pos + len (x :: y :: l))%nat with (S pos + len (y :: l))%nat by (cbn [length]; lia).
    destruct (Z.eqb_spec x y) as [E|NE].
    + subst y. destruct (IH x (S pos) prev B' ltac:(lia)) as (C & A & H & V). split; [exact C|]. split; [exact A|]. split; [exact H|].
      intros t b M. destruct (V t b M) as (T & ->). split; [exact T|]. clear - P. destruct (Nat.ltb_spec t (S pos)); destruct (Nat.ltb_spec t pos); try lia; try reflexivity.
      * replace (t - pos)%nat with 0%nat by lia. reflexivity.
      * replace (S (t - pos)) with (S (S (t - S pos))) by lia. cbn [length]. change (Nat.min (S (S (t - S pos))) (S (len l))) with (S (Nat.min (S (t - S pos)) (len l))). reflexivity.
    + destruct (IH y (S pos) pos B' ltac:(lia)) as (C & A & (e0 & iv' & H) & V). set (n := (S pos + len (y :: l))%nat) in *.
      assert (SP : negb (x =? 1) = (y =? 1)). { destruct (B x (or_introl eq_refl)), (B y (or_intror (or_introl eq_refl))); subst; try reflexivity; congruence. }
      cbn [interval_loop]. rewrite SP. cbn [contiguous]. split; [split; [reflexivity|split; [lia|exact C]]|]. split; [rewrite H in *; cbn [alternate]; split; [cbn [snd]; symmetry; exact SP|exact A]|]. split; [eauto|].
      intros t b (s & e & [E|Hin] & T).
      * injection E as <- <- <-. split; [unfold n; cbn [length]; lia|]. apply proj2 in T. apply Nat.ltb_lt in T. rewrite T. reflexivity.
      * destruct (V t b (ex_intro _ s (ex_intro _ e (conj Hin T)))) as (T1 & ->). split; [lia|]. destruct (Nat.ltb_spec t (S pos)); destruct (Nat.ltb_spec t pos); try lia.
        -- replace (t - pos)%nat with 0%nat by lia. reflexivity.
        -- replace (S (t - pos)) with (S (S (t - S pos))) by lia. cbn [length]. change (Nat.min (S (S (t - S pos))) (S (len l))) with (S (Nat.min (S (t - S pos)) (len l))). reflexivity.
Qed.
Lemma contiguous_marked ivs : forall a b t, contiguous a ivs b -> (a <= t < b)%nat -> exists s, marked ivs t s.
Proof.
  induction ivs as [|((s, e), st) ivs IH]; intros a b t C T; cbn [contiguous] in C; [lia|]. destruct C as (-> & SE & C). destruct (Nat.lt_ge_cases t e) as [L|G].
  - exists st, a, e. split; [left; reflexivity|lia].
  - destruct (IH e b t C ltac:(lia)) as (s' & s0 & e0 & Hin & T0). exists s', s0, e0. split; [right; exact Hin|exact T0].
Qed.
(** The intervals follow each other from 0 to the number of frames, speech and non-speech alternating, and every frame is in one; but the state
    written for a frame is that of the next frame (of the last one at the end): every boundary is one frame early. *)
Theorem C96_intervals : forall vad, binary vad -> vad <> [] ->
  exists ivs, bin2intervals vad = Ok ivs /\ contiguous 0 ivs (len vad) /\ alternate ivs /\
  forall t, (t < len vad)%nat -> (exists b, marked ivs t b) /\ forall b, marked ivs t b -> b = (nth (Nat.min (S t) (len vad - 1)) vad 0 =? 1).
Proof.
  intros vad B NE. destruct vad as [|x l]; [congruence|]. eexists. split; [reflexivity|]. destruct (loop_ok l x 0 0 B (le_n _)) as (C & A & _ & V). cbv zeta in C, A, V.
  change (0 + len (x :: l))%nat with (len (x :: l)) in C, A, V. split; [exact C|]. split; [exact A|]. intros t T. split; [apply (contiguous_marked _ _ _ _ C); lia|].
  intros b M. destruct (V t b M) as (_ & ->). cbn [Nat.ltb Nat.leb]. rewrite Nat.sub_0_r. cbn [length]. rewrite Nat.sub_succ, Nat.sub_0_r. reflexivity.
Qed.
Print Assumptions C96_intervals.
(** so the last frame before every change is written with the wrong state *)
Theorem C96_boundary_refuted : forall vad p a b, binary vad -> nth_error vad p = Some a -> nth_error vad (S p) = Some b -> a <> b ->
  exists ivs, bin2intervals vad = Ok ivs /\ forall s, marked ivs p s -> s <> (a =? 1).
Proof.
  intros vad p a b B Ha Hb N. assert (L : (S p < len vad)%nat) by (apply nth_error_Some; congruence). assert (NE : vad <> []) by (intros ->; cbn in L; lia).
  destruct (C96_intervals vad B NE) as (ivs & E & _ & _ & V). exists ivs. split; [exact E|]. intros s M. destruct (V p ltac:(lia)) as (_ & W). rewrite (W s M). rewrite Nat.min_l by lia.
  rewrite (nth_error_nth vad (S p) 0 Hb). destruct (B a (nth_error_In _ _ Ha)), (B b (nth_error_In _ _ Hb)); subst; cbn; congruence.
Qed.
Print Assumptions C96_boundary_refuted.
Example C96_intervals_witness : binary [0; 1; 1; 0] /\ bin2intervals [0; 1; 1; 0] = Ok [(0, 0, false); (0, 2, true); (2, 4, false)]%nat.
Proof. split; [intros x [<-|[<-|[<-|[<-|[]]]]]; auto|reflexivity]. Qed.

(** ** Marks to binary decisions *)
(** v holds nf decisions, 1 exactly in the frames of the segments of the file *)
Definition speech_of (segs : list seg) (file : string) (shift : positive) (nf : Z) (v : list Z) : Prop :=
  Z.of_nat (len v) = nf /\ forall f, 0 <= f < nf ->
    (nth_error v (Z.to_nat f) = Some 1 /\ exists s, In s segs /\ sg_file s = file /\ frame_of shift (sg_tb s) <= f <= frame_of shift (sg_te s)) \/
    (nth_error v (Z.to_nat f) = Some 0 /\ forall s, In s segs -> sg_file s = file -> ~ frame_of shift (sg_tb s) <= f <= frame_of shift (sg_te s)).
(** valid marks, a table with distinct ids, and every file with marks in the table *)
Definition good_segs (segs : list seg) : Prop := forall s, In s segs -> Qle 0 (sg_tb s) /\ Qle (sg_tb s) (sg_te s).
Definition good_table (tbl : list (string * Z)) : Prop := NoDup (map fst tbl) /\ forall r, In r tbl -> 0 <= snd r.

Lemma frames_in tbl f n : NoDup (map fst tbl) -> In (f, n) tbl -> frames_of tbl f = Ok n.
Proof.
  intros N H. unfold frames_of. assert (E : filter (fun r => eqb (fst r) f) tbl = [(f, n)]); [|rewrite E; reflexivity].
  induction tbl as [|(g, m) tbl IH]; [destruct H|]. cbn [map fst] in N. inversion_clear N as [|? ? N1 N2]. cbn [filter fst].
  destruct H as [H|H].
  - injection H as -> ->. rewrite (proj2 (eqb_eq f f) eq_refl). f_equal. destruct (filter _ tbl) as [|(g, k) t] eqn:E; [reflexivity|]. exfalso. apply N1.
    assert (Hin : In (g, k) (filter (fun r => eqb (fst r) f) tbl)) by (rewrite E; left; reflexivity). apply filter_In in Hin as (Hin & Q). cbn [fst] in Q. apply eqb_eq in Q. subst g. apply (in_map fst) in Hin. exact Hin.
  - destruct (eqb g f) eqn:Q; [|apply IH; assumption]. apply eqb_eq in Q. subst g. exfalso. apply N1. apply (in_map fst) in H. exact H.
Qed.
Lemma files_ok o tbl shift : sl_by_file o = true -> good_segs (sl_segs o) -> good_table tbl -> (forall s, In s (sl_segs o) -> In (sg_file s) (map fst tbl)) ->
  exists vs, mapM (file_vad o (Some tbl) shift) (sl_uniq_files o) = Ok vs /\ map fst vs = sl_uniq_files o /\
    forall f v, In (f, v) vs -> exists nf, In (f, nf) tbl /\ speech_of (sl_segs o) f shift nf v.
Proof.
  intros BF GS (TN & TP) CO.
  assert (H : forall f, In f (sl_uniq_files o) -> exists v nf, file_vad o (Some tbl) shift f = Ok (f, v) /\ In (f, nf) tbl /\ speech_of (sl_segs o) f shift nf v).
  { intros f Hf. apply (proj1 (unique_in _ _)) in Hf. apply in_map_iff in Hf as (s & Fs & Hs). pose proof (CO s Hs) as HT. rewrite Fs in HT. apply in_map_iff in HT as ((f', nf) & E & HT). cbn [fst] in E. subst f'.
    pose proof (frames_in tbl f nf TN HT) as FE. pose proof (TP _ HT) as NP. cbn [snd] in NP.
    destruct (C33_to_bin_vad o f shift nf NP) as (v & EV & LV & VV).
    - exists s. split; [exact Hs|]. rewrite BF. exact Fs.
    - intros s' Hs' _. apply GS. exact Hs'.
    - exists v, nf. split; [unfold file_vad; rewrite FE; cbn [bind]; rewrite EV; reflexivity|]. split; [exact HT|]. split; [exact LV|]. intros j Hj. destruct (VV j Hj) as [(A & s1 & B1 & B2 & B3)|(A & B)].
      + left. split; [exact A|]. exists s1. rewrite BF in B2. auto.
      + right. split; [exact A|]. intros s1 H1 H2. apply B; [exact H1|rewrite BF; exact H2]. }
  clear GS TN TP CO. revert H. generalize (sl_uniq_files o). intros fs. induction fs as [|f fs IH]; intros H.
  - exists []. repeat split. intros f v [].
  - destruct (H f (or_introl eq_refl)) as (v & nf & E & T & S). destruct IH as (vs & E2 & M2 & V2); [intros g Hg; apply H; right; exact Hg|].
    exists ((f, v) :: vs). split; [cbn [mapM]; rewrite E; cbn [bind]; rewrite E2; reflexivity|]. split; [cbn [map fst]; rewrite M2; reflexivity|].
    intros g w [Q|Q]; [injection Q as <- <-; eauto|apply V2; exact Q].
Qed.
Lemma parts_ok segs P (G : good_segs segs) : 1 <= P -> let o := mk_sl segs true in
  exists parts, mapM (fun i => part_of o i P) (arange 1 (P + 1)) = Ok parts /\ Permutation (concat (map sl_segs parts)) segs /\ (forall p, In p parts -> sl_by_file p = true) /\
    (forall i j p q s t, nth_error parts i = Some p -> nth_error parts j = Some q -> In s (sl_segs p) -> In t (sl_segs q) -> sg_file s = sg_file t -> i = j).
Proof.
  intros HP o. unfold part_of. destruct (Z.ltb_spec 1 P) as [L|L].
  - destruct (C53_split_by_file o P) as (parts & E & PM & D); [intros s Hs; apply G; exact Hs|reflexivity|exact HP|]. exists parts. split; [exact E|]. split; [exact PM|]. split; [|exact D].
    intros p Hp. apply mapM_ok_iff in E. clear - E Hp. induction E as [|i q is qs E1 E2 IH]; [destruct Hp|]. destruct Hp as [->|Hp]; [|apply IH; exact Hp].
    unfold sl_split in E1. destruct (split_list _ _ _) as [p0|]; [|discriminate]. cbn [bind] in E1. destruct (loc_list _ _ _); [|discriminate]. cbn [bind] in E1. unfold sl_new in E1. destruct (forallb _ _); [|discriminate]. injection E1 as <-. reflexivity.
  - assert (P = 1) by lia. subst P. exists [o]. split; [reflexivity|]. split; [cbn; rewrite app_nil_r; reflexivity|]. split; [intros p [<-|[]]; reflexivity|].
    intros i j p q s t Hi Hj _ _ _. destruct i as [|[|i]], j as [|[|j]]; cbn in Hi, Hj; try discriminate; reflexivity.
Qed.
Lemma nodup_parts (ls : list (list string)) : (forall l, In l ls -> NoDup l) -> (forall i j l m x, nth_error ls i = Some l -> nth_error ls j = Some m -> In x l -> In x m -> i = j) -> NoDup (concat ls).
Proof.
  induction ls as [|l ls IH]; intros N D; cbn [concat]; [constructor|].
  assert (N2 : NoDup (concat ls)). { apply IH; [intros m Hm; apply N; right; exact Hm|]. intros i j a b x Hi Hj Ha Hb. assert (S i = S j); [|lia]. exact (D (S i) (S j) a b x Hi Hj Ha Hb). }
  assert (DJ : forall x, In x l -> ~ In x (concat ls)). { intros x Hx Hc. apply in_concat in Hc as (m & Hm & Hxm). apply In_nth_error in Hm as (j & Hj). discriminate (D 0%nat (S j) l m x eq_refl Hj Hx Hxm). }
  pose proof (N l (or_introl eq_refl)) as NL. clear - NL N2 DJ. induction l as [|a l IHl]; [exact N2|]. inversion_clear NL as [|? ? A1 A2]. cbn. constructor.
  - rewrite in_app_iff. intros [H|H]; [exact (A1 H)|exact (DJ a (or_introl eq_refl) H)].
  - apply IHl; [intros x Hx; apply DJ; right; exact Hx|exact A2].
Qed.
Lemma all_parts segs tbl shift P : 1 <= P -> good_segs segs -> good_table tbl -> (forall s, In s segs -> In (sg_file s) (map fst tbl)) ->
  exists outs, mapM (fun i => o <- part_of (mk_sl segs true) i P ;; mapM (file_vad o (Some tbl) shift) (sl_uniq_files o)) (arange 1 (P + 1)) = Ok outs /\
    Permutation (map fst (concat outs)) (unique (map sg_file segs)) /\
    forall f v, In (f, v) (concat outs) -> exists nf, In (f, nf) tbl /\ speech_of segs f shift nf v.
Proof.
  intros HP G T CO. destruct (parts_ok segs P G HP) as (parts & E & PM & BF & D). cbv zeta in E.
  assert (IN : forall p, In p parts -> forall s, In s (sl_segs p) -> In s segs). { intros p Hp s Hs. apply (Permutation_in _ PM). apply in_concat. exists (sl_segs p). split; [apply in_map; exact Hp|exact Hs]. }
  assert (H : forall is ps, Forall2 (fun i p => part_of (mk_sl segs true) i P = Ok p) is ps -> (forall p, In p ps -> In p parts) ->
    exists outs, mapM (fun i => o <- part_of (mk_sl segs true) i P ;; mapM (file_vad o (Some tbl) shift) (sl_uniq_files o)) is = Ok outs /\ map (map fst) outs = map sl_uniq_files ps /\
      forall f v, In (f, v) (concat outs) -> exists nf p, In (f, nf) tbl /\ In p ps /\ In f (sl_uniq_files p) /\ speech_of (sl_segs p) f shift nf v).
  { induction 1 as [|i p is ps E1 E2 IH]; intros SUB; [exists []; repeat split; intros f v []|].
    destruct IH as (outs & IE & IM & IV); [intros q Hq; apply SUB; right; exact Hq|]. pose proof (SUB p (or_introl eq_refl)) as Hp.
    destruct (files_ok p tbl shift (BF p Hp)) as (vs & VE & VM & VV); [intros s Hs; apply G; exact (IN p Hp s Hs)|exact T|intros s Hs; apply CO; exact (IN p Hp s Hs)|].
    exists (vs :: outs). split; [cbn [mapM]; rewrite E1; cbn [bind]; rewrite VE; cbn [bind]; rewrite IE; reflexivity|]. split; [cbn [map]; rewrite VM, IM; reflexivity|].
    cbn [concat]. intros f v Hf. apply in_app_iff in Hf as [Hf|Hf].
    - destruct (VV f v Hf) as (nf & A & B). exists nf, p. split; [exact A|]. split; [left; reflexivity|]. split; [rewrite <- VM; apply (in_map fst) in Hf; exact Hf|exact B].
    - destruct (IV f v Hf) as (nf & q & A & B & C). exists nf, q. split; [exact A|]. split; [right; exact B|exact C]. }
  pose proof (proj1 (mapM_ok_iff _ _ _) E) as F2. destruct (H _ _ F2 (fun p Hp => Hp)) as (outs & EO & MO & VO). exists outs. split; [exact EO|].
  assert (CM : map fst (concat outs) = concat (map sl_uniq_files parts)) by (rewrite concat_map, MO; reflexivity). split.
  - rewrite CM. apply NoDup_Permutation.
    + apply nodup_parts.
      * intros l Hl. apply in_map_iff in Hl as (p & <- & _). apply unique_nodup.
      * intros i j l m x Hi Hj Hl Hm. rewrite nth_error_map in Hi, Hj. destruct (nth_error parts i) as [p|] eqn:Ep; [|discriminate]. destruct (nth_error parts j) as [q|] eqn:Eq; [|discriminate].
        injection Hi as <-. injection Hj as <-. apply (proj1 (unique_in _ _)) in Hl. apply (proj1 (unique_in _ _)) in Hm. apply in_map_iff in Hl as (s & Fs & Hs). apply in_map_iff in Hm as (t & Ft & Ht).
        apply (D i j p q s t Ep Eq Hs Ht). congruence.
    + apply unique_nodup.
    + intros x. rewrite in_concat. split.
      * intros (l & Hl & Hx). apply in_map_iff in Hl as (p & <- & Hp). apply (proj1 (unique_in _ _)) in Hx. apply in_map_iff in Hx as (s & Fs & Hs). apply (proj2 (unique_in _ _)). apply in_map_iff. exists s. split; [exact Fs|exact (IN p Hp s Hs)].
      * intros Hx. apply (proj1 (unique_in _ _)) in Hx. apply in_map_iff in Hx as (s & Fs & Hs). apply (Permutation_in _ (Permutation_sym PM)) in Hs. apply in_concat in Hs as (l & Hl & Hs). apply in_map_iff in Hl as (p & <- & Hp).
        exists (sl_uniq_files p). split; [apply in_map; exact Hp|]. apply (proj2 (unique_in _ _)). apply in_map_iff. exists s. auto.
  - intros f v Hf. destruct (VO f v Hf) as (nf & p & A & Hp & Hfp & (LV & VV)). exists nf. split; [exact A|]. split; [exact LV|]. intros j Hj. destruct (VV j Hj) as [(V1 & s & B1 & B2 & B3)|(V0 & B)].
    + left. split; [exact V1|]. exists s. split; [exact (IN p Hp s B1)|auto].
    + right. split; [exact V0|]. intros s Hs Fs. apply B; [|exact Fs]. apply (Permutation_in _ (Permutation_sym PM)) in Hs. apply in_concat in Hs as (l & Hl & Hs). apply in_map_iff in Hl as (q & <- & Hq).
      apply (proj1 (unique_in _ _)) in Hfp. apply in_map_iff in Hfp as (t & Ft & Ht). apply In_nth_error in Hp as (i & Hi). apply In_nth_error in Hq as (k & Hk). assert (i = k) by (apply (D i k p q t s Hi Hk Ht Hs); congruence). subst k. congruence.
Qed.
(** Running all the parts of segments-to-bin-vad writes one record per file with segments, each once, with the decision of each frame. *)
Theorem C96_segments : forall segs tbl shift P, 1 <= P -> good_segs segs -> good_table tbl -> (forall s, In s segs -> In (sg_file s) (map fst tbl)) ->
  exists outs, mapM (fun i => segments_to_bin_vad segs (Some tbl) shift i P) (arange 1 (P + 1)) = Ok outs /\
    Permutation (map fst (concat outs)) (unique (map sg_file segs)) /\
    forall f v, In (f, v) (concat outs) -> exists nf, In (f, nf) tbl /\ speech_of segs f shift nf v.
Proof.
  intros segs tbl shift P HP G T CO. destruct (all_parts segs tbl shift P HP G T CO) as (outs & E & R). exists outs. split; [|exact R]. rewrite <- E. 
  assert (SN : sl_new segs true = Ok (mk_sl segs true)) by (apply sl_new_ok; intros s Hs; apply G; exact Hs). unfold segments_to_bin_vad. rewrite SN. reflexivity.
Qed.
Print Assumptions C96_segments.
Lemma mapM_ext_in {A B} (f g : A -> res B) l : (forall x, In x l -> f x = g x) -> mapM f l = mapM g l.
Proof. induction l as [|a l IH]; intros H; [reflexivity|]. cbn [mapM]. rewrite (H a (or_introl eq_refl)), IH; [reflexivity|]. intros x Hx. apply H. right. exact Hx. Qed.
Lemma silent_ok orig tbl : good_table tbl -> exists ss, silent_vad orig tbl = Ok ss /\ map fst ss = filter (fun f => negb (inb f (sl_uniq_files orig))) (map fst tbl) /\
  forall f v, In (f, v) ss -> ~ In f (sl_uniq_files orig) /\ exists nf, In (f, nf) tbl /\ v = repeat 1 (Z.to_nat nf).
Proof.
  intros (TN & TP). unfold silent_vad. assert (H : forall l, (forall r, In r l -> In r tbl) -> exists ss,
    mapM (fun r => n <- frames_of tbl (fst r) ;; if n <? 0 then Err ValueError else Ok (fst r, repeat 1 (Z.to_nat n))) (filter (fun r => negb (inb (fst r) (sl_uniq_files orig))) l) = Ok ss /\
    map fst ss = filter (fun f => negb (inb f (sl_uniq_files orig))) (map fst l) /\ forall f v, In (f, v) ss -> ~ In f (sl_uniq_files orig) /\ exists nf, In (f, nf) tbl /\ v = repeat 1 (Z.to_nat nf)).
  { induction l as [|(f, n) l IH]; intros SUB; [exists []; split; [reflexivity|]; split; [reflexivity|intros ? ? []]|]. destruct IH as (ss & E & M & V); [intros r Hr; apply SUB; right; exact Hr|]. cbn [filter map fst]. destruct (inb f (sl_uniq_files orig)) eqn:B; cbn [negb]; [exists ss; auto|].
    pose proof (SUB (f, n) (or_introl eq_refl)) as HT. pose proof (TP _ HT) as NP. cbn [snd] in NP. exists ((f, repeat 1 (Z.to_nat n)) :: ss). split; [|split].
    - cbn [mapM fst]. rewrite (frames_in tbl f n TN HT). cbn [bind]. destruct (Z.ltb_spec n 0); [lia|]. rewrite E. reflexivity.
    - cbn [map fst]. rewrite M. reflexivity.
    - intros g v [Q|Q]; [|apply V; exact Q]. injection Q as <- <-. split; [apply inb_false; exact B|eauto]. }
  exact (H tbl (fun r Hr => Hr)).
Qed.
(** Running all the parts of rttm-to-bin-vad writes one record per file of the table, each once: the decisions of the marked frames for a file with
    marks, and all ones for a file without marks. *)
Theorem C96_rttm : forall dec rows tbl shift P, 1 <= P ->
  (forall r, In r rows -> Qle 0 (r_tb r) /\ Qle (r_tb r) (r_end r)) -> good_table tbl -> (forall r, In r rows -> In (r_file r) (map fst tbl)) ->
  exists outs, mapM (fun i => rttm_to_bin_vad dec rows (Some tbl) shift i P) (arange 1 (P + 1)) = Ok outs /\
    Permutation (map fst (concat outs)) (map fst tbl) /\
    forall f v, In (f, v) (concat outs) -> exists nf, In (f, nf) tbl /\ Z.of_nat (len v) = nf /\ forall j, 0 <= j < nf ->
      (nth_error v (Z.to_nat j) = Some 1 /\ (exists r, In r rows /\ r_file r = f /\ frame_of shift (r_tb r) <= j <= frame_of shift (r_end r)) \/
       nth_error v (Z.to_nat j) = Some 0 /\ (exists r, In r rows /\ r_file r = f) /\ (forall r, In r rows -> r_file r = f -> ~ frame_of shift (r_tb r) <= j <= frame_of shift (r_end r)) \/
       nth_error v (Z.to_nat j) = Some 1 /\ forall r, In r rows -> r_file r <> f).
Proof.
  intros dec rows tbl shift P HP G T CO.
  set (segs := map (fun r => mk_seg (r_file r ++ "-" ++ dec (Qfloor (r_tb r)) ++ "-" ++ dec (Qfloor (r_end r)))%string (r_file r) (r_tb r) (r_end r)) rows).
  assert (GS : good_segs segs) by (intros s Hs; apply in_map_iff in Hs as (r & <- & Hr); exact (G r Hr)).
  assert (CS : forall s, In s segs -> In (sg_file s) (map fst tbl)) by (intros s Hs; apply in_map_iff in Hs as (r & <- & Hr); exact (CO r Hr)).
  assert (SN : to_segment_list dec rows = Ok (mk_sl segs true)) by (unfold to_segment_list; fold segs; apply sl_new_ok; intros s Hs; apply GS; exact Hs).
  assert (FE : map sg_file segs = map r_file rows) by (unfold segs; rewrite map_map; reflexivity).
  destruct (all_parts segs tbl shift P HP GS T CS) as (outs & E & PM & V). destruct (silent_ok (mk_sl segs true) tbl T) as (ss & SE & SM & SV).
  assert (AR : arange 1 (P + 1) = 1 :: arange 2 (P + 1)). { unfold arange. replace (Z.to_nat (P + 1 - 1)) with (S (Z.to_nat (P + 1 - 2))) by lia. cbn [seq map]. f_equal. rewrite <- seq_shift, map_map. apply map_ext. intros k. lia. }
  rewrite AR in E |- *. cbn [mapM] in E. destruct (part_of (mk_sl segs true) 1 P) as [o1|] eqn:E1; [|discriminate]. cbn [bind] in E. destruct (mapM (file_vad o1 (Some tbl) shift) (sl_uniq_files o1)) as [vs|] eqn:E2; [|discriminate]. cbn [bind] in E.
  destruct (mapM _ (arange 2 (P + 1))) as [rest|] eqn:E3; [|discriminate]. cbn [bind] in E. injection E as <-.
  exists ((vs ++ ss) :: rest). split; [|split].
  - cbn [mapM]. unfold rttm_to_bin_vad at 1. rewrite SN. cbn [bind]. rewrite E1. cbn [bind]. rewrite E2. cbn [bind]. change (1 =? 1) with true. cbv iota. rewrite SE. cbn [bind].
    assert (E4 : mapM (fun i => rttm_to_bin_vad dec rows (Some tbl) shift i P) (arange 2 (P + 1)) = Ok rest); [|rewrite E4; reflexivity].
    rewrite <- E3. apply mapM_ext_in. intros i Hi. apply arange_in in Hi. unfold rttm_to_bin_vad. rewrite SN. cbn [bind]. destruct (part_of _ i P) as [o|]; [|reflexivity]. cbn [bind].
    destruct (mapM (file_vad o (Some tbl) shift) (sl_uniq_files o)) as [w|]; [|reflexivity]. cbn [bind]. destruct (Z.eqb_spec i 1); [lia|reflexivity].
  - cbn [concat] in PM |- *. rewrite <- app_assoc. rewrite !map_app in *. rewrite SM. cbn [sl_uniq_files sl_segs] in *. 
    transitivity (unique (map sg_file segs) ++ filter (fun f => negb (inb f (unique (map sg_file segs)))) (map fst tbl)).
    + rewrite <- PM. rewrite <- app_assoc. apply Permutation_app_head. apply Permutation_app_comm.
    + apply NoDup_Permutation; [|exact (proj1 T)|].
      * assert (NA : forall a b : list string, NoDup a -> NoDup b -> (forall x, In x a -> ~ In x b) -> NoDup (a ++ b)).
        { clear. intros a. induction a as [|x a IH]; intros b NA NB D; [exact NB|]. inversion_clear NA as [|? ? A1 A2]. cbn. constructor; [rewrite in_app_iff; intros [H|H]; [exact (A1 H)|exact (D x (or_introl eq_refl) H)]|]. apply IH; auto. intros y Hy. apply D. right. exact Hy. }
        apply NA; [apply unique_nodup|apply NoDup_filter; exact (proj1 T)|]. intros x Hx Hy. apply filter_In in Hy as (_ & Hy). apply negb_true_iff in Hy. apply inb_false in Hy. exact (Hy Hx).
      * intros x. rewrite in_app_iff, filter_In. split.
        -- intros [H|(H & _)]; [|exact H]. apply (proj1 (unique_in _ _)) in H. apply in_map_iff in H as (s & <- & Hs). exact (CS s Hs).
        -- intros H. destruct (inb x (unique (map sg_file segs))) eqn:B; [left; apply inb_iff; exact B|right; auto].
  - cbn [concat]. intros f v Hf. rewrite <- app_assoc in Hf. rewrite !in_app_iff in Hf. 
    assert (C : In (f, v) (concat (vs :: rest)) \/ In (f, v) ss) by (cbn [concat]; rewrite in_app_iff; tauto). clear Hf. destruct C as [C|C].
    + assert (HF : exists r, In r rows /\ r_file r = f). { assert (Q : In f (unique (map sg_file segs))) by (apply (Permutation_in _ PM); apply (in_map fst) in C; exact C). apply (proj1 (unique_in _ _)) in Q. rewrite FE in Q. apply in_map_iff in Q as (r & A & B). eauto. }
      destruct (V f v C) as (nf & A & LV & VV). exists nf. split; [exact A|]. split; [exact LV|]. intros j Hj. destruct (VV j Hj) as [(V1 & s & B1 & B2 & B3)|(V0 & B)].
      * left. split; [exact V1|]. apply in_map_iff in B1 as (r & <- & Hr). exists r. auto.
      * right. left. split; [exact V0|]. split; [exact HF|]. intros r Hr Fr. apply (B (mk_seg (r_file r ++ "-" ++ dec (Qfloor (r_tb r)) ++ "-" ++ dec (Qfloor (r_end r)))%string (r_file r) (r_tb r) (r_end r))); [|exact Fr].
        apply in_map_iff. exists r. auto.
    + destruct (SV f v C) as (NI & nf & HT & ->). exists nf. split; [exact HT|]. pose proof (proj2 T _ HT) as NP. cbn [snd] in NP. split; [rewrite repeat_length; lia|]. intros j Hj. right. right. split; [rewrite nth_error_repeat by lia; reflexivity|].
      intros r Hr Fr. apply NI. apply (proj2 (unique_in _ _)). unfold sl_segs. rewrite FE. apply in_map_iff. exists r. auto.
Qed.
Print Assumptions C96_rttm.
(** Without the optional table of numbers of frames the tools cannot write anything. *)
Theorem C96_no_frames_refuted : forall dec segs rows shift out,
  (segs <> [] -> segments_to_bin_vad segs None shift 1 1 <> Ok out) /\ rttm_to_bin_vad dec rows None shift 1 1 <> Ok out.
Proof.
  intros dec segs rows shift out.
  assert (H : forall segs out, segs <> [] -> mapM (file_vad (mk_sl segs true) None shift) (sl_uniq_files (mk_sl segs true)) <> Ok out).
  { intros sg o N. unfold sl_uniq_files. cbn [sl_segs]. destruct sg as [|s l]; [congruence|]. destruct (unique (map sg_file (s :: l))) as [|f fs] eqn:U.
    - exfalso. assert (Q : In (sg_file s) (unique (map sg_file (s :: l)))) by (apply (proj2 (unique_in _ _)); left; reflexivity). rewrite U in Q. destruct Q.
    - cbn [mapM]. unfold file_vad at 1. cbn [bind]. destruct (to_bin_vad _ f shift None); cbn [bind]; discriminate. }
  split.
  - intros N. unfold segments_to_bin_vad, part_of, sl_new. destruct (forallb _ segs); cbn [assert bind]; [|discriminate]. change (1 <? 1) with false. cbv iota. cbn [bind]. apply H. exact N.
  - unfold rttm_to_bin_vad, to_segment_list, part_of, sl_new. destruct (forallb _ _); cbn [assert bind]; [|discriminate]. change (1 <? 1) with false. cbv iota. cbn [bind].
    destruct (mapM _ _); cbn [bind]; discriminate.
Qed.
Print Assumptions C96_no_frames_refuted.
Example C96_witness : exists outs, mapM (fun i => rttm_to_bin_vad (fun _ => "x"%string) [mk_row "SPEAKER" "f" "s" (2 # 100) (2 # 100) ""; mk_row "SPEAKER" "g" "s" 0 (1 # 100) ""]
    (Some [("f", 6); ("g", 3); ("h", 2)]%string) 10 i 2) (arange 1 3) = Ok outs /\
  concat outs = [("f", [0; 0; 1; 1; 1; 0]); ("h", [1; 1]); ("g", [1; 1; 0])]%string.
Proof. eexists. split; vm_compute; reflexivity. Qed.
