(** C27, C28: text files of trials, keys and scores; HDF5 files of keys. *)
From Verif Require Import StrFacts TrialsProofs TrialsProps ScoresProofs ScoresProps TrialsTextProofs.
Open Scope list_scope.
Open Scope Z_scope.

Lemma names_words mods segs {A} (S : mat A) (K : mat bool) (L : list (string * string * A)) : Forall word mods -> Forall word segs ->
  (forall m s v, In ((m, s), v) L <-> cell mods segs K m s = Some true /\ cell mods segs S m s = Some v) ->
  forall q, In q L -> word (fst (fst q)) /\ word (snd (fst q)).
Proof.
  intros W1 W2 H ((m, s), v) Hq. apply H in Hq as (C & _). apply cell_some_in in C as (Im & Is). rewrite Forall_forall in W1, W2. cbn [fst snd]. auto.
Qed.

Lemma unique_sorted_set (l : list string) P : (forall x, In x l <-> P x) -> sorted_set (unique l) P.
Proof. intros H. split; [apply unique_sorted|]. intros x. rewrite unique_in. apply H. Qed.

(** ** C27: trial lists *)

(** The file is written and read back; the result has exactly the same trials; its names are the
    increasing lists of the models and segments that have at least one trial. *)
Theorem C27_ndx_txt : forall o, ndx_ok o -> Forall word (n_mod o) -> Forall word (n_seg o) ->
  exists t r, ndx_save_txt o = Ok t /\ ndx_load_txt t = Ok r /\ ndx_ok r /\
    sorted_set (n_mod r) (fun m => exists s, trial o m s) /\ sorted_set (n_seg r) (fun s => exists m, trial o m s) /\
    forall m s, trial r m s <-> trial o m s.
Proof.
  intros o (O1 & O2 & O3) W1 W2. destruct (named_list _ _ (n_mask o) (n_mask o) O1 O2 O3 O3) as (L & F & NL & HL).
  pose proof (names_words _ _ _ _ L W1 W2 HL) as WL.
  assert (TL : forall m s, trial o m s <-> In ((m, s), true) L) by (intros m s; rewrite HL; unfold trial; tauto).
  exists (str_concat (map (fun q => (fst (fst q) ++ " " ++ snd (fst q)) ++ nl_str)%string L)).
  assert (ES : ndx_save_txt o = Ok (str_concat (map (fun q : string * string * bool => (fst (fst q) ++ " " ++ snd (fst q)) ++ nl_str)%string L))).
  { unfold ndx_save_txt. rewrite (mapM_forall2 _ (fun q : string * string * bool => (fst (fst q) ++ " " ++ snd (fst q)) ++ nl_str)%string _ L); [reflexivity|].
    eapply Forall2_impl; [|exact F]. intros p q (A1 & A2 & _). rewrite (get_item_nat _ _ _ A1). cbn [bind]. rewrite (get_item_nat _ _ _ A2). cbn [bind]. rewrite !append_assoc. reflexivity. }
  unfold ndx_load_txt.
  rewrite (read_fields (fun q : string * string * bool => fst (fst q) ++ " " ++ snd (fst q))%string (fun q => [fst (fst q); snd (fst q)]) L).
  2:{ intros q Hq. destruct (WL q Hq) as (Wa & Wb). split; [apply line2_clean; auto|]. split; [apply line2_clean; auto|]. apply py_split2; assumption. }
  rewrite (fields_get (fun q : string * string * bool => [fst (fst q); snd (fst q)]) (fun q => fst (fst q)) 0 L) by reflexivity. cbn [bind].
  rewrite (fields_get (fun q : string * string * bool => [fst (fst q); snd (fst q)]) (fun q => snd (fst q)) 1 L) by reflexivity. cbn [bind].
  set (mods := unique (map (fun q : string * string * bool => fst (fst q)) L)). set (segs := unique (map (fun q : string * string * bool => snd (fst q)) L)).
  assert (IM : forall m s v, In ((m, s), v) L -> In m mods /\ In s segs).
  { intros m s v H. split; apply unique_in; apply in_map_iff; exists ((m, s), v); split; auto. }
  rewrite !inverse_ix. fold mods segs. rewrite !map_map, combine_map, map_map.
  destruct (fill_ok false mods segs L (unique_nodup _) (unique_nodup _) IM) as (N & E & S & P1 & P2).
  assert (AT : forall q, In q L -> snd q = true). { intros ((m, s), v) Hq. apply HL in Hq as (C1 & C2). cbn. congruence. }
  rewrite (map_ext_in _ (fun q => ((ix mods (fst (fst q)), ix segs (snd (fst q))), snd q)) L) by (intros q Hq; rewrite (AT q Hq); reflexivity).
  rewrite E. cbn [bind]. rewrite ndx_new_ok by (try apply unique_nodup; exact S). eexists. split; [exact ES|]. split; [reflexivity|].
  split; [split; [apply unique_nodup|]; split; [apply unique_nodup|exact S]|]. cbn [n_mod n_seg].
  split; [apply unique_sorted_set; intros x; rewrite in_map_iff; split; [intros (((m, s), v) & <- & Hq); exists s; apply TL; rewrite <- (AT _ Hq); exact Hq|
    intros (s & H); apply TL in H; exists ((x, s), true); split; [reflexivity|exact H]]|].
  split; [apply unique_sorted_set; intros x; rewrite in_map_iff; split; [intros (((m, s), v) & <- & Hq); exists m; apply TL; rewrite <- (AT _ Hq); exact Hq|
    intros (m & H); apply TL in H; exists ((m, x), true); split; [reflexivity|exact H]]|].
  intros m s. unfold trial at 1. cbn [n_mod n_seg n_mask]. rewrite TL. split.
  - intros C. pose proof (cell_some_in _ _ _ _ _ _ C) as (Im & Is).
    destruct (in_dec (fun x y : string * string => ltac:(decide equality; apply string_dec)) (m, s) (map fst L)) as [I|I].
    + apply in_map_iff in I as ((p, v) & E' & I). cbn in E'. subst p. rewrite <- (AT _ I). exact I.
    + rewrite P1 in C; [discriminate|exact Im|exact Is|]. intros v Hv. apply I. apply in_map_iff. exists ((m, s), v). split; [reflexivity|exact Hv].
  - intros H. apply P2; [exact H|]. intros v' Hv'. exact (AT _ Hv').
Qed.
Print Assumptions C27_ndx_txt.

(** ** C27: keys *)

(** The conditions are not written.  A pair that is both target and non-target is written twice and
    read back as both. *)
Theorem C27_key_txt : forall o, key_ok o -> Forall word (k_mod o) -> Forall word (k_seg o) ->
  exists t r, key_save_txt o = Ok t /\ key_load_txt t = Ok r /\ key_ok r /\
    sorted_set (k_mod r) (fun m => exists s, target o m s \/ nontarget o m s) /\
    sorted_set (k_seg r) (fun s => exists m, target o m s \/ nontarget o m s) /\
    (forall m s, target r m s <-> target o m s) /\ (forall m s, nontarget r m s <-> nontarget o m s) /\
    k_mcond r = None /\ k_scond r = None /\ k_tcond r = None.
Proof.
  intros o (O1 & O2 & O3 & O4 & _) W1 W2.
  destruct (named_list _ _ (k_tar o) (k_tar o) O1 O2 O3 O3) as (L1 & F1 & NL1 & HL1). destruct (named_list _ _ (k_non o) (k_non o) O1 O2 O4 O4) as (L2 & F2 & NL2 & HL2).
  pose proof (names_words _ _ _ _ L1 W1 W2 HL1) as WL1. pose proof (names_words _ _ _ _ L2 W1 W2 HL2) as WL2.
  set (lab := fun b : bool => if b then "target"%string else "nontarget"%string).
  set (L := map (fun q : string * string * bool => (fst q, true)) L1 ++ map (fun q : string * string * bool => (fst q, false)) L2).
  assert (HT : forall m s, target o m s <-> In ((m, s), true) L).
  { intros m s. unfold L. rewrite in_app_iff. split.
    - intros H. left. apply in_map_iff. exists ((m, s), true). split; [reflexivity|]. apply HL1. unfold target in H. auto.
    - intros [H|H]; apply in_map_iff in H as (((m', s'), v) & E & H); [|discriminate]. injection E as -> ->. apply HL1 in H as (C & _). exact C. }
  assert (HN : forall m s, nontarget o m s <-> In ((m, s), false) L).
  { intros m s. unfold L. rewrite in_app_iff. split.
    - intros H. right. apply in_map_iff. exists ((m, s), true). split; [reflexivity|]. apply HL2. unfold nontarget in H. auto.
    - intros [H|H]; apply in_map_iff in H as (((m', s'), v) & E & H); [discriminate|]. injection E as -> ->. apply HL2 in H as (C & _). exact C. }
  assert (WL : forall q, In q L -> word (fst (fst q)) /\ word (snd (fst q))).
  { intros q Hq. unfold L in Hq. apply in_app_or in Hq as [Hq|Hq]; apply in_map_iff in Hq as (q' & <- & Hq); cbn [fst]; auto. }
  assert (WLab : forall b, word (lab b)) by (intros [|]; split; (discriminate || reflexivity)).
  set (ln := fun q : string * string * bool => (fst (fst q) ++ " " ++ snd (fst q) ++ " " ++ lab (snd q))%string).
  exists (str_concat (map (fun q => (ln q ++ nl_str)%string) L)).
  assert (ES : key_save_txt o = Ok (str_concat (map (fun q => (ln q ++ nl_str)%string) L))).
  { unfold key_save_txt, key_lines.
    rewrite (mapM_forall2 _ (fun q : string * string * bool => (ln (fst q, true) ++ nl_str)%string) _ L1).
    2:{ eapply Forall2_impl; [|exact F1]. intros p q (A1 & A2 & _). rewrite (get_item_nat _ _ _ A1). cbn [bind]. rewrite (get_item_nat _ _ _ A2). cbn [bind]. unfold ln. cbn [fst snd lab]. rewrite !append_assoc. reflexivity. }
    cbn [bind]. rewrite (mapM_forall2 _ (fun q : string * string * bool => (ln (fst q, false) ++ nl_str)%string) _ L2).
    2:{ eapply Forall2_impl; [|exact F2]. intros p q (A1 & A2 & _). rewrite (get_item_nat _ _ _ A1). cbn [bind]. rewrite (get_item_nat _ _ _ A2). cbn [bind]. unfold ln. cbn [fst snd lab]. rewrite !append_assoc. reflexivity. }
    cbn [bind]. unfold L. rewrite map_app, !map_map. reflexivity. }
  unfold key_load_txt.
  rewrite (read_fields ln (fun q => [fst (fst q); snd (fst q); lab (snd q)]) L).
  2:{ intros q Hq. destruct (WL q Hq) as (Wa & Wb). unfold ln. split; [apply line3_clean; auto|]. split; [apply line3_clean; auto|]. apply py_split3; auto. }
  rewrite (fields_get (fun q : string * string * bool => [fst (fst q); snd (fst q); lab (snd q)]) (fun q => fst (fst q)) 0 L) by reflexivity. cbn [bind].
  rewrite (fields_get (fun q : string * string * bool => [fst (fst q); snd (fst q); lab (snd q)]) (fun q => snd (fst q)) 1 L) by reflexivity. cbn [bind].
  assert (ET : mapM (fun f => w <- get_item f 2;; Ok (eqb w "target"%string)) (map (fun q : string * string * bool => [fst (fst q); snd (fst q); lab (snd q)]) L) = Ok (map snd L)).
  { clear. induction L as [|((m, s), b) L IH]; [reflexivity|]. cbn [map mapM]. change (get_item [fst (fst (m, s, b)); snd (fst (m, s, b)); lab (snd (m, s, b))] 2) with (Ok (lab b)). cbn [bind].
    rewrite IH. cbn [bind]. destruct b; reflexivity. }
  rewrite ET. cbn [bind].
  set (mods := unique (map (fun q : string * string * bool => fst (fst q)) L)). set (segs := unique (map (fun q : string * string * bool => snd (fst q)) L)).
  assert (IM : forall m s v, In ((m, s), v) L -> In m mods /\ In s segs).
  { intros m s v H. split; apply unique_in; apply in_map_iff; exists ((m, s), v); split; auto. }
  rewrite !inverse_ix. fold mods segs. rewrite !map_map, !combine_map, !filter_map, !map_map. cbn [snd fst].
  assert (FL : forall b, exists N, set_cells (mfull (len mods) (len segs) false) (map (fun q => ((ix mods (fst (fst q)), ix segs (snd (fst q))), true)) (filter (fun q : string * string * bool => Bool.eqb (snd q) b) L)) = Ok N /\
     has_shape N (len mods) (len segs) /\ forall m s, cell mods segs N m s = Some true <-> In ((m, s), b) L).
  { intros b. set (Lb := map (fun q : string * string * bool => (fst q, true)) (filter (fun q : string * string * bool => Bool.eqb (snd q) b) L)).
    assert (HLb : forall m s v, In ((m, s), v) Lb <-> v = true /\ In ((m, s), b) L).
    { intros m s v. unfold Lb. rewrite in_map_iff. split.
      - intros (((m', s'), v') & E & H). injection E as -> -> <-. apply filter_In in H as (H & H'). apply Bool.eqb_prop in H'. cbn in H'. subst v'. auto.
      - intros (-> & H). exists ((m, s), b). split; [reflexivity|]. apply filter_In. split; [exact H|]. apply Bool.eqb_reflx. }
    destruct (fill_ok false mods segs Lb (unique_nodup _) (unique_nodup _)) as (N & E & S & P1 & P2).
    { intros m s v H. apply HLb in H as (_ & H). eapply IM. exact H. }
    exists N. split; [unfold Lb in E; rewrite map_map in E; exact E|]. split; [exact S|]. intros m s. split.
    - intros C. pose proof (cell_some_in _ _ _ _ _ _ C) as (Im & Is).
      destruct (in_dec (fun x y : string * string * bool => ltac:(repeat decide equality)) ((m, s), b) L) as [I|I]; [exact I|].
      rewrite P1 in C; [discriminate|exact Im|exact Is|]. intros v Hv. apply HLb in Hv as (_ & Hv). auto.
    - intros H. apply P2; [apply HLb; auto|]. intros v' Hv'. apply HLb in Hv'. apply Hv'. }
  destruct (FL true) as (T & ET' & ST & GT). destruct (FL false) as (N & EN & SN & GN).
  rewrite (filter_ext (fun x : string * string * bool => snd x) (fun q => Bool.eqb (snd q) true)) by (intros (? & [|]); reflexivity). rewrite ET'. cbn [bind].
  rewrite (filter_ext (fun x : string * string * bool => negb (snd x)) (fun q => Bool.eqb (snd q) false)) by (intros (? & [|]); reflexivity). rewrite EN. cbn [bind].
  rewrite key_new_ok by (try apply unique_nodup; try exact I; assumption). eexists. split; [exact ES|]. split; [reflexivity|].
  split; [split; [apply unique_nodup|]; split; [apply unique_nodup|]; split; [exact ST|]; split; [exact SN|]; cbn; auto|]. cbn [k_mod k_seg].
  assert (TN : forall m s, target o m s \/ nontarget o m s <-> exists v, In ((m, s), v) L).
  { intros m s. rewrite HT, HN. split; [intros [H|H]; eauto|intros ([|] & H); auto]. }
  split; [apply unique_sorted_set; intros x; rewrite in_map_iff; split; [intros (((m, s), v) & <- & Hq); exists s; apply TN; eauto|
    intros (s & H); apply TN in H as (v & H); exists ((x, s), v); split; [reflexivity|exact H]]|].
  split; [apply unique_sorted_set; intros x; rewrite in_map_iff; split; [intros (((m, s), v) & <- & Hq); exists m; apply TN; eauto|
    intros (m & H); apply TN in H as (v & H); exists ((m, x), v); split; [reflexivity|exact H]]|].
  unfold target at 1, nontarget at 1. cbn [k_mod k_seg k_tar k_non k_mcond k_scond k_tcond].
  split; [intros m s; rewrite HT; apply GT|]. split; [intros m s; rewrite HN; apply GN|]. auto.
Qed.
Print Assumptions C27_key_txt.

(** ** C27: scores *)

(** [fmt] is '%f' and [parse] the conversion back; a score comes back as [rnd] of itself (the value
    printed with six decimals), and only the valid trials are written. *)
Theorem C27_scores_txt : forall A (F : sops A) (fmt : A -> string) (parse : string -> res A) (rnd : A -> A) o,
  (forall x, s_fin F x = true -> word (fmt x) /\ parse (fmt x) = Ok (rnd x) /\ s_fin F (rnd x) = true) -> s_fin F (s_zero F) = true ->
  scores_ok F o -> Forall word (s_mod o) -> Forall word (s_seg o) ->
  exists t r, scores_save_txt fmt o = Ok t /\ scores_load_txt F parse t = Ok r /\ scores_ok F r /\
    sorted_set (s_mod r) (fun m => exists s, scored o m s) /\ sorted_set (s_seg r) (fun s => exists m, scored o m s) /\
    (forall m s, scored r m s <-> scored o m s) /\
    (forall m s, scored o m s -> score_of r m s = option_map rnd (score_of o m s)) /\
    (forall m s x, score_of r m s = Some x -> ~ scored o m s -> x = s_zero F).
Proof.
  intros A F fmt parse rnd o HF HZ O W1 W2. pose proof O as (O1 & O2 & O3 & O4 & _). pose proof (proj2 (proj1 (scores_ok_iff F o) O)) as FO.
  destruct (named_list _ _ (s_scr o) (s_mask o) O1 O2 O3 O4) as (L & FL & NL & HL). pose proof (names_words _ _ _ _ L W1 W2 HL) as WL.
  assert (FN : forall q, In q L -> s_fin F (snd q) = true). { intros ((m, s), v) Hq. apply HL in Hq as (_ & Hq). eapply FO. exact Hq. }
  assert (TL : forall m s, scored o m s <-> exists v, In ((m, s), v) L).
  { intros m s. split.
    - intros H. destruct (scored_score o m s ltac:(apply scores_ok_iff in O; apply O) H) as (v & Hv). exists v. apply HL. auto.
    - intros (v & H). apply HL in H. apply H. }
  assert (UV : forall m s v v', In ((m, s), v) L -> In ((m, s), v') L -> v' = v) by (intros m s v v' H1 H2; apply HL in H1, H2; destruct H1, H2; congruence).
  set (ln := fun q : string * string * A => (fst (fst q) ++ " " ++ snd (fst q) ++ " " ++ fmt (snd q))%string).
  exists (str_concat (map (fun q => (ln q ++ nl_str)%string) L)).
  assert (ES : scores_save_txt fmt o = Ok (str_concat (map (fun q => (ln q ++ nl_str)%string) L))).
  { unfold scores_save_txt. rewrite (mapM_forall2 _ (fun q : string * string * A => (ln q ++ nl_str)%string) _ L); [reflexivity|].
    eapply Forall2_impl; [|exact FL]. intros p q (A1 & A2 & A3). rewrite (get_item_nat _ _ _ A1). cbn [bind]. rewrite (get_item_nat _ _ _ A2). cbn [bind]. rewrite A3. cbn [bind]. unfold ln. rewrite !append_assoc. reflexivity. }
  unfold scores_load_txt.
  rewrite (read_fields ln (fun q => [fst (fst q); snd (fst q); fmt (snd q)]) L).
  2:{ intros q Hq. destruct (WL q Hq) as (Wa & Wb). destruct (HF _ (FN q Hq)) as (Wf & _). unfold ln. split; [apply line3_clean; auto|]. split; [apply line3_clean; auto|]. apply py_split3; auto. }
  rewrite (fields_get (fun q : string * string * A => [fst (fst q); snd (fst q); fmt (snd q)]) (fun q => fst (fst q)) 0 L) by reflexivity. cbn [bind].
  rewrite (fields_get (fun q : string * string * A => [fst (fst q); snd (fst q); fmt (snd q)]) (fun q => snd (fst q)) 1 L) by reflexivity. cbn [bind].
  rewrite (fields_get (fun q : string * string * A => [fst (fst q); snd (fst q); fmt (snd q)]) (fun q => fmt (snd q)) 2 L) by reflexivity. cbn [bind].
  assert (EP : mapM parse (map (fun q : string * string * A => fmt (snd q)) L) = Ok (map (fun q => rnd (snd q)) L)).
  { clear - HF FN. induction L as [|q L IH]; [reflexivity|]. cbn [map mapM]. destruct (HF _ (FN q (or_introl eq_refl))) as (_ & -> & _). cbn [bind]. rewrite IH by (intros q' Hq'; apply FN; right; exact Hq'). reflexivity. }
  rewrite EP. cbn [bind].
  set (mods := unique (map (fun q : string * string * A => fst (fst q)) L)). set (segs := unique (map (fun q : string * string * A => snd (fst q)) L)).
  assert (IM : forall m s v, In ((m, s), v) L -> In m mods /\ In s segs).
  { intros m s v H. split; apply unique_in; apply in_map_iff; exists ((m, s), v); split; auto. }
  rewrite !inverse_ix. fold mods segs. rewrite !map_map, !combine_map, !map_map.
  destruct (fill_ok false mods segs (map (fun q : string * string * A => (fst q, true)) L) (unique_nodup _) (unique_nodup _)) as (M & EM & SM & M1 & M2).
  { intros m s v H. apply in_map_iff in H as (((m', s'), v') & E & H). cbn [fst snd] in E. injection E as -> -> _. eapply IM. exact H. }
  destruct (fill_ok (s_zero F) mods segs (map (fun q : string * string * A => (fst q, rnd (snd q))) L) (unique_nodup _) (unique_nodup _)) as (S & EV & SS & S1 & S2).
  { intros m s v H. apply in_map_iff in H as (((m', s'), v') & E & H). cbn [fst snd] in E. injection E as -> -> _. eapply IM. exact H. }
  rewrite map_map in EM, EV. cbn [fst snd] in EM, EV. cbn [fst snd]. rewrite EM. cbn [bind]. rewrite EV. cbn [bind].
  assert (GM : forall m s, cell mods segs M m s = Some true <-> scored o m s).
  { intros m s. rewrite TL. split.
    - intros C. pose proof (cell_some_in _ _ _ _ _ _ C) as (Im & Is).
      destruct (in_dec (fun x y : string * string => ltac:(decide equality; apply string_dec)) (m, s) (map fst L)) as [I|I].
      + apply in_map_iff in I as ((p, v) & E' & I). cbn in E'. subst p. eauto.
      + rewrite M1 in C; [discriminate|exact Im|exact Is|]. intros v Hv. apply in_map_iff in Hv as ((p, v') & E & Hv). injection E as E _. cbn in E. subst p. apply I. apply in_map_iff. exists ((m, s), v'). auto.
    - intros (v & H). apply M2; [apply in_map_iff; exists ((m, s), v); auto|]. intros v' Hv'. apply in_map_iff in Hv' as (q & E & _). congruence. }
  assert (GS1 : forall m s v, In ((m, s), v) L -> cell mods segs S m s = Some (rnd v)).
  { intros m s v H. apply S2; [apply in_map_iff; exists ((m, s), v); auto|]. intros v' Hv'. apply in_map_iff in Hv' as (((m', s'), w) & E & Hw). cbn [fst snd] in E. injection E as -> -> <-. f_equal. eapply UV; eassumption. }
  assert (GS2 : forall m s x, cell mods segs S m s = Some x -> ~ scored o m s -> x = s_zero F).
  { intros m s x C H. pose proof (cell_some_in _ _ _ _ _ _ C) as (Im & Is). rewrite S1 in C; [congruence|exact Im|exact Is|].
    intros v Hv. apply in_map_iff in Hv as (((m', s'), w) & E & Hw). cbn [fst snd] in E. injection E as -> -> <-. apply H. apply TL. eauto. }
  assert (OK : scores_ok F (mk_scores mods segs S M)).
  { apply scores_ok_iff. split; [split; [apply unique_nodup|]; split; [apply unique_nodup|]; split; assumption|]. intros m s x E. unfold score_of in E. cbn [s_mod s_seg s_scr] in E.
    destruct (in_dec (fun x y : string * string => ltac:(decide equality; apply string_dec)) (m, s) (map fst L)) as [I|I].
    - apply in_map_iff in I as ((p, v) & E' & I). cbn in E'. subst p. rewrite (GS1 m s v I) in E. injection E as <-. apply (HF v). exact (FN _ I).
    - rewrite (GS2 m s x E); [exact HZ|]. intros H. apply TL in H as (v & H). apply I. apply in_map_iff. exists ((m, s), v). auto. }
  rewrite scores_new_ok by exact OK. eexists. split; [exact ES|]. split; [reflexivity|]. split; [exact OK|]. cbn [s_mod s_seg].
  split; [apply unique_sorted_set; intros x; rewrite in_map_iff; split; [intros (((m, s), v) & <- & Hq); exists s; apply TL; eauto|
    intros (s & H); apply TL in H as (v & H); exists ((x, s), v); split; [reflexivity|exact H]]|].
  split; [apply unique_sorted_set; intros x; rewrite in_map_iff; split; [intros (((m, s), v) & <- & Hq); exists m; apply TL; eauto|
    intros (m & H); apply TL in H as (v & H); exists ((m, x), v); split; [reflexivity|exact H]]|].
  unfold scored at 1, score_of at 1 3. cbn [s_mod s_seg s_scr s_mask]. split; [exact GM|]. split; [|exact GS2].
  intros m s H. apply TL in H as (v & H). rewrite (GS1 m s v H). apply HL in H as (_ & H). unfold score_of. rewrite H. reflexivity.
Qed.
Print Assumptions C27_scores_txt.

(** ** C28: HDF5 keys *)

(** Saving and loading gives back the key when no pair is both target and non-target. *)
Theorem C28_key_h5 : forall o, key_ok o -> (forall m s, ~ (target o m s /\ nontarget o m s)) ->
  exists f, key_save_h5 o = Ok f /\ key_load_h5 f = Ok o.
Proof.
  intros o (O1 & O2 & O3 & O4 & O5 & O6 & O7) D. unfold key_save_h5.
  destruct (cell_mmap2 Z.sub (k_mod o) (k_seg o) (mmap b2z (k_tar o)) (mmap b2z (k_non o)) _ _ (mmap_shape b2z _ _ _ O3) (mmap_shape b2z _ _ _ O4)) as (M & E & S & G).
  rewrite E. cbn [bind]. eexists. split; [reflexivity|]. unfold key_load_h5. cbn [h_rows h_columns h_trial_mask h_mcond h_scond h_tcond h_mname h_sname h_tname].
  assert (T : mmap (fun z => 0 <? z) M = k_tar o /\ mmap (fun z => z <? 0) M = k_non o).
  { split; apply (cell_ext (k_mod o) (k_seg o)); auto; try (apply mmap_shape; exact S); intros m s Im Is; rewrite cell_mmap, G, !cell_mmap;
      destruct (cell_total _ _ _ m s O3 Im Is) as (x & Ex); destruct (cell_total _ _ _ m s O4 Im Is) as (y & Ey); rewrite Ex, Ey; cbn [option_map];
      destruct x, y; try reflexivity; exfalso; apply (D m s); split; assumption. }
  destruct T as (-> & ->). rewrite key_new_ok by assumption. destruct o; reflexivity.
Qed.
Print Assumptions C28_key_h5.

(** In general a pair that is both loses both labels, and nothing else changes: saving and loading
    succeed silently. *)
Theorem C28_overlap : forall o, key_ok o -> exists f r, key_save_h5 o = Ok f /\ key_load_h5 f = Ok r /\ key_ok r /\ k_mod r = k_mod o /\ k_seg r = k_seg o /\
  (forall m s, target r m s <-> target o m s /\ ~ nontarget o m s) /\ (forall m s, nontarget r m s <-> nontarget o m s /\ ~ target o m s).
Proof.
  intros o (O1 & O2 & O3 & O4 & O5 & O6 & O7). unfold key_save_h5.
  destruct (cell_mmap2 Z.sub (k_mod o) (k_seg o) (mmap b2z (k_tar o)) (mmap b2z (k_non o)) _ _ (mmap_shape b2z _ _ _ O3) (mmap_shape b2z _ _ _ O4)) as (M & E & S & G).
  rewrite E. cbn [bind]. eexists _, _. split; [reflexivity|]. unfold key_load_h5. cbn [h_rows h_columns h_trial_mask h_mcond h_scond h_tcond h_mname h_sname h_tname].
  rewrite key_new_ok by (try apply mmap_shape; assumption). split; [reflexivity|]. split; [split; [exact O1|]; split; [exact O2|]; split; [apply mmap_shape; exact S|]; split; [apply mmap_shape; exact S|]; split; [exact O5|]; split; assumption|].
  split; [reflexivity|]. split; [reflexivity|]. unfold target, nontarget. cbn [k_mod k_seg k_tar k_non].
  split; intros m s; rewrite cell_mmap, G, !cell_mmap;
    (destruct (in_dec string_dec m (k_mod o)) as [Im|Im]; [destruct (in_dec string_dec s (k_seg o)) as [Is|Is]|];
      [destruct (cell_total _ _ _ m s O3 Im Is) as (x & Ex); destruct (cell_total _ _ _ m s O4 Im Is) as (y & Ey); rewrite Ex, Ey; destruct x, y; cbn; intuition congruence
      |rewrite !cell_none by tauto; cbn; intuition congruence|rewrite !cell_none by tauto; cbn; intuition congruence]).
Qed.
Print Assumptions C28_overlap.

(** So the full claim fails: the constructor accepts a pair that is both, and the labels are lost. *)
Definition key_e2 : key := mk_key ["m"]%string ["t"]%string (mk_mat 1 [[true]]) (mk_mat 1 [[true]]) None None None None None None.
Theorem C28_overlap_refuted : exists o f r, key_new (k_mod o) (k_seg o) (Some (k_tar o, k_non o)) None None None None None None = Ok o /\
  key_save_h5 o = Ok f /\ key_load_h5 f = Ok r /\ target o "m" "t" /\ ~ target r "m" "t".
Proof. exists key_e2. eexists _, _. split; [vm_compute; reflexivity|]. split; [vm_compute; reflexivity|]. split; [vm_compute; reflexivity|]. split; [reflexivity|]. vm_compute. discriminate. Qed.

(** ** Witnesses *)
Definition ndx_e4 : ndx := mk_ndx ["spk-b"; "spk-a"; "spk-c"]%string ["u2"; "u1"]%string (mk_mat 2 [[true; false]; [true; true]; [false; false]]).
Example C27_witness : exists t r, ndx_save_txt ndx_e4 = Ok t /\ ndx_load_txt t = Ok r /\ n_mod r = ["spk-a"; "spk-b"]%string /\ n_seg r = ["u1"; "u2"]%string /\
  n_mask r = mk_mat 2 [[true; true]; [false; true]] /\ Forall word (n_mod ndx_e4).
Proof.
  eexists _, _. split; [vm_compute; reflexivity|]. split; [vm_compute; reflexivity|]. split; [reflexivity|]. split; [reflexivity|]. split; [reflexivity|].
  constructor; [|constructor; [|constructor; [|constructor]]]; (split; [discriminate|reflexivity]).
Qed.
Example C28_witness : key_ok key_e1 /\ exists f, key_save_h5 key_e1 = Ok f /\ h_trial_mask f = mk_mat 3 [[0; 0; 1]; [1; -1; 0]] /\ key_load_h5 f = Ok key_e1.
Proof.
  split; [|eexists; split; [vm_compute; reflexivity|]; split; vm_compute; reflexivity].
  split; [repeat constructor; cbn; intuition discriminate|]. split; [repeat constructor; cbn; intuition discriminate|].
  split; [split; [reflexivity|]; split; [reflexivity|]; repeat constructor|]. split; [split; [reflexivity|]; split; [reflexivity|]; repeat constructor|]. cbn; auto.
Qed.
