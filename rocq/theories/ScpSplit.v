(** Lookups, split + merge of SCPList. *)
From Verif Require Import Base BaseFacts ListUtils ListUtilsProofs Str StrFacts Scp ScpProofs ScpHist.
Open Scope Z_scope.

Lemma get_index_spec s k : cache_ok s ->
  match fst (get_index s k) with
  | Ok i => 0 <= i /\ nth_error (s_key s) (Z.to_nat i) = Some k /\
            (forall j, (Z.to_nat i < j)%nat -> nth_error (s_key s) j <> Some k)
  | Err e => e = KeyError /\ ~ In k (s_key s)
  end.
Proof.
  intros C. unfold get_index. cbn [fst]. unfold cache_of. rewrite (fill_cache_ok s C).
  pose proof (dict_find_spec (s_key s) k) as D.
  destruct (dict_find _ k); [exact D|]. split; [reflexivity|exact D].
Qed.

Lemma contains_spec s k : cache_ok s -> (fst (contains s k) = true <-> In k (s_key s)).
Proof.
  intros C. unfold contains. cbn [fst]. unfold cache_of. rewrite (fill_cache_ok s C).
  pose proof (dict_find_spec (s_key s) k) as D.
  destruct (dict_find _ k) as [i|].
  - split; [intros _|reflexivity]. destruct D as [_ [D _]]. eapply nth_error_In; exact D.
  - split; [discriminate|contradiction].
Qed.

Lemma opt_item_col {A} h (f : frow -> A) R i r : get_item R i = Ok r ->
  opt_item (opt_col h f R) i = Ok (if h then Some (f r) else None).
Proof. intros E. destruct h; simpl; [|reflexivity]. rewrite get_item_map, E. reflexivity. Qed.

Lemma getitem_key_spec s k es : valid s -> cache_ok s -> elements s = Ok es ->
  match fst (getitem_key s k) with
  | Ok (p, o, r) => exists i, nth_error es i = Some (k, p, o, r) /\
        (forall j e, (i < j)%nat -> nth_error es j = Some e -> fst (fst (fst e)) <> k)
  | Err e => e = KeyError /\ ~ In k (s_key s)
  end.
Proof.
  intros V C Es.
  pose proof (get_index_spec s k C) as G.
  unfold getitem_key. destruct (get_index s k) as [ri s1] eqn:E. cbn [fst] in *.
  assert (s1 = fill_cache s) as -> by (unfold get_index in E; inversion E; reflexivity).
  destruct (fill_cache_cols s) as [_ [E2 [E3 E4]]]. rewrite E2, E3, E4. clear E.
  destruct ri as [i|e]; cbn [bind]; [|exact G].
  destruct G as [Hi [G1 G2]].
  destruct (valid_rows s V) as [R [ho [hr [c ->]]]]. rewrite elements_build in Es. inversion Es; subst es.
  simpl in G1, G2 |- *. rewrite nth_error_map in G1.
  destruct (nth_error R (Z.to_nat i)) as [row|] eqn:N; [|discriminate]. simpl in G1. inversion G1; subst k.
  assert (GI : get_item R i = Ok row).
  { replace i with (Z.of_nat (Z.to_nat i)) by lia. apply get_item_nat. exact N. }
  rewrite (opt_item_col ho r_off R i row GI). cbn [bind].
  rewrite (opt_item_col hr r_rng R i row GI). cbn [bind].
  rewrite get_item_map, GI. cbn [bind].
  exists (Z.to_nat i). split.
  - rewrite nth_error_map, N. reflexivity.
  - intros j e Hj Ej He. rewrite nth_error_map in Ej.
    destruct (nth_error R j) as [rj|] eqn:Nj; [|discriminate]. simpl in Ej. inversion Ej; subst e.
    apply (G2 j Hj). rewrite nth_error_map, Nj. simpl. simpl in He. rewrite He. reflexivity.
Qed.

(** *** split then merge *)

Lemma mapM_bind {A B C} (f : A -> res B) (g : B -> res C) l :
  (forall r, mapM f l = Ok r -> mapM (fun x => y <- f x ;; g y) l = mapM g r).
Proof.
  intros r E. apply mapM_ok_iff in E. induction E as [|x y l r E F IH]; simpl; [reflexivity|].
  rewrite E. simpl. rewrite IH. reflexivity.
Qed.

(** taking all parts at once *)
Lemma take_parts {A} (R : list A) locs r : take R (concat locs) = Ok r ->
  exists rs, mapM (take R) locs = Ok rs /\ concat rs = r.
Proof.
  revert r. induction locs as [|loc locs IH]; simpl; intros r E.
  - inversion E; subst. exists []. split; reflexivity.
  - rewrite take_app in E. destruct (take R loc) as [x|]; [|discriminate]. simpl in E.
    destruct (take R (concat locs)) as [y|] eqn:T; [|discriminate]. simpl in E. inversion E; subst.
    destruct (IH y eq_refl) as [rs [E1 E2]]. exists (x :: rs). simpl. rewrite E1, E2. split; reflexivity.
Qed.

Lemma split_merge_general R ho hr c P g locs r :
  mapM (fun i => split_loc (map r_key R) i P g) (arange 1 (P + 1)) = Ok locs ->
  1 <= P ->
  take R (concat locs) = Ok r ->
  (hr = true -> Forall (fun l => l <> []) locs) ->
  exists parts s', mapM (fun i => scp_split (build R ho hr c) i P g) (arange 1 (P + 1)) = Ok parts /\
    scp_merge parts = Ok s' /\ elements s' = Ok (map (ent ho hr) r).
Proof.
  intros EL HP T HN.
  destruct (take_parts R locs r T) as [rs [E1 E2]].
  set (bld := fun r => build r ho (hr && nonnil r) None).
  exists (map bld rs).
  assert (EP : mapM (fun i => scp_split (build R ho hr c) i P g) (arange 1 (P + 1)) = Ok (map bld rs)).
  { transitivity (mapM (fun i => loc <- split_loc (map r_key R) i P g ;; r <- take R loc ;; Ok (bld r)) (arange 1 (P + 1))).
    - clear. induction (arange 1 (P + 1)) as [|i l IH]; simpl; [reflexivity|].
      rewrite IH, scp_split_build. reflexivity.
    - rewrite (mapM_bind _ _ _ _ EL). rewrite (mapM_bind (take R) (fun r => Ok (bld r)) locs rs E1).
      apply mapM_pure. reflexivity. }
  assert (Hne : rs <> []).
  { intros ->. apply mapM_length in E1. simpl in E1. apply mapM_length in EL. rewrite arange_length in EL. lia. }
  assert (Hr : hr = true -> Forall (fun r => nonnil r = true) rs).
  { intros H. specialize (HN H). clear - HN E1. apply mapM_ok_iff in E1.
    induction E1 as [|loc x locs rs E F IH]; constructor.
    - inversion HN as [|? ? Hl _]; subst. apply take_length in E. destruct x; [|reflexivity].
      destruct loc; [congruence|discriminate].
    - inversion HN; subst. auto. }
  assert (V : Forall valid (map bld rs)).
  { apply Forall_forall. intros s Hs. apply in_map_iff in Hs as [x [<- _]]. apply build_valid. }
  destruct rs as [|r0 rs]; [congruence|].
  destruct (merge_total (bld r0) (map bld rs) V) as [s' Es'].
  - apply Forall_forall. intros s Hs. apply in_map_iff in Hs as [x [<- _]]. simpl. destruct ho; auto.
  - apply Forall_forall. intros s Hs. apply in_map_iff in Hs as [x [<- Hx]]. simpl.
    destruct hr; simpl; [|discriminate]. specialize (Hr eq_refl). inversion Hr as [|? ? Hr0 Hrs]; subst.
    rewrite Forall_forall in Hrs. rewrite (Hrs x Hx). reflexivity.
  - exists s'. split; [exact EP|]. split; [exact Es'|].
    destruct (merge_elements _ _ V Es') as [s0 [rest [ess [El [Em Ee]]]]].
    inversion El; subst s0 rest. rewrite Ee. f_equal.
    assert (Em' : ess = map (fun r => map (ent ho (hr && nonnil r)) r) (r0 :: rs)).
    { assert (Q : mapM elements (map bld (r0 :: rs)) = Ok (map (fun r => map (ent ho (hr && nonnil r)) r) (r0 :: rs))).
      { clear. generalize (r0 :: rs). intros l. induction l as [|x l IH]; simpl; [reflexivity|].
        unfold bld at 1. rewrite elements_build, IH. reflexivity. }
      change (bld r0 :: map bld rs) with (map bld (r0 :: rs)) in Em. congruence. }
    rewrite Em', <- E2.
    assert (Hh : has (s_off (bld r0)) = ho /\ has (s_rng (bld r0)) = hr && nonnil r0).
    { unfold bld. simpl. destruct ho, hr; simpl; split; try reflexivity; destruct r0; reflexivity. }
    destruct Hh as [-> ->].
    assert (Hh0 : hr && nonnil r0 = hr).
    { destruct hr; [|reflexivity]. specialize (Hr eq_refl). inversion Hr; assumption. }
    rewrite Hh0. clear - Hr. rewrite concat_map, (concat_map _ (r0 :: rs)), map_map. f_equal.
    apply map_ext_in. intros x Hx. rewrite map_map. apply map_ext. intros q. rewrite ent_forget.
    rewrite andb_diag. f_equal. destruct hr; [|reflexivity]. simpl.
    specialize (Hr eq_refl). rewrite Forall_forall in Hr. rewrite (Hr x Hx). reflexivity.
Qed.

Lemma concat_length {A} (l : list (list A)) : List.length (concat l) = list_sum (map (@List.length A) l).
Proof. induction l as [|x l IH]; simpl; [reflexivity|]. rewrite app_length, IH. reflexivity. Qed.

Lemma list_sum_le1 {A} (l : list (list A)) : (forall x, In x l -> (List.length x <= 1)%nat) -> In [] l ->
  (list_sum (map (@List.length A) l) < List.length l)%nat.
Proof.
  assert (G : forall l : list (list A), (forall x, In x l -> (List.length x <= 1)%nat) -> (list_sum (map (@List.length A) l) <= List.length l)%nat).
  { induction l0 as [|x l0 IH]; simpl; intros H; [lia|]. pose proof (H x (or_introl eq_refl)).
    specialize (IH (fun y Hy => H y (or_intror Hy))). lia. }
  induction l as [|x l IH]; intros H HE; [destruct HE|]. destruct HE as [E|E].
  - subst. simpl. specialize (G l (fun y Hy => H y (or_intror Hy))). lia.
  - simpl. pose proof (H x (or_introl eq_refl)). specialize (IH (fun y Hy => H y (or_intror Hy)) E). lia.
Qed.

Lemma split_merge_plain s es P : valid s -> elements s = Ok es -> 1 <= P ->
  (s_rng s <> None -> P <= Z.of_nat (List.length (s_key s))) ->
  exists parts s', mapM (fun i => scp_split s i P false) (arange 1 (P + 1)) = Ok parts /\
    scp_merge parts = Ok s' /\ elements s' = Ok es.
Proof.
  intros V Es HP HN. destruct (valid_rows s V) as [R [ho [hr [c ->]]]].
  rewrite elements_build in Es. inversion Es; subst es.
  destruct (split_list_partition_lemma (map r_key R) P HP) as [parts [E1 [E2 [E3 [E4 E5]]]]].
  apply split_merge_general with (locs := map snd parts).
  - transitivity (mapM (fun i => kl <- split_list (map r_key R) i P ;; Ok (snd kl)) (arange 1 (P + 1))); [reflexivity|].
    rewrite (mapM_bind _ _ _ _ E1). apply mapM_pure. reflexivity.
  - exact HP.
  - rewrite E3, map_length, arange_nat, Z.sub_0_r, Nat2Z.id by lia. apply take_seq.
  - intros ->. assert (HN' : P <= Z.of_nat (List.length R)).
    { simpl in HN. rewrite map_length in HN. apply HN. discriminate. }
    apply Forall_forall. intros l Hl ->.
    apply in_map_iff in Hl as [p [Ep Hp]].
    assert (L0 : List.length (fst p) = 0%nat).
    { pose proof (E4 p Hp) as T. rewrite Ep in T. inversion T. reflexivity. }
    assert (B : (list_sum (map (@List.length string) (map fst parts)) < List.length (map fst parts))%nat).
    { apply list_sum_le1.
      - intros x Hx. apply in_map_iff in Hx as [q [<- Hq]]. specialize (E5 p q Hp Hq). lia.
      - apply in_map_iff. exists p. split; [|exact Hp]. destruct (fst p); [reflexivity|discriminate]. }
    rewrite <- concat_length, E2, !map_length in B. apply mapM_length in E1. rewrite arange_length in E1. lia.
Qed.

Lemma unique_concat_le (key : list string) (locs : list (list Z)) kps :
  mapM (take key) locs = Ok kps -> (forall k, In k key -> exists kp, In kp kps /\ In k kp) ->
  (List.length (unique key) <= list_sum (map (@List.length string) (map unique kps)))%nat.
Proof.
  intros _ H. rewrite <- concat_length. apply NoDup_incl_length; [apply unique_nodup|].
  intros k Hk. apply (proj1 (unique_in k key)) in Hk. destruct (H k Hk) as [kp [H1 H2]].
  apply in_concat. exists (unique kp). split; [apply in_map; exact H1|apply unique_in; exact H2].
Qed.

Lemma mapM_in_fwd {A B} (f : A -> res B) l r x : mapM f l = Ok r -> In x l -> exists y, In y r /\ f x = Ok y.
Proof.
  intros E. apply mapM_ok_iff in E. induction E as [|a b l r E F IH]; simpl; [tauto|].
  intros [->|H]; [exists b; auto|]. destruct (IH H) as [y [Hy Ey]]. exists y. auto.
Qed.

Lemma split_merge_group s es P : valid s -> elements s = Ok es -> 1 <= P -> s_key s <> [] ->
  (s_rng s <> None -> P <= Z.of_nat (List.length (unique (s_key s)))) ->
  exists parts s' loc es', mapM (fun i => scp_split s i P true) (arange 1 (P + 1)) = Ok parts /\
    scp_merge parts = Ok s' /\ elements s' = Ok es' /\
    take es loc = Ok es' /\ Permutation loc (arange 0 (Z.of_nat (List.length es))) /\
    StronglySorted (fun i j => forall ki kj, get_item (s_key s) i = Ok ki -> get_item (s_key s) j = Ok kj ->
       (leb ki kj = true /\ ki <> kj) \/ (ki = kj /\ i < j)) loc.
Proof.
  intros V Es HP Hk HN. destruct (valid_rows s V) as [R [ho [hr [c ->]]]].
  rewrite elements_build in Es. inversion Es; subst es. simpl in Hk, HN.
  destruct (split_group_partition_lemma (map r_key R) (map r_key R) Hk eq_refl P HP)
    as [parts [E1 [E4 [E3 [ES [EG E5]]]]]].
  set (loc := concat (map snd parts)) in *.
  assert (Hperm : Permutation loc (arange 0 (Z.of_nat (List.length R)))) by (rewrite map_length in E3; exact E3).
  assert (T : exists r, take R loc = Ok r).
  { set (idx := map Z.to_nat loc). assert (EL : loc = map Z.of_nat idx).
    { unfold idx. rewrite map_map. symmetry. rewrite <- (map_id loc) at 2. apply map_ext_in.
      intros z Hz. apply (Permutation_in _ Hperm) in Hz. apply arange_in in Hz. lia. }
    rewrite EL. apply take_total. intros k Hk'. unfold idx in Hk'. apply in_map_iff in Hk' as [z [<- Hz]].
    apply (Permutation_in _ Hperm) in Hz. apply arange_in in Hz. lia. }
  destruct T as [r T].
  destruct (split_merge_general R ho hr c P true (map snd parts) r) as [ps [s' [P1 [P2 P3]]]].
  - transitivity (mapM (fun i => kl <- split_list_group_by_key (map r_key R) (map r_key R) i P ;; Ok (snd kl)) (arange 1 (P + 1))); [reflexivity|].
    rewrite (mapM_bind _ _ _ _ E1). apply mapM_pure. reflexivity.
  - exact HP.
  - exact T.
  - intros ->. assert (HN' : P <= Z.of_nat (List.length (unique (map r_key R)))).
    { apply HN. discriminate. }
    apply Forall_forall. intros l Hl ->.
    apply in_map_iff in Hl as [p [Ep Hp]].
    assert (TK : mapM (take (map r_key R)) (map snd parts) = Ok (map fst parts)).
    { clear - E4. induction parts as [|q parts IH]; simpl; [reflexivity|].
      rewrite (E4 q (or_introl eq_refl)). simpl. rewrite IH; [reflexivity|]. intros p Hp. apply E4. right; exact Hp. }
    assert (B : (list_sum (map (@List.length string) (map unique (map fst parts))) < List.length (map unique (map fst parts)))%nat).
    { assert (T0 : take (map r_key R) (snd p) = Ok []) by (rewrite Ep; reflexivity).
      apply list_sum_le1.
      - intros x Hx. apply in_map_iff in Hx as [y [<- Hy]]. apply in_map_iff in Hy as [q [<- Hq]].
        specialize (E5 p q _ _ Hp Hq T0 (E4 q Hq)). simpl in E5. lia.
      - apply in_map_iff. exists []. split; [reflexivity|]. apply in_map_iff. exists p. split; [|exact Hp].
        specialize (E4 p Hp). congruence. }
    assert (U : (List.length (unique (map r_key R)) <= list_sum (map (@List.length string) (map unique (map fst parts))))%nat).
    { apply (unique_concat_le _ _ _ TK). intros k Hk'.
      apply In_nth_error in Hk' as [i Hi].
      assert (In (Z.of_nat i) loc).
      { eapply Permutation_in; [symmetry; exact Hperm|]. apply arange_in.
        assert (i < List.length (map r_key R))%nat by (apply nth_error_Some; congruence). rewrite map_length in H. lia. }
      unfold loc in H. apply in_concat in H as [l [Hl Hil]]. apply in_map_iff in Hl as [q [<- Hq]].
      exists (fst q). split; [apply in_map; exact Hq|].
      pose proof (E4 q Hq) as Tq. destruct (mapM_in_fwd _ _ _ _ Tq Hil) as [y [Hy Ey]].
      rewrite (get_item_nat _ _ _ Hi) in Ey. inversion Ey; subst. exact Hy. }
    rewrite !map_length in B. apply mapM_length in E1. rewrite arange_length in E1. lia.
  - exists ps, s', loc, (map (ent ho hr) r). split; [exact P1|]. split; [exact P2|]. split; [exact P3|].
    split; [rewrite take_map, T; reflexivity|]. split; [rewrite map_length; exact Hperm|exact ES].
Qed.

(** *** filters, in elements *)

Lemma filter_map_comm {A B} (f : A -> B) (p : B -> bool) l : filter p (map f l) = map f (filter (fun x => p (f x)) l).
Proof. induction l as [|x l IH]; simpl; [reflexivity|]. rewrite IH. destruct (p (f x)); reflexivity. Qed.

Lemma elements_build_nn r ho hr c : elements (build r ho (hr && nonnil r) c) = Ok (map (ent ho hr) r).
Proof. rewrite elements_build. destruct r; [reflexivity|]. rewrite andb_true_r. reflexivity. Qed.

Lemma forallb_inb_iff {A} `{Ord A} (fk l : list A) : forallb (fun k => inb k l) fk = true <-> incl fk l.
Proof.
  rewrite forallb_forall. split; intros Hx x Hi; specialize (Hx x Hi); [apply inb_iff in Hx; exact Hx|apply inb_iff; exact Hx].
Qed.

Lemma filter_lemma s es fk keep : valid s -> elements s = Ok es ->
  (scp_filter s fk keep = Err AssertionError <-> keep = true /\ ~ incl fk (s_key s)) /\
  (keep = false \/ incl fk (s_key s) -> exists s', scp_filter s fk keep = Ok s' /\
     elements s' = Ok (filter (fun e : entry => Bool.eqb keep (inb (fst (fst (fst e))) fk)) es)).
Proof.
  intros V Es. destruct (valid_rows s V) as [R [ho [hr [c ->]]]].
  rewrite elements_build in Es. inversion Es; subst es. rewrite scp_filter_build. cbn [s_key build].
  split.
  - destruct keep; cbn [andb].
    + destruct (forallb _ fk) eqn:F; cbn [negb].
      * split; [discriminate|]. apply forallb_inb_iff in F. intros [_ N]. contradiction.
      * split; [intros _|reflexivity]. split; [reflexivity|]. intros I. apply forallb_inb_iff in I. congruence.
    + split; [discriminate|intros [Q _]; discriminate].
  - intros H.
    assert (keep && negb (forallb (fun k => inb k (map r_key R)) fk) = false) as ->.
    { destruct keep; [|reflexivity]. destruct H as [H|H]; [discriminate|]. apply forallb_inb_iff in H. rewrite H. reflexivity. }
    eexists. split; [reflexivity|]. cbn zeta. rewrite elements_build_nn, filter_map_comm. reflexivity.
Qed.

Lemma filter_paths_lemma s es fk keep : valid s -> elements s = Ok es ->
  (scp_filter_paths s fk keep = Err AssertionError <-> keep = true /\ ~ incl fk (s_path s)) /\
  (keep = false \/ incl fk (s_path s) -> exists s', scp_filter_paths s fk keep = Ok s' /\
     elements s' = Ok (filter (fun e : entry => Bool.eqb keep (inb (snd (fst (fst e))) fk)) es)).
Proof.
  intros V Es. destruct (valid_rows s V) as [R [ho [hr [c ->]]]].
  rewrite elements_build in Es. inversion Es; subst es. rewrite scp_filter_paths_build. cbn [s_path build].
  split.
  - destruct keep; cbn [andb].
    + destruct (forallb _ fk) eqn:F; cbn [negb].
      * split; [discriminate|]. apply forallb_inb_iff in F. intros [_ N]. contradiction.
      * split; [intros _|reflexivity]. split; [reflexivity|]. intros I. apply forallb_inb_iff in I. congruence.
    + split; [discriminate|intros [Q _]; discriminate].
  - intros H.
    assert (keep && negb (forallb (fun k => inb k (map r_path R)) fk) = false) as ->.
    { destruct keep; [|reflexivity]. destruct H as [H|H]; [discriminate|]. apply forallb_inb_iff in H. rewrite H. reflexivity. }
    eexists. split; [reflexivity|]. cbn zeta. rewrite elements_build_nn, filter_map_comm. reflexivity.
Qed.

Lemma filter_index_lemma s es ix : valid s -> elements s = Ok es ->
  (forall es', take es ix = Ok es' -> exists s', scp_filter_index s ix true = Ok s' /\ elements s' = Ok es') /\
  (forall e, take es ix = Err e -> scp_filter_index s ix true = Err e) /\
  (exists s' es', scp_filter_index s ix false = Ok s' /\ elements s' = Ok es' /\
     take es (filter (fun i => negb (inb i ix)) (arange 0 (Z.of_nat (List.length es)))) = Ok es').
Proof.
  intros V Es. destruct (valid_rows s V) as [R [ho [hr [c ->]]]].
  rewrite elements_build in Es. inversion Es; subst es. rewrite !scp_filter_index_build.
  split; [|split].
  - intros es' T. rewrite take_map in T. destruct (take R ix) as [r|]; [|discriminate]. simpl in T. inversion T; subst.
    eexists. split; [reflexivity|]. apply elements_build_nn.
  - intros e T. rewrite take_map in T. destruct (take R ix) as [r|]; [discriminate|]. simpl in T |- *. congruence.
  - rewrite map_length. set (loc := filter _ (arange 0 _)).
    assert (EL : setdiff (arange 0 (Z.of_nat (List.length R))) ix = loc).
    { unfold setdiff. rewrite unique_of_sorted; [reflexivity|].
      unfold arange. generalize (Z.to_nat (Z.of_nat (List.length R) - 0)). intros n.
      assert (G : forall m st, StronglySorted slt (map (fun k => 0 + Z.of_nat k) (seq st m))).
      { induction m as [|m IH]; intros st; simpl; constructor; [apply IH|].
        apply Forall_forall. intros x Hx. apply in_map_iff in Hx as [k [<- Hk]]. apply in_seq in Hk.
        unfold slt. simpl. lia. }
      apply G. }
    rewrite EL.
    assert (T : exists r, take R loc = Ok r).
    { set (idx := map Z.to_nat loc). assert (EL' : loc = map Z.of_nat idx).
      { unfold idx. rewrite map_map. symmetry. rewrite <- (map_id loc) at 2. apply map_ext_in.
        intros z Hz. apply filter_In in Hz as [Hz _]. apply arange_in in Hz. lia. }
      rewrite EL'. apply take_total. intros k Hk'. unfold idx in Hk'. apply in_map_iff in Hk' as [z [<- Hz]].
      apply filter_In in Hz as [Hz _]. apply arange_in in Hz. lia. }
    destruct T as [r T]. rewrite T. eexists _, _. split; [reflexivity|]. split; [apply elements_build_nn|].
    rewrite take_map, T. reflexivity.
Qed.

Lemma filter_partition {A} (p : A -> bool) l : Permutation (filter (fun x => Bool.eqb true (p x)) l ++ filter (fun x => Bool.eqb false (p x)) l) l.
Proof.
  induction l as [|x l IH]; simpl; [constructor|]. destruct (p x); simpl.
  - constructor. exact IH.
  - rewrite <- Permutation_middle. constructor. exact IH.
Qed.
