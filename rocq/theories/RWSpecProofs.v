(** Proofs about the specifier parsers. *)
From Verif Require Import Base BaseFacts Str StrFacts RWSpec.
Open Scope string_scope.

(** *** split / join *)
Fixpoint join (c : ascii) (l : list string) : string :=
  match l with
  | [] => ""
  | [w] => w
  | w :: l' => w ++ String c (join c l')
  end.

Lemma split_all_nonnil c s : split_all c s <> [].
Proof. destruct s as [|x s]; simpl; [discriminate|]. destruct (Ascii.eqb x c); [discriminate|]. destruct (split_all c s); discriminate. Qed.

Lemma split_all_join c s : join c (split_all c s) = s.
Proof.
  induction s as [|x s IH]; [reflexivity|]. simpl.
  pose proof (split_all_nonnil c s) as N.
  destruct (Ascii.eqb_spec x c) as [->|Hx].
  - simpl. destruct (split_all c s); [congruence|]. rewrite IH. reflexivity.
  - destruct (split_all c s) as [|w ws]; [congruence|]. rewrite <- IH. destruct ws; reflexivity.
Qed.

Lemma split_all_no c s : Forall (fun w => str_in c w = false) (split_all c s).
Proof.
  induction s as [|x s IH]; simpl; [repeat constructor|].
  destruct (Ascii.eqb x c) eqn:E; [constructor; [reflexivity|exact IH]|].
  destruct (split_all c s) as [|w ws]; [repeat constructor; rewrite str_in_cons, E; reflexivity|].
  inversion IH; subst. constructor; [|assumption]. rewrite str_in_cons, E. assumption.
Qed.

Lemma split_all_word c w : str_in c w = false -> split_all c w = [w].
Proof.
  induction w as [|x w IH]; simpl; [reflexivity|]. rewrite str_in_cons. intros H.
  apply orb_false_iff in H as [H1 H2]. rewrite H1, IH by exact H2. reflexivity.
Qed.

Lemma split_all_app c w s : str_in c w = false -> split_all c (w ++ String c s) = w :: split_all c s.
Proof.
  induction w as [|x w IH]; intros H.
  - simpl. rewrite Ascii.eqb_refl. reflexivity.
  - rewrite str_in_cons in H. apply orb_false_iff in H as [H1 H2]. simpl. rewrite H1, IH by exact H2. reflexivity.
Qed.

Lemma join_split c l : l <> [] -> Forall (fun w => str_in c w = false) l -> split_all c (join c l) = l.
Proof.
  induction l as [|w l IH]; intros NE F; [congruence|]. inversion F; subst. destruct l as [|w' l].
  - simpl. apply split_all_word. assumption.
  - simpl join. change (join c (w' :: l)) with (join c (w' :: l)). rewrite split_all_app by assumption.
    f_equal. apply IH; [discriminate|assumption].
Qed.

(** the split is the only decomposition *)
Lemma split_all_iff c s l : split_all c s = l <-> l <> [] /\ Forall (fun w => str_in c w = false) l /\ join c l = s.
Proof.
  split.
  - intros <-. split; [apply split_all_nonnil|]. split; [apply split_all_no|apply split_all_join].
  - intros [NE [F <-]]. apply join_split; assumption.
Qed.

(** *** the option loop of WSpecifier *)

Definition out_kinds := ["h5"; "ark"; "scp"].
Definition w_known := ["h5"; "ark"; "scp"; "f"; "b"; "t"; "nf"; "p"].
Definition outs (opts : list string) : list string := filter (fun o => inb o out_kinds) opts.

Definition akind (k : string) : option archive_type :=
  if eqb k "h5" then Some H5 else if eqb k "ark" then Some ARK else None.


Definition st_of (K archs : list string) (flush : bool) : option wst :=
  match K with
  | [] => Some (mk_wst None None None flush 0)
  | [k] =>
      match nth_error archs 0 with
      | None => None
      | Some a => match akind k with
                  | Some t => Some (mk_wst (Some a) None (Some t) flush 1)
                  | None => Some (mk_wst None (Some a) None flush 1)
                  end
      end
  | [k1; k2] =>
      match nth_error archs 0, nth_error archs 1 with
      | Some a, Some b =>
          match akind k1, akind k2 with
          | Some t, None => Some (mk_wst (Some a) (Some b) (Some t) flush 2)
          | None, Some t => Some (mk_wst (Some b) (Some a) (Some t) flush 2)
          | _, _ => None
          end
      | _, _ => None
      end
  | _ => None
  end.


Lemma known_cases o : inb o w_known = true ->
  o = "h5" \/ o = "ark" \/ o = "scp" \/ o = "f" \/ inb o ["b"; "t"; "nf"; "p"] = true.
Proof.
  intros H. apply inb_iff in H. simpl in H.
  destruct H as [H|[H|[H|[H|H]]]]; auto. right; right; right; right. apply inb_iff. exact H.
Qed.

Local Arguments nth_error : simpl never.

Lemma w_loop archs : forall opts K fl s, Forall (fun k => inb k out_kinds = true) K ->
  st_of K archs fl = Some s ->
  match foldM (w_option archs) opts s with
  | Ok s' => forallb (fun o => inb o w_known) opts = true /\
             st_of (K ++ outs opts) archs (fl || inb "f" opts) = Some s'
  | Err _ => forallb (fun o => inb o w_known) opts = false \/ st_of (K ++ outs opts) archs (fl || inb "f" opts) = None
  end.
Proof.
  induction opts as [|o opts IH]; intros K fl s FK E.
  { simpl. rewrite app_nil_r, orb_false_r. split; [reflexivity|exact E]. }
  cbn [foldM forallb].
  assert (Hext : forall K f, (forall k, In k K -> inb k out_kinds = true) -> st_of K archs f = None ->
     forall K' f', Forall (fun k => inb k out_kinds = true) K' -> st_of (K ++ K') archs f' = None).
  { clear. intros K f FK E K' f' FK'.
    destruct K as [|k1 [|k2 [|k3 K]]]; simpl in E |- *; try discriminate; try reflexivity.
    - destruct (nth_error archs 0) eqn:A0.
      + destruct (akind k1); discriminate.
      + destruct K' as [|a [|b [|]]]; simpl; rewrite ?A0; reflexivity.
    - destruct K' as [|a K']; [|reflexivity]. simpl.
      destruct (nth_error archs 0); [|reflexivity]. destruct (nth_error archs 1); [|reflexivity].
      destruct (akind k1), (akind k2); try discriminate; reflexivity. }
  assert (Fouts : forall l, Forall (fun k => inb k out_kinds = true) (outs l)).
  { intros l. apply Forall_forall. intros x Hx. apply filter_In in Hx. tauto. }
  destruct (inb o w_known) eqn:KN.
  2:{ (* unknown option *)
      assert (w_option archs s o = Err ValueError) as ->; [|left; reflexivity].
      apply inb_false in KN. unfold w_option.
      destruct (eqb_spec o "h5") as [->|]; [exfalso; apply KN; simpl; tauto|].
      destruct (eqb_spec o "ark") as [->|]; [exfalso; apply KN; simpl; tauto|].
      destruct (eqb_spec o "scp") as [->|]; [exfalso; apply KN; simpl; tauto|].
      destruct (eqb_spec o "f") as [->|]; [exfalso; apply KN; simpl; tauto|].
      destruct (inb o ["b"; "t"; "nf"; "p"]) eqn:Q; [|reflexivity].
      exfalso. apply KN. apply inb_iff in Q. simpl in Q |- *. tauto. }
  cbn [andb].
  assert (OUT : inb o out_kinds = true -> outs (o :: opts) = o :: outs opts) by (intros Q; unfold outs; simpl; simpl in Q; rewrite Q; reflexivity).
  assert (NOUT : inb o out_kinds = false -> outs (o :: opts) = outs opts) by (intros Q; unfold outs; simpl; simpl in Q; rewrite Q; reflexivity).
  destruct (inb o out_kinds) eqn:OK.
  - (* output kind *)
    rewrite (OUT eq_refl). replace (K ++ o :: outs opts)%list with ((K ++ [o]) ++ outs opts)%list by (rewrite <- app_assoc; reflexivity).
    assert (FK' : Forall (fun k => inb k out_kinds = true) (K ++ [o])%list) by (apply Forall_app; split; [exact FK|repeat constructor; exact OK]).
    assert (NF : inb "f" (o :: opts) = inb "f" opts).
    { unfold inb at 1. cbn [existsb]. destruct (eqb_spec "f" o) as [<-|]; [discriminate|reflexivity]. }
    rewrite NF.
    assert (STEP : match st_of (K ++ [o]) archs fl with
                   | Some s' => w_option archs s o = Ok s'
                   | None => exists e, w_option archs s o = Err e
                   end).
    { assert (CK : forall k, inb k out_kinds = true -> k = "h5" \/ k = "ark" \/ k = "scp").
      { intros k Hk. apply inb_iff in Hk. simpl in Hk. intuition. }
      destruct (CK o OK) as [->|[->| ->]];
      (destruct K as [|k1 [|k2 [|k3 K]]]; simpl in E;
       [ inversion E; subst s; simpl; destruct (nth_error archs 0) eqn:A0; unfold w_option, w_arch_opt; simpl; unfold nth_arch; rewrite ?A0; try reflexivity; eexists; reflexivity
       | inversion FK as [|? ? Hk1 _]; subst; destruct (CK k1 Hk1) as [->|[->| ->]]; cbn in E;
         (destruct (nth_error archs 0) eqn:A0; [|discriminate]); inversion E; subst s;
         cbn; unfold nth_arch; rewrite ?A0; destruct (nth_error archs 1) eqn:A1; cbn; rewrite ?A1; try reflexivity; eexists; reflexivity
       | inversion FK as [|? ? Hk1 FK1]; subst; inversion FK1 as [|? ? Hk2 _]; subst;
         destruct (CK k1 Hk1) as [->|[->| ->]], (CK k2 Hk2) as [->|[->| ->]]; cbn in E;
         (destruct (nth_error archs 0) eqn:A0; [|discriminate]); (destruct (nth_error archs 1) eqn:A1; [|discriminate]);
         try discriminate; inversion E; subst s; cbn; eexists; reflexivity
       | discriminate ]). }
    destruct (st_of (K ++ [o]) archs fl) as [s'|] eqn:ES.
    + rewrite STEP. cbn [bind]. apply (IH (K ++ [o])%list fl s' FK' ES).
    + destruct STEP as [e ->]. cbn [bind]. right. eapply Hext; [|exact ES|apply Fouts].
      intros k Hk. rewrite Forall_forall in FK'. apply FK'. exact Hk.
  - rewrite (NOUT eq_refl).
    destruct (known_cases o KN) as [->|[->|[->|[->|Q]]]]; try discriminate.
    + (* f *)
      change (w_option archs s "f") with (Ok (mk_wst (st_archive s) (st_script s) (st_atype s) true (st_cur s))). cbn [bind].
      replace (fl || inb "f" ("f" :: opts)) with (true || inb "f" opts).
      2:{ unfold inb at 2. cbn [existsb]. rewrite eqb_refl. rewrite orb_true_r. reflexivity. }
      apply IH; [exact FK|].
      destruct K as [|k1 [|k2 [|k3 K]]]; simpl in E |- *.
      * inversion E; reflexivity.
      * destruct (nth_error archs 0); [|discriminate]. destruct (akind k1); inversion E; reflexivity.
      * destruct (nth_error archs 0); [|discriminate]. destruct (nth_error archs 1); [|discriminate].
        destruct (akind k1), (akind k2); inversion E; reflexivity.
      * discriminate.
    + assert (WO : w_option archs s o = Ok s).
      { unfold w_option. apply inb_iff in Q as Q'. simpl in Q'.
        destruct Q' as [<-|[<-|[<-|[<-|[]]]]]; reflexivity. }
      rewrite WO. cbn [bind].
      assert (NF : inb "f" (o :: opts) = inb "f" opts).
      { unfold inb at 1. cbn [existsb]. destruct (eqb_spec "f" o) as [<-|]; [discriminate|reflexivity]. }
      rewrite NF. apply IH; assumption.
Qed.

(** *** Specification of a write specifier made of options and paths *)

Definition w_spec (opts archs : list string) (w : wspec) : Prop :=
  (forall o, In o opts -> In o w_known) /\
  w_flush w = inb "f" opts /\
  ((* one archive, no script *)
   (exists k t a, akind k = Some t /\ outs opts = [k] /\ nth_error archs 0 = Some a /\
      w_type w = W_ARCHIVE /\ w_archive w = Some a /\ w_script w = None /\ w_atype w = Some t /\
      w_binary w = negb (is_ark (Some t) && inb "t" opts) /\ w_permissive w = is_ark (Some t) && inb "p" opts)
   \/ (* script only *)
   (exists a, outs opts = ["scp"] /\ nth_error archs 0 = Some a /\
      w_type w = W_SCRIPT /\ w_archive w = None /\ w_script w = Some a /\ w_atype w = None /\
      w_binary w = true /\ w_permissive w = false)
   \/ (* both, in either order: each path goes to the output kind at its place *)
   (exists k t a b, akind k = Some t /\
      (outs opts = [k; "scp"] /\ nth_error archs 0 = Some a /\ nth_error archs 1 = Some b \/
       outs opts = ["scp"; k] /\ nth_error archs 0 = Some b /\ nth_error archs 1 = Some a) /\
      w_type w = W_BOTH /\ w_archive w = Some a /\ w_script w = Some b /\ w_atype w = Some t /\
      w_binary w = negb (is_ark (Some t) && inb "t" opts) /\ w_permissive w = is_ark (Some t) && inb "p" opts)).

Lemma forallb_known opts : forallb (fun o => inb o w_known) opts = true <-> (forall o, In o opts -> In o w_known).
Proof.
  rewrite forallb_forall. split; intros H o Ho; specialize (H o Ho); [apply inb_iff in H; exact H|apply inb_iff; exact H].
Qed.

Lemma outs_kind opts k : In k (outs opts) -> k = "h5" \/ k = "ark" \/ k = "scp".
Proof. intros H. apply filter_In in H as [_ H]. apply inb_iff in H. simpl in H. intuition. Qed.

Lemma akind_inv k t : akind k = Some t -> k <> "scp".
Proof. intros H ->. discriminate. Qed.

Lemma w_create2_iff opts archs w : w_create2 opts archs = Ok w <-> w_spec opts archs w.
Proof.
  unfold w_create2.
  pose proof (w_loop archs opts [] false (mk_wst None None None false 0) ltac:(constructor) eq_refl) as L.
  simpl app in L. cbn [orb] in L.
  split.
  - destruct (foldM _ opts _) as [s|e]; [|discriminate]. cbn [bind]. destruct L as [KN ST].
    intros E. unfold w_spec. rewrite <- forallb_known, KN. split; [reflexivity|].
    pose proof (outs_kind opts) as OK. destruct (outs opts) as [|k1 [|k2 [|k3 K]]]; simpl in ST.
    + inversion ST; subst s. discriminate.
    + destruct (nth_error archs 0) as [a|] eqn:A0; [|discriminate].
      destruct (akind k1) as [t|] eqn:AK; inversion ST; subst s; simpl in E; inversion E; subst w; simpl.
      * split; [reflexivity|]. left. exists k1, t, a. repeat split; assumption.
      * split; [reflexivity|]. right; left. exists a.
        assert (k1 = "scp") as -> by (destruct (OK k1 (or_introl eq_refl)) as [->|[->| ->]]; [discriminate|discriminate|reflexivity]).
        repeat split.
    + destruct (nth_error archs 0) as [a|] eqn:A0; [|discriminate].
      destruct (nth_error archs 1) as [b|] eqn:A1; [|discriminate].
      destruct (akind k1) as [t|] eqn:AK1, (akind k2) as [t'|] eqn:AK2; try discriminate;
        inversion ST; subst s; simpl in E; inversion E; subst w; simpl; split; try reflexivity; right; right.
      * assert (k2 = "scp") as -> by (destruct (OK k2 (or_intror (or_introl eq_refl))) as [->|[->| ->]]; [discriminate|discriminate|reflexivity]).
        exists k1, t, a, b. split; [exact AK1|]. split; [left; repeat split; assumption|]. repeat split.
      * assert (k1 = "scp") as -> by (destruct (OK k1 (or_introl eq_refl)) as [->|[->| ->]]; [discriminate|discriminate|reflexivity]).
        exists k2, t', b, a. split; [exact AK2|]. split; [right; repeat split; assumption|]. repeat split.
    + discriminate.
  - intros [KN [FL C]]. apply forallb_known in KN.
    assert (G : forall s, st_of (outs opts) archs (inb "f" opts) = Some s -> foldM (w_option archs) opts (mk_wst None None None false 0) = Ok s).
    { intros s Hs. destruct (foldM _ opts _) as [s'|e].
      - destruct L as [_ L]. congruence.
      - destruct L as [L|L]; congruence. }
    destruct w as [ty ar sc at_ bi fl pe]. simpl in *. subst fl.
    destruct C as [(k & t & a & AK & O & A0 & -> & -> & -> & -> & -> & ->)
                  |[(a & O & A0 & -> & -> & -> & -> & -> & ->)
                  |(k & t & a & b & AK & O & -> & -> & -> & -> & -> & ->)]].
    + erewrite G; [|rewrite O; simpl; rewrite A0, AK; reflexivity]. reflexivity.
    + erewrite G; [|rewrite O; simpl; rewrite A0; reflexivity]. reflexivity.
    + destruct O as [(O & A0 & A1)|(O & A0 & A1)].
      * erewrite G; [|rewrite O; simpl; rewrite A0, A1, AK; reflexivity]. reflexivity.
      * erewrite G; [|rewrite O; simpl; rewrite A0, A1, AK; reflexivity]. reflexivity.
Qed.

(** Whole strings *)
Definition w_string_spec (s : string) (w : wspec) : Prop :=
  (str_in ":" (strip s) = false /\ strip s <> "" /\
     w = mk_w W_ARCHIVE (Some (strip s)) None (Some H5) true false false)
  \/ exists O A opts archs,
       strip s = O ++ String ":" A /\ str_in ":" O = false /\ str_in ":" A = false /\
       opts <> [] /\ archs <> [] /\
       strip O = join "," opts /\ Forall (fun x => str_in "," x = false) opts /\
       strip A = join "," archs /\ Forall (fun x => str_in "," x = false) archs /\
       w_spec opts archs w.

Lemma split_two c s a b : split_all c s = [a; b] <-> s = a ++ String c b /\ str_in c a = false /\ str_in c b = false.
Proof.
  rewrite split_all_iff. simpl. split.
  - intros [_ [F <-]]. inversion F as [|? ? Fa Fb]; subst. inversion Fb; subst. auto.
  - intros [-> [Ha Hb]]. split; [discriminate|]. split; [repeat constructor; assumption|reflexivity].
Qed.

Lemma w_create_iff s w : w_create s = Ok w <-> w_string_spec s w.
Proof.
  unfold w_create, w_string_spec.
  destruct (split_all ":" (strip s)) as [|f0 [|f1 [|f2 fs]]] eqn:S.
  - exfalso. exact (split_all_nonnil _ _ S).
  - apply split_all_iff in S as [_ [F J]]. simpl in J. subst f0. inversion F as [|? ? F0 _]; subst.
    split.
    + destruct (strip s) eqn:SS; [discriminate|]. intros E; inversion E; subst. left.
      split; [exact F0|]. split; [discriminate|reflexivity].
    + intros [(_ & NE & ->)|(O & A & opts & archs & E & _)].
      * destruct (strip s); [congruence|reflexivity].
      * rewrite E, str_in_app, str_in_cons, Ascii.eqb_refl, orb_true_r in F0. discriminate.
  - apply split_two in S as [E [H0 H1]]. rewrite w_create2_iff. split.
    + intros W. right. exists f0, f1, (split_all "," (strip f0)), (split_all "," (strip f1)).
      split; [exact E|]. split; [exact H0|]. split; [exact H1|].
      split; [apply split_all_nonnil|]. split; [apply split_all_nonnil|].
      split; [symmetry; apply split_all_join|]. split; [apply split_all_no|].
      split; [symmetry; apply split_all_join|]. split; [apply split_all_no|]. exact W.
    + intros [(NC & _)|(O & A & opts & archs & E' & HO & HA & NO & NA & JO & FO & JA & FA & W)].
      * rewrite E, str_in_app, str_in_cons, Ascii.eqb_refl, orb_true_r in NC. discriminate.
      * assert (split_all ":" (strip s) = [f0; f1]) as S1 by (apply split_two; auto).
        assert (split_all ":" (strip s) = [O; A]) as S2 by (apply split_two; auto).
        rewrite S1 in S2. inversion S2; subst O A.
        rewrite JO, JA, !join_split by assumption. exact W.
  - split; [discriminate|]. intros [(NC & _)|(O & A & opts & archs & E & HO & HA & _)].
    + rewrite split_all_word in S by exact NC. discriminate.
    + assert (split_all ":" (strip s) = [O; A]) by (apply split_two; auto). congruence.
Qed.

(** *** Read specifiers *)

Definition r_known := ["h5"; "ark"; "scp"; "p"; "o"; "s"; "cs"; "bg"].

Lemma r_loop : forall opts ty at_ p,
  match foldM r_option opts (ty, at_, p) with
  | Ok (ty', at', p') =>
      forallb (fun o => inb o r_known) opts = true /\ p' = p || inb "p" opts /\
      match ty with
      | Some t => outs opts = [] /\ ty' = Some t /\ at' = at_
      | None => (outs opts = [] /\ ty' = None /\ at' = at_) \/
                (outs opts = ["h5"] /\ ty' = Some R_ARCHIVE /\ at' = Some H5) \/
                (outs opts = ["ark"] /\ ty' = Some R_ARCHIVE /\ at' = Some ARK) \/
                (outs opts = ["scp"] /\ ty' = Some R_SCRIPT /\ at' = at_)
      end
  | Err _ => forallb (fun o => inb o r_known) opts = false \/
             (match ty with Some _ => 1 | None => 2 end <= List.length (outs opts))%nat
  end.
Proof.
  induction opts as [|o opts IH]; intros ty at_ p.
  { simpl. rewrite orb_false_r. split; [reflexivity|]. split; [reflexivity|]. destruct ty; auto. }
  cbn [foldM forallb].
  destruct (inb o r_known) eqn:KN.
  2:{ assert (r_option (ty, at_, p) o = Err ValueError) as ->; [|left; reflexivity].
      apply inb_false in KN. unfold r_option.
      destruct (eqb_spec o "h5") as [->|]; [exfalso; apply KN; simpl; tauto|].
      destruct (eqb_spec o "ark") as [->|]; [exfalso; apply KN; simpl; tauto|].
      destruct (eqb_spec o "scp") as [->|]; [exfalso; apply KN; simpl; tauto|].
      destruct (eqb_spec o "p") as [->|]; [exfalso; apply KN; simpl; tauto|].
      destruct (inb o ["o"; "s"; "cs"; "bg"]) eqn:Q; [|reflexivity].
      exfalso. apply KN. apply inb_iff in Q. simpl in Q |- *. tauto. }
  cbn [andb]. apply inb_iff in KN. simpl in KN.
  assert (CASES : (o = "h5" \/ o = "ark" \/ o = "scp") \/ o = "p" \/ inb o ["o"; "s"; "cs"; "bg"] = true).
  { destruct KN as [H|[H|[H|[H|H]]]]; auto. right; right. apply inb_iff. exact H. }
  clear KN. destruct CASES as [[->|[->| ->]]|[->|Q]].
  - change (outs ("h5" :: opts)) with ("h5" :: outs opts). change (inb "p" ("h5" :: opts)) with (inb "p" opts).
    unfold r_option. change (eqb "h5" "h5") with true. cbv iota. destruct ty; cbn [none_b assert bind].
    + right. simpl. lia.
    + specialize (IH (Some R_ARCHIVE) (Some H5) p). destruct (foldM _ opts _) as [[[ty' at'] p']|e].
      * destruct IH as [A [B [C [D E]]]]. rewrite C. split; [exact A|]. split; [exact B|]. right; left. auto.
      * destruct IH as [A|A]; [left; exact A|right; simpl; lia].
  - change (outs ("ark" :: opts)) with ("ark" :: outs opts). change (inb "p" ("ark" :: opts)) with (inb "p" opts).
    unfold r_option. change (eqb "ark" "h5") with false. change (eqb "ark" "ark") with true. cbv iota. destruct ty; cbn [none_b assert bind].
    + right. simpl. lia.
    + specialize (IH (Some R_ARCHIVE) (Some ARK) p). destruct (foldM _ opts _) as [[[ty' at'] p']|e].
      * destruct IH as [A [B [C [D E]]]]. rewrite C. split; [exact A|]. split; [exact B|]. right; right; left. auto.
      * destruct IH as [A|A]; [left; exact A|right; simpl; lia].
  - change (outs ("scp" :: opts)) with ("scp" :: outs opts). change (inb "p" ("scp" :: opts)) with (inb "p" opts).
    unfold r_option. change (eqb "scp" "h5") with false. change (eqb "scp" "ark") with false. change (eqb "scp" "scp") with true. cbv iota.
    destruct ty; cbn [none_b assert bind].
    + right. simpl. lia.
    + specialize (IH (Some R_SCRIPT) at_ p). destruct (foldM _ opts _) as [[[ty' at'] p']|e].
      * destruct IH as [A [B [C [D E]]]]. rewrite C. split; [exact A|]. split; [exact B|]. right; right; right. auto.
      * destruct IH as [A|A]; [left; exact A|right; simpl; lia].
  - change (outs ("p" :: opts)) with (outs opts). change (r_option (ty, at_, p) "p") with (Ok (ty, at_, true) : res rst). cbn [bind].
    specialize (IH ty at_ true). destruct (foldM _ opts _) as [[[ty' at'] p']|e]; [|exact IH].
    destruct IH as [A [B C]]. split; [exact A|]. split; [|exact C]. rewrite B.
    unfold inb at 2. cbn [existsb]. rewrite eqb_refl, orb_true_r. reflexivity.
  - assert (RO : r_option (ty, at_, p) o = Ok (ty, at_, p) /\ outs (o :: opts) = outs opts /\ inb "p" (o :: opts) = inb "p" opts).
    { apply inb_iff in Q. simpl in Q. destruct Q as [<-|[<-|[<-|[<-|[]]]]]; repeat split. }
    destruct RO as [-> [-> ->]]. cbn [bind]. apply IH.
Qed.

Definition r_spec (fs : string -> option string) (opts : list string) (archive : string) (r : rspec) : Prop :=
  (forall o, In o opts -> In o r_known) /\
  rs_archive r = archive /\ rs_permissive r = inb "p" opts /\
  (exists t, rs_atype r = Some t /\
     (outs opts = ["h5"] /\ rs_type r = R_ARCHIVE /\ t = H5 \/
      outs opts = ["ark"] /\ rs_type r = R_ARCHIVE /\ t = ARK \/
      outs opts = ["scp"] /\ rs_type r = R_SCRIPT /\ script_type (fs archive) = Ok t)) /\
  rs_once r = is_ark (rs_atype r) && inb "o" opts /\
  rs_sorted r = is_ark (rs_atype r) && inb "s" opts /\
  rs_called_sorted r = is_ark (rs_atype r) && inb "cs" opts /\
  rs_background r = is_ark (rs_atype r) && inb "bg" opts.

Lemma forallb_rknown opts : forallb (fun o => inb o r_known) opts = true <-> (forall o, In o opts -> In o r_known).
Proof.
  rewrite forallb_forall. split; intros H o Ho; specialize (H o Ho); [apply inb_iff in H; exact H|apply inb_iff; exact H].
Qed.

Lemma r_create2_iff fs opts archs r : r_create2 fs opts archs = Ok r <-> exists a, archs = [a] /\ r_spec fs opts a r.
Proof.
  unfold r_create2. split.
  - destruct archs as [|a [|]]; try discriminate.
    pose proof (r_loop opts None None false) as L.
    destruct (foldM _ opts _) as [[[ty at_] p]|e]; [|discriminate]. cbn [bind].
    destruct L as [KN [P C]]. intros E. exists a. split; [reflexivity|].
    unfold r_spec. rewrite <- forallb_rknown, KN. split; [reflexivity|].
    destruct ty as [ty|]; [|discriminate].
    destruct C as [(_ & C & _)|[(O & C & ->)|[(O & C & ->)|(O & C & ->)]]]; [discriminate| | |]; inversion C; subst ty; simpl in E.
    + inversion E; subst r; simpl. split; [reflexivity|]. split; [exact P|]. split; [exists H5; tauto|repeat split].
    + inversion E; subst r; simpl. split; [reflexivity|]. split; [exact P|]. split; [exists ARK; tauto|repeat split].
    + destruct (script_type (fs a)) as [t|] eqn:ST; [|discriminate]. simpl in E. inversion E; subst r; simpl.
      split; [reflexivity|]. split; [exact P|]. split; [exists t; tauto|repeat split].
  - intros [a [-> S]]. destruct S as (KN & A & P & (t & T & C) & O1 & O2 & O3 & O4).
    pose proof (r_loop opts None None false) as L. apply forallb_rknown in KN.
    destruct r as [ty ar at_ on so cs pe bg]. simpl in *. subst.
    destruct (foldM _ opts _) as [[[ty' at'] p']|e].
    + cbn [bind]. destruct L as [_ [-> L]]. cbn [orb].
      destruct C as [(O & -> & ->)|[(O & -> & ->)|(O & -> & ST)]]; rewrite O in L;
        destruct L as [(Q & _)|[(Q & -> & ->)|[(Q & -> & ->)|(Q & -> & ->)]]]; try discriminate; simpl.
      * reflexivity.
      * reflexivity.
      * rewrite ST. reflexivity.
    + exfalso. destruct L as [L|L]; [congruence|].
      destruct C as [(O & _)|[(O & _)|(O & _)]]; rewrite O in L; simpl in L; lia.
Qed.

Definition r_string_spec (fs : string -> option string) (s : string) (r : rspec) : Prop :=
  (str_in ":" (strip s) = false /\ strip s <> "" /\
     r = mk_r R_ARCHIVE (strip s) (Some H5) false false false false false)
  \/ exists O A opts,
       strip s = O ++ String ":" A /\ str_in ":" O = false /\ str_in ":" A = false /\
       opts <> [] /\ strip O = join "," opts /\ Forall (fun x => str_in "," x = false) opts /\
       str_in "," (strip A) = false /\ r_spec fs opts (strip A) r.

Lemma r_create_iff fs s r : r_create fs s = Ok r <-> r_string_spec fs s r.
Proof.
  unfold r_create, r_string_spec.
  destruct (split_all ":" (strip s)) as [|f0 [|f1 [|f2 fss]]] eqn:S.
  - exfalso. exact (split_all_nonnil _ _ S).
  - apply split_all_iff in S as [_ [F J]]. simpl in J. subst f0. inversion F as [|? ? F0 _]; subst.
    split.
    + destruct (strip s) eqn:SS; [discriminate|]. intros E; inversion E; subst. left.
      split; [exact F0|]. split; [discriminate|reflexivity].
    + intros [(_ & NE & ->)|(O & A & opts & E & _)].
      * destruct (strip s); [congruence|reflexivity].
      * rewrite E, str_in_app, str_in_cons, Ascii.eqb_refl, orb_true_r in F0. discriminate.
  - apply split_two in S as [E [H0 H1]]. rewrite r_create2_iff. split.
    + intros [a [Ea R]]. right. exists f0, f1, (split_all "," (strip f0)).
      split; [exact E|]. split; [exact H0|]. split; [exact H1|].
      split; [apply split_all_nonnil|]. split; [symmetry; apply split_all_join|]. split; [apply split_all_no|].
      apply split_all_iff in Ea as [_ [Fa Ja]]. simpl in Ja. inversion Fa; subst. split; [assumption|exact R].
    + intros [(NC & _)|(O & A & opts & E' & HO & HA & NO & JO & FO & CA & R)].
      * rewrite E, str_in_app, str_in_cons, Ascii.eqb_refl, orb_true_r in NC. discriminate.
      * assert (split_all ":" (strip s) = [f0; f1]) as S1 by (apply split_two; auto).
        assert (split_all ":" (strip s) = [O; A]) as S2 by (apply split_two; auto).
        rewrite S1 in S2. inversion S2; subst O A. exists (strip f1).
        rewrite JO, join_split by assumption. split; [apply split_all_word; exact CA|exact R].
  - split; [discriminate|]. intros [(NC & _)|(O & A & opts & E & HO & HA & _)].
    + rewrite split_all_word in S by exact NC. discriminate.
    + assert (split_all ":" (strip s) = [O; A]) by (apply split_two; auto). congruence.
Qed.

(** Order of the options does not matter. *)
Lemma inb_perm (x : string) l1 l2 : Permutation l1 l2 -> inb x l1 = inb x l2.
Proof.
  intros P. destruct (inb x l1) eqn:E1, (inb x l2) eqn:E2; try reflexivity.
  - apply inb_iff in E1. apply (Permutation_in _ P) in E1. apply inb_iff in E1. congruence.
  - apply inb_iff in E2. apply (Permutation_in _ (Permutation_sym P)) in E2. apply inb_iff in E2. congruence.
Qed.

Lemma filter_perm {A} (p : A -> bool) l1 l2 : Permutation l1 l2 -> Permutation (filter p l1) (filter p l2).
Proof.
  induction 1 as [|x l1 l2 P IH|x y l|l1 l2 l3 P1 IH1 P2 IH2]; simpl.
  - constructor.
  - destruct (p x); [constructor|]; assumption.
  - destruct (p x), (p y); try (apply Permutation_refl). apply perm_swap.
  - eapply Permutation_trans; eassumption.
Qed.

Lemma r_spec_perm fs o1 o2 a r : Permutation o1 o2 -> r_spec fs o1 a r -> r_spec fs o2 a r.
Proof.
  intros P (K & A & PE & (t & T & C) & R).
  pose proof (filter_perm (fun o => inb o out_kinds) _ _ P) as PO.
  change (Permutation (outs o1) (outs o2)) in PO.
  split; [intros o Ho; apply K; eapply Permutation_in; [symmetry; exact P|exact Ho]|].
  split; [exact A|]. rewrite <- !(inb_perm _ _ _ P). split; [exact PE|]. split; [|exact R].
  exists t. split; [exact T|].
  destruct C as [(O & C)|[(O & C)|(O & C)]]; rewrite O in PO; apply Permutation_length_1_inv in PO; rewrite PO; tauto.
Qed.

(** an Ok result does not depend on the positions of the non-output options *)
Lemma w_spec_perm o1 o2 archs w : Permutation o1 o2 -> outs o1 = outs o2 -> w_spec o1 archs w -> w_spec o2 archs w.
Proof.
  intros P PO (K & F & C).
  unfold w_spec. rewrite <- PO, <- !(inb_perm _ _ _ P).
  split; [intros o Ho; apply K; eapply Permutation_in; [symmetry; exact P|exact Ho]|].
  split; [exact F|exact C].
Qed.
