(** Properties C10, C11 (hyperion/io/rw_specifiers.py, data_rw_factory.py).

    [w_spec opts archs w] / [r_spec fs opts path r] (RWSpecProofs.v) are the declarative
    meaning of a specifier with comma separated options [opts] and paths [archs]:
    [outs opts] are the options among h5, ark, scp, in order.  [join c l] is c.join(l). *)
From Verif Require Import Base BaseFacts Str StrFacts RWSpec RWSpecProofs.
Open Scope string_scope.

(** C10: exactly the strings described by [w_string_spec] are accepted, with the described
    result, for every string. *)
Theorem C10_wspecifier_parse : forall s w,
  w_create s = Ok w <->
  (* plain path: an hdf5 archive *)
  (str_in ":" (strip s) = false /\ strip s <> "" /\
     w = mk_w W_ARCHIVE (Some (strip s)) None (Some H5) true false false)
  \/ exists O A opts archs,
       strip s = O ++ String ":" A /\ str_in ":" O = false /\ str_in ":" A = false /\
       opts <> [] /\ archs <> [] /\
       strip O = join "," opts /\ Forall (fun x => str_in "," x = false) opts /\
       strip A = join "," archs /\ Forall (fun x => str_in "," x = false) archs /\
       w_spec opts archs w.
Proof. exact w_create_iff. Qed.
Print Assumptions C10_wspecifier_parse.

(** The order of the two output kinds is immaterial, provided the paths follow it. *)
Theorem C10_output_order : forall k t a b mods w,
  akind k = Some t -> (forall o, In o mods -> In o ["b"; "t"; "f"; "nf"; "p"]) ->
  w_create2 (k :: "scp" :: mods) [a; b] = Ok w <-> w_create2 ("scp" :: k :: mods) [b; a] = Ok w.
Proof.
  intros k t a b mods w AK M. rewrite !w_create2_iff.
  assert (HK : In k ["h5"; "ark"]).
  { unfold akind in AK. destruct (eqb_spec k "h5") as [-> |]; [simpl; auto|].
    destruct (eqb_spec k "ark") as [-> |]; [simpl; auto|discriminate]. }
  assert (OM : outs mods = []).
  { unfold outs. clear - M. induction mods as [|o mods IH]; [reflexivity|].
    assert (E : filter (fun o => inb o out_kinds) mods = []) by (apply IH; intros x Hx; apply M; right; exact Hx).
    cbn [filter]. rewrite E.
    destruct (M o (or_introl eq_refl)) as [<-|[<-|[<-|[<-|[<-|[]]]]]]; reflexivity. }
  assert (O1 : outs (k :: "scp" :: mods) = [k; "scp"]).
  { unfold outs in *. cbn [filter]. rewrite OM. destruct HK as [<-|[<-|[]]]; reflexivity. }
  assert (O2 : outs ("scp" :: k :: mods) = ["scp"; k]).
  { unfold outs in *. cbn [filter]. rewrite OM. destruct HK as [<-|[<-|[]]]; reflexivity. }
  assert (I : forall x, inb x (k :: "scp" :: mods) = inb x ("scp" :: k :: mods)).
  { intros x. apply inb_perm. apply perm_swap. }
  assert (KN : (forall o, In o (k :: "scp" :: mods) -> In o w_known) <-> (forall o, In o ("scp" :: k :: mods) -> In o w_known)).
  { split; intros H o Ho; apply H; simpl in Ho |- *; tauto. }
  unfold w_spec. rewrite O1, O2, !I, KN. cbn [nth_error].
  split; intros [H1 [H2 H3]]; (split; [exact H1|]; split; [exact H2|]).
  - destruct H3 as [(x & t' & a' & _ & Q & _)|[(a' & Q & _)|(x & t' & a' & b' & AK' & Q & R)]]; [discriminate|discriminate|].
    right; right. exists x, t', a', b'. split; [exact AK'|]. split; [|exact R].
    destruct Q as [(Q & Q1 & Q2)|(Q & _)]; [right|inversion Q; subst; discriminate].
    inversion Q; subst. inversion Q1; inversion Q2; subst. auto.
  - destruct H3 as [(x & t' & a' & _ & Q & _)|[(a' & Q & _)|(x & t' & a' & b' & AK' & Q & R)]]; [discriminate|discriminate|].
    right; right. exists x, t', a', b'. split; [exact AK'|]. split; [|exact R].
    destruct Q as [(Q & _)|(Q & Q1 & Q2)]; [inversion Q; subst; discriminate|left].
    inversion Q; subst. inversion Q1; inversion Q2; subst. auto.
Qed.
Print Assumptions C10_output_order.

Example C10_witness :
  w_create " ark,t,scp,f:file.ark,file.scp " = Ok (mk_w W_BOTH (Some "file.ark") (Some "file.scp") (Some ARK) false true false)
  /\ w_create "scp,ark:b.scp,a.ark" = w_create "ark,scp:a.ark,b.scp"
  /\ w_create "h5,ark:a,b" = Err AssertionError /\ w_create "ark,x:a" = Err ValueError.
Proof. repeat split. Qed.

(** "any other string is rejected" is FALSE: superfluous paths are silently ignored, and an
    empty path is accepted. *)
Theorem C10_extra_paths_refuted :
  exists w, w_create "h5:a.h5,b.scp" = Ok w /\ w_script w = None /\ w_archive w = Some "a.h5".
Proof. eexists. repeat split. Qed.
Theorem C10_empty_path_refuted : exists w, w_create "ark:" = Ok w /\ w_archive w = Some "".
Proof. eexists. repeat split. Qed.
(** the documented p (permissive) modifier of scp specifiers is dropped *)
Theorem C10_scp_permissive_refuted : exists w, w_create "scp,p:a.scp" = Ok w /\ w_permissive w = false.
Proof. eexists. repeat split. Qed.
(** and an accepted scp-only specifier yields no writer at all *)
Theorem C10_scp_only_writer_is_none : forall s w,
  w_create s = Ok w -> w_type w = W_SCRIPT -> writer_create w = Ok None.
Proof. intros s w _ E. unfold writer_create. rewrite E. reflexivity. Qed.

(** The writer obtained from an accepted specifier. *)
Theorem C10_writer_dispatch : forall s w,
  w_create s = Ok w -> w_type w <> W_SCRIPT ->
  exists a, w_archive w = Some a /\
  ((w_atype w = Some H5 /\ writer_create w = Ok (Some (H5W a (w_script w) (w_flush w)))) \/
   (w_atype w = Some ARK /\ writer_create w = Ok (Some (ArkW a (w_script w) (w_binary w) (w_flush w))))).
Proof.
  intros s w E N. apply w_create_iff in E. unfold writer_create.
  destruct E as [(_ & _ & ->)|(O & A & opts & archs & _ & _ & _ & _ & _ & _ & _ & _ & _ & (_ & _ & C))].
  - eexists. split; [reflexivity|]. left. split; reflexivity.
  - destruct C as [(k & t & a & AK & _ & _ & T & AR & _ & AT & _)|[(a & _ & _ & T & _)|(k & t & a & b & AK & _ & T & AR & _ & AT & _)]].
    + exists a. split; [exact AR|]. rewrite T, AR, AT. destruct t; [left|right]; split; reflexivity.
    + congruence.
    + exists a. split; [exact AR|]. rewrite T, AR, AT. destruct t; [left|right]; split; reflexivity.
Qed.
Print Assumptions C10_writer_dispatch.

(** C11 *)
Theorem C11_rspecifier_parse : forall fs s r,
  r_create fs s = Ok r <->
  (str_in ":" (strip s) = false /\ strip s <> "" /\
     r = mk_r R_ARCHIVE (strip s) (Some H5) false false false false false)
  \/ exists O A opts,
       strip s = O ++ String ":" A /\ str_in ":" O = false /\ str_in ":" A = false /\
       opts <> [] /\ strip O = join "," opts /\ Forall (fun x => str_in "," x = false) opts /\
       str_in "," (strip A) = false /\ r_spec fs opts (strip A) r.
Proof. exact r_create_iff. Qed.
Print Assumptions C11_rspecifier_parse.

(** modifiers may appear in any order *)
Theorem C11_option_order_immaterial : forall fs o1 o2 archs r,
  Permutation o1 o2 -> r_create2 fs o1 archs = Ok r <-> r_create2 fs o2 archs = Ok r.
Proof.
  intros fs o1 o2 archs r P. rewrite !r_create2_iff. split; intros [a [E R]]; exists a; split; try exact E.
  - eapply r_spec_perm; eassumption.
  - eapply r_spec_perm; [apply Permutation_sym; exact P|exact R].
Qed.
Print Assumptions C11_option_order_immaterial.

(** contradictory or missing types, unknown modifiers, several paths: an error *)
Theorem C11_rejects : forall fs opts archs,
  (exists o, In o opts /\ ~ In o r_known) \/ List.length (outs opts) <> 1%nat \/ List.length archs <> 1%nat ->
  forall r, r_create2 fs opts archs <> Ok r.
Proof.
  intros fs opts archs H r E. apply r_create2_iff in E as [a [-> (K & _ & _ & (t & _ & C) & _)]].
  destruct H as [(o & Ho & N)|[N|N]].
  - apply N. apply K. exact Ho.
  - destruct C as [(O & _)|[(O & _)|(O & _)]]; rewrite O in N; apply N; reflexivity.
  - apply N. reflexivity.
Qed.
Print Assumptions C11_rejects.

Definition demo_fs (p : string) : option string :=
  if eqb p "a.scp" then Some ("k f.ark:12" ++ nl_str) else if eqb p "b.scp" then Some "k f.h5" else None.

Example C11_witness :
  r_create demo_fs "o,ark,s,p,bg:x.ark" = Ok (mk_r R_ARCHIVE "x.ark" (Some ARK) true true false true true)
  /\ r_create demo_fs "scp,p:a.scp" = Ok (mk_r R_SCRIPT "a.scp" (Some ARK) false false false true false)
  /\ r_create demo_fs "scp:b.scp" = Ok (mk_r R_SCRIPT "b.scp" (Some H5) false false false false false)
  /\ r_create demo_fs "h5,ark:x" = Err AssertionError.
Proof. repeat split. Qed.

(** Documented forms that are rejected: the negated and the ignored modifiers, and the
    specifier given as the example in the documentation. *)
Theorem C11_documented_modifiers_refuted : forall fs,
  r_create fs "ark,b:x" = Err ValueError /\ r_create fs "ark,t:x" = Err ValueError /\
  r_create fs "ark,no:x" = Err ValueError /\ r_create fs "ark,np:x" = Err ValueError /\
  r_create fs "o, s, p, ark:gunzip -c foo.gz|" = Err ValueError.
Proof. intros fs. repeat split. Qed.
(** Two colons raise NameError, not the intended ValueError. *)
Theorem C11_two_colons : forall fs s a b c,
  strip s = a ++ String ":" (b ++ String ":" c) -> str_in ":" a = false -> str_in ":" b = false ->
  r_create fs s = Err NameError /\ w_create s = Err ValueError.
Proof.
  intros fs s a b c E Ha Hb. unfold r_create, w_create. rewrite E, !split_all_app by assumption.
  pose proof (split_all_nonnil ":" c). destruct (split_all ":" c); [congruence|]. split; reflexivity.
Qed.
Print Assumptions C11_two_colons.
