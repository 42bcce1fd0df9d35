(** C102: the options given on the command line reach the constructor. *)
From Coq Require Import ZArith List Bool Ascii String Lia.
From Verif Require Import Base BaseFacts Str StrFacts Options OptTables.
Import ListNotations.
Open Scope list_scope. Open Scope Z_scope.

(** ** Specification *)
(** The words after the last occurrence of an option *)
Fixpoint last_of (f : string) (argv : list (string * list string)) : option (list string) :=
  match argv with
  | [] => None
  | (g, w) :: argv => match last_of f argv with Some w' => Some w' | None => if (g =? f)%string then Some w else None end
  end.
(** The value the user asked for: that of the last occurrence, or the default *)
Definition setting (p : option string) (o : opt) (argv : list (string * list string)) : res val :=
  match last_of (flag_of p o) argv with Some w => convert (o_kind o) (o_choices o) w | None => Ok (o_default o) end.
Definition lookup (l : list (string * string)) (k : string) : option string := option_map snd (find (fun ab => (fst ab =? k)%string) l).
(** Parameter under which an option arrives, and the value it arrives with *)
Definition param_of (c : cls) (o : opt) : string := match lookup (c_neg c) (o_dest o) with Some b => b | None => o_dest o end.
Definition value_of (c : cls) (o : opt) (v : val) : val := match lookup (c_neg c) (o_dest o) with Some _ => VBool (falsy v) | None => v end.
(** The constructor of class c receives exactly the options of section p, with the values asked for *)
Definition receives (p : option string) (c : cls) (argv : list (string * list string)) (d : dict) : Prop :=
  (forall o, In o (c_opts c) -> exists v, setting p o argv = Ok v /\ dget d (param_of c o) = Some (value_of c o v)) /\
  (forall k v, In (k, v) d -> exists o, In o (c_opts c) /\ k = param_of c o).
Definition accepted (l : list (option string * cls)) (argv : list (string * list string)) : Prop :=
  forall f w, In (f, w) argv -> exists p c o v, In (p, c) l /\ In o (c_opts c) /\ f = flag_of p o /\ convert (o_kind o) (o_choices o) w = Ok v.
(** No option of another section is stored under a name this section looks up *)
Definition apart (others : list (option string * cls)) (p : option string) (c : cls) : Prop :=
  forall p' c' o k, In (p', c') others -> In o (c_opts c') -> In k (c_valid c) -> key_of p' o <> (pre p ++ k)%string.
Definition no_chr (x : ascii) (s : string) : Prop := str_forallb (fun y => negb (Ascii.eqb y x)) s = true.

(** Classes all of whose options work with any prefix *)
Definition prefix_classes : list cls :=
  [energy_vad; mean_var_norm; mfcc; sbg_v1; sbg_adapt; classif_reader; multi_test_reader; sequence_reader; sequence_reader_eval;
   sequence_post_reader; tracking_reader; trial_reader; vector_class_reader; seq_reader_factory; ra_reader_factory; seq_embed;
   seq_embed_lde; seq_q_embed; callbacks; tied_dvae; tied_sup_vae; torch_optimizer; lr_scheduler; sbg_v2].
(** and those that work without prefix *)
Definition plain_classes : list cls := prefix_classes ++ [writer_factory; cent_whiten; gaussianizer; pca].

(** ** Checking a table *)
Definition memb (k : string) (l : list string) : bool := existsb (String.eqb k) l.
Fixpoint nodupb (l : list string) : bool := match l with [] => true | k :: l => negb (memb k l) && nodupb l end.
Definition wired (c : cls) : bool :=
  forallb (fun o => memb (o_dest o) (c_valid c)) (c_opts c) && nodupb (map o_dest (c_opts c)) && nodupb (map o_flag (c_opts c)) &&
  forallb (fun o => memb (param_of c o) (c_params c)) (c_opts c) &&
  match c_neg c with
  | [] => true
  | [(a, b)] => memb a (map o_dest (c_opts c)) && negb (memb b (map o_dest (c_opts c)))
  | _ => false
  end.


(** ** Lemmas *)
Lemma memb_iff k l : memb k l = true <-> In k l.
Proof.
  unfold memb. rewrite existsb_exists. split.
  - intros (x & Hx & E). apply String.eqb_eq in E. now subst.
  - intros H. exists k. split; [assumption|apply String.eqb_refl].
Qed.
Lemma nodupb_ok l : nodupb l = true -> NoDup l.
Proof.
  induction l as [|k l IH]; cbn; [constructor|]. rewrite andb_true_iff, negb_true_iff. intros [A B]. constructor; [|auto].
  intro H. apply memb_iff in H. congruence.
Qed.
Lemma dget_dset d k v j : dget (dset d k v) j = if (k =? j)%string then Some v else dget d j.
Proof.
  induction d as [|[i w] d IH]; cbn.
  - reflexivity.
  - destruct (i =? k)%string eqn:E; cbn.
    + apply String.eqb_eq in E. subst i. now destruct (k =? j)%string.
    + rewrite IH. destruct (i =? j)%string eqn:E2; [|reflexivity]. apply String.eqb_eq in E2. subst i.
      rewrite String.eqb_sym, E. reflexivity.
Qed.
Lemma dget_ddel d k j : dget (ddel d k) j = if (k =? j)%string then None else dget d j.
Proof.
  induction d as [|[i w] d IH]; cbn.
  - now destruct (k =? j)%string.
  - destruct (i =? k)%string eqn:E; cbn; rewrite IH.
    + apply String.eqb_eq in E. subst i. now destruct (k =? j)%string.
    + destruct (i =? j)%string eqn:E2; [|reflexivity]. apply String.eqb_eq in E2. subst i. rewrite String.eqb_sym, E. reflexivity.
Qed.
Lemma dget_in d k v : In (k, v) d -> dget d k <> None.
Proof.
  induction d as [|[i w] d IH]; cbn; [tauto|]. intros [H | H].
  - inversion H; subst. rewrite String.eqb_refl. discriminate.
  - destruct (i =? k)%string; [discriminate|auto].
Qed.
Lemma defaults_keep ps : forall d k v, dget d k = Some v -> dget (defaults d ps) k = Some v.
Proof.
  induction ps as [|a ps IH]; intros d k v H; cbn [defaults]; [assumption|]. apply IH.
  destruct (dget d (a_dest a)) eqn:E; [assumption|]. rewrite dget_dset. destruct (a_dest a =? k)%string eqn:E2; [|assumption].
  apply String.eqb_eq in E2. subst k. congruence.
Qed.
Lemma defaults_none ps : forall d k, dget d k = None -> (forall a, In a ps -> a_dest a <> k) -> dget (defaults d ps) k = None.
Proof.
  induction ps as [|a ps IH]; intros d k H N; cbn [defaults]; [assumption|]. apply IH; [|intros; apply N; now right].
  destruct (dget d (a_dest a)) eqn:E; [assumption|]. rewrite dget_dset. destruct (a_dest a =? k)%string eqn:E2; [|assumption].
  apply String.eqb_eq in E2. exfalso. apply (N a); [now left|assumption].
Qed.
Lemma defaults_get ps : forall d a, In a ps -> dget d (a_dest a) = None -> (forall b, In b ps -> a_dest b = a_dest a -> b = a) ->
  dget (defaults d ps) (a_dest a) = Some (o_default (a_opt a)).
Proof.
  induction ps as [|b ps IH]; intros d a H E N; [easy|]. cbn [defaults]. destruct H as [-> | H].
  - rewrite E. apply defaults_keep. now rewrite dget_dset, String.eqb_refl.
  - destruct (string_dec (a_dest b) (a_dest a)) as [Q|Q].
    + assert (b = a) by (apply N; [now left|assumption]). subst b. rewrite E. apply defaults_keep. now rewrite dget_dset, String.eqb_refl.
    + apply IH; [assumption| |intros; apply N; [now right|assumption]].
      destruct (dget d (a_dest b)); [assumption|]. rewrite dget_dset. apply String.eqb_neq in Q. now rewrite Q.
Qed.
Lemma find_flag ps a : NoDup (map a_flag ps) -> In a ps -> find (fun b => (a_flag b =? a_flag a)%string) ps = Some a.
Proof.
  induction ps as [|b ps IH]; cbn; [tauto|]. intros N [-> | H].
  - now rewrite String.eqb_refl.
  - inversion N as [|? ? N1 N2]; subst. destruct (a_flag b =? a_flag a)%string eqn:E; [|auto].
    apply String.eqb_eq in E. exfalso. apply N1. rewrite E. now apply in_map.
Qed.
Lemma consume_none ps : forall argv d d' k, consume ps d argv = Ok d' -> (forall a, In a ps -> a_dest a <> k) -> dget d' k = dget d k.
Proof.
  induction argv as [|[f w] argv IH]; intros d d' k H N; cbn in H.
  - congruence.
  - destruct (find _ ps) as [a|] eqn:E; [|discriminate]. apply find_some in E. destruct E as [Ea _].
    destruct (convert _ _ w) as [v|]; [|discriminate]. cbn in H. rewrite (IH _ _ k H N), dget_dset.
    destruct (a_dest a =? k)%string eqn:E; [|reflexivity]. apply String.eqb_eq in E. now apply N in Ea.
Qed.
Lemma consume_get ps a : NoDup (map a_flag ps) -> In a ps -> (forall b, In b ps -> a_dest b = a_dest a -> b = a) ->
  forall argv d d', consume ps d argv = Ok d' ->
  match last_of (a_flag a) argv with
  | Some w => exists v, convert (o_kind (a_opt a)) (o_choices (a_opt a)) w = Ok v /\ dget d' (a_dest a) = Some v
  | None => dget d' (a_dest a) = dget d (a_dest a)
  end.
Proof.
  intros N Ha U. induction argv as [|[f w] argv IH]; intros d d' H; cbn in H |- *.
  - congruence.
  - destruct (find _ ps) as [b|] eqn:E; [|discriminate]. destruct (convert _ _ w) as [v|] eqn:C; [|discriminate]. cbn in H.
    specialize (IH _ _ H). destruct (last_of (a_flag a) argv) as [w'|]; [assumption|].
    destruct (f =? a_flag a)%string eqn:Ef.
    + apply String.eqb_eq in Ef. subst f. rewrite (find_flag ps a N Ha) in E. injection E as <-.
      exists v. split; [assumption|]. rewrite IH, dget_dset, String.eqb_refl. reflexivity.
    + rewrite IH, dget_dset. destruct (a_dest b =? a_dest a)%string eqn:Eb; [|reflexivity].
      apply String.eqb_eq in Eb. apply find_some in E. destruct E as [Eb1 Eb2]. rewrite (U b Eb1 Eb) in Eb2.
      rewrite String.eqb_sym in Eb2. congruence.
Qed.

Definition actions (l : list (option string * cls)) : list action := flat_map (fun pc => map (action_of (fst pc)) (c_opts (snd pc))) l.
Lemma nodup_snoc {A} (l : list A) (x : A) : NoDup l -> ~ In x l -> NoDup (l ++ [x]).
Proof.
  induction l as [|y l IH]; cbn; intros N H; [repeat constructor; auto|]. inversion N; subst. constructor.
  - rewrite in_app_iff. cbn. intros [A1|[A1|[]]]; [contradiction|]. subst. apply H. now left.
  - apply IH; [assumption|tauto].
Qed.
Lemma add_arguments_ok l : forall ps qs, add_arguments ps l = Ok qs -> qs = ps ++ l /\ (NoDup (map a_flag ps) -> NoDup (map a_flag qs)).
Proof.
  induction l as [|a l IH]; intros ps qs H; cbn in H.
  - injection H as <-. now rewrite app_nil_r.
  - unfold add_argument in H. destruct (existsb _ ps) eqn:E; [discriminate|]. cbn in H. destruct (IH _ _ H) as [-> Q].
    rewrite <- app_assoc in *. split; [reflexivity|]. intro N. apply Q. rewrite map_app. cbn.
    apply nodup_snoc; [assumption|].
    intro I. apply in_map_iff in I. destruct I as (b & Eb & Ib).
    assert (existsb (fun b => (a_flag b =? a_flag a)%string) ps = true) by (apply existsb_exists; exists b; split; [assumption|now apply String.eqb_eq]).
    congruence.
Qed.

Lemma add_arguments_new l : forall ps, NoDup (map a_flag (ps ++ l)) -> add_arguments ps l = Ok (ps ++ l).
Proof.
  induction l as [|a l IH]; intros ps N; cbn.
  - now rewrite app_nil_r.
  - unfold add_argument. replace (existsb _ ps) with false.
    + cbn. rewrite IH; rewrite <- app_assoc; [reflexivity|assumption].
    + symmetry. apply not_true_is_false. rewrite existsb_exists. intros (b & Hb & E). apply String.eqb_eq in E.
      rewrite map_app in N. cbn in N. apply NoDup_remove_2 in N. apply N. rewrite in_app_iff. left. rewrite <- E. now apply in_map.
Qed.
Lemma add_all_ok l : forall ps qs, add_all ps l = Ok qs -> qs = ps ++ actions l /\ (NoDup (map a_flag ps) -> NoDup (map a_flag qs)).
Proof.
  induction l as [|[p c] l IH]; intros ps qs H; cbn in H.
  - injection H as <-. unfold actions. cbn. now rewrite app_nil_r.
  - unfold add_argparse_args in H. destruct (add_arguments ps _) as [rs|] eqn:E; [|discriminate]. cbn in H.
    apply add_arguments_ok in E. destruct E as [-> E]. destruct (IH _ _ H) as [-> Q]. unfold actions. cbn.
    rewrite <- app_assoc. split; [reflexivity|]. intro N. rewrite app_assoc. apply Q, E, N.
Qed.
Lemma add_all_new l : forall ps, NoDup (map a_flag (ps ++ actions l)) -> add_all ps l = Ok (ps ++ actions l).
Proof.
  induction l as [|[p c] l IH]; intros ps N; cbn.
  - unfold actions. cbn. now rewrite app_nil_r.
  - unfold actions in N. cbn in N. unfold add_argparse_args. rewrite add_arguments_new.
    + cbn. rewrite IH; rewrite <- app_assoc; [reflexivity|exact N].
    + rewrite app_assoc in N. rewrite map_app in N. clear - N. revert N. generalize (map a_flag (ps ++ map (action_of p) (c_opts c))).
      intros L N. induction L; [constructor|]. cbn in N. inversion N; subst. constructor; [|auto]. rewrite in_app_iff in *. tauto.
Qed.
Lemma in_actions l a : In a (actions l) <-> exists p c o, In (p, c) l /\ In o (c_opts c) /\ a = action_of p o.
Proof.
  unfold actions. rewrite in_flat_map. split.
  - intros ([p c] & H & I). cbn in I. apply in_map_iff in I. destruct I as (o & <- & I). eauto 10.
  - intros (p & c & o & H & I & ->). exists (p, c). split; [assumption|]. cbn. now apply in_map.
Qed.
Lemma append_inj_r : forall p a b, (p ++ a)%string = (p ++ b)%string -> a = b.
Proof. induction p; cbn; intros; [assumption|]. injection H. auto. Qed.

Lemma picked_get p args k : forall valid d,
  dget (fold_left (fun d k => match dget args (pre p ++ k)%string with Some v => dset d k v | None => d end) valid d) k
  = if memb k valid then match dget args (pre p ++ k)%string with Some v => Some v | None => dget d k end else dget d k.
Proof.
  induction valid as [|j valid IH]; intros d; cbn [fold_left memb existsb]; [reflexivity|].
  rewrite IH. unfold memb. destruct (k =? j)%string eqn:E; cbn [orb].
  - apply String.eqb_eq in E. subst j. destruct (dget args (pre p ++ k)%string); destruct (existsb _ valid); try reflexivity;
      now rewrite dget_dset, String.eqb_refl.
  - destruct (dget args (pre p ++ j)%string); [|reflexivity]. rewrite dget_dset, String.eqb_sym, E. reflexivity.
Qed.

(** Values of the section's names in the parsed arguments *)
Lemma section_values l1 l2 p c argv args :
  script (l1 ++ (p, c) :: l2) argv = Ok args -> apart (l1 ++ l2) p c -> NoDup (map o_dest (c_opts c)) ->
  p = None \/ (forall o, In o (c_opts c) -> o_fixed o = false) ->
  (forall o, In o (c_opts c) -> In (o_dest o) (c_valid c)) ->
  (forall o, In o (c_opts c) -> exists v, setting p o argv = Ok v /\ dget args (pre p ++ o_dest o)%string = Some v) /\
  (forall k, In k (c_valid c) -> ~ In k (map o_dest (c_opts c)) -> dget args (pre p ++ k)%string = None).
Proof.
  unfold script. intros H A N Fx V. destruct (add_all [] _) as [ps|] eqn:E; [|discriminate]. cbn in H.
  apply add_all_ok in E. destruct E as [-> NF]. cbn [app] in *. specialize (NF (NoDup_nil _)).
  unfold parse_args in H.
  assert (K : forall o, In o (c_opts c) -> key_of p o = (pre p ++ o_dest o)%string).
  { intros o Ho. unfold key_of. destruct Fx as [-> | Fx]; [now destruct (o_fixed o)|now rewrite Fx]. }
  assert (W : forall b k, In b (actions (l1 ++ (p, c) :: l2)) -> In k (c_valid c) -> a_dest b = (pre p ++ k)%string ->
              exists o, In o (c_opts c) /\ o_dest o = k /\ b = action_of p o).
  { intros b k Hb Hk Eb. apply in_actions in Hb. destruct Hb as (p' & c' & o' & I & Io & ->).
    rewrite in_app_iff in I. cbn in I. destruct I as [I | [I | I]].
    - exfalso. eapply A; [rewrite in_app_iff; left; eassumption|eassumption|exact Hk|exact Eb].
    - inversion I; subst. exists o'. repeat split; auto. cbn in Eb. rewrite K in Eb by assumption. now apply append_inj_r in Eb.
    - exfalso. eapply A; [rewrite in_app_iff; right; eassumption|eassumption|exact Hk|exact Eb]. }
  split.
  - intros o Ho. set (a := action_of p o).
    assert (Ia : In a (actions (l1 ++ (p, c) :: l2))).
    { apply in_actions. exists p, c, o. rewrite in_app_iff. cbn. auto. }
    assert (Da : a_dest a = (pre p ++ o_dest o)%string) by (apply K; assumption).
    assert (U : forall b, In b (actions (l1 ++ (p, c) :: l2)) -> a_dest b = a_dest a -> b = a).
    { intros b Hb Eb. rewrite Da in Eb. destruct (W b (o_dest o) Hb (V o Ho) Eb) as (o' & Io' & Ed & ->).
      assert (o' = o). { clear - N Io' Ho Ed. induction (c_opts c) as [|x l IH]; [easy|]. cbn in N. inversion N; subst.
        destruct Io' as [-> | Io'], Ho as [-> | Ho]; auto; exfalso; match goal with H : ~ In _ _ |- _ => apply H end; [rewrite Ed|rewrite <- Ed]; now apply in_map. }
      now subst o'. }
    pose proof (consume_get _ a NF Ia U _ _ _ H) as G. rewrite (defaults_get _ [] a Ia eq_refl U) in G. rewrite Da in G.
    unfold setting. change (a_flag a) with (flag_of p o) in G. destruct (last_of (flag_of p o) argv) as [w|]; [exact G|]. eauto.
  - intros k Hk Nk. rewrite (consume_none _ _ _ _ (pre p ++ k)%string H).
    + apply defaults_none; [reflexivity|]. intros a Ha Ea. destruct (W a k Ha Hk Ea) as (o & Io & Ed & _). apply Nk. rewrite <- Ed. now apply in_map.
    + intros a Ha Ea. destruct (W a k Ha Hk Ea) as (o & Io & Ed & _). apply Nk. rewrite <- Ed. now apply in_map.
Qed.

Lemma reaches l1 l2 p c argv args : wired c = true -> p = None \/ (forall o, In o (c_opts c) -> o_fixed o = false) ->
  script (l1 ++ (p, c) :: l2) argv = Ok args -> apart (l1 ++ l2) p c -> exists d, build p c args = Ok d /\ receives p c argv d.
Proof.
  intros W Fx H A. unfold wired in W. rewrite !andb_true_iff in W. destruct W as ((((W1 & W2) & W3) & W4) & W5).
  rewrite forallb_forall in W1, W4. apply nodupb_ok in W2.
  assert (V : forall o, In o (c_opts c) -> In (o_dest o) (c_valid c)) by (intros; apply memb_iff; auto).
  destruct (section_values _ _ _ _ _ _ H A W2 Fx V) as [S1 S2].
  set (d0 := picked p (c_valid c) args).
  assert (D1 : forall o v, In o (c_opts c) -> setting p o argv = Ok v -> dget d0 (o_dest o) = Some v).
  { intros o v Ho E. unfold d0, picked. rewrite picked_get. replace (memb _ _) with true by (symmetry; apply memb_iff; auto).
    destruct (S1 o Ho) as (v' & E' & ->). congruence. }
  assert (D2 : forall k, dget d0 k <> None -> exists o, In o (c_opts c) /\ o_dest o = k).
  { intros k. unfold d0, picked. rewrite picked_get. destruct (memb k (c_valid c)) eqn:E; [|tauto]. apply memb_iff in E.
    destruct (in_dec string_dec k (map o_dest (c_opts c))) as [I|I].
    - intros _. apply in_map_iff in I. destruct I as (o & <- & I). eauto.
    - rewrite (S2 k E I). cbn. tauto. }
  assert (Fin : forall d, negates d0 (c_neg c) = Ok d -> receives p c argv d -> exists d, build p c args = Ok d /\ receives p c argv d).
  { intros d E R. exists d. split; [|assumption]. unfold build, filter_args. fold d0. rewrite E. cbn. unfold construct.
    replace (forallb _ d) with true; [reflexivity|]. symmetry. apply forallb_forall. intros [k v] Hk. cbn.
    destruct R as [_ R]. destruct (R k v Hk) as (o & Io & ->). apply W4 in Io. exact Io. }
  destruct (c_neg c) as [|[a b] [|]] eqn:Eneg; [| |discriminate].
  - apply (Fin d0 eq_refl). split.
    + intros o Ho. destruct (S1 o Ho) as (v & E & _). exists v. split; [assumption|]. unfold param_of, value_of. rewrite Eneg. cbn. auto.
    + intros k v Hk. destruct (D2 k (dget_in _ _ _ Hk)) as (o & Io & <-). exists o. split; [assumption|]. unfold param_of. now rewrite Eneg.
  - rewrite andb_true_iff, negb_true_iff in W5. destruct W5 as [Wa Wb]. apply memb_iff in Wa. apply in_map_iff in Wa.
    destruct Wa as (oa & <- & Ia). destruct (S1 oa Ia) as (va & Ea & _). pose proof (D1 _ _ Ia Ea) as Da.
    assert (Nb : forall o, In o (c_opts c) -> o_dest o <> b).
    { intros o Io E. assert (memb b (map o_dest (c_opts c)) = true) by (apply memb_iff; rewrite <- E; now apply in_map). congruence. }
    eapply Fin.
    { cbn. unfold negate. cbn [fst snd]. rewrite Da. cbn. reflexivity. }
    assert (L : forall o, lookup (c_neg c) (o_dest o) = if (o_dest oa =? o_dest o)%string then Some b else None).
    { intro o. rewrite Eneg. unfold lookup. cbn. now destruct (o_dest oa =? o_dest o)%string. }
    split.
    + intros o Ho. destruct (S1 o Ho) as (v & E & _). exists v. split; [assumption|]. unfold param_of, value_of. rewrite L.
      destruct (o_dest oa =? o_dest o)%string eqn:Eo.
      * apply String.eqb_eq in Eo. rewrite dget_ddel. replace (o_dest oa =? b)%string with false by (symmetry; apply String.eqb_neq; auto).
        rewrite dget_dset, String.eqb_refl. rewrite (D1 _ _ Ia Ea) in Da. pose proof (D1 _ _ Ho E) as Q. rewrite <- Eo in Q. rewrite (D1 _ _ Ia Ea) in Q. congruence.
      * rewrite dget_ddel, Eo, dget_dset. replace (b =? o_dest o)%string with false by (symmetry; apply String.eqb_neq; intro Q; eapply Nb; eauto).
        auto.
    + intros k v Hk. apply dget_in in Hk. rewrite dget_ddel in Hk. destruct (o_dest oa =? k)%string eqn:Ek; [tauto|]. rewrite dget_dset in Hk.
      destruct (b =? k)%string eqn:Eb.
      * apply String.eqb_eq in Eb. subst k. exists oa. split; [assumption|]. unfold param_of. now rewrite L, String.eqb_refl.
      * destruct (D2 k Hk) as (o & Io & <-). exists o. split; [assumption|]. unfold param_of. now rewrite L, Ek.
Qed.

(** ** C102 *)
(** Whatever the command line, the other options of the script and the prefix: the constructor receives exactly the options of its section, each under its
    parameter name and with the value of its last occurrence on the command line, or its default. *)
Theorem C102_reaches c l1 l2 p argv args : In c prefix_classes -> script (l1 ++ (p, c) :: l2) argv = Ok args -> apart (l1 ++ l2) p c ->
  exists d, build p c args = Ok d /\ receives p c argv d.
Proof.
  intros I. assert (Q : forallb (fun c => wired c && forallb (fun o => negb (o_fixed o)) (c_opts c)) prefix_classes = true) by (vm_compute; reflexivity).
  rewrite forallb_forall in Q. apply Q in I. rewrite andb_true_iff, forallb_forall in I. destruct I as [I1 I2].
  apply reaches; [assumption|]. right. intros o Ho. apply I2 in Ho. now apply negb_true_iff.
Qed.
Theorem C102_plain c l1 l2 argv args : In c plain_classes -> script (l1 ++ (None, c) :: l2) argv = Ok args -> apart (l1 ++ l2) None c ->
  exists d, build None c args = Ok d /\ receives None c argv d.
Proof.
  intros I. assert (Q : forallb wired plain_classes = true) by (vm_compute; reflexivity).
  rewrite forallb_forall in Q. apply Q in I. apply reaches; [assumption|]. now left.
Qed.

(** A command line is refused exactly when one of its options is unknown or has a value its type refuses; nothing else happens to it. *)
Theorem C102_accept l argv ps : add_all [] l = Ok ps ->
  (accepted l argv -> exists args, script l argv = Ok args) /\ (~ accepted l argv -> script l argv = Err SystemExit).
Proof.
  intros H. unfold script. rewrite H. cbn. unfold parse_args. generalize (defaults [] ps).
  apply add_all_ok in H. destruct H as [-> NF]. cbn [app] in *. specialize (NF (NoDup_nil _)).
  induction argv as [|[f w] argv IH]; intros d; cbn.
  - split; [eauto|]. intros N. exfalso. apply N. intros ? ? [].
  - destruct (find _ (actions l)) as [a|] eqn:E.
    + pose proof (find_some _ _ E) as [Ia Ef]. apply String.eqb_eq in Ef. pose proof Ia as Ia'. apply in_actions in Ia. destruct Ia as (p & c & o & I & Io & ->).
      cbn [a_opt action_of]. destruct (convert (o_kind o) (o_choices o) w) as [v|e] eqn:C; cbn.
      * specialize (IH (dset d (key_of p o) v)). destruct IH as [A B]. split.
        -- intros Q. apply A. intros f' w' I'. apply Q. now right.
        -- intros Q. apply B. intros Q'. apply Q. intros f' w' [I' | I']; [|now apply Q']. inversion I'; subst. exists p, c, o, v. auto.
      * split.
        -- intros Q. destruct (Q f w (or_introl eq_refl)) as (p' & c' & o' & v & I' & Io' & E' & C').
           assert (Ia2 : In (action_of p' o') (actions l)) by (apply in_actions; eauto 10).
           pose proof (find_flag _ _ NF Ia2) as F2. cbn [a_flag action_of] in F2. rewrite <- E' in F2. rewrite E in F2. injection F2 as _ _ F2. subst o'. congruence.
        -- intros _. destruct (o_kind o), w as [|? [|]]; cbn in C; unfold choice in C;
           repeat match type of C with context [match ?x with _ => _ end] => destruct x end; try discriminate C; injection C as <-; reflexivity.
    + split; [|reflexivity]. intros Q. destruct (Q f w (or_introl eq_refl)) as (p' & c' & o' & v & I' & Io' & E' & C').
      assert (Ia2 : In (action_of p' o') (actions l)) by (apply in_actions; eauto 10).
      pose proof (find_flag _ _ NF Ia2) as F2. cbn [a_flag action_of] in F2. rewrite <- E' in F2. congruence.
Qed.

Lemma split_chr x : forall p q a b, no_chr x p -> no_chr x q -> (p ++ String x a)%string = (q ++ String x b)%string -> p = q /\ a = b.
Proof.
  unfold no_chr. induction p as [|c p IH]; intros [|e q] a b P Q H; cbn in *.
  - injection H. auto.
  - injection H as -> H. rewrite Ascii.eqb_refl in Q. discriminate.
  - injection H as -> H. rewrite Ascii.eqb_refl in P. discriminate.
  - apply andb_prop in P, Q. injection H as -> H. destruct (IH q a b (proj2 P) (proj2 Q) H) as [-> ->]. auto.
Qed.

(** Any number of classes share one script when their prefixes differ and have neither dash nor underscore: no option name is registered twice, and a command line
    all of whose options are known and well typed gives every constructor its own options. *)
Theorem C102_together l argv : NoDup (map fst l) ->
  (forall p c, In (p, c) l -> In c prefix_classes /\ exists q, p = Some q /\ no_chr "-" q /\ no_chr "_" q) ->
  (~ accepted l argv /\ script l argv = Err SystemExit) \/
  (exists args, script l argv = Ok args /\ forall p c, In (p, c) l -> exists d, build p c args = Ok d /\ receives p c argv d).
Proof.
  intros N Hl.
  assert (Q : forallb (fun c => wired c && forallb (fun o => negb (o_fixed o)) (c_opts c)) prefix_classes = true) by (vm_compute; reflexivity).
  rewrite forallb_forall in Q.
  assert (Fx : forall p c o, In (p, c) l -> In o (c_opts c) -> o_fixed o = false).
  { intros p c o I Io. destruct (Hl p c I) as [Ic _]. apply Q in Ic. rewrite andb_true_iff, forallb_forall in Ic. apply negb_true_iff. now apply Ic. }
  assert (ND : NoDup (map a_flag (actions l))).
  { clear argv. revert N Hl Fx. induction l as [|[p c] l' IH]; intros N Hl Fx; [constructor|]. unfold actions. cbn [flat_map fst snd]. rewrite map_app.
    cbn in N. inversion N as [|? ? N1 N2]; subst.
    assert (ND2 : NoDup (map a_flag (actions l'))).
    { apply IH; [assumption|intros; apply Hl; now right|intros; eapply Fx; [right|]; eassumption]. }
    destruct (Hl p c (or_introl eq_refl)) as [Ic (q & -> & Q1 & Q2)].
    pose proof (Q c Ic) as Wc. unfold wired in Wc. rewrite !andb_true_iff in Wc. destruct Wc as ((((_ & W3) & _) & _) & _). apply nodupb_ok in W3.
    assert (Fc : forall o, In o (c_opts c) -> o_fixed o = false) by (intros; eapply Fx; [left; reflexivity|assumption]).
    assert (X : forall f, In f (map a_flag (actions l')) -> ~ In f (map a_flag (map (action_of (Some q)) (c_opts c)))).
    { intros f If If'. apply in_map_iff in If. destruct If as (a & <- & Ia). apply in_actions in Ia. destruct Ia as (p' & c' & o' & I' & Io' & ->).
      rewrite map_map in If'. apply in_map_iff in If'. destruct If' as (o & E & Io). cbn in E. unfold flag_of in E.
      rewrite (Fc o Io), (Fx p' c' o' (or_intror I') Io') in E.
      destruct (Hl p' c' (or_intror I')) as [_ (q' & -> & Q1' & Q2')]. cbn in E. injection E as E.
      rewrite !append_assoc in E. cbn in E. apply split_chr in E; [|assumption|assumption]. destruct E as [-> _].
      apply N1. apply in_map_iff. exists (Some q', c'). auto. }
    clear - ND2 W3 Fc X. revert Fc W3 X. induction (c_opts c) as [|o os IHo]; intros Fc W3 X; cbn; [assumption|].
    cbn in W3. inversion W3 as [|? ? V1 V2]; subst. constructor.
    - rewrite in_app_iff. intros [I|I].
      + rewrite map_map in I. apply in_map_iff in I. destruct I as (o' & E & Io'). cbn in E. unfold flag_of in E.
        rewrite (Fc o (or_introl eq_refl)), (Fc o' (or_intror Io')) in E. apply append_inj_r in E. apply V1. rewrite <- E. now apply in_map.
      + apply (X _ I). now left.
    - apply IHo; [intros; apply Fc; now right|assumption|]. intros f If If'. apply (X f If). now right. }
  pose proof (add_all_new l [] ND) as E. destruct (C102_accept l argv _ E) as [A B].
  assert (Ap : forall l1 l2 p c, l = l1 ++ (p, c) :: l2 -> apart (l1 ++ l2) p c).
  { intros l1 l2 p c -> p' c' o k I' Io Ik Ek.
    destruct (Hl p c) as [_ (q & -> & Q1 & Q2)]; [rewrite in_app_iff; cbn; auto|].
    assert (Il : In (p', c') (l1 ++ (Some q, c) :: l2)) by (rewrite in_app_iff in *; cbn; tauto).
    destruct (Hl p' c' Il) as [_ (q' & -> & Q1' & Q2')].
    unfold key_of in Ek. rewrite (Fx _ _ _ Il Io) in Ek. cbn in Ek. rewrite !append_assoc in Ek. cbn in Ek.
    apply split_chr in Ek; [|assumption|assumption]. destruct Ek as [-> _].
    rewrite map_app in N. cbn in N. apply NoDup_remove_2 in N. apply N. rewrite <- map_app. apply in_map_iff. exists (Some q, c'). auto. }
  destruct (script l argv) as [args|e] eqn:Es.
  - right. exists args. split; [reflexivity|]. intros p c I. destruct (in_split _ _ I) as (l1 & l2 & El).
    apply (C102_reaches c l1 l2); [apply (Hl p c I)|rewrite <- El; exact Es|now apply Ap].
  - left. assert (NA : ~ accepted l argv) by (intros Acc; destruct (A Acc) as [x Ex]; discriminate).
    split; [assumption|]. exact (B NA).
Qed.

(** ** Options that do not arrive *)
(** These options are accepted on the command line and never reach the constructor, whatever the prefix and the rest of the script: the names in valid_args
    leave them out, or valid_args is a text whose letters are looked up one by one. *)
Definition lost_options : list (cls * string) := [(keras_optimizer, "amsgrad"); (audio_reader, "wav_scale"); (frame_selector, "tol_num_frames"); (vector_reader, "vlist_sep"); (copy_feats, "compress"); (copy_feats, "compression_method")]%string.
Theorem C102_lost_refuted c k : In (c, k) lost_options ->
  (exists o, In o (c_opts c) /\ o_dest o = k) /\ In k (c_params c) /\ forall p args, exists d, filter_args p c args = Ok d /\ dget d k = None.
Proof.
  intros I. assert (Q : forallb (fun ck => memb (snd ck) (map o_dest (c_opts (fst ck))) && memb (snd ck) (c_params (fst ck)) && negb (memb (snd ck) (c_valid (fst ck)))
    && match c_neg (fst ck) with [] => true | _ => false end) lost_options = true) by (vm_compute; reflexivity).
  rewrite forallb_forall in Q. apply Q in I. cbn [fst snd] in I. rewrite !andb_true_iff, !memb_iff, negb_true_iff in I. destruct I as (((I1 & I2) & I3) & I4).
  split; [|split; [assumption|]].
  - apply in_map_iff in I1. destruct I1 as (o & E & Io). eauto.
  - intros p args. unfold filter_args. destruct (c_neg c); [|discriminate]. cbn. eexists. split; [reflexivity|].
    unfold picked. rewrite picked_get, I3. reflexivity.
Qed.
(** With a prefix, the options registered without it are not found again: a prefixed writer ignores --compress. *)
Theorem C102_prefix_refuted q argv args : script [(Some q, writer_factory)] argv = Ok args ->
  exists d, filter_args (Some q) writer_factory args = Ok d /\ dget d "compress" = None /\ dget d "compression_method" = None.
Proof.
  unfold script. intros H. destruct (add_all [] _) as [ps|] eqn:E; [|discriminate]. cbn in H. apply add_all_ok in E. destruct E as [-> _]. cbn [app] in H.
  unfold parse_args in H.
  assert (G : forall k, (forall a, In a (actions [(Some q, writer_factory)]) -> a_dest a <> k) -> dget args k = None).
  { intros k Nk. rewrite (consume_none _ _ _ _ k H Nk). now apply defaults_none. }
  assert (L : forall k : string, (String.length (q ++ "_") + String.length k)%nat = String.length (pre (Some q) ++ k)).
  { intros k. cbn [pre]. generalize (q ++ "_")%string. intros s. induction s as [|x s IH]; [reflexivity|]. cbn. now rewrite <- IH. }
  assert (L2 : (1 <= String.length (q ++ "_"))%nat) by (destruct q; cbn; lia).
  unfold filter_args. cbn [c_neg writer_factory negates]. eexists. split; [reflexivity|]. unfold picked. rewrite !picked_get. cbn [memb existsb c_valid writer_factory String.eqb Ascii.eqb Bool.eqb orb].
  split.
  - rewrite G; [reflexivity|]. intros a Ha. apply in_actions in Ha. destruct Ha as (p & c & o & [I|[]] & Io & ->). inversion I; subst. cbn in Io.
    destruct Io as [<- | [<- | [<- | []]]]; cbn [a_dest action_of key_of o_fixed o_dest]; intro E.
    + apply append_inj_r in E. discriminate.
    + apply (f_equal String.length) in E. rewrite <- L in E. cbn in E, L2. lia.
    + cbn [pre] in E. clear - E. do 18 (destruct q as [|? q]; cbn in E; [discriminate E|injection E as _ E]). destruct q; discriminate E.
  - rewrite G; [reflexivity|]. intros a Ha. apply in_actions in Ha. destruct Ha as (p & c & o & [I|[]] & Io & ->). inversion I; subst. cbn in Io.
    destruct Io as [<- | [<- | [<- | []]]]; cbn [a_dest action_of key_of o_fixed o_dest]; intro E.
    + apply append_inj_r in E. discriminate.
    + apply (f_equal String.length) in E. rewrite <- L in E. cbn in E, L2. lia.
    + apply (f_equal String.length) in E. rewrite <- L in E. cbn in E, L2. lia.
Qed.
(** Two classes that register --name without prefix cannot share a script. *)
Theorem C102_name_refuted c c' p p' l : In c [cent_whiten; gaussianizer; pca] -> In c' [cent_whiten; gaussianizer; pca] ->
  exists e, add_all [] ((p, c) :: (p', c') :: l) = Err e.
Proof.
  intros I I'. destruct (add_all [] _) as [ps|e] eqn:E; [exfalso|eauto]. apply add_all_ok in E. destruct E as [-> N]. cbn [app] in N. specialize (N (NoDup_nil _)).
  assert (X : forall p c, In c [cent_whiten; gaussianizer; pca] -> In "--name"%string (map a_flag (map (action_of p) (c_opts c)))).
  { intros p0 c0 [<- | [<- | [<- | []]]]; cbn; tauto. }
  unfold actions in N. cbn [flat_map fst snd] in N. rewrite !map_app in N.
  destruct (in_split _ _ (X p c I)) as (u & v & Eu). rewrite Eu, <- app_assoc in N. cbn in N. apply NoDup_remove_2 in N. apply N.
  rewrite !in_app_iff. right. right. left. now apply X.
Qed.
(** Options declared with type=bool cannot be turned off with a word: "False" gives True. *)
Theorem C102_bool_refuted c p o w argv : In c [cent_whiten; pca] -> In o (c_opts c) -> o_kind o = Bool -> w <> ""%string -> setting p o (argv ++ [(flag_of p o, [w])]) = Ok (VBool true).
Proof.
  intros _ _ K W. unfold setting.
  replace (last_of (flag_of p o) (argv ++ _)) with (Some [w]).
  - rewrite K. cbn. apply String.eqb_neq in W. now rewrite W.
  - symmetry. induction argv as [|[f x] argv IH]; cbn; [now rewrite String.eqb_refl|now rewrite IH].
Qed.

(** ** Witnesses *)
Example C102_ex : let argv := [("--cmvn-left-context", ["20"]); ("--cmvn-no-norm-mean", []); ("--vad-dither", ["0.5"]); ("--cmvn-left-context", ["150"])]%string in
  match script [(Some "vad", energy_vad); (Some "cmvn", mean_var_norm)]%string argv with
  | Ok args => build (Some "cmvn"%string) mean_var_norm args
  | Err e => Err e end
  = Ok [("norm_var", VBool false); ("left_context", VInt 150); ("right_context", VInt 300); ("norm_mean", VBool false)]%string.
Proof. vm_compute. reflexivity. Qed.
Example C102_ex_lost : match script [(None, keras_optimizer)] [("--amsgrad", [])]%string with Ok args => dget args "amsgrad" | Err _ => None end = Some (VBool true)
  /\ exists d, filter_args None keras_optimizer [("amsgrad"%string, VBool true)] = Ok d /\ dget d "amsgrad" = None.
Proof. vm_compute. split; [reflexivity|]. eexists. split; reflexivity. Qed.

Print Assumptions C102_reaches.
Print Assumptions C102_plain.
Print Assumptions C102_accept.
Print Assumptions C102_together.
Print Assumptions C102_lost_refuted.
Print Assumptions C102_prefix_refuted.
Print Assumptions C102_name_refuted.
Print Assumptions C102_bool_refuted.
