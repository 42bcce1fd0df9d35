(** C115: chaining the scripts that train transforms. *)
From Coq Require Import Lia.
From Verif Require Import Base BaseFacts Str ModelIO ModelIOProps TrainChain.
Open Scope list_scope. Open Scope Z_scope.

Section Spec.
Context {A X : Type} (r32 : A -> A) (ncols : A -> Z) (apply1 : tcls -> list (option A) -> X -> res X).
Notation stage := (@stage A X). Notation leaf := (leaf A). Notation file := (@TrainChain.file A).
Notation in_turn := (in_turn apply1). Notation run_chain := (run_chain r32 ncols apply1). Notation run_script := (run_script r32 ncols apply1).

(** ** Specification *)
(** the transform a run stores: class and name as asked for, the fitted parameters in the precision of the file, the update flags at their defaults *)
Definition stored_leaf (g : stage) (ps : list (option A)) : leaf :=
  mk_leaf (script_cls (g_script g) (g_lnorm g)) (Some (g_name g)) (map (option_map r32) ps) true true
    (match g_script g with TrainPca | TrainGauss => g_dim g | TrainLda => match nth_error ps 1 with Some (Some v) => Some (ncols (r32 v)) | _ => None end | _ => None end).
(** [trained gs ls]: run after run, the training data of the run goes through the transforms stored before, in their stored precision; the fit is made on
    that; the statistics that train-nda, train-cw and train-cw-up compute for the log do not fail *)
Inductive trained : list stage -> list leaf -> Prop :=
| trained_nil : trained [] []
| trained_snoc gs ls g x ps : trained gs ls -> g_script g <> TrainLda -> in_turn ls (g_data g) = Ok x -> g_fit g x = Ok ps ->
    (g_script g = TrainNda \/ g_script g = TrainCw \/ g_script g = TrainCwUp -> exists y, apply1 (script_cls (g_script g) (g_lnorm g)) ps x = Ok y /\ g_check g y = Ok tt) ->
    trained (gs ++ [g]) (ls ++ [stored_leaf g ps]).
(** the default options, and a fit that sets every parameter *)
Definition default (g : stage) : Prop := g_tlist g = true /\ g_append g = true /\ g_dir g <> ""%string.
Definition fits_all (g : stage) : Prop := forall x ps, g_fit g x = Ok ps -> List.length ps = List.length (param_names (script_cls (g_script g) (g_lnorm g))) /\ Forall (fun v => v <> None) ps.
(** names as h5py and the configuration can keep them apart *)
Definition good_name (n : string) : Prop := n <> "config"%string /\ forall a b, n <> (a ++ "/" ++ b)%string.

(** ** Proofs *)
Lemma checks_spec (g : stage) (P : Prop) : g_script g <> TrainLda -> (g_script g = TrainNda \/ g_script g = TrainCw \/ g_script g = TrainCwUp -> P) <-> (script_checks (g_script g) = true -> P).
Proof. intro NL. destruct (g_script g); cbn [script_checks]; split; intros H K; try (apply H; tauto); try discriminate; try (destruct K as [K|[K|K]]; discriminate); congruence. Qed.
Definition settled (l : leaf) : Prop := reloaded_leaf r32 ncols l = l /\ List.length (lf_params l) = List.length (param_names (lf_cls l)) /\ Forall (fun v => v <> None) (lf_params l).
Definition fitted (g : stage) (ps : list (option A)) : leaf := mk_leaf (script_cls (g_script g) (g_lnorm g)) (Some (g_name g)) ps (g_upd_mu g) (g_upd_T g) (g_dim g).
Lemma stored_fitted g ps : reloaded_leaf r32 ncols (fitted g ps) = stored_leaf g ps.
Proof. unfold reloaded_leaf, stored_leaf, fitted. cbn. destruct (g_script g), (g_lnorm g); reflexivity. Qed.
Hypothesis r32_idem : forall v, r32 (r32 v) = r32 v.
Lemma reloaded_twice l : reloaded_leaf r32 ncols (reloaded_leaf r32 ncols l) = reloaded_leaf r32 ncols l.
Proof. unfold reloaded_leaf. cbn [lf_cls lf_name lf_params lf_upd_mu lf_upd_T lf_dim]. f_equal.
  - rewrite map_map. apply map_ext. intros [v|]; cbn; [rewrite r32_idem|]; reflexivity.
  - rewrite nth_error_map. destruct (lf_cls l); try reflexivity. destruct (nth_error (lf_params l) 1) as [[v|]|]; cbn; [rewrite r32_idem|..]; reflexivity. Qed.
Lemma settled_stored g ps : List.length ps = List.length (param_names (script_cls (g_script g) (g_lnorm g))) -> Forall (fun v => v <> None) ps -> settled (stored_leaf g ps).
Proof. intros L F. unfold settled. split; [rewrite <- stored_fitted; apply reloaded_twice|]. cbn. rewrite map_length. split; [exact L|]. apply Forall_forall. intros v Hv. apply in_map_iff in Hv. destruct Hv as (u & <- & Hu).
  rewrite Forall_forall in F. specialize (F u Hu). destruct u; [discriminate|congruence]. Qed.
Lemma leaves_leafs (ls : list leaf) : flat_map leaves (map Leaf ls) = ls.
Proof. induction ls as [|l ls IH]; [reflexivity|]. cbn. rewrite IH. reflexivity. Qed.
Lemma save_load dir (ls : list leaf) f : Forall (fun l => List.length (lf_params l) = List.length (param_names (lf_cls l)) /\ Forall (fun v => v <> None) (lf_params l)) ls ->
  save r32 dir (TList None (map Leaf ls)) = Ok f -> load_list ncols f = Ok (TList None (map Leaf (map (reloaded_leaf r32 ncols) ls))).
Proof. intros F E. assert (C : load ncols f = Ok (reloaded r32 ncols (TList None (map Leaf ls)))).
  { apply (C68_round_trip r32 ncols _ dir); [| |exact E].
    - constructor; [|discriminate]. apply Forall_forall. intros t Ht. apply in_map_iff in Ht. destruct Ht as (l & <- & Hl). constructor. rewrite Forall_forall in F. apply F, Hl.
    - intros l Hl. cbn in Hl. rewrite leaves_leafs in Hl. rewrite Forall_forall in F. apply F, Hl. }
  unfold load_list. assert (G : fst f = get_config (TList None (map Leaf ls))). { unfold save in E. destruct (String.eqb dir ""); [discriminate|]. destruct (save_params r32 [] (TList None (map Leaf ls))); [|discriminate]. injection E as <-. reflexivity. }
  destruct f as [c h]. cbn [fst] in *. subst c. cbn [get_config] in *. cbn iota. rewrite C. cbn [reloaded]. rewrite !map_map. reflexivity. Qed.
Lemma run_app gs g pre : run_chain (gs ++ [g]) pre = bind (run_chain gs pre) (fun o => f <- run_script g o ;; Ok (Some f)).
Proof. revert pre. induction gs as [|h gs IH]; intro pre; cbn [app TrainChain.run_chain]; [reflexivity|]. destruct (run_script h pre); [apply IH|reflexivity]. Qed.
Lemma run_not_lda g pre f : run_script g pre = Ok f -> g_script g <> TrainLda /\ train r32 ncols apply1 g pre = Ok f.
Proof. unfold TrainChain.run_script. destruct (g_script g); intro E; try discriminate; split; first [discriminate | exact E]. Qed.
Lemma lda_run g pre : g_script g <> TrainLda -> run_script g pre = train r32 ncols apply1 g pre.
Proof. unfold TrainChain.run_script. destruct (g_script g); congruence. Qed.
(** one run after [ls], spelled out *)
Definition pre_ok (o : option file) (ls : list leaf) : Prop := match o with None => ls = [] | Some f => load_list ncols f = Ok (TList None (map Leaf ls)) end.
Lemma train_E g o ls : default g -> pre_ok o ls -> train r32 ncols apply1 g o =
  (x <- in_turn ls (g_data g) ;; ps <- g_fit g x ;;
   _ <- (if script_checks (g_script g) then y <- apply1 (script_cls (g_script g) (g_lnorm g)) ps x ;; g_check g y else Ok tt) ;;
   save r32 (g_dir g) (TList None (map Leaf (ls ++ [fitted g ps])))).
Proof. intros (D1 & D2 & D3) P. unfold train. rewrite D1, D2. destruct o as [f|]; cbn [pre_ok] in P.
  - rewrite P. cbn [bind]. rewrite C68_predict. cbn [leaves]. rewrite leaves_leafs. destruct (in_turn ls (g_data g)) as [x|]; [|reflexivity]. cbn [bind]. destruct (g_fit g x) as [ps|]; [|reflexivity]. cbn [bind].
    cbn [predict ModelIO.append lf_cls lf_params]. rewrite map_app. reflexivity.
  - subst. reflexivity. Qed.

(** After any number of runs with the default options, each with the output of the one before as preprocessing, the last file holds the list of all trained
    transforms in order; each was fitted to data that went through exactly the transforms before it as they are stored; loading the file and applying it is
    applying them in turn. *)
Theorem C115_chain gs f : Forall default gs -> Forall fits_all gs -> run_chain gs None = Ok (Some f) ->
  exists ls, trained gs ls /\ load_list ncols f = Ok (TList None (map Leaf ls)) /\ forall x, predict apply1 (TList None (map Leaf ls)) x = in_turn ls x.
Proof. intros D F E.
  assert (G : forall o, run_chain gs None = Ok o -> exists ls, trained gs ls /\ Forall settled ls /\ pre_ok o ls).
  { clear E f. induction gs as [|g gs IH] using rev_ind; intros o E; [injection E as <-; exists []; split; [constructor|split; [constructor|reflexivity]]|].
    apply Forall_app in D. destruct D as [D D1]. apply Forall_app in F. destruct F as [F F1]. inversion D1 as [|? ? D1' _]; subst. inversion F1 as [|? ? F1' _]; subst.
    rewrite run_app in E. destruct (run_chain gs None) as [o'|] eqn:E'; [|discriminate]. cbn [bind] in E. destruct (IH D F o' eq_refl) as (ls & T & S & P).
    destruct (run_script g o') as [f|] eqn:R; [|discriminate]. injection E as <-. apply run_not_lda in R. destruct R as [NL R]. rewrite (train_E g o' ls D1' P) in R.
    destruct (in_turn ls (g_data g)) as [x|] eqn:EX; [|discriminate]. cbn [bind] in R. destruct (g_fit g x) as [ps|] eqn:EF; [|discriminate]. cbn [bind] in R.
    destruct (F1' x ps EF) as [L C]. exists (ls ++ [stored_leaf g ps]).
    assert (CK : (g_script g = TrainNda \/ g_script g = TrainCw \/ g_script g = TrainCwUp -> exists y, apply1 (script_cls (g_script g) (g_lnorm g)) ps x = Ok y /\ g_check g y = Ok tt) /\ save r32 (g_dir g) (TList None (map Leaf (ls ++ [fitted g ps]))) = Ok f).
    { rewrite checks_spec by exact NL. destruct (script_checks (g_script g)); [|cbn [bind] in R; split; [discriminate|exact R]]. destruct (apply1 _ ps x) as [y|] eqn:EY; [|discriminate]. cbn [bind] in R. destruct (g_check g y) as [[]|] eqn:EC; [|discriminate]. cbn [bind] in R.
      split; [intros _; exists y; split; first [reflexivity | assumption]|exact R]. }
    destruct CK as [CK SV]. split; [exact (trained_snoc gs ls g x ps T NL EX EF CK)|]. split.
    - apply Forall_app. split; [exact S|]. constructor; [|constructor]. apply settled_stored; assumption.
    - cbn [pre_ok]. rewrite (save_load _ _ _) with (2 := SV).
      + rewrite map_app. cbn [map]. rewrite stored_fitted. do 4 f_equal. rewrite <- (map_id ls) at 2. apply map_ext_in. intros l Hl. rewrite Forall_forall in S. apply S, Hl.
      + apply Forall_app. split; [|repeat constructor; assumption]. eapply Forall_impl; [|exact S]. intros l (_ & H). exact H. }
  destruct (G _ E) as (ls & T & _ & P). exists ls. split; [exact T|]. split; [exact P|]. intro x. rewrite C68_predict. cbn [leaves]. rewrite leaves_leafs. reflexivity. Qed.

(** *** paths of different transforms do not clash *)
Lemma prefix_app p q : String.prefix p q = true -> exists r, q = (p ++ r)%string.
Proof. revert q. induction p as [|c p IH]; intros q E; [exists q; reflexivity|]. destruct q as [|d q]; [discriminate|]. cbn in E. destruct (Ascii.ascii_dec c d) as [->|]; [|discriminate]. destruct (IH q E) as [r ->]. exists r. reflexivity. Qed.
Lemma first_slash n m a b : (forall u v, n <> (u ++ "/" ++ v)%string) -> (forall u v, m <> (u ++ "/" ++ v)%string) -> (n ++ "/" ++ a)%string = (m ++ "/" ++ b)%string -> n = m.
Proof. revert m. induction n as [|c n IH]; intros m Hn Hm E; destruct m as [|d m]; [reflexivity| | |].
  - exfalso. cbn in E. injection E as E1 E2. apply (Hm ""%string m). cbn. rewrite <- E1. reflexivity.
  - exfalso. cbn in E. injection E as E1 E2. apply (Hn ""%string n). cbn. rewrite E1. reflexivity.
  - cbn in E. injection E as -> E. f_equal. apply (IH m); [| |exact E].
    + intros u v ->. apply (Hn (String d u) v). reflexivity.
    + intros u v ->. apply (Hm (String d u) v). reflexivity. Qed.
Lemma str_assoc (a b c : string) : ((a ++ b) ++ c)%string = (a ++ (b ++ c))%string.
Proof. induction a as [|x a IH]; cbn; [reflexivity|rewrite IH; reflexivity]. Qed.
Lemma clash_name n m a b : good_name n -> good_name m -> clash (n ++ "/" ++ a) (m ++ "/" ++ b) -> n = m.
Proof. intros [_ Hn] [_ Hm] [E|[E|E]].
  - eapply first_slash; eassumption.
  - apply prefix_app in E. destruct E as [r E]. rewrite !str_assoc in E. symmetry. eapply first_slash; [exact Hm|exact Hn|exact E].
  - apply prefix_app in E. destruct E as [r E]. rewrite !str_assoc in E. eapply first_slash; [exact Hn|exact Hm|exact E]. Qed.
Lemma clash_config n a : good_name n -> ~ clash "config" (n ++ "/" ++ a).
Proof. intros [Hc Hn] [E|[E|E]].
  - destruct n as [|c1 n]; [discriminate|]. assert (forall m : string, m <> ""%string -> (m ++ "/" ++ a)%string = "config"%string -> False); [|eapply H; [|symmetry; exact E]; discriminate].
    clear. intros m _ E. assert (K : forall (k m : string), (forall u v, k <> (u ++ "/" ++ v)%string) -> (m ++ "/" ++ a)%string = k -> False). { intros k m' K E'. exact (K m' a (eq_sym E')). }
    refine (K "config"%string m _ E). clear. intros u v E. repeat (destruct u as [|? u]; cbn in E; [discriminate|injection E as _ E]). destruct u; discriminate.
  - apply prefix_app in E. destruct E as [r E]. apply Hc. symmetry. apply (first_slash _ _ r a); [|exact Hn|rewrite str_assoc in E; symmetry; exact E].
    clear. intros u v E. repeat (destruct u as [|? u]; cbn in E; [discriminate|injection E as _ E]). destruct u; discriminate.
  - apply prefix_app in E. destruct E as [r E]. rewrite !str_assoc in E. clear - E. assert (forall u v, "config"%string <> (u ++ "/" ++ v)%string).
    { clear. intros u v E. repeat (destruct u as [|? u]; cbn in E; [discriminate|injection E as _ E]). destruct u; discriminate. }
    exact (H _ _ E). Qed.
Lemma nc_app l1 l2 : no_clash l1 -> no_clash l2 -> (forall p q, In p l1 -> In q l2 -> ~ clash p q) -> no_clash (l1 ++ l2).
Proof. intros N1 N2 H. induction N1 as [|p l H1 _ IH]; [exact N2|]. cbn. constructor.
  - intros q Hq. apply in_app_iff in Hq. destruct Hq as [Hq|Hq]; [apply H1, Hq|apply H; [left; reflexivity|exact Hq]].
  - apply IH. intros p' q Hp Hq. apply H; [right; exact Hp|exact Hq]. Qed.
Lemma entry_path (l : leaf) n e : lf_name l = Some n -> In e (leaf_entries l) -> exists k, fst e = (n ++ "/" ++ k)%string.
Proof. intros EN H. unfold leaf_entries in H. apply in_flat_map in H. destruct H as ([k [v|]] & _ & H); [|destruct H]. destruct H as [<-|[]]. exists k. cbn. rewrite EN. reflexivity. Qed.
Definition slashless (k : string) : Prop := forall u v, k <> (u ++ "/" ++ v)%string.
Lemma app_cancel (n a b : string) : (n ++ a)%string = (n ++ b)%string -> a = b.
Proof. induction n as [|c n IH]; cbn; intro E; [exact E|]. injection E as E. exact (IH E). Qed.
Lemma own_paths (l : leaf) n : lf_name l = Some n -> no_clash (map fst (leaf_entries l)).
Proof. intro EN. unfold leaf_entries. rewrite EN.
  assert (SL : Forall slashless (param_names (lf_cls l))) by (destruct (lf_cls l); cbn [param_names]; repeat first [apply Forall_nil | apply Forall_cons; [intros u v E; cbn in E; repeat (destruct u as [|? u]; cbn in E; try discriminate E; try (injection E as _ E)) |]]).
  assert (ND : NoDup (param_names (lf_cls l))) by (destruct (lf_cls l); repeat constructor; cbn; intuition discriminate).
  revert SL ND. generalize (lf_params l) as ps. induction (param_names (lf_cls l)) as [|k ks IH]; intros ps SL ND; [constructor|]. destruct ps as [|p ps]; [constructor|]. cbn [combine flat_map].
  inversion SL as [|? ? S1 S2]; subst. inversion ND as [|? ? N1 N2]; subst. specialize (IH ps S2 N2). destruct p as [v|]; [|exact IH]. cbn. constructor; [|exact IH].
  intros q Hq C. apply in_map_iff in Hq. destruct Hq as (e & <- & He). apply in_flat_map in He. destruct He as ([k' [v'|]] & H1 & H2); [|destruct H2]. destruct H2 as [<-|[]]. apply in_combine_l in H1.
  cbn [fst full_path] in C. destruct C as [C|[C|C]].
  - apply app_cancel in C. cbn in C. injection C as ->. contradiction.
  - apply prefix_app in C. destruct C as [r C]. rewrite !str_assoc in C. apply app_cancel in C. cbn in C. injection C as C. rewrite Forall_forall in S2. exact (S2 k' H1 k r C).
  - apply prefix_app in C. destruct C as [r C]. rewrite !str_assoc in C. apply app_cancel in C. cbn in C. injection C as C. exact (S1 k' r C). Qed.
Lemma names_paths (ls : list leaf) ns : map lf_name ls = map Some ns -> NoDup ns -> Forall good_name ns -> no_clash ("config"%string :: map fst (entries (TList None (map Leaf ls)))).
Proof. intros EN ND G. unfold entries. cbn [leaves]. rewrite leaves_leafs.
  assert (H : no_clash (map fst (flat_map leaf_entries ls)) /\ forall p, In p (map fst (flat_map leaf_entries ls)) -> exists n k, In n ns /\ good_name n /\ p = (n ++ "/" ++ k)%string).
  { revert ns EN ND G. induction ls as [|l ls IH]; intros [|n ns] EN ND G; try discriminate EN; [split; [constructor|intros ? []]|]. cbn [map flat_map] in *. injection EN as EN1 EN2. inversion ND; subst. inversion G; subst.
    destruct (IH ns EN2 ltac:(assumption) ltac:(assumption)) as [I1 I2]. rewrite map_app. split.
    - apply nc_app; [eapply own_paths, EN1|exact I1|]. intros p q Hp Hq C. apply in_map_iff in Hp. destruct Hp as (e & <- & He). destruct (entry_path l n e EN1 He) as [k K]. destruct (I2 q Hq) as (m & k' & M1 & M2 & ->). rewrite K in C.
      apply clash_name in C; [subst m; contradiction|assumption|exact M2].
    - intros p Hp. apply in_app_iff in Hp. destruct Hp as [Hp|Hp].
      + apply in_map_iff in Hp. destruct Hp as (e & <- & He). destruct (entry_path l n e EN1 He) as [k K]. exists n, k. split; [left; reflexivity|]. split; assumption.
      + destruct (I2 p Hp) as (m & k & M1 & M2 & M3). exists m, k. split; [right; exact M1|]. split; assumption. }
  destruct H as [H1 H2]. constructor; [|exact H1]. intros q Hq. destruct (H2 q Hq) as (n & k & _ & Gn & ->). apply clash_config, Gn. Qed.
Lemma trained_names gs ls : trained gs ls -> map lf_name ls = map Some (map (fun g => g_name g) gs).
Proof. induction 1 as [|gs ls g x ps _ IH]; [reflexivity|]. rewrite !map_app, IH. reflexivity. Qed.
(** Conversely, when the fits and the statistics for the log succeed, the chain runs to the end, provided the names are distinct, have no "/" and are not
    "config". *)
Theorem C115_chain_runs gs ls : Forall default gs -> Forall fits_all gs -> NoDup (map (fun g => g_name g) gs) -> Forall (fun g => good_name (g_name g)) gs -> trained gs ls -> gs <> [] ->
  exists f, run_chain gs None = Ok (Some f).
Proof. intros D F ND GN T NE.
  assert (G : exists o, run_chain gs None = Ok o /\ pre_ok o ls /\ Forall settled ls /\ (gs <> [] -> o <> None)); [|destruct G as ([f|] & E & _ & _ & H); [exists f; exact E|exfalso; exact (H NE eq_refl)]].
  clear NE. revert D F ND GN. induction T as [|gs ls g x ps T IH NL EX EF CK]; intros D F ND GN; [exists None; split; [reflexivity|split; [reflexivity|split; [constructor|congruence]]]|].
  apply Forall_app in D. destruct D as [D D1]. apply Forall_app in F. destruct F as [F F1]. inversion D1 as [|? ? D1' _]; subst. inversion F1 as [|? ? F1' _]; subst.
  assert (NM := trained_names _ _ T). pose proof GN as GN0. apply Forall_app in GN0. destruct GN0 as [GN0 _]. pose proof ND as ND0. rewrite map_app in ND0. assert (NoDup (map (fun g => g_name g) gs)) as ND1 by (clear - ND0; induction (map (fun g => g_name g) gs) as [|a l IHl]; [constructor|]; cbn in ND0; inversion ND0; subst; constructor; [intro; apply H1, in_app_iff; left; assumption|apply IHl; assumption]).
  destruct (IH D F ND1 GN0) as (o & E & P & S & _). destruct (F1' x ps EF) as [L C]. rewrite run_app, E. cbn [bind]. rewrite (lda_run g o NL), (train_E g o ls D1' P), EX. cbn [bind]. rewrite EF. cbn [bind].
  assert (CE : (if script_checks (g_script g) then y <- apply1 (script_cls (g_script g) (g_lnorm g)) ps x ;; g_check g y else Ok tt) = Ok tt).
  { rewrite checks_spec in CK by exact NL. destruct (script_checks (g_script g)); [|reflexivity]. destruct (CK eq_refl) as (y & -> & CY). exact CY. }
  rewrite CE. cbn [bind]. destruct D1' as (_ & _ & DD). destruct (C68_save r32 (TList None (map Leaf (ls ++ [fitted g ps]))) (g_dir g) DD) as [SV _].
  destruct SV as (c & SV).
  { apply (names_paths (ls ++ [fitted g ps]) (map (fun g => g_name g) (gs ++ [g]))); [|exact ND|].
    - rewrite !map_app, NM. reflexivity.
    - apply Forall_forall. intros n Hn. apply in_map_iff in Hn. destruct Hn as (h & <- & Hh). rewrite Forall_forall in GN. apply GN, Hh. }
  rewrite SV. cbn [bind]. eexists. split; [reflexivity|]. split; [|split; [|discriminate]].
  - cbn [pre_ok]. rewrite (save_load _ _ _) with (2 := SV).
    + rewrite map_app. cbn [map]. rewrite stored_fitted. do 4 f_equal. rewrite <- (map_id ls) at 2. apply map_ext_in. intros l Hl. rewrite Forall_forall in S. apply S, Hl.
    + apply Forall_app. split; [|repeat constructor; assumption]. eapply Forall_impl; [|exact S]. intros l (_ & H). exact H.
  - apply Forall_app. split; [exact S|]. constructor; [|constructor]. apply settled_stored; assumption. Qed.
Lemma entry_of (l : leaf) n k : lf_name l = Some n -> List.length (lf_params l) = List.length (param_names (lf_cls l)) -> Forall (fun v => v <> None) (lf_params l) -> In k (param_names (lf_cls l)) ->
  In (n ++ "/" ++ k)%string (map fst (leaf_entries l)).
Proof. intros EN. unfold leaf_entries. rewrite EN. generalize (lf_params l) as ps. induction (param_names (lf_cls l)) as [|k0 ks IH]; intros ps L F Hk; [destruct Hk|]. destruct ps as [|[v|] ps]; [discriminate| |inversion F; congruence].
  cbn [combine flat_map snd app map fst full_path]. inversion F; subst. cbn in L. injection L as L. destruct Hk as [->|Hk]; [left; reflexivity|right; apply IH; assumption]. Qed.
(** a transform whose name and one of whose parameters are already in the list cannot be saved: the run fails *)
Theorem C115_same_name g f ls l k : default g -> fits_all g -> load_list ncols f = Ok (TList None (map Leaf ls)) -> In l ls -> lf_name l = Some (g_name g) ->
  List.length (lf_params l) = List.length (param_names (lf_cls l)) -> Forall (fun v => v <> None) (lf_params l) ->
  In k (param_names (lf_cls l)) -> In k (param_names (script_cls (g_script g) (g_lnorm g))) -> forall f', run_script g (Some f) <> Ok f'.
Proof. intros D FA LF Hl EN LL CL K1 K2 f' R. apply run_not_lda in R. destruct R as [_ R]. rewrite (train_E g (Some f) ls D LF) in R.
  destruct (in_turn ls (g_data g)) as [x|]; [|discriminate]. cbn [bind] in R. destruct (g_fit g x) as [ps|] eqn:EF; [|discriminate]. cbn [bind] in R. destruct (FA x ps EF) as [L C].
  destruct (if script_checks (g_script g) then _ else _) as [u|]; [|discriminate]. cbn [bind] in R. destruct D as (_ & _ & DD).
  destruct (C68_save r32 (TList None (map Leaf (ls ++ [fitted g ps]))) (g_dir g) DD) as [_ B]. rewrite B in R; [discriminate|]. clear B R. intro N. apply no_clash_nodup in N. inversion N as [|? ? _ N']; subst. clear N.
  unfold entries in N'. cbn [leaves] in N'. rewrite leaves_leafs, flat_map_app, map_app in N'.
  assert (I1 : In (g_name g ++ "/" ++ k)%string (map fst (flat_map leaf_entries ls))).
  { assert (H := entry_of l _ k EN LL CL K1). apply in_map_iff in H. destruct H as (e & E & He). apply in_map_iff. exists e. split; [exact E|]. apply in_flat_map. exists l. split; assumption. }
  assert (I2 : In (g_name g ++ "/" ++ k)%string (map fst (flat_map leaf_entries [fitted g ps]))) by (cbn [flat_map]; rewrite app_nil_r; apply entry_of; [reflexivity|exact L|exact C|exact K2]).
  revert N' I1 I2. generalize (map fst (flat_map leaf_entries ls)) (map fst (flat_map leaf_entries [fitted g ps])). intros a b. induction a as [|c a IH]; intros N I1 I2; [destruct I1|]. cbn in N. inversion N; subst.
  destruct I1 as [->|I1]; [apply H1, in_app_iff; right; exact I2|apply IH; assumption]. Qed.
(** with --no-append-tlist the file holds the new transform alone, although it was fitted to preprocessed data *)
Theorem C115_no_append g pre f : g_tlist g = true -> g_append g = false -> fits_all g -> run_script g pre = Ok f ->
  exists x ps, (match pre with None => Ok (g_data g) | Some p => t <- load_list ncols p ;; predict apply1 t (g_data g) end) = Ok x /\ g_fit g x = Ok ps /\ load_list ncols f = Ok (TList None [Leaf (stored_leaf g ps)]).
Proof. intros D1 D2 FA R. apply run_not_lda in R. destruct R as [_ R]. unfold train in R. rewrite D1, D2 in R.
  destruct (match pre with None => Ok None | Some f => t <- load_list ncols f ;; Ok (Some t) end) as [pp|] eqn:EP; [|discriminate]. cbn [bind] in R.
  destruct (match pp with None => Ok (g_data g) | Some t => predict apply1 t (g_data g) end) as [x|] eqn:EX; [|discriminate]. cbn [bind] in R. destruct (g_fit g x) as [ps|] eqn:EF; [|discriminate]. cbn [bind] in R.
  destruct (if script_checks (g_script g) then _ else _) as [u|]; [|discriminate]. cbn [bind make_list] in R. exists x, ps. destruct (FA x ps EF) as [L C]. split; [|split; [exact EF|]].
  - destruct pre as [p|].
    + destruct (load_list ncols p) as [t|]; [|discriminate]. cbn [bind] in *. injection EP as <-. exact EX.
    + injection EP as <-. exact EX.
  - change [Leaf (mk_leaf (script_cls (g_script g) (g_lnorm g)) (Some (g_name g)) ps (g_upd_mu g) (g_upd_T g) (g_dim g))] with (map Leaf [fitted g ps]) in R.
    rewrite (save_load _ _ _) with (2 := R); [cbn [map]; rewrite stored_fitted; reflexivity|repeat constructor; assumption]. Qed.
(** with --no-save-tlist the file cannot be the preprocessing of another script *)
Theorem C115_no_tlist g pre f : g_tlist g = false -> run_script g pre = Ok f -> forall g', g_script g' <> TrainLda -> run_script g' (Some f) = Err KeyError.
Proof. intros D R g' NL. apply run_not_lda in R. destruct R as [_ R]. unfold train in R. rewrite D in R.
  destruct (match pre with None => Ok None | Some f => t <- load_list ncols f ;; Ok (Some t) end) as [pp|] eqn:EP; [|discriminate]. cbn [bind] in R.
  destruct (match pp with None => Ok (g_data g) | Some t => predict apply1 t (g_data g) end) as [x|] eqn:EX; [|discriminate]. cbn [bind] in R. destruct (g_fit g x) as [ps|] eqn:EF; [|discriminate]. cbn [bind] in R.
  destruct (if script_checks (g_script g) then _ else _) as [u|]; [|discriminate]. cbn [bind] in R. unfold save in R. destruct (String.eqb (g_dir g) ""); [discriminate|].
  destruct (save_params r32 [] _) as [h|]; [|discriminate]. injection R as <-. rewrite (lda_run g' _ NL). reflexivity. Qed.
(** train-lda.py never runs: its parser does not define --verbose, which the script reads first *)
Theorem C115_lda_refuted g pre : g_script g = TrainLda -> run_script g pre = Err AttributeError.
Proof. intro E. unfold TrainChain.run_script. rewrite E. reflexivity. Qed.
End Spec.
(** centring and scaling, then projecting: three runs; an option makes the last file forget the first two *)
Definition ex_apply (c : tcls) (ps : list (option Z)) (x : list Z) : res (list Z) :=
  match ps with [Some a; Some b] => Ok (map (fun v => (v - a) * b) x) | _ => Err TypeError end.
Definition ex_stage (s : script) (n : string) (ap : bool) : @stage Z (list Z) :=
  mk_stage s true n true ap "exp" [4; 6; 8] true true None (fun x => Ok [Some (hd 0 x); Some 3]) (fun _ => Ok tt).
Theorem C115_no_append_refuted : exists f, run_chain (fun v => v) (fun v => v) ex_apply [ex_stage TrainMvn "mvn" true; ex_stage TrainCw "cw" false] None = Ok (Some f) /\
  (exists t, load_list (fun v => v) f = Ok t /\ predict ex_apply t [4; 6; 8] = Ok [12; 18; 24]) /\
  exists f', run_chain (fun v => v) (fun v => v) ex_apply [ex_stage TrainMvn "mvn" true; ex_stage TrainCw "cw" true] None = Ok (Some f') /\
  exists t', load_list (fun v => v) f' = Ok t' /\ predict ex_apply t' [4; 6; 8] = Ok [0; 18; 36].
Proof. eexists. split; [vm_compute; reflexivity|]. split; [eexists; split; vm_compute; reflexivity|]. eexists. split; [vm_compute; reflexivity|]. eexists. split; vm_compute; reflexivity. Qed.
Example C115_witness : let gs := [ex_stage TrainMvn "mvn" true; ex_stage TrainPca "pca" true; ex_stage TrainCw "cw" true] in
  Forall default gs /\ Forall fits_all gs /\ NoDup (map (fun g => g_name g) gs) /\ Forall (fun g => good_name (g_name g)) gs /\ exists f, run_chain (fun v => v) (fun v => v) ex_apply gs None = Ok (Some f).
Proof. cbn. split; [repeat (constructor; [repeat split; discriminate|]); constructor|]. split; [repeat (constructor; [intros x ps E; injection E as <-; split; [reflexivity|repeat constructor; discriminate]|]); constructor|]. split; [repeat constructor; cbn; intuition discriminate|]. split.
  - repeat (constructor; [split; [discriminate|]; intros u v E; repeat (destruct u as [|? u]; cbn in E; try discriminate E; try (injection E as _ E))|]); constructor.
  - eexists. vm_compute. reflexivity. Qed.
Print Assumptions C115_chain. Print Assumptions C115_chain_runs. Print Assumptions C115_same_name. Print Assumptions C115_no_append.
