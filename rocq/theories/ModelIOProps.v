(** Saving and loading transforms (C68). *)
From Coq Require Import Lia.
From Verif Require Import Base BaseFacts Str ModelIO.
Open Scope list_scope. Open Scope Z_scope.

Section Spec.
Context {A : Type} (r32 : A -> A) (ncols : A -> Z).
Notation tr := (tr A). Notation leaf := (leaf A).
Notation save := (save r32). Notation load := (load ncols).

(** ** Specification *)
(** what a transform stores: path and value of every parameter that is set *)
Definition leaf_entries (l : leaf) : list (string * A) :=
  flat_map (fun kv => match snd kv with Some v => [(full_path (lf_name l) (fst kv), v)] | None => [] end) (combine (param_names (lf_cls l)) (lf_params l)).
Fixpoint leaves (t : tr) : list leaf := match t with Leaf l => [l] | TList _ ts => flat_map leaves ts end.
Definition entries (t : tr) : list (string * A) := flat_map leaf_entries (leaves t).
(** two paths that cannot be in one file: equal, or one is a directory of the other *)
Definition clash (p q : string) : Prop := p = q \/ under p q = true \/ under q p = true.
Inductive no_clash : list string -> Prop :=
| nc_nil : no_clash []
| nc_cons p l : (forall q, In q l -> ~ clash p q) -> no_clash l -> no_clash (p :: l).
(** all parameters are set *)
Definition complete (t : tr) : Prop := forall l, In l (leaves t) -> Forall (fun v => v <> None) (lf_params l).
(** what the constructors make: a value for every parameter, and the members of a list with a name have names *)
Inductive wf : tr -> Prop :=
| wf_leaf l : List.length (lf_params l) = List.length (param_names (lf_cls l)) -> wf (Leaf l)
| wf_list n ts : Forall wf ts -> (forall s t, n = Some s -> In t ts -> exists m, tr_name t = Some m) -> wf (TList n ts).
(** what comes back: same classes and parameters in saving precision, update flags on, and every list puts its name in front of the
    names of its members once more *)
Definition reloaded_leaf (l : leaf) : leaf :=
  mk_leaf (lf_cls l) (lf_name l) (map (option_map r32) (lf_params l)) true true
    (match lf_cls l with
     | PCA | Gaussianizer => lf_dim l
     | LDA => match nth_error (lf_params l) 1 with Some (Some v) => Some (ncols (r32 v)) | _ => None end
     | _ => None
     end).
Definition relabel (n : option string) (t : tr) : tr :=
  match n, tr_name t with Some s, Some m => set_name (Some (s ++ "/" ++ m)%string) t | _, _ => t end.
Fixpoint reloaded (t : tr) : tr :=
  match t with Leaf l => Leaf (reloaded_leaf l) | TList n ts => TList n (map (fun t => relabel n (reloaded t)) ts) end.

(** ** Proofs *)
Lemma tr_rect' (P : tr -> Prop) : (forall l, P (Leaf l)) -> (forall n ts, Forall P ts -> P (TList n ts)) -> forall t, P t.
Proof.
  intros HL HT. fix IH 1. intros [l|n ts]; [apply HL|]. apply HT. induction ts as [|t ts IHts]; [constructor|]. constructor; [apply IH|exact IHts].
Qed.
Fixpoint put (f : h5) (l : list (string * A)) : res h5 :=
  match l with [] => Ok f | (p, v) :: l => f <- create_dataset f p (r32 v) ;; put f l end.
Lemma put_app f l1 l2 : put f (l1 ++ l2) = bind (put f l1) (fun f => put f l2).
Proof. revert f. induction l1 as [|[p v] l1 IH]; intros f; [reflexivity|]. simpl. destruct (create_dataset f p (r32 v)); [apply IH|reflexivity]. Qed.
Lemma save_leaf_put f l : save_leaf r32 f l = put f (leaf_entries l).
Proof.
  unfold save_leaf, leaf_entries. generalize (combine (param_names (lf_cls l)) (lf_params l)). intros c. revert f. induction c as [|[k [v|]] c IH]; intros f; [reflexivity| |].
  - simpl. destruct (create_dataset f (full_path (lf_name l) k) (r32 v)); [apply IH|reflexivity].
  - simpl. apply IH.
Qed.
Lemma save_put t : forall f, save_params r32 f t = put f (entries t).
Proof.
  induction t as [l|n ts IH] using tr_rect'; intros f.
  - simpl. rewrite save_leaf_put. unfold entries. simpl. rewrite app_nil_r. reflexivity.
  - simpl. unfold entries. simpl. revert f. induction IH as [|t ts IH _ IHts]; intros f; [reflexivity|]. simpl. rewrite flat_map_app, put_app, IH.
    unfold entries. destruct (put f (flat_map leaf_entries (leaves t))); [apply IHts|reflexivity].
Qed.
Lemma path_free_iff (f : @h5 A) p : path_free f p = true <-> ~ clash p "config" /\ forall q, In q (map fst f) -> ~ clash p q.
Proof.
  unfold path_free. rewrite forallb_forall. simpl.
  assert (E : forall q, (negb (String.eqb p q) && negb (under p q) && negb (under q p))%bool = true <-> ~ clash p q).
  { intros q. unfold clash. destruct (String.eqb_spec p q) as [->|N]; simpl; [split; [discriminate|intros H; exfalso; apply H; left; reflexivity]|].
    destruct (under p q), (under q p); simpl; split; try discriminate; try (intros H; exfalso; apply H; auto; fail); try reflexivity. intros _ [H|[H|H]]; [contradiction|discriminate|discriminate]. }
  split.
  - intros H. split; [apply E, H; left; reflexivity|]. intros q Q. apply E, H. right. exact Q.
  - intros [H1 H2] q [<-|Q]; apply E; [exact H1|apply H2; exact Q].
Qed.
Lemma clash_sym p q : clash p q -> clash q p.
Proof. unfold clash. intros [->|[H|H]]; auto. Qed.
Lemma put_ok l : forall f, no_clash (rev (map fst f) ++ ["config"%string]) ->
  (no_clash (rev (map fst (f ++ l)) ++ ["config"%string]) -> put f l = Ok (f ++ map (fun e => (fst e, r32 (snd e))) l)) /\
  (~ no_clash (rev (map fst (f ++ l)) ++ ["config"%string]) -> put f l = Err ValueError).
Proof.
  assert (SUF : forall a b, no_clash (a ++ b) -> no_clash b). { induction a as [|x a IH]; intros b H; [exact H|]. inversion H; subst. apply IH. assumption. }
  induction l as [|[p v] l IH]; intros f N.
  - rewrite !app_nil_r. split; [intros _; reflexivity|contradiction].
  - simpl. unfold create_dataset. destruct (path_free f p) eqn:E.
    + apply path_free_iff in E. destruct E as [E1 E2]. cbn [bind].
      assert (N' : no_clash (rev (map fst (f ++ [(p, r32 v)])) ++ ["config"%string])).
      { rewrite map_app, rev_app_distr. simpl. constructor; [|exact N]. intros q Q. apply in_app_iff in Q. destruct Q as [Q|[<-|[]]]; [apply E2; apply in_rev; exact Q|exact E1]. }
      destruct (IH _ N') as [I1 I2]. assert (EQ : map fst ((f ++ [(p, r32 v)]) ++ l) = map fst (f ++ (p, v) :: l)) by (rewrite <- app_assoc; simpl; rewrite !map_app; reflexivity).
      rewrite EQ in I1, I2. split; [intros H; rewrite (I1 H), <- app_assoc; reflexivity|exact I2].
    + split; [|reflexivity]. intros H. exfalso. rewrite map_app, rev_app_distr in H. simpl in H. rewrite <- !app_assoc in H. apply SUF in H. simpl in H. inversion H as [|? ? C _]; subst.
      assert (path_free f p = true); [|congruence]. apply path_free_iff. split; [apply C, in_app_iff; right; left; reflexivity|]. intros q Q. apply C, in_app_iff. left. apply in_rev in Q. exact Q.
Qed.
Lemma no_clash_rev l : no_clash l <-> no_clash (rev l).
Proof.
  assert (SN : forall l p, no_clash l -> (forall q, In q l -> ~ clash q p) -> no_clash (l ++ [p])).
  { induction l0 as [|x l0 IH]; intros p N H; [constructor; [intros ? []|constructor]|]. inversion N; subst. simpl. constructor.
    - intros q Q. apply in_app_iff in Q. destruct Q as [Q|[<-|[]]]; [auto|]. apply H. left. reflexivity.
    - apply IH; [assumption|]. intros q Q. apply H. right. exact Q. }
  assert (D : forall l, no_clash l -> no_clash (rev l)).
  { induction l0 as [|x l0 IH]; intros N; [constructor|]. inversion N; subst. simpl. apply SN; [auto|]. intros q Q C. apply in_rev in Q. apply clash_sym in C. exact (H1 q Q C). }
  split; [apply D|]. intros H. apply D in H. rewrite rev_involutive in H. exact H.
Qed.
(** Saving succeeds exactly when no two stored paths clash (with each other or with the name of the configuration); otherwise ValueError. *)
Theorem C68_save t dir : dir <> ""%string ->
  (no_clash ("config"%string :: map fst (entries t)) -> exists c, save dir t = Ok (c, map (fun e => (fst e, r32 (snd e))) (entries t))) /\
  (~ no_clash ("config"%string :: map fst (entries t)) -> save dir t = Err ValueError).
Proof.
  intros D. unfold ModelIO.save. destruct (String.eqb_spec dir "") as [|_]; [contradiction|]. rewrite save_put.
  destruct (put_ok (entries t) []) as [H1 H2]; [repeat constructor; intros ? []|]. simpl in H1, H2. split; intros N.
  - rewrite H1; [eexists; reflexivity|]. apply no_clash_rev. rewrite rev_app_distr, rev_involutive. exact N.
  - rewrite H2; [reflexivity|]. intros C. apply N. apply no_clash_rev in C. rewrite rev_app_distr, rev_involutive in C. exact C.
Qed.
Theorem C68_save_bare_file_refuted t : save "" t = Err IOErr.
Proof. reflexivity. Qed.

Lemma lookup_in (f : @h5 A) p v : NoDup (map fst f) -> In (p, v) f -> lookup f p = Ok v.
Proof.
  unfold lookup. induction f as [|[q w] f IH]; intros N I; [destruct I|]. simpl in *. inversion N; subst. destruct (String.eqb_spec p q) as [->|E].
  - destruct I as [I|I]; [injection I as ->; reflexivity|]. exfalso. apply H1. apply (in_map fst) in I. exact I.
  - destruct I as [I|I]; [injection I as -> _; congruence|]. apply IH; assumption.
Qed.
Lemma no_clash_nodup l : no_clash l -> NoDup l.
Proof. induction 1 as [|p l H _ IH]; constructor; [|exact IH]. intros I. apply (H p I). left. reflexivity. Qed.
Lemma mapM_map_ok {B C D} (f : B -> res C) (g : D -> B) (h : D -> C) l : (forall d, In d l -> f (g d) = Ok (h d)) -> mapM f (map g l) = Ok (map h l).
Proof. induction l as [|d l IH]; intros H; [reflexivity|]. simpl. rewrite (H d) by (left; reflexivity). simpl. rewrite IH by (intros; apply H; right; assumption). reflexivity. Qed.
Definition stored (t : tr) (f : @h5 A) : Prop := forall p v, In (p, v) (entries t) -> lookup f p = Ok (r32 v).
Lemma load_leaf_ok f l : List.length (lf_params l) = List.length (param_names (lf_cls l)) -> Forall (fun v => v <> None) (lf_params l) -> stored (Leaf l) f ->
  load_leaf ncols f (lf_cls l) (lf_name l) (lf_dim l) = Ok (Leaf (reloaded_leaf l)).
Proof.
  intros L C S. unfold load_leaf.
  assert (E : exists vs, lf_params l = map Some vs). { clear - C. induction C as [|[v|] ps H _ [vs IH]]; [exists []; reflexivity|exists (v :: vs); simpl; rewrite IH; reflexivity|congruence]. }
  destruct E as [vs E].
  assert (LD : load_dict f (lf_name l) (param_names (lf_cls l)) = Ok (map r32 vs)).
  { unfold load_dict. rewrite E, map_length in L. unfold stored, entries in S. simpl in S. rewrite app_nil_r in S. unfold leaf_entries in S. rewrite E in S. clear - L S. revert vs L S.
    induction (param_names (lf_cls l)) as [|k ks IH]; intros [|v vs] L S; try discriminate L; [reflexivity|]. simpl in L |- *. injection L as L. rewrite (S _ v) by (simpl; left; reflexivity). cbn [bind].
    rewrite (IH vs L); [reflexivity|]. intros p w I. apply S. simpl. right. exact I. }
  rewrite LD. cbn [bind]. unfold reloaded_leaf. rewrite E. rewrite (map_map Some).
  assert (Q : nth_error (map Some vs) 1 = option_map Some (nth_error vs 1)) by apply nth_error_map. rewrite Q, (nth_error_map r32 1 vs).
  f_equal. f_equal. rewrite map_map. destruct (nth_error vs 1); destruct (lf_cls l); reflexivity.
Qed.
Lemma load_params_ok t : forall f, wf t -> complete t -> stored t f -> load_params ncols f (get_config t) = Ok (reloaded t) /\ tr_name (reloaded t) = tr_name t.
Proof.
  induction t as [l|n ts IH] using tr_rect'; intros f W C S.
  - inversion W; subst. split; [|reflexivity]. simpl. apply load_leaf_ok; [assumption|apply C; left; reflexivity|exact S].
  - inversion W as [|? ? WT NM]; subst. split; [|reflexivity]. simpl.
    assert (G : (fix go cs := match cs with [] => Ok [] | c :: cs => t <- load_params ncols f c ;; ts <- go cs ;; Ok (t :: ts) end) (map get_config ts) = Ok (map reloaded ts) /\ Forall (fun t => tr_name (reloaded t) = tr_name t) ts).
    { unfold complete in C. simpl in C. unfold stored, entries in S. simpl in S. clear NM W. induction IH as [|t ts IH _ IHts]; [split; [reflexivity|constructor]|]. inversion WT; subst. simpl.
      destruct (IH f) as [E1 E2]; [assumption|intros l L; apply C; simpl; apply in_app_iff; left; exact L|intros p v I; apply S; simpl; rewrite flat_map_app; apply in_app_iff; left; exact I|].
      rewrite E1. cbn [bind]. destruct IHts as [F1 F2]; [intros l L; apply C; simpl; apply in_app_iff; right; exact L|intros p v I; apply S; simpl; rewrite flat_map_app; apply in_app_iff; right; exact I|assumption|].
      rewrite F1. cbn [bind]. split; [reflexivity|constructor; assumption]. }
    destruct G as [G1 G2]. rewrite G1. cbn [bind]. unfold make_list. destruct n as [s|].
    + assert (M : mapM (prefixed s) (map reloaded ts) = Ok (map (fun t => relabel (Some s) (reloaded t)) ts)).
      { rewrite (mapM_map_ok _ reloaded (fun t => relabel (Some s) (reloaded t))); [reflexivity|]. intros t T. rewrite Forall_forall in G2. destruct (NM s t eq_refl T) as [m M].
        unfold prefixed, relabel. rewrite (G2 t T), M. reflexivity. }
      rewrite M. reflexivity.
    + reflexivity.
Qed.
(** What is loaded from a saved file is the saved transform in saving precision, with the update flags back to their defaults and the names
    of list members prefixed once more. *)
Theorem C68_round_trip t dir file : wf t -> complete t -> save dir t = Ok file -> load file = Ok (reloaded t).
Proof.
  intros W C S. unfold ModelIO.save in S. destruct (String.eqb dir ""); [discriminate|]. rewrite save_put in S.
  destruct (put_ok (entries t) []) as [H1 H2]; [repeat constructor; intros ? []|]. simpl in H1, H2.
  destruct (put [] (entries t)) as [f|] eqn:P; [|discriminate]. injection S as <-.
  assert (N : no_clash (rev (map fst (entries t)) ++ ["config"%string])).
  { (* otherwise put would have failed *)
    assert (DEC : forall l, no_clash l \/ ~ no_clash l).
    { assert (CD : forall p q, clash p q \/ ~ clash p q). { intros p q. unfold clash. destruct (String.string_dec p q); [auto|]. destruct (under p q); [auto|]. destruct (under q p); [auto|]. right. intros [|[|]]; congruence. }
      induction l as [|p l [IH|IH]]; [left; constructor| |right; intros H; inversion H; contradiction].
      assert (X : (forall q, In q l -> ~ clash p q) \/ ~ (forall q, In q l -> ~ clash p q)).
      { clear IH. induction l as [|x l IH]; [left; intros ? []|]. destruct (CD p x) as [Y|Y]; [right; intros H; apply (H x); [left; reflexivity|exact Y]|]. destruct IH as [IH|IH]; [left; intros q [<-|Q]; auto|right; intros H; apply IH; intros q Q; apply H; right; exact Q]. }
      destruct X as [X|X]; [left; constructor; assumption|right; intros H; inversion H; contradiction]. }
    destruct (DEC (rev (map fst (entries t)) ++ ["config"%string])) as [D|D]; [exact D|]. specialize (H2 D). congruence. }
  assert (E : f = map (fun e => (fst e, r32 (snd e))) (entries t)) by (specialize (H1 N); congruence). clear P H1 H2. subst f. unfold ModelIO.load. cbn [fst snd]. apply load_params_ok; [exact W|exact C|].
  assert (ND : NoDup (map fst (map (fun e => (fst e, r32 (snd e))) (entries t)))).
  { rewrite map_map. simpl. apply no_clash_rev in N. rewrite rev_app_distr, rev_involutive in N. simpl in N. inversion N; subst. apply no_clash_nodup. assumption. }
  intros p v I. apply lookup_in; [exact ND|]. apply in_map_iff. exists (p, v). split; [reflexivity|exact I].
Qed.
(** A transform with a parameter that is not set can be saved but not loaded. *)
Theorem C68_unset_parameter_refuted l dir file : In None (lf_params l) -> List.length (lf_params l) = List.length (param_names (lf_cls l)) ->
  save dir (Leaf l) = Ok file -> load file = Err KeyError.
Proof.
  intros I L S. unfold ModelIO.save in S. destruct (String.eqb dir ""); [discriminate|]. rewrite save_put in S.
  assert (F : forall l0 f f', put f l0 = Ok f' -> map fst f' = map fst f ++ map fst l0).
  { induction l0 as [|[p v] l0 IH]; intros f f' P; simpl in P; [injection P as <-; rewrite app_nil_r; reflexivity|]. unfold create_dataset in P. destruct (path_free f p); [|discriminate]. cbn [bind] in P. rewrite (IH _ _ P), map_app, <- app_assoc. reflexivity. }
  destruct (put [] (entries (Leaf l))) as [f|] eqn:P; [|discriminate]. injection S as <-. specialize (F _ _ _ P). simpl in F. unfold entries in F. simpl in F. rewrite app_nil_r in F.
  unfold ModelIO.load. cbn [fst snd get_config load_params]. unfold load_leaf.
  assert (K : load_dict f (lf_name l) (param_names (lf_cls l)) = Err KeyError); [|rewrite K; reflexivity].
  assert (LK : forall p, ~ In p (map fst f) -> lookup f p = Err KeyError).
  { intros p N. unfold lookup. destruct (find (fun e => String.eqb p (fst e)) f) as [e|] eqn:E; [|reflexivity]. apply find_some in E. destruct E as [E1 E2]. apply String.eqb_eq in E2. exfalso. apply N. subst p. apply in_map. exact E1. }
  assert (INJ : forall a b, full_path (lf_name l) a = full_path (lf_name l) b -> a = b).
  { intros a b H. unfold full_path in H. destruct (lf_name l) as [n|]; [|exact H]. induction n as [|c n IH]; simpl in H; [injection H as H; exact H|]. injection H as H. apply IH. exact H. }
  assert (ND : NoDup (param_names (lf_cls l))) by (destruct (lf_cls l); repeat constructor; simpl; intuition discriminate).
  unfold leaf_entries in F. unfold load_dict. clear P.
  assert (GEN : forall ks (ps : list (option A)), List.length ps = List.length ks -> NoDup ks -> In None ps ->
    (forall k, In k ks -> In (full_path (lf_name l) k) (map fst f) -> In (full_path (lf_name l) k) (map fst (flat_map (fun kv : string * option A => match snd kv with Some v => [(full_path (lf_name l) (fst kv), v)] | None => [] end) (combine ks ps)))) ->
    mapM (fun k => lookup f (full_path (lf_name l) k)) ks = Err KeyError).
  { induction ks as [|k ks IH]; intros [|p ps] LL NN II HH; try discriminate LL; [destruct II|]. simpl. inversion NN; subst.
    assert (NI : forall k' ps', In (full_path (lf_name l) k') (map fst (flat_map (fun kv : string * option A => match snd kv with Some v => [(full_path (lf_name l) (fst kv), v)] | None => [] end) (combine ks ps'))) -> In k' ks).
    { intros k' ps' X. apply in_map_iff in X. destruct X as ([q v] & X1 & X2). apply in_flat_map in X2. destruct X2 as ([k2 [w|]] & X2 & X3); [|destruct X3]. destruct X3 as [X3|[]]. injection X3 as <- <-. simpl in X1. apply INJ in X1. subst k'. apply in_combine_l in X2. exact X2. }
    destruct p as [v|].
    - assert (LKv : exists r, lookup f (full_path (lf_name l) k) = r /\ (r = Err KeyError \/ exists w, r = Ok w)). { eexists. split; [reflexivity|]. unfold lookup. destruct (find _ f); eauto. }
      destruct LKv as (r & -> & [->|(w & ->)]); [reflexivity|]. cbn [bind]. rewrite (IH ps); [reflexivity|injection LL; auto|assumption|destruct II as [II|II]; [discriminate|exact II]|].
      intros k' K' X. specialize (HH k' (or_intror K') X). simpl in HH. destruct HH as [HH|HH]; [apply INJ in HH; subst k'; contradiction|exact HH].
    - rewrite LK; [reflexivity|]. intros X. specialize (HH k (or_introl eq_refl) X). simpl in HH. apply NI in HH. contradiction. }
  apply (GEN _ _ L ND I). intros k K. rewrite F. auto.
Qed.
End Spec.

(** ** Application *)
Section Predict.
Context {A X : Type} (r32 : A -> A) (ncols : A -> Z) (apply1 : tcls -> list (option A) -> X -> res X).
Fixpoint in_turn (ls : list (leaf A)) (x : X) : res X := match ls with [] => Ok x | l :: ls => x <- apply1 (lf_cls l) (lf_params l) x ;; in_turn ls x end.
Lemma in_turn_app a b x : in_turn (a ++ b) x = bind (in_turn a x) (in_turn b).
Proof. revert x. induction a as [|l a IH]; intros x; [reflexivity|]. simpl. destruct (apply1 _ _ x); [apply IH|reflexivity]. Qed.
(** A (nested) list of transforms applies its transforms in order. *)
Theorem C68_predict t : forall x, predict apply1 t x = in_turn (leaves t) x.
Proof.
  induction t as [l|n ts IH] using tr_rect'; intros x.
  - simpl. destruct (apply1 (lf_cls l) (lf_params l) x); reflexivity.
  - simpl. revert x. induction IH as [|t ts IH _ IHts]; intros x; [reflexivity|]. simpl. rewrite in_turn_app, IH. destruct (in_turn (leaves t) x); [apply IHts|reflexivity].
Qed.
(** A loaded transform computes what the saved one computes with its parameters in saving precision. *)
Theorem C68_predict_after_load t x : predict apply1 (reloaded r32 ncols t) x =
  in_turn (map (fun l => mk_leaf (lf_cls l) (lf_name l) (map (option_map r32) (lf_params l)) (lf_upd_mu l) (lf_upd_T l) (lf_dim l)) (leaves t)) x.
Proof.
  rewrite C68_predict. assert (E : forall (a b : list (leaf A)), map (fun l => (lf_cls l, lf_params l)) a = map (fun l => (lf_cls l, lf_params l)) b -> in_turn a x = in_turn b x).
  { intros a. revert x. induction a as [|l a IH]; intros x [|m b] H; try discriminate H; [reflexivity|]. simpl in *. injection H as H1 H2 H3. rewrite H1, H2. destruct (apply1 (lf_cls m) (lf_params m) x); [apply IH; exact H3|reflexivity]. }
  apply E. rewrite map_map. simpl. clear E x.
  assert (SN : forall n (t : tr A), map (fun l => (lf_cls l, lf_params l)) (leaves (set_name n t)) = map (fun l => (lf_cls l, lf_params l)) (leaves t)) by (intros n [l|m ts]; reflexivity).
  assert (RL : forall n (t : tr A), map (fun l => (lf_cls l, lf_params l)) (leaves (relabel n t)) = map (fun l => (lf_cls l, lf_params l)) (leaves t)) by (intros [n|] t0; unfold relabel; [destruct (tr_name t0); [apply SN|reflexivity]|reflexivity]).
  induction t as [l|n ts IH] using tr_rect'; [reflexivity|]. simpl. induction IH as [|t ts IH _ IHts]; [reflexivity|]. simpl. rewrite !map_app, IHts, RL, IH. reflexivity.
Qed.
(** [append] to a list without a name and the constructor make well-formed objects out of well-formed ones. *)
Theorem C68_constructor n ts t : Forall wf ts -> make_list n ts = Ok t -> @wf A t /\ flat_map (fun t => map (fun l => (lf_cls l, lf_params l)) (leaves t)) ts = map (fun l => (lf_cls l, lf_params l)) (leaves t).
Proof.
  intros W H. unfold make_list in H. destruct n as [s|].
  - destruct (mapM (prefixed s) ts) as [ts'|] eqn:M; [|discriminate]. injection H as <-. apply mapM_ok_iff in M. simpl.
    assert (P : Forall wf ts' /\ (forall t, In t ts' -> exists m, tr_name t = Some m) /\ flat_map (fun t => map (fun l => (lf_cls l, lf_params l)) (leaves t)) ts = map (fun l => (lf_cls l, lf_params l)) (flat_map leaves ts')).
    { induction M as [|t t' ts ts' E _ IH]; [split; [constructor|split; [intros ? []|reflexivity]]|]. inversion W; subst. destruct (IH H2) as (I1 & I2 & I3). unfold prefixed in E. destruct (tr_name t) as [m|] eqn:T; [|discriminate]. injection E as <-. split; [|split].
      - constructor; [|exact I1]. destruct t as [l|k us]; simpl; inversion H1 as [? HL|? ? HF HN]; subst; [apply wf_leaf; exact HL|]. apply wf_list; [exact HF|]. intros s' t E U. simpl in T. exact (HN m t T U).
      - intros u [<-|U]; [|auto]. exists (s ++ "/" ++ m)%string. destruct t; reflexivity.
      - simpl. rewrite I3, map_app. f_equal. destruct t; reflexivity. }
    destruct P as (P1 & P2 & P3). split; [|exact P3]. constructor; [exact P1|]. intros s' t E T. injection E as <-. apply P2. exact T.
  - injection H as <-. split; [constructor; [exact W|intros; discriminate]|]. simpl. clear W. induction ts as [|t ts IH]; [reflexivity|]. simpl. rewrite IH, map_app. reflexivity.
Qed.
End Predict.
(** The names grow with each generation: the list "tl" with "cw" inside saves "tl/cw", loads it back as "tl/tl/cw". *)
Theorem C68_names_kept_refuted : exists (t t' : tr Z), make_list (Some "tl"%string) [Leaf (mk_leaf CentWhiten (Some "cw"%string) [Some 1; Some 2] true true None)] = Ok t /\
  (exists file, save (fun x => x) "d" t = Ok file /\ load (fun x => x) file = Ok t') /\
  map lf_name (leaves t) = [Some "tl/cw"%string] /\ map lf_name (leaves t') = [Some "tl/tl/cw"%string].
Proof. eexists _, _. split; [reflexivity|]. split; [eexists; split; vm_compute; reflexivity|]. split; reflexivity. Qed.
(** two members with the same name cannot be saved *)
Theorem C68_same_name_refuted : exists t : tr Z, make_list None [Leaf (mk_leaf LNorm (Some "a"%string) [Some 1; Some 2] true true None); Leaf (mk_leaf PCA (Some "a"%string) [Some 3; Some 4] true true None)] = Ok t /\
  save (fun x => x) "d" t = Err ValueError.
Proof. eexists. split; [reflexivity|]. vm_compute. reflexivity. Qed.
Example C68_witness : let t := TList None [Leaf (mk_leaf CentWhiten (Some "cw"%string) [Some 1; Some 2] false true None); Leaf (mk_leaf LDA (Some "lda"%string) [Some 3; Some 4] true true None)] in
  wf t /\ complete t /\ exists file, save (fun x => x) "d" t = Ok file /\ load (fun x => x) file = Ok (TList None [Leaf (mk_leaf CentWhiten (Some "cw"%string) [Some 1; Some 2] true true None); Leaf (mk_leaf LDA (Some "lda"%string) [Some 3; Some 4] true true (Some 4))]).
Proof.
  intros t. split; [constructor; [repeat constructor|intros; discriminate]|]. split; [intros l [<-|[<-|[]]]; repeat constructor; discriminate|]. eexists. split; vm_compute; reflexivity.
Qed.
(** The accumulated scatter statistics are lost: accum_stats returns an object without matrices. *)
Theorem C66_accum_stats_refuted {M} (madd : M -> M -> M) z stats r : accum_stats madd z stats = Ok r -> sb_Sb r = None /\ sb_Sw r = None /\ sb_mu r = None.
Proof.
  unfold accum_stats. destruct stats as [|s0 stats]; [discriminate|]. destruct (sb_mu s0), (sb_Sb s0), (sb_Sw s0); try discriminate.
  match goal with |- bind ?e _ = _ -> _ => destruct e as [[[[a b] c] d]|]; [|discriminate] end. cbn [bind]. intros H. injection H as <-. repeat split; reflexivity.
Qed.
Theorem C66_sbsw_load_refuted {M} : @sbsw_load M = Err NameError.
Proof. reflexivity. Qed.
Print Assumptions C68_save. Print Assumptions C68_round_trip. Print Assumptions C68_unset_parameter_refuted. Print Assumptions C68_predict_after_load.
