(** Lemmas for FoldsProps.v *)
From Verif Require Import Folds TrialsProofs TrialsTextProofs.
Open Scope list_scope.
Open Scope Z_scope.

Lemma fill_at_length {A} (l : list A) idx v : len (fill_at l idx v) = len l.
Proof. unfold fill_at. rewrite map_length, combine_length, seq_length. lia. Qed.

Lemma combine_seq_nth {A} (l : list A) : forall a p, nth_error (combine (seq a (len l)) l) p = option_map (fun x => ((a + p)%nat, x)) (nth_error l p).
Proof.
  induction l as [|x l IH]; intros a [|p]; cbn; try reflexivity; [f_equal; f_equal; lia|]. rewrite IH. destruct (nth_error l p); cbn; [f_equal; f_equal; lia|reflexivity].
Qed.

Lemma fill_at_nth {A} (l : list A) idx v p : nth_error (fill_at l idx v) p =
  option_map (fun x => if existsb (Nat.eqb p) idx then v else x) (nth_error l p).
Proof.
  unfold fill_at. rewrite nth_error_map, combine_seq_nth. destruct (nth_error l p); cbn; reflexivity.
Qed.

Lemma existsb_nat p idx : existsb (Nat.eqb p) idx = true <-> In p idx.
Proof. rewrite existsb_exists. split; [intros (x & H & E); apply Nat.eqb_eq in E; subst; exact H|intros H; exists p; split; [exact H|apply Nat.eqb_refl]]. Qed.

(** several successive fills with disjoint conditions *)
Lemma fills_length {A J} (idx : list nat) (ok : J -> nat -> bool) (v : J -> A) js : forall fs,
  len (fold_left (fun fs j => fill_at fs (filter (ok j) idx) (v j)) js fs) = len fs.
Proof. induction js as [|j js IH]; intros fs; cbn; [reflexivity|]. rewrite IH. apply fill_at_length. Qed.

Lemma fills_other {A J} (idx : list nat) (ok : J -> nat -> bool) (v : J -> A) js p : forall fs,
  (forall j, In j js -> ~ (In p idx /\ ok j p = true)) ->
  nth_error (fold_left (fun fs j => fill_at fs (filter (ok j) idx) (v j)) js fs) p = nth_error fs p.
Proof.
  induction js as [|j js IH]; intros fs H; cbn; [reflexivity|]. rewrite IH by (intros j' Hj'; apply H; right; exact Hj'). rewrite fill_at_nth.
  destruct (existsb (Nat.eqb p) (filter (ok j) idx)) eqn:E; [|destruct (nth_error fs p); reflexivity].
  apply existsb_nat in E. apply filter_In in E. exfalso. exact (H j (or_introl eq_refl) E).
Qed.

Lemma fills_one {A J} (idx : list nat) (ok : J -> nat -> bool) (v : J -> A) js p j0 : forall fs,
  In p idx -> (p < len fs)%nat -> In j0 js -> ok j0 p = true -> (forall j, In j js -> ok j p = true -> j = j0) ->
  nth_error (fold_left (fun fs j => fill_at fs (filter (ok j) idx) (v j)) js fs) p = Some (v j0).
Proof.
  intros fs Hp Hlt Hin Hok Huniq.
  assert (G : forall fs, (p < len fs)%nat -> (In j0 js \/ nth_error fs p = Some (v j0)) ->
    nth_error (fold_left (fun fs j => fill_at fs (filter (ok j) idx) (v j)) js fs) p = Some (v j0)).
  { clear fs Hlt Hin. induction js as [|j js IH]; intros fs Hlt H; cbn.
    - destruct H as [[]|H]; exact H.
    - apply IH; [intros j' Hj'; apply Huniq; right; exact Hj'|rewrite fill_at_length; exact Hlt|].
      rewrite fill_at_nth. destruct (nth_error fs p) as [x|] eqn:E; [|apply nth_error_None in E; lia]. cbn [option_map].
      destruct (existsb (Nat.eqb p) (filter (ok j) idx)) eqn:X.
      + right. apply existsb_nat in X. apply filter_In in X as (_ & X). rewrite (Huniq j (or_introl eq_refl) X). reflexivity.
      + destruct H as [[->|H]|H]; [|left; exact H|right; congruence].
        assert (Y : existsb (Nat.eqb p) (filter (ok j0) idx) = true) by (apply existsb_nat, filter_In; auto). congruence. }
  apply G; auto.
Qed.

(** boundaries: an increasing sequence from 0 to n *)
Definition bounds (b : nat -> Z) (K : nat) (n : Z) : Prop :=
  b 0%nat = 0 /\ b K = n /\ forall j, (j < K)%nat -> b j <= b (S j).

Lemma bounds_mono b K n : bounds b K n -> forall j j', (j <= j')%nat -> (j' <= K)%nat -> b j <= b j'.
Proof.
  intros (_ & _ & M) j j' H. induction H as [|j' H IH]; intros HK; [lia|]. specialize (M j' ltac:(lia)). specialize (IH ltac:(lia)). lia.
Qed.

Lemma bounds_find b K n x : bounds b K n -> 0 <= x < n -> exists j, (j < K)%nat /\ b j <= x < b (S j).
Proof.
  intros (B0 & BK & M) Hx. clear M.
  assert (G : forall k, (k <= K)%nat -> x < b k -> exists j, (j < k)%nat /\ b j <= x < b (S j)).
  { induction k as [|k IH]; intros Hk Hb; [lia|]. destruct (Z_lt_le_dec x (b k)) as [L|L].
    - destruct (IH ltac:(lia) L) as (j & ? & ?). exists j. split; [lia|auto].
    - exists k. split; [lia|lia]. }
  destruct (G K (le_n K) ltac:(lia)) as (j & Hj & H). exists j. split; [lia|exact H].
Qed.

Lemma bounds_uniq b K n x j j' : bounds b K n -> (j < K)%nat -> (j' < K)%nat -> b j <= x < b (S j) -> b j' <= x < b (S j') -> j = j'.
Proof.
  intros B Hj Hj' H H'. destruct (lt_eq_lt_dec j j') as [[L|E]|L]; [|exact E|].
  - pose proof (bounds_mono b K n B (S j) j' ltac:(lia) ltac:(lia)). lia.
  - pose proof (bounds_mono b K n B (S j') j ltac:(lia) ltac:(lia)). lia.
Qed.

(** ** one class *)

Definition gname (grp : list string) (p : nat) : string := nth p grp EmptyString.

Lemma take_gname grp idx : Forall (fun p => (p < len grp)%nat) idx -> take grp (map Z.of_nat idx) = Ok (map (gname grp) idx).
Proof.
  intros F. apply locs_take. unfold locs. induction F as [|p idx Hp F IH]; cbn; constructor; [|exact IH].
  exists p. split; [reflexivity|]. unfold gname. apply nth_error_nth'. exact Hp.
Qed.

(** the number given to the group of position [p] *)
Definition rank (shuf : option (list nat)) (gs : list string) (g : string) : nat :=
  match shuf with None => ix gs g | Some p => nth (ix gs g) p 0%nat end.

Definition shuf_fits (shuf : option (list nat)) (n : nat) : Prop := match shuf with None => True | Some p => Permutation p (seq 0 n) end.

Lemma rank_lt shuf gs g : shuf_fits shuf (len gs) -> In g gs -> (rank shuf gs g < len gs)%nat.
Proof.
  intros S Hg. assert (L : (ix gs g < len gs)%nat) by (apply nth_error_Some; rewrite ix_nth by exact Hg; discriminate).
  destruct shuf as [p|]; cbn [rank]; [|exact L]. cbn in S.
  assert (In (nth (ix gs g) p 0%nat) (seq 0 (len gs))).
  { eapply Permutation_in; [exact S|]. apply nth_In. rewrite (Permutation_length S), seq_length. exact L. }
  apply in_seq in H. lia.
Qed.

Lemma ng_unique (l : list string) : l <> [] -> S (list_max (inverse l)) = len (unique l).
Proof. intros H. pose proof (inverse_max l H). lia. Qed.

Lemma class_step_ok bd K shuf bal grp i folds : len bal = len folds -> len grp = len folds ->
  let idx := nonzero (map (fun b => b =? Z.of_nat i) bal) in
  let gs := unique (map (gname grp) idx) in
  idx <> [] -> shuf_fits shuf (len gs) -> bounds (bd (len gs)) K (Z.of_nat (len gs)) ->
  exists folds', class_step bd K shuf bal grp i folds = Ok folds' /\ len folds' = len folds /\
    forall p, (nth_error bal p = Some (Z.of_nat i) -> exists j, (j < K)%nat /\ nth_error folds' p = Some (Z.of_nat j) /\
                 bd (len gs) j <= Z.of_nat (rank shuf gs (gname grp p)) < bd (len gs) (S j)) /\
              (nth_error bal p <> Some (Z.of_nat i) -> nth_error folds' p = nth_error folds p).
Proof.
  intros L1 L2 idx gs NE SF BD. unfold class_step. fold idx.
  assert (IDX : forall p, In p idx <-> nth_error bal p = Some (Z.of_nat i)).
  { intros p. unfold idx. rewrite nonzero_in, nth_error_map. destruct (nth_error bal p) as [b|]; cbn; [|split; discriminate].
    split; [intros E; injection E as E; apply Z.eqb_eq in E; congruence|intros E; injection E as ->; rewrite Z.eqb_refl; reflexivity]. }
  assert (FI : Forall (fun p => (p < len grp)%nat) idx).
  { apply Forall_forall. intros p Hp. apply IDX in Hp. assert (p < len bal)%nat by (apply nth_error_Some; congruence). lia. }
  rewrite (take_gname grp idx FI). cbn [bind].
  assert (NE' : map (gname grp) idx <> []) by (destruct idx; [congruence|discriminate]).
  rewrite ng_unique by exact NE'. rewrite !inverse_ix. fold gs.
  assert (MX : exists z, np_max (map Z.of_nat (map (ix gs) (map (gname grp) idx))) = Ok z) by (destruct idx; [congruence|eexists; reflexivity]).
  destruct MX as (z & ->). cbn [bind].
  assert (IG : forall p, In p idx -> In (gname grp p) gs) by (intros p Hp; apply unique_in, in_map; exact Hp).
  assert (SH : match shuf with None => Ok (map (ix gs) (map (gname grp) idx)) | Some p => mapM (fun k => get_item p (Z.of_nat k)) (map (ix gs) (map (gname grp) idx)) end
    = Ok (map (fun p => rank shuf gs (gname grp p)) idx)).
  { destruct shuf as [pm|]; cbn [rank]; [|rewrite map_map; reflexivity]. cbn in SF. rewrite map_map.
    assert (Q : forall l, incl l idx -> mapM (fun k => get_item pm (Z.of_nat k)) (map (fun x => ix gs (gname grp x)) l) = Ok (map (fun p => nth (ix gs (gname grp p)) pm 0%nat) l)).
    { induction l as [|p l IH]; intros I; [reflexivity|]. cbn [map mapM].
      assert (Lp : (ix gs (gname grp p) < len pm)%nat).
      { rewrite (Permutation_length SF), seq_length. apply nth_error_Some. rewrite ix_nth by (apply IG, I; left; reflexivity). discriminate. }
      rewrite (get_item_nat pm _ (nth (ix gs (gname grp p)) pm 0%nat)) by (apply nth_error_nth'; exact Lp). cbn [bind].
      rewrite IH by (intros q Hq; apply I; right; exact Hq). reflexivity. }
    apply Q. apply incl_refl. }
  rewrite SH. cbn [bind].
  set (ok := fun j p => (bd (len gs) j <=? Z.of_nat (rank shuf gs (gname grp p))) && (Z.of_nat (rank shuf gs (gname grp p)) <? bd (len gs) (S j))).
  assert (FX : forall js fs, fold_left (fun fs j => fill_at fs (sel (map (fun k => (bd (len gs) j <=? Z.of_nat k) && (Z.of_nat k <? bd (len gs) (S j))) (map (fun p => rank shuf gs (gname grp p)) idx)) idx) (Z.of_nat j)) js fs =
    fold_left (fun fs j => fill_at fs (filter (ok j) idx) (Z.of_nat j)) js fs).
  { induction js as [|j js IH]; intros fs; cbn [fold_left]; [reflexivity|]. rewrite map_map, sel_filter. apply IH. }
  rewrite FX. eexists. split; [reflexivity|]. split; [apply fills_length|]. intros p. split.
  - intros Hp. apply IDX in Hp as Hi. pose proof (rank_lt shuf gs _ SF (IG p Hi)) as RL.
    destruct (bounds_find _ _ _ (Z.of_nat (rank shuf gs (gname grp p))) BD ltac:(lia)) as (j & Hj & Bj). exists j. split; [exact Hj|]. split; [|exact Bj].
    apply (fills_one idx ok (fun j => Z.of_nat j) (seq 0 K) p j); [exact Hi| | | |].
    + assert (p < len bal)%nat by (apply nth_error_Some; congruence). lia.
    + apply in_seq. lia.
    + unfold ok. apply andb_true_iff. split; [apply Z.leb_le; lia|apply Z.ltb_lt; lia].
    + intros j' Hj' Ho. unfold ok in Ho. apply andb_true_iff in Ho as (O1 & O2). apply Z.leb_le in O1. apply Z.ltb_lt in O2. apply in_seq in Hj'.
      eapply bounds_uniq; [exact BD| | |exact (conj O1 O2)|exact Bj]; lia.
  - intros Hp. apply (fills_other idx ok (fun j => Z.of_nat j)). intros j Hj (Hi & _). apply IDX in Hi. contradiction.
Qed.

(** ** all classes *)

Definition shuf_at (shuf : option (nat -> list nat)) (i : nat) : option (list nat) := match shuf with None => None | Some f => Some (f i) end.
Definition class_groups (bal : list Z) (grp : list string) (i : nat) : list string :=
  unique (map (gname grp) (nonzero (map (fun b => b =? Z.of_nat i) bal))).

Lemma classes_ok bd K shuf bal grp (is : list nat) : forall folds, len bal = len folds -> len grp = len folds -> NoDup is ->
  (forall i, In i is -> In (Z.of_nat i) bal) ->
  (forall i, In i is -> shuf_fits (shuf_at shuf i) (len (class_groups bal grp i)) /\
     bounds (bd (len (class_groups bal grp i))) K (Z.of_nat (len (class_groups bal grp i)))) ->
  exists folds', foldM (fun fs i => class_step bd K (shuf_at shuf i) bal grp i fs) folds is = Ok folds' /\ len folds' = len folds /\
    forall p, (forall i, In i is -> nth_error bal p = Some (Z.of_nat i) -> exists j, (j < K)%nat /\ nth_error folds' p = Some (Z.of_nat j) /\
                 bd (len (class_groups bal grp i)) j <= Z.of_nat (rank (shuf_at shuf i) (class_groups bal grp i) (gname grp p)) < bd (len (class_groups bal grp i)) (S j)) /\
              ((forall i, In i is -> nth_error bal p <> Some (Z.of_nat i)) -> nth_error folds' p = nth_error folds p).
Proof.
  induction is as [|i is IH]; intros folds L1 L2 ND CL HS.
  - exists folds. split; [reflexivity|]. split; [reflexivity|]. intros p. split; [intros i []|reflexivity].
  - inversion ND as [|? ? Ni ND']; subst. cbn [foldM].
    assert (NE : nonzero (map (fun b => b =? Z.of_nat i) bal) <> []).
    { pose proof (CL i (or_introl eq_refl)) as Hin. apply In_nth_error in Hin as (p & Hp). intros E.
      assert (X : In p (nonzero (map (fun b => b =? Z.of_nat i) bal))) by (apply nonzero_in; rewrite nth_error_map, Hp; cbn; rewrite Z.eqb_refl; reflexivity).
      rewrite E in X. destruct X. }
    destruct (HS i (or_introl eq_refl)) as (S1 & B1).
    destruct (class_step_ok bd K (shuf_at shuf i) bal grp i folds L1 L2 NE S1 B1) as (f1 & E1 & Lf1 & P1). rewrite E1. cbn [bind].
    destruct (IH f1 ltac:(congruence) ltac:(congruence) ND') as (f2 & E2 & Lf2 & P2).
    { intros k Hk. apply CL. right. exact Hk. } { intros k Hk. apply HS. right. exact Hk. }
    exists f2. split; [exact E2|]. split; [congruence|]. intros p. destruct (P1 p) as (P1a & P1b). destruct (P2 p) as (P2a & P2b). split.
    + intros k [<-|Hk] Hp; [|apply P2a; assumption]. destruct (P1a Hp) as (j & Hj & Ej & Bj). exists j. split; [exact Hj|]. split; [|exact Bj].
      rewrite P2b; [exact Ej|]. intros k' Hk' Hp'. assert (k' = i) by (apply Nat2Z.inj; congruence). subst. contradiction.
    + intros H. rewrite P2b by (intros k Hk; apply H; right; exact Hk). apply P1b. apply H. left. reflexivity.
Qed.
