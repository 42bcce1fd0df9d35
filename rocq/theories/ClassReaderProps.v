(** Pruning and splitting of classes (VectorClassReader). *)
From Coq Require Import Lia Permutation.
From Verif Require Import BaseFacts Str StrFacts ListUtilsProofs Utt2Info Utt2InfoProps ClassReader.
Open Scope list_scope.
Open Scope Z_scope.

(** ** Specification *)
(** the rows of class c, in order *)
Definition class_rows (c : string) (rows : list u2row) : list u2row := filter (fun r => eqb (snd r) c) rows.
(** rng.choice without replacement: the asked number of distinct elements of the list *)
Definition valid_choice (choice : nat -> list nat -> nat -> list nat) : Prop :=
  forall k l n, NoDup l -> (n <= List.length l)%nat -> NoDup (choice k l n) /\ incl (choice k l n) l /\ List.length (choice k l n) = n.
(** overlapping windows of at most mx elements *)
Definition windows {A} (mx overlap : nat) (L : list A) : list (list A) :=
  if (List.length L <=? mx)%nat then [L]
  else map (fun k => firstn mx (skipn (k * (mx - overlap)) L)) (seq 0 (S ((List.length L - mx + (mx - overlap) - 1) / (mx - overlap)))).
(** the sub-classes, numbered, with those smaller than mn left out *)
Definition labelled (mn : Z) (ps : list (list u2row)) : list u2row :=
  flat_map (fun q => if mn <=? Z.of_nat (List.length (snd q)) then map (fun r : u2row => (fst r, fmt_d (Z.of_nat (fst q)))) (snd q) else []) (combine (seq 0 (List.length ps)) ps).

(** ** Facts about positions *)
Definition rowd (rows : list u2row) (p : nat) : u2row := nth p rows (EmptyString, EmptyString).
Lemma filter_sel_gen (q : u2row -> bool) g rows : forall k, filter q (sel (map g (seq k (List.length rows))) rows) = map (fun p => nth (p - k) rows (EmptyString, EmptyString)) (filter g (nonzero_from k (map q rows))).
Proof.
  induction rows as [|r rows IH]; intros k; [reflexivity|]. cbn [List.length seq map sel nonzero_from].
  assert (E : map (fun p => nth (p - k) (r :: rows) (EmptyString, EmptyString)) (filter g (nonzero_from (S k) (map q rows))) = filter q (sel (map g (seq (S k) (List.length rows))) rows)).
  { rewrite IH. apply map_ext_in. intros p I. apply filter_In in I as (I & _). apply nonzero_from_in in I. replace (p - k)%nat with (S (p - S k)) by lia. reflexivity. }
  destruct (q r) eqn:Q, (g k) eqn:G; cbn [filter]; rewrite ?Q, ?G; cbn [map]; rewrite E, ?Nat.sub_diag; reflexivity.
Qed.
Lemma filter_sel q g rows : filter q (sel (map g (seq 0 (List.length rows))) rows) = map (rowd rows) (filter g (nonzero (map q rows))).
Proof. unfold nonzero. rewrite filter_sel_gen. apply map_ext. intros p. rewrite Nat.sub_0_r. reflexivity. Qed.
Lemma nonzero_rows q rows : map (rowd rows) (nonzero (map q rows)) = filter q rows.
Proof.
  pose proof (filter_sel q (fun _ => true) rows) as H. assert (F : forall l : list nat, filter (fun _ => true) l = l) by (induction l as [|x l IH]; [reflexivity|]; cbn; rewrite IH; reflexivity). rewrite F in H. rewrite <- H. f_equal. clear. generalize 0%nat. induction rows as [|r rows IH]; intros k; [reflexivity|]. cbn. f_equal. apply (IH (S k)).
Qed.
Lemma where_class_eq rows i c : nth_error (unique (infos rows)) i = Some c -> where_class rows i = nonzero (map (fun r => eqb (snd r) c) rows).
Proof.
  intros E. unfold where_class. f_equal. unfold inverse. unfold infos at 2. rewrite !map_map. apply map_ext_in. intros r I. 
  destruct (index_of_in (snd r) (unique (infos rows))) as (k & K1 & K2 & K3); [apply (proj2 (unique_in _ _)); unfold infos; apply in_map; exact I|]. rewrite K1. destruct (eqb (snd r) c) eqn:Q.
  - apply eqb_eq in Q. subst c. apply Nat.eqb_eq. apply (proj1 (NoDup_nth_error _) (unique_nodup (infos rows))); [exact K2|congruence].
  - apply Nat.eqb_neq. intros ->. rewrite K3 in E. injection E as E. assert (eqb (snd r) c = true) by (apply eqb_eq; exact E). congruence.
Qed.
Lemma where_class_rows rows i c : nth_error (unique (infos rows)) i = Some c -> map (rowd rows) (where_class rows i) = class_rows c rows.
Proof. intros E. rewrite (where_class_eq rows i c E). apply nonzero_rows. Qed.
Lemma num_spc_count rows i c : nth_error (unique (infos rows)) i = Some c -> num_spc rows i = List.length (class_rows c rows).
Proof. intros E. unfold num_spc. rewrite <- (where_class_rows rows i c E), map_length. reflexivity. Qed.
Lemma where_class_bound rows i p : In p (where_class rows i) -> (p < List.length rows)%nat.
Proof. unfold where_class. intros I. apply nonzero_in in I. assert (H : (p < List.length (map (fun d => Nat.eqb d i) (inverse (infos rows))))%nat) by (apply nth_error_Some; congruence). rewrite map_length, inverse_length in H. unfold infos in H. rewrite map_length in H. exact H. Qed.
Lemma where_class_id rows i p : In p (where_class rows i) -> nth_error (inverse (infos rows)) p = Some i.
Proof. unfold where_class. intros I. apply nonzero_in in I. rewrite nth_error_map in I. destruct (nth_error _ p) as [d|]; [|discriminate]. cbn in I. injection I as I. apply Nat.eqb_eq in I. congruence. Qed.
Lemma class_empty rows c : ~ In c (unique (infos rows)) -> class_rows c rows = [].
Proof. intros N. unfold class_rows. destruct (filter _ rows) as [|r l] eqn:E; [reflexivity|]. exfalso. assert (I : In r (filter (fun r => eqb (snd r) c) rows)) by (rewrite E; left; reflexivity). apply filter_In in I as (I & Q). apply eqb_eq in Q. apply N, (proj2 (unique_in _ _)). unfold infos. rewrite <- Q. apply in_map. exact I. Qed.
Lemma class_nonempty rows c : In c (unique (infos rows)) -> (1 <= List.length (class_rows c rows))%nat.
Proof. intros I. apply (proj1 (unique_in _ _)) in I. unfold infos in I. apply in_map_iff in I. destruct I as (r & E & I). assert (X : In r (class_rows c rows)) by (unfold class_rows; apply filter_In; split; [exact I|apply eqb_eq; exact E]). destruct (class_rows c rows); [destruct X|cbn; lia]. Qed.

(** the minimum: the rows of the classes that are large enough *)
Lemma min_filter choice rows mn mode : filter_by_spc choice rows (Some mn) None mode = Ok (filter (fun r => mn <=? Z.of_nat (List.length (class_rows (snd r) rows))) rows).
Proof.
  unfold filter_by_spc. destruct (Z.leb_spec mn 1) as [L|L]; cbn [andb].
  - f_equal. symmetry. rewrite <- (filter_ext_in (fun _ => true)); [induction rows as [|r rows IH]; [reflexivity|]; cbn; f_equal; assumption|]. intros r I. symmetry. apply Z.leb_le. pose proof (class_nonempty rows (snd r) ltac:(apply (proj2 (unique_in _ _)); unfold infos; apply in_map; exact I)). lia.
  - destruct (Z.ltb_spec 1 mn) as [_|]; [|lia]. cbv zeta. set (U := unique (infos rows)). set (fk := map fst _).
    assert (FK : forall c, In c fk <-> In c U /\ mn <= Z.of_nat (List.length (class_rows c rows))).
    { intros c. unfold fk. rewrite in_map_iff. split.
      - intros ((a & i) & E & I). cbn in E. subst a. apply filter_In in I as (I & Q). apply Z.leb_le in Q. cbn [snd] in Q. apply In_nth_error in I. destruct I as (j & Ej). assert (Lj : (j < List.length U)%nat) by (assert (X : (j < List.length (combine U (seq 0 (List.length U))))%nat) by (apply nth_error_Some; congruence); rewrite combine_length in X; lia).
        assert (Ec : nth_error U j = Some c /\ i = j). { clear - Ej Lj. assert (G : forall (l : list string) s j c i, nth_error (combine l (seq s (List.length l))) j = Some (c, i) -> nth_error l j = Some c /\ i = (s + j)%nat). { clear. induction l as [|x l IH]; intros s [|j] c i E; try discriminate; cbn in E. - injection E as <- <-. split; [reflexivity|lia]. - apply IH in E. destruct E as (A & ->). split; [exact A|lia]. } apply (G U 0%nat j c i Ej). }
        destruct Ec as (Ec & ->). split; [apply (nth_error_In _ _ Ec)|]. rewrite <- (num_spc_count rows j c Ec). exact Q.
      - intros (I & Q). apply In_nth_error in I. destruct I as (j & Ej). exists (c, j). split; [reflexivity|]. apply filter_In. split; [|cbn [snd]; apply Z.leb_le; rewrite (num_spc_count rows j c Ej); exact Q]. assert (Lj : (j < List.length U)%nat) by (apply nth_error_Some; congruence).
        assert (G : forall (l : list string) s j c, nth_error l j = Some c -> nth_error (combine l (seq s (List.length l))) j = Some (c, (s + j)%nat)). { clear. induction l as [|x l IH]; intros s [|j] c E; try discriminate; cbn in E |- *. - injection E as <-. rewrite Nat.add_0_r. reflexivity. - rewrite (IH (S s) j c E). do 2 f_equal. lia. } apply (nth_error_In _ j). apply (G U 0%nat j c Ej). }
    destruct (proj1 (C60_filter_info (u2i_new rows) fk)) as (o & Eo & Ro). { intros v Iv. apply FK in Iv. destruct Iv as (Iv & _). apply (proj1 (unique_in _ _)) in Iv. unfold infos in Iv. apply in_map_iff in Iv. destruct Iv as (r & <- & Ir). exists r. split; [exact Ir|reflexivity]. }
    rewrite Eo. cbn [bind]. rewrite Ro. cbn [u_rows u2i_new]. f_equal. apply filter_ext_in. intros r I. destruct (inb (snd r) fk) eqn:Q.
    + apply inb_iff, FK in Q. symmetry. apply Z.leb_le. apply Q.
    + apply inb_false in Q. symmetry. apply Z.leb_gt. destruct (Z.lt_ge_cases (Z.of_nat (List.length (class_rows (snd r) rows))) mn) as [X|X]; [exact X|]. exfalso. apply Q, FK. split; [apply (proj2 (unique_in _ _)); unfold infos; apply in_map; exact I|exact X].
Qed.
Lemma class_rows_filter (f : string -> bool) c rows : class_rows c (filter (fun r => f (snd r)) rows) = if f c then class_rows c rows else [].
Proof.
  unfold class_rows. induction rows as [|r rows IH]; cbn; [destruct (f c); reflexivity|]. destruct (f (snd r)) eqn:F; cbn; destruct (eqb (snd r) c) eqn:Q; rewrite IH; destruct (f c) eqn:C; try reflexivity; apply eqb_eq in Q; congruence.
Qed.

Lemma subset_count (R P : list nat) : NoDup P -> NoDup R -> incl R P -> List.length (filter (fun p => negb (existsb (Nat.eqb p) R)) P) = (List.length P - List.length R)%nat.
Proof.
  revert P. induction R as [|x R IH]; intros P NP NR I.
  - cbn. rewrite Nat.sub_0_r. f_equal. induction P as [|y P IHP]; [reflexivity|]. cbn. f_equal. apply IHP. inversion NP; assumption. intros ? [].
  - inversion NR as [|? ? Nx NR']; subst. destruct (in_split x P (I x (or_introl eq_refl))) as (P1 & P2 & ->). assert (NP' : NoDup (P1 ++ P2)) by (apply NoDup_remove_1 in NP; exact NP). assert (Np : ~ In x (P1 ++ P2)) by (apply NoDup_remove_2 in NP; exact NP).
    assert (E : filter (fun p => negb (existsb (Nat.eqb p) (x :: R))) (P1 ++ x :: P2) = filter (fun p => negb (existsb (Nat.eqb p) R)) (P1 ++ P2)).
    { assert (G : forall l, ~ In x l -> filter (fun p => negb (existsb (Nat.eqb p) (x :: R))) l = filter (fun p => negb (existsb (Nat.eqb p) R)) l). { intros l Nl. apply filter_ext_in. intros p Ip. cbn. destruct (Nat.eqb_spec p x) as [->|]; [contradiction|reflexivity]. }
      rewrite !filter_app. cbn [filter existsb]. rewrite Nat.eqb_refl. cbn [orb negb]. rewrite !G; [reflexivity| |]; intros X; apply Np, in_or_app; auto. }
    rewrite E, IH; [rewrite !app_length; cbn; lia|exact NP'|exact NR'|]. intros y Iy. specialize (I y (or_intror Iy)). apply in_app_or in I. apply in_or_app. destruct I as [I|[->|I]]; [left; exact I|contradiction|right; exact I].
Qed.
Lemma filter_out_tail (A B : list nat) : NoDup (A ++ B) -> filter (fun p => negb (existsb (Nat.eqb p) B)) (A ++ B) = A /\ filter (fun p => negb (existsb (Nat.eqb p) A)) (A ++ B) = B.
Proof.
  intros N. assert (D : forall x, In x A -> In x B -> False). { intros x IA IB. destruct (in_split x A IA) as (A1 & A2 & ->). rewrite <- app_assoc in N. cbn in N. apply NoDup_remove_2 in N. apply N. apply in_or_app. right. apply in_or_app. right. exact IB. }
  assert (K : forall l q, (forall x, In x l -> In x q -> False) -> filter (fun p => negb (existsb (Nat.eqb p) q)) l = l). { induction l as [|x l IH]; intros q H; [reflexivity|]. cbn. destruct (existsb (Nat.eqb x) q) eqn:E; [apply existsb_exists in E; destruct E as (y & Iy & Ey); apply Nat.eqb_eq in Ey; subst y; exfalso; apply (H x (or_introl eq_refl) Iy)|]. cbn. rewrite IH; [reflexivity|]. intros y Iy. apply H. right. exact Iy. }
  assert (Z : forall l q, incl l q -> filter (fun p => negb (existsb (Nat.eqb p) q)) l = []). { induction l as [|x l IH]; intros q H; [reflexivity|]. cbn. assert (E : existsb (Nat.eqb x) q = true) by (apply existsb_exists; exists x; split; [apply H; left; reflexivity|apply Nat.eqb_refl]). rewrite E. cbn. apply IH. intros y Iy. apply H. right. exact Iy. }
  rewrite !filter_app. split.
  - rewrite (K A B) by exact D. rewrite (Z B B) by (intros x I; exact I). apply app_nil_r.
  - rewrite (Z A A) by (intros x I; exact I). apply K. intros x IB IA. apply (D x IA IB).
Qed.

(** ** Pruning: the rows kept are some of the rows, in order; a class below the minimum disappears, a class above the maximum keeps
    exactly max_spc rows: the first ones in mode 'last', the last ones in mode 'first'. *)
Theorem C45_prune : forall choice rows mn max_spc mode, valid_choice choice -> mode <> POther ->
  exists r, filter_by_spc choice rows (Some mn) max_spc mode = Ok r /\ (exists f, List.length f = List.length rows /\ r = sel f rows) /\
    forall c, let L := class_rows c rows in
      if Z.of_nat (List.length L) <? mn then class_rows c r = []
      else match max_spc with
           | None => class_rows c r = L
           | Some m => List.length (class_rows c r) = Nat.min (List.length L) m /\ (mode = PLast -> class_rows c r = firstn m L) /\ (mode = PFirst -> class_rows c r = skipn (List.length L - m) L)
           end.
Proof.
  intros choice rows mn mx mode V NO.
  set (rows1 := filter (fun r => mn <=? Z.of_nat (List.length (class_rows (snd r) rows))) rows).
  assert (F1 : rows1 = sel (map (fun r => mn <=? Z.of_nat (List.length (class_rows (snd r) rows))) rows) rows) by (unfold rows1; symmetry; apply sel_filter).
  assert (C1 : forall c, class_rows c rows1 = if Z.of_nat (List.length (class_rows c rows)) <? mn then [] else class_rows c rows). { intros c. unfold rows1. rewrite (class_rows_filter (fun s => mn <=? Z.of_nat (List.length (class_rows s rows))) c rows). destruct (Z.leb_spec mn (Z.of_nat (List.length (class_rows c rows)))), (Z.ltb_spec (Z.of_nat (List.length (class_rows c rows))) mn); try reflexivity; lia. }
  destruct mx as [m|].
  2: { rewrite min_filter. fold rows1. exists rows1. split; [reflexivity|]. split; [eexists; split; [|exact F1]; apply map_length|]. intros c. cbv zeta. rewrite C1. destruct (_ <? mn); reflexivity. }
  assert (E1 : filter_by_spc choice rows (Some mn) (Some m) mode = filter_by_spc choice rows1 (Some 0) (Some m) mode).
  { pose proof (min_filter choice rows mn mode) as H. unfold filter_by_spc in H |- *. destruct (Z.leb_spec mn 1) as [L|L]; cbn [andb] in *.
    - destruct (Z.ltb_spec 1 mn); [lia|]. cbn [bind]. injection H as H. fold rows1 in H. rewrite <- H. reflexivity.
    - destruct (Z.ltb_spec 1 mn) as [_|]; [|lia]. cbv zeta in *. destruct (u2i_filter_info _ _ _) as [o|]; [|discriminate]. cbn [bind] in *. injection H as H. fold rows1 in H. rewrite H. reflexivity. }
  rewrite E1. clear E1. unfold filter_by_spc. cbn [Z.leb Z.compare andb bind Z.ltb].
  assert (COMB : forall f, List.length f = List.length rows1 -> exists g, List.length g = List.length rows /\ sel f rows1 = sel g rows).
  { rewrite F1. generalize (map (fun r => mn <=? Z.of_nat (List.length (class_rows (snd r) rows))) rows) as a. clear. intros a f. revert a f. induction rows as [|r rows IH]; intros a f L.
    - exists []. split; [reflexivity|]. destruct a; cbn; destruct f; reflexivity.
    - destruct a as [|b a]; cbn in *.
      + exists (repeat false (S (List.length rows))). split; [apply repeat_length|]. destruct f; [|discriminate]. cbn. clear. induction rows; [reflexivity|exact IHrows].
      + destruct b; cbn in *.
        * destruct f as [|x f]; [discriminate|]. injection L as L. destruct (IH a f L) as (g & Lg & Eg). exists (x :: g). split; [cbn; lia|]. cbn. destruct x; rewrite Eg; reflexivity.
        * destruct (IH a f L) as (g & Lg & Eg). exists (false :: g). split; [cbn; lia|]. exact Eg. }
  destruct (forallb (fun i => (num_spc rows1 i <=? m)%nat) (seq 0 (num_classes rows1))) eqn:ALL.
  - exists rows1. split; [reflexivity|]. split; [eexists; split; [|exact F1]; apply map_length|]. intros c. cbv zeta. rewrite C1. destruct (_ <? mn) eqn:Q; [reflexivity|].
    assert (Lc : (List.length (class_rows c rows) <= m)%nat). { destruct (in_dec string_dec c (unique (infos rows1))) as [I|I].
      - apply In_nth_error in I. destruct I as (i & E). rewrite forallb_forall in ALL. specialize (ALL i). assert (Li : (i < List.length (unique (infos rows1)))%nat) by (apply nth_error_Some; congruence). specialize (ALL ltac:(apply in_seq; unfold num_classes; lia)). apply Nat.leb_le in ALL. rewrite (num_spc_count rows1 i c E), C1, Q in ALL. exact ALL.
      - pose proof (class_empty rows1 c I) as X. rewrite C1, Q in X. rewrite X. cbn. lia. }
    split; [lia|]. split; intros _; [symmetry; apply firstn_all2; exact Lc|]. replace (List.length (class_rows c rows) - m)%nat with 0%nat by lia. reflexivity.
  - cbv zeta. set (rej := concat (map (rejected choice mode m rows1) (seq 0 (num_classes rows1)))). unfold mask. rewrite map_length, seq_length, Nat.eqb_refl. eexists. split; [reflexivity|]. split; [destruct (COMB (map (fun p => negb (existsb (Nat.eqb p) rej)) (seq 0 (List.length rows1)))) as (g & Lg & Eg); [rewrite map_length, seq_length; reflexivity|]; exists g; split; assumption|].
    intros c. cbv zeta. assert (RB : forall i p, In p (rejected choice mode m rows1 i) -> In p (where_class rows1 i)).
    { intros i p I. unfold rejected in I. cbv zeta in I. destruct (Nat.ltb_spec m (List.length (where_class rows1 i))) as [L|L]; [|destruct I]. destruct mode; [|(rewrite <- (firstn_skipn (List.length (where_class rows1 i) - (List.length (where_class rows1 i) - m)) (where_class rows1 i)); apply in_or_app; right; exact I)|rewrite <- (firstn_skipn (List.length (where_class rows1 i) - m) (where_class rows1 i)); apply in_or_app; left; exact I|contradiction].
      apply (proj1 (proj2 (V i (where_class rows1 i) (List.length (where_class rows1 i) - m)%nat ltac:(apply nonzero_nodup) ltac:(lia)))). exact I. }
    match goal with |- context [sel ?g rows1] => replace (class_rows c (sel g rows1)) with (map (rowd rows1) (filter (fun p => negb (existsb (Nat.eqb p) rej)) (nonzero (map (fun r => eqb (snd r) c) rows1)))) by (unfold class_rows; rewrite filter_sel; reflexivity) end.
    destruct (in_dec string_dec c (unique (infos rows1))) as [I|I].
    + apply In_nth_error in I. destruct I as (i & E). assert (Li : (i < num_classes rows1)%nat) by (apply nth_error_Some; congruence). rewrite <- (where_class_eq rows1 i c E).
      assert (FE : filter (fun p => negb (existsb (Nat.eqb p) rej)) (where_class rows1 i) = filter (fun p => negb (existsb (Nat.eqb p) (rejected choice mode m rows1 i))) (where_class rows1 i)).
      { apply filter_ext_in. intros p Ip. f_equal. destruct (existsb (Nat.eqb p) (rejected choice mode m rows1 i)) eqn:X.
        - apply existsb_exists in X. destruct X as (y & Iy & Ey). apply existsb_exists. exists y. split; [|exact Ey]. unfold rej. apply in_concat. exists (rejected choice mode m rows1 i). split; [apply in_map, in_seq; lia|exact Iy].
        - destruct (existsb (Nat.eqb p) rej) eqn:Y; [|reflexivity]. apply existsb_exists in Y. destruct Y as (y & Iy & Ey). apply Nat.eqb_eq in Ey. subst y. unfold rej in Iy. apply in_concat in Iy. destruct Iy as (l & Il & Iy). apply in_map_iff in Il. destruct Il as (i' & <- & _). assert (i' = i) by (apply RB in Iy; apply where_class_id in Iy; apply where_class_id in Ip; congruence). subst i'. rewrite <- X. symmetry. apply existsb_exists. exists p. split; [exact Iy|apply Nat.eqb_refl]. }
      rewrite FE. assert (Q : (Z.of_nat (List.length (class_rows c rows)) <? mn) = false). { destruct (_ <? mn) eqn:Q; [|reflexivity]. pose proof (class_nonempty rows1 c (nth_error_In _ _ E)) as X. rewrite C1, Q in X. cbn in X. lia. }
      rewrite Q. pose proof (C1 c) as Cc. rewrite Q in Cc. rewrite <- Cc. rewrite <- (where_class_rows rows1 i c E). set (P := where_class rows1 i) in *. assert (NP : NoDup P) by apply nonzero_nodup. rewrite !map_length, firstn_map, skipn_map. unfold rejected. fold P. cbv zeta.
      destruct (Nat.ltb_spec m (List.length P)) as [L|L].
      * destruct mode; [| | |contradiction].
        -- split; [|split; discriminate]. destruct (V i P (List.length P - m)%nat NP ltac:(lia)) as (V1 & V2 & V3). rewrite (subset_count _ P NP V1 V2), V3. lia.
        -- assert (FT : filter (fun p => negb (existsb (Nat.eqb p) (skipn (List.length P - (List.length P - m)) P))) P = firstn m P). { replace (List.length P - (List.length P - m))%nat with m by lia. pose proof (proj1 (filter_out_tail (firstn m P) (skipn m P) ltac:(rewrite firstn_skipn; exact NP))) as X. rewrite firstn_skipn in X. exact X. }
           rewrite FT. split; [rewrite firstn_length; lia|]. split; [reflexivity|discriminate].
        -- assert (FT : filter (fun p => negb (existsb (Nat.eqb p) (firstn (List.length P - m) P))) P = skipn (List.length P - m) P). { pose proof (proj2 (filter_out_tail (firstn (List.length P - m) P) (skipn (List.length P - m) P) ltac:(rewrite firstn_skipn; exact NP))) as X. rewrite firstn_skipn in X. exact X. }
           rewrite FT. split; [rewrite skipn_length; lia|]. split; [discriminate|reflexivity].
      * assert (FA : filter (fun p : nat => negb (existsb (Nat.eqb p) [])) P = P) by (clear; generalize P; intros l; induction l as [|x l IH]; [reflexivity|]; cbn [filter existsb negb]; f_equal; exact IH). rewrite FA. split; [lia|]. split; intros _; [rewrite firstn_all2 by exact L; reflexivity|]. replace (List.length P - m)%nat with 0%nat by lia. reflexivity.
    + assert (NE : nonzero (map (fun r => eqb (snd r) c) rows1) = []). { pose proof (class_empty rows1 c I) as X. pose proof (nonzero_rows (fun r => eqb (snd r) c) rows1) as Y. unfold class_rows in X. rewrite X in Y. apply map_eq_nil in Y. exact Y. }
      rewrite NE. cbn [filter map]. pose proof (class_empty rows1 c I) as X. rewrite C1 in X. destruct (_ <? mn); [reflexivity|]. rewrite X. cbn. split; [reflexivity|]. split; intros _; [destruct m; reflexivity|reflexivity].
Qed.
