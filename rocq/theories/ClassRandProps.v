(** Random splitting of classes, class ids, and the defects of class splitting (VectorClassReader). *)
From Coq Require Import Lia Permutation.
From Verif Require Import BaseFacts Str StrFacts ListUtilsProofs Utt2Info Utt2InfoProps ClassReader ClassReaderProps ClassSplitProps.
Open Scope list_scope.
Open Scope nat_scope.

(** number of draws for a class of n rows *)
Definition draws (n mx overlap : nat) : nat := (n - mx + (mx - overlap) - 1) / (mx - overlap) + 1.
(** rows asked for by a class of n rows *)
Definition demand (mx overlap n : nat) : nat := if mx <? n then mx * draws n mx overlap else n.
(** the size of the buffer the code allocates *)
Definition room (mx overlap : nat) (sizes : list nat) : nat := mx * (list_max sizes * List.length sizes / (mx - overlap) + 1).
Definition sizes (rows : list u2row) : list nat := map (fun c => List.length (class_rows c rows)) (unique (infos rows)).
(** the sub-classes of one class in random mode *)
Definition random_group (mx overlap : nat) (L : list u2row) (g : list (list u2row)) : Prop :=
  if mx <? List.length L then List.length g = draws (List.length L) mx overlap /\ Forall (fun p => List.length p = mx /\ exists rest, Permutation (p ++ rest) L) g
  else g = [L].

Lemma nonzero_from_nodup l : forall k, NoDup (nonzero_from k l).
Proof.
  induction l as [|b l IH]; intros k; cbn; [constructor|]. destruct b; [|apply IH]. constructor; [|apply IH]. intros X. apply nonzero_from_in in X. lia.
Qed.
Lemma sub_perm (A B : list nat) : NoDup A -> NoDup B -> incl A B -> exists rest, Permutation (A ++ rest) B.
Proof.
  revert B. induction A as [|x A IH]; intros B NA NB I; [exists B; reflexivity|]. inversion NA as [|? ? Nx NA']; subst. destruct (in_split x B (I x (or_introl eq_refl))) as (B1 & B2 & ->). destruct (IH (B1 ++ B2) NA' (NoDup_remove_1 _ _ _ NB)) as (rest & P).
  - intros y Iy. specialize (I y (or_intror Iy)). apply in_app_or in I. apply in_or_app. destruct I as [I|[->|I]]; [left; exact I|contradiction|right; exact I].
  - exists rest. cbn. rewrite P. apply Permutation_middle.
Qed.
Lemma sum_ext {A} (f g : A -> nat) l : (forall x, In x l -> f x = g x) -> list_sum (map f l) = list_sum (map g l).
Proof. intros H. rewrite (map_ext_in f g l H). reflexivity. Qed.
Lemma sum_concat {A} (l : list (list A)) (f : A -> nat) : list_sum (map f (concat l)) = list_sum (map (fun x => list_sum (map f x)) l).
Proof. induction l as [|x l IH]; [reflexivity|]. cbn [concat map list_sum fold_right]. rewrite map_app. rewrite list_sum_app, IH. reflexivity. Qed.
Lemma over_classes {B} rows (f : nat -> B) (g : string -> B) : (forall i c, nth_error (unique (infos rows)) i = Some c -> f i = g c) -> map f (seq 0 (num_classes rows)) = map g (unique (infos rows)).
Proof.
  unfold num_classes. intros H. set (U := unique (infos rows)) in *. clearbody U.
  assert (G : forall l st, (forall i c, nth_error l i = Some c -> f (st + i) = g c) -> map f (seq st (List.length l)) = map g l).
  { induction l as [|c l IH]; intros st Hl; [reflexivity|]. cbn. rewrite (IH (S st)) by (intros i d Ei; replace (S st + i) with (st + S i) by lia; apply Hl; exact Ei). pose proof (Hl 0 c eq_refl) as X. rewrite Nat.add_0_r in X. rewrite X. reflexivity. }
  apply (G U 0). exact H.
Qed.
Lemma rand_writes choice rows mx overlap i : valid_choice choice -> overlap < mx ->
  let ws := class_writes choice SRandom rows mx (mx - overlap) i in
  (forall w, In w ws -> List.length (snd w) = fst w /\ incl (snd w) (where_class rows i)) /\
  list_sum (map fst ws) = demand mx overlap (num_spc rows i) /\
  forall c, nth_error (unique (infos rows)) i = Some c -> random_group mx overlap (class_rows c rows) (map (map (rowd rows)) (map snd ws)).
Proof.
  intros V O ws. unfold ws, class_writes, num_spc. cbv zeta. set (P := where_class rows i). assert (NP : NoDup P) by (unfold P, where_class, nonzero; apply nonzero_from_nodup).
  unfold demand. destruct (Nat.ltb_spec mx (List.length P)) as [Q|Q].
  - unfold num_subclass. fold (draws (List.length P) mx overlap). split; [|split].
    + intros w I. apply in_map_iff in I. destruct I as (k & <- & _). cbn [fst snd]. destruct (V (i * S (List.length rows) + k) P mx NP ltac:(lia)) as (_ & A & B). split; assumption.
    + rewrite map_map. cbn [fst]. set (d := draws _ _ _). clearbody d. generalize 0. induction d as [|d IH]; intros st; cbn; [lia|]. fold (list_sum (map (fun _ : nat => mx) (seq (S st) d))). rewrite IH. lia.
    + intros c E. unfold random_group. rewrite <- (where_class_rows rows i c E), map_length. fold P. rewrite (proj2 (Nat.ltb_lt _ _) Q). rewrite !map_map. cbn [snd]. split; [rewrite map_length, seq_length; reflexivity|]. apply Forall_forall. intros p I. apply in_map_iff in I. destruct I as (k & <- & _). destruct (V (i * S (List.length rows) + k) P mx NP ltac:(lia)) as (A & B & C). split; [rewrite map_length; exact C|]. destruct (sub_perm _ P A NP B) as (rest & R). exists (map (rowd rows) rest). rewrite <- map_app. apply Permutation_map. exact R.
  - split; [|split].
    + intros w [<-|[]]. split; [reflexivity|apply incl_refl].
    + cbn. lia.
    + intros c E. unfold random_group. rewrite <- (where_class_rows rows i c E), map_length. fold P. rewrite (proj2 (Nat.ltb_ge _ _) Q). reflexivity.
Qed.

(** ** Random splitting, when the buffer is large enough: class by class, in sorted order, a class above the maximum gives draws n
    sub-classes, each of exactly max rows of the class (no position twice); the other classes stay whole; sub-classes are numbered in order and
    those below the minimum dropped. *)
Theorem C45_random : forall choice rows mn mx overlap, valid_choice choice -> overlap < mx -> Exists (fun n => mx < n) (sizes rows) ->
  list_sum (map (demand mx overlap) (sizes rows)) <= room mx overlap (sizes rows) ->
  exists gs, split_classes choice rows (Some mn) (Some mx) SRandom overlap false = Ok (labelled mn (concat gs)) /\
    Forall2 (fun c g => random_group mx overlap (class_rows c rows) g) (unique (infos rows)) gs.
Proof.
  intros choice rows mn mx overlap V O X FIT. unfold split_classes. rewrite (proj2 (Nat.leb_gt _ _) O).
  assert (SZ : map (num_spc rows) (seq 0 (num_classes rows)) = sizes rows) by (apply over_classes; intros i c E; apply num_spc_count; exact E).
  assert (A : forallb (fun i => num_spc rows i <=? mx) (seq 0 (num_classes rows)) = false).
  { apply Bool.not_true_is_false. intros F. apply Exists_exists in X. destruct X as (n & I & L). rewrite <- SZ in I. apply in_map_iff in I. destruct I as (i & <- & I). rewrite forallb_forall in F. specialize (F i I). apply Nat.leb_le in F. lia. }
  rewrite A. cbv zeta. cbn [bind]. rewrite SZ. set (ws := fun i => class_writes choice SRandom rows mx (mx - overlap) i).
  assert (CAP : mx * (list_max (sizes rows) * num_classes rows / (mx - overlap) + 1) = room mx overlap (sizes rows)) by (unfold room, sizes at 3; rewrite map_length; reflexivity). rewrite CAP.
  rewrite writes_ok.
  - cbn [bind app]. rewrite label_take.
    + cbn [bind]. rewrite combine_labels, final_filter. exists (map (fun i => map (map (rowd rows)) (map snd (ws i))) (seq 0 (num_classes rows))). split.
      * do 2 f_equal. rewrite concat_map, map_map, concat_map, map_map. reflexivity.
      * unfold num_classes. assert (G : forall U l st, (forall i c, nth_error l i = Some c -> nth_error U (st + i) = Some c) -> (forall i c, nth_error U i = Some c -> random_group mx overlap (class_rows c rows) (map (map (rowd rows)) (map snd (ws i)))) -> Forall2 (fun c g => random_group mx overlap (class_rows c rows) g) l (map (fun i => map (map (rowd rows)) (map snd (ws i))) (seq st (List.length l)))).
        { intros U. induction l as [|c l IH]; intros st Hl HU; [constructor|]. cbn. constructor; [apply HU; specialize (Hl 0 c eq_refl); rewrite Nat.add_0_r in Hl; exact Hl|]. apply IH; [|exact HU]. intros i d E. replace (S st + i) with (st + S i) by lia. apply Hl. exact E. }
        apply (G (unique (infos rows)) (unique (infos rows)) 0); [intros i c E; exact E|]. intros i c E. apply (rand_writes choice rows mx overlap i V O). exact E.
    + intros p v Ip Iv. apply in_map_iff in Ip. destruct Ip as (w & <- & Iw). apply in_concat in Iw. destruct Iw as (l & Il & Iw). apply in_map_iff in Il. destruct Il as (i & <- & _). apply (where_class_bound rows i). apply (proj1 (rand_writes choice rows mx overlap i V O) w Iw). exact Iv.
  - intros w I. apply in_concat in I. destruct I as (l & Il & I). apply in_map_iff in Il. destruct Il as (i & <- & _). apply (rand_writes choice rows mx overlap i V O). exact I.
  - cbn [List.length Nat.add]. rewrite sum_concat, map_map. rewrite (sum_ext _ (fun i => demand mx overlap (num_spc rows i))) by (intros i _; apply (rand_writes choice rows mx overlap i V O)). rewrite <- (map_map (num_spc rows) (demand mx overlap)), SZ. exact FIT.
Qed.
(** the buffer is always large enough for a single class *)
Theorem C45_random_one_class : forall mx overlap n, overlap < mx -> list_sum (map (demand mx overlap) [n]) <= room mx overlap [n].
Proof.
  intros mx overlap n O. unfold room, demand. cbn [map list_sum fold_right list_max List.length]. rewrite Nat.max_0_r, Nat.mul_1_r, Nat.add_0_r. destruct (Nat.ltb_spec mx n) as [Q|Q].
  - unfold draws. apply Nat.mul_le_mono_l. apply Nat.add_le_mono_r. apply Nat.div_le_mono; lia.
  - nia.
Qed.

(** ** The default mode ('random') overflows its buffer: two classes of four rows, at most three per sub-class, no overlap. *)
Definition cls (l : list (string * nat)) : list u2row := concat (map (fun p => map (fun k => ((fst p ++ fmt_d (Z.of_nat k))%string, fst p)) (seq 0 (snd p))) l).
Lemma firstn_choice : valid_choice (fun _ l n => firstn n l).
Proof.
  intros k l n N L. split; [|split].
  - rewrite <- (firstn_skipn n l) in N. revert N. generalize (skipn n l) as q. generalize (firstn n l) as p. induction p as [|x p IH]; intros q N; [constructor|]. inversion N as [|? ? A B]; subst. constructor; [intros X; apply A, in_or_app; left; exact X|apply (IH q B)].
  - intros x I. rewrite <- (firstn_skipn n l). apply in_or_app. left. exact I.
  - apply firstn_length_le. exact L.
Qed.
Theorem C45_random_overflow_refuted : exists choice rows, valid_choice choice /\ split_classes choice rows (Some 1%Z) (Some 3) SRandom 0 false = Err ValueError.
Proof. exists (fun _ l n => firstn n l), (cls [("a", 4); ("b", 4)]%string). split; [apply firstn_choice|]. vm_compute. reflexivity. Qed.
(** worse: a class of one row is silently lost when the buffer is exactly full, although every class is large enough *)
Theorem C45_random_lost_class_refuted : exists choice rows r out, valid_choice choice /\ In r rows /\
  split_classes choice rows (Some 1%Z) (Some 3) SRandom 0 false = Ok out /\ ~ In (fst r) (map fst out).
Proof.
  exists (fun _ l n => firstn n l), (cls [("a", 4); ("b", 4); ("c", 4); ("d", 1)]%string), ("d0", "d")%string. eexists. split; [apply firstn_choice|]. split; [vm_compute; tauto|]. split; [vm_compute; reflexivity|]. vm_compute. intros X. repeat (destruct X as [X|X]; [discriminate X|]). exact X.
Qed.
(** 'random_1subclass' (the name the command line offers) drops every class above the maximum, for every input *)
Theorem C45_random_1subclass_refuted : forall choice rows mn mx overlap out, valid_choice choice -> overlap < mx -> Exists (fun n => mx < n) (sizes rows) ->
  split_classes choice rows (Some mn) (Some mx) SOther overlap false = Ok out ->
  forall c r, mx < List.length (class_rows c rows) -> In r (class_rows c rows) -> (forall r', In r' rows -> fst r' = fst r -> r' = r) -> ~ In (fst r) (map fst out).
Proof.
  intros choice rows mn mx overlap out V O X H c r Lc Ir U In'. unfold split_classes in H. rewrite (proj2 (Nat.leb_gt _ _) O) in H.
  assert (SZ : map (num_spc rows) (seq 0 (num_classes rows)) = sizes rows) by (apply over_classes; intros i d E; apply num_spc_count; exact E).
  assert (A : forallb (fun i => num_spc rows i <=? mx) (seq 0 (num_classes rows)) = false).
  { apply Bool.not_true_is_false. intros F. apply Exists_exists in X. destruct X as (n & I & L). rewrite <- SZ in I. apply in_map_iff in I. destruct I as (i & <- & I). rewrite forallb_forall in F. specialize (F i I). apply Nat.leb_le in F. lia. }
  rewrite A in H. cbv zeta in H. cbn [bind] in H. set (cap := _ * _) in H. clearbody cap. set (ws := concat (map (class_writes choice SOther rows mx (mx - overlap)) (seq 0 (num_classes rows)))) in H.
  assert (WS : forall w v, In w ws -> In v (snd w) -> exists i, In v (where_class rows i) /\ List.length (where_class rows i) <= mx).
  { intros w v I Iv. unfold ws in I. apply in_concat in I. destruct I as (l & Il & I). apply in_map_iff in Il. destruct Il as (i & <- & _). exists i. unfold class_writes in I. cbv zeta in I. destruct (Nat.ltb_spec mx (List.length (where_class rows i))) as [Q|Q]; [destruct I|]. destruct I as [<-|[]]. cbn in Iv. split; assumption. }
  assert (WR : forall cap ws out id o, writes cap out id ws = Ok o -> forall p, In p o -> In p out \/ exists w, In w ws /\ In (fst p) (snd w)).
  { clear. intros cap. induction ws as [|w ws IH]; intros out id o H p I; cbn in H; [injection H as <-; left; exact I|]. destruct (write cap out (fst w) (snd w) id) as [out'|] eqn:W; [|discriminate]. cbn [bind] in H. destruct (IH _ _ _ H p I) as [I'|(w' & Iw & Ip)]; [|right; exists w'; split; [right; exact Iw|exact Ip]].
    unfold write in W. destruct (_ =? _) in W.
    - injection W as <-. apply in_app_or in I'. destruct I' as [I'|I']; [left; exact I'|]. apply in_map_iff in I'. destruct I' as (v & <- & Iv). right. exists w. split; [left; reflexivity|exact Iv].
    - destruct (snd w) as [|v [|]] eqn:Sw; try discriminate. injection W as <-. apply in_app_or in I'. destruct I' as [I'|I']; [left; exact I'|]. apply repeat_spec in I'. subst p. right. exists w. split; [left; reflexivity|]. rewrite Sw. left. reflexivity. }
  destruct (writes cap [] 0 ws) as [o|] eqn:W; [|discriminate]. cbn [bind] in H. destruct (take (map fst rows) _) as [key|] eqn:K; [|discriminate]. cbn [bind] in H. rewrite min_filter in H. injection H as <-.
  apply in_map_iff in In'. destruct In' as (q & Eq & Iq). apply filter_In in Iq as (Iq & _). destruct q as (kq & lq). cbn in Eq. subst kq. apply in_combine_l in Iq.
  apply In_nth_error in Iq. destruct Iq as (j & Ej). unfold take in K. pose proof (proj1 (mapM_ok_iff _ _ _) K) as F2.
  assert (NT : exists p, In p o /\ get_item (map fst rows) (Z.of_nat (fst p)) = Ok (fst r)).
  { clear - F2 Ej. revert j Ej. generalize dependent key. induction o as [|p o IH]; intros key F2 j Ej; cbn in F2; inversion F2 as [|? ? ? ? E1 F2']; subst; [destruct j; discriminate|]. destruct j as [|j]; cbn in Ej; [injection Ej as ->; exists p; split; [left; reflexivity|assumption]|]. destruct (IH _ F2' j Ej) as (p' & I & E). exists p'. split; [right; exact I|exact E]. }
  destruct NT as (p & Ip & Gp). destruct (WR _ _ _ _ _ W p Ip) as [[]|(w & Iw & Iv)]. destruct (WS w (fst p) Iw Iv) as (i & Iv' & Li).
  apply get_item_nat_inv in Gp. rewrite nth_error_map in Gp. destruct (nth_error rows (fst p)) as [r'|] eqn:Er; [|discriminate]. cbn in Gp. injection Gp as Gp.
  assert (r' = r) by (apply U; [apply (nth_error_In _ _ Er)|exact Gp]). subst r'.
  pose proof (where_class_id rows i (fst p) Iv') as Di. unfold class_rows in Ir. apply filter_In in Ir as (Ir & Qr). apply eqb_eq in Qr.
  assert (Ec : nth_error (unique (infos rows)) i = Some c). { assert (Ei : nth_error (infos rows) (fst p) = Some c) by (unfold infos; rewrite nth_error_map, Er; cbn; rewrite Qr; reflexivity). pose proof (inverse_nth (infos rows) (fst p) c Ei) as (d & D1 & D2). congruence. }
  rewrite <- (num_spc_count rows i c Ec) in Lc. unfold num_spc in Lc. lia.
Qed.

(** csplit_min_spc = None (the command line default) is a TypeError whenever classes are split *)
Theorem C45_min_none_refuted : forall choice rows mx mode overlap fl out, overlap < mx -> split_classes choice rows None (Some mx) mode overlap fl <> Ok out.
Proof.
  intros choice rows mx mode overlap fl out O H. unfold split_classes in H. destruct mode; try discriminate H; (destruct (forallb _ _); [discriminate H|]); rewrite (proj2 (Nat.leb_gt _ _) O) in H; cbv zeta in H; repeat match type of H with context [if ?b then _ else _] => destruct b end; cbn [bind] in H; try discriminate H;
  (destruct (writes _ _ _ _); [|discriminate H]); cbn [bind] in H; (destruct (take _ _); [|discriminate H]); discriminate H.
Qed.
(** an overlap given on the command line is a float: sequential splitting is then a TypeError *)
Theorem C45_float_overlap_refuted : forall choice rows mn mx overlap, overlap < mx -> Exists (fun n => mx < n) (sizes rows) -> split_classes choice rows (Some mn) (Some mx) SSequential overlap true = Err TypeError.
Proof.
  intros choice rows mn mx overlap O X. unfold split_classes. rewrite (proj2 (Nat.leb_gt _ _) O).
  assert (SZ : map (num_spc rows) (seq 0 (num_classes rows)) = sizes rows) by (apply over_classes; intros i d E; apply num_spc_count; exact E).
  assert (A : forallb (fun i => num_spc rows i <=? mx) (seq 0 (num_classes rows)) = false).
  { apply Bool.not_true_is_false. intros F. apply Exists_exists in X. destruct X as (n & I & L). rewrite <- SZ in I. apply in_map_iff in I. destruct I as (i & <- & I). rewrite forallb_forall in F. specialize (F i I). apply Nat.leb_le in F. lia. }
  rewrite A. reflexivity.
Qed.

Lemma sorted_mono {A} `{Ord A} (l : list A) : Sorted.StronglySorted slt l -> forall d e x y, nth_error l d = Some x -> nth_error l e = Some y -> (leb x y = true <-> d <= e).
Proof.
  induction l as [|z l IH]; intros So d e x y Ed Ee; [destruct d; discriminate|]. inversion So as [|? ? So' Fa]; subst. rewrite Forall_forall in Fa. destruct d as [|d], e as [|e]; cbn in Ed, Ee.
  - injection Ed as <-. injection Ee as <-. split; [lia|]. intros _. apply leb_refl.
  - injection Ed as <-. split; [lia|]. intros _. apply (Fa y (nth_error_In _ _ Ee)).
  - injection Ee as <-. split; [|lia]. intros Lb. exfalso. destruct (Fa x (nth_error_In _ _ Ed)) as (A1 & A2). apply A2. apply leb_antisym; assumption.
  - rewrite (IH So' d e x y Ed Ee). lia.
Qed.
(** ** The class ids given with the vectors: equal exactly for rows of one class, increasing with the class name, and using 0 .. C-1. *)
Theorem C45_class_ids : forall rows, exists ids, class_ids rows None = Ok ids /\ List.length ids = List.length rows /\
  (forall i j ri rj a b, nth_error rows i = Some ri -> nth_error rows j = Some rj -> nth_error ids i = Some a -> nth_error ids j = Some b -> (leb (snd ri) (snd rj) = true <-> (a <= b)%Z)) /\
  (forall z, In z ids <-> (0 <= z < Z.of_nat (List.length (unique (infos rows))))%Z).
Proof.
  intros rows. eexists. split; [reflexivity|]. rewrite map_length, inverse_length. unfold infos at 1. rewrite map_length. split; [reflexivity|]. split.
  - intros i j ri rj a b Ei Ej Ea Eb. rewrite nth_error_map in Ea, Eb.
    destruct (inverse_nth (infos rows) i (snd ri)) as (d & D1 & D2); [unfold infos; rewrite nth_error_map, Ei; reflexivity|]. destruct (inverse_nth (infos rows) j (snd rj)) as (e & F1 & F2); [unfold infos; rewrite nth_error_map, Ej; reflexivity|].
    rewrite D1 in Ea. rewrite F1 in Eb. cbn in Ea, Eb. injection Ea as <-. injection Eb as <-. rewrite <- Nat2Z.inj_le. pose proof (unique_sorted (infos rows)) as So.
    apply (sorted_mono _ So); assumption.
  - intros z. rewrite in_map_iff. split.
    + intros (d & <- & I). apply inverse_bound in I. lia.
    + intros L. exists (Z.to_nat z). split; [lia|apply inverse_onto; lia].
Qed.

(** After splitting, a class2int file written for the original names does not know the new names. *)
Theorem C45_class2int_split_refuted : exists choice rows m out, valid_choice choice /\ class_ids rows (Some m) = Ok [0; 0; 1; 1; 1]%Z /\
  split_classes choice rows (Some 1%Z) (Some 2) SSequential 0 false = Ok out /\ class_ids out (Some m) = Err KeyError.
Proof. exists (fun _ l n => firstn n l), (cls [("a", 2); ("b", 3)]%string), [("a", 0%Z); ("b", 1%Z)]%string. eexists. split; [apply firstn_choice|]. split; [vm_compute; reflexivity|]. split; vm_compute; reflexivity. Qed.

Print Assumptions C45_prune. Print Assumptions C45_sequential. Print Assumptions C45_sequential_limits. Print Assumptions C45_random. Print Assumptions C45_random_1subclass_refuted. Print Assumptions C45_class_ids.

Example C45_witness : let rows := cls [("b", 5); ("a", 2)]%string in
  split_classes (fun _ l n => firstn n l) rows (Some 1%Z) (Some 3) SSequential 1 false = Ok [("a0", "0"); ("a1", "0"); ("b0", "1"); ("b1", "1"); ("b2", "1"); ("b2", "2"); ("b3", "2"); ("b4", "2")]%string /\
  split_classes (fun _ l n => rev (firstn n l)) rows (Some 1%Z) (Some 3) SRandom 1 false = Ok [("a0", "0"); ("a1", "0"); ("b2", "1"); ("b1", "1"); ("b0", "1"); ("b2", "2"); ("b1", "2"); ("b0", "2")]%string /\
  filter_by_spc (fun _ l n => firstn n l) rows (Some 3%Z) (Some 4) PLast = Ok [("b0", "b"); ("b1", "b"); ("b2", "b"); ("b3", "b")]%string /\
  Exists (fun n => 3 < n) (sizes rows) /\ list_sum (map (demand 3 1) (sizes rows)) <= room 3 1 (sizes rows) /\ class_ids rows None = Ok [1; 1; 1; 1; 1; 0; 0]%Z.
Proof. cbv zeta. split; [vm_compute; reflexivity|]. split; [vm_compute; reflexivity|]. split; [vm_compute; reflexivity|]. split; [apply Exists_exists; exists 5; split; [vm_compute; tauto|lia]|]. split; [apply Nat.leb_le; vm_compute; reflexivity|vm_compute; reflexivity]. Qed.
