(** Splitting of classes into sub-classes (VectorClassReader._split_classes). *)
From Coq Require Import Lia Permutation.
From Verif Require Import BaseFacts Str StrFacts ListUtilsProofs Utt2Info Utt2InfoProps ClassReader ClassReaderProps.
Open Scope list_scope.
Open Scope nat_scope.

Fixpoint label_from (id : nat) (ps : list (list nat)) : list (nat * nat) := match ps with [] => [] | p :: ps => map (fun v => (v, id)) p ++ label_from (S id) ps end.
Lemma writes_ok cap ws : forall out id, (forall w, In w ws -> List.length (snd w) = fst w) -> List.length out + list_sum (map fst ws) <= cap ->
  writes cap out id ws = Ok (out ++ label_from id (map snd ws)).
Proof.
  induction ws as [|[n vals] ws IH]; intros out id H L; cbn [writes map label_from list_sum fold_right fst snd] in *; [rewrite app_nil_r; reflexivity|].
  pose proof (H _ (or_introl eq_refl)) as Hl. cbn in Hl. unfold write. fold (list_sum (map fst ws)) in L. rewrite Nat.min_l by lia. rewrite Hl, Nat.eqb_refl. cbn [bind]. rewrite IH; [rewrite <- app_assoc; reflexivity|intros w I; apply H; right; exact I|]. rewrite app_length, map_length. lia.
Qed.

Lemma ceil_bounds a s : 1 <= s -> 1 <= a -> let q := (a + s - 1) / s in a <= q * s /\ q * s < a + s /\ 1 <= q.
Proof.
  intros S A q. unfold q. pose proof (Nat.div_mod (a + s - 1) s ltac:(lia)) as D. pose proof (Nat.mod_upper_bound (a + s - 1) s ltac:(lia)) as M. set (k := (a + s - 1) / s) in *. clearbody k. rewrite (Nat.mul_comm k s). split; [lia|]. split; [lia|]. destruct k; lia.
Qed.

(** the windows cover the list, have between 1 and mx elements, all but the last have mx, and neighbours share exactly [overlap] elements *)
Lemma windows_facts {A} mx overlap (L : list A) : overlap < mx -> L <> [] ->
  (forall w, In w (windows mx overlap L) -> 1 <= List.length w <= mx) /\
  (forall i x, nth_error L i = Some x -> exists k w j, nth_error (windows mx overlap L) k = Some w /\ i = k * (mx - overlap) + j /\ nth_error w j = Some x) /\
  (forall k w w', nth_error (windows mx overlap L) k = Some w -> nth_error (windows mx overlap L) (S k) = Some w' -> List.length w = mx /\ firstn overlap w' = skipn (mx - overlap) w).
Proof.
  intros O N. unfold windows. destruct (Nat.leb_spec (List.length L) mx) as [Q|Q].
  - split; [|split].
    + intros w [<-|[]]. split; [destruct L; [contradiction|cbn; lia]|exact Q].
    + intros i x E. exists 0, L, i. split; [reflexivity|]. split; [reflexivity|exact E].
    + intros [|k] w w' _ E; [discriminate|destruct k; discriminate].
  - set (s := mx - overlap). assert (S1 : 1 <= s) by (unfold s; lia). destruct (ceil_bounds (List.length L - mx) s S1 ltac:(lia)) as (C1 & C2 & C3). set (q := (List.length L - mx + s - 1) / s) in *. clearbody q.
    assert (W : forall k w, nth_error (map (fun k => firstn mx (skipn (k * s) L)) (seq 0 (S q))) k = Some w -> k <= q /\ w = firstn mx (skipn (k * s) L)).
    { intros k w E. assert (Lk : k < S q) by (assert (X : k < List.length (map (fun k => firstn mx (skipn (k * s) L)) (seq 0 (S q)))) by (apply nth_error_Some; congruence); rewrite map_length, seq_length in X; exact X). rewrite nth_error_map in E. rewrite (nth_error_nth' _ 0) in E by (rewrite seq_length; exact Lk). rewrite seq_nth in E by exact Lk. cbn in E. injection E as <-. split; [lia|reflexivity]. }
    assert (QL : q * s < List.length L) by (unfold s in *; lia). split; [|split].
    + intros w I. apply In_nth_error in I. destruct I as (k & E). apply W in E. destruct E as (Lk & ->). rewrite firstn_length, skipn_length. assert (k * s <= q * s) by (apply Nat.mul_le_mono_r; exact Lk). lia.
    + intros i x E. assert (Li : i < List.length L) by (apply nth_error_Some; congruence).
      assert (K : exists k j, k <= q /\ i = k * s + j /\ j < mx). { destruct (le_lt_dec (q * s) i) as [G|G]; [exists q, (i - q * s); repeat split; lia|]. exists (i / s), (i mod s). pose proof (Nat.div_mod i s ltac:(lia)). pose proof (Nat.mod_upper_bound i s ltac:(lia)). split; [|split; [lia|unfold s in *; lia]]. apply Nat.lt_le_incl. apply (Nat.mul_lt_mono_pos_r s); [lia|]. lia. }
      destruct K as (k & j & Lk & -> & Lj). exists k, (firstn mx (skipn (k * s) L)), j. split; [|split; [reflexivity|]].
      * rewrite nth_error_map. rewrite (nth_error_nth' _ 0) by (rewrite seq_length; lia). rewrite seq_nth by lia. reflexivity.
      * rewrite nth_error_firstn. rewrite (proj2 (Nat.ltb_lt _ _) Lj). rewrite nth_error_skipn. exact E.
    + intros k w w' E E'. apply W in E, E'. destruct E as (_ & ->). destruct E' as (Lk & ->). assert (B : k * s + mx <= List.length L). { assert (k * s + s <= q * s) by (replace (k * s + s) with (S k * s) by (cbn; lia); apply Nat.mul_le_mono_r; exact Lk). lia. }
      split; [rewrite firstn_length, skipn_length; lia|]. apply nth_error_ext. intros j. rewrite nth_error_firstn, nth_error_skipn, !nth_error_firstn, !nth_error_skipn. destruct (Nat.ltb_spec j overlap) as [J|J].
      * rewrite (proj2 (Nat.ltb_lt j mx)) by lia. rewrite (proj2 (Nat.ltb_lt (s + j) mx)) by (unfold s; lia). f_equal. cbn. lia.
      * rewrite (proj2 (Nat.ltb_ge (s + j) mx)) by (unfold s; lia). reflexivity.
Qed.

(** what is written for a class in sequential mode *)
Lemma seq_writes choice rows mx overlap i : overlap < mx ->
  map snd (class_writes choice SSequential rows mx (mx - overlap) i) = windows mx overlap (where_class rows i) /\
  (forall w, In w (class_writes choice SSequential rows mx (mx - overlap) i) -> List.length (snd w) = fst w) /\
  list_sum (map fst (class_writes choice SSequential rows mx (mx - overlap) i)) * (mx - overlap) <= List.length (where_class rows i) * mx.
Proof.
  intros O. unfold class_writes, windows. cbv zeta. set (P := where_class rows i). set (s := mx - overlap). assert (S1 : 1 <= s) by (unfold s; lia). destruct (Nat.ltb_spec mx (List.length P)) as [Q|Q].
  2: { rewrite (proj2 (Nat.leb_le _ _) Q). split; [reflexivity|]. split; [intros w [<-|[]]; reflexivity|]. cbn. rewrite Nat.add_0_r. apply Nat.mul_le_mono_l. unfold s. lia. }
  rewrite (proj2 (Nat.leb_gt _ _) Q). unfold num_subclass. destruct (ceil_bounds (List.length P - mx) s S1 ltac:(lia)) as (C1 & C2 & C3). set (q := (List.length P - mx + s - 1) / s) in *. clearbody q. replace (q + 1 - 1) with q by lia.
  assert (LB : forall k, k < q -> k * s + mx <= List.length P). { intros k Lk. assert (k * s + s <= q * s) by (replace (k * s + s) with (S k * s) by (cbn; lia); apply Nat.mul_le_mono_r; exact Lk). lia. }
  assert (QB : q * s + overlap < List.length P) by (unfold s in *; lia).
  split; [|split].
  - rewrite seq_S, !map_app, map_map. cbn [map snd Nat.add]. f_equal. f_equal. rewrite !firstn_all2; [reflexivity| |]; rewrite skipn_length; lia.
  - intros w I. apply in_app_or in I. destruct I as [I|[<-|[]]].
    + apply in_map_iff in I. destruct I as (k & <- & I). apply in_seq in I. cbn [fst snd]. rewrite firstn_length, skipn_length. pose proof (LB k ltac:(lia)). lia.
    + cbn [fst snd]. rewrite firstn_length, skipn_length. lia.
  - rewrite map_app, map_map. cbn [map fst]. rewrite list_sum_app. cbn [list_sum fold_right]. assert (E : forall n, list_sum (map (fun _ : nat => mx) (seq 0 n)) = n * mx). { intros n. generalize 0. induction n as [|n IH]; intros st; [reflexivity|]. cbn. rewrite IH. reflexivity. } rewrite E.
    set (n := List.length P) in *. clearbody n. assert (E2 : q * mx + (n - q * s + 0) = n + q * overlap). { assert (q * mx = q * s + q * overlap) by (rewrite <- Nat.mul_add_distr_l; f_equal; unfold s; lia). lia. } rewrite E2. assert (E3 : n * mx = n * s + n * overlap) by (rewrite <- Nat.mul_add_distr_l; f_equal; unfold s; lia). rewrite E3, Nat.mul_add_distr_r. apply Nat.add_le_mono_l. rewrite <- Nat.mul_assoc, (Nat.mul_comm overlap s), Nat.mul_assoc. apply Nat.mul_le_mono_r. lia.
Qed.

Lemma concat_bound {A} (f : A -> list (nat * list nat)) (n : A -> nat) mx s l : (forall i, In i l -> list_sum (map fst (f i)) * s <= n i * mx) -> list_sum (map fst (concat (map f l))) * s <= list_sum (map n l) * mx.
Proof.
  induction l as [|a l IH]; intros H; [cbn; lia|]. cbn [map concat list_sum fold_right]. rewrite map_app, list_sum_app. fold (list_sum (map n l)). specialize (IH ltac:(intros i I; apply H; right; exact I)). specialize (H a (or_introl eq_refl)). lia.
Qed.
Lemma sum_max (l : list nat) : list_sum l <= list_max l * List.length l.
Proof.
  assert (G : forall b, (forall x, In x l -> x <= b) -> list_sum l <= b * List.length l). { intros b. induction l as [|a l IH]; intros H; [cbn; lia|]. cbn [list_sum fold_right List.length]. fold (list_sum l). specialize (IH ltac:(intros x I; apply H; right; exact I)). specialize (H a (or_introl eq_refl)). lia. }
  apply G. intros x I. pose proof (proj1 (list_max_le l (list_max l)) (Nat.le_refl _)) as F. rewrite Forall_forall in F. apply F. exact I.
Qed.

Lemma label_take (rows : list u2row) ps : forall id, (forall p v, In p ps -> In v p -> v < List.length rows) ->
  take (map fst rows) (map (fun p => Z.of_nat (fst p)) (label_from id ps)) = Ok (map (fun p => fst (rowd rows (fst p))) (label_from id ps)).
Proof.
  intros id H. assert (B : forall v, In v (map fst (label_from id ps)) -> v < List.length rows). { revert id. induction ps as [|p ps IH]; intros id v I; [destruct I|]. cbn in I. rewrite map_app, map_map in I. cbn in I. rewrite map_id in I. apply in_app_or in I. destruct I as [I|I]; [apply (H p v (or_introl eq_refl) I)|]. apply (IH ltac:(intros q w Iq; apply H; right; exact Iq) _ _ I). }
  clear H. rewrite <- (map_map fst Z.of_nat), <- (map_map fst (fun v => fst (rowd rows v))). generalize dependent (map fst (label_from id ps)). intros l B. apply take_nat_iff. induction l as [|v l IH]; [constructor|]. cbn. constructor; [|apply IH; intros w I; apply B; right; exact I]. rewrite nth_error_map. unfold rowd. rewrite (nth_error_nth' rows (EmptyString, EmptyString)) by (apply B; left; reflexivity). reflexivity.
Qed.
Definition label_rows (rows : list u2row) (out : list (nat * nat)) : list u2row := map (fun p => (fst (rowd rows (fst p)), fmt_d (Z.of_nat (snd p)))) out.
Lemma combine_labels rows out : combine (map (fun p => fst (rowd rows (fst p))) out) (map (fun p => fmt_d (Z.of_nat (snd p))) out) = label_rows rows out.
Proof. induction out as [|p out IH]; [reflexivity|]. cbn. rewrite IH. reflexivity. Qed.
Lemma label_class rows ps : forall id k p, nth_error ps k = Some p -> class_rows (fmt_d (Z.of_nat (id + k))) (label_rows rows (label_from id ps)) = map (fun v => (fst (rowd rows v), fmt_d (Z.of_nat (id + k)))) p.
Proof.
  assert (OTHER : forall id p c, c <> fmt_d (Z.of_nat id) -> class_rows c (label_rows rows (map (fun v => (v, id)) p)) = []). { intros id p c N. induction p as [|v p IH]; [reflexivity|]. cbn. destruct (eqb (fmt_d (Z.of_nat id)) c) eqn:E; [apply eqb_eq in E; congruence|]. exact IH. }
  assert (SAME : forall id p, class_rows (fmt_d (Z.of_nat id)) (label_rows rows (map (fun v => (v, id)) p)) = map (fun v => (fst (rowd rows v), fmt_d (Z.of_nat id))) p). { intros id p. induction p as [|v p IH]; [reflexivity|]. cbn. rewrite (proj2 (eqb_eq (fmt_d (Z.of_nat id)) (fmt_d (Z.of_nat id))) eq_refl). f_equal. exact IH. }
  assert (APP : forall c a b, class_rows c (label_rows rows (a ++ b)) = class_rows c (label_rows rows a) ++ class_rows c (label_rows rows b)) by (intros c a b; unfold class_rows, label_rows; rewrite map_app, filter_app; reflexivity).
  assert (REST : forall ps id c, (forall j, id <= j -> c <> fmt_d (Z.of_nat j)) -> class_rows c (label_rows rows (label_from id ps)) = []). { induction ps0 as [|p ps0 IH]; intros id c H; [reflexivity|]. cbn [label_from]. rewrite APP, OTHER, IH; [reflexivity| |apply H; lia]. intros j L. apply H. lia. }
  induction ps as [|p0 ps IH]; intros id k p E; [destruct k; discriminate|]. cbn [label_from]. rewrite APP. destruct k as [|k]; cbn in E.
  - injection E as ->. rewrite Nat.add_0_r, SAME, REST; [apply app_nil_r|]. intros j L X. apply fmt_d_inj in X. lia.
  - rewrite OTHER by (intros X; apply fmt_d_inj in X; lia). cbn [app]. replace (id + S k) with (S id + k) by lia. apply IH. exact E.
Qed.
(** labelling, then dropping the small sub-classes *)
Lemma final_filter choice rows ps mn : filter_by_spc choice (label_rows rows (label_from 0 ps)) (Some mn) None PLast = Ok (labelled mn (map (map (rowd rows)) ps)).
Proof.
  rewrite min_filter. f_equal. set (all := label_rows rows (label_from 0 ps)). 
  assert (G : forall tail id, (forall k p, nth_error tail k = Some p -> List.length (class_rows (fmt_d (Z.of_nat (id + k))) all) = List.length p) ->
    filter (fun r => (mn <=? Z.of_nat (List.length (class_rows (snd r) all)))%Z) (label_rows rows (label_from id tail)) =
    flat_map (fun q => if (mn <=? Z.of_nat (List.length (snd q)))%Z then map (fun r : u2row => (fst r, fmt_d (Z.of_nat (fst q)))) (snd q) else []) (combine (seq id (List.length tail)) (map (map (rowd rows)) tail))).
  { induction tail as [|p tail IH]; intros id H; [reflexivity|]. cbn [label_from List.length seq map combine flat_map fst snd]. unfold label_rows. rewrite map_app, filter_app. f_equal.
    - pose proof (H 0 p eq_refl) as H0. rewrite Nat.add_0_r in H0. rewrite map_map. cbn [fst snd]. rewrite map_length, map_map. destruct (mn <=? Z.of_nat (List.length p))%Z eqn:Q.
      + clear - Q H0. assert (F : forall l : list nat, filter (fun r : u2row => (mn <=? Z.of_nat (List.length (class_rows (snd r) all)))%Z) (map (fun v => (fst (rowd rows v), fmt_d (Z.of_nat id))) l) = map (fun v => (fst (rowd rows v), fmt_d (Z.of_nat id))) l). { induction l as [|v l IH]; [reflexivity|]. cbn [map filter snd]. rewrite H0, Q, IH. reflexivity. } apply F.
      + clear - Q H0. assert (F : forall l : list nat, filter (fun r : u2row => (mn <=? Z.of_nat (List.length (class_rows (snd r) all)))%Z) (map (fun v => (fst (rowd rows v), fmt_d (Z.of_nat id))) l) = []). { induction l as [|v l IH]; [reflexivity|]. cbn [map filter snd]. rewrite H0, Q. exact IH. } apply F.
    - apply (IH (S id)). intros k p' E. replace (S id + k) with (id + S k) by lia. apply H. exact E. }
  unfold labelled. rewrite map_length. apply (G ps 0). intros k p E. unfold all. rewrite (label_class rows ps 0 k p E), map_length. reflexivity.
Qed.

Lemma classes_map rows (F : nat -> list (list nat)) (H : string -> list (list u2row)) : (forall i c, nth_error (unique (infos rows)) i = Some c -> map (map (rowd rows)) (F i) = H c) ->
  map (map (rowd rows)) (concat (map F (seq 0 (num_classes rows)))) = flat_map H (unique (infos rows)).
Proof.
  intros E. unfold num_classes. rewrite concat_map, map_map, flat_map_concat_map. f_equal. set (U := unique (infos rows)) in *. clearbody U. assert (G : forall l st, (forall i c, nth_error l i = Some c -> map (map (rowd rows)) (F (st + i)) = H c) -> map (fun i => map (map (rowd rows)) (F i)) (seq st (List.length l)) = map H l).
  { induction l as [|c l IH]; intros st Hl; [reflexivity|]. cbn. rewrite (IH (S st)) by (intros i d Ei; replace (S st + i) with (st + S i) by lia; apply Hl; exact Ei). pose proof (Hl 0 c eq_refl) as X. rewrite Nat.add_0_r in X. rewrite X. reflexivity. }
  apply (G U 0). exact E.
Qed.
Lemma windows_map {A B} (f : A -> B) mx overlap L : map (map f) (windows mx overlap L) = windows mx overlap (map f L).
Proof. unfold windows. rewrite map_length. destruct (List.length L <=? mx); [reflexivity|]. rewrite map_map. apply map_ext. intros k. rewrite <- firstn_map, <- skipn_map. reflexivity. Qed.
Lemma windows_in {A} mx overlap (L : list A) w x : In w (windows mx overlap L) -> In x w -> In x L.
Proof.
  unfold windows. destruct (List.length L <=? mx); intros I X; [destruct I as [<-|[]]; exact X|]. apply in_map_iff in I. destruct I as (k & <- & _). rewrite <- (firstn_skipn (k * (mx - overlap)) L). apply in_or_app. right. rewrite <- (firstn_skipn mx (skipn _ L)). apply in_or_app. left. exact X.
Qed.

(** ** Sequential splitting never fails and gives, class by class in sorted order, the overlapping windows of the rows of the class, each
    a new class, numbered in order; those with fewer than csplit_min_spc rows are dropped. When no class is too big the names stay. *)
Theorem C45_sequential : forall choice rows mn mx overlap, overlap < mx ->
  split_classes choice rows (Some mn) (Some mx) SSequential overlap false = Ok (
    if existsb (fun c => mx <? List.length (class_rows c rows)) (unique (infos rows))
    then labelled mn (flat_map (fun c => windows mx overlap (class_rows c rows)) (unique (infos rows)))
    else filter (fun r => (mn <=? Z.of_nat (List.length (class_rows (snd r) rows)))%Z) rows).
Proof.
  intros choice rows mn mx overlap O. unfold split_classes. rewrite (proj2 (Nat.leb_gt _ _) O).
  assert (A : forallb (fun i => num_spc rows i <=? mx) (seq 0 (num_classes rows)) = negb (existsb (fun c => mx <? List.length (class_rows c rows)) (unique (infos rows)))).
  { unfold num_classes. assert (G : forall l st, (forall i c, nth_error l i = Some c -> num_spc rows (st + i) = List.length (class_rows c rows)) -> forallb (fun i => num_spc rows i <=? mx) (seq st (List.length l)) = negb (existsb (fun c => mx <? List.length (class_rows c rows)) l)).
    { induction l as [|c l IH]; intros st H; [reflexivity|]. cbn [List.length seq forallb existsb]. rewrite (IH (S st)) by (intros i d E; replace (S st + i) with (st + S i) by lia; apply H; exact E). pose proof (H 0 c eq_refl) as X. rewrite Nat.add_0_r in X. rewrite X, negb_orb. f_equal. destruct (Nat.leb_spec (List.length (class_rows c rows)) mx), (Nat.ltb_spec mx (List.length (class_rows c rows))); try reflexivity; lia. }
    apply G. intros i c E. apply num_spc_count. exact E. }
  rewrite A. destruct (existsb _ (unique (infos rows))) eqn:X; cbn [negb]; [|apply min_filter]. cbv zeta. cbn [bind].
  set (s := mx - overlap). set (nmax := list_max (map (num_spc rows) (seq 0 (num_classes rows)))). set (ws := concat (map (class_writes choice SSequential rows mx s) (seq 0 (num_classes rows)))).
  assert (S1 : 1 <= s) by (unfold s; lia).
  assert (B : list_sum (map fst ws) * s <= list_sum (map (num_spc rows) (seq 0 (num_classes rows))) * mx) by (apply (concat_bound (class_writes choice SSequential rows mx s) (num_spc rows)); intros i _; apply (seq_writes choice rows mx overlap i O)).
  assert (B2 : list_sum (map (num_spc rows) (seq 0 (num_classes rows))) <= nmax * num_classes rows) by (pose proof (sum_max (map (num_spc rows) (seq 0 (num_classes rows)))) as Y; rewrite map_length, seq_length in Y; exact Y).
  assert (B3 : list_sum (map fst ws) <= mx * (nmax * num_classes rows / s + 1)). { set (N := nmax * num_classes rows) in *. pose proof (Nat.div_mod N s ltac:(lia)) as D. pose proof (Nat.mod_upper_bound N s ltac:(lia)) as M. set (q := N / s) in *. assert (Y : N <= s * (q + 1)) by lia. apply (Nat.mul_le_mono_pos_r _ _ s); [lia|]. eapply Nat.le_trans; [exact B|]. eapply Nat.le_trans; [apply Nat.mul_le_mono_r; exact B2|]. fold N. replace (mx * (q + 1) * s) with (s * (q + 1) * mx) by lia. apply Nat.mul_le_mono_r. exact Y. }
  rewrite (writes_ok _ ws [] 0); [|intros w I; unfold ws in I; apply in_concat in I; destruct I as (l & Il & I); apply in_map_iff in Il; destruct Il as (i & <- & _); apply (seq_writes choice rows mx overlap i O); exact I|cbn; exact B3].
  cbn [bind app]. assert (PS : map snd ws = concat (map (fun i => windows mx overlap (where_class rows i)) (seq 0 (num_classes rows)))). { unfold ws. rewrite concat_map, map_map. f_equal. apply map_ext. intros i. apply (seq_writes choice rows mx overlap i O). }
  rewrite label_take. 2: { intros p v Ip Iv. rewrite PS in Ip. apply in_concat in Ip. destruct Ip as (l & Il & Ip). apply in_map_iff in Il. destruct Il as (i & <- & _). apply (where_class_bound rows i). apply (windows_in mx overlap _ p v Ip Iv). }
  cbn [bind]. rewrite combine_labels, final_filter, PS. do 2 f_equal. apply (classes_map rows (fun i => windows mx overlap (where_class rows i)) (fun c => windows mx overlap (class_rows c rows))). intros i c E. rewrite windows_map, (where_class_rows rows i c E). reflexivity.
Qed.
(** every sub-class is a window of one class, has at most csplit_max_spc rows, and with csplit_min_spc <= 1 no row is lost *)
Theorem C45_sequential_limits : forall mn mx overlap rows ps, overlap < mx -> ps = flat_map (fun c => windows mx overlap (class_rows c rows)) (unique (infos rows)) ->
  (forall k p, nth_error ps k = Some p -> 1 <= List.length p <= mx /\ exists c, (forall r, In r p -> snd r = c /\ In r rows) /\
     class_rows (fmt_d (Z.of_nat k)) (labelled mn ps) = if (mn <=? Z.of_nat (List.length p))%Z then map (fun r => (fst r, fmt_d (Z.of_nat k))) p else []) /\
  (forall r, In r rows -> exists k p, nth_error ps k = Some p /\ In r p) /\
  ((mn <= 1)%Z -> forall r, In r rows -> exists c, In (fst r, c) (labelled mn ps)).
Proof.
  intros mn mx overlap rows ps O ->. set (U := unique (infos rows)).
  assert (NE : forall c, In c U -> class_rows c rows <> []) by (intros c I Q; pose proof (class_nonempty rows c I) as X; rewrite Q in X; cbn in X; lia).
  assert (COV : forall r, In r rows -> exists k p, nth_error (flat_map (fun c => windows mx overlap (class_rows c rows)) U) k = Some p /\ In r p).
  { intros r I. assert (Iu : In (snd r) U) by (unfold U; apply (proj2 (unique_in _ _)); unfold infos; apply in_map; exact I). assert (Ic : In r (class_rows (snd r) rows)) by (unfold class_rows; apply filter_In; split; [exact I|apply eqb_eq; reflexivity]). apply In_nth_error in Ic. destruct Ic as (i & Ei). destruct (proj1 (proj2 (windows_facts mx overlap (class_rows (snd r) rows) O (NE _ Iu))) i r Ei) as (k & w & j & Ek & _ & Ej).
    assert (Iw : In w (flat_map (fun c => windows mx overlap (class_rows c rows)) U)) by (apply in_flat_map; exists (snd r); split; [exact Iu|apply (nth_error_In _ _ Ek)]). apply In_nth_error in Iw. destruct Iw as (k' & Ek'). exists k', w. split; [exact Ek'|apply (nth_error_In _ _ Ej)]. }
  set (ps := flat_map (fun c => windows mx overlap (class_rows c rows)) U) in *.
  assert (LAB : forall k p, nth_error ps k = Some p -> forall st, class_rows (fmt_d (Z.of_nat (st + k))) (flat_map (fun q => if (mn <=? Z.of_nat (List.length (snd q)))%Z then map (fun r : u2row => (fst r, fmt_d (Z.of_nat (fst q)))) (snd q) else []) (combine (seq st (List.length ps)) ps)) = if (mn <=? Z.of_nat (List.length p))%Z then map (fun r => (fst r, fmt_d (Z.of_nat (st + k)))) p else []).
  { assert (CA : forall c a b, class_rows c (a ++ b) = class_rows c a ++ class_rows c b) by (intros c a b; unfold class_rows; apply filter_app).
    assert (SAME : forall id (p : list u2row), class_rows (fmt_d (Z.of_nat id)) (map (fun r : u2row => (fst r, fmt_d (Z.of_nat id))) p) = map (fun r => (fst r, fmt_d (Z.of_nat id))) p) by (intros id p; induction p as [|v p IH]; [reflexivity|]; cbn; rewrite (proj2 (eqb_eq (fmt_d (Z.of_nat id)) (fmt_d (Z.of_nat id))) eq_refl); f_equal; exact IH).
    assert (OTHER : forall id (p : list u2row) c, c <> fmt_d (Z.of_nat id) -> class_rows c (map (fun r : u2row => (fst r, fmt_d (Z.of_nat id))) p) = []) by (intros id p c N; induction p as [|v p IH]; [reflexivity|]; cbn; destruct (eqb (fmt_d (Z.of_nat id)) c) eqn:E; [apply eqb_eq in E; congruence|exact IH]).
    clear COV NE. clearbody ps. induction ps as [|p0 ps IH]; intros k p E st; [destruct k; discriminate|]. cbn [List.length seq combine flat_map fst snd]. rewrite CA. destruct k as [|k]; cbn in E.
    - injection E as ->. rewrite Nat.add_0_r. assert (R : forall l s', st < s' -> class_rows (fmt_d (Z.of_nat st)) (flat_map (fun q => if (mn <=? Z.of_nat (List.length (snd q)))%Z then map (fun r : u2row => (fst r, fmt_d (Z.of_nat (fst q)))) (snd q) else []) (combine (seq s' (List.length l)) l)) = []). { induction l as [|x l IHl]; intros s' Ls; [reflexivity|]. cbn [List.length seq combine flat_map fst snd]. rewrite CA, IHl by lia. rewrite app_nil_r. destruct (mn <=? _)%Z; [|reflexivity]. apply OTHER. intros Q. apply fmt_d_inj in Q. lia. }
      rewrite R by lia. rewrite app_nil_r. destruct (mn <=? _)%Z; [apply SAME|reflexivity].
    - rewrite (Nat.add_succ_r st k). change (S (st + k)) with (S st + k). rewrite (IH k p E (S st)). replace (class_rows (fmt_d (Z.of_nat (S st + k))) (if (mn <=? Z.of_nat (List.length p0))%Z then map (fun r : u2row => (fst r, fmt_d (Z.of_nat st))) p0 else [])) with (@nil u2row); [reflexivity|]. destruct (mn <=? Z.of_nat (List.length p0))%Z; [|reflexivity]. symmetry. apply OTHER. intros Q. apply fmt_d_inj in Q. lia. }
  split; [|split; [exact COV|]].
  - intros k p E. assert (Ip : In p ps) by apply (nth_error_In _ _ E). unfold ps in Ip. apply in_flat_map in Ip. destruct Ip as (c & Ic & Ip). split; [apply (proj1 (windows_facts mx overlap (class_rows c rows) O (NE c Ic))); exact Ip|]. exists c. split.
    + intros r Ir. pose proof (windows_in mx overlap _ p r Ip Ir) as X. unfold class_rows in X. apply filter_In in X as (X1 & X2). apply eqb_eq in X2. split; assumption.
    + unfold labelled. apply (LAB k p E 0).
  - intros Mn r I. destruct (COV r I) as (k & p & E & Ir). exists (fmt_d (Z.of_nat k)). pose proof (LAB k p E 0) as L. fold (labelled mn ps) in L. assert (Ip : In p ps) by apply (nth_error_In _ _ E). unfold ps in Ip. apply in_flat_map in Ip. destruct Ip as (c & Ic & Ip). pose proof (proj1 (windows_facts mx overlap (class_rows c rows) O (NE c Ic)) p Ip) as [L1 _]. rewrite (proj2 (Z.leb_le _ _)) in L by lia.
    assert (X : In (fst r, fmt_d (Z.of_nat k)) (class_rows (fmt_d (Z.of_nat (0 + k))) (labelled mn ps))) by (rewrite L; apply (in_map (fun r : u2row => (fst r, fmt_d (Z.of_nat k)))); exact Ir). unfold class_rows in X. apply filter_In in X as (X & _). exact X.
Qed.
