(** Flat cuts of the agglomerative clustering. *)
From Coq Require Import QArith Lia Permutation.
From Verif Require Import BaseFacts Ahc.
Open Scope list_scope.
Open Scope nat_scope.

(** ** Specification *)
(** a merge table of N items: row i joins two different nodes that exist and were not joined before *)
Definition merge_table (tbl : list row) : Prop :=
  forall i r, nth_error tbl i = Some r -> r_a r <> r_b r /\
    forall c, c = r_a r \/ c = r_b r -> c < S (List.length tbl) + i /\
      forall j s, j < i -> nth_error tbl j = Some s -> c <> r_a s /\ c <> r_b s.
(** the items under a node of the tree *)
Inductive under (tbl : list row) : nat -> nat -> Prop :=
| under_item : forall x, x < S (List.length tbl) -> under tbl x x
| under_left : forall i r x, nth_error tbl i = Some r -> under tbl (r_a r) x -> under tbl (S (List.length tbl) + i) x
| under_right : forall i r x, nth_error tbl i = Some r -> under tbl (r_b r) x -> under tbl (S (List.length tbl) + i) x.
(** joined by the first p rows *)
Definition joined (tbl : list row) (p x y : nat) : Prop := exists c, c < S (List.length tbl) + p /\ under tbl c x /\ under tbl c y.

Section Ahc.
Variable tbl : list row.
Notation N := (S (List.length tbl)).
Hypothesis W : merge_table tbl.
Definition live (p c : nat) : Prop := c < N + p /\ forall j s, j < p -> nth_error tbl j = Some s -> c <> r_a s /\ c <> r_b s.

Lemma step_nth N' i r flat x : nth_error (merge_step N' i r flat) x = option_map (fun c => if (c =? r_a r) || (c =? r_b r) then N' + i else c) (nth_error flat x).
Proof. unfold merge_step. rewrite nth_error_map. reflexivity. Qed.

Lemma step_dec (c : nat) r : ((c =? r_a r) || (c =? r_b r) = true /\ (c = r_a r \/ c = r_b r)) \/ ((c =? r_a r) || (c =? r_b r) = false /\ c <> r_a r /\ c <> r_b r).
Proof. destruct (Nat.eqb_spec c (r_a r)), (Nat.eqb_spec c (r_b r)); cbn; auto. Qed.

Lemma under_bound c x : under tbl c x -> x < N /\ c < N + List.length tbl.
Proof. induction 1 as [x L|i r x E U IH|i r x E U IH]; [lia| |]; (assert (i < List.length tbl) by (apply nth_error_Some; congruence); lia). Qed.

Lemma under_new i r x : nth_error tbl i = Some r -> under tbl (N + i) x -> under tbl (r_a r) x \/ under tbl (r_b r) x.
Proof.
  intros E U. inversion U as [y L Q|j s y Ej Uj Q|j s y Ej Uj Q]; subst; [lia| |]; (assert (j = i) by lia; subst j; rewrite E in Ej; injection Ej as <-; auto).
Qed.

Lemma loop_inv p : p <= List.length tbl -> exists flat, merge_loop N tbl p = Ok flat /\ List.length flat = N /\
  (forall x c, nth_error flat x = Some c -> live p c /\ under tbl c x) /\
  (forall x c, live p c -> under tbl c x -> nth_error flat x = Some c) /\
  (forall x y c, c < N + p -> under tbl c x -> under tbl c y -> nth_error flat x = nth_error flat y) /\
  (forall c, live p c -> In c flat).
Proof.
  induction p as [|i IH]; intros L.
  - exists (seq 0 N). split; [reflexivity|]. split; [apply seq_length|].
    assert (NS : forall x, nth_error (seq 0 N) x = if x <? N then Some x else None). { intros x. destruct (Nat.ltb_spec x N) as [Q|Q]; [rewrite (nth_error_nth' _ 0) by (rewrite seq_length; exact Q); rewrite seq_nth by exact Q; reflexivity|apply nth_error_None; rewrite seq_length; exact Q]. }
    assert (UL : forall c x, c < N + 0 -> under tbl c x -> c = x) by (intros c x Lc U; inversion U; subst; [reflexivity|lia|lia]).
    split; [|split; [|split]].
    + intros x c E. rewrite NS in E. destruct (Nat.ltb_spec x N); [|discriminate]. injection E as <-. split; [split; [lia|intros; lia]|apply under_item; assumption].
    + intros x c (Lc & _) U. rewrite <- (UL c x Lc U), NS. destruct (Nat.ltb_spec c N); [reflexivity|lia].
    + intros x y c Lc U V. rewrite <- (UL c x Lc U), <- (UL c y Lc V). reflexivity.
    + intros c (Lc & _). apply in_seq. lia.
  - destruct (IH ltac:(lia)) as (flat & E & Len & I1 & I2 & I3 & I4). destruct (nth_error tbl i) as [r|] eqn:R; [|apply nth_error_None in R; lia].
    exists (merge_step N i r flat). split; [change (merge_loop N tbl (S i)) with (flat <- merge_loop N tbl i ;; match nth_error tbl i with Some r => Ok (merge_step N i r flat) | None => Err IndexError end); rewrite E, R; reflexivity|]. split; [unfold merge_step; rewrite map_length; exact Len|].
    destruct (W i r R) as (D & Wc).
    assert (La : live i (r_a r)) by (destruct (Wc (r_a r) (or_introl eq_refl)) as (A & B); split; [exact A|exact B]).
    assert (Lb : live i (r_b r)) by (destruct (Wc (r_b r) (or_intror eq_refl)) as (A & B); split; [exact A|exact B]).
    assert (LN : live (S i) (N + i)). { split; [lia|]. intros j s Lj Ej. destruct (W j s Ej) as (_ & Q). destruct (Q _ (or_introl eq_refl)) as (Q1 & _), (Q _ (or_intror eq_refl)) as (Q2 & _). lia. }
    assert (LS : forall c, live i c -> c <> r_a r -> c <> r_b r -> live (S i) c). { intros c (A & B) Na Nb. split; [lia|]. intros j s Lj Ej. destruct (Nat.eq_dec j i) as [Q|Q]; [subst j; rewrite R in Ej; injection Ej as <-; split; assumption|apply (B j s); [lia|exact Ej]]. }
    assert (LI : forall c, live (S i) c -> c <> N + i -> live i c /\ c <> r_a r /\ c <> r_b r). { intros c (A & B) Nc. split; [split; [lia|intros j s Lj Ej; apply (B j s); [lia|exact Ej]]|]. apply (B i r); [lia|exact R]. }
    split; [|split; [|split]].
    + intros x c Ex. rewrite step_nth in Ex. destruct (nth_error flat x) as [c0|] eqn:E0; [|discriminate]. cbn [option_map] in Ex. destruct (I1 x c0 E0) as (Lc & U). destruct (step_dec c0 r) as [(Q & Qc)|(Q & Qa & Qb)]; rewrite Q in Ex; injection Ex as <-.
      * split; [exact LN|]. destruct Qc as [Qc|Qc]; subst c0; [exact (under_left tbl i r x R U)|exact (under_right tbl i r x R U)].
      * split; [apply LS; assumption|exact U].
    + intros x c Lc U. rewrite step_nth. destruct (Nat.eq_dec c (N + i)) as [Q|Q].
      * rewrite Q in U |- *. destruct (under_new i r x R U) as [V|V]; [rewrite (I2 x _ La V)|rewrite (I2 x _ Lb V)]; cbn [option_map]; rewrite Nat.eqb_refl, ?orb_true_r; reflexivity.
      * destruct (LI c Lc Q) as (Lc' & Na & Nb). rewrite (I2 x c Lc' U). cbn [option_map]. destruct (step_dec c r) as [(_ & [Qc|Qc])|(Q' & _)]; [contradiction|contradiction|rewrite Q'; reflexivity].
    + intros x y c Lc U V. rewrite !step_nth. destruct (Nat.eq_dec c (N + i)) as [Q|Q]; [|rewrite (I3 x y c ltac:(lia) U V); reflexivity]. rewrite Q in U, V.
      assert (H : forall z, under tbl (N + i) z -> option_map (fun c => if (c =? r_a r) || (c =? r_b r) then N + i else c) (nth_error flat z) = Some (N + i)) by (intros z Uz; destruct (under_new i r z R Uz) as [T|T]; [rewrite (I2 z _ La T)|rewrite (I2 z _ Lb T)]; cbn [option_map]; rewrite Nat.eqb_refl, ?orb_true_r; reflexivity). rewrite (H x U), (H y V). reflexivity.
    + intros c Lc. unfold merge_step. apply in_map_iff. destruct (Nat.eq_dec c (N + i)) as [Q|Q].
      * exists (r_a r). rewrite Nat.eqb_refl. split; [cbn [orb]; symmetry; exact Q|apply I4; exact La].
      * destruct (LI c Lc Q) as (Lc' & Na & Nb). exists c. destruct (step_dec c r) as [(_ & [Qc|Qc])|(Q' & _)]; [contradiction|contradiction|]. rewrite Q'. split; [reflexivity|apply I4; exact Lc'].
Qed.

(** the nodes joined by the first p rows *)
Definition gone (p : nat) : list nat := flat_map (fun r => [r_a r; r_b r]) (firstn p tbl).
Lemma firstn_S_row p r : nth_error tbl p = Some r -> firstn (S p) tbl = firstn p tbl ++ [r].
Proof. revert p. generalize tbl. clear. intros l p E. apply nth_error_ext. intros i. rewrite nth_error_firstn. destruct (Nat.ltb_spec i (S p)) as [Q|Q].
  - destruct (Nat.eq_dec i p) as [->|N]; [rewrite nth_error_app2; rewrite firstn_length, Nat.min_l by (apply Nat.lt_le_incl, nth_error_Some; congruence); [rewrite Nat.sub_diag; exact E|lia]|].
    assert (p < List.length l) by (apply nth_error_Some; congruence). rewrite nth_error_app1 by (rewrite firstn_length; lia). rewrite nth_error_firstn. destruct (Nat.ltb_spec i p); [reflexivity|lia].
  - symmetry. apply nth_error_None. rewrite app_length, firstn_length. cbn. lia.
Qed.
Lemma gone_in p c : In c (gone p) <-> exists j s, j < p /\ nth_error tbl j = Some s /\ (c = r_a s \/ c = r_b s).
Proof.
  unfold gone. rewrite in_flat_map. split.
  - intros (s & I & H). apply In_nth_error in I. destruct I as (j & E). rewrite nth_error_firstn in E. destruct (Nat.ltb_spec j p); [|discriminate]. exists j, s. split; [assumption|]. split; [exact E|]. destruct H as [<-|[<-|[]]]; auto.
  - intros (j & s & L & E & H). exists s. split; [apply (nth_error_In _ j); rewrite nth_error_firstn; destruct (Nat.ltb_spec j p); [exact E|lia]|]. destruct H as [-> | ->]; cbn; auto.
Qed.
Lemma gone_ok p : p <= List.length tbl -> NoDup (gone p) /\ List.length (gone p) = 2 * p.
Proof.
  induction p as [|p IH]; intros L; [split; [constructor|reflexivity]|]. destruct (IH ltac:(lia)) as (ND & Len). destruct (nth_error tbl p) as [r|] eqn:R; [|apply nth_error_None in R; lia].
  unfold gone in *. rewrite (firstn_S_row p r R), flat_map_app. cbn [flat_map app]. split; [|rewrite app_length, Len; cbn; lia].
  destruct (W p r R) as (D & Wc). assert (X : forall c, c = r_a r \/ c = r_b r -> ~ In c (gone p)). { intros c Hc I. apply gone_in in I. destruct I as (j & s & Lj & Ej & Hj). destruct (Wc c Hc) as (_ & Q). destruct (Q j s Lj Ej). destruct Hj; contradiction. }
  apply (Permutation_NoDup (l := [r_a r; r_b r] ++ gone p)); [apply Permutation_app_comm|]. cbn. constructor; [intros [Q|Q]; [congruence|apply (X (r_a r)); auto]|]. constructor; [apply X; auto|exact ND].
Qed.
Lemma cut_count p flat : p <= List.length tbl -> merge_loop N tbl p = Ok flat -> List.length (unique flat) = N - p.
Proof.
  intros L E. destruct (loop_inv p L) as (f & E' & Len & I1 & I2 & I3 & I4). rewrite E in E'. injection E' as <-. destruct (gone_ok p L) as (ND & LG).
  assert (P : Permutation (unique flat ++ gone p) (seq 0 (N + p))).
  { apply NoDup_Permutation; [|apply seq_NoDup|].
    - assert (X : forall l1 l2 : list nat, NoDup l1 -> NoDup l2 -> (forall a, In a l1 -> ~ In a l2) -> NoDup (l1 ++ l2)). { clear. induction l1 as [|a l IH]; intros l2 A B C; [exact B|]. inversion A; subst. cbn. constructor; [intros I; apply in_app_or in I; destruct I as [I|I]; [contradiction|exact (C a (or_introl eq_refl) I)]|]. apply IH; [assumption|exact B|]. intros x I. apply C. right. exact I. }
      apply X; [apply unique_nodup|exact ND|]. intros a Ia Ig. apply (unique_in a flat) in Ia. apply In_nth_error in Ia. destruct Ia as (x & Ex). destruct (I1 x a Ex) as ((_ & Q) & _). apply gone_in in Ig. destruct Ig as (j & s & Lj & Ej & Hj). destruct (Q j s Lj Ej). destruct Hj; contradiction.
    - intros c. rewrite in_app_iff, unique_in, in_seq. split.
      + intros [I|I]; [apply In_nth_error in I; destruct I as (x & Ex); destruct (I1 x c Ex) as ((Q & _) & _); lia|]. apply gone_in in I. destruct I as (j & s & Lj & Ej & Hj). destruct (W j s Ej) as (_ & Wc). destruct (Wc c Hj). lia.
      + intros Q. destruct (in_dec Nat.eq_dec c (gone p)) as [G|G]; [right; exact G|left]. apply I4. split; [lia|]. intros j s Lj Ej. split; intros Qc; apply G, gone_in; exists j, s; auto. }
  apply Permutation_length in P. rewrite app_length, LG, seq_length in P. lia.
Qed.
End Ahc.

(** A cut in k clusters, 1 <= k <= N: every item has one label, the labels used are exactly 0..k-1, and two items have the
    same label exactly when one of the first N - k merges put them together. *)
Theorem C43_cut : forall tbl k, merge_table tbl -> 1 <= k <= S (List.length tbl) ->
  exists labels, from_num_clusters tbl (Z.of_nat k) = Ok labels /\ List.length labels = S (List.length tbl) /\
    (forall d, In d labels <-> d < k) /\
    (forall x y, x < S (List.length tbl) -> y < S (List.length tbl) -> (nth_error labels x = nth_error labels y <-> joined tbl (S (List.length tbl) - k) x y)).
Proof.
  intros tbl k W L. unfold from_num_clusters. cbv zeta. rewrite Z.min_r by lia. replace (Z.to_nat (Z.of_nat (S (List.length tbl)) - Z.of_nat k)) with (S (List.length tbl) - k) by lia.
  set (p := S (List.length tbl) - k). assert (Lp : p <= List.length tbl) by (unfold p; lia). destruct (loop_inv tbl W p Lp) as (flat & E & Len & I1 & I2 & I3 & I4). rewrite E. cbn [bind]. exists (inverse flat). split; [reflexivity|]. split; [rewrite inverse_length; exact Len|].
  pose proof (cut_count tbl W p flat Lp E) as C. replace (S (List.length tbl) - p) with k in C by (unfold p; lia). split.
  - intros d. split; [intros I; rewrite <- C; apply inverse_bound; exact I|intros I; apply inverse_onto; rewrite C; exact I].
  - intros x y Lx Ly. assert (G : forall z, z < S (List.length tbl) -> exists c d, nth_error flat z = Some c /\ nth_error (inverse flat) z = Some d /\ nth_error (unique flat) d = Some c).
    { intros z Lz. destruct (nth_error flat z) as [c|] eqn:Ec; [|apply nth_error_None in Ec; lia]. destruct (inverse_nth flat z c Ec) as (d & D1 & D2). exists c, d. auto. }
    destruct (G x Lx) as (cx & dx & X1 & X2 & X3), (G y Ly) as (cy & dy & Y1 & Y2 & Y3). rewrite X2, Y2.
    assert (A : Some dx = Some dy <-> cx = cy). { split; [intros Q; injection Q as ->; congruence|intros ->]. f_equal. apply (proj1 (NoDup_nth_error (unique flat)) (unique_nodup flat)); [apply nth_error_Some; congruence|congruence]. }
    rewrite A. split.
    + intros ->. exists cy. destruct (I1 x cy X1) as ((Q & _) & U), (I1 y cy Y1) as (_ & V). auto.
    + intros (c & Lc & U & V). pose proof (I3 x y c Lc U V) as Q. congruence.
Qed.

(** Asking for more clusters than items gives one cluster per item. *)
Theorem C43_too_many : forall tbl k, (Z.of_nat (S (List.length tbl)) <= k)%Z -> from_num_clusters tbl k = Ok (seq 0 (S (List.length tbl))).
Proof.
  intros tbl k L. unfold from_num_clusters. cbv zeta. rewrite Z.min_l by exact L. rewrite Z.sub_diag. cbn [Z.to_nat merge_loop bind]. f_equal. set (n := S (List.length tbl)). clearbody n.
  assert (U : unique (seq 0 n) = seq 0 n). { apply unique_of_sorted. clear. assert (H : forall m s, Sorted.StronglySorted (@slt nat _) (seq s m)); [|apply H]. induction m as [|m IH]; intros s; [constructor|]. cbn. constructor; [apply IH|]. apply Forall_forall. intros y I. apply in_seq in I. unfold slt. unfold leb. cbn. split; [apply Nat.leb_le; lia|lia]. }
  apply nth_error_ext. intros i. destruct (nth_error (seq 0 n) i) as [c|] eqn:E.
  - destruct (inverse_nth (seq 0 n) i c E) as (d & D1 & D2). rewrite D1. rewrite U in D2. assert (Li : i < n) by (rewrite <- (seq_length n 0); apply nth_error_Some; congruence). assert (Ld : d < n) by (rewrite <- (seq_length n 0); apply nth_error_Some; congruence). rewrite (nth_error_nth' _ 0) in E by (rewrite seq_length; assumption). rewrite (nth_error_nth' _ 0) in D2 by (rewrite seq_length; assumption). rewrite seq_nth in E by assumption. rewrite seq_nth in D2 by assumption. injection E as <-. injection D2 as D2. f_equal. lia.
  - apply nth_error_None in E. apply nth_error_None. rewrite inverse_length. exact E.
Qed.
(** Fewer than one cluster is an error. *)
Theorem C43_too_few : forall tbl k, merge_table tbl -> (k <= 0)%Z -> from_num_clusters tbl k = Err IndexError.
Proof.
  intros tbl k W L. unfold from_num_clusters. cbv zeta. rewrite Z.min_r by lia.
  assert (X : forall m, merge_loop (S (List.length tbl)) tbl (S (List.length tbl) + m) = Err IndexError).
  { induction m as [|m IH]; [rewrite Nat.add_0_r|rewrite Nat.add_succ_r]; cbn [merge_loop].
    - destruct (loop_inv tbl W (List.length tbl) (Nat.le_refl _)) as (flat & E & _). rewrite E. cbn [bind]. rewrite (proj2 (nth_error_None tbl (List.length tbl))) by lia. reflexivity.
    - rewrite IH. reflexivity. }
  replace (Z.to_nat (Z.of_nat (S (List.length tbl)) - k)) with (S (List.length tbl) + Z.to_nat (- k)) by lia. rewrite X. reflexivity.
Qed.

(** Nested: items together in a cut are together in every coarser cut. *)
Theorem C43_nested : forall tbl k k' labels labels', merge_table tbl -> 1 <= k' <= k -> k <= S (List.length tbl) ->
  from_num_clusters tbl (Z.of_nat k) = Ok labels -> from_num_clusters tbl (Z.of_nat k') = Ok labels' ->
  forall x y, x < S (List.length tbl) -> y < S (List.length tbl) -> nth_error labels x = nth_error labels y -> nth_error labels' x = nth_error labels' y.
Proof.
  intros tbl k k' labels labels' W L1 L2 E E' x y Lx Ly Q. destruct (C43_cut tbl k W ltac:(lia)) as (l & El & _ & _ & J). destruct (C43_cut tbl k' W ltac:(lia)) as (l' & El' & _ & _ & J'). rewrite E in El. injection El as <-. rewrite E' in El'. injection El' as <-.
  apply J'; [exact Lx|exact Ly|]. apply J in Q; [|exact Lx|exact Ly]. destruct Q as (c & Lc & U & V). exists c. split; [lia|]. auto.
Qed.

(** ** Cuts at a threshold *)
Definition passes (mt : metric) (thr : Q) (r : row) : bool := match mt with Other => Qle_bool (r_h r) thr | _ => Qle_bool thr (r_h r) end.
(** heights are monotone along the table: better merges first *)
Definition heights_sorted (mt : metric) (tbl : list row) : Prop :=
  forall i j r s, i <= j -> nth_error tbl i = Some r -> nth_error tbl j = Some s -> match mt with Other => (r_h r <= r_h s)%Q | _ => (r_h s <= r_h r)%Q end.
Lemma passes_down mt thr tbl i j r s : heights_sorted mt tbl -> i <= j -> nth_error tbl i = Some r -> nth_error tbl j = Some s -> passes mt thr s = true -> passes mt thr r = true.
Proof. intros H L R S P. specialize (H i j r s L R S). unfold passes in *. destruct mt; apply Qle_bool_iff in P; apply Qle_bool_iff; eapply Qle_trans; eassumption. Qed.
Lemma passes_prefix mt thr tbl : heights_sorted mt tbl -> forall i r, nth_error tbl i = Some r -> (passes mt thr r = true <-> i < List.length (filter (passes mt thr) tbl)).
Proof.
  induction tbl as [|a tbl IH]; intros H i r E; [destruct i; discriminate|]. assert (H' : heights_sorted mt tbl) by (intros i' j' r' s' L R S; apply (H (Datatypes.S i') (Datatypes.S j') r' s'); [lia|exact R|exact S]).
  cbn [filter]. destruct i as [|i].
  - injection E as <-. destruct (passes mt thr a) eqn:P; [cbn; split; [lia|reflexivity]|]. split; [discriminate|]. intros L. destruct (filter (passes mt thr) tbl) as [|b l] eqn:F; [cbn in L; lia|]. assert (I : In b (filter (passes mt thr) tbl)) by (rewrite F; left; reflexivity). apply filter_In in I. destruct I as (I & Pb). apply In_nth_error in I. destruct I as (j & Ej). rewrite (passes_down mt thr (a :: tbl) 0 (S j) a b H ltac:(lia) eq_refl Ej Pb) in P. discriminate.
  - cbn in E. destruct (passes mt thr a) eqn:P; cbn [List.length].
    + rewrite (IH H' i r E). lia.
    + rewrite (IH H' i r E). split; [|lia]. intros L. destruct (filter (passes mt thr) tbl) as [|b l] eqn:F; [cbn in L; lia|]. assert (I : In b (filter (passes mt thr) tbl)) by (rewrite F; left; reflexivity). apply filter_In in I. destruct I as (I & Pb). apply In_nth_error in I. destruct I as (j & Ej). rewrite (passes_down mt thr (a :: tbl) 0 (S j) a b H ltac:(lia) eq_refl Ej Pb) in P. discriminate.
Qed.

(** With monotone heights, a cut at a threshold puts two items together exactly when some node whose merge passes the threshold
    (score >= threshold for llr and prob, distance <= threshold otherwise) contains both. *)
Theorem C43_threshold : forall mt tbl thr, merge_table tbl -> heights_sorted mt tbl ->
  exists labels, from_thr mt tbl thr = Ok labels /\ List.length labels = S (List.length tbl) /\
    forall x y, x < S (List.length tbl) -> y < S (List.length tbl) ->
      (nth_error labels x = nth_error labels y <-> x = y \/ exists i r, nth_error tbl i = Some r /\ passes mt thr r = true /\ under tbl (S (List.length tbl) + i) x /\ under tbl (S (List.length tbl) + i) y).
Proof.
  intros mt tbl thr W H. unfold from_thr. fold (passes mt thr). set (n := List.length (filter (passes mt thr) tbl)). assert (Ln : n <= List.length tbl) by (unfold n; clear; induction tbl as [|a tbl IH]; cbn; [lia|]; destruct (passes mt thr a); cbn; lia).
  replace (Z.of_nat (List.length tbl) + 1 - Z.of_nat n)%Z with (Z.of_nat (S (List.length tbl) - n)) by lia. destruct (C43_cut tbl (S (List.length tbl) - n) W ltac:(lia)) as (labels & E & Len & _ & J). exists labels. split; [exact E|]. split; [exact Len|].
  intros x y Lx Ly. rewrite (J x y Lx Ly). replace (S (List.length tbl) - (S (List.length tbl) - n)) with n by lia. split.
  - intros (c & Lc & U & V). destruct (le_lt_dec (S (List.length tbl)) c) as [Q|Q].
    + right. exists (c - S (List.length tbl)). destruct (under_bound tbl c x U) as (_ & B). destruct (nth_error tbl (c - S (List.length tbl))) as [r|] eqn:R; [|apply nth_error_None in R; lia]. exists r. split; [reflexivity|]. split; [apply (proj2 (passes_prefix mt thr tbl H _ r R)); fold n; lia|]. replace (S (List.length tbl) + (c - S (List.length tbl))) with c by lia. split; assumption.
    + left. inversion U; subst; [|lia|lia]. inversion V; subst; [|lia|lia]. reflexivity.
  - intros [->|(i & r & R & P & U & V)]; [exists y; split; [lia|]; split; apply under_item; exact Ly|]. exists (S (List.length tbl) + i). split; [|split; assumption]. apply (proj1 (passes_prefix mt thr tbl H i r R)) in P. fold n in P. lia.
Qed.

(** Without monotone heights (centroid and median linkage) the cut counts merges that pass but applies the first ones: here the
    second merge passes and the first does not, yet items 0 and 1 of the first merge are put together. *)
Theorem C43_threshold_refuted : exists tbl labels, merge_table tbl /\ from_thr Other tbl 1 = Ok labels /\ nth_error labels 0 = nth_error labels 1 /\ nth_error labels 0 <> nth_error labels 2 /\
  (exists r, nth_error tbl 0 = Some r /\ passes Other 1 r = false) /\ (exists r, nth_error tbl 1 = Some r /\ passes Other 1 r = true).
Proof.
  exists [mk_row 0 1 2; mk_row 3 2 1]. eexists. split; [|split; [vm_compute; reflexivity|]].
  - intros [|[|i]] r E; [| |destruct i; discriminate]; injection E as <-; (split; [cbn; lia|]); intros c [->| ->]; cbn [r_a r_b List.length]; (split; [lia|]); intros [|[|j]] s Lj Ej; try lia; injection Ej as <-; cbn; lia.
  - split; [reflexivity|]. split; [discriminate|]. split; eexists; split; reflexivity.
Qed.

(** The impurity curve cannot be computed. *)
Theorem C43_impurity_refuted : forall tbl labels, evaluate_impurity_det tbl labels = Err TypeError.
Proof. reflexivity. Qed.

(** What llr scores are given to linkage: distances that are all >= 0 and order the pairs in the opposite way; the heights
    of the table are turned back into scores. *)
Lemma qmax_ge l : forall x, (x <= qmax x l)%Q /\ forall y, In y l -> (y <= qmax x l)%Q.
Proof.
  induction l as [|a l IH]; intros x; [split; [apply Qle_refl|intros y []]|]. cbn [qmax fold_left]. fold (qmax (if Qle_bool x a then a else x) l). destruct (IH (if Qle_bool x a then a else x)) as (A & B).
  assert (C : (x <= (if Qle_bool x a then a else x))%Q /\ (a <= (if Qle_bool x a then a else x))%Q). { destruct (Qle_bool x a) eqn:Q; [apply Qle_bool_iff in Q; split; [exact Q|apply Qle_refl]|]. split; [apply Qle_refl|]. apply Qlt_le_weak, Qnot_le_lt. intros H. apply Qle_bool_iff in H. congruence. }
  destruct C as (C1 & C2). split; [eapply Qle_trans; eassumption|]. intros y [<-|I]; [eapply Qle_trans; eassumption|apply B; exact I].
Qed.
Theorem C43_fit_llr : forall linkage m x tbl, fit linkage Llr m x = Ok tbl ->
  exists top, (forall s, In s (condensed (masked m x)) -> (0 <= - s + top)%Q) /\ In top (condensed (masked m x)) /\
    exists t0, t0 = linkage (map (fun s => - s + top)%Q (condensed (masked m x))) /\ tbl = map (fun r => mk_row (r_a r) (r_b r) (- r_h r + top)%Q) t0.
Proof.
  intros linkage m x tbl E. unfold fit in E. cbv zeta in E. destruct (condensed (masked m x)) as [|s l] eqn:C; [discriminate|]. injection E as <-. exists (qmax s l). destruct (qmax_ge l s) as (A & B). split; [|split].
  - assert (Z : forall y, (y <= qmax s l)%Q -> (0 <= - y + qmax s l)%Q) by (intros y Ly; rewrite Qplus_comm; apply (proj1 (Qle_minus_iff y (qmax s l))); exact Ly). intros y [<-|I]; apply Z; [exact A|apply B; exact I].
  - clear. assert (H : forall l x, qmax x l = x \/ In (qmax x l) l). { clear. induction l as [|a l IH]; intros x; [left; reflexivity|]. cbn [qmax fold_left]. fold (qmax (if Qle_bool x a then a else x) l). destruct (IH (if Qle_bool x a then a else x)) as [Q|Q]; [|right; right; exact Q]. rewrite Q. destruct (Qle_bool x a); [right; left; reflexivity|left; reflexivity]. }
    destruct (H l s) as [->|Q]; [left; reflexivity|right; exact Q].
  - eexists. split; reflexivity.
Qed.
(** A single item cannot be clustered with llr scores. *)
Theorem C43_single_refuted : forall linkage v, fit linkage Llr None [[v]] = Err ValueError.
Proof. reflexivity. Qed.

Definition ex_tbl : list row := [mk_row 0 2 3; mk_row 1 3 2; mk_row 4 5 1].
Example C43_witness : merge_table ex_tbl /\ heights_sorted Llr ex_tbl /\ from_num_clusters ex_tbl 2 = Ok [0; 1; 0; 1] /\ from_thr Llr ex_tbl 3 = Ok [2; 0; 2; 1].
Proof.
  split; [|split; [|split; vm_compute; reflexivity]].
  - intros [|[|[|i]]] r E; [| | |destruct i; discriminate]; injection E as <-; (split; [cbn; lia|]); intros c [->| ->]; cbn [r_a r_b List.length ex_tbl]; (split; [lia|]); intros [|[|[|j]]] s Lj Ej; try lia; injection Ej as <-; cbn; lia.
  - intros [|[|[|i]]] [|[|[|j]]] r s L R S; try lia; try (destruct i; discriminate); try (destruct j; discriminate); injection R as <-; injection S as <-; cbn; discriminate.
Qed.
Print Assumptions C43_cut. Print Assumptions C43_threshold.
