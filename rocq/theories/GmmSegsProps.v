(** Statistics of segments and sliding windows (C72). *)
From Coq Require Import Reals Lra Lia Psatz.
From Verif Require Import Base BaseFacts MathFns MathFnsProps ScoreNorm ScoreNormProps NormalDiag NormalDiagProps GmmDiag GmmDiagProps GmmSegs.
Open Scope list_scope. Open Scope R_scope.

(** ** Specification: [stats_of K d g x w N u] (GmmDiagProps.v) says that N and u are the posterior-weighted counts, sums and sums of
    squares of the rows x with weights w; [slice a b x] are the rows a, ..., b-1. *)
Definition window_stats (K d : nat) (g : gmm) (x : list (nat -> R)) (w : option (list R)) (a b : nat) (st : (nat -> R) * (nat -> nat -> R)) : Prop :=
  stats_of K d g (slice a b x) (wslice a b w) (fst st) (snd st).
(** the same with every row also weighted by its entry in column i of prob *)
Definition prob_stats (K d : nat) (g : gmm) (x : list (nat -> R)) (prob : list (nat -> R)) (w : option (list R)) (i : nat) (st : (nat -> R) * (nat -> nat -> R)) : Prop :=
  forall k, (k < K)%nat -> let z := resp K d (used g) (g_mu g) (g_L g) k in let tot f := total (combine x prob) w (fun rp => snd rp i * (z (fst rp) * f (fst rp))) in
    fst st k = tot (fun _ => 1) /\ (forall j, (j < d)%nat -> snd st k j = tot (fun r => r j) /\ snd st k (d + j)%nat = tot (fun r => r j * r j)).

(** ** Proofs *)
Lemma stats_logpi K d g x w N u : GInv K d g -> stats_of K d (snd (get_logpi g)) x w N u -> stats_of K d g x w N u.
Proof.
  intros I H k Hk. specialize (H k Hk). cbv zeta in *. destruct (get_logpi_facts g) as (F1 & F2 & F3 & F4 & _). rewrite F3, F4 in H. pose proof I as (_ & _ & _ & _ & _ & _ & I7).
  assert (RE : forall r, resp K d (used (snd (get_logpi g))) (g_mu g) (g_L g) k r = resp K d (used g) (g_mu g) (g_L g) k r).
  { intros r. unfold resp. rewrite (proj1 (used_logpi g k (I7 k Hk))). f_equal. apply mix_ext. intros i Hi. apply used_logpi. apply I7. exact Hi. }
  destruct H as [H1 H2]. split; [rewrite H1; apply total_ext; intros; apply RE|]. intros j J. destruct (H2 j J) as [H3 H4]. split; [rewrite H3|rewrite H4]; apply total_ext; intros r _; rewrite RE; reflexivity.
Qed.
(** Segment statistics: those of the rows start..end, both included. *)
Theorem C72_segments K d g x segs w b : (0 < K)%nat -> g_made K d g -> fits x w -> good_batch b ->
  (forall a e, In (a, e) segs -> (0 <= a <= e)%Z /\ (a < Z.of_nat (List.length x))%Z) ->
  exists l g', g_segments g x segs w b = Ok (l, g') /\ g_made K d g' /\
    Forall2 (fun '(a, e) st => window_stats K d g x w (Z.to_nat a) (S (Z.to_nat e)) st) segs l.
Proof.
  intros HK M F B H. assert (X : exists l, g_segments g x segs w b = Ok (l, match segs with [] => g | _ => snd (get_logpi g) end) /\ Forall2 (fun '(a, e) st => window_stats K d g x w (Z.to_nat a) (S (Z.to_nat e)) st) segs l).
  2:{ destruct X as (l & E & Q). eexists l, _. split; [exact E|]. split; [destruct segs; [exact M|apply gm_logpi; exact M]|exact Q]. }
  revert g M H. induction segs as [|[a e] segs IH]; intros g M H; [exists []; split; [reflexivity|constructor]|]. cbn [g_segments]. pose proof (g_made_inv K d g M) as I.
  destruct (H a e (or_introl eq_refl)) as [H1 H2]. assert (EE : Z.to_nat (e + 1) = S (Z.to_nat e)) by lia.
  destruct (g_estep_ok K d g (zslice a (e + 1) x) (option_map (zslice a (e + 1)) w) b HK I) as (N & u & E & S).
  - unfold zslice. change (fits (slice (Z.to_nat a) (Z.to_nat (e + 1)) x) (wslice (Z.to_nat a) (Z.to_nat (e + 1)) w)). apply fits_slice. exact F.
  - unfold zslice, slice. intros Q. apply (f_equal (@List.length _)) in Q. rewrite firstn_length, skipn_length in Q. simpl in Q. lia.
  - exact B.
  - rewrite E. cbn [bind]. destruct (IH (snd (get_logpi g)) ltac:(apply gm_logpi; exact M) ltac:(intros; apply H; right; assumption)) as (l & EL & Q). rewrite EL. cbn [bind]. exists ((N, u) :: l).
    split; [destruct segs; [reflexivity|rewrite get_logpi_idem; reflexivity]|]. constructor.
    + unfold window_stats. cbn [fst snd]. unfold zslice in S. rewrite EE in S. exact S.
    + assert (Y : forall a e st, window_stats K d (snd (get_logpi g)) x w a e st -> window_stats K d g x w a e st) by (intros ? ? ? Y; apply stats_logpi; [exact I|exact Y]).
      clear - Q Y. induction Q as [|[a e] st segs l Q1 _ IH]; constructor; [apply Y; exact Q1|exact IH].
Qed.

(** the columns of weighted posteriors *)
Definition col {X} (x : list X) (ws : list R) (f : X -> R) : list R := map (fun rv => snd rv * f (fst rv)) (combine x ws).
Lemma post_ok K d g x w : (0 < K)%nat -> GInv K d g -> fits x w -> exists z, g_post g (map (suff d) x) w = Ok (z, snd (get_logpi g)) /\ List.length z = List.length x /\ Forall (fun zt => List.length zt = K) z /\
  forall k, (k < K)%nat -> let r := resp K d (used g) (g_mu g) (g_L g) k in
    map (fun zt => nth k zt 0) z = col x (weights x w) r /\
    forall j, map (fun '(zt, y) => nth k zt 0 * y j) (combine z (map (suff d) x)) = col x (weights x w) (fun y => r y * suff d y j).
Proof.
  intros HK I F. unfold g_post.
  assert (E : exists zs, mapM (fun r => softmax (logr (snd (get_logpi g)) (fst (get_logpi g)) r)) (map (suff d) x) = Ok zs /\ Forall2 (fun r z => List.length z = K /\ forall k, (k < K)%nat -> nth k z 0 = resp K d (used g) (g_mu g) (g_L g) k r) x zs).
  { clear F. induction x as [|r x (zs & E & Z)]; [exists []; split; [reflexivity|constructor]|]. destruct (pz_row K d g r HK I) as (z & E1 & L & Z1). exists (z :: zs). cbn [map mapM]. rewrite E1. cbn [bind]. rewrite E. split; [reflexivity|]. constructor; [split; assumption|exact Z]. }
  destruct E as (zs & E & Z). destruct (get_logpi g) as [lp g1]. cbn [fst snd] in *. rewrite E. cbn [bind].
  assert (RW : row_weights (map (suff d) x) w = Ok (weights x w)). { rewrite row_weights_ok; [f_equal; destruct w; [reflexivity|simpl; rewrite map_map; reflexivity]|destruct w; simpl in *; [rewrite map_length; exact F|exact Logic.I]]. }
  rewrite RW. cbn [bind]. eexists. split; [reflexivity|]. pose proof (weights_len x w F) as LW. clear RW E F. unfold col. generalize dependent (weights x w). intros ws LW.
  split. { rewrite map_length, combine_length, LW. clear - Z. induction Z; simpl; lia. }
  split. { revert ws LW. induction Z as [|r z x zs (L & Z0) _ IH]; intros [|v ws] LW; try discriminate LW; [constructor|]. simpl. constructor; [rewrite map_length; exact L|apply IH; injection LW as LW; exact LW]. }
  intros k Hk. cbv zeta. split; [|intros j].
  - revert ws LW. induction Z as [|r z x zs (L & Z0) _ IH]; intros [|v ws] LW; try discriminate LW; [reflexivity|]. simpl. f_equal; [|apply IH; injection LW as LW; exact LW].
    rewrite (nth_indep _ 0 (0 * v)) by (rewrite map_length, L; exact Hk). rewrite (map_nth (fun p => p * v)), (Z0 k Hk). ring.
  - revert ws LW. induction Z as [|r z x zs (L & Z0) _ IH]; intros [|v ws] LW; try discriminate LW; [reflexivity|]. simpl. f_equal; [|apply IH; injection LW as LW; exact LW].
    rewrite (nth_indep _ 0 (0 * v)) by (rewrite map_length, L; exact Hk). rewrite (map_nth (fun p => p * v)), (Z0 k Hk). ring.
Qed.
(** *** Sliding windows *)
Lemma cums_length a c : List.length (cums a c) = List.length c.
Proof. revert a. induction c; intros; simpl; [reflexivity|rewrite IHc; reflexivity]. Qed.
Lemma cums_nth c : forall a t, (t < List.length c)%nat -> nth t (cums a c) 0 = a + Rsum (firstn (S t) c).
Proof. induction c as [|v c IH]; intros a t T; [simpl in T; lia|]. destruct t as [|t]; simpl; [ring|]. rewrite IH by (simpl in T; lia). simpl. ring. Qed.
Lemma slice_diff c a b : (a <= b)%nat -> Rsum (slice a b c) = Rsum (firstn b c) - Rsum (firstn a c).
Proof. intros H. unfold slice. replace (firstn b c) with (firstn a c ++ firstn (b - a) (skipn a c)); [rewrite Rsum_app; ring|]. replace b with (a + (b - a))%nat at 2 by lia. generalize (b - a)%nat as m. clear. intros m. revert c. induction a as [|a IH]; intros c; [reflexivity|]. destruct c; simpl; [rewrite firstn_nil; reflexivity|]. rewrite IH. reflexivity. Qed.
Lemma win_ok n L s c ns : List.length c = n -> (1 <= L <= n)%nat -> (1 <= s)%nat -> ns = ((n - L) / s + 1)%nat ->
  exists l, win ns L s c = Ok l /\ List.length l = ns /\ forall i, (i < ns)%nat -> nth i l 0 = Rsum (slice (i * s) (i * s + L) c).
Proof.
  intros LC HL HS NS. assert (B : ((ns - 1) * s + L <= n)%nat) by (assert (S0 : s <> 0%nat) by lia; pose proof (Nat.mul_div_le (n - L) s S0) as MD; rewrite NS, Nat.add_sub, Nat.mul_comm; apply Nat.le_trans with (n - L + L)%nat; [apply Nat.add_le_mono_r; exact MD|lia]). assert (P : (1 <= ns)%nat) by (rewrite NS; apply Nat.le_add_l). clear NS. unfold win.
  destruct (nth_error (cums 0 c) (L - 1)) as [v|] eqn:E; [|apply nth_error_None in E; rewrite cums_length in E; lia]. apply nth_error_nth with (d := 0) in E. rewrite cums_nth in E by lia. cbn [bind].
  assert (C1 : ((Nat.min ((ns - 1) * s + L) n - (s - 1 + L) + s - 1) / s = ns - 1)%nat). { rewrite Nat.min_l by lia. destruct (Nat.eq_dec ns 1) as [->|NE]; [apply Nat.div_small; lia|]. symmetry. apply (Nat.div_unique _ s _ 0); nia. }
  assert (C2 : ((Nat.min ((ns - 1) * s) n - (s - 1) + s - 1) / s = ns - 1)%nat). { rewrite Nat.min_l by lia. destruct (Nat.eq_dec ns 1) as [->|NE]; [apply Nat.div_small; lia|]. symmetry. apply (Nat.div_unique _ s _ 0); nia. }
  unfold step_slice. rewrite cums_length, LC, C1, C2. rewrite !map_length, !seq_length, Nat.eqb_refl. cbn [andb]. eexists. split; [reflexivity|].
  split; [simpl; rewrite map_length, combine_length, !map_length, seq_length; lia|]. intros i Hi. destruct i as [|i].
  - simpl. rewrite <- E. rewrite slice_diff by lia. replace (S (L - 1)) with L by lia. simpl. ring.
  - simpl nth. assert (CM : forall (f h : nat -> R) q, map (fun '(a, b) => a - b) (combine (map f q) (map h q)) = map (fun i => f i - h i) q) by (clear; intros f h q; induction q; simpl; [reflexivity|rewrite IHq; reflexivity]).
    rewrite CM. rewrite (nth_indep _ 0 ((fun i => nth (s - 1 + L + i * s) (cums 0 c) 0 - nth (s - 1 + i * s) (cums 0 c) 0) 0%nat)) by (rewrite map_length, seq_length; lia).
    rewrite (map_nth (fun i => nth (s - 1 + L + i * s) (cums 0 c) 0 - nth (s - 1 + i * s) (cums 0 c) 0)), seq_nth by lia. cbn [Nat.add].
    rewrite !cums_nth by (rewrite LC; nia). rewrite slice_diff by lia. replace (S (s - 1 + L + i * s)) with (S i * s + L)%nat by lia. replace (S (s - 1 + i * s)) with (S i * s)%nat by lia. ring.
Qed.
Lemma slice_map {X Y} (f : X -> Y) a b l : slice a b (map f l) = map f (slice a b l).
Proof. unfold slice. rewrite skipn_map, firstn_map. reflexivity. Qed.
Lemma slice_combine {X Y} (x : list X) (y : list Y) a b : List.length y = List.length x -> slice a b (combine x y) = combine (slice a b x) (slice a b y).
Proof.
  intros L. unfold slice. replace (skipn a (combine x y)) with (combine (skipn a x) (skipn a y)); [apply combine_firstn|].
  clear b. revert x y L. induction a as [|a IH]; intros [|r x] [|v y] L; try discriminate L; try reflexivity. simpl. apply IH. injection L as L. exact L.
Qed.
Lemma total_slice {X} (x : list X) w f a b : fits x w -> Rsum (slice a b (col x (weights x w) f)) = total (slice a b x) (wslice a b w) f.
Proof.
  intros F. unfold col, total. rewrite slice_map, slice_combine by (apply weights_len; exact F). f_equal. f_equal. f_equal. destruct w as [w|]; [reflexivity|]. simpl. rewrite slice_map. reflexivity.
Qed.
Lemma mapM_seq {B} (f : nat -> res B) n (d0 : B) : (forall k, (k < n)%nat -> exists y, f k = Ok y) -> exists l, mapM f (seq 0 n) = Ok l /\ forall k, (k < n)%nat -> f k = Ok (nth k l d0).
Proof.
  intros H. induction n as [|n IH]; [exists []; split; [reflexivity|intros; lia]|]. destruct IH as (l & E & Q); [intros; apply H; lia|]. destruct (H n ltac:(lia)) as (y & Y). exists (l ++ [y]).
  assert (LL : List.length l = n) by (apply mapM_length in E; rewrite seq_length in E; lia).
  split; [rewrite seq_S, mapM_app, E; cbn [bind]; simpl; rewrite Y; reflexivity|]. intros k Hk. destruct (Nat.eq_dec k n) as [->|NE]; [rewrite app_nth2, LL, Nat.sub_diag by lia; exact Y|]. rewrite app_nth1 by lia. apply Q. lia.
Qed.

(** Window i of length L with shift s: the statistics of the rows [s i, s i + L); the number of windows is the number of those that fit. *)
Theorem C72_windows K d g x L s w : (0 < K)%nat -> g_made K d g -> fits x w -> (1 <= L)%nat -> (1 <= s)%nat -> (L + s <= List.length x)%nat ->
  exists l g', g_sort_1 g x L s w = Ok (l, g') /\ g_made K d g' /\ l <> [] /\
  (forall i, (i < List.length l)%nat <-> (i * s + L <= List.length x)%nat) /\
  forall i st, nth_error l i = Some st -> window_stats K d g x w (i * s) (i * s + L) st.
Proof.
  intros HK M F HL HS HN. pose proof (g_made_inv K d g M) as I. pose proof I as (I1 & I2 & _). unfold g_sort_1. set (n := List.length x) in *.
  assert (NW : num_windows n L s = Z.of_nat ((n - L) / s + 1)). { unfold num_windows. rewrite Nat2Z.inj_add, Nat2Z.inj_div, Nat2Z.inj_sub by lia. reflexivity. }
  assert (D1 : (1 <= (n - L) / s)%nat) by (apply Nat.div_le_lower_bound; lia). rewrite NW. destruct (Z.eqb_spec (Z.of_nat ((n - L) / s + 1)) 1) as [Q|_]; [lia|]. rewrite I2.
  destruct (post_ok K d g x w HK I F) as (z & E & LZ & _ & C). rewrite E. cbn [bind]. destruct (Z.ltb_spec (Z.of_nat ((n - L) / s + 1)) 0) as [Q|_]; [lia|]. rewrite Nat2Z.id. set (ns := ((n - L) / s + 1)%nat) in *.
  destruct (get_logpi_facts g) as (F1 & F2 & _). set (g1 := snd (get_logpi g)) in *. rewrite F1, F2, I1, I2.
  assert (CL : forall f, List.length (col x (weights x w) f) = n) by (intros f; unfold col; rewrite map_length, combine_length, (weights_len x w F); unfold n; lia).
  assert (WN : forall f, exists v, win ns L s (col x (weights x w) f) = Ok v /\ List.length v = ns /\ forall i, (i < ns)%nat -> nth i v 0 = total (slice (i * s) (i * s + L) x) (wslice (i * s) (i * s + L) w) f).
  { intros f. destruct (win_ok n L s (col x (weights x w) f) ns (CL f) ltac:(lia) HS eq_refl) as (v & V1 & V2 & V3). exists v. split; [exact V1|]. split; [exact V2|]. intros i Hi. rewrite V3 by exact Hi. apply total_slice. exact F. }
  destruct (mapM_seq (fun k => win ns L s (map (fun zt => nth k zt 0) z)) K []) as (lN & EN & QN).
  { intros k Hk. destruct (C k Hk) as [C1 _]. cbv beta. rewrite C1. destruct (WN (resp K d (used g) (g_mu g) (g_L g) k)) as (v & V & _). exists v. exact V. }
  destruct (mapM_seq (fun k => mapM (fun j => win ns L s (map (fun '(zt, r) => nth k zt 0 * r j) (combine z (map (suff d) x)))) (seq 0 (2 * d))) K []) as (lu & EU & QU).
  { intros k Hk. cbv beta. destruct (mapM_seq (fun j => win ns L s (map (fun '(zt, r) => nth k zt 0 * r j) (combine z (map (suff d) x)))) (2 * d) []) as (v & V & _); [|exists v; exact V].
    intros j Hj. destruct (C k Hk) as [_ C2]. cbv beta. rewrite C2. destruct (WN (fun y => resp K d (used g) (g_mu g) (g_L g) k y * suff d y j)) as (v & V & _). exists v. exact V. }
  rewrite EN. cbn [bind]. match goal with |- context [mapM ?f (seq 0 K)] => change (mapM f (seq 0 K)) with (mapM (fun k => mapM (fun j => win ns L s (map (fun '(zt, r) => nth k zt 0 * r j) (combine z (map (suff d) x)))) (seq 0 (2 * d))) (seq 0 K)) end. rewrite EU. cbn [bind].
  eexists _, g1. split; [reflexivity|]. split; [apply gm_logpi; exact M|]. split; [apply map_nonempty; lia|]. rewrite map_length, seq_length.
  split. { intros i. unfold ns. split; intros Hi.
    - assert (i <= (n - L) / s)%nat by lia. pose proof (Nat.mul_div_le (n - L) s ltac:(lia)). nia.
    - enough (i <= (n - L) / s)%nat by lia. apply Nat.div_le_lower_bound; nia. }
  intros i st H. assert (Hi : (i < ns)%nat). { match type of H with nth_error ?l _ = _ => assert (Q : (i < List.length l)%nat) by (apply nth_error_Some; rewrite H; discriminate) end. rewrite map_length, seq_length in Q. exact Q. }
  rewrite nth_error_map, (nth_error_nth' _ 0%nat) in H by (rewrite seq_length; exact Hi). rewrite seq_nth in H by exact Hi. cbn [option_map Nat.add] in H. injection H as <-.
  assert (SF : forall f f', (forall r, f r = f' r) -> total (slice (i * s) (i * s + L) x) (wslice (i * s) (i * s + L) w) f = total (slice (i * s) (i * s + L) x) (wslice (i * s) (i * s + L) w) f') by (intros f f' Q; apply total_ext; intros; apply Q).
  intros k Hk. cbv zeta. cbn [fst snd]. destruct (C k Hk) as [C1 C2]. cbv zeta in C1, C2. specialize (QN k Hk). cbv beta in QN. rewrite C1 in QN. destruct (WN (resp K d (used g) (g_mu g) (g_L g) k)) as (v & V1 & _ & V3). rewrite V1 in QN. injection QN as QN. rewrite <- QN.
  split; [apply V3; exact Hi|]. specialize (QU k Hk). cbv beta in QU.
  assert (UJ : forall j, (j < 2 * d)%nat -> nth i (nth j (nth k lu []) []) 0 = total (slice (i * s) (i * s + L) x) (wslice (i * s) (i * s + L) w) (fun y => resp K d (used g) (g_mu g) (g_L g) k y * suff d y j)).
  { intros j Hj. destruct (mapM_seq (fun j => win ns L s (map (fun '(zt, r) => nth k zt 0 * r j) (combine z (map (suff d) x)))) (2 * d) []) as (lv & E2 & Q2).
    - intros j' Hj'. cbv beta. rewrite C2. destruct (WN (fun y => resp K d (used g) (g_mu g) (g_L g) k y * suff d y j')) as (v' & V' & _). exists v'. exact V'.
    - rewrite E2 in QU. injection QU as QU. rewrite <- QU. specialize (Q2 j Hj). cbv beta in Q2. rewrite C2 in Q2. destruct (WN (fun y => resp K d (used g) (g_mu g) (g_L g) k y * suff d y j)) as (v' & V' & _ & V3'). rewrite V' in Q2. injection Q2 as Q2. rewrite <- Q2. apply V3'. exact Hi. }
  intros j J. rewrite !UJ by lia. split; apply SF; intros r; unfold suff; [destruct (Nat.ltb_spec j d); [reflexivity|lia]|]. destruct (Nat.ltb_spec (d + j) d); [lia|]. replace (d + j - d)%nat with j by lia. reflexivity.
Qed.
(** If exactly one window fits, the function fails. *)
Theorem C72_one_window_refuted g x L s w : (1 <= L)%nat -> (1 <= s)%nat -> (L <= List.length x < L + s)%nat -> g_sort_1 g x L s w = Err TypeError /\ g_sort_n g x L s w = Err NameError.
Proof.
  intros HL HS HN. assert (NW : num_windows (List.length x) L s = 1%Z). { unfold num_windows. rewrite Z.div_small by lia. reflexivity. } unfold g_sort_1, g_sort_n. rewrite NW. split; reflexivity.
Qed.
Lemma short_fails K d g x L s w : (0 < K)%nat -> GInv K d g -> fits x w -> (1 <= L)%nat -> (1 <= s)%nat -> (List.length x < L)%nat -> exists e, g_sort_1 g x L s w = Err e.
Proof.
  intros HK I F HL HS HN. pose proof I as (I1 & I2 & _). unfold g_sort_1. assert (NW : (num_windows (List.length x) L s <= 0)%Z). { unfold num_windows. assert ((Z.of_nat (List.length x) - Z.of_nat L) / Z.of_nat s < 0)%Z by (apply Z.div_lt_upper_bound; lia). lia. }
  destruct (Z.eqb_spec (num_windows (List.length x) L s) 1) as [Q|_]; [lia|]. rewrite I2. destruct (post_ok K d g x w HK I F) as (z & E & LZ & _). rewrite E. cbn [bind]. destruct (num_windows (List.length x) L s <? 0)%Z eqn:Q; [eexists; reflexivity|]. apply Z.ltb_ge in Q.
  destruct (get_logpi_facts g) as (F1 & _). rewrite F1, I1. destruct K as [|K]; [lia|]. cbn [seq mapM]. assert (W : forall ns, win ns L s (map (fun zt => nth 0 zt 0) z) = Err IndexError). { intros ns. unfold win. assert (X : nth_error (cums 0 (map (fun zt => nth 0 zt 0) z)) (L - 1) = None) by (apply nth_error_None; rewrite cums_length, map_length; lia). rewrite X. reflexivity. }
  rewrite W. eexists. reflexivity.
Qed.
Theorem C72_no_window K d g x L s w : (0 < K)%nat -> g_made K d g -> fits x w -> (1 <= L)%nat -> (1 <= s)%nat -> (List.length x < L)%nat -> exists e, g_sort_1 g x L s w = Err e.
Proof. intros HK M. apply (short_fails K d). exact HK. apply g_made_inv. exact M. Qed.
(** With a batch size: the windows are computed only if the last window starts less than s rows before the end; otherwise it fails. *)
Lemma slice_slice {A} (l : list A) a b c : (b <= c)%nat -> slice a b (slice 0 c l) = slice a b l.
Proof.
  intros H. unfold slice. rewrite skipn_O, Nat.sub_0_r. rewrite skipn_firstn_comm, firstn_firstn. f_equal. lia.
Qed.
Lemma sort_n_shape {X} (x : list X) L s ns : (1 <= L)%nat -> (1 <= s)%nat -> (L + s <= List.length x)%nat -> ns = ((List.length x - L) / s + 1)%nat -> num_windows (List.length x) L s = Z.of_nat ns /\ (2 <= ns)%nat /\ ((ns - 1) * s + L <= List.length x)%nat /\ (List.length x < ns * s + L)%nat.
Proof.
  intros HL HS HN NS. assert (S0 : s <> 0%nat) by lia. assert (NW : num_windows (List.length x) L s = Z.of_nat ns). { unfold num_windows. rewrite NS, Nat2Z.inj_add, Nat2Z.inj_div, Nat2Z.inj_sub by lia. reflexivity. }
  split; [exact NW|]. assert (D1 : (1 <= (List.length x - L) / s)%nat) by (apply Nat.div_le_lower_bound; lia). pose proof (Nat.mul_div_le (List.length x - L) s S0) as MD. pose proof (Nat.mul_succ_div_gt (List.length x - L) s S0) as MG. set (q := ((List.length x - L) / s)%nat) in *. clearbody q. subst ns. rewrite Nat.add_sub. repeat split; nia.
Qed.
Theorem C72_windows_batched K d g x L s w : (0 < K)%nat -> g_made K d g -> fits x w -> (1 <= L)%nat -> (1 <= s)%nat -> (L + s <= List.length x)%nat ->
  (List.length x <= ((List.length x - L) / s + 1) * s)%nat ->
  exists l g', g_sort_n g x L s w = Ok (l, g') /\ (forall i, (i < List.length l)%nat <-> (i * s + L <= List.length x)%nat) /\
  forall i st, nth_error l i = Some st -> window_stats K d g x w (i * s) (i * s + L) st.
Proof.
  intros HK M F HL HS HN HB. pose proof (sort_n_shape x L s _ HL HS HN eq_refl) as (NW & N2 & B1 & B2). set (n := List.length x) in *. set (ns := ((n - L) / s + 1)%nat) in *. unfold g_sort_n. fold n. rewrite NW.
  destruct (Z.eqb_spec (Z.of_nat ns) 1) as [Q|_]; [lia|]. destruct (Z.ltb_spec (Z.of_nat ns) 0) as [Q|_]; [lia|]. rewrite Nat2Z.id. destruct (Nat.eqb_spec ns 0) as [Q|_]; [lia|].
  assert (RS : range_step n (ns * s) = [0%nat]). { unfold range_step. replace ((n + ns * s - 1) / (ns * s))%nat with 1%nat; [reflexivity|]. apply (Nat.div_unique _ (ns * s) 1 (n - 1)); lia. } rewrite RS. cbn [fold_left bind]. rewrite Nat.add_0_l, Nat.min_l by lia.
  set (m := ((ns - 1) * s + L)%nat) in *. assert (LM : List.length (slice 0 m x) = m) by (unfold slice; rewrite skipn_O, Nat.sub_0_r, firstn_length; fold n; lia).
  destruct (C72_windows K d g (slice 0 m x) L s (wslice 0 m w) HK M (fits_slice x w 0 m F) HL HS) as (l & g' & E & M' & NE & C & W); [rewrite LM; unfold m; nia|]. change (option_map (slice 0 m) w) with (wslice 0 m w). rewrite E. cbn [bind List.length Nat.add app].
  rewrite LM in C. assert (LL : List.length l = ns). { pose proof (proj1 (C (List.length l - 1)%nat)) as P1. pose proof (proj2 (C (ns - 1)%nat)) as P2. assert (0 < List.length l)%nat by (destruct l; [congruence|simpl; lia]). specialize (P1 ltac:(lia)). specialize (P2 ltac:(unfold m; lia)). unfold m in P1. nia. }
  rewrite LL. rewrite Nat.leb_refl. exists l, g'. split; [reflexivity|]. rewrite LL. split; [intros i; split; intros; nia|]. intros i st H. specialize (W i st H). unfold window_stats in *.
  assert (Hi : (i < ns)%nat) by (rewrite <- LL; apply nth_error_Some; rewrite H; discriminate). assert (BB : (i * s + L <= m)%nat) by (unfold m; nia).
  rewrite slice_slice in W by exact BB. replace (wslice (i * s) (i * s + L) (wslice 0 m w)) with (wslice (i * s) (i * s + L) w) in W; [exact W|]. destruct w as [w|]; [|reflexivity]. unfold wslice. simpl. rewrite slice_slice by exact BB. reflexivity.
Qed.
Theorem C72_windows_batched_refuted K d g x L s w : (0 < K)%nat -> g_made K d g -> fits x w -> (1 <= L)%nat -> (1 <= s)%nat -> (L + s <= List.length x)%nat ->
  (((List.length x - L) / s + 1) * s < List.length x)%nat -> exists e, g_sort_n g x L s w = Err e.
Proof.
  intros HK M F HL HS HN HB. pose proof (sort_n_shape x L s _ HL HS HN eq_refl) as (NW & N2 & B1 & B2). set (n := List.length x) in *. set (ns := ((n - L) / s + 1)%nat) in *. unfold g_sort_n. fold n. rewrite NW.
  destruct (Z.eqb_spec (Z.of_nat ns) 1) as [Q|_]; [lia|]. destruct (Z.ltb_spec (Z.of_nat ns) 0) as [Q|_]; [lia|]. rewrite Nat2Z.id. destruct (Nat.eqb_spec ns 0) as [Q|_]; [lia|].
  assert (RS : exists t, range_step n (ns * s) = 0%nat :: (ns * s)%nat :: t). { unfold range_step. assert (DD : (2 <= (n + ns * s - 1) / (ns * s))%nat) by (apply Nat.div_le_lower_bound; nia). destruct ((n + ns * s - 1) / (ns * s))%nat as [|[|t]]; try lia. simpl. rewrite Nat.add_0_r. eexists. reflexivity. } destruct RS as (t & RS). rewrite RS. cbn [fold_left bind].
  set (step := fun (st : res (list ((nat -> R) * (nat -> nat -> R)) * gmm)) (i1 : nat) => _).
  assert (FE : forall e, fold_left step t (Err e) = Err e) by (clear; induction t; intros e; simpl; [reflexivity|apply IHt]).
  enough (X : exists e, step (step (Ok ([], g)) 0%nat) (ns * s)%nat = Err e). { destruct X as (e & X). exists e. change (bind (fold_left step t (step (step (Ok ([], g)) 0%nat) (ns * s)%nat)) (fun '(l, g0) => Ok (l, g0)) = Err e). rewrite X, FE. reflexivity. }
  destruct (step (Ok ([], g)) 0%nat) as [[l1 g1]|e] eqn:E; [|exists e; reflexivity].
  assert (GI : GInv K d g1). { unfold step in E. cbn [bind] in E. destruct (g_sort_1 g _ L s _) as [[l0 g0]|e] eqn:E0; cbn [bind] in E; [|discriminate].
    rewrite Nat.add_0_l in E0. rewrite Nat.min_l in E0 by lia. set (m := ((ns - 1) * s + L)%nat) in *. assert (LM : List.length (slice 0 m x) = m) by (unfold slice; rewrite skipn_O, Nat.sub_0_r, firstn_length; fold n; lia).
    destruct (C72_windows K d g (slice 0 m x) L s (wslice 0 m w) HK M (fits_slice x w 0 m F) HL HS) as (l & g' & E' & M' & _); [rewrite LM; unfold m; nia|]. change (option_map (slice 0 m) w) with (wslice 0 m w) in E0. rewrite E0 in E'. injection E' as -> ->.
    destruct (_ <=? ns)%nat in E; [|discriminate]. injection E as _ <-. apply g_made_inv. exact M'. }
  unfold step. cbn [bind]. set (i2 := Nat.min (ns * s + ((ns - 1) * s + L)) n).
  destruct (short_fails K d g1 (slice (ns * s) i2 x) L s (wslice (ns * s) i2 w) HK GI (fits_slice x w _ _ F) HL HS) as (e & X); [unfold slice; rewrite firstn_length, skipn_length; fold n; lia|]. change (option_map (slice (ns * s) i2) w) with (wslice (ns * s) i2 w). rewrite X. exists e. reflexivity.
Qed.
(** *** Soft segments *)
Definition prob_raw (K d : nat) (g : gmm) (x : list (nat -> R)) (prob : list (nat -> R)) (w : option (list R)) (i : nat) (st : (nat -> R) * (nat -> nat -> R)) : Prop :=
  forall k, (k < K)%nat -> let z := resp K d (used g) (g_mu g) (g_L g) k in
    fst st k = total (combine x prob) w (fun rp => snd rp i * z (fst rp)) /\ (forall j, snd st k j = total (combine x prob) w (fun rp => snd rp i * (z (fst rp) * suff d (fst rp) j))).
Lemma prob_raw_stats K d g x prob w i st : prob_raw K d g x prob w i st -> prob_stats K d g x prob w i st.
Proof.
  intros H k Hk. destruct (H k Hk) as [H1 H2]. cbv zeta in *. split; [rewrite H1; apply total_ext; intros; ring|]. intros j J. rewrite !H2. unfold suff. destruct (Nat.ltb_spec j d); [|lia]. destruct (Nat.ltb_spec (d + j) d); [lia|]. replace (d + j - d)%nat with j by lia. split; reflexivity.
Qed.
Lemma weights_combine {X Y} (x : list X) (p : list Y) w : List.length p = List.length x -> weights (combine x p) w = weights x w.
Proof. intros L. destruct w as [w|]; [reflexivity|]. simpl. revert p L. induction x as [|r x IH]; intros [|v p] L; try discriminate L; [reflexivity|]. simpl. f_equal. apply IH. injection L as L. exact L. Qed.
Lemma fits_combine {X Y} (x : list X) (p : list Y) w : List.length p = List.length x -> fits x w -> fits (combine x p) w.
Proof. intros L. destruct w as [w|]; [|trivial]. simpl. rewrite combine_length. lia. Qed.
Lemma prob_1_ok K d g x prob S w : (0 < K)%nat -> GInv K d g -> fits x w -> List.length prob = List.length x ->
  exists l, g_prob_1 g x prob S w = Ok (l, snd (get_logpi g)) /\ List.length l = S /\ forall i st, nth_error l i = Some st -> prob_raw K d g x prob w i st.
Proof.
  intros HK I F LP. pose proof I as (I1 & I2 & _). unfold g_prob_1. rewrite I2. destruct (post_ok K d g x w HK I F) as (z & E & LZ & KZ & C). rewrite E. cbn [bind]. rewrite LP, Nat.eqb_refl. eexists. split; [reflexivity|]. split; [rewrite map_length, seq_length; reflexivity|].
  intros i st H. assert (Hi : (i < S)%nat). { match type of H with nth_error ?l _ = _ => assert (Q : (i < List.length l)%nat) by (apply nth_error_Some; rewrite H; discriminate) end. rewrite map_length, seq_length in Q. exact Q. }
  rewrite nth_error_map, (nth_error_nth' _ 0%nat) in H by (rewrite seq_length; exact Hi). rewrite seq_nth in H by exact Hi. cbn [option_map Nat.add] in H. injection H as <-. intros k Hk. cbv zeta. cbn [fst snd]. destruct (C k Hk) as [C1 C2]. cbv zeta in C1, C2.
  unfold total. rewrite weights_combine by exact LP. pose proof (weights_len x w F) as LW. clear E I F I1 I2 C Hi. set (r := resp K d (used g) (g_mu g) (g_L g) k) in *. clearbody r. generalize dependent (weights x w). intros ws C1 C2 LW.
  split; [|intros j; specialize (C2 j)].
  - f_equal. clear C2. unfold col in C1. revert z prob ws LZ KZ LP LW C1. induction x as [|y x IH]; intros [|zt z] [|p prob] [|v ws] LZ KZ LP LW C1; try discriminate; [reflexivity|]. simpl in *. injection C1 as C1 C1'. inversion KZ; subst. f_equal.
    + rewrite (nth_indep _ 0 (0 * p i)) by (rewrite map_length; exact Hk). rewrite (map_nth (fun q => q * p i)). rewrite C1. ring.
    + apply IH; try assumption; lia.
  - f_equal. clear C1. unfold col in C2. revert z prob ws LZ KZ LP LW C2. induction x as [|y x IH]; intros [|zt z] [|p prob] [|v ws] LZ KZ LP LW C2; try discriminate; [reflexivity|]. simpl in *. injection C2 as C2 C2'. inversion KZ; subst. f_equal.
    + rewrite (nth_indep _ 0 (0 * p i)) by (rewrite map_length; exact Hk). rewrite (map_nth (fun q => q * p i)). transitivity (p i * (nth k zt 0 * suff d y j)); [ring|]. rewrite C2. ring.
    + apply IH; try assumption; lia.
Qed.
Lemma prob_logpi K d g x prob w i st : GInv K d g -> prob_raw K d (snd (get_logpi g)) x prob w i st -> prob_raw K d g x prob w i st.
Proof.
  intros I H k Hk. specialize (H k Hk). cbv zeta in *. destruct (get_logpi_facts g) as (F1 & F2 & F3 & F4 & _). rewrite F3, F4 in H. pose proof I as (_ & _ & _ & _ & _ & _ & I7).
  assert (RE : forall r, resp K d (used (snd (get_logpi g))) (g_mu g) (g_L g) k r = resp K d (used g) (g_mu g) (g_L g) k r).
  { intros r. unfold resp. rewrite (proj1 (used_logpi g k (I7 k Hk))). f_equal. apply mix_ext. intros q Hq. apply used_logpi. apply I7. exact Hq. }
  destruct H as [H1 H2]. split; [rewrite H1; apply total_ext; intros; rewrite RE; reflexivity|]. intros j. rewrite H2. apply total_ext. intros r _. rewrite RE. reflexivity.
Qed.
Lemma slice_len_eq {A B} (x : list A) (y : list B) a b : List.length y = List.length x -> List.length (slice a b y) = List.length (slice a b x).
Proof. intros L. unfold slice. rewrite !firstn_length, !skipn_length. lia. Qed.
(** With soft segments, whatever the batch size. *)
Theorem C72_prob K d g x prob S w b : (0 < K)%nat -> g_made K d g -> fits x w -> x <> [] -> List.length prob = List.length x -> good_batch b ->
  exists l g', g_prob g x prob S w b = Ok (l, g') /\ g_made K d g' /\ List.length l = S /\ forall i st, nth_error l i = Some st -> prob_stats K d g x prob w i st.
Proof.
  intros HK M F NE LP B. pose proof (g_made_inv K d g M) as I.
  assert (X : exists l, g_prob g x prob S w b = Ok (l, snd (get_logpi g)) /\ List.length l = S /\ forall i st, nth_error l i = Some st -> prob_raw K d g x prob w i st).
  2:{ destruct X as (l & E & LL & Q). exists l, (snd (get_logpi g)). split; [exact E|]. split; [apply gm_logpi; exact M|]. split; [exact LL|]. intros i st H. apply prob_raw_stats, Q. exact H. }
  clear M. destruct b as [b|]; cbn [g_prob]; [|apply prob_1_ok; assumption]. simpl in B. unfold g_prob_n. destruct (Z.eqb_spec b 0) as [B0|B0]; [lia|]. destruct (Z.ltb_spec b 0) as [B1|B1]; [lia|]. assert (KN : (0 < Z.to_nat b)%nat) by lia. set (n := Z.to_nat b) in *. clearbody n.
  set (step := fun (st : res (option (list ((nat -> R) * (nat -> nat -> R))) * gmm)) (i1 : nat) => _). set (m := ((List.length x + n - 1) / n)%nat). unfold range_step. fold m.
  assert (G : forall q, exists r g', fold_left step (map (fun i => (i * n)%nat) (seq 0 q)) (Ok (None, g)) = Ok (r, g') /\ g' = (match q with O => g | _ => snd (get_logpi g) end) /\
    match r with None => q = 0%nat | Some l => (0 < q)%nat /\ List.length l = S /\ forall i st, nth_error l i = Some st -> prob_raw K d g (firstn (q * n) x) (firstn (q * n) prob) (option_map (firstn (q * n)) w) i st end).
  { induction q as [|q (r & g' & E & EG & R)]; [exists None, g; split; [reflexivity|split; reflexivity]|]. rewrite seq_S, map_app, fold_left_app, E. cbn [map fold_left Nat.add]. unfold step. cbn [bind].
    set (i2 := Nat.min (q * n + n) (List.length x)).
    assert (FI : forall A (l : list A), List.length l = List.length x -> slice (q * n) i2 l = slice (q * n) (Datatypes.S q * n) l).
    { intros A l L. unfold slice, i2. destruct (Nat.le_gt_cases (q * n + n) (List.length x)); [do 2 f_equal; lia|]. rewrite !firstn_all2; [reflexivity| |]; rewrite skipn_length; lia. }
    rewrite (FI _ x eq_refl), (FI _ prob LP). assert (FW : option_map (slice (q * n) i2) w = wslice (q * n) (Datatypes.S q * n) w). { destruct w as [w|]; [|reflexivity]. unfold wslice. simpl option_map. f_equal. apply FI. exact F. }
    rewrite FW.
    assert (I' : GInv K d g') by (subst g'; destruct q; [exact I|apply ginv_logpi; exact I]).
    destruct (prob_1_ok K d g' (slice (q * n) (Datatypes.S q * n) x) (slice (q * n) (Datatypes.S q * n) prob) S (wslice (q * n) (Datatypes.S q * n) w) HK I' (fits_slice x w _ _ F) (slice_len_eq x prob _ _ LP)) as (li & A1 & AL & A2). rewrite A1. cbn [bind].
    assert (A3 : forall i st, nth_error li i = Some st -> prob_raw K d g (slice (q * n) (Datatypes.S q * n) x) (slice (q * n) (Datatypes.S q * n) prob) (wslice (q * n) (Datatypes.S q * n) w) i st). { intros i st H. specialize (A2 i st H). subst g'. destruct q; [exact A2|apply prob_logpi; assumption]. }
    assert (EG' : snd (get_logpi g') = snd (get_logpi g)) by (subst g'; destruct q; [reflexivity|apply get_logpi_idem]). rewrite EG'.
    assert (TS : forall f, total (combine (firstn (Datatypes.S q * n) x) (firstn (Datatypes.S q * n) prob)) (option_map (firstn (Datatypes.S q * n)) w) f = total (combine (firstn (q * n) x) (firstn (q * n) prob)) (option_map (firstn (q * n)) w) f + total (combine (slice (q * n) (Datatypes.S q * n) x) (slice (q * n) (Datatypes.S q * n) prob)) (wslice (q * n) (Datatypes.S q * n) w) f).
    { intros f. rewrite <- !combine_firstn, <- slice_combine by exact LP. apply total_slice_add; [apply fits_combine; assumption|lia]. }
    destruct r as [l0|].
    - destruct R as (R1 & RL & R2). eexists _, _. split; [reflexivity|]. split; [reflexivity|]. split; [lia|]. unfold add_stats. split; [rewrite map_length, combine_length, RL, AL; lia|]. intros i st H. rewrite nth_error_map in H. destruct (nth_error (combine l0 li) i) as [[[N0 u0] [N1 u1]]|] eqn:EC; [|discriminate]. injection H as <-.
      assert (EC1 : nth_error l0 i = Some (N0, u0) /\ nth_error li i = Some (N1, u1)). { clear - EC. revert li i EC. induction l0 as [|p l0 IH]; intros [|p' li] [|i] EC; try discriminate; simpl in *; [injection EC as -> ->; split; reflexivity|apply IH; exact EC]. } destruct EC1 as [EC1 EC2].
      intros k Hk. cbv zeta. destruct (R2 i _ EC1 k Hk) as [Q1 Q2]. destruct (A3 i _ EC2 k Hk) as [Q3 Q4]. cbn [fst snd] in *. split; [rewrite TS, Q1, Q3; reflexivity|]. intros j. rewrite TS, Q2, Q4. reflexivity.
    - subst q. eexists _, _. split; [reflexivity|]. split; [reflexivity|]. split; [lia|]. split; [exact AL|]. assert (Z0 : forall f, total (combine (firstn (0 * n) x) (firstn (0 * n) prob)) (option_map (firstn (0 * n)) w) f = 0) by reflexivity. intros i st H k Hk. cbv zeta. destruct (A3 i st H k Hk) as [Q3 Q4]. split; [rewrite TS, Z0, Q3; ring|]. intros j. rewrite TS, Z0, Q4. ring. }
  destruct (G m) as (r & g' & E & EG & R). rewrite E. cbn [bind].
  assert (MK : (List.length x <= m * n)%nat). { unfold m. pose proof (Nat.div_mod (List.length x + n - 1) n ltac:(lia)) as DM. pose proof (Nat.mod_upper_bound (List.length x + n - 1) n ltac:(lia)). nia. }
  assert (MP : m <> 0%nat). { destruct x; [congruence|]. simpl in MK. destruct m; simpl in *; lia. }
  destruct r as [l|]; [|contradiction]. destruct R as (_ & RL & R2). exists l. split; [rewrite EG; destruct m; [contradiction|reflexivity]|]. split; [exact RL|].
  assert (W : option_map (firstn (m * n)) w = w) by (destruct w as [w|]; [simpl; f_equal; apply firstn_all2; simpl in F; lia|reflexivity]). intros i st H. specialize (R2 i st H). rewrite W, !firstn_all2 in R2 by lia. exact R2.
Qed.
(** A column of prob that is 1 on the rows a, ..., e-1 and 0 elsewhere gives the statistics of that segment. *)
Lemma indicator_sum a e : forall (c : list R) o, Rsum (map (fun tv => (if ((a <=? fst tv) && (fst tv <? e))%nat then 1 else 0) * snd tv) (combine (seq o (List.length c)) c)) = Rsum (slice (a - o) (e - o) c).
Proof.
  induction c as [|v c IH]; intros o; [unfold slice; rewrite skipn_nil, firstn_nil; reflexivity|]. simpl. rewrite IH. unfold slice. destruct (Nat.leb_spec a o) as [A|A]; destruct (Nat.ltb_spec o e) as [B|B]; cbn [andb].
  - replace (a - o)%nat with 0%nat by lia. replace (a - S o)%nat with 0%nat by lia. rewrite !Nat.sub_0_r. replace (e - o)%nat with (S (e - S o)) by lia. simpl. ring.
  - replace (e - o - (a - o))%nat with 0%nat by lia. replace (e - S o - (a - S o))%nat with 0%nat by lia. simpl. ring.
  - replace (a - o)%nat with (S (a - S o)) by lia. simpl skipn. replace (e - S o - (a - S o))%nat with (e - o - S (a - S o))%nat by lia. ring.
  - replace (e - o - (a - o))%nat with 0%nat by lia. replace (e - S o - (a - S o))%nat with 0%nat by lia. simpl. ring.
Qed.
Theorem C72_prob_segment K d g x prob w i a e st : fits x w -> List.length prob = List.length x -> (forall t p, nth_error prob t = Some p -> p i = if ((a <=? t) && (t <? e))%nat then 1 else 0) ->
  prob_stats K d g x prob w i st -> window_stats K d g x w a e st.
Proof.
  intros F LP HP H. assert (T : forall f, total (combine x prob) w (fun rp => snd rp i * f (fst rp)) = total (slice a e x) (wslice a e w) f).
  { intros f. rewrite <- total_slice by exact F. pose proof (indicator_sum a e (col x (weights x w) f) 0) as Q. rewrite !Nat.sub_0_r in Q. rewrite <- Q. unfold total. rewrite weights_combine by exact LP. f_equal. unfold col.
    pose proof (weights_len x w F) as LW. revert HP LP LW. generalize (weights x w) as ws. clear Q H F. rename prob into p0. intros ws HP LP LW.
    assert (G : forall o, (forall t p, nth_error p0 t = Some p -> p i = if ((a <=? o + t) && (o + t <? e))%nat then 1 else 0) -> map (fun rv => snd rv * (snd (fst rv) i * f (fst (fst rv)))) (combine (combine x p0) ws) = map (fun tv => (if ((a <=? fst tv) && (fst tv <? e))%nat then 1 else 0) * snd tv) (combine (seq o (List.length (map (fun rv => snd rv * f (fst rv)) (combine x ws)))) (map (fun rv => snd rv * f (fst rv)) (combine x ws)))); [|apply (G 0%nat); exact HP].
    clear HP. revert p0 ws LP LW. induction x as [|y x IH]; intros [|p p0] [|v ws] LP LW o HP; try discriminate; [reflexivity|]. simpl. f_equal.
    - rewrite (HP 0%nat p eq_refl), Nat.add_0_r. ring.
    - apply IH; try (simpl in *; lia). intros t q Hq. rewrite (HP (S t) q Hq). replace (o + S t)%nat with (S o + t)%nat by lia. reflexivity. }
  intros k Hk. destruct (H k Hk) as [H1 H2]. cbv zeta in *. split.
  - rewrite H1. rewrite (T (fun r => resp K d (used g) (g_mu g) (g_L g) k r * 1)). apply total_ext. intros; ring.
  - intros j J. destruct (H2 j J) as [H3 H4]. rewrite H3, H4. split; [apply (T (fun r => resp K d (used g) (g_mu g) (g_L g) k r * r j))|apply (T (fun r => resp K d (used g) (g_mu g) (g_L g) k r * (r j * r j)))].
Qed.
Example C72_witness : exists g l g' l' g'', let x := [fun _ : nat => 0; fun _ : nat => 4; fun _ => 1; fun _ => 2] in
  g_new 2 1 (fun _ => 1/2) (fun k _ => INR k) (fun _ _ => 1) 0 0 true true false = Ok g /\ g_made 2 1 g /\ g_sort_1 g x 2 1 None = Ok (l, g') /\ List.length l = 3%nat /\
  (forall i st, nth_error l i = Some st -> window_stats 2 1 g x None (i * 1) (i * 1 + 2) st) /\ g_segments g x [(0, 1); (2, 3)]%Z None None = Ok (l', g'').
Proof.
  assert (Q1 : all_pos2 2 1 (fun _ _ => 1) = true) by (apply all_pos2_ok; intros; lra).
  destruct (g_new 2 1 (fun _ => 1/2) (fun k _ => INR k) (fun _ _ => 1) 0 0 true true false) as [g|e] eqn:G; [|unfold g_new in G; rewrite Q1 in G; discriminate].
  assert (M : g_made 2 1 g) by (refine (gm_new 2 1 _ _ _ _ _ _ _ _ g _ G); intros; lra). set (x := [fun _ : nat => 0; fun _ : nat => 4; fun _ : nat => 1; fun _ : nat => 2]).
  destruct (C72_windows 2 1 g x 2 1 None ltac:(lia) M Logic.I ltac:(lia) ltac:(lia) ltac:(simpl; lia)) as (l & g' & E & _ & NE & C & W).
  destruct (C72_segments 2 1 g x [(0, 1); (2, 3)]%Z None None ltac:(lia) M Logic.I Logic.I) as (l' & g'' & E' & _); [intros a e [Q|[Q|[]]]; injection Q as <- <-; simpl; lia|].
  exists g, l, g', l', g''. cbv zeta. split; [reflexivity|]. split; [exact M|]. split; [exact E|]. split; [|split; [exact W|exact E']].
  change (List.length x) with 4%nat in C. pose proof (proj2 (C 2%nat) ltac:(lia)). destruct (Nat.le_gt_cases 4 (List.length l)); [|lia]. pose proof (proj1 (C 3%nat) ltac:(lia)). lia.
Qed.
Print Assumptions C72_windows.
