(** Score normalisation: what each normalised score is, in terms of the mean and standard deviation of the cohort scores
    it should use, and its invariances. *)
From Coq Require Import Reals Lra Lia Permutation.
From Verif Require Metrics SortFacts DcfReal.
From Verif Require Import BaseFacts ScoreNorm.
Open Scope list_scope.
Open Scope R_scope.

(** ** Specification *)
Definition mean_of (l : list R) : R := Rsum l / INR (List.length l).
Definition dev_of (l : list R) : R := sqrt (Rsum (map (fun x => (x - mean_of l)²) l) / INR (List.length l)).
(** the scores a mask selects; all of them without a mask *)
Definition kept (vals : list R) (mask : option (list bool)) : list R :=
  match mask with None => vals | Some m => map fst (filter snd (combine vals m)) end.
(** the cohort scores of enrolment i, of test j *)
Definition enr_cohort (a : arr) (mask : option barr) (i : nat) : list R := kept (row_of a i) (option_map (fun m => brow m i) mask).
Definition test_cohort (a : arr) (mask : option barr) (j : nat) : list R := kept (col_of a j) (option_map (fun m => bcol m j) mask).
(** the normalised score *)
Definition normalised (floor x : R) (cohort : list R) : R := (x - mean_of cohort) / Rmax floor (dev_of cohort).

(** ** Facts *)
Lemma Rsum_map_add {A} (f g : A -> R) l : Rsum (map (fun x => f x + g x) l) = Rsum (map f l) + Rsum (map g l).
Proof. induction l as [|a l IH]; cbn; [lra|]. fold (Rsum (map (fun x => f x + g x) l)) (Rsum (map f l)) (Rsum (map g l)). rewrite IH. lra. Qed.
Lemma Rsum_map_mul {A} (f : A -> R) c l : Rsum (map (fun x => c * f x) l) = c * Rsum (map f l).
Proof. induction l as [|a l IH]; cbn; [lra|]. fold (Rsum (map (fun x => c * f x) l)) (Rsum (map f l)). rewrite IH. lra. Qed.
Lemma Rsum_const {A} c (l : list A) : Rsum (map (fun _ => c) l) = c * INR (List.length l).
Proof. induction l as [|a l IH]; [cbn; lra|]. cbn [map List.length]. rewrite S_INR. cbn. fold (Rsum (map (fun _ => c) l)). rewrite IH. lra. Qed.
Lemma Rsum_ext {A} (f g : A -> R) l : (forall x, In x l -> f x = g x) -> Rsum (map f l) = Rsum (map g l).
Proof. intros H. f_equal. apply map_ext_in. exact H. Qed.
Lemma Rsum_nonneg l : (forall x, In x l -> 0 <= x) -> 0 <= Rsum l.
Proof. induction l as [|a l IH]; intros H; cbn; [lra|]. fold (Rsum l). assert (0 <= a) by (apply H; left; reflexivity). assert (0 <= Rsum l) by (apply IH; intros x I; apply H; right; exact I). lra. Qed.
Lemma Rsum_perm l l' : Permutation l l' -> Rsum l = Rsum l'.
Proof. induction 1 as [|x l l' P IH|x y l|l l' l'' P IH P' IH']; unfold Rsum in *; cbn; lra. Qed.
Lemma len_pos {A} (l : list A) : l <> [] -> 0 < INR (List.length l).
Proof. destruct l; [contradiction|]. intros _. apply lt_0_INR. cbn. lia. Qed.

(** sum of squared deviations = sum of squares - n mean^2 *)
Lemma dev_sum l : l <> [] -> Rsum (map (fun x => (x - mean_of l)²) l) = Rsum (map Rsqr l) - INR (List.length l) * (mean_of l)².
Proof.
  intros N. pose proof (len_pos l N) as P. set (mu := mean_of l). 
  assert (E : Rsum l = INR (List.length l) * mu) by (unfold mu, mean_of; field; lra).
  rewrite (Rsum_ext _ (fun x => (Rsqr x + (-2 * mu) * x) + mu²)) by (intros x _; unfold Rsqr; ring).
  rewrite (Rsum_map_add (fun x => x² + -2 * mu * x) (fun _ => mu²)), Rsum_const. rewrite (Rsum_map_add Rsqr (fun x => -2 * mu * x)). rewrite (Rsum_map_mul (fun x => x) (-2 * mu)), map_id, E. unfold Rsqr. ring.
Qed.
Lemma dev_nonneg l : l <> [] -> 0 <= Rsum (map (fun x => (x - mean_of l)²) l) / INR (List.length l).
Proof. intros N. pose proof (len_pos l N) as P. apply Rmult_le_pos; [|apply Rlt_le, Rinv_0_lt_compat, P]. apply Rsum_nonneg. intros x I. apply in_map_iff in I. destruct I as (y & <- & _). apply Rle_0_sqr. Qed.

Lemma mean_ok l : l <> [] -> mean l = Some (mean_of l).
Proof. intros N. unfold mean, odiv, mean_of. destruct (Req_EM_T (INR (List.length l)) 0) as [E|E]; [pose proof (len_pos l N); lra|reflexivity]. Qed.
Lemma mean_nil : mean [] = None.
Proof. unfold mean, odiv. cbn. destruct (Req_EM_T 0 0); [reflexivity|lra]. Qed.
Lemma std_ok l : l <> [] -> std l = Some (dev_of l).
Proof.
  intros N. unfold std. rewrite (mean_ok l N). cbn [obind]. rewrite mean_ok by (destruct l; [contradiction|discriminate]). cbn [obind]. unfold dev_of. unfold mean_of at 1. rewrite map_length. reflexivity.
Qed.

(** a score, set to 0 where its mask bit is False *)
Definition zo (p : R * bool) : R := if snd p then fst p else 0.
Lemma zero_out l m : List.length m = List.length l ->
  Rsum (map zo (combine l m)) = Rsum (kept l (Some m)) /\
  Rsum (map Rsqr (map zo (combine l m))) = Rsum (map Rsqr (kept l (Some m))) /\
  Rsum (map b2r m) = INR (List.length (kept l (Some m))).
Proof.
  unfold kept. revert m. induction l as [|x l IH]; intros [|b m] L; try discriminate; [cbn; repeat split; lra|]. injection L as L. destruct (IH m L) as (A & B & C). cbn [combine map filter snd fst].
  destruct b; cbn [map fst List.length]; rewrite ?S_INR; cbn [Rsum fold_right b2r map zo snd fst]; fold (Rsum (map zo (combine l m))); fold (Rsum (map b2r m)); fold (Rsum (map fst (filter snd (combine l m)))); fold (Rsum (map Rsqr (map zo (combine l m)))); fold (Rsum (map Rsqr (map fst (filter snd (combine l m))))); rewrite A, B, C; cbn [fst]; unfold Rsqr; repeat split; lra.
Qed.
(** the computation with a mask is that of the selected scores *)
Lemma stats_masked l m : List.length m = List.length l ->
  stats (map zo (combine l m)) (Some m) =
  match kept l (Some m) with [] => None | _ => Some (mean_of (kept l (Some m)), dev_of (kept l (Some m))) end.
Proof.
  intros L. destruct (zero_out l m L) as (A & B & C). set (vals := map zo (combine l m)) in *. set (K := kept l (Some m)) in *.
  assert (Lv : List.length vals = List.length l) by (unfold vals; rewrite map_length, combine_length; lia).
  unfold stats. destruct l as [|x0 l0] eqn:El.
  { destruct m; [|discriminate]. cbn [map]. rewrite mean_nil. reflexivity. }
  rewrite <- El in *. assert (N : 0 < INR (List.length l)) by (apply len_pos; rewrite El; discriminate). assert (Nm : m <> []) by (destruct m; [rewrite El in L; discriminate|discriminate]). assert (Nv : vals <> []) by (intros Q; rewrite Q, El in Lv; discriminate).
  rewrite (mean_ok (map b2r m)) by (destruct m; [contradiction|discriminate]). cbn [obind]. rewrite (mean_ok vals Nv). cbn [obind]. rewrite (mean_ok (map Rsqr vals)) by (destruct vals; [contradiction|discriminate]).
  replace (mean_of (map b2r m)) with (INR (List.length K) / INR (List.length l)) by (unfold mean_of; rewrite (map_length b2r m), L, C; reflexivity). replace (mean_of vals) with (Rsum K / INR (List.length l)) by (unfold mean_of; rewrite Lv, A; reflexivity). unfold odiv. destruct K as [|k K'] eqn:EK.
  - cbn [List.length INR]. destruct (Req_EM_T (0 / INR (List.length l)) 0) as [E|E]; [reflexivity|exfalso; apply E; field; lra].
  - rewrite <- EK in *. assert (P : 0 < INR (List.length K)) by (apply len_pos; rewrite EK; discriminate). destruct (Req_EM_T (INR (List.length K) / INR (List.length l)) 0) as [E|E].
    { exfalso. assert (Q : 0 < INR (List.length K) / INR (List.length l)) by (apply Rdiv_lt_0_compat; assumption). lra. }
    cbn [obind]. replace (Rsum K / INR (List.length l) / (INR (List.length K) / INR (List.length l))) with (mean_of K) by (unfold mean_of; field; lra). replace (mean_of (map Rsqr vals)) with (Rsum (map Rsqr K) / INR (List.length l)) by (unfold mean_of; rewrite (map_length Rsqr vals), Lv, B; reflexivity). destruct (Req_EM_T (INR (List.length K) / INR (List.length l)) 0) as [E2|_]; [contradiction|]. cbn [obind]. replace (Rsum (map Rsqr K) / INR (List.length l) / (INR (List.length K) / INR (List.length l)) - (mean_of K)²) with (Rsum (map (fun x => (x - mean_of K)²) K) / INR (List.length K)).
    2: { rewrite dev_sum by (rewrite EK; discriminate). field. lra. }
    unfold osqrt. match goal with |- context [Rlt_dec ?v 0] => destruct (Rlt_dec v 0) as [X|X] end; [exfalso; pose proof (dev_nonneg K ltac:(rewrite EK; discriminate)); lra|]. reflexivity.
Qed.
Lemma stats_plain l : stats l None = match l with [] => None | _ => Some (mean_of l, dev_of l) end.
Proof. unfold stats. destruct l as [|x l']; [rewrite mean_nil; reflexivity|]. rewrite mean_ok, std_ok by discriminate. reflexivity. Qed.
Lemma normed_ok floor x st : 0 < floor -> normed floor x st = match st with Some (mu, s) => Some ((x - mu) / Rmax floor s) | None => None end.
Proof.
  intros F. unfold normed. destruct st as [[mu s]|]; [|reflexivity]. cbn [obind]. unfold odiv, floored. destruct (Rlt_dec s floor) as [L|L]; [rewrite Rmax_left by lra|rewrite Rmax_right by lra]; (destruct (Req_EM_T _ 0); [lra|reflexivity]).
Qed.
Lemma row_zeroed a m i : ncols a = b_ncols m -> row_of (zeroed a m) i = map zo (combine (row_of a i) (brow m i)).
Proof.
  intros L. unfold row_of, brow, zeroed. cbn [ncols at_]. rewrite <- L. generalize (seq 0 (ncols a)). intros q. induction q as [|k q IH]; [reflexivity|]. cbn [map combine snd fst]. rewrite IH. reflexivity.
Qed.
Lemma col_zeroed a m j : nrows a = b_nrows m -> col_of (zeroed a m) j = map zo (combine (col_of a j) (bcol m j)).
Proof.
  intros L. unfold col_of, bcol, zeroed. cbn [nrows at_]. rewrite <- L. generalize (seq 0 (nrows a)). intros q. induction q as [|k q IH]; [reflexivity|]. cbn [map combine snd fst]. rewrite IH. reflexivity.
Qed.
Lemma mask_in_ok a mask : (forall m, mask = Some m -> nrows a = b_nrows m /\ ncols a = b_ncols m) -> mask_in a mask = Ok (match mask with None => a | Some m => zeroed a m end).
Proof. intros H. destruct mask as [m|]; [|reflexivity]. destruct (H m eq_refl) as (A & B). cbn. unfold same_shape. rewrite A, B, !Nat.eqb_refl. reflexivity. Qed.
Lemma row_stats a mask i : (forall m, mask = Some m -> nrows a = b_nrows m /\ ncols a = b_ncols m) ->
  stats (row_of (match mask with None => a | Some m => zeroed a m end) i) (option_map (fun m => brow m i) mask) =
  match enr_cohort a mask i with [] => None | _ => Some (mean_of (enr_cohort a mask i), dev_of (enr_cohort a mask i)) end.
Proof.
  intros H. unfold enr_cohort. destruct mask as [m|]; [|apply stats_plain]. destruct (H m eq_refl) as (A & B). cbn [option_map]. rewrite (row_zeroed a m i B). apply stats_masked. unfold brow, row_of. rewrite !map_length, !seq_length. symmetry. exact B.
Qed.
Lemma col_stats a mask j : (forall m, mask = Some m -> nrows a = b_nrows m /\ ncols a = b_ncols m) ->
  stats (col_of (match mask with None => a | Some m => zeroed a m end) j) (option_map (fun m => bcol m j) mask) =
  match test_cohort a mask j with [] => None | _ => Some (mean_of (test_cohort a mask j), dev_of (test_cohort a mask j)) end.
Proof.
  intros H. unfold test_cohort. destruct mask as [m|]; [|apply stats_plain]. destruct (H m eq_refl) as (A & B). cbn [option_map]. rewrite (col_zeroed a m j A). apply stats_masked. unfold bcol, col_of. rewrite !map_length, !seq_length. symmetry. exact A.
Qed.

Definition fits (a : arr) (mask : option barr) : Prop := forall m, mask = Some m -> nrows a = b_nrows m /\ ncols a = b_ncols m.

(** ** Z-norm: every score is normalised by the mean and the floored deviation of the cohort scores of its enrolment that the mask
    keeps; it is not a number exactly when the mask keeps none. The caller's cohort matrix is changed: exactly the masked-out
    entries become 0. *)
Theorem C50_znorm : forall floor scores enr_coh mask, 0 < floor -> nrows enr_coh = nrows scores -> fits enr_coh mask ->
  exists r after, znorm floor scores enr_coh mask = Ok (r, after) /\ o_nrows r = nrows scores /\ o_ncols r = ncols scores /\
    (forall i j, o_at r i j = match enr_cohort enr_coh mask i with [] => None | c => Some (normalised floor (at_ scores i j) c) end) /\
    (forall i j, at_ after i j = match mask with Some m => if b_at m i j then at_ enr_coh i j else 0 | None => at_ enr_coh i j end).
Proof.
  intros floor S E mask F H M. unfold znorm. rewrite (mask_in_ok E mask M). cbn [bind]. replace (nrows match mask with None => E | Some m => zeroed E m end) with (nrows E) by (destruct mask; reflexivity). rewrite H, Nat.eqb_refl. eexists _, _. split; [reflexivity|]. split; [reflexivity|]. split; [reflexivity|]. split.
  - intros i j. cbn [fst o_at]. rewrite (normed_ok _ _ _ F), (row_stats E mask i M). destruct (enr_cohort E mask i); reflexivity.
  - intros i j. destruct mask; reflexivity.
Qed.
Theorem C50_tnorm : forall floor scores coh_test mask, 0 < floor -> ncols coh_test = ncols scores -> fits coh_test mask ->
  exists r after, tnorm floor scores coh_test mask = Ok (r, after) /\ o_nrows r = nrows scores /\ o_ncols r = ncols scores /\
    (forall i j, o_at r i j = match test_cohort coh_test mask j with [] => None | c => Some (normalised floor (at_ scores i j) c) end) /\
    (forall i j, at_ after i j = match mask with Some m => if b_at m i j then at_ coh_test i j else 0 | None => at_ coh_test i j end).
Proof.
  intros floor S E mask F H M. unfold tnorm. rewrite (mask_in_ok E mask M). cbn [bind]. replace (ncols match mask with None => E | Some m => zeroed E m end) with (ncols E) by (destruct mask; reflexivity). rewrite H, Nat.eqb_refl. eexists _, _. split; [reflexivity|]. split; [reflexivity|]. split; [reflexivity|]. split.
  - intros i j. cbn [fst o_at]. rewrite (normed_ok _ _ _ F), (col_stats E mask j M). destruct (test_cohort E mask j); reflexivity.
  - intros i j. destruct mask; reflexivity.
Qed.
(** ** S-norm is the sum of the Z-norm and T-norm scores divided by the square root of 2 (not their mean) *)
Theorem C50_snorm : forall floor scores coh_test enr_coh mct mec, 0 < floor -> nrows enr_coh = nrows scores -> ncols coh_test = ncols scores -> fits coh_test mct -> fits enr_coh mec ->
  exists r, snorm floor scores coh_test enr_coh mct mec = Ok r /\ o_nrows r = nrows scores /\ o_ncols r = ncols scores /\
    forall i j, o_at r i j = match enr_cohort enr_coh mec i, test_cohort coh_test mct j with
      | [], _ | _, [] => None
      | ce, ct => Some ((normalised floor (at_ scores i j) ce + normalised floor (at_ scores i j) ct) / sqrt 2) end.
Proof.
  intros floor S C E mct mec F H1 H2 M1 M2. destruct (C50_znorm floor S E mec F H1 M2) as (r & a & Er & _ & _ & R & _). destruct (C50_tnorm floor S C mct F H2 M1) as (r' & a' & Er' & _ & _ & R' & _). unfold snorm. rewrite Er, Er'. cbn [bind]. eexists. split; [reflexivity|]. split; [reflexivity|]. split; [reflexivity|]. intros i j. cbn [o_at fst]. rewrite R, R'.
  destruct (enr_cohort E mec i); [reflexivity|]. destruct (test_cohort C mct j); [reflexivity|]. cbn [oadd obind]. unfold odiv. destruct (Req_EM_T (sqrt 2) 0) as [Z|Z]; [|reflexivity]. pose proof (sqrt_lt_R0 2 ltac:(lra)). lra.
Qed.
(** Zero-variance cohorts are fine: every normalised score is finite, and bounded by |x - mean| / floor. *)
Theorem C50_bounded : forall floor x cohort, 0 < floor -> Rabs (normalised floor x cohort) <= Rabs (x - mean_of cohort) / floor.
Proof.
  intros floor x c F. unfold normalised. pose proof (Rmax_l floor (dev_of c)) as L. unfold Rdiv. rewrite Rabs_mult. apply Rmult_le_compat_l; [apply Rabs_pos|]. rewrite Rabs_pos_eq by (apply Rlt_le, Rinv_0_lt_compat; lra). apply Rinv_le_contravar; lra.
Qed.
(** ** Positive affine changes of the scores of one enrolment (or test) leave its normalised scores unchanged *)
Lemma mean_affine a b l : l <> [] -> mean_of (map (fun x => a * x + b) l) = a * mean_of l + b.
Proof. intros N. pose proof (len_pos l N). unfold mean_of. rewrite map_length. rewrite (Rsum_map_add (fun x => a * x) (fun _ => b)), Rsum_const, (Rsum_map_mul (fun x => x) a), map_id. field. lra. Qed.
Lemma dev_affine a b l : 0 <= a -> l <> [] -> dev_of (map (fun x => a * x + b) l) = a * dev_of l.
Proof.
  intros A N. unfold dev_of. rewrite map_length, map_map. rewrite mean_affine by exact N. rewrite (Rsum_ext _ (fun x => a² * (x - mean_of l)²)) by (intros x _; unfold Rsqr; ring). rewrite (Rsum_map_mul (fun x => (x - mean_of l)²) (a²)). unfold Rdiv at 1. rewrite Rmult_assoc. rewrite sqrt_mult_alt by apply Rle_0_sqr. rewrite sqrt_Rsqr by exact A. reflexivity.
Qed.
Theorem C50_affine : forall floor a b x cohort, 0 < floor -> 0 < a -> cohort <> [] -> floor <= dev_of cohort -> floor <= a * dev_of cohort ->
  normalised floor (a * x + b) (map (fun y => a * y + b) cohort) = normalised floor x cohort.
Proof.
  intros floor a b x c F A N L1 L2. unfold normalised. rewrite (mean_affine a b c N), (dev_affine a b c ltac:(lra) N). rewrite !Rmax_right by assumption. field. split; lra.
Qed.
(** adding a constant never matters *)
Theorem C50_shift : forall floor b x cohort, cohort <> [] -> normalised floor (x + b) (map (fun y => y + b) cohort) = normalised floor x cohort.
Proof.
  intros floor b x c N. assert (E : map (fun y => y + b) c = map (fun y => 1 * y + b) c) by (apply map_ext; intros y; ring). rewrite E. unfold normalised. rewrite (mean_affine 1 b c N), (dev_affine 1 b c ltac:(lra) N). rewrite !Rmult_1_l. f_equal. ring.
Qed.
(** The order of the cohort does not matter, nor does the order of scores of one cohort change. *)
Theorem C50_cohort_order : forall floor x c c', Permutation c c' -> normalised floor x c = normalised floor x c'.
Proof.
  intros floor x c c' P. unfold normalised. assert (E : mean_of c = mean_of c') by (unfold mean_of; rewrite (Rsum_perm _ _ P), (Permutation_length P); reflexivity). unfold dev_of. rewrite E, (Permutation_length P). rewrite (Rsum_perm _ _ (Permutation_map _ P)). reflexivity.
Qed.
Theorem C50_monotone : forall floor x y c, 0 < floor -> (x < y <-> normalised floor x c < normalised floor y c).
Proof.
  intros floor x y c F. unfold normalised. pose proof (Rmax_l floor (dev_of c)) as L. set (d := Rmax floor (dev_of c)) in *. split; intros H.
  - apply Rmult_lt_compat_r; [apply Rinv_0_lt_compat; lra|lra].
  - apply (Rmult_lt_compat_r d) in H; [|lra]. unfold Rdiv in H. rewrite !Rmult_assoc, !Rinv_l in H by lra. lra.
Qed.
(** A cohort normalised by itself has mean 0 and, unless the floor was used, deviation 1. *)
Theorem C50_standardises : forall floor c, 0 < floor -> c <> [] -> mean_of (map (fun x => normalised floor x c) c) = 0 /\ (floor <= dev_of c -> dev_of (map (fun x => normalised floor x c) c) = 1).
Proof.
  intros floor c F N. pose proof (Rmax_l floor (dev_of c)) as L. set (d := Rmax floor (dev_of c)) in *. assert (Ed : map (fun x => normalised floor x c) c = map (fun x => / d * x + - (mean_of c / d)) c) by (apply map_ext; intros x; unfold normalised; fold d; field; lra). rewrite Ed. assert (P : 0 < / d) by (apply Rinv_0_lt_compat; lra). split.
  - rewrite mean_affine by exact N. field. lra.
  - intros Q. rewrite dev_affine; [|lra|exact N]. unfold d. rewrite Rmax_right by exact Q. field. lra.
Qed.

(** ** Symmetry: exchanging the roles of enrolment and test transposes the result *)
Definition transpose (a : arr) : arr := mk_arr (ncols a) (nrows a) (fun i j => at_ a j i).
Definition btranspose (m : barr) : barr := mk_barr (b_ncols m) (b_nrows m) (fun i j => b_at m j i).
Theorem C50_symmetric : forall floor scores coh_test enr_coh mct mec, 0 < floor -> nrows enr_coh = nrows scores -> ncols coh_test = ncols scores -> fits coh_test mct -> fits enr_coh mec ->
  exists r r', snorm floor scores coh_test enr_coh mct mec = Ok r /\
    snorm floor (transpose scores) (transpose enr_coh) (transpose coh_test) (option_map btranspose mec) (option_map btranspose mct) = Ok r' /\
    forall i j, o_at r' j i = o_at r i j.
Proof.
  intros floor S C E mct mec F H1 H2 M1 M2. destruct (C50_snorm floor S C E mct mec F H1 H2 M1 M2) as (r & Er & _ & _ & R).
  assert (T : forall a m, fits a m -> fits (transpose a) (option_map btranspose m)) by (intros a [m|] H q Q; [|discriminate]; injection Q as <-; destruct (H m eq_refl); split; assumption).
  destruct (C50_snorm floor (transpose S) (transpose E) (transpose C) (option_map btranspose mec) (option_map btranspose mct) F H2 H1 (T _ _ M2) (T _ _ M1)) as (r' & Er' & _ & _ & R').
  exists r, r'. split; [exact Er|]. split; [exact Er'|]. intros i j. rewrite R, R'. replace (enr_cohort (transpose C) (option_map btranspose mct) j) with (test_cohort C mct j) by (destruct mct; reflexivity). replace (test_cohort (transpose E) (option_map btranspose mec) i) with (enr_cohort E mec i) by (destruct mec; reflexivity). cbn [at_ transpose].
  destruct (enr_cohort E mec i), (test_cohort C mct j); try reflexivity. rewrite (Rplus_comm (normalised _ _ (r1 :: l0))). reflexivity.
Qed.
(** TZNorm and ZTNorm objects cannot be built. *)
Theorem C50_tz_zt_refuted : construct 1 = Err NameError /\ construct 2 = Err NameError.
Proof. split; reflexivity. Qed.

(** ** Adaptive S-norm *)
(** the positions [idx] of a selection from [vals]: [discard] positions with the largest scores are left out, the next [n]
    largest are taken *)
Definition selects (vals : list R) (discard n : nat) (idx : list nat) : Prop :=
  List.length idx = n /\ exists top rest, Permutation (top ++ idx ++ rest) (seq 0 (List.length vals)) /\ List.length top = discard /\
    (forall a b, In a top -> In b idx -> nth b vals 0 <= nth a vals 0) /\ (forall a b, In a idx -> In b rest -> nth b vals 0 <= nth a vals 0).
(** np.argsort: a permutation of the positions, scores not decreasing along it *)
Definition sorts (argsort : list R -> list nat) : Prop := forall l, Permutation (argsort l) (seq 0 (List.length l)) /\
  forall p q a b, (p < q)%nat -> nth_error (argsort l) p = Some a -> nth_error (argsort l) q = Some b -> nth a l 0 <= nth b l 0.
(** np.argsort with kind='stable' is one *)
Lemma sorts_exists : sorts (fun l => Metrics.argsort (H := DcfReal.Ord_R) l).
Proof.
  intros l. split; [apply SortFacts.argsort_perm|]. intros p q a b L A B.
  assert (H : Sorted.StronglySorted (SortFacts.before (H := DcfReal.Ord_R) l) (Metrics.argsort (H := DcfReal.Ord_R) l)) by apply SortFacts.argsort_sorted.
  revert p q L A B H. generalize (Metrics.argsort (H := DcfReal.Ord_R) l). induction l0 as [|x r IH]; intros p q L A B H; [destruct p; discriminate|]. apply Sorted.StronglySorted_inv in H. destruct H as (H1 & H2). destruct q as [|q]; [lia|]. destruct p as [|p].
  - cbn in A. injection A as <-. cbn in B. apply nth_error_In in B. rewrite Forall_forall in H2. destruct (H2 b B) as (u & v & U & V & X). apply nth_error_nth with (d := 0) in U, V. rewrite U, V. destruct X as [X|[X _]]; [|lra]. apply SortFacts.ltb_leb in X. apply DcfReal.rleb_iff in X. exact X.
  - apply (IH p q ltac:(lia) A B H1).
Qed.
Lemma best_selects argsort l discard n : sorts argsort -> (discard + n <= List.length l)%nat -> selects l discard n (best argsort discard n l).
Proof.
  intros H L. destruct (H l) as (P & S). unfold best. set (r := rev (argsort l)). assert (Lr : List.length r = List.length l) by (unfold r; rewrite rev_length, (Permutation_length P), seq_length; reflexivity).
  assert (D : forall p q a b, (p < q)%nat -> nth_error r p = Some a -> nth_error r q = Some b -> nth b l 0 <= nth a l 0).
  { intros p q a b Lt A B. assert (Lq : (q < List.length r)%nat) by (apply nth_error_Some; congruence). assert (Ls : List.length (argsort l) = List.length l) by (rewrite (Permutation_length P), seq_length; reflexivity).
    assert (N : forall k v, nth_error r k = Some v -> nth_error (argsort l) (List.length l - Datatypes.S k) = Some v). { intros k v E. assert (Lk : (k < List.length r)%nat) by (apply nth_error_Some; congruence). apply nth_error_nth with (d := 0%nat) in E. unfold r in E. rewrite rev_nth in E by lia. rewrite Ls in E. rewrite (nth_error_nth' _ 0%nat) by lia. f_equal. exact E. }
    apply (S (List.length l - Datatypes.S q)%nat (List.length l - Datatypes.S p)%nat b a); [lia|apply N; exact B|apply N; exact A]. }
  split; [rewrite firstn_length, skipn_length; lia|]. exists (firstn discard r), (skipn n (skipn discard r)). split; [|split; [rewrite firstn_length; lia|split]].
  - rewrite (firstn_skipn n), (firstn_skipn discard). unfold r. rewrite <- P. apply Permutation_sym, Permutation_rev.
  - intros a b A B. apply In_nth_error in A, B. destruct A as (p & A). destruct B as (q & B). rewrite nth_error_firstn in A, B. destruct (Nat.ltb_spec p discard); [|discriminate]. destruct (Nat.ltb_spec q n); [|discriminate]. rewrite nth_error_skipn in B. apply (D p (discard + q)%nat); [lia|exact A|exact B].
  - intros a b A B. apply In_nth_error in A, B. destruct A as (p & A). destruct B as (q & B). rewrite nth_error_firstn in A. destruct (Nat.ltb_spec p n); [|discriminate]. rewrite !nth_error_skipn in B. rewrite nth_error_skipn in A. apply (D (discard + p)%nat (discard + (n + q))%nat); [lia|exact A|exact B].
Qed.

Definition masked_arr (a : arr) (mask : option barr) : arr := match mask with Some m => zeroed a m | None => a end.
(** without the floor *)
Definition adapted (x : R) (cohort : list R) : option R :=
  match cohort with [] => None | _ => if Req_EM_T (dev_of cohort) 0 then None else Some ((x - mean_of cohort) / dev_of cohort) end.
Lemma adapt_value_plain x l : adapt_value x l None = adapted x l.
Proof. unfold adapt_value, adapted. rewrite stats_plain. destruct l; [reflexivity|]. cbn [obind]. unfold odiv. destruct (Req_EM_T _ 0); reflexivity. Qed.
Lemma adapt_value_masked x (a : nat -> R) (b : nat -> bool) idx : adapt_value x (map (fun k => if b k then a k else 0) idx) (Some (map b idx)) = adapted x (map a (filter b idx)).
Proof.
  unfold adapt_value, adapted. assert (E : map (fun k => if b k then a k else 0) idx = map zo (combine (map a idx) (map b idx))) by (induction idx as [|k idx IH]; [reflexivity|]; cbn; rewrite IH; reflexivity). rewrite E, stats_masked by (rewrite !map_length; reflexivity).
  assert (K : kept (map a idx) (Some (map b idx)) = map a (filter b idx)). { unfold kept. clear. induction idx as [|k idx IH]; [reflexivity|]. cbn. destruct (b k); cbn; rewrite IH; reflexivity. } rewrite K. destruct (map a (filter b idx)); [reflexivity|]. cbn [obind]. unfold odiv. destruct (Req_EM_T _ 0); reflexivity.
Qed.

(** Each score is normalised with the cohort members that score best against the test (Z side) and against the enrolment (T side),
    leaving out the nbest_discard best ones; a mask removes entries from the cohorts, but only after the selection. *)
Theorem C50_adapt : forall argsort nbest discard scores coh_test enr_coh mct mec, sorts argsort ->
  nrows enr_coh = nrows scores -> ncols coh_test = ncols scores -> ncols enr_coh = nrows coh_test -> (discard < nrows coh_test)%nat -> fits coh_test mct -> fits enr_coh mec ->
  exists r, adapt_snorm argsort nbest discard scores coh_test enr_coh mct mec = Ok r /\ o_nrows r = nrows scores /\ o_ncols r = ncols scores /\
    forall i j, exists bz bt, selects (col_of (masked_arr coh_test mct) j) discard (Nat.min nbest (nrows coh_test - discard)) bz /\
      selects (row_of (masked_arr enr_coh mec) i) discard (Nat.min nbest (nrows coh_test - discard)) bt /\
      o_at r i j = match adapted (at_ scores i j) (map (at_ enr_coh i) (filter (fun k => match mec with Some m => b_at m i k | None => true end) bz)),
                         adapted (at_ scores i j) (map (fun k => at_ coh_test k j) (filter (fun k => match mct with Some m => b_at m k j | None => true end) bt)) with
                   | Some z, Some t => Some ((z + t) / sqrt 2) | _, _ => None end.
Proof.
  intros argsort nbest discard S C E mct mec SO H1 H2 H3 L M1 M2. unfold adapt_snorm. rewrite H3, Nat.eqb_refl. cbn [assert bind]. rewrite (proj2 (Nat.ltb_lt _ _) L). cbn [assert bind]. cbv zeta. rewrite (mask_in_ok C mct M1), (mask_in_ok E mec M2). cbn [bind].
  replace (ncols match mct with None => C | Some m => zeroed C m end) with (ncols S) by (destruct mct; symmetry; exact H2). rewrite Nat.leb_refl. cbn [bind]. replace (nrows match mec with None => E | Some m => zeroed E m end) with (nrows S) by (destruct mec; symmetry; exact H1). rewrite !Nat.eqb_refl. cbn [bind]. eexists. split; [reflexivity|]. split; [reflexivity|]. split; [reflexivity|]. intros i j. cbn [o_at].
  replace (if (nrows C - discard <? nbest)%nat then (nrows C - discard)%nat else nbest) with (Nat.min nbest (nrows C - discard)) by (destruct (Nat.ltb_spec (nrows C - discard) nbest); lia). set (nb := Nat.min nbest (nrows C - discard)).
  change (match mct with None => C | Some m => zeroed C m end) with (masked_arr C mct). change (match mec with None => E | Some m => zeroed E m end) with (masked_arr E mec).
  exists (best argsort discard nb (col_of (masked_arr C mct) j)), (best argsort discard nb (row_of (masked_arr E mec) i)). split; [|split].
  - apply best_selects; [exact SO|]. unfold col_of. rewrite map_length, seq_length. replace (nrows (masked_arr C mct)) with (nrows C) by (destruct mct; reflexivity). unfold nb. lia.
  - apply best_selects; [exact SO|]. unfold row_of. rewrite map_length, seq_length. replace (ncols (masked_arr E mec)) with (ncols E) by (destruct mec; reflexivity). unfold nb. lia.
  - set (bz := best argsort discard nb (col_of (masked_arr C mct) j)). set (bt := best argsort discard nb (row_of (masked_arr E mec) i)). clearbody bz bt.
    assert (Z : adapt_value (at_ S i j) (map (at_ (masked_arr E mec) i) bz) (option_map (fun m => map (b_at m i) bz) mec) = adapted (at_ S i j) (map (at_ E i) (filter (fun k => match mec with Some m => b_at m i k | None => true end) bz))).
    { destruct mec as [m|]; cbn [option_map masked_arr]; [apply (adapt_value_masked (at_ S i j) (at_ E i) (b_at m i))|]. rewrite adapt_value_plain. f_equal. f_equal. clear. induction bz as [|k l IH]; [reflexivity|]. cbn. rewrite <- IH. reflexivity. }
    assert (T : adapt_value (at_ S i j) (map (fun k => at_ (masked_arr C mct) k j) bt) (option_map (fun m => map (fun k => b_at m k j) bt) mct) = adapted (at_ S i j) (map (fun k => at_ C k j) (filter (fun k => match mct with Some m => b_at m k j | None => true end) bt))).
    { destruct mct as [m|]; cbn [option_map masked_arr]; [apply (adapt_value_masked (at_ S i j) (fun k => at_ C k j) (fun k => b_at m k j))|]. rewrite adapt_value_plain. f_equal. f_equal. clear. induction bt as [|k l IH]; [reflexivity|]. cbn. rewrite <- IH. reflexivity. }
    rewrite Z, T. destruct (adapted _ _) as [z|]; [|reflexivity]. cbn [oadd obind]. destruct (adapted _ _) as [t|]; [|reflexivity]. cbn [obind]. unfold odiv. destruct (Req_EM_T (sqrt 2) 0) as [Q|Q]; [pose proof (sqrt_lt_R0 2 ltac:(lra)); lra|reflexivity].
Qed.

(** With nbest at least the cohort size, nothing discarded and no masks, adaptive S-norm is S-norm wherever the floor is not reached. *)
Lemma selects_all l n idx : selects l 0 n idx -> (List.length l <= n)%nat -> n = List.length l -> Permutation idx (seq 0 (List.length l)).
Proof.
  intros (L & top & rest & P & T & _) _ E. destruct top; [|discriminate]. cbn [app] in P. assert (List.length rest = 0%nat) by (apply Permutation_length in P; rewrite app_length, seq_length in P; lia). destruct rest; [|discriminate]. rewrite app_nil_r in P. exact P.
Qed.
Theorem C50_adapt_whole_cohort : forall argsort nbest floor scores coh_test enr_coh, sorts argsort -> 0 < floor ->
  nrows enr_coh = nrows scores -> ncols coh_test = ncols scores -> ncols enr_coh = nrows coh_test -> (0 < nrows coh_test <= nbest)%nat ->
  exists r r', adapt_snorm argsort nbest 0 scores coh_test enr_coh None None = Ok r /\ snorm floor scores coh_test enr_coh None None = Ok r' /\
    forall i j, floor <= dev_of (row_of enr_coh i) -> floor <= dev_of (col_of coh_test j) -> o_at r i j = o_at r' i j /\ o_at r i j <> None.
Proof.
  intros argsort nbest floor S C E SO F H1 H2 H3 L. destruct (C50_adapt argsort nbest 0 S C E None None SO H1 H2 H3 ltac:(lia) ltac:(intros m Q; discriminate) ltac:(intros m Q; discriminate)) as (r & Er & _ & _ & R). destruct (C50_snorm floor S C E None None F H1 H2 ltac:(intros m Q; discriminate) ltac:(intros m Q; discriminate)) as (r' & Er' & _ & _ & R'). exists r, r'. split; [exact Er|]. split; [exact Er'|]. intros i j D1 D2.
  destruct (R i j) as (bz & bt & Sz & St & ->). rewrite R'. clear R R' Er Er'. replace (Nat.min nbest (nrows C - 0)) with (nrows C) in * by lia. cbn [masked_arr] in *.
  assert (Tr : forall l : list nat, filter (fun _ => true) l = l) by (induction l as [|k l IH]; [reflexivity|]; cbn; rewrite IH; reflexivity). rewrite !Tr. 
  apply selects_all in Sz; [|unfold col_of; rewrite map_length, seq_length; lia|unfold col_of; rewrite map_length, seq_length; lia]. apply selects_all in St; [|unfold row_of; rewrite map_length, seq_length; lia|unfold row_of; rewrite map_length, seq_length; lia]. unfold col_of in Sz. unfold row_of in St. rewrite map_length, seq_length in Sz, St. 
  assert (Pz : Permutation (map (at_ E i) bz) (row_of E i)) by (unfold row_of; rewrite H3; apply Permutation_map; exact Sz). assert (Pt : Permutation (map (fun k => at_ C k j) bt) (col_of C j)) by (unfold col_of; rewrite <- H3; apply (Permutation_map (fun k => at_ C k j)); exact St).
  assert (A : forall x c c', Permutation c c' -> c' <> [] -> floor <= dev_of c' -> adapted x c = Some (normalised floor x c')). { intros x c c' P N D. rewrite <- (C50_cohort_order floor x c c' P). assert (D' : dev_of c = dev_of c'). { unfold dev_of. assert (Em : mean_of c = mean_of c') by (unfold mean_of; rewrite (Rsum_perm _ _ P), (Permutation_length P); reflexivity). rewrite Em, (Permutation_length P), (Rsum_perm _ _ (Permutation_map _ P)). reflexivity. } unfold adapted. destruct c as [|y c]; [apply Permutation_nil in P; contradiction|]. rewrite D'. destruct (Req_EM_T (dev_of c') 0); [lra|]. unfold normalised. rewrite D', Rmax_right by exact D. reflexivity. }
  unfold enr_cohort, test_cohort. cbn [option_map kept].
  assert (Ne : row_of E i <> []) by (intros Q; apply (f_equal (@List.length R)) in Q; unfold row_of in Q; rewrite map_length, seq_length in Q; cbn in Q; lia). assert (Nc : col_of C j <> []) by (intros Q; apply (f_equal (@List.length R)) in Q; unfold col_of in Q; rewrite map_length, seq_length in Q; cbn in Q; lia).
  rewrite (A _ _ _ Pz Ne D1), (A _ _ _ Pt Nc D2). destruct (row_of E i); [contradiction|]. destruct (col_of C j); [contradiction|]. split; [reflexivity|discriminate].
Qed.
(** There is no floor in the adaptive version: cohort scores that are all equal make the result not a number, while S-norm is finite. *)
Theorem C50_adapt_constant_refuted : forall argsort nbest discard scores coh_test enr_coh i j c, sorts argsort ->
  nrows enr_coh = nrows scores -> ncols coh_test = ncols scores -> ncols enr_coh = nrows coh_test -> (discard < nrows coh_test)%nat ->
  (forall k, at_ enr_coh i k = c) -> exists r, adapt_snorm argsort nbest discard scores coh_test enr_coh None None = Ok r /\ o_at r i j = None.
Proof.
  intros argsort nbest discard S C E i j c SO H1 H2 H3 L K. destruct (C50_adapt argsort nbest discard S C E None None SO H1 H2 H3 L ltac:(intros m Q; discriminate) ltac:(intros m Q; discriminate)) as (r & Er & _ & _ & R). exists r. split; [exact Er|]. destruct (R i j) as (bz & bt & _ & _ & ->).
  assert (Tr : forall l : list nat, filter (fun _ => true) l = l) by (induction l as [|k l IH]; [reflexivity|]; cbn; rewrite IH; reflexivity). rewrite !Tr. replace (adapted (at_ S i j) (map (at_ E i) bz)) with (@None RbaseSymbolsImpl.R); [reflexivity|]. symmetry. unfold adapted.
  assert (Ec : map (at_ E i) bz = map (fun _ => c) bz) by (apply map_ext; exact K). rewrite Ec. destruct (list_eq_dec Nat.eq_dec bz []) as [->|Eb]; [reflexivity|]. assert (D : dev_of (map (fun _ => c) bz) = 0). { assert (N : 0 < INR (List.length bz)) by (apply len_pos; exact Eb). unfold dev_of. rewrite map_map. assert (M : mean_of (map (fun _ : nat => c) bz) = c) by (unfold mean_of; rewrite Rsum_const, map_length; field; lra). rewrite M. rewrite (Rsum_const ((c - c)²)), map_length. replace ((c - c)² * INR (List.length bz) / INR (List.length bz)) with 0 by (unfold Rsqr; field; lra). apply sqrt_0. }
  rewrite D. destruct (map (fun _ => c) bz); [reflexivity|]. destruct (Req_EM_T 0 0); [reflexivity|lra].
Qed.
(** A mask does not keep an entry out of the selection: it is ranked with score 0, so with negative scores a masked-out cohort
    member is preferred, and the Z side can end with no cohort at all although a valid one exists. *)
Theorem C50_adapt_mask_refuted : exists scores coh_test enr_coh mct mec, fits coh_test mct /\ fits enr_coh mec /\ (exists k, b_at (match mct with Some m => m | None => mk_barr 0 0 (fun _ _ => false) end) k 0 = true /\ b_at (match mec with Some m => m | None => mk_barr 0 0 (fun _ _ => false) end) 0 k = true /\ (k < nrows coh_test)%nat) /\
  forall argsort, sorts argsort -> exists r, adapt_snorm argsort 1 0 scores coh_test enr_coh mct mec = Ok r /\ o_at r 0%nat 0%nat = None.
Proof.
  exists (mk_arr 1 1 (fun _ _ => 1)), (mk_arr 2 1 (fun i _ => -1 - INR i)), (mk_arr 1 2 (fun _ j => -1 - INR j)), (Some (mk_barr 2 1 (fun i _ => Nat.eqb i 0))), (Some (mk_barr 1 2 (fun _ j => Nat.eqb j 0))).
  split; [intros m Q; injection Q as <-; split; reflexivity|]. split; [intros m Q; injection Q as <-; split; reflexivity|]. split; [exists 0%nat; cbn; split; [reflexivity|split; [reflexivity|lia]]|]. intros argsort SO.
  match goal with |- exists r, adapt_snorm _ _ _ ?S ?C ?E ?mc ?me = _ /\ _ => destruct (C50_adapt argsort 1 0 S C E mc me SO eq_refl eq_refl eq_refl ltac:(cbn; lia) ltac:(intros m Q; injection Q as <-; split; reflexivity) ltac:(intros m Q; injection Q as <-; split; reflexivity)) as (r & Er & _ & _ & R) end. exists r. split; [exact Er|]. destruct (R 0%nat 0%nat) as (bz & bt & Sz & _ & ->). clear R Er.
  assert (Z : bz = [1%nat]). { destruct Sz as (Lz & top & rest & P & T & _ & Q). destruct top; [|discriminate]. cbn [app] in P. cbn in Lz. destruct bz as [|b [|? ?]]; try discriminate. cbn in P. assert (Lr : List.length rest = 1%nat) by (apply Permutation_length in P; cbn in P; lia). destruct rest as [|c [|? ?]]; try discriminate. specialize (Q b c (or_introl eq_refl) (or_introl eq_refl)). apply Permutation_length_2_inv in P. destruct P as [P|P]; injection P as P1 P2; subst b c; [|reflexivity]. exfalso. cbn in Q. lra. }
  rewrite Z. reflexivity.
Qed.
Example C50_witness : normalised (1/10) 5 [1; 3] = 3 /\ dev_of [1; 3] = 1 /\ fits (mk_arr 1 2 (fun _ j => INR j)) (Some (mk_barr 1 2 (fun _ j => Nat.eqb j 0))).
Proof.
  assert (D : dev_of [1; 3] = 1). { unfold dev_of, mean_of. cbn. replace ((_ + _) / (1 + 1)) with 1 by (unfold Rsqr; field). apply sqrt_1. } split; [|split; [exact D|intros m Q; injection Q as <-; split; reflexivity]].
  unfold normalised. rewrite D. rewrite Rmax_right by lra. unfold mean_of. cbn. field.
Qed.
Print Assumptions C50_adapt_whole_cohort. Print Assumptions C50_symmetric.
