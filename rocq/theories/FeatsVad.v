(** Filters of the waveform, voice activity decisions and frame selection (C80). *)
From Coq Require Import Reals Lra Lia Psatz.
From Verif Require Import Base BaseFacts ScoreNorm ScoreNormProps Feats FeatsProps.
Open Scope list_scope. Open Scope R_scope.

(** ** Filters *)
Lemma lfilter_app b0 b1 a1 x1 : forall z x2, lfilter b0 b1 a1 z (x1 ++ x2) =
  (fst (lfilter b0 b1 a1 z x1) ++ fst (lfilter b0 b1 a1 (snd (lfilter b0 b1 a1 z x1)) x2), snd (lfilter b0 b1 a1 (snd (lfilter b0 b1 a1 z x1)) x2)).
Proof.
  induction x1 as [|v x1 IH]; intros z x2; simpl; [destruct (lfilter b0 b1 a1 z x2); reflexivity|]. rewrite IH. destruct (lfilter b0 b1 a1 _ x1) as [y1 z1]. simpl. reflexivity.
Qed.
(** a signal may be filtered in pieces: the state carries over *)
Theorem C80_filter_stream b0 b1 a1 z x1 x2 y1 z1 y2 z2 : lfilter b0 b1 a1 z x1 = (y1, z1) -> lfilter b0 b1 a1 z1 x2 = (y2, z2) -> lfilter b0 b1 a1 z (x1 ++ x2) = (y1 ++ y2, z2).
Proof. intros E1 E2. rewrite lfilter_app, E1. simpl. rewrite E2. reflexivity. Qed.
Lemma lfilter_len b0 b1 a1 x : forall z, List.length (fst (lfilter b0 b1 a1 z x)) = List.length x.
Proof. induction x as [|v x IH]; intros z; simpl; [reflexivity|]. specialize (IH (b1 * v - a1 * (b0 * v + z))). destruct (lfilter b0 b1 a1 _ x) as [y z']. simpl in *. lia. Qed.
Lemma lfilter_rec b0 b1 a1 x : forall z n, (n < List.length x)%nat -> nth n (fst (lfilter b0 b1 a1 z x)) 0 =
  b0 * nth n x 0 + match n with O => z | S m => b1 * nth m x 0 - a1 * nth m (fst (lfilter b0 b1 a1 z x)) 0 end.
Proof.
  induction x as [|v x IH]; intros z n N; simpl in *; [lia|]. specialize (IH (b1 * v - a1 * (b0 * v + z))). destruct (lfilter b0 b1 a1 _ x) as [y z']. simpl in *. destruct n as [|n]; [reflexivity|].
  rewrite IH by lia. destruct n as [|n]; reflexivity.
Qed.
(** after a reset the offset filter computes y_n = x_n - x_(n-1) + 0.999 y_(n-1), with x_(-1) = y_(-1) = 0, and the preemphasis
    y_n = x_n - c x_(n-1) *)
Theorem C80_filters x c n : (n < List.length x)%nat ->
  let y := fst (dc_filter 0 x) in let p := fst (preemph c 0 x) in
  List.length y = List.length x /\ List.length p = List.length x /\
  nth n y 0 = nth n x 0 - (match n with O => 0 | S m => nth m x 0 end) + 999 / 1000 * (match n with O => 0 | S m => nth m y 0 end) /\
  nth n p 0 = nth n x 0 - c * (match n with O => 0 | S m => nth m x 0 end).
Proof.
  intros N y p. split; [apply lfilter_len|]. split; [apply lfilter_len|]. unfold y, p, dc_filter, preemph. split; rewrite lfilter_rec by exact N; destruct n; lra.
Qed.
(** a constant offset decays geometrically *)
Theorem C80_offset k n v : (n < k)%nat -> nth n (fst (dc_filter 0 (repeat v k))) 0 = v * (999 / 1000) ^ n.
Proof.
  intros N. set (y := fst (dc_filter 0 (repeat v k))). assert (R : forall m, (m < k)%nat -> nth m (repeat v k) 0 = v). { intros m M. rewrite (nth_indep _ 0 v) by (rewrite repeat_length; exact M). apply nth_repeat. }
  induction n as [|n IH]; destruct (C80_filters (repeat v k) 0 _ ltac:(rewrite repeat_length; exact N)) as (_ & _ & E & _); cbv zeta in E; fold y in E; rewrite E, !R by lia; [simpl; ring|].
  rewrite IH by lia. simpl. ring.
Qed.

(** ** The frames when the edges are kept (snip_edges = False) *)
Lemma round_div_near n s : (0 < s)%nat -> (2 * n <= 2 * round_div n s * s + s)%nat /\ (2 * round_div n s * s <= 2 * n + s)%nat.
Proof.
  intros S0. unfold round_div. pose proof (Nat.div_mod n s ltac:(lia)) as D. pose proof (Nat.mod_upper_bound n s ltac:(lia)) as M. set (q := (n / s)%nat) in *. set (r := (n mod s)%nat) in *.
  destruct (Nat.ltb_spec (2 * r) s); [split; nia|]. destruct (Nat.ltb_spec s (2 * r)); [split; nia|]. destruct (Nat.even q); split; nia.
Qed.
Lemma round_div_tie n s : (0 < s)%nat -> (2 * n = 2 * round_div n s * s + s)%nat \/ (2 * round_div n s * s = 2 * n + s)%nat -> Nat.even (round_div n s) = true.
Proof.
  intros S0. unfold round_div. pose proof (Nat.div_mod n s ltac:(lia)) as D. pose proof (Nat.mod_upper_bound n s ltac:(lia)) as M. set (q := (n / s)%nat) in *. set (r := (n mod s)%nat) in *.
  destruct (Nat.ltb_spec (2 * r) s); [intros [T|T]; exfalso; nia|]. destruct (Nat.ltb_spec s (2 * r)); [intros [T|T]; exfalso; nia|]. destruct (Nat.even q) eqn:E; intros _; [exact E|]. rewrite Nat.even_succ, <- Nat.negb_even, E. reflexivity.
Qed.
Lemma refl_bound n k : (0 < n)%nat -> (refl_index n k < n)%nat.
Proof.
  intros N. unfold refl_index. destruct n as [|[|n]]; [lia|lia|]. set (p := (2 * (Z.of_nat (S (S n)) - 1))%Z). pose proof (Z.mod_pos_bound k p ltac:(lia)) as B. destruct (Z.ltb_spec (k mod p) (Z.of_nat (S (S n)))); lia.
Qed.
(** the frame length is at least twice the shift: there are round(n/shift) frames (the nearest integer, ties to the even one), whatever the length n > 0 of the signal; the samples of the
    signal are kept, and outside of it the signal is mirrored *)
Theorem C80_edges L s noise x : (0 < s)%nat -> (2 * s <= L)%nat -> x <> [] ->
  exists y, prepare false L s 0 noise x = Ok y /\ num_frames (List.length y) L s = Ok (round_div (List.length x) s) /\
    (2 * List.length x <= 2 * round_div (List.length x) s * s + s)%nat /\ (2 * round_div (List.length x) s * s <= 2 * List.length x + s)%nat /\
    ((2 * List.length x = 2 * round_div (List.length x) s * s + s)%nat \/ (2 * round_div (List.length x) s * s = 2 * List.length x + s)%nat -> Nat.even (round_div (List.length x) s) = true) /\
    let d := ((L - s) / 2)%nat in
    (forall t, (t < List.length x)%nat -> (d + t < List.length y)%nat -> nth (d + t) y 0 = nth t x 0) /\
    (forall k, (k <= d)%nat -> (k < List.length x)%nat -> (d - k < List.length y)%nat -> nth (d - k) y 0 = nth k x 0).
Proof.
  intros S0 SL NE. set (n := List.length x). set (q := round_div n s). destruct (round_div_near n s S0) as [R1 R2]. fold q in R1, R2.
  unfold prepare. destruct (Nat.eqb_spec s 0); [lia|]. fold n. fold q. set (d1 := ((Z.of_nat L - Z.of_nat s) / 2)%Z). set (d := ((Z.of_nat q - 1) * Z.of_nat s + Z.of_nat L - Z.of_nat n)%Z).
  assert (D1 : d1 = Z.of_nat ((L - s) / 2)). { unfold d1. rewrite <- Nat2Z.inj_sub by lia. change 2%Z with (Z.of_nat 2). rewrite <- Nat2Z.inj_div. reflexivity. }
  pose proof (Nat.div_mod (L - s) 2 ltac:(lia)) as DM. pose proof (Nat.mod_upper_bound (L - s) 2 ltac:(lia)) as MB. set (h := ((L - s) / 2)%nat) in *.
  assert (D2 : (0 <= d - d1)%Z). { rewrite D1. unfold d. nia. }
  unfold pad_reflect. destruct (Z.ltb_spec d1 0); [lia|]. destruct (Z.ltb_spec (d - d1) 0); [lia|]. cbn [orb]. destruct x as [|v x']; [contradiction|]. fold n. set (X := v :: x') in *. cbn [bind].
  destruct (Rlt_dec 0 0); [lra|]. eexists. split; [reflexivity|]. rewrite map_length, seq_length.
  assert (LEN : Z.to_nat (d1 + Z.of_nat n + (d - d1)) = (q * s + (L - s))%nat). { unfold d. nia. }
  rewrite LEN. split; [|split; [exact R1|split; [exact R2|split; [exact (round_div_tie n s S0)|]]]].
  - destruct (proj1 (C79_num_frames (q * s + (L - s)) L s S0) ltac:(nia)) as (nf & E & N). rewrite E. f_equal.
    destruct (Nat.lt_trichotomy nf q) as [A|[A|A]]; [|exact A|]; exfalso.
    + assert (~ (nf < nf)%nat) as C by lia. apply C. apply N. nia.
    + pose proof (proj1 (N q) A). nia.
  - cbv zeta. assert (NN : forall t, (t < q * s + (L - s))%nat -> nth t (map (fun i => nth (refl_index n (Z.of_nat i - d1)) X 0) (seq 0 (q * s + (L - s)))) 0 = nth (refl_index n (Z.of_nat t - d1)) X 0).
    { intros t T. rewrite (nth_indep _ 0 (nth (refl_index n (Z.of_nat 0 - d1)) X 0)) by (rewrite map_length, seq_length; exact T). rewrite (map_nth (fun i => nth (refl_index n (Z.of_nat i - d1)) X 0)), seq_nth by exact T. reflexivity. }
    split.
    + intros t T B. rewrite NN by exact B. f_equal. rewrite D1. unfold refl_index. fold h. replace (Z.of_nat (h + t) - Z.of_nat h)%Z with (Z.of_nat t) by lia.
      destruct n as [|[|m]] eqn:EN; [lia|lia|]. rewrite Z.mod_small by lia. destruct (Z.ltb_spec (Z.of_nat t) (Z.of_nat (S (S m)))); lia.
    + intros k K T B. rewrite NN by exact B. f_equal. rewrite D1. unfold refl_index. fold h. replace (Z.of_nat (h - k) - Z.of_nat h)%Z with (- Z.of_nat k)%Z by lia.
      destruct n as [|[|m]] eqn:EN; [lia|lia|]. set (p := (2 * (Z.of_nat (S (S m)) - 1))%Z). destruct k as [|k].
      * change (- Z.of_nat 0)%Z with 0%Z. rewrite Z.mod_0_l by lia. reflexivity.
      * assert (EM : ((- Z.of_nat (S k)) mod p = p - Z.of_nat (S k))%Z) by (rewrite Z.mod_opp_l_nz; rewrite ?Z.mod_small; lia). rewrite EM. destruct (Z.ltb_spec (p - Z.of_nat (S k)) (Z.of_nat (S (S m)))); lia.
Qed.

(** ** Decisions *)
(** EnergyVAD without context: a frame is speech if its log-energy is above threshold + scale * mean *)
Theorem C80_decisions c (x : list (list R)) : v_context c = O -> (forall r, In r x -> r <> []) ->
  let e := map (fun r => hd 0 r) x in let thr := v_thr c + v_scale c * (Rsum e / INR (List.length x)) in
  exists v, vad_feats c x = Ok v /\ List.length v = List.length x /\ forall i, (i < List.length x)%nat -> (nth i v false = true <-> thr < nth i e 0).
Proof.
  intros C NE e thr. unfold vad_feats. assert (E : mapM (fun r => match r with [] => Err IndexError | v :: _ => Ok v end) x = Ok e).
  { unfold e. apply mapM_pure. intros r Hr. specialize (NE r Hr). destruct r; [contradiction|reflexivity]. }
  rewrite E. cbn [bind]. unfold decide. rewrite C. assert (LE : List.length e = List.length x) by (unfold e; apply map_length). unfold mean, odiv. rewrite LE.
  destruct (Req_EM_T (INR (List.length x)) 0) as [Z|Z].
  - assert (List.length x = O) as X by (apply INR_eq; exact Z). eexists. split; [reflexivity|]. rewrite map_length. split; [exact LE|]. rewrite X. intros; lia.
  - fold thr. eexists. split; [reflexivity|]. rewrite map_length. split; [exact LE|]. intros i I. rewrite (nth_indep _ false (if Rlt_dec thr 0 then true else false)) by (rewrite map_length; lia).
    rewrite (map_nth (fun e => if Rlt_dec thr e then true else false) e 0 i). destruct (Rlt_dec thr (nth i e 0)); split; intros; try assumption; try reflexivity; try discriminate; contradiction.
Qed.
(** if threshold + (scale - 1) * mean < 0, some frame is speech *)
Theorem C80_some_speech c x v : v_context c = O -> (forall r, In r x -> r <> []) -> x <> [] ->
  v_thr c + (v_scale c - 1) * (Rsum (map (fun r => hd 0 r) x) / INR (List.length x)) < 0 -> vad_feats c x = Ok v -> In true v.
Proof.
  intros C NE NX T E. destruct (C80_decisions c x C NE) as (v' & E' & L & H). rewrite E in E'. injection E' as <-. set (e := map (fun r => hd 0 r) x) in *. cbv zeta in H. set (n := List.length x) in *.
  assert (P : 0 < INR n) by (apply lt_0_INR; unfold n; destruct x; [contradiction|simpl; lia]). set (m := Rsum e / INR n) in *.
  assert (X : exists i, (i < n)%nat /\ m <= nth i e 0).
  { assert (LE : List.length e = n) by (unfold e; apply map_length). assert (G : forall l : list R, (forall i, (i < List.length l)%nat -> nth i l 0 < m) -> l <> [] -> Rsum l < m * INR (List.length l)).
    { clear. induction l as [|a l IH]; intros B N; [contradiction|]. pose proof (B 0%nat ltac:(simpl; lia)) as B0. cbn [nth] in B0. unfold Rsum in *. cbn [fold_right List.length]. rewrite S_INR. destruct l as [|b l]; [simpl; lra|].
      specialize (IH (fun i I => B (S i) ltac:(simpl in *; lia)) ltac:(discriminate)). lra. }
    destruct (Exists_dec (fun a => m <= a) e (fun a => Rle_dec m a)) as [D|D].
    - apply Exists_exists in D. destruct D as (a & A1 & A2). apply (In_nth _ _ 0) in A1. destruct A1 as (i & I1 & I2). exists i. split; [lia|]. rewrite I2. exact A2.
    - exfalso. assert (B : forall i, (i < List.length e)%nat -> nth i e 0 < m). { intros i I. apply Rnot_le_lt. intros Q. apply D. apply Exists_exists. exists (nth i e 0). split; [apply nth_In; exact I|exact Q]. }
      specialize (G e B). rewrite LE in G. assert (e <> []) as NE' by (unfold e; destruct x; [contradiction|discriminate]). specialize (G NE'). unfold m in G. replace (Rsum e / INR n * INR n) with (Rsum e) in G by (field; lra). lra. }
  destruct X as (i & I & XI). specialize (H i I). assert (nth i v false = true) as Q by (apply H; lra). rewrite <- Q. apply nth_In. lia.
Qed.
(** the documented smoothing over neighbouring frames never works *)
Theorem C80_context_refuted c x : v_context c <> O -> (forall r, In r x -> r <> []) -> vad_feats c x = Err NameError.
Proof.
  intros C NE. unfold vad_feats. assert (E : mapM (fun r => match r with [] => Err IndexError | v :: _ => Ok v end) x = Ok (map (fun r : list R => hd 0 r) x)).
  { apply mapM_pure. intros r Hr. specialize (NE r Hr). destruct r; [contradiction|reflexivity]. }
  rewrite E. cbn [bind]. unfold decide. destruct (v_context c); [contradiction|reflexivity].
Qed.
(** the decisions for a waveform depend on the waveforms seen before, unless [reset] is called: the same signal twice *)
Theorem C80_history_refuted noise : exists c x z v v' z', new_vad 1000 1 1 0 true 0 0 0 (6/10) = Ok c /\
  vad_wave c noise 0 x = Ok (v, z) /\ vad_wave c noise z x = Ok (v', z') /\ v <> v'.
Proof.
  unfold new_vad. destruct (Rlt_dec 0 0); [lra|]. change (0 <? 0)%Z with false. cbv iota. destruct (Rlt_dec 0 (6/10)); [|lra]. destruct (Rlt_dec (6/10) 1); [|lra].
  replace (1 * 1000 / 1000)%nat with 1%nat by reflexivity. change (Z.to_nat 0) with 0%nat.
  exists (mk_vad 1 1 0 true 0 0 0 (6/10)), [1], (-1 + 999/1000), [true], [false].
  assert (E : forall z, vad_wave (mk_vad 1 1 0 true 0 0 0 (6/10)) noise z [1] = Ok ([if Rlt_dec (0 + 0 * ((ln ((Rsqr (1 * 1 + z) + 0) + log_eps) + 0) / 1)) (ln ((Rsqr (1 * 1 + z) + 0) + log_eps)) then true else false], -1 * 1 - - (999/1000) * (1 * 1 + z))).
  { intros z. unfold vad_wave, prepare. cbn [v_s v_L v_dither v_snip Nat.eqb bind]. destruct (Rlt_dec 0 0); [lra|]. cbn [dc_filter lfilter].
    unfold st_logE, num_frames. cbn [List.length]. change ((Z.of_nat 1 - Z.of_nat 1 + Z.of_nat 1) / Z.of_nat 1)%Z with 1%Z. change (1 <? 0)%Z with false. cbv iota. cbn [bind]. change (Z.to_nat 1) with 1%nat. cbn [seq map]. unfold frame. cbn [skipn firstn map]. unfold Rsum. cbn [fold_right].
    change (0 * 1)%nat with 0%nat. cbn [skipn firstn map fold_right].
    unfold decide, mean, odiv. cbn [List.length]. change (INR 1) with 1. destruct (Req_EM_T 1 0); [lra|]. cbn [v_context v_thr v_scale map Rsum]. unfold Rsum. cbn [fold_right bind]. reflexivity. }
  assert (EP : 0 < log_eps < / 1000000). { unfold log_eps. split; [apply Rinv_0_lt_compat; apply pow_lt; lra|]. apply Rinv_lt_contravar; [|simpl; lra]. simpl. lra. }
  eexists. split; [reflexivity|]. split; [rewrite E; f_equal; f_equal; [|lra]|split; [rewrite E; f_equal; f_equal|discriminate]].
  - destruct (Rlt_dec _ _) as [A|A]; [reflexivity|]. exfalso. apply A. rewrite Rmult_0_l, Rplus_0_r. rewrite <- ln_1 at 1. apply ln_increasing; unfold Rsqr; lra.
  - destruct (Rlt_dec _ _) as [A|A]; [|reflexivity]. exfalso. rewrite Rmult_0_l, Rplus_0_r in A. rewrite <- ln_1 in A at 1. apply ln_lt_inv in A; unfold Rsqr in *; lra.
Qed.

(** ** Selection *)
(** frames and decisions may differ in number by at most tol; the frames of the common part marked as speech are kept, in order *)
Theorem C80_select {A} (tol : Z) (x : list A) sel d : (0 <= tol)%Z -> let n := List.length x in let m := List.length sel in
  select tol x sel = if (Z.abs (Z.of_nat n - Z.of_nat m) <=? tol)%Z then Ok (map (fun i => nth i x d) (filter (fun i => nth i sel false) (seq 0 (Nat.min n m)))) else Err BareException.
Proof.
  intros T n m. assert (K : forall (x : list A) sel, List.length x = List.length sel -> keep x sel = map (fun i => nth i x d) (filter (fun i => nth i sel false) (seq 0 (List.length x)))).
  { clear. intros x. unfold keep. induction x as [|a x IH]; intros [|b sel] L; simpl in *; try discriminate; [reflexivity|]. rewrite <- seq_shift. specialize (IH sel ltac:(lia)).
    assert (G : map (fun i => nth i (a :: x) d) (filter (fun i => nth i (b :: sel) false) (map S (seq 0 (List.length x)))) = map (fun i => nth i x d) (filter (fun i => nth i sel false) (seq 0 (List.length x)))).
    { generalize (seq 0 (List.length x)) as l. induction l as [|i l IHl]; [reflexivity|]. cbn [map filter nth]. destruct (nth i sel false); [exact (f_equal (cons (nth i x d)) IHl)|exact IHl]. }
    destruct b; simpl in *; rewrite G, IH; reflexivity. }
  assert (F1 : forall (l : list A) k i, (i < k)%nat -> nth i (firstn k l) d = nth i l d).
  { clear. induction l as [|a l IH]; intros k i I; [rewrite firstn_nil; reflexivity|]. destruct k; [lia|]. destruct i; [reflexivity|]. simpl. apply IH. lia. }
  assert (F2 : forall (l : list bool) k i, (i < k)%nat -> nth i (firstn k l) false = nth i l false).
  { clear. induction l as [|a l IH]; intros k i I; [rewrite firstn_nil; reflexivity|]. destruct k; [lia|]. destruct i; [reflexivity|]. simpl. apply IH. lia. }
  unfold select. fold n m. destruct (Z.eqb_spec (Z.of_nat n) (Z.of_nat m)) as [E|E].
  - assert (n = m) as E' by lia. destruct (Z.leb_spec (Z.abs (Z.of_nat n - Z.of_nat m)) tol); [|lia]. rewrite K by exact E'. rewrite Nat.min_l by lia. reflexivity.
  - destruct (Z.ltb_spec (Z.of_nat m) (Z.of_nat n)) as [C|C].
    + destruct (Z.leb_spec (Z.of_nat n - Z.of_nat m) tol), (Z.leb_spec (Z.abs (Z.of_nat n - Z.of_nat m)) tol); try lia; [|reflexivity]. f_equal. rewrite K by (rewrite firstn_length; fold n m; lia).
      rewrite firstn_length. fold n. rewrite Nat.min_l, Nat.min_r by lia. apply map_ext_in. intros i I. apply filter_In in I. destruct I as [I _]. apply in_seq in I. apply F1. lia.
    + destruct (Z.leb_spec (Z.of_nat m - Z.of_nat n) tol), (Z.leb_spec (Z.abs (Z.of_nat n - Z.of_nat m)) tol); try lia; [|reflexivity]. f_equal. rewrite K by (rewrite firstn_length; fold n m; lia).
      fold n. rewrite Nat.min_l by lia. f_equal. apply filter_ext_in. intros i I. apply in_seq in I. apply F2. lia.
Qed.
(** a binary selector stored as integers 0 and 1 (as [to_bin_vad] returns it) picks rows 0 and 1 instead *)
Theorem C80_integer_selector_refuted : select_int 3 [10; 20; 30] [1; 0; 1]%Z = Ok [20; 10; 20].
Proof. reflexivity. Qed.
(** the option of the tolerance is never passed on: [filter_args] looks for options named by the letters of "tol_num_frames" *)
Theorem C80_filter_args_refuted {V} (kw : list (string * V)) : (forall e, In e kw -> (1 < String.length (fst e))%nat) -> selector_args kw = [].
Proof.
  intros H. unfold selector_args, filter_args. assert (G : forall l : list string, (forall k, In k l -> String.length k = 1%nat) -> concat (map (fun k => match find (fun e => String.eqb (fst e) k) kw with Some e => [(k, snd e)] | None => [] end) l) = []).
  { induction l as [|k l IH]; intros L; [reflexivity|]. simpl. rewrite IH by (intros; apply L; right; assumption). destruct (find _ kw) as [e|] eqn:F; [|reflexivity]. exfalso. apply find_some in F. destruct F as [F1 F2]. apply String.eqb_eq in F2. specialize (H e F1). rewrite F2, L in H by (left; reflexivity). lia. }
  apply G. unfold chars. intros k K. apply in_map_iff in K. destruct K as (c & <- & _). reflexivity.
Qed.
Example C80_witness : exists y, prepare false 4 2 0 (fun _ => []) [1; 2; 3; 4; 5] = Ok y /\ y = [2; 1; 2; 3; 4; 5] /\
  select 3 [10; 20; 30; 40] [true; false; true] = Ok [10; 30].
Proof.
  eexists. split; [unfold prepare; cbn [Nat.eqb List.length]; destruct (Rlt_dec 0 0); [lra|]; reflexivity|]. split; reflexivity.
Qed.
Print Assumptions C80_filters. Print Assumptions C80_edges. Print Assumptions C80_select. Print Assumptions C80_filter_args_refuted.
