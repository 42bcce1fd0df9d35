(** C31, C32 continued: boundaries, creation, train/test parts, alignment, TrainValEvalList. *)
From Coq Require Import QArith Qround.
From Verif Require Import Folds TrialsProofs TrialsProps TrialsTextProofs ListUtilsProofs FoldsProofs FoldsProps.
Open Scope list_scope.
Open Scope Z_scope.

(** ** The boundaries *)

(** [b] is an integer nearest to [j * n / K] (halves may go either way) *)
Definition nearest (K n j : nat) (b : Z) : Prop :=
  2 * Z.abs (Z.of_nat K * b - Z.of_nat j * Z.of_nat n) <= Z.of_nat K.

Lemma nearest_bounds K n b : (1 <= K)%nat -> (1 <= n)%nat -> (forall j, (j <= K)%nat -> nearest K n j (b j)) -> bounds b K (Z.of_nat n).
Proof.
  intros HK Hn H. unfold nearest in H. split; [|split].
  - specialize (H 0%nat ltac:(lia)). nia.
  - specialize (H K ltac:(lia)). assert (Z.of_nat K * (2 * Z.abs (b K - Z.of_nat n)) <= Z.of_nat K) by (rewrite <- (Z.abs_eq (Z.of_nat K)) at 1 by lia; nia). nia.
  - intros j Hj. pose proof (H j ltac:(lia)) as H1. pose proof (H (S j) ltac:(lia)) as H2. nia.
Qed.

(** Consecutive nearest boundaries enclose ⌊n/K⌋ or ⌈n/K⌉ groups. *)
Lemma nearest_size K n b j : (1 <= K)%nat -> (forall j, (j <= K)%nat -> nearest K n j (b j)) -> (j < K)%nat ->
  Z.of_nat n / Z.of_nat K <= b (S j) - b j <= (Z.of_nat n + Z.of_nat K - 1) / Z.of_nat K.
Proof.
  intros HK H Hj. pose proof (H j ltac:(lia)) as H1. pose proof (H (S j) ltac:(lia)) as H2. unfold nearest in H1, H2. clear H.
  rewrite Nat2Z.inj_succ in H2. revert H1 H2. generalize (b j) (b (S j)) (Z.of_nat j) (Z.of_nat n). intros x y m N H1 H2.
  assert (HK' : 1 <= Z.of_nat K) by lia. revert HK' H1 H2. generalize (Z.of_nat K). intros k Hk H1 H2. clear HK Hj K n b j.
  pose proof (Z.div_mod N k ltac:(lia)) as D. pose proof (Z.mod_pos_bound N k ltac:(lia)) as M. set (q := N / k) in *. set (r := N mod k) in *. clearbody q r. subst N.
  destruct (Z.eq_dec r 0) as [->|R].
  - assert (E : (k * q + 0 + k - 1) / k = q) by (symmetry; apply (Z.div_unique _ _ _ (k - 1)); lia). rewrite E.
    assert (x = m * q) by nia. assert (y = (m + 1) * q) by nia. subst. lia.
  - assert (E : (k * q + r + k - 1) / k = q + 1) by (symmetry; apply (Z.div_unique _ _ _ (r - 1)); lia). rewrite E.
    assert (k * (y - x) >= k * q + r - k) by nia. assert (k * (y - x) <= k * q + r + k) by nia. split; nia.
Qed.

Lemma round_half_even_near a b : 1 <= b -> 2 * Z.abs (b * round_half_even a b - a) <= b.
Proof.
  intros Hb. unfold round_half_even. cbv zeta. pose proof (Z.div_mod a b ltac:(lia)) as D. pose proof (Z.mod_pos_bound a b ltac:(lia)) as M.
  set (q := a / b) in *. set (r := a mod b) in *. clearbody q r. subst a.
  destruct (2 * r <? b) eqn:E1; [apply Z.ltb_lt in E1; lia|]. apply Z.ltb_ge in E1.
  destruct (b <? 2 * r) eqn:E2; [apply Z.ltb_lt in E2; lia|]. apply Z.ltb_ge in E2. destruct (Z.even q); lia.
Qed.

(** the boundaries of FoldList.create in exact arithmetic *)
Theorem C31_bound_nearest : forall K n j, (1 <= K)%nat -> nearest K n j (fold_bound K n j).
Proof. intros K n j HK. unfold nearest, fold_bound. apply round_half_even_near. lia. Qed.
Print Assumptions C31_bound_nearest.

(** ** Creation *)

Lemma fold_of_in folds x : In x folds -> exists p, (p < len folds)%nat /\ fold_of folds p = x.
Proof. intros H. apply In_nth_error in H as (p & Hp). exists p. split; [apply nth_error_Some; congruence|unfold fold_of; apply nth_error_nth; exact Hp]. Qed.
Lemma fold_of_nth folds p : (p < len folds)%nat -> nth_error folds p = Some (fold_of folds p).
Proof. intros H. unfold fold_of. apply nth_error_nth'. exact H. Qed.

Lemma kept_mask {A} (m : list bool) (l : list A) r : len m = len l -> Base.mask m l = Ok r -> forall x, In x r <-> exists p, nth_error l p = Some x /\ nth p m false = true.
Proof.
  intros L E x. unfold Base.mask in E. rewrite L, Nat.eqb_refl in E. injection E as <-. revert l L. induction m as [|b m IH]; intros [|y l] L; try discriminate L; cbn [sel].
  - split; [intros []|]. intros ([|p] & E & _); discriminate E.
  - injection L as L. specialize (IH l L). destruct b; cbn [In]; rewrite IH; split.
    + intros [->|(p & E & N)]; [exists 0%nat; split; reflexivity|exists (S p); split; assumption].
    + intros ([|p] & E & N); cbn in E, N; [left; congruence|right; eauto].
    + intros (p & E & N); exists (S p); split; assumption.
    + intros ([|p] & E & N); cbn in E, N; [discriminate|eauto].
Qed.

Lemma fold_max l K : (1 <= K)%nat -> (forall x, In x l -> -1 <= x < Z.of_nat K) -> In (Z.of_nat K - 1) l -> fold_right Z.max (-1) l = Z.of_nat K - 1.
Proof. intros HK B H. pose proof (max_le l _ H). destruct (max_in l) as [E|E]; [lia|]. apply B in E. lia. Qed.

Lemma uniq_count l K : (forall x, In x l <-> 0 <= x < Z.of_nat K) -> len (unique l) = K.
Proof.
  intros H. rewrite <- (seq_length K 0), <- (map_length Z.of_nat). apply nodup_len_ext; [apply unique_nodup| |].
  - apply (NoDup_map_inv Z.to_nat). rewrite map_map. erewrite map_ext; [rewrite map_id; apply seq_NoDup|]. intros x. apply Nat2Z.id.
  - intros x. rewrite unique_in, H, in_map_iff. split; [intros Hx; exists (Z.to_nat x); split; [lia|apply in_seq; lia]|intros (y & <- & Hy); apply in_seq in Hy; lia].
Qed.

Lemma nonempty_len {A} (l : list A) : l <> [] <-> (1 <= len l)%nat.
Proof. destruct l; cbn; split; try congruence; try lia; intros _; discriminate. Qed.

Lemma keptb_in {A} m (l : list A) p : fits (len l) (Some m) -> nth p m false = true -> (p < len l)%nat.
Proof. intros F H. cbn in F. destruct (le_lt_dec (len l) p) as [L|L]; [|exact L]. rewrite nth_overflow in H by lia. discriminate. Qed.

Lemma filter_len_le {A} (f : A -> bool) l : (len (filter f l) <= len l)%nat.
Proof. induction l as [|x l IH]; cbn; [lia|]. destruct (f x); cbn; lia. Qed.

(** validate accepts exactly when the folds in use are 0, 1, ..., max *)
Lemma folds_new_ok fold key mask : fold <> [] -> len key = len fold -> fits (len fold) mask ->
  folds_new fold key mask =
  if Z.of_nat (len (unique (filter (fun f => 0 <=? f) fold))) =? fold_right Z.max (-1) fold + 1 then Ok (mk_folds fold key mask) else Err AssertionError.
Proof.
  intros NE L F. unfold folds_new. rewrite L, Nat.eqb_refl. cbn [assert bind]. assert (E : np_max fold = Ok (fold_right Z.max (-1) fold)) by (destruct fold; [congruence|reflexivity]).
  rewrite E. cbn [bind]. destruct (_ =? _); [|reflexivity]. cbn [assert bind].
  destruct mask as [m|]; [|reflexivity]. cbn in F. rewrite F, Nat.eqb_refl. reflexivity.
Qed.

(** FoldList.create: if some class keeps at least K groups, creation succeeds, no fold is empty and the
    folds have the properties of C31_assign; inside each label the folds have ⌊n/K⌋ or ⌈n/K⌉ groups.
    [bd] is any rounding to a nearest integer (FoldsFloat.v: binary64 is one). *)
Theorem C31_create : forall bd K segs balance group mask shuf, (1 <= K)%nat -> segs <> [] ->
  fits (len segs) balance -> fits (len segs) group -> fits (len segs) mask ->
  no_class_masked (len segs) balance mask -> shuffles_ok segs balance group mask shuf ->
  (forall n j, (1 <= n <= len segs)%nat -> (j <= K)%nat -> nearest K n j (bd n j)) ->
  (exists l, In l (labels (len segs) balance) /\ (K <= len (groups_where segs group (class_of balance mask l)))%nat) ->
  exists o, folds_create bd K segs balance group mask shuf = Ok o /\ f_key o = segs /\ f_mask o = mask /\ len (f_fold o) = len segs /\
    (forall p, (p < len segs)%nat -> keptb mask p = true -> 0 <= fold_of (f_fold o) p < Z.of_nat K) /\
    (forall p, (p < len segs)%nat -> keptb mask p = false -> fold_of (f_fold o) p = -1) /\
    (forall j, 0 <= j < Z.of_nat K -> exists p, (p < len segs)%nat /\ keptb mask p = true /\ fold_of (f_fold o) p = j) /\
    (forall p q, (p < len segs)%nat -> (q < len segs)%nat -> keptb mask p = true -> keptb mask q = true ->
       label balance p = label balance q -> group_of segs group p = group_of segs group q -> fold_of (f_fold o) p = fold_of (f_fold o) q) /\
    (forall l j, In l (labels (len segs) balance) -> (j < K)%nat ->
       let n := len (groups_where segs group (class_of balance mask l)) in
       let nj := len (groups_where segs group (fun p => class_of balance mask l p && (fold_of (f_fold o) p =? Z.of_nat j))) in
       Z.of_nat n / Z.of_nat K <= Z.of_nat nj <= (Z.of_nat n + Z.of_nat K - 1) / Z.of_nat K).
Proof.
  intros bd K segs balance group mask shuf HK NE Fb Fg Fm NM SH NR (l0 & Hl0 & G0).
  set (bd' := fun n j => if Nat.leb n (len segs) then bd n j else fold_bound K n j).
  assert (NR' : forall n j, (j <= K)%nat -> (1 <= n)%nat -> nearest K n j (bd' n j)).
  { intros n j Hj Hn. unfold bd'. destruct (Nat.leb n (len segs)) eqn:E; [apply NR; [apply Nat.leb_le in E; lia|exact Hj]|apply C31_bound_nearest; exact HK]. }
  assert (GL : forall P, (len (groups_where segs group P) <= len segs)%nat).
  { intros P. unfold groups_where. etransitivity; [apply (@NoDup_incl_length string _ (map (group_of segs group) (filter P (seq 0 (len segs)))) (unique_nodup _)); intros x; apply unique_in|].
    rewrite map_length. etransitivity; [apply filter_len_le|]. rewrite seq_length. lia. }
  assert (EQ : assign_parts bd K segs balance group mask shuf = assign_parts bd' K segs balance group mask shuf).
  { unfold assign_parts. cbv zeta. rewrite (bal_ok (len segs) balance mask Fb Fm). cbn [bind]. destruct (np_max _) as [mx|]; [|reflexivity]. cbn [bind].
    set (grp := match group with None => segs | Some g => g end). set (bal := bal_of (len segs) balance mask).
    assert (ST : forall fs i, class_step bd K (match shuf with None => None | Some f => Some (f i) end) bal grp i fs = class_step bd' K (match shuf with None => None | Some f => Some (f i) end) bal grp i fs).
    { intros fs i. unfold class_step. cbv zeta. destruct (take grp _) as [g|] eqn:TK; [|reflexivity]. cbn [bind]. destruct (np_max _) eqn:NMX; [|reflexivity]. cbn [bind].
      assert (gne : g <> []) by (intros ->; discriminate NMX). destruct (match match shuf with None => None | Some f => Some (f i) end with Some p => _ | None => _ end) as [gk|]; [|reflexivity]. cbn [bind]. f_equal.
      rewrite (ng_unique g gne). assert (LE : (len (unique g) <= len segs)%nat).
      { etransitivity; [apply (@NoDup_incl_length string _ g (unique_nodup _)); intros x; apply unique_in|]. apply take_length in TK. rewrite TK, map_length.
        assert (Lb : len bal = len segs) by (unfold bal, bal_of; rewrite map_length, seq_length; reflexivity).
        rewrite <- Lb, <- (seq_length (len bal) 0). apply NoDup_incl_length; [apply nonzero_nodup|]. intros x Hx. apply nonzero_in in Hx. rewrite nth_error_map in Hx. apply in_seq. split; [lia|]. cbn. apply nth_error_Some. destruct (nth_error bal x); [discriminate|discriminate Hx]. }
      unfold bd'. apply Nat.leb_le in LE. rewrite LE. reflexivity. }
    generalize (repeat (-1) (len segs)). induction (seq 0 (Z.to_nat (mx + 1))) as [|i is IH]; intros fs; cbn [foldM]; [reflexivity|]. rewrite ST. destruct (class_step bd' K _ bal grp i fs); [|reflexivity]. cbn [bind]. apply IH. }
  destruct (C31_assign bd' K segs balance group mask shuf NE Fb Fg Fm NM SH) as (folds & E & L & P1 & P2 & P3 & P4).
  { intros n Hn. apply nearest_bounds; [exact HK|exact Hn|]. intros j Hj. apply NR'; assumption. }
  assert (SZ : forall l j, In l (labels (len segs) balance) -> (j < K)%nat ->
       let n := len (groups_where segs group (class_of balance mask l)) in
       let nj := len (groups_where segs group (fun p => class_of balance mask l p && (fold_of folds p =? Z.of_nat j))) in
       Z.of_nat n / Z.of_nat K <= Z.of_nat nj <= (Z.of_nat n + Z.of_nat K - 1) / Z.of_nat K).
  { intros l j Hl Hj n nj. destruct (P4 l j Hl Hj) as (Pn & Pj). unfold nj. rewrite Pj. apply nearest_size; [exact HK| |exact Hj]. intros j' Hj'. apply NR'; [exact Hj'|exact Pn]. }
  assert (US : forall j, 0 <= j < Z.of_nat K -> exists p, (p < len segs)%nat /\ keptb mask p = true /\ fold_of folds p = j).
  { intros j Hj. destruct (SZ l0 (Z.to_nat j) Hl0 ltac:(lia)) as (S1 & _). set (G := groups_where segs group (fun p => class_of balance mask l0 p && (fold_of folds p =? Z.of_nat (Z.to_nat j)))) in *.
    assert (1 <= Z.of_nat (len (groups_where segs group (class_of balance mask l0))) / Z.of_nat K) by (apply Z.div_le_lower_bound; lia).
    assert (NG : G <> []) by (apply nonempty_len; lia). destruct G as [|g G'] eqn:EG; [congruence|]. assert (IG : In g G) by (rewrite EG; left; reflexivity). unfold G in IG. apply unique_in, in_map_iff in IG as (p & _ & Hp).
    apply filter_In in Hp as (Hp & C). apply in_seq in Hp. apply andb_true_iff in C as (C1 & C2). unfold class_of in C1. apply andb_true_iff in C1 as (C1 & _). apply Z.eqb_eq in C2. exists p. split; [lia|]. split; [exact C1|lia]. }
  assert (RG : forall x, In x folds -> -1 <= x < Z.of_nat K).
  { intros x Hx. apply fold_of_in in Hx as (p & Lp & <-). rewrite L in Lp. destruct (keptb mask p) eqn:Kp; [specialize (P1 p Lp Kp); lia|rewrite (P2 p Lp Kp); lia]. }
  assert (INF : forall j, 0 <= j < Z.of_nat K -> In j folds).
  { intros j Hj. destruct (US j Hj) as (p & Lp & _ & <-). apply (nth_error_In _ p), fold_of_nth. lia. }
  exists (mk_folds folds segs mask). cbn [f_fold f_key f_mask]. split.
  { unfold folds_create. rewrite EQ, E. cbn [bind].
    assert (CK : match mask with None => assert (forallb (fun f => 0 <=? f) folds) | Some m => fm <- Base.mask m folds ;; assert (forallb (fun f => 0 <=? f) fm) end = Ok tt).
    { destruct mask as [m|].
      - destruct (Base.mask m folds) as [fm|] eqn:EM; [|exfalso; unfold Base.mask in EM; cbn in Fm; rewrite Fm, L, Nat.eqb_refl in EM; discriminate]. cbn [bind].
        assert (FA : forallb (fun f => 0 <=? f) fm = true); [|rewrite FA; reflexivity]. apply forallb_forall. intros x Hx. apply (kept_mask m folds fm ltac:(cbn in Fm; congruence) EM) in Hx as (p & Np & Kp).
        apply Z.leb_le. assert (Lp : (p < len segs)%nat) by (rewrite <- L; apply nth_error_Some; congruence). specialize (P1 p Lp Kp). rewrite (fold_of_nth folds p) in Np by lia. injection Np as Np. lia.
      - assert (FA : forallb (fun f => 0 <=? f) folds = true); [|rewrite FA; reflexivity]. apply forallb_forall. intros x Hx. apply fold_of_in in Hx as (p & Lp & <-). apply Z.leb_le. rewrite L in Lp. specialize (P1 p Lp eq_refl). lia. }
    rewrite CK. cbn [bind]. rewrite folds_new_ok; [|intros ->; destruct segs; [congruence|discriminate L]|symmetry; exact L|rewrite L; exact Fm].
    rewrite (fold_max folds K HK RG (INF (Z.of_nat K - 1) ltac:(lia))). rewrite (uniq_count _ K).
    - replace (Z.of_nat K =? Z.of_nat K - 1 + 1) with true by (symmetry; apply Z.eqb_eq; lia). reflexivity.
    - intros x. rewrite filter_In, Z.leb_le. split; [intros (Hx & Hx'); specialize (RG x Hx); lia|intros Hx; split; [apply INF; exact Hx|lia]]. }
  split; [reflexivity|]. split; [reflexivity|]. split; [exact L|]. split; [exact P1|]. split; [exact P2|]. split; [exact US|]. split; [exact P3|exact SZ].
Qed.
Print Assumptions C31_create.
