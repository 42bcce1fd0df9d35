(** C31, C32: cross-validation folds and train/validation/evaluation parts. *)
From Verif Require Import Folds TrialsProofs TrialsProps TrialsTextProofs FoldsProofs.
Open Scope list_scope.
Open Scope Z_scope.

(** ** Specification vocabulary: what the caller gave for segment number [p] *)
Definition keptb (mask : option (list bool)) (p : nat) : bool := match mask with None => true | Some m => nth p m false end.
Definition label (balance : option (list string)) (p : nat) : string := match balance with None => EmptyString | Some b => nth p b EmptyString end.
Definition group_of (segs : list string) (group : option (list string)) (p : nat) : string := nth p (match group with None => segs | Some g => g end) EmptyString.
Definition fits {A} (n : nat) (o : option (list A)) : Prop := match o with None => True | Some l => len l = n end.
(** the distinct groups among the positions below [n] that satisfy [P] *)
Definition groups_where (segs : list string) (group : option (list string)) (P : nat -> bool) : list string :=
  unique (map (group_of segs group) (filter P (seq 0 (len segs)))).
Definition class_of balance mask (l : string) (p : nat) : bool := keptb mask p && String.eqb (label balance p) l.
(** the labels in increasing order (class numbers) *)
Definition labels (n : nat) balance : list string := unique (map (label balance) (seq 0 n)).
Definition fold_of (folds : list Z) (p : nat) : Z := nth p folds (-1).

(** every label still has an unmasked segment *)
Definition no_class_masked (n : nat) balance mask : Prop :=
  forall p, (p < n)%nat -> exists q, (q < n)%nat /\ keptb mask q = true /\ label balance q = label balance p.

(** the shuffle of class number [i] is a permutation of its group numbers *)
Definition shuffles_ok segs balance group mask (shuf : option (nat -> list nat)) : Prop :=
  match shuf with
  | None => True
  | Some f => forall i l, nth_error (labels (len segs) balance) i = Some l ->
                Permutation (f i) (seq 0 (len (groups_where segs group (class_of balance mask l))))
  end.

(** ** Facts *)
Lemma filter_seq_len (f : nat -> bool) lo hi n : (lo <= hi <= n)%nat -> (forall k, f k = true <-> (lo <= k < hi)%nat) -> len (filter f (seq 0 n)) = (hi - lo)%nat.
Proof.
  intros H F. replace n with (lo + ((hi - lo) + (n - hi)))%nat by lia. rewrite seq_app, seq_app, !filter_app, !app_length, !Nat.add_0_l.
  assert (N : forall a c, (forall k, (a <= k < a + c)%nat -> f k = false) -> filter f (seq a c) = []).
  { intros a c. revert a. induction c as [|c IH]; intros a Hk; cbn; [reflexivity|]. rewrite Hk by lia. apply IH. intros k Hk'. apply Hk. lia. }
  assert (A : forall a c, (forall k, (a <= k < a + c)%nat -> f k = true) -> filter f (seq a c) = seq a c).
  { intros a c. revert a. induction c as [|c IH]; intros a Hk; cbn; [reflexivity|]. rewrite Hk by lia. f_equal. apply IH. intros k Hk'. apply Hk. lia. }
  rewrite (N 0%nat lo), (A lo (hi - lo)%nat), (N (lo + (hi - lo))%nat (n - hi)%nat); cbn [len]; rewrite ?seq_length; try lia; intros k Hk;
    first [apply F; lia | destruct (f k) eqn:E; [apply F in E; lia|reflexivity]].
Qed.

Lemma ix_self (gs : list string) : NoDup gs -> map (ix gs) gs = seq 0 (len gs).
Proof.
  intros N. apply nth_error_ext. intros i. rewrite nth_error_map. destruct (nth_error gs i) as [g|] eqn:E; cbn [option_map].
  - unfold ix. rewrite (index_of_nth gs i g N E). assert (i < len gs)%nat by (apply nth_error_Some; congruence).
    rewrite (nth_error_nth' (seq 0 (len gs)) 0%nat) by (rewrite seq_length; assumption). rewrite seq_nth by assumption. reflexivity.
  - symmetry. apply nth_error_None. rewrite seq_length. apply nth_error_None. exact E.
Qed.

Lemma rank_perm shuf gs : NoDup gs -> shuf_fits shuf (len gs) -> Permutation (map (rank shuf gs) gs) (seq 0 (len gs)).
Proof.
  intros N S. destruct shuf as [p|]; cbn [rank].
  - cbn in S. rewrite <- (map_map (ix gs) (fun k => nth k p 0%nat)), ix_self by exact N.
    assert (E : map (fun k => nth k p 0%nat) (seq 0 (len gs)) = p).
    { pose proof (Permutation_length S) as L. rewrite seq_length in L. rewrite <- L. clear. apply nth_error_ext. intros i. rewrite nth_error_map.
      destruct (nth_error p i) as [x|] eqn:E.
      - assert (i < len p)%nat by (apply nth_error_Some; congruence). rewrite (nth_error_nth' (seq 0 (len p)) 0%nat) by (rewrite seq_length; assumption).
        rewrite seq_nth by assumption. cbn. f_equal. apply nth_error_nth. exact E.
      - apply nth_error_None in E. replace (nth_error (seq 0 (len p)) i) with (@None nat); [reflexivity|]. symmetry. apply nth_error_None. rewrite seq_length. exact E. }
    rewrite E. exact S.
  - change (map (fun g => ix gs g) gs) with (map (ix gs) gs). rewrite ix_self by exact N. apply Permutation_refl.
Qed.

Lemma filter_len_map {X Y} (f : X -> Y) p l : len (filter (fun x => p (f x)) l) = len (filter p (map f l)).
Proof. induction l as [|x l IH]; cbn; [reflexivity|]. destruct (p (f x)); cbn; congruence. Qed.

Lemma filter_len_perm {X} (p : X -> bool) l l' : Permutation l l' -> len (filter p l) = len (filter p l').
Proof. induction 1; cbn; auto; [destruct (p x); cbn; congruence|destruct (p x), (p y); reflexivity|congruence]. Qed.

Lemma nodup_len_ext {X} (a b : list X) : NoDup a -> NoDup b -> (forall x, In x a <-> In x b) -> len a = len b.
Proof. intros Na Nb H. apply Permutation_length, NoDup_Permutation; assumption. Qed.

(** the internal class numbers *)
Definition bal_of (n : nat) balance mask : list Z :=
  map (fun p => if keptb mask p then Z.of_nat (ix (labels n balance) (label balance p)) else -1) (seq 0 n).

Lemma map_nth_seq {A B} (f : A -> B) (l : list A) d : map (fun p => f (nth p l d)) (seq 0 (len l)) = map f l.
Proof.
  apply nth_error_ext. intros i. rewrite !nth_error_map. destruct (nth_error l i) as [x|] eqn:E.
  - assert (i < len l)%nat by (apply nth_error_Some; congruence). rewrite (nth_error_nth' (seq 0 (len l)) 0%nat) by (rewrite seq_length; assumption).
    rewrite seq_nth by assumption. cbn. f_equal. f_equal. apply nth_error_nth. exact E.
  - apply nth_error_None in E. replace (nth_error (seq 0 (len l)) i) with (@None nat); [reflexivity|]. symmetry. apply nth_error_None. rewrite seq_length. exact E.
Qed.

Lemma label_in n balance p : (p < n)%nat -> In (label balance p) (labels n balance).
Proof. intros H. apply unique_in. apply in_map_iff. exists p. split; [reflexivity|]. apply in_seq. lia. Qed.

Lemma zip_seq {A B C} (f : A -> B -> C) (l : list A) (g : nat -> B) d : zip_with f l (map g (seq 0 (len l))) = map (fun p => f (nth p l d) (g p)) (seq 0 (len l)).
Proof.
  apply nth_error_ext. intros i. rewrite zip_with_nth, !nth_error_map. destruct (nth_error l i) as [x|] eqn:E.
  - assert (i < len l)%nat by (apply nth_error_Some; congruence). rewrite (nth_error_nth' (seq 0 (len l)) 0%nat) by (rewrite seq_length; assumption).
    rewrite seq_nth by assumption. cbn. f_equal. f_equal. symmetry. apply nth_error_nth. exact E.
  - apply nth_error_None in E. replace (nth_error (seq 0 (len l)) i) with (@None nat); [reflexivity|]. symmetry. apply nth_error_None. rewrite seq_length. exact E.
Qed.

Lemma bal_ok n balance mask : fits n balance -> fits n mask ->
  (match mask with
   | None => Ok (match balance with None => repeat 0 n | Some b => map Z.of_nat (inverse b) end)
   | Some m => if Nat.eqb (len m) (len (match balance with None => repeat 0 n | Some b => map Z.of_nat (inverse b) end))
               then Ok (zip_with (fun (b : bool) x => if b then x else -1) m (match balance with None => repeat 0 n | Some b => map Z.of_nat (inverse b) end)) else Err IndexError
   end) = Ok (bal_of n balance mask).
Proof.
  intros Fb Fm.
  assert (B : match balance with None => repeat 0 n | Some b => map Z.of_nat (inverse b) end = map (fun p => Z.of_nat (ix (labels n balance) (label balance p))) (seq 0 n)).
  { destruct balance as [b|].
    - cbn in Fb. subst n. unfold labels. assert (E : map (label (Some b)) (seq 0 (len b)) = b) by (rewrite <- (map_id b) at 3; apply (map_nth_seq (fun x => x))).
      rewrite E, inverse_ix, map_map. symmetry. apply (map_nth_seq (fun x => Z.of_nat (ix (unique b) x))).
    - rewrite <- (map_map (fun p => ix (labels n None) (label None p)) Z.of_nat).
      assert (Z0 : forall p, (p < n)%nat -> ix (labels n None) (label None p) = 0%nat).
      { intros p Hp. cbn [label]. destruct (labels n None) as [|u us] eqn:EL; [reflexivity|].
        assert (u = EmptyString). { assert (H : In u (labels n None)) by (rewrite EL; left; reflexivity). apply unique_in, in_map_iff in H as (q & <- & _). reflexivity. }
        subst u. reflexivity. }
      clear Fb Fm. rewrite map_map. apply nth_error_ext. intros i. rewrite nth_error_map. destruct (le_lt_dec n i) as [H|H].
      + rewrite (proj2 (nth_error_None (repeat 0 n) i)) by (rewrite repeat_length; lia). rewrite (proj2 (nth_error_None (seq 0 n) i)) by (rewrite seq_length; lia). reflexivity.
      + rewrite (nth_error_nth' (seq 0 n) 0%nat) by (rewrite seq_length; lia). rewrite seq_nth by lia. cbn [option_map]. rewrite Z0 by lia. rewrite (nth_error_nth' (repeat 0 n) 0) by (rewrite repeat_length; lia).
        f_equal. apply nth_repeat. }
  rewrite B. destruct mask as [m|]; [|reflexivity]. cbn in Fm. subst n. rewrite map_length, seq_length, Nat.eqb_refl. f_equal.
  rewrite (zip_seq _ m _ false). reflexivity.
Qed.

Lemma seq_nth_error n p : (p < n)%nat -> nth_error (seq 0 n) p = Some p.
Proof. intros H. rewrite (nth_error_nth' (seq 0 n) 0%nat) by (rewrite seq_length; exact H). rewrite seq_nth by exact H. reflexivity. Qed.

Lemma bal_nth n balance mask p : (p < n)%nat -> nth_error (bal_of n balance mask) p = Some (if keptb mask p then Z.of_nat (ix (labels n balance) (label balance p)) else -1).
Proof. intros H. unfold bal_of. rewrite nth_error_map, seq_nth_error by exact H. reflexivity. Qed.

Lemma max_le l : forall x, In x l -> x <= fold_right Z.max (-1) l.
Proof. induction l as [|y l IH]; cbn; intros x []; [subst; lia|]. specialize (IH x H). lia. Qed.
Lemma max_in l : fold_right Z.max (-1) l = -1 \/ In (fold_right Z.max (-1) l) l.
Proof. induction l as [|y l IH]; cbn; [auto|]. destruct (Z.max_spec y (fold_right Z.max (-1) l)) as [(_ & ->)|(_ & ->)]; [tauto|auto]. Qed.

Lemma class_groups_eq segs balance group mask i l : fits (len segs) group -> nth_error (labels (len segs) balance) i = Some l ->
  class_groups (bal_of (len segs) balance mask) (match group with None => segs | Some g => g end) i = groups_where segs group (class_of balance mask l).
Proof.
  intros Fg Hl. unfold class_groups, groups_where. apply unique_ext. intros g. rewrite !in_map_iff.
  assert (X : forall p, In p (nonzero (map (fun b => b =? Z.of_nat i) (bal_of (len segs) balance mask))) <-> In p (filter (class_of balance mask l) (seq 0 (len segs)))).
  { intros p. rewrite nonzero_in, nth_error_map, filter_In, in_seq. unfold class_of. destruct (le_lt_dec (len segs) p) as [H|H].
    - rewrite (proj2 (nth_error_None _ _)) by (unfold bal_of; rewrite map_length, seq_length; exact H). split; [discriminate|lia].
    - rewrite bal_nth by exact H. cbn [option_map]. destruct (keptb mask p); cbn [andb]; [|split; [intros E; injection E as E; destruct i; discriminate E|intros (_ & E); discriminate]].
      split.
      + intros E. injection E as E. apply Z.eqb_eq in E. split; [lia|]. apply String.eqb_eq. assert (ix (labels (len segs) balance) (label balance p) = i) by lia.
        pose proof (ix_nth _ _ (label_in (len segs) balance p H)) as N. congruence.
      + intros (_ & E). apply String.eqb_eq in E. f_equal. apply Z.eqb_eq. f_equal. subst l. unfold ix. rewrite (index_of_nth _ i (label balance p)); [reflexivity|apply unique_nodup|exact Hl]. }
  split; intros (p & E & Hp); exists p; (split; [exact E|apply X; exact Hp]).
Qed.

(** ** C31: the assignment *)

(** Every kept segment gets exactly one fold between 0 and K-1, masked ones get none; segments with the
    same label and the same group share their fold; inside each label, fold [j] has exactly
    [bd n (j+1) - bd n j] of the [n] groups. *)
Theorem C31_assign : forall bd K segs balance group mask shuf, segs <> [] ->
  fits (len segs) balance -> fits (len segs) group -> fits (len segs) mask ->
  no_class_masked (len segs) balance mask -> shuffles_ok segs balance group mask shuf ->
  (forall n, (1 <= n)%nat -> bounds (bd n) K (Z.of_nat n)) ->
  exists folds, assign_parts bd K segs balance group mask shuf = Ok folds /\ len folds = len segs /\
    (forall p, (p < len segs)%nat -> keptb mask p = true -> 0 <= fold_of folds p < Z.of_nat K) /\
    (forall p, (p < len segs)%nat -> keptb mask p = false -> fold_of folds p = -1) /\
    (forall p q, (p < len segs)%nat -> (q < len segs)%nat -> keptb mask p = true -> keptb mask q = true ->
       label balance p = label balance q -> group_of segs group p = group_of segs group q -> fold_of folds p = fold_of folds q) /\
    (forall l j, In l (labels (len segs) balance) -> (j < K)%nat ->
       let n := len (groups_where segs group (class_of balance mask l)) in
       (1 <= n)%nat /\
       Z.of_nat (len (groups_where segs group (fun p => class_of balance mask l p && (fold_of folds p =? Z.of_nat j)))) = bd n (S j) - bd n j).
Proof.
  intros bd K segs balance group mask shuf NE Fb Fg Fm NM SH BD. unfold assign_parts. cbv zeta.
  rewrite (bal_ok (len segs) balance mask Fb Fm). cbn [bind].
  set (n := len segs) in *. set (bal := bal_of n balance mask) in *. set (grp := match group with None => segs | Some g => g end).
  assert (NP : (0 < n)%nat) by (unfold n; destruct segs; [congruence|cbn; lia]).
  assert (LB : len bal = n) by (unfold bal, bal_of; rewrite map_length, seq_length; reflexivity).
  assert (LG : len grp = n) by (unfold grp; destruct group as [g|]; [exact Fg|reflexivity]).
  assert (MX : np_max bal = Ok (fold_right Z.max (-1) bal)) by (destruct bal; [cbn in LB; lia|reflexivity]).
  rewrite MX. cbn [bind]. set (mx := fold_right Z.max (-1) bal) in *.
  set (is := seq 0 (Z.to_nat (mx + 1))).
  assert (CI : forall i, In i is -> exists l, nth_error (labels n balance) i = Some l).
  { intros i Hi. apply in_seq in Hi. destruct (max_in bal) as [E|E]; fold mx in E; [lia|].
    apply In_nth_error in E as (p & Hp). assert (Lp : (p < n)%nat) by (rewrite <- LB; apply nth_error_Some; congruence).
    unfold bal in Hp. rewrite bal_nth in Hp by exact Lp. destruct (keptb mask p); [|injection Hp as Hp; lia]. injection Hp as Hp.
    pose proof (ix_nth _ _ (label_in n balance p Lp)) as N. destruct (nth_error (labels n balance) i) as [l|] eqn:X; [eauto|].
    exfalso. apply nth_error_None in X. assert (ix (labels n balance) (label balance p) < len (labels n balance))%nat by (apply nth_error_Some; congruence). lia. }
  assert (CB : forall i, In i is -> In (Z.of_nat i) bal).
  { intros i Hi. destruct (CI i Hi) as (l & Hl). assert (IL : In l (labels n balance)) by (eapply nth_error_In; exact Hl).
    apply unique_in, in_map_iff in IL as (p & El & Hp). apply in_seq in Hp. destruct (NM p ltac:(lia)) as (q & Lq & Kq & Eq).
    apply (nth_error_In bal q). unfold bal. rewrite bal_nth by exact Lq. rewrite Kq. f_equal. f_equal. rewrite Eq, El. unfold ix. rewrite (index_of_nth (labels n balance) i l (unique_nodup _) Hl). reflexivity. }
  assert (CG : forall i, In i is -> exists l, nth_error (labels n balance) i = Some l /\ class_groups bal grp i = groups_where segs group (class_of balance mask l)).
  { intros i Hi. destruct (CI i Hi) as (l & Hl). exists l. split; [exact Hl|]. apply class_groups_eq; assumption. }
  assert (GP : forall i, In i is -> (1 <= len (class_groups bal grp i))%nat).
  { intros i Hi. pose proof (CB i Hi) as Hb. apply In_nth_error in Hb as (p & Hp). unfold class_groups.
    assert (X : In (gname grp p) (unique (map (gname grp) (nonzero (map (fun b => b =? Z.of_nat i) bal))))).
    { apply unique_in, in_map, nonzero_in. rewrite nth_error_map, Hp. cbn. rewrite Z.eqb_refl. reflexivity. }
    destruct (unique (map (gname grp) (nonzero (map (fun b => b =? Z.of_nat i) bal)))); [destruct X|cbn; lia]. }
  destruct (classes_ok bd K shuf bal grp is (repeat (-1) n)) as (folds & E & L & P).
  { rewrite repeat_length. exact LB. } { rewrite repeat_length. exact LG. } { apply seq_NoDup. } { exact CB. }
  { intros i Hi. split; [|apply BD, GP; exact Hi]. destruct (CG i Hi) as (l & Hl & ->). unfold shuffles_ok in SH. destruct shuf as [f|]; cbn; [apply SH; exact Hl|exact I]. }
  exists folds. split; [exact E|]. rewrite repeat_length in L. split; [exact L|].
  assert (IS : forall p, (p < n)%nat -> keptb mask p = true -> In (ix (labels n balance) (label balance p)) is).
  { intros p Lp Kp. apply in_seq. assert (Hb : In (Z.of_nat (ix (labels n balance) (label balance p))) bal).
    { apply (nth_error_In bal p). unfold bal. rewrite bal_nth by exact Lp. rewrite Kp. reflexivity. }
    apply max_le in Hb. fold mx in Hb. lia. }
  assert (SF : forall i l, nth_error (labels n balance) i = Some l -> shuf_fits (shuf_at shuf i) (len (groups_where segs group (class_of balance mask l)))).
  { intros i l Hl. unfold shuffles_ok in SH. destruct shuf as [f|]; cbn; [apply SH; exact Hl|exact I]. }
  assert (FP : forall p, (p < n)%nat -> keptb mask p = true ->
    let gs := groups_where segs group (class_of balance mask (label balance p)) in
    exists j, (j < K)%nat /\ fold_of folds p = Z.of_nat j /\ bd (len gs) j <= Z.of_nat (rank (shuf_at shuf (ix (labels n balance) (label balance p))) gs (group_of segs group p)) < bd (len gs) (S j)).
  { intros p Lp Kp gs. destruct (P p) as (P1 & _). specialize (P1 _ (IS p Lp Kp)).
    destruct P1 as (j & Hj & Ej & Bj); [unfold bal; rewrite bal_nth by exact Lp; rewrite Kp; reflexivity|].
    exists j. split; [exact Hj|]. split; [unfold fold_of; apply nth_error_nth; exact Ej|].
    pose proof (ix_nth _ _ (label_in n balance p Lp)) as Nl. assert (CE : class_groups bal grp (ix (labels n balance) (label balance p)) = gs) by (apply class_groups_eq; assumption). rewrite CE in Bj. exact Bj. }
  split; [intros p Lp Kp; destruct (FP p Lp Kp) as (j & Hj & -> & _); lia|].
  split.
  { intros p Lp Kp. destruct (P p) as (_ & P2). unfold fold_of. apply nth_error_nth. rewrite P2.
    - rewrite (nth_error_nth' (repeat (-1) n) (-1)) by (rewrite repeat_length; exact Lp). f_equal. apply nth_repeat.
    - intros i Hi. unfold bal. rewrite bal_nth by exact Lp. rewrite Kp. intros Q. injection Q as Q. lia. }
  split.
  { intros p q Lp Lq Kp Kq El Eg. destruct (FP p Lp Kp) as (j & Hj & -> & Bj). destruct (FP q Lq Kq) as (j' & Hj' & -> & Bj').
    rewrite <- El, <- Eg in Bj'. f_equal. eapply bounds_uniq; [apply (BD (len (groups_where segs group (class_of balance mask (label balance p)))))|exact Hj|exact Hj'|exact Bj|exact Bj'].
    destruct (CG _ (IS p Lp Kp)) as (l & Hl & C). pose proof (ix_nth _ _ (label_in n balance p Lp)) as N. assert (l = label balance p) by congruence. subst l. rewrite <- C. apply GP, IS; assumption. }
  intros l j Hl Hj. pose proof Hl as Hl'. apply unique_in, in_map_iff in Hl as (p0 & El & Hp0). apply in_seq in Hp0. destruct (NM p0 ltac:(lia)) as (q & Lq & Kq & Eq). rewrite El in Eq.
  set (gs := groups_where segs group (class_of balance mask l)). cbv zeta.
  assert (Gpos : (1 <= len gs)%nat).
  { destruct (CG _ (IS q Lq Kq)) as (l' & Hl1 & C). pose proof (ix_nth _ _ (label_in n balance q Lq)) as N. assert (l' = l) by congruence. subst l'. unfold gs. rewrite <- C. apply GP, IS; assumption. }
  split; [exact Gpos|]. pose proof (BD (len gs) Gpos) as B. set (sh := shuf_at shuf (ix (labels n balance) l)).
  assert (Sgs : shuf_fits sh (len gs)) by (apply SF; apply ix_nth; exact Hl').
  assert (Ngs : NoDup gs) by apply unique_nodup.
  set (inr := fun k : nat => (bd (len gs) j <=? Z.of_nat k) && (Z.of_nat k <? bd (len gs) (S j))).
  assert (CNT : len (groups_where segs group (fun p => class_of balance mask l p && (fold_of folds p =? Z.of_nat j))) = len (filter (fun g => inr (rank sh gs g)) gs)).
  { apply nodup_len_ext; [apply unique_nodup|apply NoDup_filter; exact Ngs|]. intros g. rewrite filter_In. unfold groups_where at 1. rewrite unique_in, in_map_iff. split.
    - intros (p & Eg & Hp). apply filter_In in Hp as (Hp & C). apply in_seq in Hp. apply andb_true_iff in C as (C1 & C2). apply Z.eqb_eq in C2. pose proof C1 as C1'. unfold class_of in C1. apply andb_true_iff in C1 as (Kp & Lb). apply String.eqb_eq in Lb.
      split; [apply unique_in, in_map_iff; exists p; split; [exact Eg|]; apply filter_In; split; [apply in_seq; lia|exact C1']|].
      destruct (FP p ltac:(lia) Kp) as (j' & Hj' & Ef & Bf). rewrite Lb in Bf. fold gs sh in Bf. rewrite Eg in Bf. assert (j' = j) by lia. subst j'. unfold inr. apply andb_true_iff. split; [apply Z.leb_le; lia|apply Z.ltb_lt; lia].
    - intros (Hg & Hr). apply unique_in, in_map_iff in Hg as (p & Eg & Hp). exists p. split; [exact Eg|]. apply filter_In in Hp as (Hp & C). apply filter_In. split; [exact Hp|]. rewrite C. cbn [andb].
      apply in_seq in Hp. unfold class_of in C. apply andb_true_iff in C as (Kp & Lb). apply String.eqb_eq in Lb. destruct (FP p ltac:(lia) Kp) as (j' & Hj' & Ef & Bf). rewrite Lb in Bf. fold gs sh in Bf. rewrite Eg in Bf.
      unfold inr in Hr. apply andb_true_iff in Hr as (R1 & R2). apply Z.leb_le in R1. apply Z.ltb_lt in R2. assert (j' = j) by (eapply bounds_uniq; [exact B|exact Hj'|exact Hj|exact Bf|split; assumption]). subst j'. apply Z.eqb_eq. exact Ef. }
  rewrite CNT, (filter_len_map (rank sh gs) inr), (filter_len_perm inr _ _ (rank_perm sh gs Ngs Sgs)).
  pose proof (bounds_mono _ _ _ B 0 j ltac:(lia) ltac:(lia)) as M1. pose proof (bounds_mono _ _ _ B j (S j) ltac:(lia) ltac:(lia)) as M2. pose proof (bounds_mono _ _ _ B (S j) K ltac:(lia) ltac:(lia)) as M3.
  destruct B as (B0 & BK & _). rewrite B0 in M1. rewrite BK in M3.
  rewrite (filter_seq_len inr (Z.to_nat (bd (len gs) j)) (Z.to_nat (bd (len gs) (S j)))); [lia|lia|].
  intros k. unfold inr. rewrite andb_true_iff, Z.leb_le, Z.ltb_lt. lia.
Qed.
Print Assumptions C31_assign.
