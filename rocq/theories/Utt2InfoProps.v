(** Utt2Info: selection, splitting and look-up. *)
From Coq Require Import Lia Permutation Sorting.Sorted.
From Verif Require Import BaseFacts ListUtilsProofs ListUtilsProps ScpProofs ScpSplit TrialsProps SegmentsProps Utt2Info.
Open Scope list_scope.
Open Scope Z_scope.

(** ** Look-up: whatever sequence of look-ups, sorts and shuffles came before, get_index returns the position of the (last) row of the key. *)
Inductive op := OpIndex (k : string) | OpReorder (idx : list nat).
Inductive runs : u2i -> list op -> u2i -> Prop :=
| r_nil : forall o, runs o [] o
| r_index : forall o k ops o', runs (snd (u2i_get_index o k)) ops o' -> runs o (OpIndex k :: ops) o'
| r_reorder : forall o idx o1 ops o', Permutation idx (seq 0 (List.length (u_rows o))) -> u2i_reorder o idx = Ok o1 -> runs o1 ops o' -> runs o (OpReorder idx :: ops) o'.
Definition coherent (o : u2i) : Prop := match u_dict o with None => True | Some d => d = enum_from 0 (map fst (u_rows o)) end.
Lemma runs_coherent o ops o' : coherent o -> runs o ops o' -> coherent o' /\ Permutation (u_rows o') (u_rows o).
Proof.
  intros C R. induction R as [o|o k ops o' R IH|o idx o1 ops o' P E R IH]; [split; [exact C|reflexivity]| |].
  - apply IH. unfold coherent in *. cbn. destruct (u_dict o); [exact C|reflexivity].
  - unfold u2i_reorder in E. destruct (take (u_rows o) (map Z.of_nat idx)) as [rows|] eqn:T; [|discriminate]. injection E as <-. destruct (IH I) as (A & B). split; [exact A|]. rewrite B. cbn. apply (take_perm _ _ _ P T).
Qed.
Lemma dict_last_enum l : forall i k, dict_last (enum_from i l) k = match find (fun j => match nth_error l j with Some x => eqb k x | None => false end) (rev (seq 0 (List.length l))) with Some j => Some (i + Z.of_nat j) | None => None end.
Proof.
  intros i k. unfold dict_last. revert i. induction l as [|x l IH] using rev_ind; intros i; [reflexivity|].
  assert (E : forall l i, enum_from i (l ++ [x]) = enum_from i l ++ [(x, i + Z.of_nat (List.length l))]) by (induction l0 as [|y l0 IH0]; intros j; cbn; [rewrite Z.add_0_r; reflexivity|]; rewrite IH0; replace (j + 1 + Z.of_nat (List.length l0)) with (j + Z.of_nat (S (List.length l0))) by lia; reflexivity).
  rewrite E, rev_app_distr, app_length. cbn [List.length rev app find fst]. rewrite seq_app, rev_app_distr. cbn [seq rev app find Nat.add]. rewrite nth_error_app2, Nat.sub_diag by lia. cbn [nth_error]. destruct (eqb k x); [reflexivity|].
  rewrite IH. assert (F : forall q, (forall j, In j q -> (j < List.length l)%nat) -> find (fun j => match nth_error l j with Some y => eqb k y | None => false end) q = find (fun j => match nth_error (l ++ [x]) j with Some y => eqb k y | None => false end) q).
  { induction q as [|j q IHq]; intros H; [reflexivity|]. cbn. rewrite nth_error_app1 by (apply H; left; reflexivity). rewrite IHq by (intros a b; apply H; right; exact b). reflexivity. }
  rewrite F; [reflexivity|]. intros j I. apply in_rev in I. apply in_seq in I. lia.
Qed.
Theorem C60_get_index : forall rows ops o k, runs (u2i_new rows) ops o ->
  Permutation (u_rows o) rows /\
  match fst (u2i_get_index o k) with
  | Ok i => exists p info, i = Z.of_nat p /\ nth_error (u_rows o) p = Some (k, info) /\ forall q r, nth_error (u_rows o) q = Some r -> fst r = k -> (q <= p)%nat
  | Err e => e = KeyError /\ forall r, In r rows -> fst r <> k
  end.
Proof.
  intros rows ops o k R. destruct (runs_coherent _ _ _ (I : coherent (u2i_new rows)) R) as (C & P). cbn in P. split; [exact P|]. unfold u2i_get_index. cbn [fst].
  replace (match u_dict o with Some d => d | None => enum_from 0 (map fst (u_rows o)) end) with (enum_from 0 (map fst (u_rows o))) by (unfold coherent in C; destruct (u_dict o); [symmetry; exact C|reflexivity]). rewrite dict_last_enum.
  set (f := fun j => match nth_error (map fst (u_rows o)) j with Some x => eqb k x | None => false end).
  assert (Fs : forall j, f j = true <-> exists info, nth_error (u_rows o) j = Some (k, info)). { intros j. unfold f. rewrite nth_error_map. destruct (nth_error (u_rows o) j) as [[a b]|]; cbn; [|split; [discriminate|intros (? & ?); discriminate]]. rewrite eqb_eq. split; [intros ->; exists b; reflexivity|intros (? & E); injection E as -> _; reflexivity]. }
  assert (G : forall n, match find f (rev (seq 0 n)) with Some j => f j = true /\ (j < n)%nat /\ forall q, (q < n)%nat -> f q = true -> (q <= j)%nat | None => forall q, (q < n)%nat -> f q = false end).
  { induction n as [|n IH]; [intros q; lia|]. rewrite seq_S, rev_app_distr. cbn [rev app find Nat.add]. destruct (f n) eqn:E; [split; [exact E|split; [lia|intros q ? _; lia]]|]. destruct (find f (rev (seq 0 n))) as [j|].
    - destruct IH as (A & B & D). split; [exact A|]. split; [lia|]. intros q L F. destruct (Nat.eq_dec q n) as [->|N]; [congruence|]. apply D; [lia|exact F].
    - intros q L. destruct (Nat.eq_dec q n) as [->|N]; [exact E|]. apply IH. lia. }
  specialize (G (List.length (map fst (u_rows o)))). destruct (find f _) as [j|].
  - destruct G as (A & B & D). apply Fs in A. destruct A as (info & A). exists j, info. split; [lia|]. split; [exact A|]. intros q [a b] E K. cbn in K. subst a. apply D; [rewrite map_length; apply nth_error_Some; congruence|]. apply Fs. exists b. exact E.
  - split; [reflexivity|]. intros [a b] I K. cbn in K. subst a. apply (Permutation_in _ (Permutation_sym P)) in I. apply In_nth_error in I. destruct I as (q & E). assert (Lq : (q < List.length (map fst (u_rows o)))%nat) by (rewrite map_length; apply nth_error_Some; congruence). specialize (G q Lq). assert (f q = true) by (apply Fs; exists b; exact E). congruence.
Qed.

(** Every selection gives an object whose own lookups are right, whatever lookups were made on the original before. *)
Definition lookup_right (o : u2i) : Prop := forall k,
  match fst (u2i_get_index o k) with
  | Ok i => exists p info, i = Z.of_nat p /\ nth_error (u_rows o) p = Some (k, info) /\ forall q r, nth_error (u_rows o) q = Some r -> fst r = k -> (q <= p)%nat
  | Err e => e = KeyError /\ forall r, In r (u_rows o) -> fst r <> k
  end.
Theorem C60_lookup_after : forall o o1,
  (exists keys keep, u2i_filter o keys keep = Ok o1) \/ (exists vals keep, u2i_filter_info o vals keep = Ok o1) \/ (exists index keep, u2i_filter_index o index keep = Ok o1) \/
  (exists idx n g, u2i_split o idx n g = Ok o1) \/ (exists l, u2i_merge l = Ok o1) \/ (exists idx, u2i_reorder o idx = Ok o1) \/ (exists key info, u2i_create key info = Ok o1) ->
  lookup_right o1.
Proof.
  intros o o1 H. assert (N : o1 = u2i_new (u_rows o1)).
  { destruct H as [(a & b & H)|[(a & b & H)|[(a & b & H)|[(a & b & c & H)|[(a & H)|[(a & H)|(a & b & H)]]]]]].
    - unfold u2i_filter in H. destruct (loc_list _ _ _); [injection H as <-; reflexivity|discriminate].
    - unfold u2i_filter_info in H. destruct (forallb _ _); [|discriminate]. destruct (mask _ _); [injection H as <-; reflexivity|discriminate].
    - unfold u2i_filter_index in H. destruct (take _ _); [injection H as <-; reflexivity|discriminate].
    - unfold u2i_split in H. match type of H with bind ?e _ = _ => destruct e; [|discriminate] end. cbn [bind] in H. destruct (take _ _); [injection H as <-; reflexivity|discriminate].
    - unfold u2i_merge in H. destruct a; [discriminate|]. injection H as <-. reflexivity.
    - unfold u2i_reorder in H. destruct (take _ _); [injection H as <-; reflexivity|discriminate].
    - unfold u2i_create in H. destruct (_ =? _)%nat; [injection H as <-; reflexivity|discriminate]. }
  intros k. rewrite N. exact (proj2 (C60_get_index (u_rows o1) [] (u2i_new (u_rows o1)) k (r_nil _))).
Qed.

(** ** Access by key: the info of the key when it occurs once. When it occurs several times the first row is silently dropped. *)
Theorem C60_getitem : forall o k info, In (k, info) (u_rows o) -> NoDup (map fst (u_rows o)) -> u2i_getitem_key o k = Ok (Info info).
Proof.
  intros o k info I N. unfold u2i_getitem_key. assert (E : loc_rows fst (u_rows o) k = [(k, info)]); [|rewrite E; reflexivity]. unfold loc_rows. induction (u_rows o) as [|[a b] l IH]; [destruct I|]. cbn in N |- *. inversion N as [|? ? Na Nl]; subst. destruct I as [E|I].
  - injection E as -> ->. rewrite (proj2 (eqb_eq k k) eq_refl). f_equal. clear - Na. induction l as [|[a b] l IH]; [reflexivity|]. cbn in *. destruct (eqb a k) eqn:E; [apply eqb_eq in E; exfalso; apply Na; left; exact E|]. apply IH. intros X. apply Na. right. exact X.
  - destruct (eqb a k) eqn:E; [apply eqb_eq in E; subst a; exfalso; apply Na; apply (in_map fst) in I; exact I|]. apply IH; assumption.
Qed.
Theorem C60_getitem_missing : forall o k, (forall r, In r (u_rows o) -> fst r <> k) -> u2i_getitem_key o k = Err KeyError.
Proof. intros o k H. unfold u2i_getitem_key. destruct (loc_rows fst (u_rows o) k) as [|r l] eqn:E; [reflexivity|]. exfalso. assert (X : In r (loc_rows fst (u_rows o) k)) by (rewrite E; left; reflexivity). apply filter_In in X as (X1 & X2). apply eqb_eq in X2. exact (H r X1 X2). Qed.
Theorem C60_getitem_duplicate_refuted : u2i_getitem_key (u2i_new [("a", "x"); ("a", "y")]%string) "a"%string = Ok (Rows [("a", "y")]%string).
Proof. reflexivity. Qed.

(** ** Selection by keys *)
Theorem C60_filter : forall o keys, (forall k, In k keys -> exists r, In r (u_rows o) /\ fst r = k) ->
  exists o1, u2i_filter o keys true = Ok o1 /\ u_rows o1 = concat (map (fun k => filter (fun r => eqb (fst r) k) (u_rows o)) keys).
Proof. intros o keys H. unfold u2i_filter. rewrite (loc_list_ok fst _ _ H). eexists. split; reflexivity. Qed.
Theorem C60_filter_missing : forall o keys k, In k keys -> (forall r, In r (u_rows o) -> fst r <> k) -> u2i_filter o keys true = Err KeyError.
Proof. intros o keys k I H. unfold u2i_filter. rewrite (loc_list_missing fst _ _ k I H). reflexivity. Qed.
(** removing keys always succeeds and leaves exactly the rows of the other keys, but sorted by key *)
Theorem C60_filter_remove : forall o keys, exists o1, u2i_filter o keys false = Ok o1 /\
  Permutation (u_rows o1) (filter (fun r => negb (inb (fst r) keys)) (u_rows o)) /\
  Sorted.Sorted (fun r s => leb (fst r) (fst s) = true) (u_rows o1).
Proof.
  intros o keys. unfold u2i_filter. cbv zeta. set (ks := setdiff (map fst (u_rows o)) keys). assert (KI : forall k, In k ks <-> In k (map fst (u_rows o)) /\ ~ In k keys) by (intros k; apply setdiff_in).
  rewrite loc_list_ok by (intros k Hk; apply KI in Hk as (Hk & _); apply in_map_iff in Hk as (s & E & Hs); eauto). eexists. split; [reflexivity|]. cbn [u_rows u2i_new]. split.
  - etransitivity; [apply perm_loc; unfold ks, setdiff; apply NoDup_filter, unique_nodup|]. erewrite filter_ext_in; [reflexivity|]. intros s Hs. cbn beta. destruct (inb (fst s) keys) eqn:E.
    + apply inb_iff in E. destruct (inb (fst s) ks) eqn:E'; [|reflexivity]. apply inb_iff, KI in E' as (_ & X). contradiction.
    + cbn [negb]. apply inb_iff, KI. split; [apply in_map; exact Hs|]. intros X. apply inb_iff in X. congruence.
  - assert (S : StronglySorted (@slt string _) ks) by apply setdiff_sorted. apply StronglySorted_Sorted. clearbody ks. clear KI. induction S as [|k ks S IH F]; [constructor|]. cbn [map concat].
    assert (Q : forall a, (forall r, In r a -> fst r = k) -> forall b, StronglySorted (fun r s => leb (fst r) (fst s) = true) b -> (forall r, In r b -> leb k (fst r) = true) -> StronglySorted (fun r s : u2row => leb (fst r) (fst s) = true) (a ++ b)).
    { induction a as [|r a IHa]; intros Ha b Sb Hb; [exact Sb|]. cbn. constructor; [apply IHa; [intros x Ix; apply Ha; right; exact Ix|exact Sb|exact Hb]|]. apply Forall_forall. intros s Is. rewrite (Ha r (or_introl eq_refl)). apply in_app_or in Is. destruct Is as [Is|Is]; [rewrite (Ha s (or_intror Is)); destruct (leb_total k k); assumption|apply Hb; exact Is]. }
    apply Q; [|exact IH|].
    + intros r Ir. apply filter_In in Ir as (_ & Ir). apply eqb_eq in Ir. exact Ir.
    + intros r Ir. apply in_concat in Ir as (l & Il & Ir). apply in_map_iff in Il as (k' & <- & Ik). apply filter_In in Ir as (_ & Ir). apply eqb_eq in Ir. rewrite Ir. rewrite Forall_forall in F. apply (F k' Ik).
Qed.
(** ** Selection by info value: order kept, duplicates in the request irrelevant; removing never fails. *)
Theorem C60_filter_info : forall o vals,
  ((forall v, In v vals -> exists r, In r (u_rows o) /\ snd r = v) -> exists o1, u2i_filter_info o vals true = Ok o1 /\ u_rows o1 = filter (fun r => inb (snd r) vals) (u_rows o)) /\
  (forall v, In v vals -> (forall r, In r (u_rows o) -> snd r <> v) -> u2i_filter_info o vals true = Err BareException) /\
  (exists o2, u2i_filter_info o vals false = Ok o2 /\ u_rows o2 = filter (fun r => negb (inb (snd r) vals)) (u_rows o)).
Proof.
  intros o vals.
  assert (M : forall w, mask (fst (ismember (map snd (u_rows o)) w)) (u_rows o) = Ok (filter (fun r => inb (snd r) w) (u_rows o))). { intros w. rewrite ismember_mask, map_map. apply (mask_map_filter (fun r => inb (snd r) w)). }
  split; [|split].
  - intros H. unfold u2i_filter_info. cbv zeta. rewrite (proj2 (ismember_all vals (map snd (u_rows o)))) by (intros v Iv; destruct (H v Iv) as (r & Ir & <-); apply in_map; exact Ir). rewrite M. eexists. split; reflexivity.
  - intros v Iv H. unfold u2i_filter_info. cbv zeta. destruct (forallb (fun b => b) (fst (ismember vals (map snd (u_rows o))))) eqn:E; [|reflexivity]. exfalso. apply (proj1 (ismember_all _ _)) in E. specialize (E v Iv). apply in_map_iff in E. destruct E as (r & E & Ir). apply (H r Ir E).
  - unfold u2i_filter_info. cbv zeta. set (w := setdiff (map snd (u_rows o)) vals). assert (W : forall v, In v w <-> In v (map snd (u_rows o)) /\ ~ In v vals) by (intros v; apply setdiff_in). rewrite (proj2 (ismember_all w (map snd (u_rows o)))) by (intros v Iv; apply W in Iv; apply Iv). rewrite M. eexists. split; [reflexivity|]. cbn [u_rows u2i_new]. apply filter_ext_in. intros r Ir.
    destruct (inb (snd r) vals) eqn:E; cbn [negb].
    + apply inb_iff in E. apply inb_false. intros X. apply W in X. apply (proj2 X E).
    + apply inb_false in E. apply inb_iff. apply W. split; [apply in_map; exact Ir|exact E].
Qed.
(** ** Selection by position *)
Theorem C60_filter_index_remove : forall o index, exists o1, u2i_filter_index o index false = Ok o1 /\
  u_rows o1 = sel (map (fun p => negb (inb (Z.of_nat p) index)) (seq 0 (List.length (u_rows o)))) (u_rows o).
Proof.
  intros o index. unfold u2i_filter_index. cbv zeta. set (n := List.length (u_rows o)).
  assert (E : setdiff (arange 0 (Z.of_nat n)) index = map Z.of_nat (filter (fun p => negb (inb (Z.of_nat p) index)) (seq 0 n))).
  { unfold setdiff. rewrite arange_nat by lia. replace (Z.to_nat (Z.of_nat n - 0)) with n by lia. change (Z.to_nat 0) with 0%nat. rewrite unique_of_sorted.
    - generalize (seq 0 n). induction l as [|p l IH]; [reflexivity|]. cbn [map filter]. destruct (inb (Z.of_nat p) index); cbn [negb map]; rewrite IH; reflexivity.
    - generalize 0%nat. induction n as [|m IH]; intros s; [constructor|]. cbn. constructor; [apply IH|]. apply Forall_forall. intros y I. apply in_map_iff in I. destruct I as (p & <- & I). apply in_seq in I. unfold slt. split; [apply Z.leb_le; lia|lia]. }
  rewrite E. assert (T : take (u_rows o) (map Z.of_nat (filter (fun p => negb (inb (Z.of_nat p) index)) (seq 0 n))) = Ok (sel (map (fun p => negb (inb (Z.of_nat p) index)) (seq 0 n)) (u_rows o))).
  { apply take_nat_iff. unfold n. clear. assert (H : forall (pre l : list u2row), Forall2 (fun k x => nth_error (pre ++ l) k = Some x) (filter (fun p => negb (inb (Z.of_nat p) index)) (seq (List.length pre) (List.length l))) (sel (map (fun p => negb (inb (Z.of_nat p) index)) (seq (List.length pre) (List.length l))) l)).
    { intros pre l. revert pre. induction l as [|x l IH]; intros pre; [constructor|]. cbn [List.length seq filter map sel]. specialize (IH (pre ++ [x])). rewrite app_length in IH. cbn in IH. rewrite Nat.add_1_r, <- app_assoc in IH. cbn in IH. destruct (negb (inb (Z.of_nat (List.length pre)) index)); [|exact IH]. constructor; [|exact IH]. rewrite nth_error_app2, Nat.sub_diag by lia. reflexivity. }
    apply (H [] (u_rows o)). }
  rewrite T. eexists. split; reflexivity.
Qed.
(** ** Splitting: the parts in order are the whole table; grouped by info, no info value is in two parts. *)
Theorem C60_split : forall o P, 1 <= P -> exists parts, mapM (fun i => u2i_split o i P false) (arange 1 (P + 1)) = Ok parts /\ concat (map u_rows parts) = u_rows o /\
  (forall p q, In p parts -> In q parts -> Z.abs (Z.of_nat (List.length (u_rows p)) - Z.of_nat (List.length (u_rows q))) <= 1).
Proof.
  intros o P HP. destruct (C01_split_list_partitions _ (map fst (u_rows o)) P HP) as (kp & E & _ & C & T & B). rewrite map_length in C.
  assert (TA : take (u_rows o) (concat (map snd kp)) = Ok (u_rows o)) by (rewrite C, arange_nat by lia; replace (Z.to_nat (Z.of_nat (List.length (u_rows o)) - 0)) with (List.length (u_rows o)) by lia; apply take_seq).
  destruct (take_parts _ _ _ TA) as (rs & E1 & E2). exists (map u2i_new rs). split; [|split].
  - unfold u2i_split. rewrite (mapM_bind _ (fun p => rows <- take (u_rows o) (snd p);; Ok (u2i_new rows)) _ _ E). assert (E1' : mapM (fun p => take (u_rows o) (snd p)) kp = Ok rs) by (rewrite <- E1; clear; induction kp as [|p kp IH]; [reflexivity|]; cbn [mapM map]; rewrite IH; reflexivity). rewrite (mapM_bind (fun p => take (u_rows o) (snd p)) (fun rows => Ok (u2i_new rows)) _ _ E1'). apply mapM_pure. reflexivity.
  - rewrite map_map, map_id. exact E2.
  - intros p q Ip Iq. assert (LL : forall p, In p (map u2i_new rs) -> exists k, In k kp /\ List.length (u_rows p) = List.length (fst k)). { clear - E1 T. apply mapM_ok_iff in E1. remember (map snd kp) as locs eqn:El. revert kp El T. induction E1 as [|loc x locs rs E1 F IH]; intros kp El T p I; [destruct I|]. destruct kp as [|k kp]; [discriminate|]. cbn in El. injection El as -> El. destruct I as [<-|I].
      - exists k. split; [left; reflexivity|]. cbn. rewrite (take_length _ _ _ E1). rewrite (take_length _ _ _ (T k (or_introl eq_refl))). reflexivity.
      - destruct (IH kp El (fun q Iq => T q (or_intror Iq)) p I) as (k' & Ik & Lk). exists k'. split; [right; exact Ik|exact Lk]. }
    destruct (LL p Ip) as (k1 & I1 & ->). destruct (LL q Iq) as (k2 & I2 & ->). apply B; assumption.
Qed.
Theorem C60_split_group : forall o P, 1 <= P -> u_rows o <> [] -> exists parts, mapM (fun i => u2i_split o i P true) (arange 1 (P + 1)) = Ok parts /\
  Permutation (concat (map u_rows parts)) (u_rows o) /\
  (forall p r s, In p parts -> In r (u_rows p) -> In s (u_rows o) -> snd s = snd r -> In s (u_rows p)) /\
  (forall i j p q r s, nth_error parts i = Some p -> nth_error parts j = Some q -> In r (u_rows p) -> In s (u_rows q) -> snd r = snd s -> i = j).
Proof.
  intros o P HP N. set (key := map snd (u_rows o)). assert (Nk : key <> []) by (unfold key; destruct (u_rows o); [contradiction|discriminate]). destruct (C02_split_group_by_key_partitions string string _ key key Nk eq_refl P HP) as (kp & E & T & PM & SS & G & _). assert (Lk : List.length key = List.length (u_rows o)) by (unfold key; apply map_length). rewrite Lk in PM, G.
  assert (PN : exists idx, concat (map snd kp) = map Z.of_nat idx /\ Permutation idx (seq 0 (List.length (u_rows o)))).
  { rewrite arange_nat in PM by lia. replace (Z.to_nat (Z.of_nat (List.length (u_rows o)) - 0)) with (List.length (u_rows o)) in PM by lia. change (Z.to_nat 0) with 0%nat in PM. apply Permutation_map_inv in PM. destruct PM as (l & E1 & E2). exists l. split; [exact E1|symmetry; exact E2]. }
  destruct PN as (idx & EI & PI). assert (TA : exists r, take (u_rows o) (map Z.of_nat idx) = Ok r). { apply take_total. intros i Ii. apply (Permutation_in _ PI), in_seq in Ii. lia. }
  destruct TA as (r & TA). rewrite <- EI in TA. destruct (take_parts _ _ _ TA) as (rs & E1 & E2). exists (map u2i_new rs).
  assert (MP : mapM (fun i => u2i_split o i P true) (arange 1 (P + 1)) = Ok (map u2i_new rs)).
  { unfold u2i_split. fold key. rewrite (mapM_bind _ (fun p => rows <- take (u_rows o) (snd p);; Ok (u2i_new rows)) _ _ E). assert (E1' : mapM (fun p => take (u_rows o) (snd p)) kp = Ok rs) by (rewrite <- E1; clear; induction kp as [|p kp IH]; [reflexivity|]; cbn [mapM map]; rewrite IH; reflexivity). rewrite (mapM_bind (fun p => take (u_rows o) (snd p)) (fun rows => Ok (u2i_new rows)) _ _ E1'). apply mapM_pure. reflexivity. }
  split; [exact MP|]. rewrite EI in TA. split; [rewrite map_map, map_id, E2; apply (take_perm _ _ _ PI TA)|].
  assert (LK : forall j p, nth_error rs j = Some p -> exists k, nth_error kp j = Some k /\ take (u_rows o) (snd k) = Ok p).
  { clear - E1. intros j p. apply mapM_ok_iff in E1. remember (map snd kp) as locs eqn:El. revert kp El j. induction E1 as [|loc x locs rs E1 F IH]; intros kp El j Ej; [destruct j; discriminate|]. destruct kp as [|k kp]; [discriminate|]. cbn in El. injection El as -> El. destruct j as [|j]; [injection Ej as <-; exists k; split; [reflexivity|exact E1]|]. apply (IH kp El j Ej). }
  assert (POS : forall k p x, In k kp -> take (u_rows o) (snd k) = Ok p -> In x p -> exists i, In i (snd k) /\ get_item key i = Ok (snd x) /\ get_item (u_rows o) i = Ok x).
  { intros k p x _ Tk Ix. unfold take in Tk. apply mapM_ok_iff in Tk. induction Tk as [|i y l p Hy F IH]; [destruct Ix|]. destruct Ix as [->|Ix].
    - exists i. split; [left; reflexivity|]. split; [|exact Hy]. unfold key. rewrite get_item_map, Hy. reflexivity.
    - destruct (IH Ix) as (i' & A & B & C). exists i'. split; [right; exact A|]. auto. }
  assert (WHOLE : forall k p x s, In k kp -> take (u_rows o) (snd k) = Ok p -> In x p -> In s (u_rows o) -> snd s = snd x -> In s p /\ exists j, In j (snd k) /\ 0 <= j /\ get_item (u_rows o) j = Ok s).
  { intros k p x s Ik Tk Ix Is Es. destruct (POS k p x Ik Tk Ix) as (i & Ii & Ki & _). apply In_nth_error in Is. destruct Is as (j & Ej). assert (Lj : (j < List.length (u_rows o))%nat) by (apply nth_error_Some; congruence).
    assert (Gj : get_item (u_rows o) (Z.of_nat j) = Ok s) by (apply get_item_nat; exact Ej). assert (Kj : get_item key (Z.of_nat j) = Ok (snd x)) by (unfold key; rewrite get_item_map, Gj; cbn; rewrite Es; reflexivity).
    specialize (G k i (Z.of_nat j) (snd x) Ik Ii Ki Kj ltac:(lia)). split; [|exists (Z.of_nat j); split; [exact G|split; [lia|exact Gj]]]. clear - G Gj Tk. unfold take in Tk. apply mapM_ok_iff in Tk. induction Tk as [|i y l p Hy F IH]; [destruct G|]. destruct G as [->|G]; [left; congruence|right; apply IH; exact G]. }
  split.
  - intros p x s Ip Ix Is Es. apply in_map_iff in Ip. destruct Ip as (p' & <- & Ip). cbn [u_rows u2i_new] in *. apply In_nth_error in Ip. destruct Ip as (j & Ej). destruct (LK j p' Ej) as (k & Ek & Tk). apply (WHOLE k p' x s (nth_error_In _ _ Ek) Tk Ix Is Es).
  - intros i j p q x s Ei Ej Ix Is Es. rewrite nth_error_map in Ei, Ej. destruct (nth_error rs i) as [p'|] eqn:Ri; [|discriminate]. destruct (nth_error rs j) as [q'|] eqn:Rj; [|discriminate]. injection Ei as <-. injection Ej as <-. cbn [u_rows u2i_new] in *. destruct (LK i p' Ri) as (k1 & K1 & T1). destruct (LK j q' Rj) as (k2 & K2 & T2).
    destruct (POS k2 q' s (nth_error_In _ _ K2) T2 Is) as (a & Ia & Ka & Ga). assert (Is' : In s (u_rows o)) by (apply (ScpHist.take_in _ _ _ s T2 Is)).
    destruct (POS k1 p' x (nth_error_In _ _ K1) T1 Ix) as (b & Ib & Kb & _). assert (La : 0 <= a < Z.of_nat (List.length (u_rows o))). { assert (Q : In a (concat (map snd kp))) by (apply in_concat; exists (snd k2); split; [apply in_map, (nth_error_In _ _ K2)|exact Ia]). rewrite EI in Q. apply in_map_iff in Q. destruct Q as (m & <- & Q). apply (Permutation_in _ PI), in_seq in Q. lia. }
    assert (I1 : In a (snd k1)) by (apply (G k1 b a (snd x) (nth_error_In _ _ K1) Ib Kb); [rewrite Ka, Es; reflexivity|exact La]).
    assert (ND : NoDup (concat (map snd kp))). { rewrite EI. apply FinFun.Injective_map_NoDup; [intros u v; lia|]. apply (Permutation_NoDup (Permutation_sym PI)), seq_NoDup. }
    clear - ND K1 K2 I1 Ia. revert kp ND K1 K2. revert j. induction i as [|i IH]; intros [|j] [|k kp] ND K1 K2; try discriminate; [reflexivity| | |]; cbn in ND.
    + injection K1 as ->. exfalso. idtac. assert (D : forall z, In z (snd k1) -> ~ In z (concat (map snd kp))). { clear - ND. revert ND. generalize (snd k1). intros u. induction u as [|y u IH]; intros ND z Iz; [destruct Iz|]. cbn in ND. inversion ND as [|? ? Ny Nu]; subst. destruct Iz as [<-|Iz]; [intros X; apply Ny, in_or_app; right; exact X|apply IH; assumption]. }
      apply (D a I1). apply in_concat. exists (snd k2). split; [cbn in K2; apply in_map, (nth_error_In _ _ K2)|exact Ia].
    + injection K2 as ->. exfalso. assert (D : forall z, In z (snd k2) -> ~ In z (concat (map snd kp))). { clear - ND. revert ND. generalize (snd k2). intros u. induction u as [|y u IH]; intros ND z Iz; [destruct Iz|]. cbn in ND. inversion ND as [|? ? Ny Nu]; subst. destruct Iz as [<-|Iz]; [intros X; apply Ny, in_or_app; right; exact X|apply IH; assumption]. }
      apply (D a Ia). apply in_concat. exists (snd k1). split; [cbn in K1; apply in_map, (nth_error_In _ _ K1)|exact I1].
    + f_equal. apply (IH j kp); [|exact K1|exact K2]. clear - ND. revert ND. generalize (snd k). intros u. induction u as [|y u IHu]; intros ND; [exact ND|]. cbn in ND. inversion ND; subst. apply IHu. assumption.
Qed.
Definition ex_u := u2i_new [("u3", "s1"); ("u1", "s2"); ("u2", "s1")]%string.
Example C60_witness : fst (u2i_get_index ex_u "u1"%string) = Ok 1 /\ u2i_filter ex_u ["u3"]%string false = Ok (u2i_new [("u1", "s2"); ("u2", "s1")]%string) /\
  u2i_split ex_u 1 2 true = Ok (u2i_new [("u3", "s1"); ("u2", "s1")]%string) /\ exists o, runs ex_u [OpIndex "u1"; OpReorder [1; 2; 0]; OpIndex "u3"]%string%nat o.
Proof. split; [reflexivity|]. split; [reflexivity|]. split; [reflexivity|]. eexists. apply r_index. eapply r_reorder; [|reflexivity|apply r_index, r_nil]. cbn. apply Permutation_sym. change [1; 2; 0]%nat with ([1; 2] ++ [0])%nat. apply Permutation_cons_append. Qed.
Print Assumptions C60_get_index. Print Assumptions C60_filter_remove. Print Assumptions C60_split_group.
