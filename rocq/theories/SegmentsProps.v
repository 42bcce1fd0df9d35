(** C33: segments to frame masks; C53: selection and splitting of segment lists. *)
From Coq Require Import QArith Lqa.
From Verif Require Import Segments TrialsProofs ListUtilsProofs ListUtilsProps FoldsProofs FoldsProps FoldsProps2 FoldsProps3.
Open Scope list_scope.
Open Scope Z_scope.

(** ** C33 *)

Lemma slice_ix_in n i : 0 <= n -> 0 <= i -> slice_ix n i = Z.min n i.
Proof. intros H1 H2. unfold slice_ix. destruct (i <? 0) eqn:E; [apply Z.ltb_lt in E; lia|]. lia. Qed.

Lemma slice_set_length {A} (v : list A) a b x : len (slice_set v a b x) = len v.
Proof. unfold slice_set. cbv zeta. rewrite map_length, combine_length, seq_length. lia. Qed.

Lemma slice_set_nth {A} (v : list A) a b x p : 0 <= a -> 0 <= b -> (p < len v)%nat ->
  nth_error (slice_set v a b x) p = if (a <=? Z.of_nat p) && (Z.of_nat p <? b) then Some x else nth_error v p.
Proof.
  intros Ha Hb Hp. unfold slice_set. cbv zeta. rewrite nth_error_map, combine_seq_nth. rewrite !slice_ix_in by lia.
  destruct (nth_error v p) as [y|] eqn:E; [|apply nth_error_None in E; lia]. cbn [option_map fst snd Nat.add].
  assert (EQ : (Z.min (Z.of_nat (len v)) a <=? Z.of_nat p) && (Z.of_nat p <? Z.min (Z.of_nat (len v)) b) = (a <=? Z.of_nat p) && (Z.of_nat p <? b)).
  { destruct (a <=? Z.of_nat p) eqn:E1; destruct (Z.of_nat p <? b) eqn:E2; (apply Z.leb_le in E1 || apply Z.leb_gt in E1); (apply Z.ltb_lt in E2 || apply Z.ltb_ge in E2); cbn [andb].
    - apply andb_true_iff. split; [apply Z.leb_le; lia|apply Z.ltb_lt; lia].
    - apply andb_false_iff. right. apply Z.ltb_ge. lia.
    - apply andb_false_iff. left. apply Z.leb_gt. lia.
    - apply andb_false_iff. left. apply Z.leb_gt. lia. }
  rewrite EQ. clear EQ. destruct ((a <=? Z.of_nat p) && (Z.of_nat p <? b)); reflexivity.
Qed.

Lemma fills_vad (bs : list (Z * Z)) : (forall p, In p bs -> 0 <= fst p /\ 0 <= snd p + 1) -> forall v f, (f < len v)%nat ->
  len (fold_left (fun v p => slice_set v (fst p) (snd p + 1) 1) bs v) = len v /\
  nth_error (fold_left (fun v p => slice_set v (fst p) (snd p + 1) 1) bs v) f =
  if existsb (fun p => (fst p <=? Z.of_nat f) && (Z.of_nat f <=? snd p)) bs then Some 1 else nth_error v f.
Proof.
  induction bs as [|p bs IH]; intros B v f Hf; [split; reflexivity|]. cbn [fold_left existsb].
  destruct (B p ltac:(left; reflexivity)) as (B1 & B2).
  destruct (IH ltac:(intros q Hq; apply B; right; exact Hq) (slice_set v (fst p) (snd p + 1) 1) f ltac:(rewrite slice_set_length; exact Hf)) as (L & N).
  split; [rewrite L, slice_set_length; reflexivity|]. rewrite N, slice_set_nth by assumption.
  replace (Z.of_nat f <? snd p + 1) with (Z.of_nat f <=? snd p) by (destruct (Z.of_nat f <=? snd p) eqn:E; symmetry; [apply Z.ltb_lt; apply Z.leb_le in E; lia|apply Z.ltb_ge; apply Z.leb_gt in E; lia]).
  destruct (existsb _ bs); [rewrite orb_true_r; reflexivity|]. rewrite orb_false_r. reflexivity.
Qed.

(** the frame of a time is the nearest frame boundary (ties to even) *)
Theorem C33_frame_nearest : forall shift t, rounds_to (t * (1000 # shift)) (frame_of shift t).
Proof.
  intros shift t. unfold frame_of. pose proof (round_half_even_near (Qnum t * 1000) (Zpos (Qden t * shift)) ltac:(lia)) as N.
  pose proof (round_even_tie (Qnum t * 1000) (Zpos (Qden t * shift)) ltac:(lia)) as T. set (b := round_half_even _ _) in *. clearbody b.
  unfold rounds_to, Qle, Qeq, Qminus, Qplus, Qopp, Qmult, inject_Z. cbn [Qnum Qden]. rewrite !Pos2Z.inj_mul in *. split; [|split].
  - nia.
  - nia.
  - intros H. apply T. destruct H as [H|H]; nia.
Qed.
Print Assumptions C33_frame_nearest.

Lemma frame_mono shift a b : Qle a b -> frame_of shift a <= frame_of shift b.
Proof. intros H. unfold frame_of. apply round_mono; [lia|lia|]. unfold Qle in H. rewrite !Pos2Z.inj_mul. nia. Qed.
Lemma frame_nonneg shift t : Qle 0 t -> 0 <= frame_of shift t.
Proof. intros H. pose proof (frame_mono shift 0 t H) as M. assert (E : frame_of shift 0 = 0) by (unfold frame_of; cbn [Qnum Qden]; rewrite Z.mul_0_l; unfold round_half_even; rewrite Z.div_0_l, Z.mod_0_l by lia; reflexivity). lia. Qed.

(** A frame is 1 iff it lies between the first and the last frame (both included) of some segment of
    the file; every other frame is 0. *)
Theorem C33_to_bin_vad : forall o key shift nf, 0 <= nf ->
  (exists s, In s (sl_segs o) /\ sl_key (sl_by_file o) s = key) ->
  (forall s, In s (sl_segs o) -> sl_key (sl_by_file o) s = key -> Qle 0 (sg_tb s) /\ Qle (sg_tb s) (sg_te s)) ->
  exists v, to_bin_vad o key shift (Some nf) = Ok v /\ Z.of_nat (len v) = nf /\
  forall f, 0 <= f < nf ->
    (nth_error v (Z.to_nat f) = Some 1 /\ exists s, In s (sl_segs o) /\ sl_key (sl_by_file o) s = key /\ frame_of shift (sg_tb s) <= f <= frame_of shift (sg_te s)) \/
    (nth_error v (Z.to_nat f) = Some 0 /\ forall s, In s (sl_segs o) -> sl_key (sl_by_file o) s = key -> ~ frame_of shift (sg_tb s) <= f <= frame_of shift (sg_te s)).
Proof.
  intros o key shift nf Hn (s0 & I0 & K0) V. unfold to_bin_vad. set (rows := loc_rows (sl_key (sl_by_file o)) (sl_segs o) key).
  assert (RI : forall s, In s rows <-> In s (sl_segs o) /\ sl_key (sl_by_file o) s = key).
  { intros s. unfold rows, loc_rows. rewrite filter_In, eqb_eq. tauto. }
  assert (NE : rows <> []) by (intros E; assert (In s0 rows) by (apply RI; auto); rewrite E in *; assumption).
  destruct rows as [|r0 rs] eqn:ER; [congruence|]. rewrite <- ER in *. clear ER r0 rs. cbn [bind].
  destruct (nf <? 0) eqn:E0; [apply Z.ltb_lt in E0; lia|]. clear E0.
  set (tb := map (fun s => frame_of shift (sg_tb s)) rows). set (te := map (Z.min (nf - 1)) (map (fun s => frame_of shift (sg_te s)) rows)).
  assert (CB : combine tb te = map (fun s => (frame_of shift (sg_tb s), Z.min (nf - 1) (frame_of shift (sg_te s)))) rows).
  { unfold tb, te. rewrite map_map. clear. induction rows as [|r rows IH]; cbn; [reflexivity|]. rewrite IH. reflexivity. }
  rewrite CB. set (bs := map _ rows). set (v0 := repeat 0 (Z.to_nat nf)).
  assert (BS : forall p, In p bs -> 0 <= fst p /\ 0 <= snd p + 1).
  { intros p Hp. apply in_map_iff in Hp as (s & <- & Hs). apply RI in Hs as (Hs & Ks). destruct (V s Hs Ks) as (V1 & V2). cbn [fst snd]. pose proof (frame_nonneg shift _ V1). pose proof (frame_mono shift _ _ V2). lia. }
  assert (L0 : len v0 = Z.to_nat nf) by apply repeat_length.
  eexists. split; [reflexivity|]. split.
  - destruct (Nat.eq_dec (Z.to_nat nf) 0) as [Z0|NZ].
    + assert (EM : forall v : list Z, len v = 0%nat -> len (fold_left (fun v p => slice_set v (fst p) (snd p + 1) 1) bs v) = 0%nat).
      { clear. induction bs as [|p bs IH]; intros v Hv; [exact Hv|]. cbn. apply IH. rewrite slice_set_length. exact Hv. }
      rewrite EM by lia. lia.
    + destruct (fills_vad bs BS v0 0 ltac:(lia)) as (L & _). rewrite L. lia.
  - intros f Hf. destruct (fills_vad bs BS v0 (Z.to_nat f) ltac:(lia)) as (_ & N). rewrite N.
    destruct (existsb (fun p => (fst p <=? Z.of_nat (Z.to_nat f)) && (Z.of_nat (Z.to_nat f) <=? snd p)) bs) eqn:EX.
    + left. split; [reflexivity|]. apply existsb_exists in EX as (p & Hp & C). apply in_map_iff in Hp as (s & <- & Hs). cbn [fst snd] in C. apply andb_true_iff in C as (C1 & C2). apply Z.leb_le in C1, C2. apply RI in Hs as (Hs & Ks). exists s. split; [exact Hs|]. split; [exact Ks|lia].
    + right. split.
      * unfold v0. rewrite (nth_error_nth' (repeat 0 (Z.to_nat nf)) 0) by (rewrite repeat_length; lia). f_equal. apply nth_repeat.
      * intros s Hs Ks C. assert (X : existsb (fun p => (fst p <=? Z.of_nat (Z.to_nat f)) && (Z.of_nat (Z.to_nat f) <=? snd p)) bs = true); [|congruence].
        apply existsb_exists. eexists. split; [apply in_map; apply RI; split; eassumption|]. cbn [fst snd]. apply andb_true_iff. split; apply Z.leb_le; lia.
Qed.
Print Assumptions C33_to_bin_vad.

(** without a number of frames the mask stops at the end of the last listed segment, even when another
    segment of the file ends later *)
Theorem C33_default_length_refuted : exists o s v, In s (sl_segs o) /\ sg_file s = "f"%string /\ forallb (fun s => Qle_bool (sg_tb s) (sg_te s)) (sl_segs o) = true /\
  to_bin_vad o "f" 10 None = Ok v /\ Z.of_nat (len v) < frame_of 10 (sg_te s).
Proof.
  exists (mk_sl [mk_seg "a" "f" 0 (1 # 1); mk_seg "b" "f" (1 # 10) (2 # 10)] true), (mk_seg "a" "f" 0 (1 # 1)).
  eexists. split; [left; reflexivity|]. split; [reflexivity|]. split; [reflexivity|]. split; [vm_compute; reflexivity|]. vm_compute. reflexivity.
Qed.
Print Assumptions C33_default_length_refuted.
(** indexed by segment the default always fails *)
Theorem C33_default_by_segment_refuted : forall segs key shift s, In s segs -> sg_id s = key -> to_bin_vad (mk_sl segs false) key shift None = Err AttributeError.
Proof.
  intros segs key shift s Hs Ks. unfold to_bin_vad. cbn [sl_by_file sl_segs]. destruct (loc_rows (sl_key false) segs key) as [|r rs] eqn:E; [|reflexivity].
  exfalso. assert (H : In s (loc_rows (sl_key false) segs key)) by (unfold loc_rows; apply filter_In; split; [exact Hs|]; cbn [sl_key]; apply eqb_eq; exact Ks). rewrite E in H. destruct H.
Qed.
Print Assumptions C33_default_by_segment_refuted.

Example C33_witness : exists v, to_bin_vad (mk_sl [mk_seg "a" "f" (2 # 100) (5 # 100); mk_seg "b" "g" 0 1; mk_seg "c" "f" (1 # 100) (3 # 100)] true) "f" 10 (Some 8) = Ok v
  /\ v = [0; 1; 1; 1; 1; 1; 0; 0].
Proof. eexists. split; vm_compute; reflexivity. Qed.

(** ** C53: selection, splitting *)

Lemma filter_or_perm {A} (f g : A -> bool) l : (forall x, In x l -> f x && g x = false) -> Permutation (filter f l ++ filter g l) (filter (fun x => f x || g x) l).
Proof.
  induction l as [|x l IH]; intros H; cbn; [constructor|]. specialize (IH ltac:(intros y Hy; apply H; right; exact Hy)). pose proof (H x ltac:(left; reflexivity)) as Hx.
  destruct (f x), (g x); cbn in Hx |- *; try discriminate.
  - constructor. exact IH.
  - etransitivity; [symmetry; apply Permutation_middle|]. constructor. exact IH.
  - exact IH.
Qed.

Lemma perm_loc {A} (key : A -> string) rows ks : NoDup ks -> Permutation (concat (map (loc_rows key rows) ks)) (filter (fun r => inb (key r) ks) rows).
Proof.
  induction ks as [|k ks IH]; intros N; cbn.
  - induction rows; cbn; [constructor|assumption].
  - inversion N as [|? ? Nk N']; subst. etransitivity; [apply Permutation_app_head, IH; exact N'|]. unfold loc_rows at 1.
    etransitivity; [apply filter_or_perm|].
    + intros r _. destruct (eqb (key r) k) eqn:E; [|reflexivity]. apply eqb_eq in E. cbn [andb]. destruct (inb (key r) ks) eqn:I; [|reflexivity]. apply inb_iff in I. subst k. contradiction.
    + erewrite filter_ext; [reflexivity|]. intros r. reflexivity.
Qed.

Lemma loc_list_ok {A} (key : A -> string) rows ks : (forall k, In k ks -> exists r, In r rows /\ key r = k) -> loc_list key rows ks = Ok (concat (map (loc_rows key rows) ks)).
Proof.
  intros H. unfold loc_list. assert (M : mapM (fun k => match loc_rows key rows k with [] => Err KeyError | r => Ok r end) ks = Ok (map (loc_rows key rows) ks)).
  { induction ks as [|k ks IH]; [reflexivity|]. cbn [mapM map]. rewrite IH by (intros k' Hk'; apply H; right; exact Hk').
    destruct (H k ltac:(left; reflexivity)) as (r & Hr & Kr). destruct (loc_rows key rows k) as [|x l] eqn:E; [|reflexivity].
    exfalso. assert (X : In r (loc_rows key rows k)) by (unfold loc_rows; apply filter_In; split; [exact Hr|apply eqb_eq; exact Kr]). rewrite E in X. destruct X. }
  rewrite M. reflexivity.
Qed.

Lemma loc_list_missing {A} (key : A -> string) rows ks k : In k ks -> (forall r, In r rows -> key r <> k) -> loc_list key rows ks = Err KeyError.
Proof.
  intros Hk N. unfold loc_list. assert (M : mapM (fun k => match loc_rows key rows k with [] => Err KeyError | r => Ok r end) ks = Err KeyError).
  { induction ks as [|k' ks IH]; [destruct Hk|]. cbn [mapM]. destruct (loc_rows key rows k') as [|x l] eqn:E; [reflexivity|]. cbn [bind]. destruct Hk as [->|Hk].
    - exfalso. assert (X : In x (loc_rows key rows k)) by (rewrite E; left; reflexivity). unfold loc_rows in X. apply filter_In in X as (X1 & X2). apply eqb_eq in X2. exact (N x X1 X2).
    - rewrite (IH Hk). reflexivity. }
  rewrite M. reflexivity.
Qed.

Definition sl_ok (o : seg_list) : Prop := forall s, In s (sl_segs o) -> Qle (sg_tb s) (sg_te s).
Lemma sl_new_ok segs b : (forall s, In s segs -> Qle (sg_tb s) (sg_te s)) -> sl_new segs b = Ok (mk_sl segs b).
Proof. intros H. unfold sl_new. assert (E : forallb (fun s => Qle_bool (sg_tb s) (sg_te s)) segs = true) by (apply forallb_forall; intros s Hs; apply Qle_bool_iff, H; exact Hs). rewrite E. reflexivity. Qed.

(** Selecting by keys: exactly the rows of these keys (for distinct listed keys), or exactly the others;
    an unknown key is reported. *)
Theorem C53_filter : forall o keys, sl_ok o -> NoDup keys ->
  ((forall k, In k keys -> exists s, In s (sl_segs o) /\ sl_key (sl_by_file o) s = k) ->
   exists o1, sl_filter o keys true = Ok o1 /\ sl_by_file o1 = sl_by_file o /\ Permutation (sl_segs o1) (filter (fun s => inb (sl_key (sl_by_file o) s) keys) (sl_segs o))) /\
  (forall k, In k keys -> (forall s, In s (sl_segs o) -> sl_key (sl_by_file o) s <> k) -> sl_filter o keys true = Err KeyError) /\
  (exists o2, sl_filter o keys false = Ok o2 /\ sl_by_file o2 = sl_by_file o /\ Permutation (sl_segs o2) (filter (fun s => negb (inb (sl_key (sl_by_file o) s) keys)) (sl_segs o))).
Proof.
  intros o keys V N. assert (SUB : forall ks s, In s (concat (map (loc_rows (sl_key (sl_by_file o)) (sl_segs o)) ks)) -> Qle (sg_tb s) (sg_te s)).
  { intros ks s Hs. apply V. apply in_concat in Hs as (l & Hl & Hs). apply in_map_iff in Hl as (k & <- & _). apply filter_In in Hs as (Hs & _). exact Hs. }
  split; [|split].
  - intros H. unfold sl_filter. cbv zeta. rewrite (loc_list_ok _ _ _ H). cbn [bind]. rewrite sl_new_ok by apply SUB. eexists. split; [reflexivity|]. split; [reflexivity|]. apply perm_loc. exact N.
  - intros k Hk Hn. unfold sl_filter. cbv zeta. rewrite (loc_list_missing _ _ _ k Hk Hn). reflexivity.
  - unfold sl_filter. cbv zeta. set (ks := setdiff _ keys). assert (KI : forall k, In k ks <-> In k (map (sl_key (sl_by_file o)) (sl_segs o)) /\ ~ In k keys) by (intros k; apply setdiff_in).
    rewrite loc_list_ok by (intros k Hk; apply KI in Hk as (Hk & _); apply in_map_iff in Hk as (s & E & Hs); eauto). cbn [bind]. rewrite sl_new_ok by apply SUB. eexists. split; [reflexivity|]. split; [reflexivity|]. cbn [sl_segs].
    etransitivity; [apply perm_loc; unfold ks, setdiff; apply NoDup_filter, unique_nodup|]. erewrite filter_ext_in; [reflexivity|]. intros s Hs. cbn beta.
    destruct (inb (sl_key (sl_by_file o) s) keys) eqn:E.
    + apply inb_iff in E. destruct (inb (sl_key (sl_by_file o) s) ks) eqn:E'; [|reflexivity]. apply inb_iff, KI in E' as (_ & X). contradiction.
    + cbn [negb]. apply inb_iff, KI. split; [apply in_map; exact Hs|]. intros X. apply inb_iff in X. congruence.
Qed.
Print Assumptions C53_filter.

(** Splitting by file: the parts together are the whole list and no file is in two parts. *)
Theorem C53_split_by_file : forall o P, sl_ok o -> sl_by_file o = true -> 1 <= P ->
  exists parts, mapM (fun i => sl_split o i P) (arange 1 (P + 1)) = Ok parts /\
    Permutation (concat (map sl_segs parts)) (sl_segs o) /\
    (forall i j p q s t, nth_error parts i = Some p -> nth_error parts j = Some q -> In s (sl_segs p) -> In t (sl_segs q) -> sg_file s = sg_file t -> i = j).
Proof.
  intros o P V B HP. destruct (C01_split_list_partitions _ (sl_uniq_files o) P HP) as (kp & E & C & _ & _ & _).
  set (F := fun ks => mk_sl (concat (map (loc_rows sg_file (sl_segs o)) ks)) true).
  assert (UF : forall k, In k (sl_uniq_files o) -> exists s, In s (sl_segs o) /\ sg_file s = k) by (intros k Hk; apply unique_in, in_map_iff in Hk as (s & E1 & Hs); eauto).
  assert (SP : forall i p, split_list (sl_uniq_files o) i P = Ok p -> (forall k, In k (fst p) -> In k (sl_uniq_files o)) -> sl_split o i P = Ok (F (fst p))).
  { intros i p Ep Sub. unfold sl_split. rewrite B, Ep. cbn [bind sl_key]. change (sl_key true) with sg_file. rewrite loc_list_ok by (intros k Hk; apply UF, Sub, Hk). cbn [bind]. apply sl_new_ok.
    intros s Hs. apply V. apply in_concat in Hs as (l & Hl & Hs). apply in_map_iff in Hl as (k & <- & _). apply filter_In in Hs as (Hs & _). exact Hs. }
  assert (SB : forall p, In p kp -> forall k, In k (fst p) -> In k (sl_uniq_files o)).
  { intros p Hp k Hk. rewrite <- C. apply in_concat. exists (fst p). split; [apply in_map; exact Hp|exact Hk]. }
  exists (map (fun p => F (fst p)) kp). split; [|split].
  - rewrite mapM_ok_iff in E. rewrite mapM_ok_iff. clear C. induction E as [|i p is ps E1 E2 IH]; cbn [map]; [constructor|]. constructor.
    + apply SP; [exact E1|]. apply SB. left. reflexivity.
    + apply IH. intros q Hq. apply SB. right. exact Hq.
  - assert (X : concat (map sl_segs (map (fun p => F (fst p)) kp)) = concat (map (loc_rows sg_file (sl_segs o)) (sl_uniq_files o))).
    { rewrite <- C. rewrite map_map. cbn [F sl_segs]. clear. induction kp as [|p kp IH]; cbn; [reflexivity|]. rewrite map_app, concat_app, IH. reflexivity. }
    rewrite X. etransitivity; [apply perm_loc, unique_nodup|]. assert (ALL : filter (fun r => inb (sg_file r) (sl_uniq_files o)) (sl_segs o) = sl_segs o); [|rewrite ALL; reflexivity].
    assert (A : forall l, (forall s, In s l -> In s (sl_segs o)) -> filter (fun r => inb (sg_file r) (sl_uniq_files o)) l = l).
    { induction l as [|s l IH]; intros Hl; cbn; [reflexivity|]. assert (I : inb (sg_file s) (sl_uniq_files o) = true) by (apply inb_iff, unique_in, in_map, Hl; left; reflexivity). rewrite I, IH by (intros y Hy; apply Hl; right; exact Hy). reflexivity. }
    apply A. auto.
  - intros i j p q s t Hi Hj Hs Ht Ef. rewrite nth_error_map in Hi, Hj. destruct (nth_error kp i) as [p'|] eqn:Ei; [|discriminate Hi]. destruct (nth_error kp j) as [q'|] eqn:Ej; [|discriminate Hj]. cbn in Hi, Hj. injection Hi as <-. injection Hj as <-.
    assert (IN : forall (s : seg) (p' : list string * list Z), In s (sl_segs (F (fst p'))) -> In (sg_file s) (fst p')).
    { intros s0 p0 H. cbn [F sl_segs] in H. apply in_concat in H as (l & Hl & H). apply in_map_iff in Hl as (k & <- & Hk). apply filter_In in H as (_ & H). apply eqb_eq in H. rewrite H. exact Hk. }
    apply IN in Hs. apply IN in Ht. rewrite <- Ef in Ht. assert (ND : NoDup (concat (map fst kp))) by (rewrite C; apply unique_nodup).
    clear - Hs Ht ND Ei Ej. revert i j Ei Ej. induction kp as [|x kp IH]; intros i j Ei Ej; [destruct i; discriminate Ei|]. cbn in ND.
    assert (DJ : forall y r, In y kp -> In r (fst x) -> In r (fst y) -> False).
    { intros y r Hy Hx Hr. clear - ND Hy Hx Hr. induction (fst x) as [|a l IHl]; [destruct Hx|]. cbn in ND. inversion ND as [|? ? Na Nr]; subst. destruct Hx as [->|Hx]; [apply Na, in_or_app; right; apply in_concat; exists (fst y); split; [apply in_map; exact Hy|exact Hr]|apply IHl; assumption]. }
    destruct i as [|i], j as [|j]; cbn in Ei, Ej.
    + reflexivity.
    + injection Ei as ->. exfalso. eapply DJ; [eapply nth_error_In; exact Ej|exact Hs|exact Ht].
    + injection Ej as ->. exfalso. eapply DJ; [eapply nth_error_In; exact Ei|exact Ht|exact Hs].
    + f_equal. apply IH; [|exact Ei|exact Ej]. clear - ND. induction (fst x) as [|a l IHl]; [exact ND|]. cbn in ND. inversion ND; subst. auto.
Qed.
Print Assumptions C53_split_by_file.

(** merging back is the concatenation *)
Theorem C53_merge : forall ls b, (forall o, In o ls -> sl_ok o) -> exists o, sl_merge ls b = Ok o /\ sl_segs o = concat (map sl_segs ls) /\ sl_by_file o = b.
Proof.
  intros ls b V. unfold sl_merge. rewrite sl_new_ok; [eexists; repeat split|]. intros s Hs. apply in_concat in Hs as (l & Hl & Hs). apply in_map_iff in Hl as (o & <- & Ho). exact (V o Ho s Hs).
Qed.
Print Assumptions C53_merge.

(** access to one file works iff the file has at least two segments; a file with one segment fails *)
Theorem C53_get_file : forall o file, sl_ok o ->
  let rows := filter (fun s => eqb (sg_file s) file) (sl_segs o) in
  (rows = [] -> sl_get_file o file = Err KeyError) /\
  ((2 <= len rows)%nat -> sl_get_file o file = Ok (mk_sl rows false)).
Proof.
  intros o file V rows. unfold sl_get_file, loc_rows. fold rows. assert (VR : forall s, In s rows -> Qle (sg_tb s) (sg_te s)) by (intros s Hs; apply V; apply filter_In in Hs; tauto).
  clearbody rows. split; [intros ->; reflexivity|]. destruct rows as [|a [|b l]]; cbn [len]; intros H; [lia|lia|]. apply sl_new_ok. exact VR.
Qed.
Print Assumptions C53_get_file.
Theorem C53_get_single_refuted : forall o file s, filter (fun s => eqb (sg_file s) file) (sl_segs o) = [s] -> sl_get_file o file = Err TypeError.
Proof. intros o file s E. unfold sl_get_file, loc_rows. rewrite E. reflexivity. Qed.
Print Assumptions C53_get_single_refuted.
(** access by number ignores the number *)
Theorem C53_get_number_refuted : forall o it i j, (i < len (sl_uniq_files o))%nat -> (j < len (sl_uniq_files o))%nat -> sl_get_file_number o it i = sl_get_file_number o it j.
Proof. intros o it i j Hi Hj. unfold sl_get_file_number. apply Nat.ltb_lt in Hi, Hj. rewrite Hi, Hj. reflexivity. Qed.
Print Assumptions C53_get_number_refuted.

Example C53_witness : exists p1 p2, mapM (fun i => sl_split (mk_sl [mk_seg "a" "g" 0 1; mk_seg "b" "f" 0 1; mk_seg "c" "g" 1 2; mk_seg "d" "h" 0 2] true) i 2) (arange 1 3) = Ok [p1; p2]
  /\ map sg_id (sl_segs p1) = ["b"]%string /\ map sg_id (sl_segs p2) = ["a"; "c"; "d"]%string.
Proof. eexists _, _. split; [vm_compute; reflexivity|]. split; reflexivity. Qed.
