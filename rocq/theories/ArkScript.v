(** Archives read through a script. *)
From Verif Require Import BaseFacts ListUtils ListUtilsProofs Str StrFacts ScpProofs ScpHist ScpSplit ScpRound.
From Verif Require Export KaldiKeeps ArkProofs.
Open Scope list_scope.
Open Scope Z_scope.

(** The record [dat] is stored in file [p] at byte [off] (binary marker included). *)
Definition stored_at (d : disk) (p : string) (off : Z) (dat : wdata) : Prop :=
  exists pre bs post, d_bytes d p = Some (pre ++ marker ++ bs ++ post) /\
    Z.of_nat (len pre) = off /\ stored_ok dat /\ write_data dat = Ok bs.

(** The file opened for path [p] shows the bytes on disk. *)
Definition shows (d : disk) (p : string) (f : file) : Prop := d_bytes d p = Some (f_bytes f).

Lemma d_open_ok d p bs : d_bytes d p = Some bs -> exists f, d_open d p = Ok f /\ shows d p f /\ f_pos f = 0%nat.
Proof.
  intros H. unfold d_open. rewrite H. eexists. split; [reflexivity|]. split; [exact H|reflexivity].
Qed.

Lemma rest_at d p off dat f : stored_at d p off dat -> shows d p f -> Z.of_nat (f_pos f) = off ->
  exists bs post, rest f = marker ++ bs ++ post /\ write_data dat = Ok bs.
Proof.
  intros (pre & bs & post & H & L & S & W) Hs P. unfold shows in Hs. rewrite H in Hs.
  injection Hs as Hs. exists bs, post. split; [|exact W].
  unfold rest. rewrite <- Hs. apply skipn_app_exact. lia.
Qed.

Lemma shows_adv d p f k f' : shows d p f -> adv f k f' -> shows d p f'.
Proof. unfold shows. intros H (A & _). rewrite A. exact H. Qed.

(** Reading and shape at a stored record. *)
Lemma read_at dec d p off dat f m r n seq :
  stored_at d p off dat -> shows d p f -> Z.of_nat (f_pos f) = off ->
  value dec dat = Ok m -> rows_ok m r n ->
  exists f1 f2 m', init_kaldi_input_stream f = Ok (true, f1) /\
    km_read_b dec true f1 r n seq = Ok (m', f2) /\ rows_of m r n m' /\
    f_bytes f2 = f_bytes f.
Proof.
  intros St Hs P V Hr. destruct (rest_at _ _ _ _ _ St Hs P) as (bs & post & R & W).
  destruct St as (pre & bs' & post' & H & L & S & W').
  destruct (init_marker f _ R) as (f1 & E1 & A1).
  assert (R1 : rest f1 = bs ++ post) by (rewrite (adv_rest _ _ _ A1), R; reflexivity).
  destruct (read_stored dec dat bs f1 post r n seq m S W R1 V Hr) as (m' & f2 & E2 & RO & A2).
  exists f1, f2, m'. split; [exact E1|]. split; [exact E2|]. split; [exact RO|].
  apply km_read_keeps in E2. apply init_stream_keeps in E1. congruence.
Qed.

Lemma shape_at dec d p off dat f m seq :
  stored_at d p off dat -> shows d p f -> Z.of_nat (f_pos f) = off -> value dec dat = Ok m ->
  exists f1 f2, init_kaldi_input_stream f = Ok (true, f1) /\ km_read_shape_b true f1 seq = Ok (k_shape m, f2) /\ f_bytes f2 = f_bytes f.
Proof.
  intros St Hs P V. destruct (rest_at _ _ _ _ _ St Hs P) as (bs & post & R & W).
  destruct St as (pre & bs' & post' & H & L & S & W').
  destruct (init_marker f _ R) as (f1 & E1 & A1).
  assert (R1 : rest f1 = bs ++ post) by (rewrite (adv_rest _ _ _ A1), R; reflexivity).
  destruct (shape_stored dec dat bs f1 post seq m S W R1 V) as (f2 & E2 & _).
  exists f1, f2. split; [exact E1|]. split; [exact E2|].
  apply km_read_shape_keeps in E2. apply init_stream_keeps in E1. congruence.
Qed.

(** ** Random access *)

Definition r_inv (d : disk) (r : rreader) : Prop := forall p f, r_open r p = Some f -> shows d p f.

Lemma r_open_ok d r p off dat : r_inv d r -> stored_at d p off dat ->
  exists f, r_open_archive d r p (Some off) = Ok f /\ shows d p f /\ Z.of_nat (f_pos f) = off.
Proof.
  intros I (pre & bs & post & H & L & _). unfold r_open_archive.
  assert (exists f0, (match r_open r p with Some f => Ok f | None => d_open d p end) = Ok f0 /\ shows d p f0)
    as (f0 & E & Hs).
  { destruct (r_open r p) as [f|] eqn:E; [exists f; split; [reflexivity|apply I; exact E]|].
    destruct (d_open_ok d p _ H) as (f & Ef & Hs & _). exists f. auto. }
  rewrite E. cbn [bind]. unfold f_seek. replace (off <? 0) with false by lia.
  eexists. split; [reflexivity|]. split; [exact Hs|]. cbn [f_pos goto]. lia.
Qed.

(** Same script, up to the cache. *)
Definition same_scp (s s' : scp) : Prop :=
  s_key s' = s_key s /\ s_path s' = s_path s /\ s_off s' = s_off s /\ s_rng s' = s_rng s.

Lemma same_scp_elements s s' : same_scp s s' -> elements s' = elements s.
Proof.
  intros (A & B & C & D). unfold elements. rewrite A.
  assert (E : forall i, getitem_index s' i = getitem_index s i).
  { intros i. unfold getitem_index. rewrite A, B, C, D. reflexivity. }
  induction (arange 0 (Z.of_nat (List.length (s_key s)))) as [|i l IH]; [reflexivity|].
  cbn [mapM]. rewrite E, IH. reflexivity.
Qed.
Lemma same_scp_valid s s' : same_scp s s' -> valid s -> valid s'.
Proof. intros (A & B & C & D) (V1 & V2 & V3). unfold valid. rewrite A, B, C, D. auto. Qed.
Lemma fill_same s : same_scp s (fill_cache s).
Proof. unfold same_scp, fill_cache. destruct (s_cache s); repeat split. Qed.
Lemma fill_cache_ok2 s : cache_ok s -> cache_ok (fill_cache s).
Proof. intros C. right. rewrite (fill_cache_ok s C). destruct (fill_same s) as (-> & _). reflexivity. Qed.

(** Position of the last entry with key [k] (a repeated key is found at its last line). *)
Definition last_at (es : list entry) (k : string) (e : entry) : Prop :=
  exists i, nth_error es i = Some e /\ fst (fst (fst e)) = k /\
    forall j e', (i < j)%nat -> nth_error es j = Some e' -> fst (fst (fst e')) <> k.

Lemma get_index_entry s es k i : valid s -> cache_ok s -> elements s = Ok es ->
  fst (get_index s k) = Ok i ->
  exists e, getitem_index (snd (get_index s k)) i = Ok e /\ last_at es k e.
Proof.
  intros V C Es G. pose proof (get_index_spec s k C) as S. rewrite G in S.
  destruct S as (S1 & S2 & S3).
  destruct (valid_rows s V) as [R [ho [hr [c ->]]]]. rewrite elements_build in Es. injection Es as <-.
  cbn [s_key build] in S2, S3. rewrite nth_error_map in S2.
  destruct (nth_error R (Z.to_nat i)) as [row|] eqn:N; [|discriminate]. cbn [option_map] in S2. injection S2 as <-.
  assert (GI : get_item R i = Ok row).
  { replace i with (Z.of_nat (Z.to_nat i)) by lia. apply get_item_nat. exact N. }
  exists (ent ho hr row). split.
  - unfold get_index. cbn [snd]. unfold fill_cache. destruct (s_cache _).
    + apply getitem_index_build. exact GI.
    + cbn [s_key s_path s_off s_rng build]. 
      change (mk_scp (map r_key R) (map r_path R) (opt_col ho r_off R) (opt_col hr r_rng R)
        (Some (create_dict (map r_key R)))) with (build R ho hr (Some (create_dict (map r_key R)))).
      apply getitem_index_build. exact GI.
  - exists (Z.to_nat i). split; [rewrite nth_error_map, N; reflexivity|]. split; [reflexivity|].
    intros j e' Hj Ej. rewrite nth_error_map in Ej. destruct (nth_error R j) as [rj|] eqn:Nj; [|discriminate].
    cbn [option_map] in Ej. injection Ej as <-. intros Q. apply (S3 j Hj). rewrite nth_error_map, Nj.
    cbn in *. rewrite Q. reflexivity.
Qed.

Record r_state (d : disk) (s : scp) (perm : bool) (r : rreader) : Prop := {
  rs_inv : r_inv d r; rs_perm : r_perm r = perm; rs_same : same_scp s (r_scp r);
  rs_cache : cache_ok (r_scp r) }.

(** One record through the random-access reader. *)
Lemma r_read1_ok dec d s es perm r k e off dat m ro nr ro' nr' :
  valid s -> elements s = Ok es -> r_state d s perm r ->
  last_at es k e -> snd (fst e) = Some off -> stored_at d (snd (fst (fst e))) off dat ->
  value dec dat = Ok m -> combine_ranges (snd e) ro nr = Ok (ro', nr') -> rows_ok m ro' nr' ->
  exists m' r', r_read1 dec d r k ro nr = Ok (m', r') /\ rows_of m ro' nr' m' /\ r_state d s perm r'.
Proof.
  intros V Es RS LA EO St Vm CR RO.
  destruct RS as [I P Sm C].
  assert (Es1 : elements (r_scp r) = Ok es) by (rewrite (same_scp_elements _ _ Sm); exact Es).
  assert (V1 : valid (r_scp r)) by (eapply same_scp_valid; eauto).
  assert (IN : In k (s_key (r_scp r))).
  { destruct LA as (i & N & K & _). destruct (valid_rows (r_scp r) V1) as [R [ho [hr [c Eq]]]].
    rewrite Eq in Es1 |- *. rewrite elements_build in Es1. injection Es1 as <-.
    rewrite nth_error_map in N. destruct (nth_error R i) as [row|] eqn:Nr; [|discriminate].
    cbn [option_map] in N. injection N as <-. cbn in K. subst k. cbn [s_key build].
    apply in_map. eapply nth_error_In. exact Nr. }
  unfold r_read1.
  destruct (contains (r_scp r) k) as [present s1] eqn:Ec.
  assert (present = true).
  { pose proof (contains_spec (r_scp r) k C) as CS. rewrite Ec in CS. apply CS. exact IN. }
  assert (Es1' : s1 = fill_cache (r_scp r)) by (unfold contains in Ec; congruence).
  subst present s1. cbn [negb].
  assert (C2 : cache_ok (fill_cache (r_scp r))) by (apply fill_cache_ok2; exact C).
  assert (Sm2 : same_scp s (fill_cache (r_scp r))).
  { destruct (fill_same (r_scp r)) as (F1 & F2 & F3 & F4). destruct Sm as (G1 & G2 & G3 & G4).
    repeat split; congruence. }
  assert (Es2 : elements (fill_cache (r_scp r)) = Ok es) by (rewrite (same_scp_elements _ _ Sm2); exact Es).
  assert (V2 : valid (fill_cache (r_scp r))) by (exact (same_scp_valid _ _ Sm2 V)).
  destruct (get_index (fill_cache (r_scp r)) k) as [ri s2] eqn:Eg.
  pose proof (get_index_spec (fill_cache (r_scp r)) k C2) as GS. rewrite Eg in GS. cbn [fst] in GS.
  destruct ri as [i|err].
  2:{ exfalso. destruct GS as (_ & GS). apply GS. destruct (fill_same (r_scp r)) as (F1 & _). rewrite F1. exact IN. }
  cbn [bind].
  destruct (get_index_entry (fill_cache (r_scp r)) es k i V2 C2 Es2) as (e' & Ge & LA').
  { rewrite Eg. reflexivity. }
  rewrite Eg in Ge. cbn [snd] in Ge.
  assert (e' = e).
  { destruct LA as (i1 & N1 & K1 & L1), LA' as (i2 & N2 & K2 & L2).
    destruct (Nat.lt_trichotomy i1 i2) as [H|[H|H]].
    - exfalso. exact (L1 i2 e' H N2 K2).
    - subst. congruence.
    - exfalso. exact (L2 i1 e H N1 K1). }
  subst e'. rewrite Ge. cbn [bind]. destruct e as [[[k0 p] o] rng]. cbn [fst snd] in *. subst o.
  rewrite CR. cbn [bind].
  destruct (r_open_ok d r p off dat I St) as (f & Ef & Hs & Pf). rewrite Ef. cbn [bind].
  destruct (read_at dec d p off dat f m ro' nr' false St Hs Pf Vm RO) as (f1 & f2 & m' & E1 & E2 & RW & FB).
  rewrite E1. cbn [bind]. rewrite E2. cbn [bind]. rewrite (rows_assert _ _ _ _ RW). cbn [assert bind].
  exists m'. eexists. split; [reflexivity|]. split; [exact RW|].
  assert (s2 = fill_cache (fill_cache (r_scp r))) as -> by (unfold get_index in Eg; congruence).
  constructor.
  - intros q g. unfold set_open. cbn [r_open]. destruct (String.eqb_spec q p) as [->|N]; [|apply I].
    intros Q. injection Q as <-. unfold shows in *. rewrite FB. exact Hs.
  - exact P.
  - cbn [r_scp set_open]. destruct (fill_same (fill_cache (r_scp r))) as (F1 & F2 & F3 & F4).
    destruct Sm2 as (G1 & G2 & G3 & G4). repeat split; congruence.
  - cbn [r_scp set_open]. apply fill_cache_ok2. exact C2.
Qed.

Lemma r_read1_absent dec d s perm r k ro nr :
  r_state d s perm r -> ~ In k (s_key s) ->
  (perm = false -> r_read1 dec d r k ro nr = Err BareException) /\
  (perm = true -> exists r', r_read1 dec d r k ro nr = Ok (empty_array, r') /\ r_state d s perm r').
Proof.
  intros [I P Sm C] NI. unfold r_read1. destruct (contains (r_scp r) k) as [present s1] eqn:Ec.
  assert (present = false).
  { pose proof (contains_spec (r_scp r) k C) as CS. rewrite Ec in CS. cbn [fst] in CS.
    destruct present; [|reflexivity]. exfalso. apply NI. destruct Sm as (<- & _). apply CS. reflexivity. }
  assert (s1 = fill_cache (r_scp r)) by (unfold contains in Ec; congruence). subst present s1.
  cbn [negb]. rewrite P. split; intros ->; [reflexivity|].
  eexists. split; [reflexivity|]. constructor; cbn [r_open r_perm r_scp].
  - exact I.
  - reflexivity.
  - destruct (fill_same (r_scp r)) as (F1 & F2 & F3 & F4). destruct Sm as (G1 & G2 & G3 & G4). repeat split; congruence.
  - apply fill_cache_ok2. exact C.
Qed.

Lemma r_shape1_ok dec d s es perm r k e off dat m ro' nr' sh :
  valid s -> elements s = Ok es -> r_state d s perm r ->
  last_at es k e -> snd (fst e) = Some off -> stored_at d (snd (fst (fst e))) off dat ->
  value dec dat = Ok m -> combine_ranges (snd e) 0 0 = Ok (ro', nr') ->
  apply_range_to_shape (k_shape m) ro' nr' = Ok sh ->
  exists r', r_shape1 d r k = Ok (sh, r') /\ r_state d s perm r'.
Proof.
  intros V Es RS LA EO St Vm CR RO.
  destruct RS as [I P Sm C].
  assert (Es1 : elements (r_scp r) = Ok es) by (rewrite (same_scp_elements _ _ Sm); exact Es).
  assert (V1 : valid (r_scp r)) by (eapply same_scp_valid; eauto).
  assert (IN : In k (s_key (r_scp r))).
  { destruct LA as (i & N & K & _). destruct (valid_rows (r_scp r) V1) as [R [ho [hr [c Eq]]]].
    rewrite Eq in Es1 |- *. rewrite elements_build in Es1. injection Es1 as <-.
    rewrite nth_error_map in N. destruct (nth_error R i) as [row|] eqn:Nr; [|discriminate].
    cbn [option_map] in N. injection N as <-. cbn in K. subst k. cbn [s_key build].
    apply in_map. eapply nth_error_In. exact Nr. }
  unfold r_shape1.
  destruct (contains (r_scp r) k) as [present s1] eqn:Ec.
  assert (present = true).
  { pose proof (contains_spec (r_scp r) k C) as CS. rewrite Ec in CS. apply CS. exact IN. }
  assert (Es1' : s1 = fill_cache (r_scp r)) by (unfold contains in Ec; congruence).
  subst present s1. cbn [negb].
  assert (C2 : cache_ok (fill_cache (r_scp r))) by (apply fill_cache_ok2; exact C).
  assert (Sm2 : same_scp s (fill_cache (r_scp r))).
  { destruct (fill_same (r_scp r)) as (F1 & F2 & F3 & F4). destruct Sm as (G1 & G2 & G3 & G4).
    repeat split; congruence. }
  assert (Es2 : elements (fill_cache (r_scp r)) = Ok es) by (rewrite (same_scp_elements _ _ Sm2); exact Es).
  assert (V2 : valid (fill_cache (r_scp r))) by (exact (same_scp_valid _ _ Sm2 V)).
  destruct (get_index (fill_cache (r_scp r)) k) as [ri s2] eqn:Eg.
  pose proof (get_index_spec (fill_cache (r_scp r)) k C2) as GS. rewrite Eg in GS. cbn [fst] in GS.
  destruct ri as [i|err].
  2:{ exfalso. destruct GS as (_ & GS). apply GS. destruct (fill_same (r_scp r)) as (F1 & _). rewrite F1. exact IN. }
  cbn [bind].
  destruct (get_index_entry (fill_cache (r_scp r)) es k i V2 C2 Es2) as (e' & Ge & LA').
  { rewrite Eg. reflexivity. }
  rewrite Eg in Ge. cbn [snd] in Ge.
  assert (e' = e).
  { destruct LA as (i1 & N1 & K1 & L1), LA' as (i2 & N2 & K2 & L2).
    destruct (Nat.lt_trichotomy i1 i2) as [H|[H|H]].
    - exfalso. exact (L1 i2 e' H N2 K2).
    - subst. congruence.
    - exfalso. exact (L2 i1 e H N1 K1). }
  subst e'. rewrite Ge. cbn [bind]. destruct e as [[[k0 p] o] rng]. cbn [fst snd] in *. subst o.
  rewrite CR. cbn [bind].
  destruct (r_open_ok d r p off dat I St) as (f & Ef & Hs & Pf). rewrite Ef. cbn [bind].
  destruct (shape_at dec d p off dat f m false St Hs Pf Vm) as (f1 & f2 & E1 & E2 & FB).
  rewrite E1. cbn [bind]. rewrite E2. cbn [bind]. rewrite RO. cbn [bind].
  eexists. split; [reflexivity|].
  assert (s2 = fill_cache (fill_cache (r_scp r))) as -> by (unfold get_index in Eg; congruence).
  constructor.
  - intros q g. unfold set_open. cbn [r_open]. destruct (String.eqb_spec q p) as [->|N]; [|apply I].
    intros Q. injection Q as <-. unfold shows in *. rewrite FB. exact Hs.
  - exact P.
  - cbn [r_scp set_open]. destruct (fill_same (fill_cache (r_scp r))) as (F1 & F2 & F3 & F4).
    destruct Sm2 as (G1 & G2 & G3 & G4). repeat split; congruence.
  - cbn [r_scp set_open]. apply fill_cache_ok2. exact C2.
Qed.

(** ** Sequential script reader *)

(** State after reading up to line [i]: the open archive is the one of line [i - 1]. *)
Record s_state (d : disk) (s : scp) (es : list entry) (i : nat) (r : sreader) : Prop := {
  ss_scp : s_scp r = s; ss_cur : s_cur r = i;
  ss_inv : forall f p, s_f r = Some f -> s_file r = Some p -> shows d p f;
  ss_prev : s_f r <> None -> exists j e, i = S j /\ nth_error es j = Some e /\ s_file r = Some (snd (fst (fst e))) }.

(** Offset 0 is only used for an archive that is not the one of the previous line. *)
Definition no_revisit0 (es : list entry) : Prop :=
  forall j e e', nth_error es j = Some e -> nth_error es (S j) = Some e' ->
    snd (fst e') = Some 0 -> snd (fst (fst e')) <> snd (fst (fst e)).

Lemma s_open_ok d s es i r e off dat :
  s_state d s es i r -> no_revisit0 es -> nth_error es i = Some e -> snd (fst e) = Some off ->
  stored_at d (snd (fst (fst e))) off dat ->
  exists f, s_open_archive d r (snd (fst (fst e))) (Some off) = Ok f /\
    shows d (snd (fst (fst e))) f /\ Z.of_nat (f_pos f) = off.
Proof.
  intros [Sc Cu I Pv] NR N EO St. destruct St as (pre & bs & post & H & L & _).
  set (p := snd (fst (fst e))) in *. unfold s_open_archive.
  destruct (d_open_ok d p _ H) as (f0 & Ef & Hs & P0).
  assert (G : forall f, shows d p f -> (off = 0 -> f_pos f = 0%nat) ->
    exists f', (if 0 <? off then f_seek_cur f (off - Z.of_nat (f_pos f)) else Ok f) = Ok f' /\
      shows d p f' /\ Z.of_nat (f_pos f') = off).
  { intros f Hf Hz. destruct (Z.ltb_spec 0 off).
    - unfold f_seek_cur. replace (Z.of_nat (f_pos f) + (off - Z.of_nat (f_pos f))) with off by lia.
      replace (off <? 0) with false by lia. eexists. split; [reflexivity|]. split; [exact Hf|]. cbn; lia.
    - exists f. split; [reflexivity|]. split; [exact Hf|]. assert (off = 0) by lia. rewrite Hz by assumption. lia. }
  destruct (s_f r) as [f|] eqn:Esf.
  - destruct (Pv ltac:(discriminate)) as (j & e0 & -> & Nj & Fj). rewrite Fj.
    destruct (String.eqb_spec p (snd (fst (fst e0)))) as [Q|Q].
    + cbn [bind]. destruct (G f) as (f' & E & A & B).
      * rewrite Q. apply (I f _ eq_refl Fj).
      * intros ->. exfalso. exact (NR j e0 e Nj N EO Q).
      * exists f'. auto.
    + rewrite Ef. cbn [bind]. destruct (G f0 Hs (fun _ => P0)) as (f' & E & A & B). exists f'. auto.
  - destruct (s_file r); rewrite Ef; cbn [bind]; destruct (G f0 Hs (fun _ => P0)) as (f' & E & A & B); exists f'; auto.
Qed.

Lemma elements_getitem s es i e : valid s -> elements s = Ok es -> nth_error es i = Some e ->
  getitem_index s (Z.of_nat i) = Ok e /\ (i < len (s_key s))%nat.
Proof.
  intros V Es N. destruct (valid_rows s V) as [R [ho [hr [c ->]]]]. rewrite elements_build in Es. injection Es as <-.
  rewrite nth_error_map in N. destruct (nth_error R i) as [row|] eqn:Nr; [|discriminate]. cbn [option_map] in N. injection N as <-.
  split.
  - apply getitem_index_build. apply get_item_nat. exact Nr.
  - cbn [s_key build]. rewrite map_length. apply nth_error_Some. congruence.
Qed.

Lemma s_read1_ok dec d s es i r e off dat m ro nr ro' nr' :
  valid s -> elements s = Ok es -> s_state d s es i r -> no_revisit0 es ->
  nth_error es i = Some e -> snd (fst e) = Some off -> stored_at d (snd (fst (fst e))) off dat ->
  value dec dat = Ok m -> combine_ranges (snd e) ro nr = Ok (ro', nr') -> rows_ok m ro' nr' ->
  exists m' r', s_read1 dec d r ro nr = Ok ((fst (fst (fst e)), m'), r') /\ rows_of m ro' nr' m' /\
    s_state d s es (S i) r'.
Proof.
  intros V Es SS NR N EO St Vm CR RO.
  destruct (s_open_ok d s es i r e off dat SS NR N EO St) as (f & Ef & Hs & Pf).
  destruct SS as [Sc Cu I Pv].
  unfold s_read1. rewrite Sc, Cu. rewrite (proj1 (elements_getitem s es i e V Es N)). cbn [bind].
  destruct e as [[[k p] o] rng]. cbn [fst snd] in *. subst o. rewrite CR. cbn [bind].
  rewrite Ef. cbn [bind].
  destruct (read_at dec d p off dat f m ro' nr' true St Hs Pf Vm RO) as (f1 & f2 & m' & E1 & E2 & RW & FB).
  rewrite E1. cbn [bind]. rewrite E2. cbn [bind]. rewrite (rows_assert _ _ _ _ RW). cbn [assert bind].
  exists m'. eexists. split; [reflexivity|]. split; [exact RW|]. constructor; cbn [s_scp s_cur s_f s_file].
  - reflexivity.
  - reflexivity.
  - intros g q Q1 Q2. injection Q1 as <-. injection Q2 as <-. unfold shows in *. rewrite FB. exact Hs.
  - intros _. exists i, (k, p, Some off, rng). auto.
Qed.
