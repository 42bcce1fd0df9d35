(** Properties C21-C22: sequential reading through a script; row ranges. *)
From Verif Require Import Base BaseFacts ListUtils ListUtilsProofs Str StrFacts Scp ScpProofs ScpHist ScpSplit ScpRound.
From Verif Require Import Bytes Kaldi KaldiProofs KaldiMatProofs KaldiCompProofs KaldiKeeps Ark ArkProofs ArkScript ArkHist ArkProps.
Open Scope list_scope.
Open Scope Z_scope.

(** ** C21 *)

Lemma skipn_skipn' {A} a b (l : list A) : skipn a (skipn b l) = skipn (b + a) l.
Proof.
  revert l. induction b as [|b IH]; intros l; [reflexivity|]. destruct l as [|x l]; [rewrite !skipn_nil; reflexivity|]. cbn. apply IH.
Qed.

Lemma s_calls_ok dec d s es r0 n0 : valid s -> elements s = Ok es -> no_revisit0 es ->
  (forall e, In e es -> servable dec d e r0 n0) ->
  forall Ns i r, s_state d s es i r -> (i <= len es)%nat -> Forall (fun N => 0 <= N) Ns ->
  exists outs r', read_calls (fun r N => s_read dec d r N (ZConst r0) (ZConst n0)) r Ns = Ok (outs, r') /\
    Forall2 (Forall2 (fun e x => fst x = fst (fst (fst e)) /\ served dec d e r0 n0 (snd x))) (batches Ns (skipn i es)) outs /\
    s_scp r' = s /\ s_cur r' = (i + len (concat (batches Ns (skipn i es))))%nat.
Proof.
  intros V Es NR SV.
  assert (LK : len (s_key s) = len es).
  { destruct (valid_rows s V) as [R [ho [hr [c ->]]]]. rewrite elements_build in Es. injection Es as <-.
    cbn [s_key build]. rewrite !map_length. reflexivity. }
  induction Ns as [|N Ns IH]; intros i r SS Hi HN.
  - exists [], r. cbn. rewrite Nat.add_0_r. split; [reflexivity|]. split; [constructor|]. destruct SS; auto.
  - cbn [read_calls batches]. unfold s_read at 1.
    assert (HN1 : 0 <= N) by exact (Forall_inv HN).
    rewrite (ss_scp _ _ _ _ _ SS), (ss_cur _ _ _ _ _ SS), LK.
    rewrite skipn_length.
    set (k := if N =? 0 then (len es - i)%nat else Z.to_nat N).
    destruct (s_read_loop_ok dec d s es r0 n0 V Es NR SV k i 0 [] r SS Hi) as (outs & r1 & E & F & SS1).
    rewrite E. cbn [bind app].
    assert (LB : len (firstn k (skipn i es)) = (Nat.min (i + k) (len es) - i)%nat) by (rewrite firstn_length, skipn_length; lia).
    destruct (IH (Nat.min (i + k) (len es)) r1 SS1 ltac:(lia) (Forall_inv_tail HN)) as (outs2 & r2 & E2 & F2 & S2 & C2).
    rewrite E2. cbn [bind]. exists (outs :: outs2), r2. split; [reflexivity|].
    assert (SK : skipn k (skipn i es) = skipn (Nat.min (i + k) (len es)) es).
    { rewrite skipn_skipn'. destruct (Nat.le_ge_cases (i + k) (len es)) as [Q|Q].
      - rewrite Nat.min_l by exact Q. reflexivity.
      - rewrite Nat.min_r by exact Q. rewrite skipn_all, skipn_all2 by exact Q. reflexivity. }
    rewrite SK. split; [constructor; assumption|]. split; [exact S2|].
    rewrite C2. cbn [concat]. rewrite app_length, LB. lia.
Qed.

(** A script whose lines all have offsets of stored records, with ranges that fit; offset 0 is not
    asked of the archive that the previous line left open.  Any sequence of read calls returns,
    line by line and in order, the rows of the record that the line names. *)
Theorem C21_sequential_script_partial : forall dec d s es Ns r n,
  valid s -> elements s = Ok es -> no_revisit0 es ->
  (forall e, In e es -> servable dec d e r n) -> Forall (fun N => 0 <= N) Ns ->
  exists outs r', read_calls (fun rd N => s_read dec d rd N (ZConst r) (ZConst n)) (sreader_open s) Ns = Ok (outs, r') /\
    Forall2 (Forall2 (fun e x => fst x = fst (fst (fst e)) /\ served dec d e r n (snd x))) (batches Ns es) outs /\
    (sreader_eof r' = true <-> concat (batches Ns es) = es) /\
    (* after reset, the same again *)
    exists outs2 r2, read_calls (fun rd N => s_read dec d rd N (ZConst r) (ZConst n)) (sreader_reset r') Ns = Ok (outs2, r2) /\
      Forall2 (Forall2 (fun e x => fst x = fst (fst (fst e)) /\ served dec d e r n (snd x))) (batches Ns es) outs2.
Proof.
  intros dec d s es Ns r n V Es NR SV HN.
  assert (S0 : forall f, s_state d s es 0 (mk_sreader s 0 None f)).
  { intros f. constructor; cbn; [reflexivity|reflexivity|discriminate|congruence]. }
  destruct (s_calls_ok dec d s es r n V Es NR SV Ns 0 (sreader_open s) (S0 _) (Nat.le_0_l _) HN) as (outs & r' & E & F & S & C).
  cbn [skipn Nat.add] in *. exists outs, r'. split; [exact E|]. split; [exact F|]. split.
  - unfold sreader_eof. rewrite S, C.
    assert (LK : len (s_key s) = len es).
    { destruct (valid_rows s V) as [R [ho [hr [c ->]]]]. rewrite elements_build in Es. injection Es as <-.
      cbn [s_key build]. rewrite !map_length. reflexivity. }
    rewrite LK, Nat.eqb_eq. destruct (batches_prefix Ns es) as (left & EB). split.
    + intros Q. rewrite <- EB in Q at 2. rewrite app_length in Q. assert (left = []) by (destruct left; [reflexivity|cbn in Q; lia]).
      subst left. rewrite app_nil_r in EB. exact EB.
    + intros ->. reflexivity.
  - unfold sreader_reset. rewrite S.
    destruct (s_calls_ok dec d s es r n V Es NR SV Ns 0 _ (S0 (s_file r')) (Nat.le_0_l _) HN) as (outs2 & r2 & E2 & F2 & _).
    exists outs2, r2. split; [exact E2|exact F2].
Qed.
Print Assumptions C21_sequential_script_partial.

(** In particular for the script the writer made: everything comes back, in order. *)
Theorem C21_written_script : forall cfg dec calls st d,
  let recs := concat calls in
  ark_writes cfg wst0 calls = Ok st -> data_ok cfg recs -> recs <> [] -> script_ok cfg (map fst recs) ->
  d_bytes d (w_path cfg) = Some (w_ark st) ->
  exists s, scp_load (w_scp st) (w_sep cfg) ":" = Ok s /\
    forall Ns, Forall (fun N => 0 <= N) Ns ->
    exists outs r', read_calls (fun rd N => s_read dec d rd N (ZConst 0) (ZConst 0)) (sreader_open s) Ns = Ok (outs, r') /\
      Forall2 (Forall2 (fun a x => fst x = fst a /\ written_as cfg dec (snd a) (snd x))) (batches Ns recs) outs.
Proof.
  intros cfg dec calls st d recs W D NE SO DB. rewrite ark_writes_concat in W. fold recs in W.
  destruct (ark_write_load cfg recs st W NE D SO) as (R & EL & FR).
  exists (build R true false None). split; [exact EL|]. intros Ns HN.
  assert (V : valid (build R true false None)) by apply build_valid.
  pose proof (elements_build R true false None) as Es.
  destruct (C21_sequential_script_partial dec d _ _ Ns 0 0 V Es) as (outs & r' & E & F & _).
  - intros j e e' Nj Nj' EO. rewrite nth_error_map in Nj'. destruct (nth_error R (S j)) as [row|] eqn:Er; [|discriminate].
    cbn [option_map] in Nj'. injection Nj' as <-. cbn [ent fst snd] in EO. injection EO as EO.
    exfalso. clear - FR Er EO. apply nth_error_In in Er. induction FR as [|a b l l' H F IH]; [destruct Er|].
    destruct Er as [->|Er]; [destruct H as (_ & _ & _ & H & _); lia|auto].
  - intros e He. apply in_map_iff in He. destruct He as (row & <- & Hr).
    assert (exists a, indexed cfg (w_ark st) a row) as (a & IX).
    { clear - FR Hr. induction FR as [|a b l l' H F IH]; [destruct Hr|]. destruct Hr as [->|Hr]; [exists a; exact H|auto]. }
    pose proof IX as (_ & _ & _ & _ & _ & d' & bs & pre & post & C & S & _).
    destruct (value_ok dec d' S) as (m & Vm & _).
    exists m, 0, 0. split; [eapply indexed_stored; eauto|]. split; [reflexivity|left; auto].
  - exact HN.
  - exists outs, r'. split; [exact E|].
    assert (G : forall l l', Forall2 (indexed cfg (w_ark st)) l l' -> forall o,
      Forall2 (fun e x => fst x = fst (fst (fst e)) /\ served dec d e 0 0 (snd x)) (map (ent true false) l') o ->
      Forall2 (fun a (x : string * km) => fst x = fst a /\ written_as cfg dec (snd a) (snd x)) l o).
    { clear - DB. induction 1 as [|a row l l' IX F IH]; intros o H; inversion H as [|? x ? o' (K & SV) Ho]; subst; constructor; [|auto].
      pose proof IX as (K1 & P & _ & _ & _ & d' & bs & pre & post & C & S & B & EB & LB).
      split; [cbn in K; congruence|].
      destruct (value_ok dec d' S) as (m & Vm & _). exists d'. split; [exact C|].
      destruct SV as (m2 & ro & nr & LV2 & CR & RW). cbn [ent snd] in CR. rewrite combine_none in CR. injection CR as <- <-.
      destruct RW as [(_ & _ & ->)|(Q & _)]; [|exfalso; apply Q; auto].
      destruct LV2 as (off & dat & EO & (pre2 & bs2 & post2 & H2 & LP & S3 & B3) & V2).
      cbn [ent fst snd] in EO, H2. injection EO as <-. rewrite P, DB in H2.
      assert (H2' : w_ark st = pre2 ++ marker ++ bs2 ++ post2) by congruence. clear H2.
      rewrite EB in H2'. apply app_inv_length in H2'; [|lia]. destruct H2' as (_ & H2'). apply app_inv_head in H2'.
      assert (RD : forall x y mx bx by', stored_ok x -> write_data x = Ok bx -> value dec x = Ok mx -> bx ++ by' = y ->
         exists f' : file, km_read_b dec true (open_file y (fun _ => 0%nat)) 0 0 true = Ok (mx, f')).
      { clear. intros x y mx bx by' S B Vx Ey.
        destruct (read_stored dec x bx (open_file y (fun _ => 0%nat)) by' 0 0 true mx S B) as (m' & f2 & E2 & RO & _).
        - rewrite <- Ey. reflexivity.
        - exact Vx.
        - left. auto.
        - destruct RO as [(_ & _ & ->)|(Q & _)]; [|exfalso; apply Q; auto]. exists f2. exact E2. }
      destruct (RD d' (bs ++ post) m bs post S B Vm eq_refl) as (f1 & E1).
      destruct (RD dat (bs ++ post) m2 bs2 post2 S3 B3 V2 (eq_sym H2')) as (f2 & E2). congruence. }
    clear - F G FR. revert FR outs F. generalize recs as l, R as l'. induction Ns as [|N Ns IH]; intros l l' FR outs F.
    + inversion F; constructor.
    + cbn [batches] in *. inversion F as [|? o ? outs' F1 F2]; subst.
      assert (L : len (map (ent true false) l') = len l) by (rewrite map_length; symmetry; eapply Forall2_len; eauto).
      rewrite L in *. set (k := if N =? 0 then len l else Z.to_nat N) in *. clearbody k. constructor.
      * apply (G (firstn k l) (firstn k l')); [|rewrite <- firstn_map; exact F1].
        clear - FR. revert k. induction FR; intros [|k]; cbn; constructor; auto.
      * eapply (IH (skipn k l) (skipn k l')); [|rewrite <- skipn_map; exact F2].
        clear - FR. revert k. induction FR; intros [|k]; cbn; try constructor; auto.
Qed.
Print Assumptions C21_written_script.

(** What is missing in general: a line with offset 0 in the archive that is already open is
    read from wherever the previous line left the file. *)
Theorem C21_offset0_refuted : forall d r p f,
  s_f r = Some f -> s_file r = Some p -> s_open_archive d r p (Some 0) = Ok f.
Proof.
  intros d r p f H1 H2. unfold s_open_archive. rewrite H1, H2, String.eqb_refl. reflexivity.
Qed.
Print Assumptions C21_offset0_refuted.

(** ... and a line without offset cannot be read at all. *)
Theorem C21_no_offset_refuted : forall dec d s es ra na e rest_es,
  valid s -> elements s = Ok es -> es = e :: rest_es -> snd (fst e) = None ->
  (exists bs, d_bytes d (snd (fst (fst e))) = Some bs) -> snd e = None ->
  s_read dec d (sreader_open s) 1 (ZConst ra) (ZConst na) = Err TypeError.
Proof.
  intros dec d s es ra na e l V Es -> EO (bs & DB) ER.
  destruct (elements_getitem s _ 0 e V Es eq_refl) as (G & L).
  unfold s_read. cbn [Z.eqb]. change (Z.to_nat 1) with 1%nat. cbn [s_read_loop].
  unfold sreader_eof. cbn [s_cur s_scp sreader_open]. destruct (Nat.eqb_spec 0 (len (s_key s))); [lia|].
  cbn [zarg_at bind]. unfold s_read1. cbn [s_scp s_cur sreader_open]. rewrite G. cbn [bind].
  destruct e as [[[k p] o] g]. cbn [fst snd] in *. subst o g. rewrite combine_none. cbn [bind].
  unfold s_open_archive. cbn [s_f sreader_open]. unfold d_open. rewrite DB. reflexivity.
Qed.
Print Assumptions C21_no_offset_refuted.

(** Example: a file with two matrices, both lines at offset 0: the second line gives the second
    matrix. *)
Definition two_at_0 : list byte :=
  match km_write m1, km_write m2 with
  | Ok a, Ok b => marker ++ a ++ marker ++ b
  | _, _ => [] end.
Definition scp00 : scp := mk_scp ["a"; "b"]%string ["x"; "x"]%string (Some [0; 0]) None None.
Example C21_offset0_witness : forall dec,
  stored_at (disk_of "x" two_at_0) "x" 0 (Raw m1) /\ m1 <> m2 /\
  exists r', s_read dec (disk_of "x" two_at_0) (sreader_open scp00) 2 (ZConst 0) (ZConst 0)
    = Ok ([("a", m1); ("b", m2)]%string, r').
Proof.
  intros dec. split; [|split; [discriminate|]].
  - exists []. eexists. eexists. split; [|split; [reflexivity|split]].
    3: vm_compute; reflexivity.
    + unfold disk_of. cbn [d_bytes String.eqb Ascii.eqb]. 
      unfold two_at_0. vm_compute. reflexivity.
    + split; [cbn; lia|split; [cbn; lia|split; [reflexivity|repeat constructor]]].
  - eexists. vm_compute. reflexivity.
Qed.

(** Example meeting the hypotheses of C21_sequential_script_partial: two archives interleaved. *)
Definition disk_mix : disk :=
  mk_disk (fun q => if String.eqb q "x" then Some two_at_0 else if String.eqb q "y" then Some two_at_0 else None) (fun _ _ => 0%nat).
Example C21_witness : forall dec, exists outs r',
  s_read dec disk_mix (sreader_open (mk_scp ["a"; "b"; "c"]%string ["x"; "y"; "x"]%string (Some [0; 0; 23]) None None)) 3 (ZConst 0) (ZConst 0)
    = Ok (outs, r') /\ map snd outs = [m1; m1; m2].
Proof. intros dec. eexists. eexists. split; [vm_compute; reflexivity|reflexivity]. Qed.

(** ** C22 *)

Lemma slice_slice m a k m1 r j m' : 0 <= a -> 0 <= r -> r + j <= k ->
  is_row_slice m a k m1 -> is_row_slice m (a + r) j m' -> is_row_slice m1 r j m'.
Proof.
  intros Ha Hr Hj (A1 & A2 & A3 & A4) (B1 & B2 & B3 & B4).
  assert (KC : km_cols m1 = km_cols m) by (unfold km_cols at 1; rewrite A2; reflexivity).
  split; [congruence|]. rewrite KC. split; [exact B2|]. split; [exact B3|].
  intros i q Hi Hq. rewrite (B4 i q Hi Hq). rewrite A4; [|lia|exact Hq].
  f_equal. lia.
Qed.

Lemma slice_unique m a k x y : 0 <= a -> 0 <= k -> 0 <= km_cols m -> is_row_slice m a k x -> is_row_slice m a k y -> y = x.
Proof.
  intros Ha Hk HC X Y. pose proof X as (X1 & X2 & X3 & X4).
  apply (full_slice x y k (km_cols m) X2 Hk HC X3).
  apply (slice_slice m a k x 0 k y); try lia; [exact X|]. rewrite Z.add_0_r. exact Y.
Qed.

(** A line restricted to rows [a, a+b) (b = 0: from a on) of the stored array [m]; [m1] is the
    restricted array; the caller asks for rows r .. r+n-1 of [m1] (n = 0: from r on). *)
Theorem C22_compose_partial : forall m a b m1 r n,
  (exists R C, k_shape m = Mat R C /\ 0 <= C) -> rows_ok m a b -> rows_of m a b m1 -> rows_ok m1 r n ->
  (n = 0 -> r = 0 \/ b = 0) ->
  exists ro nr, combine_ranges (Some (a, b)) r n = Ok (ro, nr) /\ rows_ok m ro nr /\
    forall m', rows_of m ro nr m' -> rows_of m1 r n m'.
Proof.
  intros m a b m1 r n (R & C & Sh & HC) OK1 R1 OK2 NZ.
  assert (KC : km_cols m = C) by (unfold km_cols; rewrite Sh; reflexivity).
  assert (AB : 0 <= a /\ 0 <= b /\ (~ (a = 0 /\ b = 0) -> a + b <= R)).
  { destruct OK1 as [(-> & ->)|(H1 & H2 & R' & C' & Sh' & H3)]; [lia|]. rewrite Sh in Sh'. injection Sh' as <- <-. lia. }
  destruct AB as (Ha & Hb & HR).
  unfold combine_ranges.
  destruct R1 as [(-> & -> & ->)|(Nab & R' & C' & Sh' & SL)].
  { (* no restriction *)
    rewrite Z.add_0_r. destruct (Z.eqb_spec n 0) as [->|Nn]; cbn [Z.ltb Z.compare bind].
    - exists r, 0. split; [reflexivity|]. split; [exact OK2|auto].
    - exists r, n. split; [reflexivity|]. split; [exact OK2|auto]. }
  rewrite Sh in Sh'. injection Sh' as <- <-. specialize (HR Nab).
  pose proof SL as (_ & Sh1 & _). rewrite KC in Sh1.
  assert (RN : 0 <= r /\ 0 <= n /\ r + n <= req_rows R a b \/ (r = 0 /\ n = 0)).
  { destruct OK2 as [H|(H1 & H2 & R' & C' & Sh' & H3)]; [right; exact H|left]. rewrite Sh1 in Sh'. injection Sh' as <- <-. auto. }
  assert (HRq : 0 <= req_rows R a b /\ a + req_rows R a b <= R /\ (0 < b -> req_rows R a b = b)).
  { unfold req_rows. destruct (Z.eqb_spec b 0); lia. }
  destruct HRq as (Q1 & Q2 & Q3).
  destruct (Z.eqb_spec n 0) as [->|Nn].
  - destruct (Z.eq_dec r 0) as [->|Nr].
    + exists a, b. rewrite Z.add_0_l. split; [reflexivity|]. split; [exact OK1|].
      intros m' [(? & ? & _)|(_ & R' & C' & Sh' & SL')]; [exfalso; apply Nab; auto|].
      rewrite Sh in Sh'. injection Sh' as <- <-. left. split; [reflexivity|]. split; [reflexivity|].
      apply (slice_unique m a (req_rows R a b)); [lia|lia|lia|assumption|assumption].
    + assert (b = 0) by (destruct (NZ eq_refl); [contradiction|assumption]). subst b.
      exists (r + a), 0. split; [reflexivity|]. split.
      * right. split; [lia|]. split; [lia|]. exists R, C. split; [exact Sh|lia].
      * intros m' [(Q & _)|(_ & R' & C' & Sh' & SL')]; [lia|]. rewrite Sh in Sh'. injection Sh' as <- <-.
        right. split; [intros (Q & _); contradiction|]. exists (req_rows R a 0), C. split; [exact Sh1|].
        unfold req_rows in *. cbn [Z.eqb] in *.
        apply (slice_slice m a (R - a) m1 r); try lia; [exact SL|].
        replace (R - (r + a)) with (R - a - r) in SL' by lia. rewrite Z.add_comm in SL'. exact SL'.
  - assert (RN' : 0 <= r /\ 0 < n /\ r + n <= req_rows R a b) by (destruct RN as [H|H]; lia).
    assert (AS : (if 0 <? b then assert (n <=? b) else Ok tt) = Ok tt).
    { destruct (Z.ltb_spec 0 b) as [H|H]; [|reflexivity]. unfold assert. rewrite (Q3 H) in RN'.
      replace (n <=? b) with true by lia. reflexivity. }
    rewrite AS. cbn [bind]. exists (r + a), n. split; [reflexivity|]. split.
    + right. split; [lia|]. split; [lia|]. exists R, C. split; [exact Sh|lia].
    + intros m' [(_ & Q & _)|(_ & R' & C' & Sh' & SL')]; [lia|]. rewrite Sh in Sh'. injection Sh' as <- <-.
      right. split; [intros (_ & Q); contradiction|]. exists (req_rows R a b), C. split; [exact Sh1|].
      assert (E : forall t, req_rows t r n = n) by (intros t; unfold req_rows; replace (n =? 0) with false by lia; reflexivity).
      assert (E' : forall t, req_rows t (r + a) n = n) by (intros t; unfold req_rows; replace (n =? 0) with false by lia; reflexivity).
      rewrite E. rewrite E' in SL'.
      apply (slice_slice m a (req_rows R a b) m1 r); try lia; [exact SL|].
      rewrite Z.add_comm in SL'. exact SL'.
Qed.
Print Assumptions C22_compose_partial.

(** The same through the random-access reader. *)
Theorem C22_reader_partial : forall dec d s es perm k e a b m m1 r n,
  valid s -> cache_ok s -> elements s = Ok es -> last_at es k e -> snd e = Some (a, b) -> line_value dec d e m ->
  (exists R C, k_shape m = Mat R C /\ 0 <= C) -> rows_ok m a b -> rows_of m a b m1 -> rows_ok m1 r n ->
  (n = 0 -> r = 0 \/ b = 0) ->
  exists m' rd', r_read dec d (rreader_new s perm) [k] (ZConst r) (ZConst n) = Ok ([m'], rd') /\ rows_of m1 r n m'.
Proof.
  intros dec d s es perm k e a b m m1 r n V CO Es LA ER (off & dat & EO & St & Vm) Sh OK1 R1 OK2 NZ.
  destruct (C22_compose_partial m a b m1 r n Sh OK1 R1 OK2 NZ) as (ro & nr & CR & OK & G).
  destruct (r_read1_ok dec d s es perm (rreader_new s perm) k e off dat m r n ro nr V Es) as (m' & r' & E & RW & _); auto.
  { apply r_state_new. exact CO. }
  { rewrite ER. exact CR. }
  exists m', r'. split; [|apply G; exact RW].
  unfold r_read. cbn [zarg_len_ok assert bind r_read_loop zarg_at]. rewrite E. reflexivity.
Qed.
Print Assumptions C22_reader_partial.

(** What is missing: an inner offset together with "to the end" or with a length that runs past
    the restriction is not an error; rows outside [a, a+b) are returned. *)
Theorem C22_escape_refuted : forall dec d s es perm k e a b m R C r n,
  valid s -> cache_ok s -> elements s = Ok es -> last_at es k e -> snd e = Some (a, b) -> line_value dec d e m ->
  k_shape m = Mat R C ->
  0 <= a -> 0 < b -> 0 < r -> n = 0 \/ (0 < n <= b /\ b < r + n) ->
  let nr := if n =? 0 then b else n in
  a + r + nr <= R ->
  exists m' rd', r_read dec d (rreader_new s perm) [k] (ZConst r) (ZConst n) = Ok ([m'], rd') /\
    is_row_slice m (a + r) nr m' /\ a + b < a + r + nr.
Proof.
  intros dec d s es perm k e a b m R C r n V CO Es LA ER (off & dat & EO & St & Vm) Sh Ha Hb Hr Hn nr HR.
  assert (CR : combine_ranges (Some (a, b)) r n = Ok (r + a, nr)).
  { unfold combine_ranges, nr. destruct (Z.eqb_spec n 0); [reflexivity|].
    replace (0 <? b) with true by lia. unfold assert. replace (n <=? b) with true by lia. reflexivity. }
  assert (NP : 0 < nr) by (unfold nr; destruct (Z.eqb_spec n 0); lia).
  destruct (r_read1_ok dec d s es perm (rreader_new s perm) k e off dat m r n (r + a) nr V Es) as (m' & r' & E & RW & _); auto.
  { apply r_state_new. exact CO. }
  { rewrite ER. exact CR. }
  { right. split; [lia|]. split; [lia|]. exists R, C. split; [exact Sh|lia]. }
  exists m', r'. split; [|split].
  - unfold r_read. cbn [zarg_len_ok assert bind r_read_loop zarg_at]. rewrite E. reflexivity.
  - destruct RW as [(_ & Q & _)|(_ & R' & C' & Sh' & SL)]; [lia|].
    unfold req_rows in SL. replace (nr =? 0) with false in SL by lia. rewrite Z.add_comm. exact SL.
  - unfold nr. destruct (Z.eqb_spec n 0); lia.
Qed.
Print Assumptions C22_escape_refuted.

(** read_shapes reports the shape of what read returns. *)
Theorem C22_shapes : forall dec d s es perm k e m ro nr,
  valid s -> cache_ok s -> elements s = Ok es -> last_at es k e -> line_value dec d e m ->
  (snd e = None /\ ro = 0 /\ nr = 0 \/ snd e = Some (ro, nr)) -> rows_ok m ro nr ->
  exists m' rd' sh rd2, r_read dec d (rreader_new s perm) [k] (ZConst 0) (ZConst 0) = Ok ([m'], rd') /\
    r_shape1 d (rreader_new s perm) k = Ok (sh, rd2) /\ k_shape m' = sh /\ rows_of m ro nr m'.
Proof.
  intros dec d s es perm k e m ro nr V CO Es LA (off & dat & EO & St & Vm) ER OK.
  assert (CR : combine_ranges (snd e) 0 0 = Ok (ro, nr)) by (destruct ER as [(-> & -> & ->)| ->]; reflexivity).
  destruct (r_read1_ok dec d s es perm (rreader_new s perm) k e off dat m 0 0 ro nr V Es) as (m' & r' & E & RW & _); auto.
  { apply r_state_new. exact CO. }
  assert (AR : apply_range_to_shape (k_shape m) ro nr = Ok (k_shape m')).
  { unfold apply_range_to_shape. destruct RW as [(-> & -> & ->)|(NZ & R & C & Sh & SL)]; [reflexivity|].
    assert (P : 0 <= ro /\ 0 <= nr /\ ro + nr <= R).
    { destruct OK as [(Q1 & Q2)|(H1 & H2 & R' & C' & Sh' & H3)]; [exfalso; auto|]. rewrite Sh in Sh'. injection Sh' as <- <-. auto. }
    destruct SL as (_ & S2 & _). rewrite S2, Sh. assert (KC : km_cols m = C) by (unfold km_cols; rewrite Sh; reflexivity).
    rewrite KC. replace ((0 <? ro) || (0 <? nr)) with true by lia. unfold req_rows.
    destruct (Z.ltb_spec 0 nr); destruct (Z.eqb_spec nr 0); try lia.
    - unfold assert. replace (nr <=? R - ro) with true by lia. reflexivity.
    - reflexivity. }
  destruct (r_shape1_ok dec d s es perm (rreader_new s perm) k e off dat m ro nr (k_shape m') V Es) as (r2 & E2 & _); auto.
  { apply r_state_new. exact CO. }
  exists m', r', (k_shape m'), r2. split; [|split; [exact E2|split; [reflexivity|exact RW]]].
  unfold r_read. cbn [zarg_len_ok assert bind r_read_loop zarg_at]. rewrite E. reflexivity.
Qed.
Print Assumptions C22_shapes.

(** Example: 3 rows, script range [0:2]; row 1 asked for (n = 1), and rows 1.. (n = 0): the
    second answer has row 2 in it. *)
Definition m3 : km := mk_km F32 (Mat 3 1) [le_bytes 4 7; le_bytes 4 8; le_bytes 4 9].
Definition ark3 : list byte := match km_write m3 with Ok a => marker ++ a | _ => [] end.
Definition scp3 : scp := mk_scp ["a"]%string ["x"]%string (Some [0]) (Some [(0, 2)]) None.
Example C22_witness : forall dec, exists r1 r2,
  r_read dec (disk_of "x" ark3) (rreader_new scp3 false) ["a"%string] (ZConst 1) (ZConst 1)
    = Ok ([mk_km F32 (Mat 1 1) [le_bytes 4 8]], r1) /\
  r_read dec (disk_of "x" ark3) (rreader_new scp3 false) ["a"%string] (ZConst 1) (ZConst 0)
    = Ok ([mk_km F32 (Mat 2 1) [le_bytes 4 8; le_bytes 4 9]], r2).
Proof. intros dec. eexists. eexists. split; vm_compute; reflexivity. Qed.
