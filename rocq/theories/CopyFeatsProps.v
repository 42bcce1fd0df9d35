(** C103: copying features between archives, HDF5 files and scripts, with the real readers and writers. *)
From Coq Require Import Permutation Sorted.
From Verif Require Import Base BaseFacts ListUtils ListUtilsProofs ListUtilsProps Str StrFacts Scp ScpProofs ScpHist ScpSplit ScpRound RWSpec.
From Verif Require Import Ark ArkProofs ArkScript ArkHist ArkProps ArkScriptProps H5 H5Proofs H5Props AudioProps CopyFeats.
Import ListNotations.
Open Scope list_scope.
Open Scope Z_scope.

(** ** Specification *)
Notation record := (string * km)%type.
(** A source delivers a list of records, described by one condition each: any sequence of reads returns them one after the other, each once, and the source
    only says it is at its end when all have been returned. *)
Definition delivers (dec : decoder) (w : world) (s : source) (ps : list (record -> Prop)) : Prop :=
  forall Ns, Forall (fun N => 0 <= N) Ns -> exists outs s', read_calls (src_read dec w) s Ns = Ok (outs, s') /\
    Forall2 (Forall2 (fun (p : record -> Prop) x => p x)) (batches Ns ps) outs /\ (src_eof s' = true -> concat (batches Ns ps) = ps).
(** the record x *)
Definition just (x : record) : record -> Prop := fun y => y = x.
(** What a writer makes of a record: the key is kept, and the matrix is what the compression leaves of it *)
Definition kept (dec : decoder) (k : sink) (a x : record) : Prop :=
  fst x = fst a /\ match k with KArk cfg _ => written_as cfg dec (Raw (snd a)) (snd x) | KH5 cfg _ => written5 cfg dec (snd a) (snd x) end.
(** The files the output leaves on disk: the file itself as a source *)
Definition reopened (k : sink) (buf : nat -> nat) : res source :=
  match k with KArk _ st => Ok (SArk (aseq_open (w_ark st) buf)) | KH5 _ st => r <- seq5_open (h_file st) None false ;; Ok (SH5 r) end.
(** Records fit the output format *)
Definition fits_sink (k : sink) (l : list record) : Prop :=
  match k with KArk cfg _ => data_ok cfg (map raw l) | KH5 cfg _ => data5_ok cfg l end.

(** ** Proofs *)
Lemma batches_map {A B} (f : A -> B) Ns : forall l, batches Ns (map f l) = map (map f) (batches Ns l).
Proof.
  induction Ns as [|N Ns IH]; intros l; [reflexivity|]. cbn [batches map]. rewrite map_length, firstn_map, skipn_map, IH. reflexivity.
Qed.
Lemma Forall2_map_l {A B C} (P : B -> C -> Prop) (f : A -> B) l l' : Forall2 P (map f l) l' <-> Forall2 (fun a => P (f a)) l l'.
Proof.
  split; [|induction 1; constructor; assumption]. revert l'. induction l as [|a l IH]; intros l' H; inversion H; subst; constructor; auto.
Qed.
Lemma Forall2_imp {A B} (P Q : A -> B -> Prop) l l' : (forall a b, P a b -> Q a b) -> Forall2 P l l' -> Forall2 Q l l'.
Proof. intros H. induction 1; constructor; auto. Qed.
(** deliveries described by a relation with the items of a list *)
Lemma delivers_rel {A} dec w s (R : A -> record -> Prop) (l : list A) :
  (forall Ns, Forall (fun N => 0 <= N) Ns -> exists outs s', read_calls (src_read dec w) s Ns = Ok (outs, s') /\
    Forall2 (Forall2 R) (batches Ns l) outs /\ (src_eof s' = true -> concat (batches Ns l) = l)) ->
  delivers dec w s (map R l).
Proof.
  intros H Ns HN. destruct (H Ns HN) as (outs & s' & E & F & Q). exists outs, s'. split; [exact E|]. rewrite batches_map. split.
  - apply Forall2_map_l. eapply Forall2_imp; [|exact F]. intros a b G. apply Forall2_map_l. exact G.
  - intros X. rewrite <- concat_map, (Q X). reflexivity.
Qed.
Lemma delivers_eof dec w s ps : delivers dec w s ps -> src_eof s = true -> ps = [].
Proof. intros H E. destruct (H [] (Forall_nil _)) as (outs & s' & R & _ & Q). cbn in R. injection R as <- <-. symmetry. exact (Q E). Qed.
Lemma delivers_step dec w s ps N : delivers dec w s ps -> 0 <= N ->
  let k := if N =? 0 then len ps else Z.to_nat N in
  exists l s', src_read dec w s N = Ok (l, s') /\ Forall2 (fun (p : record -> Prop) x => p x) (firstn k ps) l /\ delivers dec w s' (skipn k ps).
Proof.
  intros H HN k. destruct (H [N] (Forall_cons _ HN (Forall_nil _))) as (outs & s1 & R & F & _). cbn [read_calls] in R.
  destruct (src_read dec w s N) as [[l s']|e] eqn:E; [|discriminate]. cbn [bind] in R. injection R as <- <-. cbn [batches] in F. fold k in F. inversion F as [|? ? ? ? F1 _]; subst.
  exists l, s'. split; [reflexivity|]. split; [exact F1|]. intros Ns HNs. destruct (H (N :: Ns) (Forall_cons _ HN HNs)) as (outs & s2 & R & F2 & Q). cbn [read_calls] in R. rewrite E in R. cbn [bind] in R.
  destruct (read_calls (src_read dec w) s' Ns) as [[ls s3]|e] eqn:E3; [|discriminate]. cbn [bind] in R. injection R as <- <-. exists ls, s3. split; [reflexivity|]. cbn [batches concat] in F2, Q. fold k in F2, Q.
  inversion F2 as [|? ? ? ? _ F3]; subst. split; [exact F3|]. intros X. specialize (Q X). rewrite <- (firstn_skipn k ps) in Q at 3. apply app_inv_head in Q. exact Q.
Qed.
Lemma sink_write_nil k : sink_write k [] = Ok k.
Proof. destruct k; reflexivity. Qed.
Lemma sink_write_app k a b : sink_write k (a ++ b) = (k <- sink_write k a ;; sink_write k b).
Proof.
  destruct k as [cfg st|cfg st]; cbn [sink_write].
  - rewrite map_app, ark_write_app. destruct (ark_write cfg st (map raw a)); reflexivity.
  - rewrite h5_write_app. destruct (h5_write cfg st a); reflexivity.
Qed.
Lemma pump_ok dec w chunk : 0 <= chunk -> forall fuel s ps k, delivers dec w s ps -> (len ps < fuel)%nat ->
  exists l, Forall2 (fun (p : record -> Prop) x => p x) ps l /\ pump dec w fuel chunk s k = sink_write k l.
Proof.
  intros HC. induction fuel as [|fuel IH]; intros s ps k H L; [lia|]. cbn [pump]. destruct (src_eof s) eqn:E.
  - rewrite (delivers_eof _ _ _ _ H E). exists []. split; [constructor|]. rewrite sink_write_nil. reflexivity.
  - destruct (delivers_step _ _ _ _ chunk H HC) as (l & s' & R & F & H'). rewrite R. cbn [bind]. set (n := if chunk =? 0 then len ps else Z.to_nat chunk) in *.
    destruct l as [|x l].
    + exists []. rewrite sink_write_nil. split; [|reflexivity]. inversion F as [Q|]. destruct ps as [|p ps]; [constructor|]. exfalso.
      assert (n <> 0)%nat by (unfold n; destruct (Z.eqb_spec chunk 0); cbn [List.length]; lia). destruct n; [congruence|discriminate].
    + assert (L2 : (len (skipn n ps) < fuel)%nat).
      { rewrite skipn_length. assert (L3 := Forall2_len _ _ _ F). cbn [List.length] in L3. rewrite firstn_length in L3. lia. }
      destruct (sink_write k (x :: l)) as [k'|e] eqn:W; cbn [bind].
      * destruct (IH s' (skipn n ps) k' H' L2) as (l2 & F2 & E2). exists ((x :: l) ++ l2). split; [|rewrite sink_write_app, W; exact E2].
        rewrite <- (firstn_skipn n ps). apply Forall2_app; assumption.
      * (* some list of the remaining records, the write has already failed *)
        assert (X : forall fu s0 qs, (len qs < fu)%nat -> delivers dec w s0 qs -> exists l2, Forall2 (fun (p : record -> Prop) x => p x) qs l2).
        { clear - HC. induction fu as [|fu IHf]; intros s0 qs Lq H0; [lia|]. destruct (delivers_step _ _ _ _ 0 H0 (Z.le_refl 0)) as (l & s' & _ & F & _). cbn [Z.eqb] in F. rewrite firstn_all in F. eauto. }
        destruct (X _ _ _ L2 H') as (l2 & F2). exists ((x :: l) ++ l2). split; [|rewrite sink_write_app, W; reflexivity].
        rewrite <- (firstn_skipn n ps). apply Forall2_app; assumption.
Qed.
(** Copying any inputs, with any chunk size, writes every record of every input once, in order: the output is the one written by a single call. *)
Theorem C103_copy : forall dec w o c chunk ins out k0 srcs pss fuel,
  0 <= chunk -> o_parts o <= 1 \/ (len ins <= 1)%nat -> open_sink o c out = Ok k0 ->
  Forall2 (fun i s => open_source w o i = Ok s) ins srcs -> Forall2 (delivers dec w) srcs pss -> Forall (fun ps => (len ps < fuel)%nat) pss ->
  exists l, Forall2 (fun (p : record -> Prop) x => p x) (concat pss) l /\ copy_feats dec w fuel o c chunk ins out = sink_write k0 l.
Proof.
  intros dec w o c chunk ins out k0 srcs pss fuel HC HP HK HI HD HF. unfold copy_feats.
  replace ((1 <? o_parts o) && (1 <? Z.of_nat (len ins))) with false by (symmetry; apply andb_false_iff; destruct HP; [left; apply Z.ltb_ge; lia|right; apply Z.ltb_ge; lia]).
  rewrite HK. cbn [bind]. clear HK HP. revert pss k0 HD HF. induction HI as [|i s ins srcs E F IH]; intros pss k0 HD HF.
  - inversion HD; subst. exists []. cbn [copy_all]. rewrite sink_write_nil. split; [constructor|reflexivity].
  - inversion HD as [|? ps ? pss' D1 D2]; subst. inversion HF as [|? ? L1 L2]; subst. cbn [copy_all concat]. rewrite E. cbn [bind].
    destruct (pump_ok dec w chunk HC fuel s ps k0 D1 L1) as (l & F1 & P). rewrite P. destruct (sink_write k0 l) as [k1|e] eqn:W; cbn [bind].
    + destruct (IH pss' k1 D2 L2) as (l2 & F2 & E2). exists (l ++ l2). split; [apply Forall2_app; assumption|]. rewrite sink_write_app, W. exact E2.
    + destruct (IH pss' k0 D2 L2) as (l2 & F2 & _). exists (l ++ l2). split; [apply Forall2_app; assumption|]. rewrite sink_write_app, W. reflexivity.
Qed.
Print Assumptions C103_copy.
(** When the inputs hold the records l (one list per input) the output is that of one call with all of them. *)
Corollary C103_copy_records : forall dec w o c chunk ins out k0 srcs ls fuel,
  0 <= chunk -> o_parts o <= 1 \/ (len ins <= 1)%nat -> open_sink o c out = Ok k0 ->
  Forall2 (fun i s => open_source w o i = Ok s) ins srcs -> Forall2 (fun s l => delivers dec w s (map just l)) srcs ls -> Forall (fun l => (len l < fuel)%nat) ls ->
  copy_feats dec w fuel o c chunk ins out = sink_write k0 (concat ls).
Proof.
  intros dec w o c chunk ins out k0 srcs ls fuel HC HP HK HI HD HF.
  destruct (C103_copy dec w o c chunk ins out k0 srcs (map (map just) ls) fuel HC HP HK HI) as (l & F & E).
  - clear - HD. induction HD; constructor; assumption.
  - apply Forall_forall. intros ps Hp. apply in_map_iff in Hp as (l & <- & Hl). rewrite map_length. rewrite Forall_forall in HF. exact (HF l Hl).
  - rewrite E. f_equal. rewrite <- concat_map in F. clear - F. apply Forall2_map_l in F. unfold just in F. induction F as [|a b la lb Q F IH]; [reflexivity|]. congruence.
Qed.
Print Assumptions C103_copy_records.
(** A negative chunk size copies nothing, without any error (if the inputs can be opened). *)
Theorem C103_negative_chunk_refuted : forall dec w o c chunk ins out k0 srcs fuel, chunk < 0 -> o_parts o <= 1 \/ (len ins <= 1)%nat ->
  open_sink o c out = Ok k0 -> Forall2 (fun i s => open_source w o i = Ok s) ins srcs -> (0 < fuel)%nat -> copy_feats dec w fuel o c chunk ins out = Ok k0.
Proof.
  intros dec w o c chunk ins out k0 srcs fuel HC HP HK HI HF. unfold copy_feats.
  replace ((1 <? o_parts o) && (1 <? Z.of_nat (len ins))) with false by (symmetry; apply andb_false_iff; destruct HP; [left; apply Z.ltb_ge; lia|right; apply Z.ltb_ge; lia]).
  rewrite HK. cbn [bind]. clear HK HP. induction HI as [|i s ins srcs E F IH]; [reflexivity|]. cbn [copy_all]. rewrite E. cbn [bind].
  assert (P : pump dec w fuel chunk s k0 = Ok k0); [|rewrite P; exact IH]. destruct fuel as [|fuel]; [lia|]. cbn [pump]. destruct (src_eof s); [reflexivity|].
  assert (Z0 : chunk =? 0 = false) by (apply Z.eqb_neq; lia). assert (Z1 : Z.to_nat chunk = 0%nat) by lia.
  destruct s as [r|r|r|r]; cbn [src_read].
  - unfold aseq_read. rewrite Z0, Z1. cbn [aseq_loop bind]. reflexivity.
  - unfold seq5_read. rewrite Z0, Z1. reflexivity.
  - unfold s_read. rewrite Z0, Z1. reflexivity.
  - unfold sscr5_read. rewrite Z0, Z1. reflexivity.
Qed.
Theorem C103_merge_split : forall dec w fuel o c chunk ins out, 1 < o_parts o -> (1 < len ins)%nat -> copy_feats dec w fuel o c chunk ins out = Err AssertionError.
Proof. intros. unfold copy_feats. rewrite (proj2 (Z.ltb_lt _ _)) by assumption. rewrite (proj2 (Z.ltb_lt _ _)) by lia. reflexivity. Qed.

(** ** The inputs *)
Lemma batches_all {X} Ns : forall l : list X, In 0 Ns \/ Z.of_nat (len l) <= fold_right Z.add 0 Ns -> Forall (fun N => 0 <= N) Ns -> concat (batches Ns l) = l.
Proof.
  induction Ns as [|N Ns IH]; intros l H HN.
  - cbn in *. destruct H as [[]|H]. destruct l; [reflexivity|cbn in H; lia].
  - inversion HN as [|? ? H1 H2]; subst. cbn [batches concat In fold_right] in *. destruct (Z.eqb_spec N 0) as [->|NE].
    + rewrite firstn_all, skipn_all2 by lia. rewrite <- (app_nil_r l) at 2. f_equal. clear. induction Ns as [|N Ns IH]; [reflexivity|]. cbn [batches concat]. rewrite firstn_nil, skipn_nil. exact IH.
    + rewrite IH; [apply firstn_skipn| |exact H2]. destruct H as [[->|H]|H]; [congruence|left; exact H|]. right. rewrite skipn_length. assert (0 <= fold_right Z.add 0 Ns) by (clear - H2; induction H2; cbn; lia). lia.
Qed.
Lemma lift_calls {R} dec w (C : R -> source) (rd : R -> Z -> res (list record * R)) :
  (forall r N, src_read dec w (C r) N = ('(l, r) <- rd r N ;; Ok (l, C r))) -> forall Ns r outs r', read_calls rd r Ns = Ok (outs, r') -> read_calls (src_read dec w) (C r) Ns = Ok (outs, C r').
Proof.
  intros H. induction Ns as [|N Ns IH]; intros r outs r' E; cbn [read_calls] in *; [injection E as <- <-; reflexivity|].
  rewrite H. destruct (rd r N) as [[l r1]|e]; [|discriminate]. cbn [bind] in *. destruct (read_calls rd r1 Ns) as [[ls r2]|e] eqn:E2; [|discriminate]. cbn [bind] in E. injection E as <- <-. rewrite (IH _ _ _ E2). reflexivity.
Qed.
(** An archive delivers what was written to it. *)
Theorem C103_ark_source : forall cfg dec w calls st buf, ark_writes cfg wst0 calls = Ok st -> data_ok cfg (concat calls) ->
  delivers dec w (SArk (aseq_open (w_ark st) buf)) (map (fun a x => fst x = fst a /\ written_as cfg dec (snd a) (snd x)) (concat calls)).
Proof.
  intros cfg dec w calls st buf W D. apply delivers_rel. intros Ns HN. destruct (C19_sequential cfg dec calls st Ns buf W D HN) as (outs & x' & E & F & Q & _).
  exists outs, (SArk x'). split; [apply (lift_calls dec w SArk (fun x N => aseq_read dec x N 0 0)); [reflexivity|exact E]|]. split; [exact F|]. cbn [src_eof]. intros X. apply Q in X. apply batches_all; [|exact HN]. destruct X as [X|X]; [left; exact X|right; lia].
Qed.
Lemma written5_arr cfg dec recs k a m : data5_ok cfg recs -> In (k, a) recs -> written5 cfg dec a m -> arr_ok m.
Proof.
  intros D H Hm. destruct (D k a H) as [A C]. unfold written5 in Hm. destruct (h_compress cfg); [|subst; exact A].
  destruct Hm as (c & Ec & Em). destruct (C c Ec) as (ch & pl & P). destruct (expand_spec dec c ch pl P) as (m' & X & T & S & L & _). rewrite X in Em. injection Em as <-.
  unfold arr_ok. rewrite S. cbn [shape0 stride]. destruct P as [P1 P2 P3 P4 P5 P6 P7 P8]. repeat split; lia.
Qed.
Lemma whole_range cfg dec recs : data5_ok cfg recs -> forall k a, In (k, a) recs -> range5_ok cfg dec a 0 0.
Proof. intros D k a H m Hm. destruct (written5_arr _ _ _ _ _ _ D H Hm) as (A & _). unfold ax0_fits. lia. Qed.
Lemma ax0_whole m x : arr_ok m -> ax0_rows m 0 0 x -> x = m.
Proof.
  intros (A1 & A2 & A3) (H1 & H2 & H3). cbn [Z.eqb] in *. rewrite Z.sub_0_r in *. cbn [Z.mul Z.to_nat skipn] in H3.
  destruct x as [d s l], m as [d' s' l']. cbn [k_dt k_shape k_data] in *. subst d. f_equal; [rewrite H2; destruct s'; reflexivity|]. rewrite H3. apply firstn_all2. apply Nat2Z.inj_le. rewrite A3. destruct s'; cbn [shape0 stride] in *; lia.
Qed.
(** An HDF5 file delivers the records written to it, in the order of their names. *)
Theorem C103_h5_source : forall cfg dec w calls st r, h5_writes cfg w5st0 calls = Ok st -> data5_ok cfg (concat calls) -> seq5_open (h_file st) None false = Ok r ->
  exists recs, Permutation recs (concat calls) /\ StronglySorted (fun x y => leb (fst x) (fst y) = true /\ fst x <> fst y) recs /\
  delivers dec w (SH5 r) (map (fun a x => fst x = fst a /\ written5 cfg dec (snd a) (snd x)) recs).
Proof.
  intros cfg dec w calls st r W D O. destruct (C23_whole_file cfg calls st false W) as (r0 & O' & P & S). rewrite O in O'. injection O' as <-.
  destruct (written_file cfg calls st W) as (_ & ND & NM & _). rewrite NM in ND.
  assert (X : exists recs, map fst recs = q_keys r /\ Permutation recs (concat calls)) by (apply Permutation_sym in P; destruct (Permutation_map_inv _ _ (Permutation_sym P)) as (recs & E & Q); exists recs; split; [symmetry; exact E|apply Permutation_sym; exact Q]).
  destruct X as (recs & EK & PR). exists recs. split; [exact PR|]. split.
  { rewrite <- EK in S. clear - S. induction recs as [|a l IH]; [constructor|]. cbn [map] in S. inversion S as [|? ? S1 S2]; subst. constructor; [apply IH; exact S1|]. rewrite Forall_map in S2. exact S2. }
  apply delivers_rel. intros Ns HN. destruct (C23_sequential_file cfg dec calls st None false r Ns 0 0 W D O (whole_range cfg dec _ D) HN) as (outs & r' & E & F & Q & _).
  exists outs, (SH5 r'). split; [apply (lift_calls dec w SH5 (fun x N => seq5_read dec x N (ZConst 0) (ZConst 0))); [reflexivity|exact E]|]. split.
  - rewrite <- EK, batches_map in F. apply (proj1 (Forall2_map_l _ _ _ _)) in F.
    assert (IN : forall b, In b (batches Ns recs) -> incl b (concat calls)).
    { intros b Hb x Hx. apply (Permutation_in _ PR). destruct (batches_prefix Ns recs) as (left & <-). apply in_or_app. left. apply in_concat. eauto. }
    revert F IN. generalize (batches Ns recs) outs. clear - D ND. intros bs os F. induction F as [|b o bs' os' G F IH]; intros IN; constructor; [|apply IH; intros b' Hb'; apply IN; right; exact Hb'].
    apply (proj1 (Forall2_map_l _ _ _ _)) in G. specialize (IN b (or_introl eq_refl)). induction G as [|a x b o (H1 & a' & Ha' & (m & Wm & Rm)) G IHG]; constructor; [|apply IHG; intros y Hy; apply IN; right; exact Hy].
    split; [exact H1|]. assert (snd a = a').
    { assert (Ia : In (fst a, snd a) (concat calls)) by (rewrite <- surjective_pairing; apply IN; left; reflexivity). clear - ND Ia Ha'. induction (concat calls) as [|y l IHl]; [destruct Ia|]. cbn [map] in ND. inversion ND as [|? ? N1 N2]; subst.
      destruct Ia as [Ia|Ia], Ha' as [Hb|Hb]; [congruence| | |apply IHl; assumption]; exfalso; apply N1; subst y; cbn [fst]; [apply (in_map fst) in Hb; exact Hb|apply (in_map fst) in Ia; exact Ia]. }
    subst a'. assert (m = snd x); [|subst; exact Wm]. symmetry. apply ax0_whole; [|exact Rm]. exact (written5_arr cfg dec _ _ _ _ D Ha' Wm).
  - cbn [src_eof]. intros X. apply Q in X. assert (L : len (q_keys r) = len recs) by (rewrite <- EK; apply map_length). destruct X as [X|X]; [|apply batches_all; [rewrite L in X; exact X|exact HN]].
    rewrite X in L. destruct recs; [|discriminate]. clear. induction Ns as [|N Ns IH]; [reflexivity|]. cbn [batches concat]. rewrite firstn_nil, skipn_nil. exact IH.
Qed.
Print Assumptions C103_ark_source.
Print Assumptions C103_h5_source.

(** A script delivers, line by line, the rows of the record each line points to. *)
Theorem C103_ark_script_source : forall dec w s es, valid s -> elements s = Ok es -> no_revisit0 es -> (forall e, In e es -> servable dec (f_disk w) e 0 0) ->
  delivers dec w (SScpArk (sreader_open s)) (map (fun e x => fst x = fst (fst (fst e)) /\ served dec (f_disk w) e 0 0 (snd x)) es).
Proof.
  intros dec w s es V Es NR SV. apply delivers_rel. intros Ns HN. destruct (C21_sequential_script_partial dec (f_disk w) s es Ns 0 0 V Es NR SV HN) as (outs & r' & E & F & Q & _).
  exists outs, (SScpArk r'). split; [apply (lift_calls dec w SScpArk (fun r N => s_read dec (f_disk w) r N (ZConst 0) (ZConst 0))); [reflexivity|exact E]|]. split; [exact F|]. apply Q.
Qed.
Lemma Forall2_eq_map {A} (l : list A) : Forall2 (fun (p : A -> Prop) x => p x) (map (fun x y => y = x) l) l.
Proof. induction l; constructor; auto. Qed.
Theorem C103_h5_script_source : forall dec w s es vals, valid s -> elements s = Ok es ->
  Forall2 (fun e m => exists d ro nr, line5 (f_h5 w) e d /\ combine_ranges (snd e) 0 0 = Ok (ro, nr) /\ read_h5_data dec d ro nr = Ok m) es vals ->
  delivers dec w (SScpH5 (mk_sscr5 s 0)) (map just (combine (map (fun e => fst (fst (fst e))) es) vals)).
Proof.
  intros dec w s es vals V Es H. apply delivers_rel. intros Ns HN. destruct (C23_sequential_script dec (f_h5 w) s es vals Ns 0 0 V Es HN H) as (r' & E & Q).
  exists (batches Ns (combine (map (fun e => fst (fst (fst e))) es) vals)), (SScpH5 r'). split; [apply (lift_calls dec w SScpH5 (fun x N => sscr5_read dec (f_h5 w) x N (ZConst 0) (ZConst 0))); [reflexivity|exact E]|]. split.
  - generalize (batches Ns (combine (map (fun e => fst (fst (fst e))) es) vals)). intros l. induction l as [|b l IH]; constructor; [|exact IH]. clear. induction b; constructor; [reflexivity|assumption].
  - cbn [src_eof]. intros X. apply Q in X. assert (L : len (combine (map (fun e => fst (fst (fst e))) es) vals) = len es) by (rewrite combine_length, map_length, <- (Forall2_len _ _ _ H); apply Nat.min_id).
    destruct X as [->|X]; [|apply batches_all; [rewrite L; exact X|exact HN]]. cbn. clear. induction Ns as [|N Ns IH]; [reflexivity|]. cbn [batches concat]. rewrite firstn_nil, skipn_nil. exact IH.
Qed.
Print Assumptions C103_ark_script_source.
Print Assumptions C103_h5_script_source.

(** ** Parts: the scripts of parts 1 to P hold together every line of the script once, in order, with the prefix. *)
Definition prefixed (o : option string) (e : entry) : entry :=
  match o with Some p => (fst (fst (fst e)), (p ++ snd (fst (fst e)))%string, snd (fst e), snd e) | None => e end.
Lemma prefix_script o s es : valid s -> elements s = Ok es ->
  let s' := match o with Some p => add_prefix s p | None => s end in valid s' /\ elements s' = Ok (map (prefixed o) es).
Proof.
  intros V Es. destruct o as [p|]; cbn zeta iota.
  - destruct (valid_rows s V) as [R [ho [hr [c ->]]]]. rewrite elements_build in Es. injection Es as <-.
    set (R' := map (fun r : frow => (r_key r, (p ++ r_path r)%string, r_off r, r_rng r) : frow) R).
    assert (E : add_prefix (build R ho hr c) p = build R' ho hr c) by (unfold add_prefix, build, R'; cbn [s_key s_path s_off s_rng s_cache]; rewrite !map_map; f_equal; destruct ho, hr; cbn [opt_col]; rewrite ?map_map; reflexivity).
    rewrite E. split; [apply build_valid|]. rewrite elements_build. f_equal. unfold R'. rewrite !map_map. apply map_ext. intros r. destruct ho, hr; reflexivity.
  - split; [exact V|]. rewrite Es. f_equal. symmetry. apply map_id.
Qed.
Theorem C103_script_parts : forall w path t pre sep P s es, f_text w path = Some t -> scp_load t sep ":" = Ok s -> valid s -> elements s = Ok es -> 1 <= P ->
  exists ss ess, mapM (fun i => open_script w (mk_ropts pre sep i P) path) (arange 1 (P + 1)) = Ok ss /\
    Forall2 (fun s es => valid s /\ elements s = Ok es) ss ess /\ concat ess = map (prefixed pre) es.
Proof.
  intros w path t pre sep P s es Ht Hs V Es HP. set (pf := fun s => match pre with Some p => add_prefix s p | None => s end).
  assert (X : exists ss ess, mapM (fun i => if 1 <? P then scp_split s i P false else Ok s) (arange 1 (P + 1)) = Ok ss /\ Forall2 (fun s es => valid s /\ elements s = Ok es) ss ess /\ concat ess = es).
  { destruct (Z.ltb_spec 1 P) as [L|L].
    - destruct (valid_rows s V) as [R [ho [hr [c ->]]]]. rewrite elements_build in Es. injection Es as <-.
      destruct (split_list_partition_lemma (map r_key R) P HP) as [parts [E1 [E2 [E3 [E4 E5]]]]].
      assert (EL : mapM (fun i => split_loc (map r_key R) i P false) (arange 1 (P + 1)) = Ok (map snd parts)).
      { transitivity (mapM (fun i => kl <- split_list (map r_key R) i P ;; Ok (snd kl)) (arange 1 (P + 1))); [reflexivity|]. rewrite (mapM_bind _ _ _ _ E1). apply mapM_pure. reflexivity. }
      assert (T : take R (concat (map snd parts)) = Ok R) by (rewrite E3, map_length, arange_nat, Z.sub_0_r, Nat2Z.id by lia; apply take_seq).
      destruct (take_parts R _ R T) as [rs [F1 F2]]. exists (map (fun r => build r ho (hr && nonnil r) None) rs), (map (map (ent ho hr)) rs). split; [|split].
      + transitivity (mapM (fun i => loc <- split_loc (map r_key R) i P false ;; r <- take R loc ;; Ok (build r ho (hr && nonnil r) None)) (arange 1 (P + 1))).
        * clear. induction (arange 1 (P + 1)) as [|i l IH]; [reflexivity|]. cbn [mapM]. rewrite IH, scp_split_build. reflexivity.
        * rewrite (mapM_bind _ _ _ _ EL). rewrite (mapM_bind (take R) (fun r => Ok (build r ho (hr && nonnil r) None)) _ rs F1). apply mapM_pure. reflexivity.
      + clear. induction rs as [|r rs IH]; constructor; [|exact IH]. split; [apply build_valid|apply elements_build_nn].
      + rewrite <- concat_map, F2. reflexivity.
    - replace P with 1 by lia. exists [s], [es]. split; [reflexivity|]. split; [constructor; [auto|constructor]|apply app_nil_r]. }
  destruct X as (ss & ess & M & F & C). exists (map pf ss), (map (map (prefixed pre)) ess). split; [|split].
  - transitivity (mapM (fun i => s' <- (if 1 <? P then scp_split s i P false else Ok s) ;; Ok (pf s')) (arange 1 (P + 1))).
    + unfold open_script. cbn [o_sep o_parts o_part o_prefix]. rewrite Ht, Hs. reflexivity.
    + rewrite (mapM_bind _ (fun s' => Ok (pf s')) _ _ M). apply mapM_pure. reflexivity.
  - clear - F. induction F as [|a b la lb [Va Ea] F IH]; constructor; [|exact IH]. exact (prefix_script pre a b Va Ea).
  - rewrite <- concat_map, C. reflexivity.
Qed.
Print Assumptions C103_script_parts.

(** ** From the input's specifier to the records: parts 1 to P of an input deliver together what the input holds. *)
(** Each key once, with what was written under it *)
Lemma h5_part_source cfg dec w calls st part r : h5_writes cfg w5st0 calls = Ok st -> data5_ok cfg (concat calls) -> seq5_open (h_file st) part false = Ok r ->
  delivers dec w (SH5 r) (map (fun k x => fst x = k /\ exists a, In (k, a) (concat calls) /\ written5 cfg dec a (snd x)) (q_keys r)).
Proof.
  intros W D O. apply delivers_rel. intros Ns HN. destruct (C23_sequential_file cfg dec calls st part false r Ns 0 0 W D O (whole_range cfg dec _ D) HN) as (outs & r' & E & F & Q & _).
  exists outs, (SH5 r'). split; [apply (lift_calls dec w SH5 (fun x N => seq5_read dec x N (ZConst 0) (ZConst 0))); [reflexivity|exact E]|]. split.
  - eapply Forall2_imp; [|exact F]. intros b ob G. eapply Forall2_imp; [|exact G]. intros k x (H1 & a & Ha & (m & Wm & Rm)). split; [exact H1|]. exists a. split; [exact Ha|].
    assert (m = snd x); [|subst; exact Wm]. symmetry. apply ax0_whole; [|exact Rm]. exact (written5_arr cfg dec _ _ _ _ D Ha Wm).
  - cbn [src_eof]. intros X. apply Q in X. destruct X as [X|X]; [rewrite X|apply batches_all; [exact X|exact HN]].
    clear. induction Ns as [|N Ns IH]; [reflexivity|]. cbn [batches concat]. rewrite firstn_nil, skipn_nil. exact IH.
Qed.
Theorem C103_open_h5 : forall cfg dec w calls st spec r pre sep P, h5_writes cfg w5st0 calls = Ok st -> data5_ok cfg (concat calls) ->
  r_create (f_text w) spec = Ok r -> rs_type r = R_ARCHIVE -> rs_atype r = Some H5 -> f_h5 w (rs_archive r) = Some (h_file st) -> 1 <= P ->
  exists srcs keyss, mapM (fun i => open_source w (mk_ropts pre sep i P) spec) (arange 1 (P + 1)) = Ok srcs /\
    Permutation (concat keyss) (map fst (concat calls)) /\
    Forall2 (fun s keys => delivers dec w s (map (fun k x => fst x = k /\ exists a, In (k, a) (concat calls) /\ written5 cfg dec a (snd x)) keys)) srcs keyss.
Proof.
  intros cfg dec w calls st spec r pre sep P W D Hr T A Hf HP.
  assert (OS : forall i, open_source w (mk_ropts pre sep i P) spec = (q <- seq5_open (h_file st) (if 1 <? P then Some (i, P) else None) false ;; Ok (SH5 q))).
  { intros i. unfold open_source. rewrite Hr. cbn [bind o_parts o_part]. unfold seq_reader_create. rewrite T, A. unfold open5. rewrite Hf. reflexivity. }
  assert (X : exists rs, mapM (fun i => seq5_open (h_file st) (if 1 <? P then Some (i, P) else None) false) (arange 1 (P + 1)) = Ok rs /\
     Permutation (concat (map q_keys rs)) (map fst (concat calls))).
  { destruct (Z.ltb_spec 1 P) as [L|L]; [apply (C23_parts cfg calls st false P W HP); discriminate|]. replace P with 1 by lia.
    destruct (C23_whole_file cfg calls st false W) as (q & O & PQ & _). exists [q]. split; [change (arange 1 (1 + 1)) with [1]; cbn [mapM]; rewrite O; reflexivity|].
    cbn [map concat]. rewrite app_nil_r. exact PQ. }
  destruct X as (rs & M & PM). exists (map SH5 rs), (map q_keys rs). split; [|split; [exact PM|]].
  - transitivity (mapM (fun i => q <- seq5_open (h_file st) (if 1 <? P then Some (i, P) else None) false ;; Ok (SH5 q)) (arange 1 (P + 1))).
    + clear - OS. induction (arange 1 (P + 1)) as [|i l IH]; [reflexivity|]. cbn [mapM]. rewrite IH, OS. reflexivity.
    + rewrite (mapM_bind _ (fun q => Ok (SH5 q)) _ _ M). apply mapM_pure. reflexivity.
  - apply mapM_ok_iff in M. clear - M W D. induction M as [|i q l rs O M IH]; cbn [map]; constructor; [|exact IH]. exact (h5_part_source cfg dec w calls st _ q W D O).
Qed.
Print Assumptions C103_open_h5.
Lemma open_parts w pre sep P spec r g ss : r_create (f_text w) spec = Ok r -> (forall i s, open_script w (mk_ropts pre sep i P) (rs_archive r) = Ok s -> open_source w (mk_ropts pre sep i P) spec = Ok (g s)) ->
  mapM (fun i => open_script w (mk_ropts pre sep i P) (rs_archive r)) (arange 1 (P + 1)) = Ok ss -> mapM (fun i => open_source w (mk_ropts pre sep i P) spec) (arange 1 (P + 1)) = Ok (map g ss).
Proof.
  intros Hr H M. apply mapM_ok_iff in M. apply mapM_ok_iff. clear Hr. induction M as [|i s l ss O M IH]; cbn [map]; constructor; [apply H; exact O|exact IH].
Qed.
Lemma combine_parts {A B C} (f : A -> B) (ess : list (list A)) : forall (vals : list C), List.length vals = List.length (concat ess) ->
  exists vss, Forall2 (fun es vs => List.length es = List.length vs) ess vss /\ concat vss = vals /\ concat (map (fun p => combine (map f (fst p)) (snd p)) (combine ess vss)) = combine (map f (concat ess)) vals.
Proof.
  induction ess as [|es ess IH]; intros vals L; cbn [concat] in *.
  - destruct vals; [|discriminate]. exists []. repeat split. constructor.
  - rewrite app_length in L. destruct (IH (skipn (List.length es) vals)) as (vss & F & C1 & C2); [rewrite skipn_length; lia|].
    exists (firstn (List.length es) vals :: vss). split; [constructor; [rewrite firstn_length; lia|exact F]|]. cbn [concat combine map fst snd]. rewrite C1, C2. split; [apply firstn_skipn|].
    rewrite map_app. rewrite <- (firstn_skipn (List.length es) vals) at 3. clear IH F C1 C2 vss.
    assert (Q : List.length (map f es) = List.length (firstn (List.length es) vals)) by (rewrite map_length, firstn_length; lia). revert Q.
    generalize (firstn (List.length es) vals) (skipn (List.length es) vals) (map f es) (map f (concat ess)). intros v1 v2 k1 k2. revert v1. induction k1 as [|k k1 IHk]; intros [|v v1] Q; cbn in *; try lia; [reflexivity|]. f_equal. apply IHk. lia.
Qed.
Lemma Forall2_app_eq {A B} (R : A -> B -> Prop) a1 a2 b1 b2 : len a1 = len b1 -> Forall2 R (a1 ++ a2) (b1 ++ b2) -> Forall2 R a1 b1 /\ Forall2 R a2 b2.
Proof.
  revert b1. induction a1 as [|x a1 IH]; intros [|y b1] L H; cbn in *; try lia; [split; [constructor|exact H]|]. inversion H; subst. destruct (IH b1) as [H1 H2]; [lia|assumption|]. split; [constructor; assumption|exact H2].
Qed.
(** a script of HDF5 datasets: the records of its lines, in order *)
Theorem C103_open_h5_script : forall dec w spec r t pre sep P s es vals, r_create (f_text w) spec = Ok r -> rs_type r = R_SCRIPT -> rs_atype r = Some H5 ->
  f_text w (rs_archive r) = Some t -> scp_load t sep ":" = Ok s -> valid s -> elements s = Ok es -> 1 <= P ->
  Forall2 (fun e m => exists d ro nr, line5 (f_h5 w) e d /\ combine_ranges (snd e) 0 0 = Ok (ro, nr) /\ read_h5_data dec d ro nr = Ok m) (map (prefixed pre) es) vals ->
  exists srcs ls, mapM (fun i => open_source w (mk_ropts pre sep i P) spec) (arange 1 (P + 1)) = Ok srcs /\
    Forall2 (fun s l => delivers dec w s (map just l)) srcs ls /\ concat ls = combine (map (fun e => fst (fst (fst e))) es) vals.
Proof.
  intros dec w spec r t pre sep P s es vals Hr T A Ht Hs V Es HP HV.
  destruct (C103_script_parts w (rs_archive r) t pre sep P s es Ht Hs V Es HP) as (ss & ess & M & F & C).
  assert (LV : List.length vals = List.length (concat ess)) by (rewrite C; symmetry; exact (Forall2_len _ _ _ HV)).
  destruct (combine_parts (fun e : entry => fst (fst (fst e))) ess vals LV) as (vss & FV & CV & CC).
  assert (KE : map (fun e : entry => fst (fst (fst e))) es = map (fun e : entry => fst (fst (fst e))) (concat ess)) by (rewrite C, map_map; apply map_ext; intros e; destruct pre; reflexivity).
  exists (map (fun s => SScpH5 (mk_sscr5 s 0)) ss), (map (fun p => combine (map (fun e : entry => fst (fst (fst e))) (fst p)) (snd p)) (combine ess vss)).
  split; [apply (open_parts w pre sep P spec r (fun s => SScpH5 (mk_sscr5 s 0)) ss Hr); [|exact M]|].
  - intros i s' O. unfold open_source. rewrite Hr. cbn [bind]. unfold seq_reader_create. rewrite T, A, O. reflexivity.
  - split; [|rewrite CC; f_equal; symmetry; exact KE]. rewrite <- C, <- CV in HV. clear - F FV HV. revert ss F vss FV HV. induction ess as [|es ess IH]; intros ss F vss FV HV; inversion F as [|s' ? ss' ? H1 F1]; inversion FV as [|? vs ? vss' L FV1]; subst; cbn [map combine fst snd]; constructor.
    + destruct H1 as [V Es]. apply (C103_h5_script_source dec w _ es _ V Es). cbn [concat] in HV. exact (proj1 (Forall2_app_eq _ _ _ _ _ L HV)).
    + apply IH; [assumption|assumption|]. cbn [concat] in HV. exact (proj2 (Forall2_app_eq _ _ _ _ _ L HV)).
Qed.
Print Assumptions C103_open_h5_script.
Lemma no_revisit0_app a b : no_revisit0 (a ++ b) -> no_revisit0 a /\ no_revisit0 b.
Proof.
  intros H. split; intros j e e' E E'.
  - apply (H j); [rewrite nth_error_app1; [exact E|apply nth_error_Some; congruence]|rewrite nth_error_app1; [exact E'|apply nth_error_Some; congruence]].
  - apply (H (len a + j)%nat); [rewrite nth_error_app2 by lia; replace (len a + j - len a)%nat with j by lia; exact E|].
    rewrite nth_error_app2 by lia. replace (S (len a + j) - len a)%nat with (S j) by lia. exact E'.
Qed.
(** a script of archives *)
Theorem C103_open_ark_script : forall dec w spec r t pre sep P s es, r_create (f_text w) spec = Ok r -> rs_type r = R_SCRIPT -> rs_atype r <> Some H5 ->
  f_text w (rs_archive r) = Some t -> scp_load t sep ":" = Ok s -> valid s -> elements s = Ok es -> 1 <= P ->
  no_revisit0 (map (prefixed pre) es) -> (forall e, In e es -> servable dec (f_disk w) (prefixed pre e) 0 0) ->
  exists srcs ess, mapM (fun i => open_source w (mk_ropts pre sep i P) spec) (arange 1 (P + 1)) = Ok srcs /\ concat ess = map (prefixed pre) es /\
    Forall2 (fun s es => delivers dec w s (map (fun e x => fst x = fst (fst (fst e)) /\ served dec (f_disk w) e 0 0 (snd x)) es)) srcs ess.
Proof.
  intros dec w spec r t pre sep P s es Hr T A Ht Hs V Es HP NR SV.
  destruct (C103_script_parts w (rs_archive r) t pre sep P s es Ht Hs V Es HP) as (ss & ess & M & F & C).
  exists (map (fun s => SScpArk (sreader_open s)) ss), ess.
  split; [apply (open_parts w pre sep P spec r (fun s => SScpArk (sreader_open s)) ss Hr); [|exact M]|].
  - intros i s' O. unfold open_source. rewrite Hr. cbn [bind]. unfold seq_reader_create. rewrite T. destruct (rs_atype r) as [[|]|]; [congruence| |]; rewrite O; reflexivity.
  - split; [exact C|]. assert (SV' : forall e, In e (concat ess) -> servable dec (f_disk w) e 0 0) by (rewrite C; intros e He; apply in_map_iff in He; destruct He as (e0 & <- & He); apply SV; exact He).
    rewrite <- C in NR. clear - F NR SV'. induction F as [|s' es ss ess [V Es] F IH]; cbn [map concat] in *; constructor.
    + apply (C103_ark_script_source dec w s' es V Es (proj1 (no_revisit0_app _ _ NR))). intros e He. apply SV'. apply in_or_app. left. exact He.
    + apply IH; [exact (proj2 (no_revisit0_app _ _ NR))|]. intros e He. apply SV'. apply in_or_app. right. exact He.
Qed.
Print Assumptions C103_open_ark_script.
(** an archive, in one part *)
Theorem C103_open_ark : forall cfg dec w calls st buf spec r pre sep i P, ark_writes cfg wst0 calls = Ok st -> data_ok cfg (concat calls) ->
  r_create (f_text w) spec = Ok r -> rs_type r = R_ARCHIVE -> rs_atype r <> Some H5 ->
  d_bytes (f_disk w) (rs_archive r) = Some (w_ark st) -> d_buf (f_disk w) (rs_archive r) = buf -> P <= 1 ->
  exists s, open_source w (mk_ropts pre sep i P) spec = Ok s /\
    delivers dec w s (map (fun a x => fst x = fst a /\ written_as cfg dec (snd a) (snd x)) (concat calls)).
Proof.
  intros cfg dec w calls st buf spec r pre sep i P W D Hr T A Hb Hu HP. exists (SArk (aseq_open (w_ark st) buf)). split; [|exact (C103_ark_source cfg dec w calls st buf W D)].
  unfold open_source. rewrite Hr. cbn [bind o_parts]. unfold seq_reader_create. rewrite T. unfold d_open. rewrite Hb, Hu.
  replace (1 <? P) with false by lia. destruct (rs_atype r) as [[|]|]; [congruence| |]; reflexivity.
Qed.
Print Assumptions C103_open_ark.

(** ** The output *)
Lemma raw_concat l : map raw l = concat [map raw l].
Proof. cbn. symmetry. apply app_nil_r. Qed.
Definition fresh_sink (k : sink) : Prop := match k with KArk _ st => st = wst0 | KH5 _ st => st = w5st0 end.
(** The output, read again, delivers every record copied, once: in the order of copying for an archive, in the order of the names for an HDF5 file. *)
Theorem C103_output : forall dec w k0 l k buf, fresh_sink k0 -> sink_write k0 l = Ok k -> fits_sink k0 l ->
  exists s l', reopened k buf = Ok s /\ Permutation l' l /\ delivers dec w s (map (kept dec k) l') /\
    match k with KArk _ _ => l' = l | KH5 _ _ => StronglySorted (fun x y => leb (fst x) (fst y) = true /\ fst x <> fst y) l' end.
Proof.
  intros dec w k0 l k buf FR W FT. destruct k0 as [cfg st|cfg st]; cbn [fresh_sink sink_write fits_sink] in *; subst st.
  - destruct (ark_write cfg wst0 (map raw l)) as [st|e] eqn:E; [|discriminate]. injection W as <-. exists (SArk (aseq_open (w_ark st) buf)), l. split; [reflexivity|]. split; [apply Permutation_refl|]. split; [|reflexivity].
    assert (E1 : ark_writes cfg wst0 [map raw l] = Ok st) by (rewrite ark_writes_concat, <- raw_concat; exact E). assert (D1 : data_ok cfg (concat [map raw l])) by (rewrite <- raw_concat; exact FT).
    assert (D := C103_ark_source cfg dec w _ st buf E1 D1). rewrite <- raw_concat, map_map in D. exact D.
  - destruct (h5_write cfg w5st0 l) as [st|e] eqn:E; [|discriminate]. injection W as <-.
    assert (E1 : h5_writes cfg w5st0 [l] = Ok st) by (cbn [h5_writes]; rewrite E; reflexivity). assert (C1 : concat [l] = l) by (cbn; apply app_nil_r).
    destruct (C23_whole_file cfg [l] st false E1) as (r & O & _). destruct (C103_h5_source cfg dec w [l] st r E1) as (recs & P & S & D); [rewrite C1; exact FT|exact O|]. rewrite C1 in P.
    exists (SH5 r), recs. split; [cbn [reopened]; rewrite O; reflexivity|]. split; [exact P|]. split; [exact D|exact S].
Qed.
Print Assumptions C103_output.
Lemma open_sink_fresh o c out k : open_sink o c out = Ok k -> fresh_sink k.
Proof.
  unfold open_sink. destruct (w_create out) as [s|e]; [|discriminate]. cbn [bind]. destruct (writer_create s) as [[[a sc fl|a sc b fl]|]|e]; cbn [bind]; try discriminate; [intros [= <-]; reflexivity|]. destruct b; [intros [= <-]; reflexivity|discriminate].
Qed.
Definition sink_compress (k : sink) : bool := match k with KArk cfg _ => w_compress cfg | KH5 cfg _ => h_compress cfg end.
Lemma open_sink_compress o c out k : open_sink o c out = Ok k -> sink_compress k = c_compress c.
Proof.
  unfold open_sink. destruct (w_create out) as [s|e]; [|discriminate]. cbn [bind]. destruct (writer_create s) as [[[a sc fl|a sc b fl]|]|e]; cbn [bind]; try discriminate; [intros [= <-]; reflexivity|]. destruct b; [intros [= <-]; reflexivity|discriminate].
Qed.
Lemma write_compress k l k' : sink_write k l = Ok k' -> sink_compress k' = sink_compress k.
Proof. destruct k as [cfg st|cfg st]; cbn [sink_write]; intros H; [destruct (ark_write cfg st (map raw l))|destruct (h5_write cfg st l)]; try discriminate; injection H as <-; reflexivity. Qed.
(** Converting without compression: the records read from the output are exactly those of the inputs. *)
Theorem C103_convert : forall dec w o c chunk ins out k0 srcs ls fuel k buf,
  0 <= chunk -> o_parts o <= 1 \/ (len ins <= 1)%nat -> open_sink o c out = Ok k0 -> c_compress c = false ->
  Forall2 (fun i s => open_source w o i = Ok s) ins srcs -> Forall2 (fun s l => delivers dec w s (map just l)) srcs ls -> Forall (fun l => (len l < fuel)%nat) ls ->
  copy_feats dec w fuel o c chunk ins out = Ok k -> fits_sink k0 (concat ls) ->
  exists s l', reopened k buf = Ok s /\ Permutation l' (concat ls) /\ delivers dec w s (map just l') /\
    match k with KArk _ _ => l' = concat ls | KH5 _ _ => StronglySorted (fun x y => leb (fst x) (fst y) = true /\ fst x <> fst y) l' end.
Proof.
  intros dec w o c chunk ins out k0 srcs ls fuel k buf HC HP HK HNC HI HD HF HW FT.
  rewrite (C103_copy_records dec w o c chunk ins out k0 srcs ls fuel HC HP HK HI HD HF) in HW.
  destruct (C103_output dec w k0 (concat ls) k buf (open_sink_fresh _ _ _ _ HK) HW FT) as (s & l' & R & P & D & S). exists s, l'. split; [exact R|]. split; [exact P|]. split; [|exact S].
  assert (NC : sink_compress k = false) by (rewrite (write_compress _ _ _ HW), (open_sink_compress _ _ _ _ HK); exact HNC).
  intros Ns HN. destruct (D Ns HN) as (outs & s' & E & F & Q). exists outs, s'. split; [exact E|]. rewrite batches_map in F |- *. split.
  - apply Forall2_map_l. apply (proj1 (Forall2_map_l _ _ _ _)) in F. eapply Forall2_imp; [|exact F]. intros b ob G. apply Forall2_map_l. apply (proj1 (Forall2_map_l _ _ _ _)) in G. eapply Forall2_imp; [|exact G].
    intros a x (K1 & K2). unfold just. destruct a as [ka ma], x as [kx mx]. cbn [fst snd] in *. subst kx. f_equal. destruct k as [cfg st|cfg st]; cbn [sink_compress] in NC.
    + destruct K2 as (d & C1 & C2). unfold convert_data in C1. rewrite NC in C1. injection C1 as <-. cbn in C2. congruence.
    + unfold written5 in K2. rewrite NC in K2. exact K2.
  - intros X. specialize (Q X). rewrite batches_map, <- concat_map in Q. rewrite <- concat_map. f_equal. apply (f_equal (@List.length _)) in Q. rewrite !map_length in Q. destruct (batches_prefix Ns l') as (left & EL).
    destruct left as [|y left]; [rewrite app_nil_r in EL; exact EL|]. exfalso. apply (f_equal (@List.length _)) in EL. rewrite app_length in EL. cbn in EL. lia.
Qed.
Print Assumptions C103_convert.
(** Two records with the same key cannot be copied to an HDF5 file. *)
Theorem C103_duplicate : forall cfg l, ~ NoDup (map fst l) -> exists e, sink_write (KH5 cfg w5st0) l = Err e.
Proof.
  intros cfg l H. cbn [sink_write]. destruct (h5_write cfg w5st0 l) as [st|e] eqn:E; [|eexists; reflexivity]. exfalso. apply H.
  assert (E1 : h5_writes cfg w5st0 [l] = Ok st) by (cbn [h5_writes]; rewrite E; reflexivity). destruct (written_file cfg [l] st E1) as (_ & ND & NM & _). rewrite NM in ND. cbn in ND. rewrite app_nil_r in ND. exact ND.
Qed.
(** An output that is only a script opens no writer, an archive file cannot be split. *)
Theorem C103_script_only : forall dec w fuel o c chunk ins out s, (o_parts o <= 1 \/ (len ins <= 1)%nat) -> w_create out = Ok s -> w_type s = W_SCRIPT -> copy_feats dec w fuel o c chunk ins out = Err AttributeError.
Proof.
  intros dec w fuel o c chunk ins out s HP E T. unfold copy_feats.
  replace ((1 <? o_parts o) && (1 <? Z.of_nat (len ins))) with false by (symmetry; apply andb_false_iff; destruct HP; [left; apply Z.ltb_ge; lia|right; apply Z.ltb_ge; lia]).
  unfold open_sink. rewrite E. cbn [bind]. unfold writer_create. rewrite T. reflexivity.
Qed.
Theorem C103_ark_no_parts : forall dec w fuel o c chunk i out r f k0, 1 < o_parts o -> open_sink o c out = Ok k0 -> r_create (f_text w) i = Ok r -> seq_reader_create r = FileArk -> d_open (f_disk w) (rs_archive r) = Ok f ->
  copy_feats dec w fuel o c chunk [i] out = Err NotImplemented.
Proof. intros dec w fuel o c chunk i out r f k0 HP HK HR HS HD. unfold copy_feats. rewrite andb_false_r, HK. cbn [bind copy_all]. unfold open_source. rewrite HR. cbn [bind]. rewrite HS, HD. cbn [bind]. rewrite (proj2 (Z.ltb_lt _ _) HP). reflexivity. Qed.
Print Assumptions C103_duplicate.
Print Assumptions C103_script_only.
Print Assumptions C103_ark_no_parts.

(** ** Witnesses *)
Definition w_ark_bytes : list byte := match ark_writes cfg0 wst0 calls0 with Ok st => w_ark st | Err _ => [] end.
Definition w_world : world := mk_world (fun _ => None) (disk_of "a.ark" w_ark_bytes) (fun p => if String.eqb p "c.h5" then Some [("u0"%string, DRaw m3)] else None).
Definition w_c : wopts := mk_wopts false (fun _ => Err ValueError) (fun _ => Err ValueError).
Definition w_o : ropts := mk_ropts None " " 1 1.
(** two inputs of different kinds merged into an HDF5 file, then read again *)
Example C103_w1 : forall dec, exists cfg st r, copy_feats dec w_world 5 w_o w_c 1 ["ark:a.ark"; "c.h5"]%string "h5,scp:b.h5,b.scp" = Ok (KH5 cfg st) /\
  map fst (h_file st) = ["u1"; "u2"; "u0"]%string /\ h_scp st = ("u1 b.h5" ++ nl_str ++ "u2 b.h5" ++ nl_str ++ "u0 b.h5" ++ nl_str)%string /\
  reopened (KH5 cfg st) (fun _ => 0%nat) = Ok (SH5 r) /\ q_keys r = ["u0"; "u1"; "u2"]%string.
Proof. intros dec. eexists _, _, _. split; [vm_compute; reflexivity|]. repeat split; vm_compute; reflexivity. Qed.
(** the archive satisfies the conditions *)
Lemma delivers_weaken {A} dec w s (f g : A -> record -> Prop) l : (forall a x, f a x -> g a x) -> delivers dec w s (map f l) -> delivers dec w s (map g l).
Proof.
  intros H D. apply delivers_rel. intros Ns HN. destruct (D Ns HN) as (outs & s' & E & F & Q). exists outs, s'. split; [exact E|]. rewrite batches_map in F, Q. split.
  - apply (proj1 (Forall2_map_l _ _ _ _)) in F. eapply Forall2_imp; [|exact F]. intros b ob G. apply (proj1 (Forall2_map_l _ _ _ _)) in G. eapply Forall2_imp; [|exact G]. exact H.
  - intros X. specialize (Q X). rewrite <- concat_map in Q. apply (f_equal (@List.length _)) in Q. rewrite !map_length in Q. destruct (batches_prefix Ns l) as (left & EL).
    destruct left as [|y left]; [rewrite app_nil_r in EL; exact EL|]. exfalso. apply (f_equal (@List.length _)) in EL. rewrite app_length in EL. cbn in EL. lia.
Qed.
Example C103_w2 : forall dec, exists s, open_source w_world w_o "ark:a.ark" = Ok s /\ delivers dec w_world s (map just [("u1", m1); ("u2", m2)]%string).
Proof.
  intros dec. eexists. split; [vm_compute; reflexivity|]. destruct (C19_witness dec) as (st & _ & D & _).
  assert (E : exists st', ark_writes cfg0 wst0 calls0 = Ok st' /\ w_ark st' = w_ark_bytes) by (eexists; split; vm_compute; reflexivity). destruct E as (st' & E & EB).
  assert (X := C103_ark_source cfg0 dec w_world calls0 st' (fun _ => 0%nat) E D). rewrite EB in X.
  apply (delivers_weaken dec w_world _ (fun a x => fst x = fst a /\ written_as cfg0 dec (Raw (snd a)) (snd x))); [|exact X].
  intros [ka ma] [kx mx] (K1 & d & C1 & C2). cbn in *. injection C1 as <-. cbn in C2. unfold just. congruence.
Qed.
(** an HDF5 file opened as two parts *)
Example C103_w3 : exists cfg st r srcs q1 q2, h5_writes cfg w5st0 [[("u2", m2); ("u0", m3)]; [("u1", m1)]]%string = Ok st /\
  let w := mk_world (fun _ => None) (disk_of "a.ark" []) (fun p => if String.eqb p "c.h5" then Some (h_file st) else None) in
  r_create (f_text w) "c.h5" = Ok r /\ rs_type r = R_ARCHIVE /\ rs_atype r = Some H5 /\ f_h5 w (rs_archive r) = Some (h_file st) /\
  mapM (fun i => open_source w (mk_ropts None " " i 2) "c.h5") (arange 1 3) = Ok srcs /\ srcs = [SH5 q1; SH5 q2] /\ q_keys q1 = ["u0"]%string /\ q_keys q2 = ["u1"; "u2"]%string.
Proof. exists (mk_w5cfg "c.h5" " " false (fun _ => Err ValueError)). do 5 eexists. repeat split; vm_compute; reflexivity. Qed.
