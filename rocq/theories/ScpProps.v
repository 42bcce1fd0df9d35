(** Properties C05 - C09 (hyperion/utils/scp_list.py).

    Vocabulary of the statements (defined in Scp*.v, repeated here in words):
    - [elements s]: the list scp[0], ..., scp[len-1] read through __getitem__, each one
      (key, path, offset or None, range or None);
    - [valid s]: all the columns have the same length, what the constructor enforces;
    - [scp_run s ops]: the object obtained from [s] by a history of operations;
    - [scp_calls s cs]: the object after a history of method calls (lookups fill the cache);
    - [row_le e e0]: same key and path, offset (range) equal or forgotten. *)
From Verif Require Import Base BaseFacts ListUtils ListUtilsProofs Str StrFacts Scp ScpProofs ScpHist ScpSplit ScpRound.
Open Scope Z_scope.

(** The constructor establishes [valid] (so every object satisfies it), and the elements of a
    valid list are its rows. *)
Theorem C05_constructor_valid : forall k p o r s,
  scp_new k p o r = Ok s -> valid s /\ s_cache s = None.
Proof. exact scp_new_valid. Qed.

(** C05: any history of sort / shuffle / filter / filter_paths / filter_index / split / merge,
    with any arguments (any index arrays for sort and shuffle). *)
Theorem C05_rows_never_mixed : forall ops s s',
  valid s -> Forall op_valid ops -> scp_run s ops = Ok s' ->
  valid s' /\ exists es', elements s' = Ok es' /\
  forall e, In e es' -> exists src es e0,
    (src = s \/ exists o, In o ops /\ In src (op_sources o)) /\
    elements src = Ok es /\ In e0 es /\ row_le e e0.
Proof. exact history_lemma. Qed.
Print Assumptions C05_rows_never_mixed.

(** Without merge nothing is ever forgotten: rows are whole. *)
Theorem C05_rows_whole_without_merge : forall ops s s' es,
  valid s -> forallb (fun o => negb (is_merge o)) ops = true ->
  elements s = Ok es -> scp_run s ops = Ok s' ->
  exists es', elements s' = Ok es' /\ incl es' es.
Proof. exact history_nomerge_lemma. Qed.
Print Assumptions C05_rows_whole_without_merge.

(** merge: the concatenation of the rows; offsets (ranges) survive iff the FIRST list has
    them. *)
Theorem C05_merge_concatenates : forall ls s',
  Forall valid ls -> scp_merge ls = Ok s' ->
  exists s0 rest ess, ls = s0 :: rest /\ mapM elements ls = Ok ess /\
    elements s' = Ok (map (forget (has (s_off s0)) (has (s_rng s0))) (concat ess)).
Proof. exact merge_elements. Qed.
Print Assumptions C05_merge_concatenates.

(** merge of lists that agree on having offsets / ranges succeeds *)
Theorem C05_merge_total : forall s0 rest,
  Forall valid (s0 :: rest) ->
  Forall (fun s => has (s_off s0) = true -> has (s_off s) = true) rest ->
  Forall (fun s => has (s_rng s0) = true -> has (s_rng s) = true) rest ->
  exists s', scp_merge (s0 :: rest) = Ok s'.
Proof. exact merge_total. Qed.

Definition demo : scp :=
  mk_scp ["b";"a";"c";"a"]%string ["f1";"f2";"f3";"f4"]%string (Some [11;22;33;44])
         (Some [(0,5);(3,0);(0,0);(7,2)]) None.

(** C05 as stated in English ("whole rows") is FALSE of merge: a row loses its offset because
    another list has none. *)
Theorem C05_merge_forgets_offsets_refuted :
  exists s0 s1 s' e, valid s0 /\ valid s1 /\ scp_merge [s0; s1] = Ok s' /\
    (exists es1, elements s1 = Ok es1 /\ In e es1 /\ exists z, snd (fst e) = Some z) /\
    (forall es', elements s' = Ok es' -> ~ In e es').
Proof.
  exists (mk_scp ["x"%string] ["p"%string] None None None), demo.
  eexists _, ("b"%string, "f1"%string, Some 11, Some (0, 5)).
  split; [repeat split; discriminate|].
  split; [repeat split; intros ? E; inversion E; reflexivity|].
  split; [reflexivity|]. split.
  - eexists. split; [reflexivity|]. split; [left; reflexivity|]. exists 11. reflexivity.
  - intros es' E. vm_compute in E. inversion E; subst. intros [Q|[Q|[Q|[Q|[Q|[]]]]]]; inversion Q.
Qed.
Print Assumptions C05_merge_forgets_offsets_refuted.

(** sort: a permutation of the rows, ordered by key, for whatever valid argsort numpy
    computes. *)
Theorem C05_sort_permutes : forall s es idx s',
  valid s -> elements s = Ok es -> is_argsort (s_key s) idx -> scp_sort idx s = Ok s' ->
  exists es', elements s' = Ok es' /\ Permutation es' es /\
    Sorted (fun a b => leb a b = true) (map (fun e : entry => fst (fst (fst e))) es') /\
    take es (map Z.of_nat idx) = Ok es'.
Proof. exact sort_lemma. Qed.
Print Assumptions C05_sort_permutes.

Theorem C05_sort_total : forall s idx,
  valid s -> is_argsort (s_key s) idx -> exists s', scp_sort idx s = Ok s'.
Proof. exact sort_total. Qed.

Theorem C05_shuffle_permutes : forall s es idx,
  valid s -> elements s = Ok es -> Permutation idx (seq 0 (List.length (s_key s))) ->
  exists s' es', scp_shuffle idx s = Ok (s', idx) /\ elements s' = Ok es' /\ Permutation es' es /\
    take es (map Z.of_nat idx) = Ok es'.
Proof. exact shuffle_lemma. Qed.
Print Assumptions C05_shuffle_permutes.

Example C05_witness :
  scp_run demo [OpSort [1;3;0;2]%nat; OpFilter ["a";"c"]%string true; OpMerge [demo] [];
                OpFilterIndex [0;-1] true]
  = Ok (mk_scp ["b";"c"]%string ["f1";"f3"]%string (Some [11;33]) (Some [(0,5);(0,0)]) None)
  /\ is_argsort (s_key demo) [1;3;0;2]%nat.
Proof.
  split; [reflexivity|]. split.
  - apply NoDup_perm_seq.
    + repeat constructor; simpl; intuition discriminate.
    + intros i. simpl. lia.
  - eexists. split; [reflexivity|]. repeat constructor.
Qed.

(** C06 *)
Theorem C06_lookup_never_stale : forall s0 cs s k,
  valid s0 -> s_cache s0 = None -> scp_calls s0 cs = Ok s ->
  (* get_index *)
  match fst (get_index s k) with
  | Ok i => 0 <= i /\ nth_error (s_key s) (Z.to_nat i) = Some k /\
            (forall j, (Z.to_nat i < j)%nat -> nth_error (s_key s) j <> Some k)
  | Err e => e = KeyError /\ ~ In k (s_key s)
  end /\
  (* in *)
  (fst (contains s k) = true <-> In k (s_key s)) /\
  (* scp[key] *)
  exists es, elements s = Ok es /\
  match fst (getitem_key s k) with
  | Ok (p, o, r) => exists i, nth_error es i = Some (k, p, o, r) /\
        (forall j e, (i < j)%nat -> nth_error es j = Some e -> fst (fst (fst e)) <> k)
  | Err e => e = KeyError /\ ~ In k (s_key s)
  end.
Proof.
  intros s0 cs s k V0 C0 E. destruct (calls_ok cs s0 s V0 (or_introl C0) E) as [V C].
  split; [apply get_index_spec; exact C|]. split; [apply contains_spec; exact C|].
  destruct (elements_ent s V) as [R [Es _]]. eexists. split; [exact Es|].
  apply getitem_key_spec; assumption.
Qed.
Print Assumptions C06_lookup_never_stale.

Example C06_witness :
  exists s, scp_calls demo [CGetIndex "a"; CSort [1;3;0;2]%nat; CGetItem "b"; CAddPrefix "d/"; CShuffle [3;2;1;0]%nat; CContains "c"]%string = Ok s
  /\ fst (get_index s "b"%string) = Ok 1 /\ fst (getitem_key s "a"%string) = Ok ("d/f2"%string, Some 22, Some (3, 0)).
Proof. eexists. split; [reflexivity|]. split; reflexivity. Qed.

(** C07: what [load] returns after [save]: the same columns; the range column disappears iff
    all ranges are (0,0). *)
Theorem C07_save_load_roundtrip : forall s es sep osep,
  valid s -> elements s = Ok es -> es <> [] -> sep_ok sep osep -> Forall (savable sep osep) es ->
  (forall l, s_rng s = Some l -> exists r, In r l /\ r <> (0, 0)) ->
  exists s', scp_load (scp_save s sep osep) sep osep = Ok s' /\ elements s' = Ok es /\
    s_key s' = s_key s /\ s_path s' = s_path s /\ s_off s' = s_off s /\ s_rng s' = s_rng s.
Proof.
  intros s es sep osep V Es NE SO F HR. destruct (valid_rows s V) as [R [ho [hr [c ->]]]].
  rewrite elements_build in Es. inversion Es; subst es.
  assert (F' : Forall (row_ok sep osep ho hr) R).
  { apply Forall_forall. intros r Hr. rewrite Forall_forall in F. apply F. apply in_map. exact Hr. }
  exists (build R ho hr None).
  assert (EX : existsb (has_rtxt hr) R = hr).
  { destruct hr.
    - simpl in HR. destruct (HR _ eq_refl) as [rg [Hi Hn]]. apply in_map_iff in Hi as [r [<- Hr]].
      apply existsb_exists. exists r. split; [exact Hr|]. unfold has_rtxt. simpl.
      apply negb_true_iff. destruct (r_rng r) as [a b]. simpl.
      destruct ((a =? 0) && (b =? 0)) eqn:Q; [|reflexivity]. exfalso. apply Hn.
      apply andb_true_iff in Q as [Q1 Q2]. apply Z.eqb_eq in Q1, Q2. congruence.
    - clear. induction R as [|r R IH]; [reflexivity|exact IH]. }
  split.
  - rewrite load_save_rows by (try assumption; intros ->; apply NE; reflexivity). rewrite EX. reflexivity.
  - rewrite elements_build. repeat split.
Qed.
Print Assumptions C07_save_load_roundtrip.

Example C07_witness :
  scp_save demo " " ":" = ("b f1:11[0:5]" ++ nl_str ++ "a f2:22[3:]" ++ nl_str ++ "c f3:33" ++ nl_str ++ "a f4:44[7:9]" ++ nl_str)%string
  /\ scp_load (scp_save demo " " ":") " " ":" = Ok demo
  /\ (exists es, elements demo = Ok es /\ Forall (savable " " ":") es).
Proof.
  split; [reflexivity|]. split; [reflexivity|]. eexists. split; [reflexivity|].
  repeat constructor; try reflexivity; try discriminate;
  intros; try (match goal with H : Some _ = Some _ |- _ => inversion H end); lia.
Qed.

(** The conditions are needed: an all-(0,0) range column, an empty list, and a path that
    contains the offset separator do not survive. *)
Theorem C07_all_zero_ranges_refuted :
  exists s s', valid s /\ scp_load (scp_save s " " ":") " " ":" = Ok s' /\ s_rng s <> None /\ s_rng s' = None.
Proof.
  exists (mk_scp ["k"%string] ["p"%string] (Some [3]) (Some [(0,0)]) None). eexists.
  split; [repeat split; intros ? E; inversion E; reflexivity|]. split; [reflexivity|]. split; [discriminate|reflexivity].
Qed.
Theorem C07_empty_list_refuted :
  exists s, valid s /\ s_key s = [] /\ scp_load (scp_save s " " ":") " " ":" = Err IndexError.
Proof. exists (mk_scp [] [] None None None). split; [repeat split; discriminate|]. split; reflexivity. Qed.
Theorem C07_path_with_separator_refuted :
  exists s s', valid s /\ scp_load (scp_save s " " ":") " " ":" = Ok s' /\ s_path s' <> s_path s.
Proof.
  exists (mk_scp ["k"%string] ["c:9"%string] None None None). eexists.
  split; [repeat split; discriminate|]. split; [reflexivity|discriminate].
Qed.

(** C08 *)
Theorem C08_filter_exact : forall s es fk keep,
  valid s -> elements s = Ok es ->
  (scp_filter s fk keep = Err AssertionError <-> keep = true /\ ~ incl fk (s_key s)) /\
  (keep = false \/ incl fk (s_key s) -> exists s', scp_filter s fk keep = Ok s' /\
     elements s' = Ok (filter (fun e : entry => Bool.eqb keep (inb (fst (fst (fst e))) fk)) es)).
Proof. exact filter_lemma. Qed.
Print Assumptions C08_filter_exact.

Theorem C08_filter_paths_exact : forall s es fk keep,
  valid s -> elements s = Ok es ->
  (scp_filter_paths s fk keep = Err AssertionError <-> keep = true /\ ~ incl fk (s_path s)) /\
  (keep = false \/ incl fk (s_path s) -> exists s', scp_filter_paths s fk keep = Ok s' /\
     elements s' = Ok (filter (fun e : entry => Bool.eqb keep (inb (snd (fst (fst e))) fk)) es)).
Proof. exact filter_paths_lemma. Qed.
Print Assumptions C08_filter_paths_exact.

(** keep and !keep together are the whole list *)
Theorem C08_filter_keep_and_drop_partition : forall s es fk s1 s2,
  valid s -> elements s = Ok es -> scp_filter s fk true = Ok s1 -> scp_filter s fk false = Ok s2 ->
  exists es1 es2, elements s1 = Ok es1 /\ elements s2 = Ok es2 /\ Permutation (es1 ++ es2) es /\
    (forall e, In e es1 -> In (fst (fst (fst e))) fk) /\ (forall e, In e es2 -> ~ In (fst (fst (fst e))) fk).
Proof.
  intros s es fk s1 s2 V Es E1 E2.
  destruct (filter_lemma s es fk true V Es) as [A1 B1]. destruct (filter_lemma s es fk false V Es) as [A2 B2].
  assert (I : incl fk (s_key s)).
  { destruct (forallb (fun k => inb k (s_key s)) fk) eqn:Q; [apply forallb_inb_iff; exact Q|].
    rewrite (proj2 A1) in E1; [discriminate|]. split; [reflexivity|]. intros I. apply forallb_inb_iff in I. congruence. }
  destruct (B1 (or_intror I)) as [s1' [E1' F1]]. destruct (B2 (or_introl eq_refl)) as [s2' [E2' F2]].
  rewrite E1' in E1. inversion E1; subst. rewrite E2' in E2. inversion E2; subst.
  eexists _, _. split; [exact F1|]. split; [exact F2|]. split; [apply filter_partition|].
  split; intros e He; apply filter_In in He as [_ He]; destruct (inb _ fk) eqn:Q; try discriminate.
  - apply inb_iff. exact Q.
  - apply inb_false. exact Q.
Qed.
Print Assumptions C08_filter_keep_and_drop_partition.

Theorem C08_filter_index_exact : forall s es ix,
  valid s -> elements s = Ok es ->
  (forall es', take es ix = Ok es' -> exists s', scp_filter_index s ix true = Ok s' /\ elements s' = Ok es') /\
  (forall e, take es ix = Err e -> scp_filter_index s ix true = Err e) /\
  (exists s' es', scp_filter_index s ix false = Ok s' /\ elements s' = Ok es' /\
     take es (filter (fun i => negb (inb i ix)) (arange 0 (Z.of_nat (List.length es)))) = Ok es').
Proof. exact filter_index_lemma. Qed.
Print Assumptions C08_filter_index_exact.

Example C08_witness :
  scp_filter demo ["a"]%string true = Ok (mk_scp ["a";"a"]%string ["f2";"f4"]%string (Some [22;44]) (Some [(3,0);(7,2)]) None)
  /\ scp_filter demo ["a";"zz"]%string true = Err AssertionError
  /\ scp_filter_index demo [0;3] false = Ok (mk_scp ["a";"c"]%string ["f2";"f3"]%string (Some [22;33]) (Some [(3,0);(0,0)]) None).
Proof. repeat split. Qed.

(** C09 *)
Theorem C09_split_merge_identity : forall s es P,
  valid s -> elements s = Ok es -> 1 <= P ->
  (s_rng s <> None -> P <= Z.of_nat (List.length (s_key s))) ->
  exists parts s', mapM (fun i => scp_split s i P false) (arange 1 (P + 1)) = Ok parts /\
    scp_merge parts = Ok s' /\ elements s' = Ok es.
Proof. exact split_merge_plain. Qed.
Print Assumptions C09_split_merge_identity.

(** grouped: the original rows, stably sorted by key *)
Theorem C09_split_merge_grouped : forall s es P,
  valid s -> elements s = Ok es -> 1 <= P -> s_key s <> [] ->
  (s_rng s <> None -> P <= Z.of_nat (List.length (unique (s_key s)))) ->
  exists parts s' loc es', mapM (fun i => scp_split s i P true) (arange 1 (P + 1)) = Ok parts /\
    scp_merge parts = Ok s' /\ elements s' = Ok es' /\
    take es loc = Ok es' /\ Permutation loc (arange 0 (Z.of_nat (List.length es))) /\
    StronglySorted (fun i j => forall ki kj, get_item (s_key s) i = Ok ki -> get_item (s_key s) j = Ok kj ->
       (leb ki kj = true /\ ki <> kj) \/ (ki = kj /\ i < j)) loc.
Proof. exact split_merge_group. Qed.
Print Assumptions C09_split_merge_grouped.

Example C09_witness :
  exists parts, mapM (fun i => scp_split demo i 2 true) (arange 1 3) = Ok parts /\
  scp_merge parts = Ok (mk_scp ["a";"a";"b";"c"]%string ["f2";"f4";"f1";"f3"]%string (Some [22;44;11;33])
         (Some [(3,0);(7,2);(0,5);(0,0)]) None).
Proof. eexists. split; reflexivity. Qed.

(** The bound on P is needed when there are ranges: with more parts than rows, merging the
    parts back fails, or silently drops the ranges. *)
Theorem C09_too_many_parts_refuted :
  exists s parts s' , valid s /\ mapM (fun i => scp_split s i 3 false) (arange 1 4) = Ok parts /\
    scp_merge parts = Ok s' /\ s_rng s <> None /\ s_rng s' = None.
Proof.
  exists (mk_scp ["a";"b"]%string ["f";"g"]%string None (Some [(1,2);(3,4)]) None). eexists _, _.
  split; [repeat split; intros ? E; inversion E; reflexivity|]. split; [reflexivity|]. split; [reflexivity|].
  split; [discriminate|reflexivity].
Qed.
