(** What SequenceBatchGeneratorV1 does outside the settings of C44, and concrete cases of its theorems. *)
From Coq Require Import Lia Permutation.
From Verif Require Import BaseFacts Mat MatProofs Utt2Info SeqGen SeqGenProofs SeqGenRand SeqGenProps SeqGenSeq SeqGenSeqProps.
Open Scope list_scope.
Open Scope Z_scope.

(** two random generators *)
Definition lowest (s : Z) (k : nat) (lo hi : Z) : Z := lo.
Definition mixed (s : Z) (k : nat) (lo hi : Z) : Z := lo + (s + Z.of_nat k) mod (hi - lo).
Definition highest (s : Z) (k : nat) (lo hi : Z) : Z := hi - 1.
Definition rotate (s : Z) (k n : nat) : list nat := let r := Z.to_nat (s mod Z.of_nat n) in skipn r (seq 0 n) ++ firstn r (seq 0 n).
Definition keep (s : Z) (k n : nat) : list nat := seq 0 n.
Lemma rotate_perm s k n : Permutation (rotate s k n) (seq 0 n).
Proof. unfold rotate. rewrite Permutation_app_comm, firstn_skipn. reflexivity. Qed.
Lemma lowest_ok : valid_rng lowest keep. Proof. split; [intros; unfold lowest; lia|intros; reflexivity]. Qed.
Lemma highest_ok : valid_rng highest keep. Proof. split; [intros; unfold highest; lia|intros; reflexivity]. Qed.
Lemma mixed_ok : valid_rng mixed rotate.
Proof. split; [|intros; apply rotate_perm]. intros s k lo hi L. unfold mixed. pose proof (Z.mod_pos_bound (s + Z.of_nat k) (hi - lo) ltac:(lia)). lia. Qed.

Definition rec3 : list u2row := [("a", "x"); ("b", "y"); ("c", "x")]%string.
Definition nr3 (k : string) : Z := if String.eqb k "a" then 12 else if String.eqb k "b" then 20 else 33.
(** settings: batch, iters, method, min, max, overlap, prune, balance, balanced_seqs, shuffle, seed, reset_rng, init_epoch, num_parts *)
Definition seq_cfg bal := mk_cfg 2 (Some 1) SequentialSubseqs (Some 8) (Some 8) 2 0 None bal true 5 false 0 1.
Definition rnd_cfg := mk_cfg 2 (Some 4) RandomSubseqs (Some 5) (Some 10) 0 0 None false true 5 false 0 1.
Definition full_cfg := mk_cfg 2 None FullSeqs None None 0 0 None false true 5 false 0 1.

Definition run (nr : string -> Z) dr pm c rows (n : nat) : res (list (list (nat * string * option (Z * Z)))) :=
  g <- init nr pm c rows ;; '(qss, _) <- reads nr dr pm c n g ;; Ok (map (map (fun q => (q_pos q, q_key q, q_range q))) qss).

(** ** Concrete cases of the theorems *)
(** random: the hypotheses of C44_random hold, and three batches are read *)
Example C44_random_witness : safe rnd_cfg /\ exists g0, init nr3 rotate rnd_cfg rec3 = Ok g0 /\ Z.of_nat (c_batch rnd_cfg) <= g_iters g0 * Z.of_nat (List.length (g_init_u2c g0)) /\
  run nr3 mixed rotate rnd_cfg rec3 3 = Ok [[(0%nat, "c", Some (7, 5)); (1%nat, "a", Some (3, 7))]; [(2%nat, "b", Some (11, 9)); (0%nat, "c", Some (13, 5))]; [(1%nat, "a", Some (3, 7)); (2%nat, "b", Some (5, 9))]]%string.
Proof. split; [left; cbn; lia|]. eexists. split; [vm_compute; reflexivity|]. split; [vm_compute; discriminate|]. vm_compute. reflexivity. Qed.
(** sequential: 12, 20 and 33 rows are cut in 2, 4 and 6 sub-sequences of 8 with overlap 2; 6 batches of 2 *)
Example C44_sequential_witness : exists g, init nr3 rotate (seq_cfg false) rec3 = Ok g /\ at_start nr3 (seq_cfg false) 8 8 g /\
  per_epoch (seq_cfg false) (map (planned 8 8 2) (lens_of nr3 (g_u2c g))) 12 /\ (exists qss g', reads nr3 mixed rotate (seq_cfg false) 6 g = Ok (qss, g') /\
     hist 0 (concat qss) = [(0, 8); (6, 8); (12, 8); (18, 8); (24, 8); (25, 8)] /\ hist 1 (concat qss) = [(0, 8); (4, 8)] /\ hist 2 (concat qss) = [(0, 8); (6, 8); (12, 8); (12, 8)]).
Proof.
  destruct (init nr3 rotate (seq_cfg false) rec3) as [g|e] eqn:E; [|vm_compute in E; discriminate]. exists g. split; [reflexivity|].
  destruct (C44_sequential_init nr3 mixed rotate (seq_cfg false) rec3 g mixed_ok (or_introl (Z.le_refl 0)) eq_refl E) as (mn & mx & A & B & S & _). destruct A as [A|(A & _)]; [|discriminate]. destruct B as [B|(B & _)]; [|discriminate]. cbn in A, B. injection A as <-. injection B as <-. split; [exact S|]. clear S.
  vm_compute in E. injection E as <-. split; [vm_compute; reflexivity|]. eexists. eexists. split; [vm_compute; reflexivity|]. repeat split.
Qed.
Example C44_epoch_witness : exists g, init nr3 rotate full_cfg rec3 = Ok g /\ run nr3 mixed rotate full_cfg rec3 2 = Ok [[(0%nat, "c", None); (1%nat, "a", None)]; [(0%nat, "c", None); (1%nat, "a", None)]]%string.
Proof. eexists. split; vm_compute; reflexivity. Qed.

(** ** Outside these settings *)
(** sub-sequences of varying length need not cover the recording: 100 rows, limits 10 and 30, no overlap; rows 70 to 99 are never read
    in an epoch although iters_per_epoch is 1 *)
Theorem C44_sequential_cover_refuted : exists c dr pm nr rows g qss g', valid_rng dr pm /\ c_method c = SequentialSubseqs /\ c_overlap c = 0 /\ safe c /\ c_batch c = 1%nat /\ c_iters c = Some 1 /\ init nr pm c rows = Ok g /\ steps_per_epoch c g = Ok 5 /\ reads nr dr pm c 5 g = Ok (qss, g') /\
  g_epoch g' = g_epoch g + 1 /\ hist 0 (concat qss) = [(0, 10); (10, 10); (20, 10); (30, 10); (40, 30)] /\ nr "a"%string = 100.
Proof.
  exists (mk_cfg 1 (Some 1) SequentialSubseqs (Some 10) (Some 30) 0 0 None false false 1 false 0 1), lowest, keep, (fun _ => 100), [("a", "x")%string]. eexists. eexists. eexists. split; [exact lowest_ok|]. split; [reflexivity|]. split; [reflexivity|]. split; [left; cbn; lia|]. split; [reflexivity|]. split; [reflexivity|]. split; [vm_compute; reflexivity|]. split; [vm_compute; reflexivity|]. split; [vm_compute; reflexivity|]. repeat split.
Qed.
(** a recording shorter than min_seq_length is read beyond its end, then from a negative row *)
Theorem C44_sequential_short_refuted : exists c dr pm nr rows g qss g', valid_rng dr pm /\ c_method c = SequentialSubseqs /\ safe c /\ init nr pm c rows = Ok g /\ reads nr dr pm c 2 g = Ok (qss, g') /\ hist 0 (concat qss) = [(0, 10); (-1, 10)] /\ nr "a"%string = 9.
Proof.
  exists (mk_cfg 1 (Some 1) SequentialSubseqs (Some 10) (Some 20) 8 0 None false false 1 false 0 1), highest, keep, (fun _ => 9), [("a", "x")%string]. eexists. eexists. eexists. split; [exact highest_ok|]. split; [reflexivity|]. split; [left; cbn; lia|]. split; [vm_compute; reflexivity|]. split; [vm_compute; reflexivity|]. split; reflexivity.
Qed.
(** with iters_per_epoch = 2 and unbalanced sequences the search for a recording with sub-sequences left never ends *)
Theorem C44_sequential_hang_refuted : exists c dr pm nr rows g qs g', valid_rng dr pm /\ c_method c = SequentialSubseqs /\ safe c /\ c_iters c = Some 2 /\ init nr pm c rows = Ok g /\ steps_per_epoch c g = Ok 4 /\ reads nr dr pm c 2 g = Ok (qs, g') /\ read nr dr pm c g' = Err RuntimeErr.
Proof.
  exists (mk_cfg 1 (Some 2) SequentialSubseqs (Some 10) (Some 10) 0 0 None false false 1 false 0 1), lowest, keep, (fun _ => 20), [("a", "x")%string]. eexists. eexists. eexists. split; [exact lowest_ok|]. split; [reflexivity|]. split; [left; cbn; lia|]. split; [reflexivity|]. split; [vm_compute; reflexivity|]. split; [vm_compute; reflexivity|]. split; vm_compute; reflexivity.
Qed.
(** pruning short recordings while shuffling leaves the lengths of the unpruned list in use: 
    after dropping "a" (4 rows), "c" (15 rows) is taken to have the 40 rows of "b" and is read beyond its end *)
Theorem C44_prune_stale_refuted : exists c dr pm nr rows g qs g', valid_rng dr pm /\ c_method c = RandomSubseqs /\ c_shuffle c = true /\ 0 < c_prune c /\ init nr pm c rows = Ok g /\ read nr dr pm c g = Ok (qs, g') /\
  exists q off n, In q qs /\ q_range q = Some (off, n) /\ nr (q_key q) < off + n.
Proof.
  exists (mk_cfg 2 (Some 1) RandomSubseqs (Some 5) (Some 50) 0 10 None false true 0 false 0 1), highest, keep, (fun k => if String.eqb k "a" then 4 else if String.eqb k "b" then 40 else 15), [("a", "x"); ("b", "x"); ("c", "x")]%string.
  eexists. eexists. eexists. split; [exact highest_ok|]. split; [reflexivity|]. split; [reflexivity|]. split; [cbn; lia|]. split; [vm_compute; reflexivity|]. split; [vm_compute; reflexivity|]. eexists. exists 0. eexists. split; [right; left; reflexivity|]. split; [reflexivity|]. vm_compute. reflexivity.
Qed.

(** balancing after pruning keeps the lengths of the unpruned list too *)
Theorem C44_balance_stale_refuted : exists c dr pm nr rows g qs g', valid_rng dr pm /\ c_method c = RandomSubseqs /\ c_shuffle c = false /\ 0 < c_prune c /\ c_balance c = Some 1 /\ init nr pm c rows = Ok g /\ read nr dr pm c g = Ok (qs, g') /\
  exists q off n, In q qs /\ q_range q = Some (off, n) /\ nr (q_key q) < off + n.
Proof.
  exists (mk_cfg 2 (Some 1) RandomSubseqs (Some 5) (Some 50) 0 10 (Some 1) false false 0 false 0 1), highest, keep, (fun k => if String.eqb k "a" then 4 else if String.eqb k "b" then 40 else 15), [("a", "x"); ("b", "x"); ("c", "x")]%string.
  eexists. eexists. eexists. split; [exact highest_ok|]. split; [reflexivity|]. split; [reflexivity|]. split; [cbn; lia|]. split; [reflexivity|]. split; [vm_compute; reflexivity|]. split; [vm_compute; reflexivity|]. eexists. exists 0. eexists. split; [right; left; reflexivity|]. split; [reflexivity|]. vm_compute. reflexivity.
Qed.
(** splitting the list in parts is not possible: the constructor passes an argument that Utt2Info.split does not have *)
Theorem C44_num_parts_refuted : forall nr pm c rows, 1 < c_num_parts c -> init nr pm c rows = Err TypeError.
Proof. intros nr pm c rows L. unfold init. rewrite (proj2 (Z.ltb_lt _ _) L). reflexivity. Qed.
(** the first two epochs are the same although the seed is meant to change with the epoch: reset runs before the epoch is counted *)
Theorem C44_epochs_repeat_refuted : exists c nr rows dr pm g qss0 g1 qss1 g2 qss2 g3, valid_rng dr pm /\ safe c /\ c_shuffle c = true /\ c_reset_rng c = false /\ init nr pm c rows = Ok g /\
  reads nr dr pm c 6 g = Ok (qss0, g1) /\ g_epoch g1 = 1 /\ reads nr dr pm c 6 g1 = Ok (qss1, g2) /\ g_epoch g2 = 2 /\ reads nr dr pm c 6 g2 = Ok (qss2, g3) /\ qss0 = qss1 /\ qss1 <> qss2.
Proof.
  exists rnd_cfg, nr3, rec3, mixed, rotate. eexists. eexists. eexists. eexists. eexists. eexists. eexists. split; [exact mixed_ok|]. split; [left; cbn; lia|]. split; [reflexivity|]. split; [reflexivity|]. split; [vm_compute; reflexivity|]. split; [vm_compute; reflexivity|]. split; [vm_compute; reflexivity|]. split; [vm_compute; reflexivity|]. split; [vm_compute; reflexivity|]. split; [vm_compute; reflexivity|]. split; [reflexivity|]. discriminate.
Qed.
Print Assumptions C44_epochs_repeat_refuted. Print Assumptions C44_sequential_cover_refuted.
