(** Model of hyperion/generators/sequence_batch_generator_v1.py: SequenceBatchGeneratorV1 (state, initialisation, reset, read), and of
    the batch drawing of sequence_batch_generator_v2.py. What is modelled of the data is what is asked of the reader: a list of
    (recording, first row, number of rows). The quotients of lengths are exact (the code uses binary64). *)
From Verif Require Export Base Utt2Info.
From Verif Require Import Mat.
Open Scope list_scope.
Open Scope Z_scope.

Inductive gmethod := FullSeqs | RandomSubseqs | SequentialSubseqs.
Record cfg := mk_cfg {
  c_batch : nat; c_iters : option Z; (* None: 'auto' *) c_method : gmethod; c_min : option Z; c_max : option Z; c_overlap : Z;
  c_prune : Z; c_balance : option Z; (* max_class_imbalance, class_weight = 'balanced' *) c_balanced_seqs : bool; c_shuffle : bool;
  c_seed : Z; c_reset_rng : bool; c_init_epoch : Z; c_num_parts : Z }.
(** what is asked of the reader; [q_pos] is the position of the recording in the (shuffled) list *)
Record request := mk_req { q_pos : nat; q_key : string; q_range : option (Z * Z) (* row_offset, num_rows *) }.
Record gen := mk_gen {
  g_u2c : list u2row; g_init_u2c : list u2row; g_init_lens : option (list Z); g_lens : option (list Z); g_min : option Z; g_max : option Z;
  g_init_subs : option (list Z); g_subs : option (list Z); g_frame : list Z; g_sub : list Z; g_seq : nat; g_step : Z; g_epoch : Z;
  g_rng : Z * nat; (* seed, number of draws so far *) g_iters : Z }.

Section Gen.
(** r.read_num_rows of one recording *)
Variable num_rows : string -> Z.
(** rng.randint(low, high) for a seed, at a draw; and the permutation rng.shuffle applies to arange(n) *)
Variable draw : Z -> nat -> Z -> Z -> Z.
Variable perm : Z -> nat -> nat -> list nat.

Definition set_u2c u g := mk_gen u (g_init_u2c g) (g_init_lens g) (g_lens g) (g_min g) (g_max g) (g_init_subs g) (g_subs g) (g_frame g) (g_sub g) (g_seq g) (g_step g) (g_epoch g) (g_rng g) (g_iters g).
Definition set_init_u2c u g := mk_gen (g_u2c g) u (g_init_lens g) (g_lens g) (g_min g) (g_max g) (g_init_subs g) (g_subs g) (g_frame g) (g_sub g) (g_seq g) (g_step g) (g_epoch g) (g_rng g) (g_iters g).
Definition set_lens i l g := mk_gen (g_u2c g) (g_init_u2c g) i l (g_min g) (g_max g) (g_init_subs g) (g_subs g) (g_frame g) (g_sub g) (g_seq g) (g_step g) (g_epoch g) (g_rng g) (g_iters g).
Definition set_minmax mn mx g := mk_gen (g_u2c g) (g_init_u2c g) (g_init_lens g) (g_lens g) mn mx (g_init_subs g) (g_subs g) (g_frame g) (g_sub g) (g_seq g) (g_step g) (g_epoch g) (g_rng g) (g_iters g).
Definition set_subs i s g := mk_gen (g_u2c g) (g_init_u2c g) (g_init_lens g) (g_lens g) (g_min g) (g_max g) i s (g_frame g) (g_sub g) (g_seq g) (g_step g) (g_epoch g) (g_rng g) (g_iters g).
Definition set_pos f s g := mk_gen (g_u2c g) (g_init_u2c g) (g_init_lens g) (g_lens g) (g_min g) (g_max g) (g_init_subs g) (g_subs g) f s (g_seq g) (g_step g) (g_epoch g) (g_rng g) (g_iters g).
Definition set_seq q g := mk_gen (g_u2c g) (g_init_u2c g) (g_init_lens g) (g_lens g) (g_min g) (g_max g) (g_init_subs g) (g_subs g) (g_frame g) (g_sub g) q (g_step g) (g_epoch g) (g_rng g) (g_iters g).
Definition set_step s e g := mk_gen (g_u2c g) (g_init_u2c g) (g_init_lens g) (g_lens g) (g_min g) (g_max g) (g_init_subs g) (g_subs g) (g_frame g) (g_sub g) (g_seq g) s e (g_rng g) (g_iters g).
Definition set_rng r g := mk_gen (g_u2c g) (g_init_u2c g) (g_init_lens g) (g_lens g) (g_min g) (g_max g) (g_init_subs g) (g_subs g) (g_frame g) (g_sub g) (g_seq g) (g_step g) (g_epoch g) r (g_iters g).
Definition set_iters k g := mk_gen (g_u2c g) (g_init_u2c g) (g_init_lens g) (g_lens g) (g_min g) (g_max g) (g_init_subs g) (g_subs g) (g_frame g) (g_sub g) (g_seq g) (g_step g) (g_epoch g) (g_rng g) k.

Definition num_seqs (g : gen) : nat := List.length (g_u2c g).
Definition at_ {A} (l : list A) (i : nat) : res A := match nth_error l i with Some x => Ok x | None => Err IndexError end.
(** sequence_batch_generator_v1.py:108-112 [seq_lengths] (cached) *)
Definition seq_lengths (g : gen) : list Z * gen :=
  match g_lens g with
  | Some l => (l, g)
  | None => let l := map (fun r => num_rows (fst r)) (g_u2c g) in (l, set_lens (Some l) (Some l) g)
  end.
Definition zmax (l : list Z) : res Z := match l with [] => Err ValueError | x :: l => Ok (fold_left Z.max l x) end.
Definition zmin (l : list Z) : res Z := match l with [] => Err ValueError | x :: l => Ok (fold_left Z.min l x) end.
(** lines 123-133 [min_seq_length], [max_seq_length] (cached) *)
Definition min_len (g : gen) : res (Z * gen) :=
  match g_min g with Some m => Ok (m, g) | None => let '(l, g) := seq_lengths g in m <- zmin l ;; Ok (m, set_minmax (Some m) (g_max g) g) end.
Definition max_len (g : gen) : res (Z * gen) :=
  match g_max g with Some m => Ok (m, g) | None => let '(l, g) := seq_lengths g in m <- zmax l ;; Ok (m, set_minmax (g_min g) (Some m) g) end.
(** rng.randint(low, high): ValueError when empty *)
Definition randint (lo hi : Z) (g : gen) : res (Z * gen) :=
  if lo <? hi then Ok (draw (fst (g_rng g)) (snd (g_rng g)) lo hi, set_rng (fst (g_rng g), S (snd (g_rng g))) g) else Err ValueError.
Definition ceil_div (a b : Z) : Z := - ((- a) / b).

(** lines 160-163 [_prune_min_length] *)
Definition prune_min (m : Z) (g : gen) : gen :=
  let '(l, g) := seq_lengths g in set_lens (g_init_lens g) None (set_u2c (sel (map (fun x => m <=? x) l) (g_u2c g)) g).

(** lines 180-194 [_balance_class_weight_helper]; [imb] is the maximum imbalance *)
Fixpoint tile {A} (n : nat) (l : list A) : list A := match n with O => [] | S n => l ++ tile n l end.
Definition balance_idx (ids : list nat) (imb : Z) : res (list nat) :=
  let ncl := match ids with [] => O | _ => S (list_max ids) end in
  let counts := map (fun i => List.length (filter (Nat.eqb i) ids)) (seq 0 ncl) in
  match counts with
  | [] => Err ValueError
  | _ =>
    let max_samples := Z.to_nat (ceil_div (Z.of_nat (list_max counts)) imb) in
    let idx := concat (map (fun i =>
      let idx_i := nonzero (map (Nat.eqb i) ids) in
      if (List.length idx_i <? max_samples)%nat then firstn max_samples (tile (Z.to_nat (ceil_div (Z.of_nat max_samples) (Z.of_nat (List.length idx_i)))) idx_i) else idx_i) (seq 0 ncl)) in
    _ <- assert (List.length counts * max_samples <=? List.length idx)%nat ;; Ok idx
  end.
(** lines 198-209 [_balance_class_weight]: the second assignment has a misspelt name, so _init_seq_lengths keeps its value *)
Definition balance (imb : Z) (g : gen) : res gen :=
  idx <- balance_idx (inverse (map snd (g_u2c g))) imb ;;
  u <- take (g_u2c g) (map Z.of_nat idx) ;;
  let g := set_u2c u g in
  match g_init_lens g with
  | None => Ok g
  | Some l => l' <- take l (map Z.of_nat idx) ;; Ok (set_lens (Some l) (Some l') g)
  end.

Section WithCfg.
Variable c : cfg.
(** lines 213-220 [_compute_iters_auto]. An average length of 0 (division by zero) is not modelled in detail. *)
Definition auto_iters (g : gen) : res gen :=
  match c_method c with
  | RandomSubseqs =>
    let '(l, g) := seq_lengths g in
    '(mx, g) <- max_len g ;; '(mn, g) <- min_len g ;;
    let avg := (mx + mn) / 2 in
    if (avg <=? 0) || (match l with [] => true | _ => false end) then Err BareException
    else Ok (set_iters (ceil_div (fold_right Z.add 0 l) (Z.of_nat (List.length l) * avg)) g)
  | _ => Ok (set_iters 1 g)
  end.
(** lines 243-250 [_prepare_sequential_subseqs]. A shift of 0 is not modelled in detail. *)
Definition prepare (g : gen) : res gen :=
  match c_method c with
  | SequentialSubseqs =>
    let '(l, g) := seq_lengths g in
    '(mx, g) <- max_len g ;; '(mn, g) <- min_len g ;;
    let shift := (mx + mn) / 2 - c_overlap c in
    if shift =? 0 then Err BareException
    else let s := map (fun x => ceil_div x shift) l in
         Ok (set_pos (repeat 0 (num_seqs g)) (repeat 0 (num_seqs g)) (set_subs (Some s) (Some s) g))
  | _ => Ok g
  end.
(** lines 254-279 [reset], first part *)
Definition restart (g : gen) : gen :=
  let g := set_step 0 (g_epoch g) (set_seq O g) in
  set_rng ((if c_reset_rng c then c_seed c else c_seed c + g_epoch g), O) g.
(** lines 254-279 [reset], second part *)
Definition reshuffle (g : gen) : res gen :=
  let g := match g_init_lens g with None => snd (seq_lengths g) | Some _ => g end in
  let index := perm (fst (g_rng g)) (snd (g_rng g)) (List.length (g_init_u2c g)) in
  let g := set_rng (fst (g_rng g), S (snd (g_rng g))) g in
  u <- take (g_init_u2c g) (map Z.of_nat index) ;;
  let g := set_u2c u g in
  match g_init_lens g with
  | None => Err TypeError
  | Some l0 =>
    l <- take l0 (map Z.of_nat index) ;;
    let g := set_lens (Some l0) (Some l) g in
    match g_init_subs g with
    | None => Ok g
    | Some s0 => s <- take s0 (map Z.of_nat index) ;; Ok (set_subs (Some s0) (Some s) g)
    end
  end.
(** lines 254-279 [reset] *)
Definition reset (g : gen) : res gen :=
  g <- (if c_shuffle c then reshuffle (restart g) else Ok (restart g)) ;;
  match c_method c with
  | SequentialSubseqs => Ok (set_pos (repeat 0 (List.length (g_frame g))) (repeat 0 (List.length (g_sub g))) g)
  | _ => Ok g
  end.
(** lines 29-98 [__init__]; num_parts > 1 calls Utt2Info.split with an argument it does not have *)
Definition init (rows : list u2row) : res gen :=
  if 1 <? c_num_parts c then Err TypeError
  else
    let g := mk_gen rows [] None None (c_min c) (c_max c) None None [] [] O 0 (c_init_epoch c) (0, O) 0 in
    let g := if 0 <? c_prune c then prune_min (c_prune c) g else g in
    g <- (match c_balance c with Some imb => balance imb g | None => Ok g end) ;;
    let g := set_init_u2c (g_u2c g) g in
    g <- prepare g ;;
    g <- (match c_iters c with None => auto_iters g | Some k => Ok (set_iters k g) end) ;;
    reset g.

(** lines 137-150 [steps_per_epoch] (the cached value never changes: it depends on the lists only up to order) *)
Definition steps_per_epoch (g : gen) : res Z :=
  seqs <- (match c_method c, g_subs g with
           | SequentialSubseqs, Some s => if c_balanced_seqs c then m <- zmax s ;; Ok (Z.of_nat (num_seqs g) * m) else Ok (fold_right Z.add 0 s)
           | SequentialSubseqs, None => Err TypeError
           | _, _ => Ok (Z.of_nat (num_seqs g))
           end) ;;
  if (c_batch c =? 0)%nat then Err ZeroDivisionError else Ok (g_iters g * seqs / Z.of_nat (c_batch c)).

(** lines 318-328 [_read_full_seqs] *)
Definition read_full (g : gen) : res (list request * gen) :=
  let tag k rows := map (fun p => mk_req (fst p) (fst (snd p)) None) (combine (seq k (List.length rows)) rows) in
  let keys := tag (g_seq g) (firstn (c_batch c) (skipn (g_seq g) (g_u2c g))) in
  if (List.length keys <? c_batch c)%nat then
    let delta := (c_batch c - List.length keys)%nat in
    let keys := keys ++ tag O (firstn delta (g_u2c g)) in
    _ <- assert (List.length keys =? c_batch c)%nat ;; Ok (keys, set_seq delta g)
  else Ok (keys, set_seq (g_seq g + c_batch c) g).

Definition next_seq (g : gen) : nat := ((g_seq g + 1) mod num_seqs g)%nat.
(** one turn of the loop of lines 332-354 [_read_random_subseqs] *)
Definition random_one (g : gen) : res (request * gen) :=
  row <- at_ (g_u2c g) (g_seq g) ;;
  let '(l, g) := seq_lengths g in
  full <- at_ l (g_seq g) ;;
  '(mx, g) <- max_len g ;; '(mn, g) <- min_len g ;;
  '(n, g) <- randint (Z.min full mn) (Z.min full mx + 1) g ;;
  '(off, g) <- randint 0 (full - n + 1) g ;;
  Ok (mk_req (g_seq g) (fst row) (Some (off, n)), set_seq (next_seq g) g).
(** lines 369-371: the first position from cur_seq on, cyclically, that has sub-sequences left *)
Fixpoint seek (sub subs : list Z) (i fuel : nat) : option nat :=
  match fuel with
  | O => None
  | S fuel => if (nth i sub 0 =? nth i subs 0) then seek sub subs ((i + 1) mod List.length sub) fuel else Some i
  end.
(** one turn of the loop of lines 358-399 [_read_sequential_subseqs]; the loop never ends when no recording has sub-sequences left
    (RuntimeErr stands for that) *)
Definition sequential_one (g : gen) : res (request * gen) :=
  let '(l, g) := seq_lengths g in
  match g_subs g with
  | None => Err TypeError
  | Some subs =>
    if (num_seqs g =? 0)%nat then Err IndexError
    else match seek (g_sub g) subs (g_seq g) (num_seqs g) with
    | None => Err RuntimeErr
    | Some i =>
      let g := set_seq i g in
      row <- at_ (g_u2c g) i ;; first <- at_ (g_frame g) i ;; full <- at_ l i ;; k <- at_ (g_sub g) i ;; ns <- at_ subs i ;;
      let rem := full - first in
      '(mx, g) <- max_len g ;; '(mn, g) <- min_len g ;;
      '(p, g) <- (if k =? ns - 1 then Ok ((Z.min rem mx, 0), g)
                  else '(n, g) <- randint (Z.min rem mn) (Z.min (Z.max mn (rem - mn)) mx + 1) g ;;
                       Ok ((n, Z.min (full - mn) (first + n - c_overlap c)), g)) ;;
      let k' := if c_balanced_seqs c then (k + 1) mod ns else k + 1 in
      let g := set_pos (set_nth (g_frame g) i (snd p)) (set_nth (g_sub g) i k') g in
      Ok (mk_req i (fst row) (Some (first, fst p)), set_seq (next_seq g) g)
    end
  end.
Fixpoint times (one : gen -> res (request * gen)) (n : nat) (g : gen) : res (list request * gen) :=
  match n with O => Ok ([], g) | S n => '(q, g) <- one g ;; '(qs, g) <- times one n g ;; Ok (q :: qs, g) end.
(** lines 284-314 [read]: the requests, then the end of the epoch *)
Definition read (g : gen) : res (list request * gen) :=
  '(qs, g) <- (match c_method c with FullSeqs => read_full g | RandomSubseqs => times random_one (c_batch c) g | SequentialSubseqs => times sequential_one (c_batch c) g end) ;;
  s <- steps_per_epoch g ;;
  if s =? 0 then Err ZeroDivisionError
  else let g := set_step ((g_step g + 1) mod s) (g_epoch g) g in
       if g_step g =? 0 then g <- reset g ;; Ok (qs, set_step (g_step g) (g_epoch g + 1) g) else Ok (qs, g).
Fixpoint reads (n : nat) (g : gen) : res (list (list request) * gen) :=
  match n with O => Ok ([], g) | S n => '(q, g) <- read g ;; '(qs, g) <- reads n g ;; Ok (q :: qs, g) end.
End WithCfg.
End Gen.
