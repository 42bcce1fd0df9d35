(** Model of hyperion/generators/sequence_batch_generator_v2.py: SequenceBatchGeneratorV2 (construction, reset, read). The list of utterances is
    that of the key file after the choice of a part (C60). What is modelled of the data is what is asked of the reader: a list of
    (recording, first row, number of rows). The random generator is an arbitrary state machine. Quotients are exact (the code uses binary64). *)
From Verif Require Import Base Mat Utt2Info SeqGen.
Open Scope list_scope. Open Scope Z_scope.

Record cfg2 := mk_cfg2 { d_batch : nat; d_iters : option Z; (* None: 'auto' *) d_epc : nat; (* num_egs_per_class *) d_epu : nat; (* num_egs_per_utt *)
  d_min : option Z; d_max : option Z; d_prune : Z; d_classes : option (list string); (* the first words of the lines of class_list *)
  d_return_class : bool; d_utt1hot : bool; d_seed : Z; d_reset_rng : bool; d_init_epoch : Z }.
(** what the constructor fixes: the utterances, the limits of the lengths, the class of each utterance, the number of classes, the steps per epoch *)
Record fixed := mk_fixed { x_rows : list u2row; x_min : Z; x_max : Z; x_ids : list nat; x_num : nat; x_steps : Z }.
Record batch := mk_batch { b_reqs : list (string * Z * Z); (* key, row_offset, num_rows *) b_labels : option (list (list Z)) }.

Section Gen2.
(** r.read_num_rows of one recording *)
Variable num_rows : string -> Z.
(** np.random.RandomState(seed) and rng.randint(low, high) *)
Variable St : Type.
Variable seed : Z -> St.
Variable draw : St -> Z -> Z -> Z * St.
Record gen2 := mk_gen2 { h_rng : St; h_step : Z; h_epoch : Z }.
Variable c : cfg2.

(** lines 160-168: [class_dict] of the listed classes (a repeated word keeps the last line) and [class_idx] *)
Fixpoint last_index (w : string) (i : nat) (l : list string) : option nat :=
  match l with [] => None | v :: l => match last_index w (S i) l with Some k => Some k | None => if eqb w v then Some i else None end end.
Definition class_ids (infos : list string) : res (list nat * nat) :=
  match d_classes c with
  | None => Ok (inverse infos, len (unique infos))
  | Some words => ids <- mapM (fun w => match last_index w 0 words with Some k => Ok k | None => Err KeyError end) infos ;; Ok (ids, len (unique words))
  end.
(** lines 170-179: the utterances of a class *)
Definition utts_of (ids : list nat) (k : nat) : list nat := nonzero (map (Nat.eqb k) ids).

(** lines 197-203 [_compute_iters_auto]. An average length of 0 (a division by zero) is not modelled in detail. *)
Definition auto2 (lens : list Z) (mx mn : Z) : res Z :=
  let avg := (mx + mn) / 2 in
  if (avg <=? 0) || (match lens with [] => true | _ => false end) then Err BareException else Ok (ceil_div (fold_right Z.add 0 lens) (Z.of_nat (len lens) * avg)).

(** lines 206-215 [reset] *)
Definition reset2 (g : gen2) : gen2 := mk_gen2 (seed (if d_reset_rng c then d_seed c else d_seed c + h_epoch g)) 0 (h_epoch g).

(** lines 29-92: the constructor, with [_prune_min_length] (151-155) and the properties 96-141. The limits of the lengths and the number of steps are
    computed when first needed in the code; they do not change afterwards. *)
Definition init2 (rows : list u2row) : res (fixed * gen2) :=
  let rows := if 0 <? d_prune c then filter (fun r => d_prune c <=? num_rows (fst r)) rows else rows in
  '(ids, n) <- class_ids (map snd rows) ;;
  let lens := map (fun r => num_rows (fst r)) rows in
  mx <- match d_max c with Some m => Ok m | None => zmax lens end ;;
  mn <- match d_min c with Some m => Ok m | None => zmin lens end ;;
  it <- match d_iters c with Some i => Ok i | None => auto2 lens mx mn end ;;
  Ok (mk_fixed rows mn mx ids n (ceil_div (it * Z.of_nat (len rows)) (Z.of_nat (d_batch c))), reset2 (mk_gen2 (seed 0) 0 (d_init_epoch c))).

Definition randint2 (lo hi : Z) (s : St) : res (Z * St) := if lo <? hi then Ok (draw s lo hi) else Err ValueError.
Variable x : fixed.
(** lines 262-274: the classes of a batch. The loop of the second branch runs until enough classes with utterances are drawn; None stands for a loop
    that has not ended after [fuel] draws. *)
Fixpoint draw_all (n : nat) (s : St) : res (list nat * St) :=
  match n with O => Ok ([], s) | S n => '(v, s) <- randint2 0 (Z.of_nat (x_num x)) s ;; '(l, s) <- draw_all n s ;; Ok (Z.to_nat v :: l, s) end.
Fixpoint draw_used (fuel n : nat) (s : St) : option (res (list nat * St)) :=
  match n with
  | O => Some (Ok ([], s))
  | S n' =>
    match fuel with
    | O => None
    | S f =>
      match randint2 0 (Z.of_nat (x_num x)) s with
      | Err e => Some (Err e)
      | Ok (v, s) =>
        if (0 <? len (utts_of (x_ids x) (Z.to_nat v)))%nat
        then match draw_used f n' s with Some (Ok (l, s)) => Some (Ok (Z.to_nat v :: l, s)) | r => r end
        else draw_used f n s
      end
    end
  end.
Definition num_drawn : nat := Z.to_nat (ceil_div (Z.of_nat (d_batch c)) (Z.of_nat (d_epc c * d_epu c))).
Definition draw_classes (fuel : nat) (s : St) : option (res (list nat * St)) :=
  if forallb (fun k => (0 <? len (utts_of (x_ids x) k))%nat) (seq 0 (x_num x)) then Some (draw_all num_drawn s) else draw_used fuel num_drawn s.
Definition repeat_each {A} (k : nat) (l : list A) : list A := flat_map (fun a => repeat a k) l.
(** line 288: one utterance of each class *)
Fixpoint draw_utts (cls : list nat) (s : St) : res (list nat * St) :=
  match cls with
  | [] => Ok ([], s)
  | k :: cls => '(v, s) <- randint2 0 (Z.of_nat (len (utts_of (x_ids x) k))) s ;; u <- at_ (utts_of (x_ids x) k) (Z.to_nat v) ;; '(us, s) <- draw_utts cls s ;; Ok (u :: us, s)
  end.
(** lines 279-291: one sub-sequence of each utterance *)
Fixpoint draw_subs (us : list nat) (s : St) : res (list (string * Z * Z) * St) :=
  match us with
  | [] => Ok ([], s)
  | u :: us =>
    row <- at_ (x_rows x) u ;;
    let full := num_rows (fst row) in
    '(n, s) <- randint2 (Z.min full (x_min x)) (Z.min full (x_max x) + 1) s ;;
    '(f, s) <- randint2 0 (full - n + 1) s ;;
    '(qs, s) <- draw_subs us s ;; Ok ((fst row, f, n) :: qs, s)
  end.
(** lines 257-296 [_read_random_subseqs], given the classes *)
Definition subseqs (cls : list nat) (s : St) : res (list (string * Z * Z) * list nat * St) :=
  let cls := repeat_each (d_epc c) cls in
  '(us, s) <- draw_utts cls s ;;
  let us := repeat_each (d_epu c) us in
  let cls := repeat_each (d_epu c) cls in
  us <- mapM (at_ us) (seq 0 (d_batch c)) ;;
  '(qs, s) <- draw_subs us s ;;
  Ok (qs, cls, s).
Definition label (k : nat) : res (list Z) := if (k <? x_num x)%nat then Ok (set_nth (repeat 0 (x_num x)) k 1) else Err IndexError.
(** lines 219-252 [read] (without the padding of to3D_by_seq, C48) *)
Definition read2_with (g : gen2) (r : res (list nat * St)) : res (batch * gen2) :=
  '(cls, s) <- r ;;
  '(qs, cls, s) <- subseqs cls s ;;
  if x_steps x =? 0 then Err ZeroDivisionError else
  let step := (h_step g + 1) mod x_steps x in
  let g := mk_gen2 s step (h_epoch g) in
  let g := if step =? 0 then let g := reset2 g in mk_gen2 (h_rng g) (h_step g) (h_epoch g + 1) else g in
  y <- (if d_return_class c then ls <- mapM (fun i => k <- at_ cls i ;; label k) (seq 0 (len qs)) ;; Ok (Some ls) else Ok None) ;;
  if d_utt1hot c then Err AttributeError else Ok (mk_batch qs y, g).
Definition read2 (fuel : nat) (g : gen2) : option (res (batch * gen2)) :=
  match draw_classes fuel (h_rng g) with None => None | Some r => Some (read2_with g r) end.
Fixpoint reads2 (fuel n : nat) (g : gen2) : option (res (list batch * gen2)) :=
  match n with
  | O => Some (Ok ([], g))
  | S n =>
    match read2 fuel g with
    | None => None
    | Some (Err e) => Some (Err e)
    | Some (Ok (b, g)) => match reads2 fuel n g with Some (Ok (bs, g)) => Some (Ok (b :: bs, g)) | r => r end
    end
  end.
End Gen2.
