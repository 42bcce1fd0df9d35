(** Model of hyperion/utils/fold_list.py and hyperion/utils/train_val_eval_list.py: cross-validation
    folds and train/validation/evaluation partitions. *)
From Coq Require Import QArith.
From Verif Require Export Trials.
Open Scope list_scope.
Open Scope Z_scope.

(** [a[idx] = v], [idx] an index array obtained from [nonzero] and masks (all in range) *)
Definition fill_at {A} (l : list A) (idx : list nat) (v : A) : list A :=
  map (fun p => if existsb (Nat.eqb (fst p)) idx then v else snd p) (combine (seq 0 (len l)) l).

(** [np.max] of a vector of integers that are at least -1; the empty vector raises *)
Definition np_max (l : list Z) : res Z := match l with [] => Err ValueError | _ => Ok (fold_right Z.max (-1) l) end.

(** fold_list.py:213-234 and train_val_eval_list.py:246-266: the loop body over balance classes.
    [bd n j] is the group boundary [k1] of part [j] for [n] groups (fold_list.py:230-231,
    train_val_eval_list.py:262-263), [shuf] the result of [rng.shuffle(np.arange(n))] for this class
    when shuffling.  fold_list.py:225-227 moves group [j] to number [shuffle_idx[j]]. *)
Definition class_step (bd : nat -> nat -> Z) (K : nat) (shuf : option (list nat)) (bal : list Z) (grp : list string)
  (i : nat) (folds : list Z) : res (list Z) :=
  let idx_i := nonzero (map (fun b => b =? Z.of_nat i) bal) in
  g <- take grp (map Z.of_nat idx_i) ;;
  let gk := inverse g in
  _ <- np_max (map Z.of_nat gk) ;;
  let ng := S (list_max gk) in
  gk <- match shuf with None => Ok gk | Some p => mapM (fun k => get_item p (Z.of_nat k)) gk end ;;
  Ok (fold_left (fun fs j =>
        fill_at fs (sel (map (fun k => (bd ng j <=? Z.of_nat k) && (Z.of_nat k <? bd ng (S j))) gk) idx_i) (Z.of_nat j))
      (seq 0 K) folds).

(** fold_list.py:196-234: the fold of each segment, -1 for the masked ones.  [balance], [group]:
    the key lists (strings); the random generator is the argument [shuf] (one permutation per class).
    Simplification: keys are numpy arrays (a Python list raises on [group_by_key[idx_i]]). *)
Definition assign_parts (bd : nat -> nat -> Z) (K : nat) (segs : list string) (balance group : option (list string))
  (mask : option (list bool)) (shuf : option (nat -> list nat)) : res (list Z) :=
  let grp := match group with None => segs | Some g => g end in
  let bal := match balance with None => repeat 0 (len segs) | Some b => map Z.of_nat (inverse b) end in
  bal <- match mask with
         | None => Ok bal
         | Some m => if Nat.eqb (len m) (len bal) then Ok (zip_with (fun (b : bool) x => if b then x else -1) m bal) else Err IndexError
         end ;;
  mx <- np_max bal ;;
  foldM (fun fs i => class_step bd K (match shuf with None => None | Some f => Some (f i) end) bal grp i fs)
        (repeat (-1) (len segs)) (seq 0 (Z.to_nat (mx + 1))).

Record fold_list := mk_folds { f_fold : list Z; f_key : list string; f_mask : option (list bool) }.

(** fold_list.py:31-49 (constructor and [validate]); train_val_eval_list.py:29-49 is the same *)
Definition folds_new (fold : list Z) (key : list string) (mask : option (list bool)) : res fold_list :=
  _ <- assert (Nat.eqb (len key) (len fold)) ;;
  mx <- np_max fold ;;
  _ <- assert (Z.of_nat (len (unique (filter (fun f => 0 <=? f) fold))) =? mx + 1) ;;
  _ <- assert (match mask with None => true | Some m => Nat.eqb (len m) (len fold) end) ;;
  Ok (mk_folds fold key mask).

(** fold_list.py:178-240 [create], train_val_eval_list.py:198-272 [create] (which only differs in the
    boundaries and also keeps the part names) *)
Definition folds_create bd K segs balance group mask shuf : res fold_list :=
  folds <- assign_parts bd K segs balance group mask shuf ;;
  _ <- match mask with
       | None => assert (forallb (fun f => 0 <=? f) folds)
       | Some m => fm <- Base.mask m folds ;; assert (forallb (fun f => 0 <=? f) fm)
       end ;;
  folds_new folds segs mask.

(** fold_list.py:219, 230-231: [int(np.round(j*delta))], [delta = float(n)/num_folds], on exact
    rationals; [np.round] rounds halves to even.  FoldsFloat.v relates it to binary64. *)
Definition round_half_even (a b : Z) : Z :=
  let q := a / b in
  let r := 2 * (a mod b) in
  if (r <? b) then q else if (b <? r) then q + 1 else if Z.even q then q else q + 1.
Definition fold_bound (K : nat) (n j : nat) : Z := round_half_even (Z.of_nat j * Z.of_nat n) (Z.of_nat K).

(** fold_list.py:95-110 [get_fold_idx] *)
Definition get_fold_idx (o : fold_list) (fold : Z) : list bool * list bool :=
  let test := map (fun f => f =? fold) (f_fold o) in
  let train := map negb test in
  match f_mask o with
  | None => (train, test)
  | Some m => (zip_with andb train m, zip_with andb test m)
  end.

(** fold_list.py:114-126 [get_fold] *)
Definition get_fold (o : fold_list) (fold : Z) : res (list string * list string) :=
  let '(train, test) := get_fold_idx o fold in
  a <- Base.mask train (f_key o) ;; b <- Base.mask test (f_key o) ;; Ok (a, b).

(** fold_list.py:73-91 [align_with_key] with raise_missing *)
Definition folds_align (o : fold_list) (key : list string) : res fold_list :=
  let '(f, idx) := ismember key (f_key o) in
  if forallb (fun b => b) f then
    k <- take (f_key o) idx ;; fd <- take (f_fold o) idx ;;
    m <- match f_mask o with None => Ok None | Some m => m' <- take m idx ;; Ok (Some m') end ;;
    Ok (mk_folds fd k m)
  else Err BareException.

(** train_val_eval_list.py:102-119 [get_part_idx] with a part number *)
Definition get_part_idx (o : fold_list) (part : Z) : list bool :=
  let idx := map (fun f => f =? part) (f_fold o) in
  match f_mask o with None => idx | Some m => zip_with andb idx m end.

(** train_val_eval_list.py:221 [cum_prop = np.hstack(([0], np.cumsum(part_proportions), [1]))],
    on exact rationals *)
Fixpoint cumsum (a : Q) (l : list Q) : list Q := match l with [] => [] | x :: l => let a := Qplus a x in a :: cumsum a l end.
Definition cum_prop (props : list Q) : list Q := 0%Q :: cumsum 0%Q props ++ [1%Q].

(** train_val_eval_list.py:262-263 [int(np.round(cum_prop[j]*num_groups_i))], on exact rationals *)
Definition part_bound (cp : list Q) (n j : nat) : Z :=
  let c := nth j cp 1%Q in round_half_even (Qnum c * Z.of_nat n) (Zpos (Qden c)).

(** train_val_eval_list.py:198-272 [create] without the names *)
Definition parts_create (props : list Q) := folds_create (part_bound (cum_prop props)) (S (len props)).

(** train_val_eval_list.py:52-56, 112-114: part names are looked up in
    [{p:k for k,p in enumerate(part_names)}] (the last one wins) *)
Definition part_number (names : list string) (name : string) : res Z :=
  match index_of name (rev names) with
  | None => Err KeyError
  | Some k => Ok (Z.of_nat (len names - 1 - k))
  end.

(** train_val_eval_list.py:123-135 [get_part]: unpacks the one index array returned by
    [get_part_idx] into two variables, which works only for arrays of length two, and then indexes
    [key] with two booleans (numpy: 0-d boolean masks, result has shape (1, n) or (0, n));
    modelled only up to the unpacking *)
Definition get_part_unpack (o : fold_list) (part : Z) : res (bool * bool) :=
  match get_part_idx o part with [a; b] => Ok (a, b) | _ => Err ValueError end.

(** fold_list.py:145-154 [save]: the loop variable [f] hides the file [f]; the first [f.write] is an
    attribute lookup on a number.  With no segment at all nothing happens. *)
Definition folds_save (o : fold_list) : res unit :=
  match combine (f_fold o) (f_key o) with [] => Ok tt | _ => Err AttributeError end.
