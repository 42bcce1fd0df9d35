(** Model of hyperion/helpers/vector_class_reader.py: VectorClassReader._filter_by_spc, _split_classes and the class ids of read.
    The quotients (n - max)/shift and nmax*num_classes/shift are exact (the code computes them in binary64, exact enough
    below 2^50). rng.choice is an arbitrary function [choice] of the draw. *)
From Verif Require Export Base Utt2Info.
From Verif Require Import Str.
Open Scope list_scope.
Open Scope Z_scope.

Inductive prune_mode := PRandom | PLast | PFirst | POther.
Inductive split_mode := SSequential | SRandom | SRandom1Part | SOther. (* 'random_1subclass', the command line choice, is SOther *)

Section Reader.
(** rng.choice(indx, size=n, replace=False) at draw k *)
Variable choice : nat -> list nat -> nat -> list nat.

Definition infos (rows : list u2row) : list string := map snd rows.
(** np.where(class_ids == i)[0] *)
Definition where_class (rows : list u2row) (i : nat) : list nat := nonzero (map (fun d => Nat.eqb d i) (inverse (infos rows))).
(** return_counts *)
Definition num_spc (rows : list u2row) (i : nat) : nat := List.length (where_class rows i).
Definition num_classes (rows : list u2row) : nat := List.length (unique (infos rows)).

(** vector_class_reader.py:127-139: positions rejected from class i *)
Definition rejected (mode : prune_mode) (max_spc : nat) (rows : list u2row) (i : nat) : list nat :=
  let indx := where_class rows i in
  if (max_spc <? List.length indx)%nat then
    let num_reject := (List.length indx - max_spc)%nat in
    match mode with
    | PRandom => choice i indx num_reject
    | PLast => skipn (List.length indx - num_reject) indx
    | PFirst => firstn num_reject indx
    | POther => indx
    end
  else [].

(** vector_class_reader.py:111-144 [_filter_by_spc]; min_spc = None makes None <= 1 a TypeError *)
Definition filter_by_spc (rows : list u2row) (min_spc : option Z) (max_spc : option nat) (mode : prune_mode) : res (list u2row) :=
  match min_spc with
  | None => Err TypeError
  | Some mn =>
    if (mn <=? 1) && (match max_spc with None => true | Some _ => false end) then Ok rows
    else
      rows <- (if 1 <? mn then
                 let classes := unique (infos rows) in
                 let filter_key := map fst (filter (fun p => mn <=? Z.of_nat (num_spc rows (snd p))) (combine classes (seq 0 (List.length classes)))) in
                 o <- u2i_filter_info (u2i_new rows) filter_key true ;; Ok (u_rows o)
               else Ok rows) ;;
      match max_spc with
      | None => Ok rows
      | Some mx =>
        if forallb (fun i => (num_spc rows i <=? mx)%nat) (seq 0 (num_classes rows)) then Ok rows
        else
          let rej := concat (map (rejected mode mx rows) (seq 0 (num_classes rows))) in
          mask (map (fun p => negb (existsb (Nat.eqb p) rej)) (seq 0 (List.length rows))) rows
      end
  end.

(** a[j:j+n] = vals for an array of [cap] elements of which the first [out] are used; the values get class [id].
    The slice is cut at the end of the array; numpy then accepts values of exactly that length, or one value. *)
Definition write (cap : nat) (out : list (nat * nat)) (n : nat) (vals : list nat) (id : nat) : res (list (nat * nat)) :=
  let d := Nat.min n (cap - List.length out) in
  if (List.length vals =? d)%nat then Ok (out ++ map (fun v => (v, id)) vals)
  else match vals with
       | [v] => Ok (out ++ repeat (v, id) d)
       | _ => Err ValueError
       end.
Fixpoint writes (cap : nat) (out : list (nat * nat)) (id : nat) (ws : list (nat * list nat)) : res (list (nat * nat)) :=
  match ws with [] => Ok out | w :: ws => out <- write cap out (fst w) (snd w) id ;; writes cap out (S id) ws end.

(** int(np.ceil((n - max_spc)/shift + 1)), for n > max_spc *)
Definition num_subclass (n max_spc shift : nat) : nat := ((n - max_spc + shift - 1) / shift + 1)%nat.
(** lines 167-196: what is written for class i; [first_id] numbers the draws *)
Definition class_writes (mode : split_mode) (rows : list u2row) (max_spc shift : nat) (i : nat) : list (nat * list nat) :=
  let indx_i := where_class rows i in
  let n_i := List.length indx_i in
  if (max_spc <? n_i)%nat then
    let ns := num_subclass n_i max_spc shift in
    match mode with
    | SSequential =>
      map (fun k => (max_spc, firstn max_spc (skipn (k * shift) indx_i))) (seq 0 (ns - 1)) ++
      (let n := (n_i - (ns - 1) * shift)%nat in [(n, firstn n (skipn ((ns - 1) * shift) indx_i))])
    | SRandom => map (fun k => (max_spc, choice (i * S (List.length rows) + k) indx_i max_spc)) (seq 0 ns)
    | _ => []
    end
  else [(n_i, indx_i)].

(** lines 149-203 [_split_classes]. [overlap_is_float]: the command line parses the overlap with type=float; slicing with the
    floats l and n is then a TypeError (sequential mode only). An overlap of max_spc or more (shift <= 0) is not modelled in detail:
    BareException. *)
Definition split_classes (rows : list u2row) (min_spc : option Z) (max_spc : option nat) (mode : split_mode) (overlap : nat) (overlap_is_float : bool) : res (list u2row) :=
  match max_spc with
  | None => Ok rows
  | Some mx =>
    match mode with
    | SRandom1Part => filter_by_spc rows min_spc (Some mx) PRandom
    | _ =>
      if forallb (fun i => (num_spc rows i <=? mx)%nat) (seq 0 (num_classes rows)) then filter_by_spc rows min_spc None PLast
      else if (mx <=? overlap)%nat then Err BareException
      else
        let shift := (mx - overlap)%nat in
        let nmax := list_max (map (num_spc rows) (seq 0 (num_classes rows))) in
        let cap := (mx * (nmax * num_classes rows / shift + 1))%nat in
        _ <- (match mode with SSequential => if overlap_is_float then Err TypeError else Ok tt | _ => Ok tt end) ;;
        out <- writes cap [] 0 (concat (map (class_writes mode rows mx shift) (seq 0 (num_classes rows)))) ;;
        key <- take (map fst rows) (map (fun p => Z.of_nat (fst p)) out) ;;
        filter_by_spc (combine key (map (fun p => fmt_d (Z.of_nat (snd p))) out)) min_spc None PLast
    end
  end.

(** lines 68-75: class ids returned by read: positions in the sorted distinct infos, or the class2int map *)
Definition class_ids (rows : list u2row) (class2int : option (list (string * Z))) : res (list Z) :=
  match class2int with
  | None => Ok (map Z.of_nat (inverse (infos rows)))
  | Some m => mapM (fun c => match find (fun p => eqb c (fst p)) (rev m) with Some p => Ok (snd p) | None => Err KeyError end) (infos rows)
  end.
End Reader.
