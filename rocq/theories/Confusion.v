(** Model of hyperion/metrics/confusion_matrix.py:17-100 (compute_confusion_matrix, compute_xlabel_confusion_matrix).
    sklearn's confusion_matrix(y_true, y_pred, labels, sample_weight) is a library function, modelled from its documentation and
    source: the label list is turned into a dictionary (the last position wins for a repeated label), samples with an unknown label are
    dropped, entry (i, j) is the sum of the weights of the samples with numbers (i, j); ValueError for different lengths, or if no
    label of the list occurs in y_true. (Versions from 1.0 on take labels and sample_weight only as keywords; there every call raises.)
    Weights are exact rationals. *)
From Coq Require Import QArith.
From Verif Require Export Base.
Open Scope list_scope.

Section Sk.
Context {L : Type} `{Ord L}.
Definition label_number (labels : list L) (y : L) : option nat :=
  match index_of y (rev labels) with None => None | Some k => Some (List.length labels - 1 - k)%nat end.
Definition is_num (o : option nat) (i : nat) : bool := match o with Some j => Nat.eqb i j | None => false end.
Definition weights (n : nat) (w : option (list Q)) : list Q := match w with Some w => w | None => repeat 1%Q n end.
Definition sk_cell (labels yt yp : list L) (w : list Q) (i j : nat) : Q :=
  fold_right Qplus 0%Q (map snd (filter (fun s => is_num (label_number labels (fst (fst s))) i && is_num (label_number labels (snd (fst s))) j)
                                        (combine (combine yt yp) w))).
Definition sk_confusion (yt yp labels : list L) (w : option (list Q)) : res (list (list Q)) :=
  let w := weights (List.length yt) w in
  if negb (Nat.eqb (List.length yt) (List.length yp) && Nat.eqb (List.length yt) (List.length w)) then Err ValueError
  else if negb (existsb (fun l => inb l yt) labels) then Err ValueError
  else let K := seq 0 (List.length labels) in Ok (map (fun i => map (sk_cell labels yt yp w i) K) K).

(** [C/np.sum(C, axis=1, keepdims=True)] (lines 34, 99); a row that sums to zero becomes nan (None) *)
Definition normalize_row (r : list Q) : list (option Q) :=
  let s := fold_right Qplus 0%Q r in map (fun c => if Qeq_bool s 0 then None else Some (c / s)%Q) r.
Definition finish (normalize : bool) (C : list (list Q)) : list (list (option Q)) :=
  if normalize then map normalize_row C else map (map Some) C.

(** lines 17-35; without labels sklearn uses the sorted labels of y_true and y_pred *)
Definition compute_confusion_matrix (yt yp : list L) (labels : option (list L)) (normalize : bool) (w : option (list Q)) : res (list (list (option Q))) :=
  C <- sk_confusion yt yp (match labels with Some l => l | None => unique (yt ++ yp) end) w ;; Ok (finish normalize C).
End Sk.

(** lines 39-100 with integer labels. Returns also the caller's y_pred and labels_train after the call: the arrays are changed in place
    ([+=], lines 77 and 87) when the caller passed numpy arrays, not when it passed lists ([list2ndarray] copies lists only). *)
Inductive arg := PyList (l : list Z) | NpArray (l : list Z).
Definition arg_val (a : arg) : list Z := match a with PyList l | NpArray l => l end.
Definition arg_after (a : arg) (l : list Z) : arg := match a with PyList _ => a | NpArray _ => NpArray l end.
Definition xlabel_int (yt yp : arg) (labels_train labels_test : option arg) (normalize : bool) (w : option (list Q))
  : res (list (list (option Q)) * arg * option arg) :=
  let train := match labels_train with None => unique (arg_val yp) | Some l => arg_val l end in
  let test := match labels_test with None => unique (arg_val yt) | Some l => arg_val l end in
  let nt := List.length test in
  let yp' := map (fun y => (y + Z.of_nat nt)%Z) (arg_val yp) in
  let train' := map (fun y => (y + Z.of_nat nt)%Z) train in
  C <- sk_confusion (arg_val yt) yp' (test ++ train') w ;;
  Ok (finish normalize (map (skipn nt) (firstn nt C)), arg_after yp yp', option_map (fun a => arg_after a train') labels_train).
(** with string labels line 78 evaluates issubclass(type, np.dtype('U')): the second argument is not a class *)
Definition xlabel_str (yt yp : list string) (normalize : bool) : res (list (list (option Q))) := Err TypeError.
