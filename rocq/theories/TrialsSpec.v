(** Specification vocabulary for trial objects, independent of how they are computed:
    the value a matrix attaches to a (model name, segment name) pair. *)
From Verif Require Export Trials BaseFacts.
Open Scope list_scope.
Open Scope Z_scope.

(** the entry of the row named [m] and the column named [s]; None when a name is absent *)
Definition cell {A} (mods segs : list string) (M : mat A) (m s : string) : option A :=
  match index_of m mods, index_of s segs with
  | Some i, Some j => mget M i j
  | _, _ => None
  end.

(** a legal object: distinct names, matrices of the right shape *)
Definition ndx_ok (o : ndx) : Prop :=
  NoDup (n_mod o) /\ NoDup (n_seg o) /\ has_shape (n_mask o) (len (n_mod o)) (len (n_seg o)).

Definition cond_ok (n : nat) (C : option (mat bool)) : Prop :=
  match C with None => True | Some M => has_shape M (len (m_rows M)) n end.

Definition key_ok (o : key) : Prop :=
  NoDup (k_mod o) /\ NoDup (k_seg o) /\
  has_shape (k_tar o) (len (k_mod o)) (len (k_seg o)) /\ has_shape (k_non o) (len (k_mod o)) (len (k_seg o)) /\
  cond_ok (len (k_mod o)) (k_mcond o) /\ cond_ok (len (k_seg o)) (k_scond o) /\
  match k_tcond o with None => True | Some l => Forall (fun M => has_shape M (len (k_mod o)) (len (k_seg o))) l end.

Definition scores_ok {A} (F : sops A) (o : scores A) : Prop :=
  NoDup (s_mod o) /\ NoDup (s_seg o) /\
  has_shape (s_scr o) (len (s_mod o)) (len (s_seg o)) /\ has_shape (s_mask o) (len (s_mod o)) (len (s_seg o)) /\
  (forall i j x, mget (s_scr o) i j = Some x -> s_fin F x = true).

(** (m, s) is a trial of the list / a target / a non-target / a trial with a valid score *)
Definition trial (o : ndx) (m s : string) : Prop := cell (n_mod o) (n_seg o) (n_mask o) m s = Some true.
Definition target (o : key) (m s : string) : Prop := cell (k_mod o) (k_seg o) (k_tar o) m s = Some true.
Definition nontarget (o : key) (m s : string) : Prop := cell (k_mod o) (k_seg o) (k_non o) m s = Some true.
Definition scored {A} (o : scores A) (m s : string) : Prop := cell (s_mod o) (s_seg o) (s_mask o) m s = Some true.
Definition score_of {A} (o : scores A) (m s : string) : option A := cell (s_mod o) (s_seg o) (s_scr o) m s.

(** condition [c] of model / segment [m] *)
Definition cond_of (names : list string) (C : option (mat bool)) (c : nat) (m : string) : option bool :=
  match C, index_of m names with Some M, Some i => mget M c i | _, _ => None end.

(** increasing distinct names *)
Definition sorted_names (l : list string) : Prop := StronglySorted slt l.

(** [l] is the increasing list of the names that satisfy [P] *)
Definition sorted_set (l : list string) (P : string -> Prop) : Prop :=
  sorted_names l /\ forall x, In x l <-> P x.
