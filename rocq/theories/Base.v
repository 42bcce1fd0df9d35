(** Common vocabulary of the model: Python exceptions as values, total orders on
    element types, the few numpy primitives the code base relies on.

    The numpy / Python primitives modelled here (fancy indexing, boolean-mask indexing,
    [np.arange], [np.unique], [np.setdiff1d]) are library functions: they have no source in
    /repo, their documented behaviour is part of the trusted base (see DESIGN.md). *)
From Coq Require Export String Ascii.
From Coq Require Export List Arith ZArith Lia Bool Permutation Sorted.
From Coq Require Export ZifyBool ZifyNat ZifyN.
From Coq Require Import OrdersEx.
Export ListNotations.
Ltac Zify.zify_post_hook ::= Z.div_mod_to_equations.

(** ** Results *)

(** Exceptions a modelled function can raise. *)
Inductive exn : Type :=
| AssertionError | IndexError | KeyError | ValueError | TypeError | NameError
| AttributeError | ZeroDivisionError | UnboundLocalError | IOErr | SystemExit | RuntimeErr
| StructError | NotImplemented | StopIteration | UnicodeErr | BareException.

Inductive res (A : Type) : Type :=
| Ok (a : A)
| Err (e : exn).
Arguments Ok {A} a.
Arguments Err {A} e.

Definition bind {A B} (x : res A) (f : A -> res B) : res B :=
  match x with Ok a => f a | Err e => Err e end.
Notation "x <- e1 ;; e2" := (bind e1 (fun x => e2))
  (at level 61, e1 at next level, right associativity).
Notation "' p <- e1 ;; e2" := (bind e1 (fun p => e2))
  (at level 61, p pattern, e1 at next level, right associativity).

Definition is_ok {A} (r : res A) : Prop := exists a, r = Ok a.

(** [mapM f l]: left-to-right traversal stopping at the first exception. *)
Fixpoint mapM {A B} (f : A -> res B) (l : list A) : res (list B) :=
  match l with
  | [] => Ok []
  | x :: xs => y <- f x ;; ys <- mapM f xs ;; Ok (y :: ys)
  end.

(** [assert b] : Python's assert statement. *)
Definition assert (b : bool) : res unit := if b then Ok tt else Err AssertionError.

(** ** Element types with a total order (str, int) *)

Class Ord (A : Type) : Type := {
  leb : A -> A -> bool;
  leb_total : forall x y, leb x y = true \/ leb y x = true;
  leb_trans : forall x y z, leb x y = true -> leb y z = true -> leb x z = true;
  leb_antisym : forall x y, leb x y = true -> leb y x = true -> x = y
}.

(** Equality test and strict order derived from the order. *)
Definition eqb {A} `{Ord A} (x y : A) : bool := leb x y && leb y x.
Definition ltb {A} `{Ord A} (x y : A) : bool := negb (leb y x).

Lemma leb_refl {A} `{Ord A} (x : A) : leb x x = true.
Proof. destruct (leb_total x x); assumption. Qed.

Lemma eqb_eq {A} `{Ord A} (x y : A) : eqb x y = true <-> x = y.
Proof.
  unfold eqb. rewrite andb_true_iff. split.
  - intros [H1 H2]. apply leb_antisym; assumption.
  - intros ->. split; apply leb_refl.
Qed.

Lemma eqb_refl {A} `{Ord A} (x : A) : eqb x x = true.
Proof. apply eqb_eq. reflexivity. Qed.

Lemma eqb_neq {A} `{Ord A} (x y : A) : eqb x y = false <-> x <> y.
Proof.
  rewrite <- not_true_iff_false, eqb_eq. reflexivity.
Qed.

Lemma eqb_sym {A} `{Ord A} (x y : A) : eqb x y = eqb y x.
Proof. unfold eqb. apply andb_comm. Qed.

Lemma eqb_spec {A} `{Ord A} (x y : A) : reflect (x = y) (eqb x y).
Proof. apply iff_reflect. symmetry. apply eqb_eq. Qed.

Lemma ltb_iff {A} `{Ord A} (x y : A) : ltb x y = true <-> (leb x y = true /\ x <> y).
Proof.
  unfold ltb. rewrite negb_true_iff. split.
  - intros E. split.
    + destruct (leb_total x y) as [T|T]; [exact T | congruence].
    + intros ->. rewrite leb_refl in E. discriminate.
  - intros [L N]. destruct (leb y x) eqn:E; [|reflexivity].
    exfalso. apply N. apply leb_antisym; assumption.
Qed.

Definition ord_dec {A} `{Ord A} (x y : A) : {x = y} + {x <> y}.
Proof.
  destruct (eqb x y) eqn:E.
  - left. apply eqb_eq. exact E.
  - right. apply eqb_neq. exact E.
Defined.

(** Strings, compared code point by code point. *)
#[export] Instance string_ord : Ord string.
Proof.
  refine {| leb := String.leb |}.
  - apply String.leb_total.
  - intros x y z. unfold String.leb.
    destruct (String.compare x y) eqn:E1; try discriminate;
    destruct (String.compare y z) eqn:E2; try discriminate; intros _ _.
    + apply String.compare_eq_iff in E1. apply String.compare_eq_iff in E2. subst.
      destruct (String.leb_total z z) as [T|T]; unfold String.leb in T; exact T.
    + apply String.compare_eq_iff in E1. subst. rewrite E2. reflexivity.
    + apply String.compare_eq_iff in E2. subst. rewrite E1. reflexivity.
    + assert (Hlt : String_as_OT.lt x z).
      { pose proof String_as_OT.lt_strorder as [_ Ht]. apply Ht with y; assumption. }
      change (String.compare x z = Lt) in Hlt. rewrite Hlt. reflexivity.
  - apply String.leb_antisym.
Defined.

#[export] Instance nat_ord : Ord nat.
Proof.
  refine {| leb := Nat.leb |}; intros; lia.
Defined.

#[export] Instance Z_ord : Ord Z.
Proof.
  refine {| leb := Z.leb |}; intros; lia.
Defined.

(** ** numpy primitives *)

(** [np.arange(lo, hi)] on integers. *)
Definition arange (lo hi : Z) : list Z :=
  map (fun k => (lo + Z.of_nat k)%Z) (seq 0 (Z.to_nat (hi - lo))).

(** [a[i]] with Python semantics: negative indices count from the end. *)
Definition py_index (n : nat) (i : Z) : option nat :=
  if (0 <=? i)%Z && (i <? Z.of_nat n)%Z then Some (Z.to_nat i)
  else if (- Z.of_nat n <=? i)%Z && (i <? 0)%Z then Some (Z.to_nat (Z.of_nat n + i))
  else None.

Definition get_item {A} (a : list A) (i : Z) : res A :=
  match py_index (List.length a) i with
  | None => Err IndexError
  | Some k => match nth_error a k with Some x => Ok x | None => Err IndexError end
  end.

(** [a[loc]] with an integer index array. *)
Definition take {A} (a : list A) (loc : list Z) : res (list A) := mapM (get_item a) loc.

(** [a[f]] with a boolean mask of the same length (numpy raises IndexError otherwise). *)
Fixpoint sel {A} (f : list bool) (a : list A) : list A :=
  match f, a with
  | b :: f', x :: a' => if b then x :: sel f' a' else sel f' a'
  | _, _ => []
  end.

Definition mask {A} (f : list bool) (a : list A) : res (list A) :=
  if Nat.eqb (List.length f) (List.length a) then Ok (sel f a) else Err IndexError.

(** [np.unique]: increasing list of the distinct values. *)
Fixpoint insert_u {A} `{Ord A} (x : A) (l : list A) : list A :=
  match l with
  | [] => [x]
  | y :: l' => if eqb x y then l
               else if leb x y then x :: l else y :: insert_u x l'
  end.

Definition unique {A} `{Ord A} (l : list A) : list A := fold_right insert_u [] l.

(** Membership test and lowest index. *)
Definition inb {A} `{Ord A} (x : A) (l : list A) : bool := existsb (eqb x) l.

Fixpoint index_of {A} `{Ord A} (x : A) (l : list A) : option nat :=
  match l with
  | [] => None
  | y :: l' => if eqb x y then Some 0%nat
               else match index_of x l' with Some k => Some (S k) | None => None end
  end.

(** [np.unique(key, return_inverse=True)[1]]: position of each element in [unique key]. *)
Definition inverse {A} `{Ord A} (key : list A) : list nat :=
  map (fun k => match index_of k (unique key) with Some i => i | None => 0%nat end) key.

(** [np.setdiff1d(a, b)]: increasing distinct values of [a] not in [b]. *)
Definition setdiff {A} `{Ord A} (a b : list A) : list A :=
  filter (fun x => negb (inb x b)) (unique a).

(** [np.intersect1d(a, b)]: increasing distinct common values. *)
Definition intersect1d {A} `{Ord A} (a b : list A) : list A :=
  filter (fun x => inb x b) (unique a).

(** [np.union1d(a, b)]. *)
Definition union1d {A} `{Ord A} (a b : list A) : list A := unique (a ++ b).

(** [(f).nonzero()[0]] of a boolean list. *)
Fixpoint nonzero_from (k : nat) (f : list bool) : list nat :=
  match f with
  | [] => []
  | b :: f' => if b then k :: nonzero_from (S k) f' else nonzero_from (S k) f'
  end.
Definition nonzero (f : list bool) : list nat := nonzero_from 0 f.
