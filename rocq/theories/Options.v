(** Model of the add_argparse_args / filter_args pairs found in every configurable class (for instance feats/energy_vad.py:135-211,
    io/data_rw_factory.py:61-85, helpers/trial_data_reader.py:67-107), of utils/misc.py:19-26 (str2bool), and of the way the scripts in bin/ use them:
    parser = ArgumentParser(); C.add_argparse_args(parser, prefix); args = vars(parser.parse_args()); C(..., **C.filter_args(prefix, **args)).
    argparse is modelled for options written in full (no abbreviation), given as a list of (option, words that follow it). Defaults are stored as they
    are (in the code text defaults are already in the form their type gives). Real numbers are kept as the text given. *)
From Coq Require Import ZArith List Bool Ascii String.
From Verif Require Import Base Str.
Import ListNotations.
Open Scope list_scope. Open Scope Z_scope.

Inductive kind := Text | Lower | Int | Float | Bool | Str2Bool | AutoInt | Words | SetTrue | SetFalse.
Inductive val := VText (s : string) | VInt (n : Z) | VFloat (s : string) | VBool (b : bool) | VNone | VList (l : list string).

(** One parser.add_argument call: whether the option and its destination are written without the prefix, the option, the destination, type or
    action, default, choices *)
Record opt := mk_opt { o_fixed : bool; o_flag : string; o_dest : string; o_kind : kind; o_default : val; o_choices : option (list string) }.
(** A class: its options, the names in valid_args, the parameters of its constructor (or factory function) that can be given by name, and the
    pairs (a, b) for which filter_args sets d[b] = not d[a] and removes a *)
Record cls := mk_cls { c_opts : list opt; c_valid : list string; c_params : list string; c_neg : list (string * string) }.

(** p2 / p in the code *)
Definition pre (p : option string) : string := match p with None => "" | Some p => p ++ "_" end%string.
(** p1 in the code *)
Definition pre_flag (p : option string) : string := match p with None => "--" | Some p => "--" ++ p ++ "-" end%string.
Definition flag_of (p : option string) (o : opt) : string := if o_fixed o then ("--" ++ o_flag o)%string else (pre_flag p ++ o_flag o)%string.
Definition key_of (p : option string) (o : opt) : string := if o_fixed o then o_dest o else (pre p ++ o_dest o)%string.

(** str.lower on ASCII *)
Definition lower_chr (c : ascii) : ascii :=
  let n := Z.of_nat (nat_of_ascii c) in if (65 <=? n) && (n <=? 90) then ascii_of_nat (Z.to_nat (n + 32)) else c.
Fixpoint lower (s : string) : string := match s with EmptyString => EmptyString | String c s => String (lower_chr c) (lower s) end.
(** utils/misc.py:19-26 *)
Definition str2bool (s : string) : res bool :=
  let l := lower s in
  if existsb (String.eqb l) ["true"; "t"; "yes"; "y"]%string then Ok true
  else if existsb (String.eqb l) ["false"; "f"; "no"; "n"]%string then Ok false
  else Err ValueError.
(** The texts float() accepts: an optional sign, then digits with an optional point and exponent. (inf, nan, blanks and underscores left out.) *)
Definition is_dig (c : ascii) : bool := let n := Z.of_nat (nat_of_ascii c) in (48 <=? n) && (n <=? 57).
Fixpoint digits (seen : bool) (s : string) : bool * string :=
  match s with String c t => if is_dig c then digits true t else (seen, s) | EmptyString => (seen, s) end.
Definition unsign (s : string) : string := match s with String c t => if Ascii.eqb c "-" || Ascii.eqb c "+" then t else s | _ => s end.
Definition is_float (s : string) : bool :=
  let '(a, s) := digits false (unsign s) in
  let '(a, s) := match s with String "." t => digits a t | _ => (a, s) end in
  a && match s with
       | EmptyString => true
       | String c t => (Ascii.eqb c "e" || Ascii.eqb c "E") && (let '(b, r) := digits false (unsign t) in b && match r with EmptyString => true | _ => false end)
       end.
Definition choice (ch : option (list string)) (s : string) : res val :=
  match ch with Some l => if existsb (String.eqb s) l then Ok (VText s) else Err SystemExit | None => Ok (VText s) end.
(** What argparse makes of the words after an option; on a wrong number of words or a text its type refuses, it exits. (Choices are given only for texts
    in the code.) type=bool is the constructor of bool: every text but the empty one is True. *)
Definition convert (k : kind) (ch : option (list string)) (w : list string) : res val :=
  match k, w with
  | SetTrue, [] => Ok (VBool true)
  | SetFalse, [] => Ok (VBool false)
  | Text, [s] => choice ch s
  | Lower, [s] => choice ch (lower s)
  | Int, [s] => match py_int s with Some n => Ok (VInt n) | None => Err SystemExit end
  | Float, [s] => if is_float s then Ok (VFloat s) else Err SystemExit
  | Bool, [s] => Ok (VBool (negb (s =? "")%string))
  | Str2Bool, [s] => match str2bool s with Ok b => Ok (VBool b) | Err _ => Err SystemExit end
  | AutoInt, [s] => if (s =? "auto")%string then Ok (VText s) else match py_int s with Some n => Ok (VInt n) | None => Err SystemExit end
  | Words, _ :: _ => Ok (VList w)
  | _, _ => Err SystemExit
  end.

(** The parser: the registered options with their full names. *)
Record action := mk_action { a_flag : string; a_dest : string; a_opt : opt }.
Definition action_of (p : option string) (o : opt) : action := mk_action (flag_of p o) (key_of p o) o.
(** ArgumentParser.add_argument; an option registered twice raises argparse.ArgumentError (here RuntimeErr) *)
Definition add_argument (ps : list action) (a : action) : res (list action) :=
  if existsb (fun b => (a_flag b =? a_flag a)%string) ps then Err RuntimeErr else Ok (ps ++ [a]).
Fixpoint add_arguments (ps : list action) (l : list action) : res (list action) :=
  match l with [] => Ok ps | a :: l => ps <- add_argument ps a ;; add_arguments ps l end.
Definition add_argparse_args (p : option string) (c : cls) (ps : list action) : res (list action) := add_arguments ps (map (action_of p) (c_opts c)).
(** A script registering several classes in turn *)
Fixpoint add_all (ps : list action) (l : list (option string * cls)) : res (list action) :=
  match l with [] => Ok ps | (p, c) :: l => ps <- add_argparse_args p c ps ;; add_all ps l end.

Definition dict := list (string * val).
Fixpoint dget (d : dict) (k : string) : option val := match d with [] => None | (j, v) :: d => if (j =? k)%string then Some v else dget d k end.
Fixpoint dset (d : dict) (k : string) (v : val) : dict :=
  match d with [] => [(k, v)] | (j, w) :: d => if (j =? k)%string then (j, v) :: d else (j, w) :: dset d k v end.
Fixpoint ddel (d : dict) (k : string) : dict := match d with [] => [] | (j, w) :: d => if (j =? k)%string then ddel d k else (j, w) :: ddel d k end.
(** ArgumentParser.parse_args and vars: first the defaults, the first registered for each destination; then the command line in order *)
Fixpoint defaults (d : dict) (ps : list action) : dict :=
  match ps with
  | [] => d
  | a :: ps => defaults (match dget d (a_dest a) with Some _ => d | None => dset d (a_dest a) (o_default (a_opt a)) end) ps
  end.
Fixpoint consume (ps : list action) (d : dict) (argv : list (string * list string)) : res dict :=
  match argv with
  | [] => Ok d
  | (f, w) :: argv =>
      match find (fun a => (a_flag a =? f)%string) ps with
      | None => Err SystemExit
      | Some a => v <- convert (o_kind (a_opt a)) (o_choices (a_opt a)) w ;; consume ps (dset d (a_dest a) v) argv
      end
  end.
Definition parse_args (ps : list action) (argv : list (string * list string)) : res dict := consume ps (defaults [] ps) argv.

(** filter_args: dict((k, kwargs[p+k]) for k in valid_args if p+k in kwargs), then the negated arguments (feature_normalization.py:210-236) *)
Definition picked (p : option string) (valid : list string) (args : dict) : dict :=
  fold_left (fun d k => match dget args (pre p ++ k)%string with Some v => dset d k v | None => d end) valid [].
Definition falsy (v : val) : bool :=
  match v with VText s => (s =? "")%string | VInt n => n =? 0 | VBool b => negb b | VNone => true | VList l => match l with [] => true | _ => false end | VFloat _ => false end.
Definition negate (d : dict) (ab : string * string) : res dict :=
  match dget d (fst ab) with
  | None => Err KeyError
  | Some v => Ok (ddel (dset d (snd ab) (VBool (falsy v))) (fst ab))
  end.
Fixpoint negates (d : dict) (l : list (string * string)) : res dict :=
  match l with [] => Ok d | ab :: l => d <- negate d ab ;; negates d l end.
Definition filter_args (p : option string) (c : cls) (args : dict) : res dict := negates (picked p (c_valid c) args) (c_neg c).
(** Calling the constructor with the dictionary: a name it does not have is a TypeError. The result is the dictionary of values it receives. *)
Definition construct (c : cls) (d : dict) : res dict :=
  if forallb (fun kv => existsb (String.eqb (fst kv)) (c_params c)) d then Ok d else Err TypeError.
(** A script: register the classes, parse the command line, build the object of section (p, c) *)
Definition script (l : list (option string * cls)) (argv : list (string * list string)) : res dict := ps <- add_all [] l ;; parse_args ps argv.
Definition build (p : option string) (c : cls) (args : dict) : res dict := d <- filter_args p c args ;; construct c d.
