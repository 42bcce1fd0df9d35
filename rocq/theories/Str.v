(** Python string primitives used by the text formats of the code base (str.split with
    maxsplit=1, str.rstrip, int(), '%d', str.isdecimal, iteration over the lines of a text
    file).  Library behaviour, trusted; characters are code points < 256. *)
From Verif Require Export Base.
From Coq Require Import DecimalString DecimalZ Decimal.
Open Scope string_scope.

Definition chr (n : nat) : ascii := ascii_of_nat n.
Definition nl : ascii := chr 10.
Definition cr : ascii := chr 13.

(** str.isspace restricted to code points < 256. *)
Definition is_space (c : ascii) : bool :=
  let n := nat_of_ascii c in
  ((9 <=? n) && (n <=? 13) || (28 <=? n) && (n <=? 32) || (n =? 133) || (n =? 160))%nat.

Definition is_digit (c : ascii) : bool :=
  let n := nat_of_ascii c in ((48 <=? n) && (n <=? 57))%nat.

(** s.split(sep=c, maxsplit=1) for a one-character separator:
    [(s, None)] when [c] is absent, [(before, Some after)] otherwise. *)
Fixpoint split1 (c : ascii) (s : string) : string * option string :=
  match s with
  | EmptyString => (EmptyString, None)
  | String x s' =>
      if Ascii.eqb x c then (EmptyString, Some s')
      else let '(b, r) := split1 c s' in (String x b, r)
  end.

(** s.rstrip(chars) *)
Fixpoint rstrip_if (p : ascii -> bool) (s : string) : string :=
  match s with
  | EmptyString => EmptyString
  | String x s' =>
      match rstrip_if p s' with
      | EmptyString => if p x then EmptyString else String x EmptyString
      | t => String x t
      end
  end.
Definition rstrip (s : string) : string := rstrip_if is_space s.

Fixpoint lstrip (s : string) : string :=
  match s with
  | EmptyString => EmptyString
  | String x s' => if is_space x then lstrip s' else s
  end.

Fixpoint str_forallb (p : ascii -> bool) (s : string) : bool :=
  match s with EmptyString => true | String x s' => p x && str_forallb p s' end.

Definition str_in (c : ascii) (s : string) : bool := negb (str_forallb (fun x => negb (Ascii.eqb x c)) s).

(** s.isdecimal() *)
Definition isdecimal (s : string) : bool :=
  match s with EmptyString => false | _ => str_forallb is_digit s end.

(** '%d' % z *)
Definition fmt_d (z : Z) : string := NilZero.string_of_int (Z.to_int z).

(** Value of a non-empty digit string (most significant first). *)
Fixpoint digits_val (acc : Z) (s : string) : Z :=
  match s with
  | EmptyString => acc
  | String x s' => digits_val (acc * 10 + (Z.of_nat (nat_of_ascii x) - 48))%Z s'
  end.

(** Digits with single underscores between digits, as int() accepts ("1_000"). *)
Fixpoint strip_underscores (prev_digit : bool) (s : string) : option string :=
  match s with
  | EmptyString => if prev_digit then Some EmptyString else None
  | String x s' =>
      if is_digit x then
        match strip_underscores true s' with Some t => Some (String x t) | None => None end
      else if Ascii.eqb x "_" && prev_digit then strip_underscores false s'
      else None
  end.

(** int(s) for a string argument; None stands for ValueError. *)
Definition py_int (s : string) : option Z :=
  let t := lstrip (rstrip s) in
  let '(sg, t) := match t with
                  | String "-" t' => ((-1)%Z, t')
                  | String "+" t' => (1%Z, t')
                  | _ => (1%Z, t)
                  end in
  match t with
  | EmptyString => None
  | _ => match strip_underscores false t with
         | Some d => Some (sg * digits_val 0 d)%Z
         | None => None
         end
  end.

(** Iteration over the lines of a file opened in text mode ('r', universal newlines),
    without the line terminators (every user below calls rstrip first, which removes
    them anyway). *)
Fixpoint lines_aux (s : string) : string * list string :=
  (* (first line, following lines); a trailing empty piece is dropped by [py_lines] *)
  match s with
  | EmptyString => (EmptyString, [])
  | String x s' =>
      let '(l, ls) := lines_aux s' in
      if Ascii.eqb x nl then (EmptyString, l :: ls)
      else if Ascii.eqb x cr then
        match s' with
        | String y _ => if Ascii.eqb y nl then (EmptyString, ls) else (EmptyString, l :: ls)
        | EmptyString => (EmptyString, l :: ls)
        end
      else (String x l, ls)
  end.

Fixpoint drop_last_empty (l : list string) : list string :=
  match l with
  | [] => []
  | [x] => match x with EmptyString => [] | _ => [x] end
  | x :: l' => x :: drop_last_empty l'
  end.

Definition py_lines (s : string) : list string :=
  let '(l, ls) := lines_aux s in drop_last_empty (l :: ls).

Fixpoint str_concat (l : list string) : string :=
  match l with [] => EmptyString | x :: l' => x ++ str_concat l' end.

Definition nl_str : string := String nl EmptyString.
