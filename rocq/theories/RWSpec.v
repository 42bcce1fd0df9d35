(** Model of hyperion/io/rw_specifiers.py and of the dispatch in data_rw_factory.py. *)
From Verif Require Export Str.
Open Scope string_scope.

(** s.split(c) (no maxsplit) for a one-character separator; never empty. *)
Fixpoint split_all (c : ascii) (s : string) : list string :=
  match s with
  | EmptyString => [""]
  | String x s' =>
      if Ascii.eqb x c then "" :: split_all c s'
      else match split_all c s' with
           | [] => [String x ""]
           | w :: ws => String x w :: ws
           end
  end.

(** s.strip() *)
Definition strip (s : string) : string := lstrip (rstrip s).

(** rw_specifiers.py:14-17 *)
Inductive archive_type : Type := H5 | ARK.
(** rw_specifiers.py:73-78 (NO is never produced) *)
Inductive wspec_type : Type := W_ARCHIVE | W_SCRIPT | W_BOTH.
(** rw_specifiers.py:269-272 *)
Inductive rspec_type : Type := R_ARCHIVE | R_SCRIPT.

(** rw_specifiers.py:102-111 *)
Record wspec : Type := mk_w {
  w_type : wspec_type; w_archive : option string; w_script : option string;
  w_atype : option archive_type; w_binary : bool; w_flush : bool; w_permissive : bool }.

(** State of the option loop (l.138-145): archive, script, archive_type, flush, cur_archive. *)
Record wst : Type := mk_wst {
  st_archive : option string; st_script : option string; st_atype : option archive_type;
  st_flush : bool; st_cur : nat }.

Definition none_b {A} (o : option A) : bool := match o with None => true | Some _ => false end.

(** archives[cur_archive] after the length assertion (l.151-153, 159-161, 166-167) *)
Definition nth_arch (archs : list string) (k : nat) : res string :=
  match nth_error archs k with Some a => Ok a | None => Err AssertionError end.

(** l.147-154 / 155-162, for archive type [t] *)
Definition w_arch_opt (t : archive_type) (archs : list string) (s : wst) : res wst :=
  _ <- assert (none_b (st_atype s)) ;;
  _ <- assert (none_b (st_archive s)) ;;
  a <- nth_arch archs (st_cur s) ;;
  Ok (mk_wst (Some a) (st_script s) (Some t) (st_flush s) (S (st_cur s))).

(** one iteration of the loop l.146-175 *)
Definition w_option (archs : list string) (s : wst) (o : string) : res wst :=
  if eqb o "h5" then w_arch_opt H5 archs s
  else if eqb o "ark" then w_arch_opt ARK archs s
  else if eqb o "scp" then
    _ <- assert (none_b (st_script s)) ;;
    a <- nth_arch archs (st_cur s) ;;
    Ok (mk_wst (st_archive s) (Some a) (st_atype s) (st_flush s) (S (st_cur s)))
  else if eqb o "f" then Ok (mk_wst (st_archive s) (st_script s) (st_atype s) true (st_cur s))
  else if inb o ["b"; "t"; "nf"; "p"] then Ok s
  else Err ValueError.

Fixpoint foldM {A S} (f : S -> A -> res S) (l : list A) (s : S) : res S :=
  match l with [] => Ok s | x :: l' => s' <- f s x ;; foldM f l' s' end.

Definition is_ark (t : option archive_type) : bool := match t with Some ARK => true | _ => false end.

(** l.135-196: the two-field case, after splitting *)
Definition w_create2 (options archives : list string) : res wspec :=
  st <- foldM (w_option archives) options (mk_wst None None None false 0) ;;
  ty <- match st_archive st, st_script st with
        | None, Some _ => Ok W_SCRIPT
        | None, None => Err ValueError
        | Some _, None => Ok W_ARCHIVE
        | Some _, Some _ => Ok W_BOTH
        end ;;
  let ark := is_ark (st_atype st) in
  Ok (mk_w ty (st_archive st) (st_script st) (st_atype st)
        (negb (ark && inb "t" options)) (st_flush st) (ark && inb "p" options)).

(** rw_specifiers.py:115-199 [WSpecifier.create] *)
Definition w_create (s : string) : res wspec :=
  match split_all ":" (strip s) with
  | [f] => match f with
           | EmptyString => Err AssertionError
           | _ => Ok (mk_w W_ARCHIVE (Some f) None (Some H5) true false false)
           end
  | [f0; f1] => w_create2 (split_all "," (strip f0)) (split_all "," (strip f1))
  | _ => Err ValueError
  end.

(** rw_specifiers.py:275-288 *)
Record rspec : Type := mk_r {
  rs_type : rspec_type; rs_archive : string; rs_atype : option archive_type;
  rs_once : bool; rs_sorted : bool; rs_called_sorted : bool; rs_permissive : bool; rs_background : bool }.

(** State of the loop l.307-334: spec_type, archive_type, permissive. *)
Definition rst : Type := option rspec_type * option archive_type * bool.

(** one iteration of the loop l.316-334 *)
Definition r_option (s : rst) (o : string) : res rst :=
  let '(ty, at_, p) := s in
  if eqb o "h5" then _ <- assert (none_b ty) ;; Ok (Some R_ARCHIVE, Some H5, p)
  else if eqb o "ark" then _ <- assert (none_b ty) ;; Ok (Some R_ARCHIVE, Some ARK, p)
  else if eqb o "scp" then _ <- assert (none_b ty) ;; Ok (Some R_SCRIPT, at_, p)
  else if eqb o "p" then Ok (ty, at_, true)
  else if inb o ["o"; "s"; "cs"; "bg"] then Ok s
  else Err ValueError.

(** l.340-345: archive type of a script from its first line.  [file] is the content of the
    script file ([None]: it cannot be opened). *)
Definition script_type (file : option string) : res archive_type :=
  match file with
  | None => Err IOErr
  | Some text =>
      match split_all " " (strip (fst (lines_aux text))) with
      | _ :: x :: _ =>
          match split_all "[" x with
          | y :: _ => match split_all ":" y with [_] => Ok H5 | _ => Ok ARK end
          | [] => Err IndexError
          end
      | _ => Err IndexError
      end
  end.

(** l.303-360, after splitting.  [fs] maps a path to the content of the file. *)
Definition r_create2 (fs : string -> option string) (options archives : list string) : res rspec :=
  match archives with
  | [archive] =>
      st <- foldM r_option options (None, None, false) ;;
      let '(ty, at_, p) := st in
      match ty with
      | None => Err AssertionError
      | Some ty =>
          at_ <- match ty with
                 | R_SCRIPT => t <- script_type (fs archive) ;; Ok (Some t)
                 | R_ARCHIVE => Ok at_
                 end ;;
          let ark := is_ark at_ in
          Ok (mk_r ty archive at_ (ark && inb "o" options) (ark && inb "s" options)
                (ark && inb "cs" options) p (ark && inb "bg" options))
      end
  | _ => Err AssertionError
  end.

(** rw_specifiers.py:297-363 [RSpecifier.create].  l.362-363: the message mentions the
    undefined name [wspecifier]: NameError instead of the intended ValueError. *)
Definition r_create (fs : string -> option string) (s : string) : res rspec :=
  match split_all ":" (strip s) with
  | [f] => match f with
           | EmptyString => Err AssertionError
           | _ => Ok (mk_r R_ARCHIVE f (Some H5) false false false false false)
           end
  | [f0; f1] => r_create2 fs (split_all "," (strip f0)) (split_all "," (strip f1))
  | _ => Err NameError
  end.

(** *** data_rw_factory.py dispatch *)

(** Writers: data_rw_factory.py:39-57 [DataWriterFactory.create]; a SCRIPT specifier falls
    through and returns None. *)
Inductive writer : Type :=
| H5W (archive : string) (script : option string) (flush : bool)
| ArkW (archive : string) (script : option string) (binary flush : bool).

Definition writer_create (w : wspec) : res (option writer) :=
  match w_type w, w_archive w with
  | W_SCRIPT, _ => Ok None
  | _, Some a =>
      Ok (Some (match w_atype w with
                | Some H5 => H5W a (w_script w) (w_flush w)
                | _ => ArkW a (w_script w) (w_binary w) (w_flush w)
                end))
  | _, None => Err TypeError
  end.

(** Readers: data_rw_factory.py:93-109 [SequentialDataReaderFactory.create] and
    data_rw_factory.py:149-172 [RandomAccessDataReaderFactory.create]. *)
Inductive reader : Type := FileH5 | FileArk | ScriptH5 | ScriptArk.

Definition seq_reader_create (r : rspec) : reader :=
  match rs_type r, rs_atype r with
  | R_ARCHIVE, Some H5 => FileH5
  | R_ARCHIVE, _ => FileArk
  | R_SCRIPT, Some H5 => ScriptH5
  | R_SCRIPT, _ => ScriptArk
  end.

Definition ra_reader_create (r : rspec) : res (reader * bool) :=
  match rs_type r, rs_atype r with
  | R_ARCHIVE, Some H5 => Ok (FileH5, rs_permissive r)
  | R_ARCHIVE, _ => Err ValueError
  | R_SCRIPT, Some H5 => Ok (ScriptH5, rs_permissive r)
  | R_SCRIPT, _ => Ok (ScriptArk, rs_permissive r)
  end.
