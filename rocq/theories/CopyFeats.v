(** Model of CopyFeats with the real readers and writers: hyperion/io/copy_feats.py:21-82, through hyperion/io/data_rw_factory.py:39-57
    (DataWriterFactory.create), 93-109 (SequentialDataReaderFactory.create) and the constructors ark_data_reader.py:138-146, 283-295,
    h5_data_reader.py:165-175, 296-305. The output file is not one of the inputs; text archives are not modelled. *)
From Verif Require Import Base Str Scp RWSpec.
From Verif Require Import Ark H5.
Open Scope list_scope.
Open Scope Z_scope.

(** Script texts, archives, HDF5 files *)
Record world := mk_world { f_text : string -> option string; f_disk : disk; f_h5 : disk5 }.

(** ** Inputs *)
Inductive source := SArk (r : aseq) | SH5 (r : seq5) | SScpArk (r : sreader) | SScpH5 (r : sscr5).
(** what the constructor is given: path_prefix, scp_sep, part_idx, num_parts (split_by_key is left False) *)
Record ropts := mk_ropts { o_prefix : option string; o_sep : ascii; o_part : Z; o_parts : Z }.
Definition open_script (w : world) (o : ropts) (path : string) : res scp :=
  match f_text w path with
  | None => Err IOErr
  | Some t =>
      s <- scp_load t (o_sep o) ":" ;;
      s <- (if 1 <? o_parts o then scp_split s (o_part o) (o_parts o) false else Ok s) ;;
      Ok (match o_prefix o with Some p => add_prefix s p | None => s end)
  end.
Definition open_source (w : world) (o : ropts) (spec : string) : res source :=
  r <- r_create (f_text w) spec ;;
  let p := rs_archive r in
  match seq_reader_create r with
  | FileArk => f <- d_open (f_disk w) p ;; if 1 <? o_parts o then Err NotImplemented else Ok (SArk (mk_aseq f false))
  | FileH5 => f <- open5 (f_h5 w) p ;; r <- seq5_open f (if 1 <? o_parts o then Some (o_part o, o_parts o) else None) false ;; Ok (SH5 r)
  | ScriptArk => s <- open_script w o p ;; Ok (SScpArk (sreader_open s))
  | ScriptH5 => s <- open_script w o p ;; Ok (SScpH5 (mk_sscr5 s 0))
  end.
Definition src_eof (s : source) : bool :=
  match s with SArk r => a_eof r | SH5 r => seq5_eof r | SScpArk r => sreader_eof r | SScpH5 r => sscr5_eof r end.
Definition src_read (dec : decoder) (w : world) (s : source) (n : Z) : res (list (string * km) * source) :=
  match s with
  | SArk r => '(l, r) <- aseq_read dec r n 0 0 ;; Ok (l, SArk r)
  | SH5 r => '(l, r) <- seq5_read dec r n (ZConst 0) (ZConst 0) ;; Ok (l, SH5 r)
  | SScpArk r => '(l, r) <- s_read dec (f_disk w) r n (ZConst 0) (ZConst 0) ;; Ok (l, SScpArk r)
  | SScpH5 r => '(l, r) <- sscr5_read dec (f_h5 w) r n (ZConst 0) (ZConst 0) ;; Ok (l, SScpH5 r)
  end.

(** ** Output *)
Inductive sink := KArk (cfg : wcfg) (st : wst) | KH5 (cfg : w5cfg) (st : w5st).
Record wopts := mk_wopts { c_compress : bool; c_compressor : km -> res cm; c_expander : cm -> res km }.
(** "with None" is an AttributeError *)
Definition open_sink (o : ropts) (c : wopts) (spec : string) : res sink :=
  s <- w_create spec ;; w <- writer_create s ;;
  match w with
  | None => Err AttributeError
  | Some (H5W a _ _) => Ok (KH5 (mk_w5cfg a (o_sep o) (c_compress c) (c_compressor c)) w5st0)
  | Some (ArkW a _ b _) => if b then Ok (KArk (mk_wcfg a (o_sep o) (c_compress c) (c_compressor c) (c_expander c)) wst0) else Err NotImplemented
  end.
Definition raw (a : string * km) : string * wdata := (fst a, Raw (snd a)).
Definition sink_write (k : sink) (l : list (string * km)) : res sink :=
  match k with
  | KArk cfg st => st <- ark_write cfg st (map raw l) ;; Ok (KArk cfg st)
  | KH5 cfg st => st <- h5_write cfg st l ;; Ok (KH5 cfg st)
  end.

(** ** The copy, copy_feats.py:62-82. [fuel] bounds the turns of the loop. *)
Section Copy.
Variables (dec : decoder) (w : world).
Fixpoint pump (fuel : nat) (chunk : Z) (s : source) (k : sink) : res sink :=
  match fuel with
  | O => Err RuntimeErr
  | S fuel =>
      if src_eof s then Ok k
      else
        '(l, s) <- src_read dec w s chunk ;;
        match l with
        | [] => Ok k
        | _ => k <- sink_write k l ;; pump fuel chunk s k
        end
  end.
Fixpoint copy_all (fuel : nat) (o : ropts) (chunk : Z) (ins : list string) (k : sink) : res sink :=
  match ins with
  | [] => Ok k
  | i :: ins => s <- open_source w o i ;; k <- pump fuel chunk s k ;; copy_all fuel o chunk ins k
  end.
Definition copy_feats (fuel : nat) (o : ropts) (c : wopts) (chunk : Z) (ins : list string) (out : string) : res sink :=
  if (1 <? o_parts o) && (1 <? Z.of_nat (List.length ins)) then Err AssertionError
  else k <- open_sink o c out ;; copy_all fuel o chunk ins k.
End Copy.
