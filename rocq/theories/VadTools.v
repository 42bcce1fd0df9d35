(** Model of the command line tools that convert speech marks: hyperion/bin/segments-to-bin-vad.py, rttm-to-bin-vad.py, h5vad2nist.py and
    arkvad2nist.py. Times are exact rationals as in Segments.v. The tools are modelled by the records that they write; a run that raises is an
    error whatever was written before. Logging is modelled only where it can raise. *)
From Coq Require Import String ZArith QArith List Bool Lia.
From Verif Require Import Base Mat Segments.
Import ListNotations.
Open Scope list_scope. Open Scope Z_scope.

(** ** h5vad2nist.py:24-54, arkvad2nist.py:24-54 [bin2intervals] *)
(** [np.where(np.abs(np.diff(vad)) > 0)[0]] of the part of the vector that starts at position [pos] with value [x] *)
Fixpoint change_points (pos : nat) (x : Z) (l : list Z) : list nat :=
  match l with
  | [] => []
  | y :: l => if x =? y then change_points (S pos) y l else pos :: change_points (S pos) y l
  end.
(** the loop over the change points and the last interval; the times are 0.01 times these numbers, and the confidences are all 1 *)
Fixpoint interval_loop (prev : nat) (speech : bool) (cps : list nat) (n : nat) : list (nat * nat * bool) :=
  match cps with
  | [] => [(prev, n, speech)]
  | p :: cps => (prev, p, speech) :: interval_loop p (negb speech) cps n
  end.
Definition bin2intervals (vad : list Z) : res (list (nat * nat * bool)) :=
  match vad with
  | [] => Err IndexError
  | x :: l => Ok (interval_loop 0 (x =? 1) (change_points 0 x l) (len vad))
  end.

(** ** segments-to-bin-vad.py:24-43, rttm-to-bin-vad.py:25-53 *)
(** the table of utt2num_frames and the look-up [int(utt2num_frames.loc[file_id]['num_frames'])]: a repeated id gives a Series *)
Definition frames_of (tbl : list (string * Z)) (file : string) : res Z :=
  match filter (fun r => eqb (fst r) file) tbl with [] => Err KeyError | [r] => Ok (snd r) | _ => Err TypeError end.
(** one file: the frames, the decision, and the log line, which divides by num_frames *)
Definition file_vad (o : seg_list) (tbl : option (list (string * Z))) (shift : positive) (file : string) : res (string * list Z) :=
  nf <- match tbl with None => Ok None | Some t => n <- frames_of t file ;; Ok (Some n) end ;;
  v <- to_bin_vad o file shift nf ;;
  match nf with None => Err TypeError | Some _ => Ok (file, v) end.
Definition part_of (o : seg_list) (part_idx num_parts : Z) : res seg_list := if 1 <? num_parts then sl_split o part_idx num_parts else Ok o.
Definition segments_to_bin_vad (segs : list seg) (tbl : option (list (string * Z))) (shift : positive) (part_idx num_parts : Z) : res (list (string * list Z)) :=
  o <- sl_new segs true ;;
  o <- part_of o part_idx num_parts ;;
  mapM (file_vad o tbl shift) (sl_uniq_files o).
(** the files without segments, all set to one by the first part *)
Definition silent_vad (orig : seg_list) (tbl : list (string * Z)) : res (list (string * list Z)) :=
  mapM (fun r => n <- frames_of tbl (fst r) ;; if n <? 0 then Err ValueError else Ok (fst r, repeat 1 (Z.to_nat n)))
    (filter (fun r => negb (inb (fst r) (sl_uniq_files orig))) tbl).
Definition rttm_to_bin_vad (dec : Z -> string) (rows : list row) (tbl : option (list (string * Z))) (shift : positive) (part_idx num_parts : Z) : res (list (string * list Z)) :=
  orig <- to_segment_list dec rows ;;
  o <- part_of orig part_idx num_parts ;;
  vs <- mapM (file_vad o tbl shift) (sl_uniq_files o) ;;
  if part_idx =? 1 then match tbl with None => Err UnboundLocalError | Some t => ss <- silent_vad orig t ;; Ok (vs ++ ss) end else Ok vs.
