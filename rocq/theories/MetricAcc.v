(** Model of hyperion/torch/utils/metric_acc.py. Values are exact rationals; a metrics dictionary is an
    association list (insertion order). *)
From Coq Require Import QArith.
From Verif Require Export Base.
Open Scope list_scope.

Record acc_state := mk_acc { a_keys : option (list string); a_acc : list Q; a_count : Z }.
(** metric_acc.py:16-19 *)
Definition acc_init : acc_state := mk_acc None [] 0.
(** metric_acc.py:22-27 reset *)
Definition acc_reset (s : acc_state) : acc_state := mk_acc (a_keys s) (map (fun _ => 0%Q) (a_acc s)) 0.

Fixpoint dict_get (k : string) (d : list (string * Q)) : res Q :=
  match d with [] => Err KeyError | (k', v) :: d => if String.eqb k k' then Ok v else dict_get k d end.

(** metric_acc.py:52-53: the loop over the keys. Simplification: when a key is missing the entries before it
    have already been changed in Python; the model only reports the KeyError. *)
Fixpoint acc_loop (r : Q) (metrics : list (string * Q)) (keys : list string) (acc : list Q) : res (list Q) :=
  match keys, acc with
  | k :: keys, a :: acc =>
    v <- dict_get k metrics ;;
    rest <- acc_loop r metrics keys acc ;;
    Ok ((a + r * (v - a))%Q :: rest)
  | _, _ => Ok []
  end.

(** metric_acc.py:30-53 update. [self.keys] is the keys view of the first dictionary; it is modelled by the
    keys at that time (the trainer never adds keys to the dictionary afterwards). *)
Definition acc_update (s : acc_state) (metrics : list (string * Q)) (n : Z) : res acc_state :=
  let keys := match a_keys s with None => map fst metrics | Some ks => ks end in
  let acc := match a_keys s with None => map (fun _ => 0%Q) metrics | Some _ => a_acc s end in
  let count := (a_count s + n)%Z in
  if (count =? 0)%Z then Err ZeroDivisionError else
  acc <- acc_loop (inject_Z n / inject_Z count) metrics keys acc ;;
  Ok (mk_acc (Some keys) acc count).

(** metric_acc.py:58-65 metrics; iterating over None raises TypeError *)
Definition acc_metrics (s : acc_state) : res (list (string * Q)) :=
  match a_keys s with None => Err TypeError | Some ks => Ok (combine ks (a_acc s)) end.

Fixpoint acc_updates (s : acc_state) (h : list (list (string * Q) * Z)) : res acc_state :=
  match h with [] => Ok s | (m, n) :: h => s <- acc_update s m n ;; acc_updates s h end.
