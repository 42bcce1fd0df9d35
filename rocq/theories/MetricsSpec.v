(** Specification vocabulary for detection metrics: thresholds, misses, false alarms and costs. *)
From Coq Require Import QArith.
From Verif Require Import Base.
Open Scope list_scope.

(** decision rules: accept everything, reject everything, or accept the scores at or above [t] *)
Inductive threshold (S : Type) := AcceptAll | RejectAll | At (t : S).
Arguments AcceptAll {S}.
Arguments RejectAll {S}.
Arguments At {S} t.
Definition rejects {S} `{Ord S} (th : threshold S) (s : S) : bool :=
  match th with AcceptAll => false | RejectAll => true | At t => ltb s t end.

Definition ratio (a b : nat) : Q := (inject_Z (Z.of_nat a) / inject_Z (Z.of_nat b))%Q.
(** fraction of the targets rejected / of the non-targets accepted *)
Definition miss_rate {S} `{Ord S} (th : threshold S) (tar : list S) : Q := ratio (List.length (filter (rejects th) tar)) (List.length tar).
Definition fa_rate {S} `{Ord S} (th : threshold S) (non : list S) : Q := ratio (List.length (filter (fun s => negb (rejects th s)) non)) (List.length non).

(** the detection cost of an operating point *)
Definition cost (prior : Q) (normalize : bool) (p_miss p_fa : Q) : Q :=
  let c := (prior * p_miss + (1 - prior) * p_fa)%Q in
  if normalize then (c / (if Qle_bool prior (1 - prior) then prior else 1 - prior))%Q else c.
