(** Model of hyperion/torch/metrics/accuracy_functional.py (with accuracy.py), hyperion/torch/archs/fcnet.py, ffnet.py, the constructors of tdnn.py and
    etdnn.py, and hyperion/torch/helpers/activation_factory.py. Real numbers for float32; a value that is not finite is None. A network is modelled in evaluation mode,
    where every layer acts on each row of the batch by itself, so that one row is followed; dropout is then the identity of torch and is kept as an
    arbitrary function. *)
From Coq Require Import Reals List Bool Arith String.
From Verif Require Import Base Mat ScoreNorm.
Import ListNotations.
Open Scope list_scope. Open Scope R_scope.

(** ** Accuracy *)
Inductive target := Ids (t : list nat) | Scores (t : list (list R)).
Inductive reduction := RNone | RSum | RMean.
Inductive metric := Vector (l : list R) | Scalar (v : option R).
(** torch.max(x, dim=-1)[1]: the position of a maximum, which one in case of ties is not specified *)
Section Acc.
Variable amax : list R -> nat.
Definition target_ids (t : target) : list nat := match t with Ids l => l | Scores l => map amax l end.
(** accuracy_functional.py:11-42, for inputs of two dimensions *)
Definition categorical_accuracy (input : list (list R)) (t : target) (weight : option (list R)) (r : reduction) : res metric :=
  if negb (len input =? len (target_ids t))%nat then Err ValueError else
  let okv := zip_with (fun p q : nat => if Nat.eqb p q then 1 else 0) (map amax input) (target_ids t) in
  match r with
  | RNone => Ok (Vector okv)
  | _ =>
    '(okv, wm) <- match weight with
                  | None => Ok (okv, Some 1)
                  | Some w => if (len w =? len input)%nat then Ok (zip_with Rmult okv w, mean w) else Err ValueError
                  end ;;
    match r with RSum => Ok (Scalar (Some (Rsum okv))) | _ => Ok (Scalar (obind (mean okv) (fun m => obind wm (fun q => odiv m q)))) end
  end.
End Acc.
Definition flags (thr : R) (input target : list (list R)) : list (list R) :=
  zip_with (zip_with (fun x t => if Req_EM_T (if Rlt_dec thr x then 1 else 0) t then 1 else 0)) input target.
Definition same_size (a b : list (list R)) : bool := (len a =? len b)%nat && forallb (fun p => (len (fst p) =? len (snd p))%nat) (combine a b).
(** tensor.item() *)
Definition item (okm : list (list R)) : res (option R) := match concat okm with [v] => Ok (Some v) | _ => Err ValueError end.
(** accuracy_functional.py:46-81, for weights of one dimension; accuracy_functional.py:84-85 is the same with another default of thr, and accuracy.py:37-47 sets
    that default to 0.5 *)
Definition binary_accuracy (input target : list (list R)) (weight : option (list R)) (r : reduction) (thr : R) : res metric :=
  if negb (same_size target input) then Err ValueError else
  let okm := flags thr input target in
  match r with
  | RNone => Ok (Vector (concat okm))
  | _ =>
    okm <- match weight with
           | None => Ok okm
           | Some w => if (len w =? len input)%nat then Ok (zip_with (fun row q => map (fun v => v * q) row) okm w) else Err ValueError
           end ;;
    match r with RSum => Ok (Scalar (Some (Rsum (concat okm)))) | _ => v <- item okm ;; Ok (Scalar v) end
  end.
Definition logits_default_thr : R := 1 / 2.

(** ** Fully connected networks *)
Section Nets.
Context {V : Type}.                      (* numbers *)
Notation vec := (list V).
(** parameters of the i-th layer of each kind *)
Variable lin : nat -> nat -> nat -> vec -> vec.   (* Linear(a, b) *)
Variable bn : nat -> nat -> vec -> vec.           (* BatchNorm1d(d) *)
Variable act : vec -> vec.                        (* the activation of the hidden layers *)
Variable drop : nat -> vec -> vec.
Variable oact : option (vec -> vec).              (* the activation of the output, or None *)
Variable obn : nat -> vec -> vec.                 (* the batch normalisation of the output *)
Variable odrop : vec -> vec.
(** layers reject vectors of another size *)
Definition run_lin (i : nat) (d : nat * nat) (x : vec) : res vec := if (len x =? fst d)%nat then Ok (lin i (fst d) (snd d) x) else Err RuntimeErr.
Definition run_bn (i d : nat) (x : vec) : res vec := if (len x =? d)%nat then Ok (bn i d x) else Err RuntimeErr.
Record fc_conf := mk_fc { f_num : nat; f_in : nat; f_hid : nat + list nat; f_out : nat; f_act : bool; f_bn : bool; f_drop : bool; (* dropout_rate > 0 *)
  f_without_out : bool; f_out_bn : bool; f_out_drop : bool }.
Record fc_net := mk_net { k_lin : list (nat * nat); k_bn : option (list nat); k_odrop : bool; k_obn : option nat }.
Definition units (num input : nat) (h : nat + list nat) : res (list nat) :=
  match h with inl u => Ok (input :: repeat u num) | inr l => if (num =? len l)%nat then Ok (input :: l) else Err AssertionError end.
Fixpoint pairs (l : list nat) : list (nat * nat) := match l with a :: ((b :: _) as r) => (a, b) :: pairs r | _ => [] end.
(** FCNetV1.__init__, fcnet.py:18-96 *)
Definition fc_new (c : fc_conf) : res fc_net :=
  if (f_num c <? 1)%nat then Err AssertionError else
  u <- units (f_num c) (f_in c) (f_hid c) ;;
  let lins := pairs u in
  let bns := removelast u in
  let top := last u 0%nat in
  if f_without_out c then Ok (mk_net lins (if f_bn c then Some bns else None) false (if f_out_bn c then Some top else None))
  else Ok (mk_net (lins ++ [(top, f_out c)]) (if f_bn c then Some (bns ++ [top]) else None) (f_out_drop c && f_drop c) (if f_out_bn c then Some (f_out c) else None)).
(** FCNetV1.forward, fcnet.py:100-127 *)
Definition run_layer (n : fc_net) (c : fc_conf) (l : nat) (x : vec) : res vec :=
  x <- (if f_bn c then match k_bn n with Some b => match nth_error b l with Some d => run_bn l d x | None => Err IndexError end | None => Err TypeError end else Ok x) ;;
  x <- match nth_error (k_lin n) l with Some d => run_lin l d x | None => Err IndexError end ;;
  let x := if f_act c then act x else x in
  Ok (if f_drop c then drop l x else x).
Fixpoint run_layers (n : fc_net) (c : fc_conf) (ls : list nat) (x : vec) : res vec :=
  match ls with [] => Ok x | l :: ls => x <- run_layer n c l x ;; run_layers n c ls x end.
Definition fc_forward (c : fc_conf) (n : fc_net) (x : vec) : res vec :=
  x <- run_layers n c (seq 0 (f_num c)) x ;;
  x <- (if f_without_out c then Ok x else
        x <- match k_bn n with Some b => match nth_error b (f_num c) with Some d => run_bn (f_num c) d x | None => Err IndexError end | None => Ok x end ;;
        x <- match nth_error (k_lin n) (f_num c) with Some d => run_lin (f_num c) d x | None => Err IndexError end ;;
        let x := match oact with Some f => f x | None => x end in
        if k_odrop n then Err AttributeError else Ok x) ;;
  if f_out_bn c then Err TypeError else Ok x.
(** FCNetV1.get_config, fcnet.py:131-151, reads self.hidden_units *)
Definition fc_get_config (c : fc_conf) (n : fc_net) : res unit := Err AttributeError.

(** FFNetV1, ffnet.py:18-83: one list of layers, run in order; num_layers counts the output layer *)
Inductive layer := LBn (i d : nat) | LLin (i : nat) (d : nat * nat) | LAct | LDrop (i : nat) | LOut | LODrop | LOBn (d : nat).
Definition ff_hidden (c : fc_conf) (l : nat) (d : nat * nat) : list layer :=
  (if f_bn c then [LBn l (fst d)] else []) ++ [LLin l d] ++ (if f_act c then [LAct] else []) ++ (if f_drop c then [LDrop l] else []).
Fixpoint ff_layers (c : fc_conf) (l : nat) (ds : list (nat * nat)) : list layer := match ds with [] => [] | d :: ds => ff_hidden c l d ++ ff_layers c (S l) ds end.
Definition ff_new (c : fc_conf) : res (list layer) :=
  if (f_num c <? 1)%nat then Err AssertionError else
  u <- units (f_num c - 1) (f_in c) (f_hid c) ;;
  let top := last u 0%nat in
  Ok (ff_layers c 0 (pairs u) ++ (if f_bn c then [LBn (f_num c - 1) top] else []) ++ [LLin (f_num c - 1) (top, f_out c)] ++
      (match oact with Some _ => [LOut] | None => [] end) ++ (if f_out_drop c && f_drop c then [LODrop] else []) ++ (if f_out_bn c then [LOBn (f_out c)] else [])).
Definition run1 (y : layer) (x : vec) : res vec :=
  match y with
  | LBn i d => run_bn i d x | LLin i d => run_lin i d x | LAct => Ok (act x) | LDrop i => Ok (drop i x)
  | LOut => match oact with Some f => Ok (f x) | None => Err TypeError end
  | LODrop => Ok (odrop x) | LOBn d => if (len x =? d)%nat then Ok (obn d x) else Err RuntimeErr
  end.
Fixpoint ff_forward (ys : list layer) (x : vec) : res vec := match ys with [] => Ok x | y :: ys => x <- run1 y x ;; ff_forward ys x end.
(** FFNetV1.get_config, ffnet.py:86-102: nn.Module has no get_config *)
Definition ff_get_config (ys : list layer) : res unit := Err AttributeError.
End Nets.
(** TDNNV1.__init__, tdnn.py:47-72, and the same lines of etdnn.py: dilation_rate is not defined *)
Definition list_ok (num : nat) (h : nat + list nat) : res unit := match h with inl _ => Ok tt | inr l => if (num =? len l)%nat then Ok tt else Err AssertionError end.
Definition tdnn_new (num_td num_fc : nat) (td_units fc_units kernel_size : nat + list nat) : res unit :=
  if (num_td <? 1)%nat then Err AssertionError else
  _ <- list_ok num_td td_units ;; _ <- list_ok num_fc fc_units ;; _ <- list_ok num_td kernel_size ;; Err NameError.

(** ** Activations, activation_factory.py:40-56 *)
Inductive act_arg := AName (s : string) | ADict (name : string) (args : list (string * R)) | AModule (i : nat).
Section Factory.
Variable known : list (string * nat).    (* act_dict *)
(** [del kwargs.name] on a dict raises AttributeError *)
Definition act_create (a : act_arg) : res nat :=
  match a with
  | AName s => match find (fun p => eqb (fst p) s) known with Some p => Ok (snd p) | None => Err KeyError end
  | ADict _ _ => Err AttributeError
  | AModule i => Ok i
  end.
End Factory.
