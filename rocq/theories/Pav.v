(** Model of hyperion/metrics/utils.py: pavx (isotonic regression by pooling adjacent violators).
    Simplifications: numbers are exact rationals instead of doubles. The arrays index, l and ghat are
    lists that are read and overwritten exactly as in the code; [cast] is the conversion applied when a
    value is stored in ghat = np.zeros_like(y) (identity for a floating-point y, truncation for an
    integer y). *)
From Coq Require Import QArith Qround.
From Verif Require Export BaseFacts Mat Trials.
Open Scope list_scope.

(** reading and writing one cell of an array *)
Definition rd {A} (a : list A) (i : nat) : res A := match nth_error a i with Some x => Ok x | None => Err IndexError end.
Definition wr {A} (a : list A) (i : nat) (v : A) : res (list A) := if (i <? len a)%nat then Ok (set_nth a i v) else Err IndexError.

Definition int_cast (x : Q) : Q := inject_Z (Z.quot (Qnum x) (Zpos (Qden x))).

Record pav_state := mk_pav { pv_index : list nat; pv_l : list nat; pv_g : list Q }.

(** utils.py:82-88: the inner while loop; returns the new ci *)
Fixpoint pool (cast : Q -> Q) (ci : nat) (s : pav_state) : res (nat * pav_state) :=
  match ci with
  | O => Ok (O, s)
  | S p =>
    g0 <- rd (pv_g s) p ;;
    g1 <- rd (pv_g s) ci ;;
    if Qle_bool g1 g0 then
      l0 <- rd (pv_l s) p ;;
      l1 <- rd (pv_l s) ci ;;
      g' <- wr (pv_g s) p (cast (g0 + (inject_Z (Z.of_nat l1) / inject_Z (Z.of_nat (l0 + l1))) * (g1 - g0))%Q) ;;
      l' <- wr (pv_l s) p (l0 + l1)%nat ;;
      pool cast p (mk_pav (pv_index s) l' g')
    else Ok (ci, s)
  end.

(** utils.py:75-88: one turn of the for loop *)
Definition pav_turn (cast : Q -> Q) (y : list Q) (st : nat * pav_state) (j : nat) : res (nat * pav_state) :=
  let ci := S (fst st) in
  yj <- rd y j ;;
  ix <- wr (pv_index (snd st)) ci j ;;
  l <- wr (pv_l (snd st)) ci 1%nat ;;
  g <- wr (pv_g (snd st)) ci yj ;;
  pool cast ci (mk_pav ix l g).

(** utils.py:96-97: for j in xrange(index[ci], n): ghat[j] = ghat[ci] *)
Definition spread (g : list Q) (ci lo hi : nat) : res (list Q) :=
  foldM (fun g j => v <- rd g ci ;; wr g j v) g (seq lo (hi - lo)).

(** utils.py:95-100: the final while loop. The turn after ci = 0 would read with index -1; the model then
    stops with an error (the proofs show this never happens). *)
Fixpoint expand (index : list nat) (ci n : nat) (g : list Q) : res (list Q) :=
  match n with
  | O => Ok g
  | _ =>
    lo <- rd index ci ;;
    g <- spread g ci lo n ;;
    match ci with
    | O => match lo with O => Ok g | _ => Err IndexError end
    | S c => expand index c lo g
    end
  end.

(** utils.py:59-102 *)
Definition pavx_cast (cast : Q -> Q) (y : list Q) : res (list Q * list nat * list Q) :=
  let n := len y in
  _ <- assert (0 <? n)%nat ;;
  y0 <- rd y 0 ;;
  l <- wr (repeat 0%nat n) 0 1%nat ;;
  g <- wr (repeat 0%Q n) 0 y0 ;;
  st <- foldM (pav_turn cast y) (0%nat, mk_pav (repeat 0%nat n) l g) (seq 1 (n - 1)) ;;
  let ci := fst st in
  let height := firstn (S ci) (pv_g (snd st)) in
  let width := firstn (S ci) (pv_l (snd st)) in
  g <- expand (pv_index (snd st)) ci n (pv_g (snd st)) ;;
  Ok (g, width, height).

Definition pavx := pavx_cast (fun x => x).

Example pavx_demo : pavx [3 # 1; 1 # 1; 2 # 1; 5 # 1; 4 # 1]%Q <> Err IndexError. Proof. vm_compute. discriminate. Qed.
