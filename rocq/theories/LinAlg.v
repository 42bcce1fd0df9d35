(** Model of the linear algebra helpers of hyperion/utils/math.py on mathcomp matrices over a real closed field (exact arithmetic).
    scipy's cholesky is modelled by the textbook recursion; solve_triangular and cho_solve by the inverse of the matrix. *)
From Verif Require Base.
Set Warnings "-notation-overridden,-ambiguous-paths".
From mathcomp Require Import all_ssreflect all_algebra.
Set Implicit Arguments. Unset Strict Implicit. Unset Printing Implicit Defensive.
Import GRing.Theory Num.Theory.
Local Open Scope ring_scope.
Notation ok := Verif.Base.Ok. Notation err := Verif.Base.Err. Notation res := Verif.Base.res.
Notation linalg_error := Verif.Base.RuntimeErr.
Notation "'let!' x ':=' e 'in' f" := (Verif.Base.bind e (fun x => f)) (at level 200, x pattern, e at level 100, f at level 200).

Section LinAlg.
Variable F : rcfType.
(** the logarithm; what the theorems assume of it is in their statements *)
Variable ln : F -> F.

(** scipy.linalg.cholesky(S, lower=False): the upper triangular factor computed from the upper triangle of S, LinAlgError (None) if a pivot
    is not positive *)
Fixpoint chol {n} : 'M[F]_n -> option 'M[F]_n :=
  match n with
  | 0 => fun S => Some S
  | n'.+1 => fun S : 'M[F]_(1 + n') =>
    let a := S 0 0 in
    if 0 < a then
      let r := Num.sqrt a in
      let v : 'rV[F]_n' := r^-1 *: ursubmx S in
      if chol (drsubmx S - v^T *m v) is Some R then Some (block_mx r%:M v 0 R) else None
    else None
  end.
Definition cholesky {n} (S : 'M[F]_n) : res 'M[F]_n := if chol S is Some R then ok R else err linalg_error.
(** utils/math.py:18-23 *)
Definition logdet_pdmat {n} (A : 'M[F]_n) : res F := let! R := cholesky A in ok (2%:R * \sum_i ln (R i i)).
(** utils/math.py:27-65: the function fh, the Cholesky factor, the log-determinant and the inverse: all the values that can be asked for.
    fh is [p_right] with right_inv=True and [p_left] otherwise. cho_solve((R, False), x) solves (R'R) y = x. *)
Record pdinv n := PdInv { p_right : forall m, 'M[F]_(m, n) -> 'M[F]_(m, n); p_left : forall m, 'M[F]_(n, m) -> 'M[F]_(n, m);
  p_chol : 'M[F]_n; p_logdet : F; p_inv : 'M[F]_n }.
Definition cho_solve {n} (R : 'M[F]_n) {m} (x : 'M[F]_(n, m)) : 'M[F]_(n, m) := invmx (R^T *m R) *m x.
Definition invert_pdmat {n} (A : 'M[F]_n) (right_inv : bool) : res (pdinv n) :=
  let! R := cholesky A in
  let right := fun m (x : 'M[F]_(m, n)) => (cho_solve R x^T)^T in let left := fun m (x : 'M[F]_(n, m)) => cho_solve R x in
  ok (PdInv right left R (2%:R * \sum_i ln (R i i)) (if right_inv then right n 1%:M else left n 1%:M)).
(** scipy.linalg.solve_triangular(A, x, lower): reads one triangle of A; LinAlgError if a diagonal element is zero *)
Definition tri {n} (lower : bool) (A : 'M[F]_n) : 'M[F]_n := \matrix_(i, j) (if (if lower then (j <= i)%N else (i <= j)%N) then A i j else 0).
Definition solve_triangular {n m} (A : 'M[F]_n) (x : 'M[F]_(n, m)) (lower : bool) : res 'M[F]_(n, m) :=
  if [forall i, A i i != 0] then ok (invmx (tri lower A) *m x) else err linalg_error.
(** utils/math.py:69-104: the function fh (right and left), the log-determinant and the inverse *)
Definition tri_right {n m} (A : 'M[F]_n) (lower : bool) (x : 'M[F]_(m, n)) : res 'M[F]_(m, n) :=
  let! y := solve_triangular A^T x^T (~~ lower) in ok y^T.
Definition tri_left {n m} (A : 'M[F]_n) (lower : bool) (x : 'M[F]_(n, m)) : res 'M[F]_(n, m) := solve_triangular A x lower.
Definition tri_logdet {n} (A : 'M[F]_n) : F := \sum_i ln (A i i).
Definition tri_inv {n} (A : 'M[F]_n) (lower right_inv : bool) : res 'M[F]_n :=
  if right_inv then tri_right A lower 1%:M else tri_left A lower 1%:M.
(** utils/math.py:275-307. [svd T] gives (u, d) of T = u diag(d) v'. F is an array, or a scalar. *)
Definition floor1 {n} (d : 'rV[F]_n) : 'rV[F]_n := map_mx (fun z => if z < 1 then 1 else z) d.
Definition fullcov_varfloor {n} (svd : 'M[F]_n -> 'M[F]_n * 'rV[F]_n) (S : 'M[F]_n) (Fl : 'M[F]_n) (is_chol lower : bool) : res 'M[F]_n :=
  let! cholF := (if is_chol then ok (if lower then Fl^T else Fl) else cholesky Fl) in
  let! ic := tri_inv cholF false false in
  let: (u, d) := svd (ic^T *m S *m ic) in
  let T := (u *m diag_mx (floor1 d)) *m u^T in
  ok (cholF^T *m (T *m cholF)).
Definition fullcov_varfloor_scalar {n} (svd : 'M[F]_n -> 'M[F]_n * 'rV[F]_n) (S : 'M[F]_n) (f : F) : 'M[F]_n :=
  let: (u, d) := svd (f^-1 *: S) in f *: ((u *m diag_mx (floor1 d)) *m u^T).
(** utils/math.py:311-341 *)
Definition fullcov_varfloor_from_cholS {n} (svd : 'M[F]_n -> 'M[F]_n * 'rV[F]_n) (cholS cholF : 'M[F]_n) (lower : bool) : res 'M[F]_n :=
  let cholS := if lower then cholS^T else cholS in let cholF := if lower then cholF^T else cholF in
  let! ic := tri_inv cholF false false in
  let T := cholS *m ic in
  let: (u, d) := svd (T^T *m T) in
  let T := (u *m diag_mx (floor1 d)) *m u^T in
  let! R := cholesky (cholF^T *m (T *m cholF)) in
  ok (if lower then R^T else R).
Definition fullcov_varfloor_from_cholS_scalar {n} (svd : 'M[F]_n -> 'M[F]_n * 'rV[F]_n) (cholS : 'M[F]_n) (f : F) (lower : bool) : res 'M[F]_n :=
  let cholS := if lower then cholS^T else cholS in
  let T := f^-1 *: cholS in
  let: (u, d) := svd (T^T *m T) in
  let T := (u *m diag_mx (floor1 d)) *m u^T in
  let! R := cholesky (f ^+ 2 *: T) in
  ok (if lower then R^T else R).
End LinAlg.
