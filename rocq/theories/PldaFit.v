(** Model of the training of the PLDA with a channel factor: hyperion/pdfs/plda/plda.py:200-243 (Estep), 264-342 (MstepML), 346-371 (MstepMD), on top
    of Splda.v. Data with at least two dimensions (in one dimension some of the shapes that clash would not). *)
From Verif Require Base.
From Verif Require Import LinAlg LinTrans Frplda Splda.
Set Warnings "-notation-overridden,-ambiguous-paths".
From mathcomp Require Import all_ssreflect all_algebra.
Set Implicit Arguments. Unset Strict Implicit. Unset Printing Implicit Defensive.
Import Order.TTheory GRing.Theory Num.Theory.
Local Open Scope ring_scope.

Section PldaFit.
Variable F : rcfType.
Variable ln : F -> F.
Variable ln2pi : F.
(** plda.py:242 *)
Record gstats e f d := GStats { hN : F; hM : F; hF : 'rV[F]_d; hS : 'M[F]_d; hlogpy : F; hy : 'rV[F]_e; hRy1 : 'rV[F]_e; hRy : 'M[F]_e; hCy : 'M[F]_(d, e);
  hPy : 'M[F]_e; hRz1 : 'rV[F]_f; hRz : 'M[F]_f; hRyz : 'M[F]_(e, f); hCz : 'M[F]_(d, f) }.
(** plda.py:200-243; self._DU, self._J and self._mult_iLz are those of compute_aux (plda.py:71-78). Line 214 subtracts the number F_tot . mu from all
    the entries of S. np.outer(self.mu, Ry1) is mu^T Ry1. *)
Definition g_Estep {M e f d} (p : gplda F e f d) (D : stats F M d) (N_is_int : bool) : res (gstats e f d) :=
  let DU := g_U p *m diag_mx (g_D p) in
  let J := g_V p *m DU^T in
  let! z := invert_pdmat ln (1%:M + DU *m (g_U p)^T) true in
  let! r := g_compute_py_g_x ln ln2pi p D N_is_int in
  let y := spy r in
  let F_tot := \sum_i row i (sF D) in
  let Cy := (sF D)^T *m y in
  let Cz := p_right z ((sS D - const_mx (\sum_j F_tot 0 j * g_mu p 0 j)) *m DU^T - Cy *m J) in
  let Niy : 'M[F]_(M, e) := \matrix_(i, j) (y i j * sN D 0 i) in
  let Ry1 := \sum_i row i Niy in
  let Ry := spRy r + Niy^T *m y in
  let Py := spPy r + y^T *m y in
  let Dc := center_stats D (g_mu p) in
  let Fc_acc := \sum_i row i (sF Dc) in
  let Rz1 := p_right z (Fc_acc *m DU^T - Ry1 *m J) in
  let Cbary := Cy - (g_mu p)^T *m Ry1 in
  let Ryz := p_right z (Cbary^T *m DU^T - Ry *m J) in
  let A := DU *m Cbary *m J in
  let B := p_right z (DU *m sS Dc *m DU^T - A - A^T + J^T *m Ry *m J) in
  let Rz := (p_right z B^T)^T + (\sum_i sN D 0 i) *: p_right z 1%:M in
  ok (GStats (\sum_i sN D 0 i) M%:R F_tot (sS D) (\sum_i splogpy r 0 i) (\sum_i row i y) Ry1 Ry Cy Py Rz1 Rz Ryz Cz).

Record gconfig := GConfig { v_mu : bool; v_V : bool; v_U : bool; v_D : bool; v_floor : F }.
(** the matrices of plda.py:321-325: the blocks of y, z and 1 *)
Definition big_R {e f d} (s : gstats e f d) : 'M[F]_(e + f + 1) :=
  block_mx (block_mx (hRy s) (hRyz s) (hRyz s)^T (hRz s)) (row_mx (hRy1 s) (hRz1 s))^T (row_mx (hRy1 s) (hRz1 s)) (hN s)%:M.
Definition big_C {e f d} (s : gstats e f d) : 'M[F]_(d, e + f + 1) := row_mx (row_mx (hCy s) (hCz s)) (hF s)^T.
(** plda.py:264-332: the new (mu, V, U). With update_V alone, V is updated (271-274) and then the branch of lines 309-319, whose condition is the
    same, stacks blocks of e and d rows for a system of e + 1: ValueError. With update_mu and update_U the subtraction of line 301 or the system
    fails in the same way. With update_mu and update_V no branch is taken. *)
Definition g_means {e f d} (cf : gconfig) (p : gplda F e f d) (s : gstats e f d) : res ('rV[F]_d * 'M[F]_(e, d) * 'M[F]_(f, d)) :=
  match v_mu cf, v_V cf, v_U cf with
  | true, false, false => ok ((hN s)^-1 *: (hF s - hRy1 s *m g_V p - hRz1 s *m g_U p), g_V p, g_U p)
  | false, true, false =>
    let! _ := invert_pdmat ln (hRy s) false in
    let! _ := invert_pdmat ln (block_mx (hRy s) (hRy1 s)^T (hRy1 s) (hN s)%:M : 'M[F]_(e + 1)) false in err Base.ValueError
  | false, false, true =>
    let! r := invert_pdmat ln (hRz s) false in
    ok (g_mu p, g_V p, p_left r ((hCz s)^T - (hRyz s)^T *m g_V p - (hRz1 s)^T *m g_mu p))
  | false, true, true =>
    let! r := invert_pdmat ln (block_mx (hRy s) (hRyz s) (hRyz s)^T (hRz s)) false in
    let Vtilde := p_left r (col_mx ((hCy s)^T - (hRy1 s)^T *m g_mu p) ((hCz s)^T - (hRz1 s)^T *m g_mu p)) in
    ok (g_mu p, usubmx Vtilde, dsubmx Vtilde)
  | true, false, true =>
    let! _ := invert_pdmat ln (block_mx (hRz s) (hRz1 s)^T (hRz1 s) (hN s)%:M : 'M[F]_(f + 1)) false in err Base.ValueError
  | true, true, true =>
    let! r := invert_pdmat ln (big_R s) false in
    let Vtilde := p_left r (big_C s)^T in
    ok (dsubmx Vtilde, usubmx (usubmx Vtilde), dsubmx (usubmx Vtilde))
  | true, true, false | false, false, false => ok (g_mu p, g_V p, g_U p)
  end.
(** plda.py:334-342 *)
Definition g_MstepML {e f d} (cf : gconfig) (p : gplda F e f d) (s : gstats e f d) : res (gplda F e f d) :=
  let! q := g_means cf p s in
  let: (mu, V, U) := q in
  let D := if v_D cf then
      let Vtilde : 'M[F]_(e + f + 1, d) := col_mx (col_mx V U) mu in
      let CVt := big_C s *m Vtilde in
      let T := (hN s)^-1 *: (hS s - CVt - CVt^T + Vtilde^T *m big_R s *m Vtilde) in
      \row_j (if T j j < v_floor cf then v_floor cf else T j j)^-1
    else g_D p in
  let p' := GPlda mu V U D in
  let! _ := compute_aux ln p' in ok p'.
(** plda.py:346-371 *)
Definition g_MstepMD {e f d} (cf : gconfig) (p : gplda F e f d) (s : gstats e f d) : res (gplda F e f d) :=
  let mu_y := (hM s)^-1 *: hy s in
  let! chol_y := cholesky ((hM s)^-1 *: hPy s - mu_y^T *m mu_y) in
  let! r := invert_pdmat ln (hRy s - (hN s)^-1 *: ((hRy1 s)^T *m hRy1 s)) true in
  let H := p_right r ((hRyz s)^T - (hN s)^-1 *: ((hRz1 s)^T *m hRy1 s)) in
  let mu_z := (hN s)^-1 *: (hRz1 s - hRy1 s *m H^T) in
  let RzyH := (hRyz s)^T *m H^T in
  let! chol_z := cholesky ((hN s)^-1 *: (hRz s - RzyH - RzyH^T + H *m hRy s *m H^T) - mu_z^T *m mu_z) in
  let mu := if v_mu cf then g_mu p + (mu_y *m (g_V p + H^T *m g_U p) + mu_z *m g_U p) else g_mu p in
  let V := if v_V cf then chol_y *m (g_V p + H^T *m g_U p) else g_V p in
  let U := if v_U cf then chol_z *m g_U p else g_U p in
  let p' := GPlda mu V U (g_D p) in
  let! _ := compute_aux ln p' in ok p'.
End PldaFit.
