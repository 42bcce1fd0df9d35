(** Coq's axiomatic reals as a mathcomp real closed field, so that the theorems stated over an arbitrary real closed field with an abstract
    logarithm apply to the reals and Rpower.ln. Nothing here models code. *)
From Coq Require Import Reals Lra ClassicalEpsilon.
Set Warnings "-notation-overridden,-ambiguous-paths".
From mathcomp Require Import all_ssreflect all_algebra.
Set Implicit Arguments. Unset Strict Implicit. Unset Printing Implicit Defensive.
Import GRing.Theory.
Delimit Scope R_scope with Re.

Definition eqr (a b : R) : bool := if Req_EM_T a b is left _ then true else false.
Lemma eqrP : Equality.axiom eqr.
Proof. move=> a b. rewrite /eqr. case: (Req_EM_T a b) => H; by constructor. Qed.
Canonical R_eqMixin := EqMixin eqrP.
Canonical R_eqType := Eval hnf in EqType R R_eqMixin.
Definition pickR (P : pred R) (n : nat) : option R :=
  let x := epsilon (inhabits R0) (fun z => is_true (P z)) in if P x then Some x else None.
Fact pickR_some P n x : pickR P n = Some x -> P x.
Proof. rewrite /pickR. set y := epsilon _ _. case: ifP => // H [<-]. exact: H. Qed.
Fact pickR_ex (P : pred R) : (exists x, P x) -> exists n, pickR P n.
Proof. move=> H. exists 0%N. rewrite /pickR. by rewrite (epsilon_spec (inhabits R0) (fun z => is_true (P z)) H). Qed.
Fact pickR_ext (P Q : pred R) : P =1 Q -> pickR P =1 pickR Q.
Proof. move=> E n. rewrite /pickR. have -> : P = Q by apply: FunctionalExtensionality.functional_extensionality. by []. Qed.
Definition R_choiceMixin : choiceMixin R := Choice.Mixin pickR_some pickR_ex pickR_ext.
Canonical R_choiceType := Eval hnf in ChoiceType R R_choiceMixin.
Fact RplusA : associative Rplus. Proof. by move=> *; rewrite Rplus_assoc. Qed.
Definition R_zmodMixin := ZmodMixin RplusA Rplus_comm Rplus_0_l Rplus_opp_l.
Canonical R_zmodType := Eval hnf in ZmodType R R_zmodMixin.
Fact RmultA : associative Rmult. Proof. by move=> *; rewrite Rmult_assoc. Qed.
Fact R1_neq_0 : R1 != R0. Proof. apply/eqP. exact: R1_neq_R0. Qed.
Definition R_ringMixin := RingMixin RmultA Rmult_1_l Rmult_1_r Rmult_plus_distr_r Rmult_plus_distr_l R1_neq_0.
Canonical R_ringType := Eval hnf in RingType R R_ringMixin.
Canonical R_comRingType := Eval hnf in ComRingType R Rmult_comm.
Definition Rinvx (x : R) : R := if x == 0%Re then 0%Re else (/ x)%Re.
Fact mulVRx (x : R) : x != 0%Re -> Rmult (Rinvx x) x = 1%Re.
Proof. move=> H. rewrite /Rinvx (negbTE H). apply: Rinv_l. exact/eqP. Qed.
Fact invR0 : Rinvx 0%Re = 0%Re. Proof. by rewrite /Rinvx eqxx. Qed.
Definition R_unitRingMixin := FieldUnitMixin mulVRx invR0.
Canonical R_unitRing := Eval hnf in UnitRingType R R_unitRingMixin.
Canonical R_comUnitRingType := Eval hnf in [comUnitRingType of R].
Definition R_fieldMixin := FieldMixin mulVRx invR0.
Definition R_idomainMixin := FieldIdomainMixin R_fieldMixin.
Canonical R_idomainType := Eval hnf in IdomainType R R_idomainMixin.
Canonical R_field := FieldType R R_fieldMixin.
Definition Rleb (a b : R) : bool := if Rle_dec a b is left _ then true else false.
Definition Rltb (a b : R) : bool := if Rlt_dec a b is left _ then true else false.
Lemma RlebP a b : reflect (a <= b)%Re (Rleb a b).
Proof. rewrite /Rleb. case: (Rle_dec a b) => H; by constructor. Qed.
Lemma RltbP a b : reflect (a < b)%Re (Rltb a b).
Proof. rewrite /Rltb. case: (Rlt_dec a b) => H; by constructor. Qed.
Definition R_leMixin : realLeMixin R_idomainType.
Proof.
refine (@RealLeMixin R_idomainType Rleb Rltb Rabs _ _ _ _ _ _ _ _).
- move=> x y /RlebP A /RlebP B. apply/RlebP. change (0 <= x + y)%Re. change (0 <= x)%Re in A. change (0 <= y)%Re in B. lra.
- move=> x y /RlebP A /RlebP B. apply/RlebP. change (0 <= x * y)%Re. exact: Rmult_le_pos.
- move=> x /RlebP A /RlebP B. change (0 <= x)%Re in A. change (x <= 0)%Re in B. change (x = 0)%Re. lra.
- move=> x y. apply/RlebP/RlebP; change (0 <= y + - x -> x <= y)%Re || change (x <= y -> 0 <= y + - x)%Re; lra.
- move=> x. apply/orP. case: (Rle_dec 0 x) => H; [left|right]; apply/RlebP => //. change (x <= 0)%Re. lra.
- move=> x. exact: Rabs_Ropp.
- move=> x /RlebP A. apply: Rabs_right. change (0 <= x)%Re in A. lra.
- move=> x y. apply/RltbP/andP.
  + move=> A. split; [apply/eqP; lra | apply/RlebP; lra].
  + move=> [/eqP A /RlebP B]. lra.
Defined.
Canonical R_porderType := POrderType ring_display R R_leMixin.
Canonical R_latticeType := LatticeType R R_leMixin.
Canonical R_distrLatticeType := DistrLatticeType R R_leMixin.
Canonical R_orderType := OrderType R R_leMixin.
Canonical R_numDomainType := NumDomainType R R_leMixin.
Canonical R_normedZmodType := NormedZmodType R R R_leMixin.
Canonical R_numFieldType := [numFieldType of R].
Canonical R_realDomainType := [realDomainType of R].
Canonical R_realFieldType := [realFieldType of R].

Local Open Scope ring_scope.
Lemma poly_continuous (p : {poly R}) : continuity (horner p).
Proof.
have X := @FunctionalExtensionality.functional_extensionality R R.
elim/poly_ind: p => [|p c IH].
  have -> : horner 0 = (fun _ : R => R0) by apply: X => z; rewrite horner0. move=> x. apply: continuity_pt_const. by move=> a b.
have -> : horner (p * 'X + c%:P) = plus_fct (mult_fct (horner p) id) (fun _ => c) by apply: X => z; rewrite hornerD hornerMX hornerC.
move=> x. apply: continuity_pt_plus; last by apply: continuity_pt_const.
apply: continuity_pt_mult => //. exact: (derivable_continuous_pt _ _ (derivable_pt_id x)).
Qed.
Lemma R_real_closed : Num.real_closed_axiom R_numDomainType.
Proof.
move=> p a b /RlebP AB /andP [/RlebP A /RlebP B].
have [x [[X1 X2] X3]] := IVT_cor (horner p) a b (poly_continuous p) AB ltac:(change (horner p a * horner p b <= 0)%Re; change (horner p a <= 0)%Re in A; change (0 <= horner p b)%Re in B; nra).
exists x; last by apply/eqP. apply/andP. by split; apply/RlebP.
Qed.
Canonical R_rcfType := RcfType R R_real_closed.
(** the real logarithm *)
Lemma R_is_log : forall a b : R_rcfType, 0 < a -> 0 < b -> ln (a * b) = ln a + ln b :> R_rcfType.
Proof. move=> a b /RltbP A /RltbP B. exact: ln_mult. Qed.
Lemma R_ln_le : forall t : R_rcfType, 0 < t -> (ln t : R_rcfType) <= t - 1.
Proof.
move=> t /RltbP T. apply/RlebP. change (ln t <= t + - 1)%Re. change (0 < t)%Re in T.
have := exp_ineq1_le (ln t). rewrite exp_ln //. lra.
Qed.
