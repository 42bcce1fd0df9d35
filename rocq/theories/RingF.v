(** ring and field tactics of the standard library on mathcomp real closed fields. *)
Set Warnings "-notation-overridden,-ambiguous-paths".
From mathcomp Require Import all_ssreflect all_algebra.
From Coq Require Export Ring Field.
Set Implicit Arguments. Unset Strict Implicit. Unset Printing Implicit Defensive.
Import GRing.Theory Num.Theory.
Local Open Scope ring_scope.
Section R.
Variable F : rcfType.
Notation R := (GRing.Ring.sort F).
Notation Z := (GRing.Zmodule.sort F).
Lemma F_ring : @ring_theory R (0 : F) (1 : F) (@GRing.add F) (@GRing.mul F) (fun a b : F => a - b) (@GRing.opp F) (@eq R).
Proof.
split.
- exact: add0r. - exact: addrC. - exact: addrA. - exact: mul1r. - exact: mulrC. - exact: mulrA. - exact: mulrDl. - by []. - exact: subrr.
Qed.
Lemma F_zring : @ring_theory Z (0 : F) (1 : F) (@GRing.add F) (@GRing.mul F) (fun a b : F => a - b) (@GRing.opp F) (@eq Z).
Proof. exact: F_ring. Qed.
Lemma F_field : @field_theory R (0 : F) (1 : F) (@GRing.add F) (@GRing.mul F) (fun a b : F => a - b) (@GRing.opp F) (fun a b : F => a / b) (@GRing.inv F) (@eq R).
Proof.
split.
- exact: F_ring. - apply/eqP; exact: oner_neq0. - by []. - by move=> p /eqP H; rewrite mulVf.
Qed.
Lemma F_zfield : @field_theory Z (0 : F) (1 : F) (@GRing.add F) (@GRing.mul F) (fun a b : F => a - b) (@GRing.opp F) (fun a b : F => a / b) (@GRing.inv F) (@eq Z).
Proof. exact: F_field. Qed.
End R.
Ltac fnorm :=
  repeat match goal with
  | |- context [GRing.UnitRing.ringType (Num.RealClosedField.unitRingType ?F)] =>
    change (GRing.UnitRing.ringType (Num.RealClosedField.unitRingType F)) with (Num.RealClosedField.ringType F)
  | |- context [GRing.ComRing.ringType (Num.RealClosedField.comRingType ?F)] =>
    change (GRing.ComRing.ringType (Num.RealClosedField.comRingType F)) with (Num.RealClosedField.ringType F)
  | |- context [GRing.UnitRing.zmodType (Num.RealClosedField.unitRingType ?F)] =>
    change (GRing.UnitRing.zmodType (Num.RealClosedField.unitRingType F)) with (Num.RealClosedField.zmodType F)
  | |- context [GRing.Ring.zmodType (Num.RealClosedField.ringType ?F)] =>
    change (GRing.Ring.zmodType (Num.RealClosedField.ringType F)) with (Num.RealClosedField.zmodType F)
  end;
  lazymatch goal with |- @eq _ ?x ?y => let F := match goal with |- context [Num.RealClosedField.ringType ?F] => F | |- context [Num.RealClosedField.zmodType ?F] => F end in
    apply (@id (@eq (GRing.Ring.sort (Num.RealClosedField.ringType F)) x y)) end.
Section T.
Variable F : rcfType.
Add Ring FRing' : (F_ring F). Add Ring FZRing' : (F_zring F). Add Field FField' : (F_field F). Add Field FZField' : (F_zfield F).
Goal forall a b c : F, a * (b + c) = c * a + b * a. Proof. intros. fnorm. ring. Qed.
Goal forall a b c : F, - a * (b + c) = - c * a - b * a. Proof. intros. fnorm. ring. Qed.
Goal forall a b c : F, a - (b - c) = - (b - a) + c. Proof. intros. fnorm. ring. Qed.
Goal forall a b c : F, b != 0 -> a - (b - c) = (- (b - a) + c) * b / b. Proof. intros. fnorm. field. apply/eqP. by []. Qed.
End T.
