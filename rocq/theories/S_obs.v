(** * Specification: order of symmetric matrices, covariance of a linear combination *)
From Coq Require Import Reals.
From Verif Require Import Num Vec Mat6.
Local Open Scope R_scope.

Definition symm6 (m : M6) : Prop := tr6 m = m.
Definition psd6 (m : M6) : Prop := forall x, 0 <= dot6 x (mv6 m x).
Definition pd6 (m : M6) : Prop := forall x, x <> zero6 -> 0 < dot6 x (mv6 m x).
(** a <= b in the order of quadratic forms *)
Definition loewner (a b : M6) : Prop := forall x, dot6 x (mv6 a x) <= dot6 x (mv6 b x).
Definition inverse6 (m n : M6) : Prop := mm6 m n = id6 /\ mm6 n m = id6.
(** covariance of (I - L) prior + L measurement for independent errors with covariances P and R *)
Definition combined (P Rm L : M6) : M6 :=
  addm6 (mm6 (subm6 id6 L) (mm6 P (tr6 (subm6 id6 L)))) (mm6 L (mm6 Rm (tr6 L))).
