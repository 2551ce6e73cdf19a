(** * Specification of the controllers *)
From Coq Require Import Reals List Bool.
From Verif Require Import Num Vec.
Import ListNotations.
Local Open Scope R_scope.

Definition pm1 (s : R) : Prop := s = 1 \/ s = -1.
(** what one call of a hysteretic sign must do: flip exactly when the input has the other sign and reaches the width *)
Definition hysteresis (hw prev x next : R) : Prop :=
  (x * prev < 0 /\ hw <= Rabs x /\ next = - prev) \/ ((0 <= x * prev \/ Rabs x < hw) /\ next = prev).
(** the sign of the last non-zero entry of a history, or [d] if there is none *)
Fixpoint last_sign (d : R) (xs : list R) : R :=
  match xs with [] => d | x :: r => last_sign (if Rlt_dec 0 x then 1 else if Rlt_dec x 0 then -1 else d) r end.

(** a watched object inside its alert zone: gain, sign (-1 to keep away, +1 to keep within), boresight, cosine of the bound,
    alert threshold, and the object's body-frame direction *)
Record Alert := mkAl { al_gain : R; al_sign : R; al_bore : v3; al_cos : R; al_sigma : R; al_obj : v3 }.
(** distance from the constraint boundary, and the value the code substitutes once the constraint is violated *)
Definition margin (sgn : R) (bore : v3) (cosb : R) (obj : v3) : R := / 2 * (sgn * (dot3 bore obj - cosb)).
Definition al_psi (a : Alert) : R := let p := margin (al_sign a) (al_bore a) (al_cos a) (al_obj a) in if Rle_dec p 0 then 1 / 10000 else p.
Definition rsum (l : list R) : R := fold_right Rplus 0 l.
Definition vsum (l : list v3) : v3 := fold_right add3 (mk3 0 0 0) l.
(** the barrier of the potential and its axis *)
Definition barrier (l : list Alert) : R := rsum (map (fun a => al_gain a * ln (al_psi a)) l).
Definition barrier_axis (l : list Alert) : v3 := vsum (map (fun a => scale3 (al_gain a * al_sign a / al_psi a) (cross3 (al_bore a) (al_obj a))) l).
