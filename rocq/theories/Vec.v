(** * 3-vectors, quaternions and 3x3 matrices over a [Num]. *)
From Coq Require Import Reals ZArith List Bool Lra.
From Verif Require Import Num.
Local Open Scope num_scope.

Record V3 (T : Type) := mk3 { x3 : T; y3 : T; z3 : T }.
Arguments mk3 {T} _ _ _.  Arguments x3 {T} _.  Arguments y3 {T} _.  Arguments z3 {T} _.
(** Quaternions, scalar first: index 0 is [qw]. *)
Record Q4 (T : Type) := mkq { qw : T; qx : T; qy : T; qz : T }.
Arguments mkq {T} _ _ _ _.  Arguments qw {T} _.  Arguments qx {T} _.  Arguments qy {T} _.  Arguments qz {T} _.
(** 3x3 matrix as three rows. *)
Record M3 (T : Type) := mkm { row1 : V3 T; row2 : V3 T; row3 : V3 T }.
Arguments mkm {T} _ _ _.  Arguments row1 {T} _.  Arguments row2 {T} _.  Arguments row3 {T} _.

Section Ops.
Context {T : Type} `{NT : Num T}.
(** elementwise numpy operations *)
Definition add3 (a b : V3 T) : V3 T := mk3 (x3 a + x3 b) (y3 a + y3 b) (z3 a + z3 b).
Definition sub3 (a b : V3 T) : V3 T := mk3 (x3 a - x3 b) (y3 a - y3 b) (z3 a - z3 b).
Definition opp3 (a : V3 T) : V3 T := mk3 (- x3 a) (- y3 a) (- z3 a).
Definition scale3 (s : T) (a : V3 T) : V3 T := mk3 (s * x3 a) (s * y3 a) (s * z3 a).
Definition div3 (a : V3 T) (s : T) : V3 T := mk3 (x3 a / s) (y3 a / s) (z3 a / s).
(** np.dot of 3-vectors *)
Definition dot3 (a b : V3 T) : T := x3 a * x3 b + y3 a * y3 b + z3 a * z3 b.
(** np.cross *)
Definition cross3 (a b : V3 T) : V3 T :=
  mk3 (y3 a * z3 b - z3 a * y3 b) (z3 a * x3 b - x3 a * z3 b) (x3 a * y3 b - y3 a * x3 b).
(** np.linalg.norm *)
Definition norm3 (a : V3 T) : T := nsqrt (dot3 a a).
Definition zero3 : V3 T := mk3 n0 n0 n0.
Definition vec (q : Q4 T) : V3 T := mk3 (qx q) (qy q) (qz q).
Definition mkqv (s : T) (v : V3 T) : Q4 T := mkq s (x3 v) (y3 v) (z3 v).
Definition addq (a b : Q4 T) : Q4 T := mkq (qw a + qw b) (qx a + qx b) (qy a + qy b) (qz a + qz b).
Definition subq (a b : Q4 T) : Q4 T := mkq (qw a - qw b) (qx a - qx b) (qy a - qy b) (qz a - qz b).
Definition oppq (a : Q4 T) : Q4 T := mkq (- qw a) (- qx a) (- qy a) (- qz a).
Definition scaleq (s : T) (a : Q4 T) : Q4 T := mkq (s * qw a) (s * qx a) (s * qy a) (s * qz a).
Definition divq (a : Q4 T) (s : T) : Q4 T := mkq (qw a / s) (qx a / s) (qy a / s) (qz a / s).
Definition dotq (a b : Q4 T) : T := qw a * qw b + qx a * qx b + qy a * qy b + qz a * qz b.
Definition normq (a : Q4 T) : T := nsqrt (dotq a a).
(** matrices *)
Definition mv (m : M3 T) (v : V3 T) : V3 T := mk3 (dot3 (row1 m) v) (dot3 (row2 m) v) (dot3 (row3 m) v).
Definition tr3 (m : M3 T) : M3 T :=
  mkm (mk3 (x3 (row1 m)) (x3 (row2 m)) (x3 (row3 m)))
      (mk3 (y3 (row1 m)) (y3 (row2 m)) (y3 (row3 m)))
      (mk3 (z3 (row1 m)) (z3 (row2 m)) (z3 (row3 m))).
Definition mm (a b : M3 T) : M3 T :=
  let bt := tr3 b in
  mkm (mk3 (dot3 (row1 a) (row1 bt)) (dot3 (row1 a) (row2 bt)) (dot3 (row1 a) (row3 bt)))
      (mk3 (dot3 (row2 a) (row1 bt)) (dot3 (row2 a) (row2 bt)) (dot3 (row2 a) (row3 bt)))
      (mk3 (dot3 (row3 a) (row1 bt)) (dot3 (row3 a) (row2 bt)) (dot3 (row3 a) (row3 bt))).
Definition addm (a b : M3 T) : M3 T := mkm (add3 (row1 a) (row1 b)) (add3 (row2 a) (row2 b)) (add3 (row3 a) (row3 b)).
Definition subm (a b : M3 T) : M3 T := mkm (sub3 (row1 a) (row1 b)) (sub3 (row2 a) (row2 b)) (sub3 (row3 a) (row3 b)).
Definition scalem (s : T) (a : M3 T) : M3 T := mkm (scale3 s (row1 a)) (scale3 s (row2 a)) (scale3 s (row3 a)).
Definition id3 : M3 T := mkm (mk3 n1 n0 n0) (mk3 n0 n1 n0) (mk3 n0 n0 n1).
Definition zerom : M3 T := mkm zero3 zero3 zero3.
Definition outer3 (a b : V3 T) : M3 T := mkm (scale3 (x3 a) b) (scale3 (y3 a) b) (scale3 (z3 a) b).
Definition diag3 (a b c : T) : M3 T := mkm (mk3 a n0 n0) (mk3 n0 b n0) (mk3 n0 n0 c).
Definition det3 (m : M3 T) : T := dot3 (row1 m) (cross3 (row2 m) (row3 m)).
Definition trace3 (m : M3 T) : T := x3 (row1 m) + y3 (row2 m) + z3 (row3 m).
(** np.linalg.inv of a 3x3 matrix, as the adjugate divided by the determinant (contract: the exact inverse). *)
Definition inv3 (m : M3 T) : M3 T :=
  let d := det3 m in
  tr3 (mkm (div3 (cross3 (row2 m) (row3 m)) d)
           (div3 (cross3 (row3 m) (row1 m)) d)
           (div3 (cross3 (row1 m) (row2 m)) d)).
Definition l3 (v : V3 T) : list T := x3 v :: y3 v :: z3 v :: nil.
Definition lq (q : Q4 T) : list T := qw q :: qx q :: qy q :: qz q :: nil.
End Ops.
#[global] Arguments dot3 : simpl never.
#[global] Arguments cross3 : simpl never.
#[global] Arguments norm3 : simpl never.
#[global] Arguments dotq : simpl never.
#[global] Arguments normq : simpl never.

Ltac vunfold :=
  cbv [add3 sub3 opp3 scale3 div3 dot3 cross3 norm3 zero3 vec mkqv addq subq oppq scaleq divq dotq normq
       mv tr3 mm addm subm scalem id3 zerom outer3 diag3 det3 trace3 inv3
       x3 y3 z3 qw qx qy qz row1 row2 row3] in *.
Ltac vunfoldg :=
  cbv [add3 sub3 opp3 scale3 div3 dot3 cross3 norm3 zero3 vec mkqv addq subq oppq scaleq divq dotq normq
       mv tr3 mm addm subm scalem id3 zerom outer3 diag3 det3 trace3 inv3
       x3 y3 z3 qw qx qy qz row1 row2 row3].
(** Destruct every vector, quaternion and matrix in the context. *)
Ltac vdestruct :=
  repeat match goal with
  | m : M3 _ |- _ => destruct m as [[? ? ?] [? ? ?] [? ? ?]]
  | v : V3 _ |- _ => destruct v as [? ? ?]
  | q : Q4 _ |- _ => destruct q as [? ? ? ?]
  end.
(** Prove an identity between vector expressions over R. *)
Lemma mk3_c {T} (a b c a' b' c' : T) : a = a' -> b = b' -> c = c' -> mk3 a b c = mk3 a' b' c'.
Proof. intros; subst; reflexivity. Qed.
Lemma mkq_c {T} (a b c d a' b' c' d' : T) : a = a' -> b = b' -> c = c' -> d = d' -> mkq a b c d = mkq a' b' c' d'.
Proof. intros; subst; reflexivity. Qed.
Lemma mkm_c {T} (a b c a' b' c' : V3 T) : a = a' -> b = b' -> c = c' -> mkm a b c = mkm a' b' c'.
Proof. intros; subst; reflexivity. Qed.
Ltac vsplit :=
  repeat match goal with
  | |- mk3 _ _ _ = mk3 _ _ _ => apply mk3_c
  | |- mkq _ _ _ _ = mkq _ _ _ _ => apply mkq_c
  | |- mkm _ _ _ = mkm _ _ _ => apply mkm_c
  end.
Ltac vring := intros; vdestruct; vunfoldg; rnumg; vsplit; ring.

Lemma V3_eq {T} (a b : V3 T) : x3 a = x3 b -> y3 a = y3 b -> z3 a = z3 b -> a = b.
Proof. destruct a, b; simpl; intros; subst; reflexivity. Qed.
Lemma Q4_eq {T} (a b : Q4 T) : qw a = qw b -> qx a = qx b -> qy a = qy b -> qz a = qz b -> a = b.
Proof. destruct a, b; simpl; intros; subst; reflexivity. Qed.
Lemma mk3_inj {T} (a b c a' b' c' : T) : mk3 a b c = mk3 a' b' c' -> a = a' /\ b = b' /\ c = c'.
Proof. intros H; injection H; auto. Qed.
Lemma mkq_inj {T} (a b c d a' b' c' d' : T) : mkq a b c d = mkq a' b' c' d' -> a = a' /\ b = b' /\ c = c' /\ d = d'.
Proof. intros H; injection H; auto. Qed.

Notation v3 := (V3 R).
Notation quat := (Q4 R).
Notation m3 := (M3 R).
Definition unitq (q : quat) : Prop := (dotq q q = 1)%R.
Definition unit3 (v : v3) : Prop := (dot3 v v = 1)%R.
