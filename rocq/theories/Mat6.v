(** * 6-vectors and 6x6 matrices as pairs and 2x2 blocks of the 3-dimensional ones *)
From Coq Require Import Reals.
From Verif Require Import Num Vec.
Local Open Scope R_scope.

Record V6 := mk6 { u1 : v3; u2 : v3 }.
Record M6 := mkB { b11 : m3; b12 : m3; b21 : m3; b22 : m3 }.
Definition add6 (a b : V6) : V6 := mk6 (add3 (u1 a) (u1 b)) (add3 (u2 a) (u2 b)).
Definition sub6 (a b : V6) : V6 := mk6 (sub3 (u1 a) (u1 b)) (sub3 (u2 a) (u2 b)).
Definition scale6 (k : R) (a : V6) : V6 := mk6 (scale3 k (u1 a)) (scale3 k (u2 a)).
Definition dot6 (a b : V6) : R := dot3 (u1 a) (u1 b) + dot3 (u2 a) (u2 b).
Definition zero6 : V6 := mk6 zero3 zero3.
Definition mv6 (m : M6) (x : V6) : V6 :=
  mk6 (add3 (mv (b11 m) (u1 x)) (mv (b12 m) (u2 x))) (add3 (mv (b21 m) (u1 x)) (mv (b22 m) (u2 x))).
Definition mm6 (a b : M6) : M6 :=
  mkB (addm (mm (b11 a) (b11 b)) (mm (b12 a) (b21 b))) (addm (mm (b11 a) (b12 b)) (mm (b12 a) (b22 b)))
      (addm (mm (b21 a) (b11 b)) (mm (b22 a) (b21 b))) (addm (mm (b21 a) (b12 b)) (mm (b22 a) (b22 b))).
Definition addm6 (a b : M6) : M6 := mkB (addm (b11 a) (b11 b)) (addm (b12 a) (b12 b)) (addm (b21 a) (b21 b)) (addm (b22 a) (b22 b)).
Definition subm6 (a b : M6) : M6 := mkB (subm (b11 a) (b11 b)) (subm (b12 a) (b12 b)) (subm (b21 a) (b21 b)) (subm (b22 a) (b22 b)).
Definition scalem6 (k : R) (a : M6) : M6 := mkB (scalem k (b11 a)) (scalem k (b12 a)) (scalem k (b21 a)) (scalem k (b22 a)).
Definition tr6 (a : M6) : M6 := mkB (tr3 (b11 a)) (tr3 (b21 a)) (tr3 (b12 a)) (tr3 (b22 a)).
Definition id6 : M6 := mkB id3 zerom zerom id3.
(** diag(a,a,a,b,b,b) *)
Definition diag6 (a b : R) : M6 := mkB (scalem a id3) zerom zerom (scalem b id3).
(** np.linalg.inv of a 6x6 matrix, by elimination of the first block.  It also answers LinAlgError when only that block is
    singular; the filter calls it on positive definite matrices alone, where this cannot happen (proved), and where any
    inverse, however computed, is this one (proved). *)
Definition inv6 (m : M6) : res M6 :=
  let A := b11 m in let B := b12 m in let C := b21 m in let D := b22 m in
  if Reqb (det3 A) 0 then Raise LinAlgError
  else let Ai := inv3 A in
       let S := subm D (mm C (mm Ai B)) in
       if Reqb (det3 S) 0 then Raise LinAlgError
       else let Si := inv3 S in
            Ok (mkB (addm Ai (mm Ai (mm B (mm Si (mm C Ai))))) (scalem (-1) (mm Ai (mm B Si)))
                    (scalem (-1) (mm Si (mm C Ai))) Si).
