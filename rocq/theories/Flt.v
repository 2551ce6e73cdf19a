(** * IEEE-754 binary64 instance of [Num] (round to nearest, ties to even), from Flocq. *)
From Coq Require Import ZArith Reals Bool.
From Flocq Require Import Core BinarySingleNaN.
From Verif Require Import Num.

Definition b64 := binary_float 53 1024.
Lemma b64_prec : FLX.Prec_gt_0 53. Proof. reflexivity. Qed.
Lemma b64_emax : Prec_lt_emax 53 1024. Proof. reflexivity. Qed.

Definition fadd : b64 -> b64 -> b64 := @Bplus 53 1024 b64_prec b64_emax mode_NE.
Definition fsub : b64 -> b64 -> b64 := @Bminus 53 1024 b64_prec b64_emax mode_NE.
Definition fmul : b64 -> b64 -> b64 := @Bmult 53 1024 b64_prec b64_emax mode_NE.
Definition fdiv : b64 -> b64 -> b64 := @Bdiv 53 1024 b64_prec b64_emax mode_NE.
Definition fsqrt : b64 -> b64 := @Bsqrt 53 1024 b64_prec b64_emax mode_NE.
Definition fopp : b64 -> b64 := Bopp.
Definition fabs : b64 -> b64 := Babs.
Definition fltb : b64 -> b64 -> bool := Bltb.
Definition fleb : b64 -> b64 -> bool := Bleb.
Definition feqb : b64 -> b64 -> bool := Beqb.
Definition fofZ (z : Z) : b64 := binary_normalize 53 1024 b64_prec b64_emax mode_NE z 0 false.
(** Decimal literals n/d with n, d below 2^53: division of two exact floats is correctly rounded, so this is the
    float Python reads. *)
Definition fdec (n d : Z) : b64 := fdiv (fofZ n) (fofZ d).

#[export] Instance FNum : Num b64 := {|
  n0 := fofZ 0; n1 := fofZ 1;
  nadd := fadd; nsub := fsub; nmul := fmul; ndiv := fdiv; nopp := fopp;
  nabs := fabs; nsqrt := fsqrt;
  nltb := fltb; nleb := fleb; neqb := feqb;
  nofZ := fofZ; ndec := fdec
|}.

Definition fzero (neg : bool) : b64 := B754_zero neg.
Definition finf (neg : bool) : b64 := B754_infinity neg.
Definition fnan : b64 := B754_nan.
Definition fin (x : b64) : bool := is_finite x.
Definition fR (x : b64) : R := B2R x.
