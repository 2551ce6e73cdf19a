(** * Numbers.

    The Python code computes with floats.  Every algebraic function of the model is written once, over the
    operations collected in the class [Num]; the instance [RNum] (exact reals) is used for algebraic laws and the
    instance [FNum] of [Flt.v] (IEEE-754 binary64) where rounding, signed zeros, infinities or NaN matter. *)
From Coq Require Import Reals ZArith Bool List.

Class Num (T : Type) := {
  n0 : T;
  n1 : T;
  nadd : T -> T -> T;
  nsub : T -> T -> T;
  nmul : T -> T -> T;
  ndiv : T -> T -> T;
  nopp : T -> T;
  nabs : T -> T;
  nsqrt : T -> T;
  nltb : T -> T -> bool;     (* Python [<]  *)
  nleb : T -> T -> bool;     (* Python [<=] *)
  neqb : T -> T -> bool;     (* Python [==] *)
  nofZ : Z -> T;             (* an integer literal *)
  ndec : Z -> Z -> T         (* [ndec n d] is the decimal literal n/d *)
}.

Declare Scope num_scope.
Delimit Scope num_scope with num.
Infix "+" := nadd : num_scope.
Infix "-" := nsub : num_scope.
Infix "*" := nmul : num_scope.
Infix "/" := ndiv : num_scope.
Notation "- x" := (nopp x) : num_scope.
Infix "<?" := nltb : num_scope.
Infix "<=?" := nleb : num_scope.
Infix "=?" := neqb : num_scope.

(** Exact real arithmetic. *)
Definition Rltb (x y : R) : bool := if Rlt_dec x y then true else false.
Definition Rleb (x y : R) : bool := if Rle_dec x y then true else false.
Definition Reqb (x y : R) : bool := if Req_EM_T x y then true else false.

#[export] Instance RNum : Num R := {|
  n0 := 0%R; n1 := 1%R;
  nadd := Rplus; nsub := Rminus; nmul := Rmult; ndiv := Rdiv; nopp := Ropp;
  nabs := Rabs; nsqrt := R_sqrt.sqrt;
  nltb := Rltb; nleb := Rleb; neqb := Reqb;
  nofZ := IZR; ndec := fun n d => (IZR n / IZR d)%R
|}.

(** Unfold the operations of the real instance. *)
Ltac rnumg :=
  change (@n0 R RNum) with 0%R;
  change (@n1 R RNum) with 1%R;
  change (@nadd R RNum) with Rplus;
  change (@nsub R RNum) with Rminus;
  change (@nmul R RNum) with Rmult;
  change (@ndiv R RNum) with Rdiv;
  change (@nopp R RNum) with Ropp;
  change (@nabs R RNum) with Rabs;
  change (@nsqrt R RNum) with R_sqrt.sqrt;
  change (@nltb R RNum) with Rltb;
  change (@nleb R RNum) with Rleb;
  change (@neqb R RNum) with Reqb;
  change (@nofZ R RNum) with IZR;
  change (@ndec R RNum) with (fun n d => (IZR n / IZR d)%R); cbv beta.
Ltac rnum :=
  change (@n0 R RNum) with 0%R in *;
  change (@n1 R RNum) with 1%R in *;
  change (@nadd R RNum) with Rplus in *;
  change (@nsub R RNum) with Rminus in *;
  change (@nmul R RNum) with Rmult in *;
  change (@ndiv R RNum) with Rdiv in *;
  change (@nopp R RNum) with Ropp in *;
  change (@nabs R RNum) with Rabs in *;
  change (@nsqrt R RNum) with R_sqrt.sqrt in *;
  change (@nltb R RNum) with Rltb in *;
  change (@nleb R RNum) with Rleb in *;
  change (@neqb R RNum) with Reqb in *;
  change (@nofZ R RNum) with IZR in *;
  change (@ndec R RNum) with (fun n d => (IZR n / IZR d)%R) in *; cbv beta in *.
Lemma Rltb_spec x y : Bool.reflect (x < y)%R (Rltb x y).
Proof. unfold Rltb; destruct (Rlt_dec x y); constructor; assumption. Qed.
Lemma Rleb_spec x y : Bool.reflect (x <= y)%R (Rleb x y).
Proof. unfold Rleb; destruct (Rle_dec x y); constructor; assumption. Qed.
Lemma Reqb_spec x y : Bool.reflect (x = y) (Reqb x y).
Proof. unfold Reqb; destruct (Req_EM_T x y); constructor; assumption. Qed.

Lemma Rltb_true x y : Rltb x y = true <-> (x < y)%R.
Proof. destruct (Rltb_spec x y); split; intros; try assumption; try reflexivity; try discriminate; contradiction. Qed.
Lemma Rltb_false x y : Rltb x y = false <-> (y <= x)%R.
Proof. destruct (Rltb_spec x y) as [H|H]; split; intros H'; try reflexivity; try discriminate.
  - exfalso; exact (Rlt_not_le _ _ H H').
  - apply Rnot_lt_le; exact H. Qed.
Lemma Rleb_true x y : Rleb x y = true <-> (x <= y)%R.
Proof. destruct (Rleb_spec x y); split; intros; try assumption; try reflexivity; try discriminate; contradiction. Qed.
Lemma Rleb_false x y : Rleb x y = false <-> (y < x)%R.
Proof. destruct (Rleb_spec x y) as [H|H]; split; intros H'; try reflexivity; try discriminate.
  - exfalso; exact (Rlt_not_le _ _ H' H).
  - apply Rnot_le_lt; exact H. Qed.
Lemma Reqb_true x y : Reqb x y = true <-> x = y.
Proof. destruct (Reqb_spec x y); split; intros; try assumption; try reflexivity; try discriminate; contradiction. Qed.
Lemma Reqb_false x y : Reqb x y = false <-> x <> y.
Proof. destruct (Reqb_spec x y); split; intros; try assumption; try reflexivity; try discriminate; contradiction. Qed.

(** Python exceptions as values. *)
Inductive exn :=
| ValueError | TypeError | KeyError | AttributeError | ZeroDivisionError | OverflowError
| UnboundLocalError | IndexError | LinAlgError | RuntimeError.
Inductive res (A : Type) := Ok (a : A) | Raise (e : exn).
Arguments Ok {A} _.
Arguments Raise {A} _.
Definition rbind {A B} (r : res A) (f : A -> res B) : res B :=
  match r with Ok a => f a | Raise e => Raise e end.

(** numpy's pairwise [maximum]: propagates NaN
    (numpy umath loops: [(a >= b || isnan(a)) ? a : b]). *)
Section NpMax.
Context {T : Type} `{Num T}.
Definition npmax2 (a b : T) : T := if nleb b a || negb (neqb a a) then a else b.
(** [np.max] of a 1-d array; an empty array raises ValueError. *)
Definition npmax (l : list T) : res T :=
  match l with nil => Raise ValueError | cons a r => Ok (fold_left npmax2 r a) end.
(** Python's built-in [min]: keeps the first element unless a later one is strictly smaller. *)
Definition pymin (l : list T) : res T :=
  match l with nil => Raise ValueError | cons a r => Ok (fold_left (fun m x => if nltb x m then x else m) r a) end.
End NpMax.
