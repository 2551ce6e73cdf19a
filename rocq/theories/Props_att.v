(** * Properties of functions/attitude_estimation.py *)
From Coq Require Import Reals ZArith List Bool Lra Psatz.
From Flocq Require Import Core BinarySingleNaN.
From Verif Require Import Num Flt Vec M_vector M_quaternion M_att S_rot P_quat P_triad P_flae.
Import ListNotations.
Local Open Scope R_scope.

(** C14.  Two exact vector measurements determine the attitude. *)
Theorem C14_triad : forall (p : quat) (r1 r2 b1 b2 : v3), unitq p -> unit3 r1 -> cross3 r1 r2 <> zero3 ->
  b1 = sandwich p r1 -> b2 = sandwich p r2 -> b1 <> opp3 r1 ->
  let q := triad_algorithm r1 r2 b1 b2 in
  unitq q /\ (forall v, sandwich q v = sandwich p v) /\ sandwich q r1 = b1 /\ sandwich q r2 = b2 /\ (q = p \/ q = oppq p).
Proof.
  intros p r1 r2 b1 b2 Hp Hr Hn E1 E2 Hb q. destruct (triad_ok r1 r2 b1 b2 p Hp Hr Hn E1 E2 Hb) as [U A]. fold q in U, A.
  split; [exact U|]. split; [exact A|]. split; [rewrite A; symmetry; exact E1|]. split; [rewrite A; symmetry; exact E2|].
  exact (sandwich_sign q p U Hp A).
Qed.
Print Assumptions C14_triad.
Example C14_ex : let p := mkq (3/5) 0 0 (4/5) in unitq p /\ unit3 (mk3 1 0 0) /\ cross3 (mk3 1 0 0) (mk3 0 2 1) <> zero3 /\
  sandwich p (mk3 1 0 0) <> opp3 (mk3 1 0 0).
Proof.
  unfold unitq, unit3, sandwich, product, conjugate; vunfold; rnum; repeat split; try field; intros E; injection E; lra.
Qed.
(** Degenerate input.  Parallel vectors, or b1 = -r1: the guards compare identities and never fire; in binary64 every
    component of the result is NaN. *)
Definition nanq (q : Q4 b64) : bool := is_nan (qw q) && is_nan (qx q) && is_nan (qy q) && is_nan (qz q).
Definition zv (a b c : Z) : V3 b64 := mk3 (fofZ a) (fofZ b) (fofZ c).
Theorem C14_degenerate_refuted :
  nanq (triad_algorithm (zv 1 0 0) (zv 2 0 0) (zv 0 1 0) (zv 0 2 0)) = true /\
  nanq (triad_algorithm (zv 1 0 0) (zv 0 1 0) (zv (-1) 0 0) (zv 0 1 0)) = true.
Proof. split; vm_compute; reflexivity. Qed.
Print Assumptions C14_degenerate_refuted.
(** over the reals the divisor is zero in every degenerate case *)
Theorem C14_degenerate_divisor : forall r1 r2 b1 b2 : v3,
  cross3 r1 r2 = zero3 \/ cross3 b1 b2 = zero3 \/ (unit3 r1 /\ b1 = opp3 r1) ->
  let r3 := cross3 r1 r2 in let b3 := cross3 b1 b2 in
  let mu := (1 + dot3 b1 r1) * dot3 b3 r3 - dot3 b1 r3 * dot3 r1 b3 in
  let nu := dot3 (add3 b1 r1) (cross3 b3 r3) in
  sqrt (mu * mu + nu * nu) * (1 + dot3 b1 r1) = 0.
Proof.
  intros r1 r2 b1 b2 H. cbv zeta. destruct H as [->|[->|[U ->]]].
  - replace (_ * _ + _ * _) with 0; [rewrite sqrt_0; ring|]. vring.
  - replace (_ * _ + _ * _) with 0; [rewrite sqrt_0; ring|]. vring.
  - replace (dot3 (opp3 r1) r1) with (- dot3 r1 r1) by vring. rewrite U. ring.
Qed.
Print Assumptions C14_degenerate_divisor.
Example C14_degenerate_ex : cross3 (mk3 1 0 0) (mk3 2 0 0) = zero3.
Proof. vunfold; rnum; apply mk3_c; ring. Qed.

(** C15.  FLAE: the quartic is the characteristic polynomial of W, for any number of measurements. *)
Theorem C15_charpoly : forall (l : list meas) lam,
  let Hx := Hrow l x3 in let Hy := Hrow l y3 in let Hz := Hrow l z3 in
  quartic (tau1 Hx Hy Hz) (tau2 Hx Hy Hz) (tau3 Hx Hy Hz) lam = det4 (shift (flae_W Hx Hy Hz) lam).
Proof. intros. symmetry. apply charpoly. Qed.
Print Assumptions C15_charpoly.
(** W represents the gain function: x^T W x = sum_k a_k b_k . (x acting on r_k) *)
Theorem C15_gain : forall (l : list meas) (x : quat),
  dotq x (mulW (Wof l) x) = fold_right (fun '(a, r, b) s => a * dot3 b (sandwich x r) + s) 0 l.
Proof.
  intros l x. rewrite mulW_sum, dotq_qsum. induction l as [|k l IH]; [reflexivity|]. cbn [rsumf fold_right].
  unfold rsumf in IH. rewrite IH, W1_form. destruct k as [[a r] b]. reflexivity.
Qed.
Print Assumptions C15_gain.
(** if lam is a root and no pivot is zero the result is a unit eigenvector *)
Theorem C15_eigenvector : forall (W : m4) lam, det4 (shift W lam) = 0 ->
  (let '(p0, p1, p2) := pivots (shift W lam) in p0 <> 0 /\ p1 <> 0 /\ p2 <> 0) ->
  unitq (kernel_quat W lam) /\ mulW W (kernel_quat W lam) = scaleq lam (kernel_quat W lam).
Proof. exact (fun W lam HD HP => kernel_quat_eigen W lam HP HD). Qed.
Print Assumptions C15_eigenvector.
(** Error-free measurements of attitude q with a non-zero last component: positive weights adding up to one, every body
    vector a positive multiple of the rotated reference, two references not parallel: flae returns q up to sign. *)
Theorem C15_error_free : forall (q : quat) (l : list (R * v3 * v3)), unitq q -> qz q <> 0 ->
  Forall (fun '(a, r, b) => 0 < a /\ r <> zero3 /\ exists c, 0 < c /\ b = scale3 c (sandwich q r)) l ->
  fold_right (fun '(a, r, b) s => a + s) 0 l = 1 ->
  (exists a r b a' r' b', In (a, r, b) l /\ In (a', r', b') l /\ cross3 r r' <> zero3) ->
  flae l = Ok q \/ flae l = Ok (oppq q).
Proof.
  intros q l Hq Hz HF HS (a & r & b & a' & r' & b' & I1 & I2 & NP).
  assert (F : Forall (error_free q) l) by (eapply Forall_impl; [|exact HF]; intros [[? ?] ?]; exact (fun H => H)).
  assert (S : rsumf ma l = 1). { rewrite <- HS. clear. induction l as [|[[? ?] ?] l IH]; [reflexivity|]. cbn [rsumf fold_right]. rewrite <- IH. reflexivity. }
  apply flae_exact; try assumption; [exact (normed_exact q l Hq F S)|].
  apply normed_np. { eapply Forall_impl; [|exact F]. intros k (_ & H & _). exact H. }
  exists (a, r, b), (a', r', b'). auto.
Qed.
Print Assumptions C15_error_free.
(** ... but with last component zero -- the identity attitude among them -- a pivot is zero. *)
Theorem C15_zero_pivot_refuted : forall (q : quat) (l : list (R * v3 * v3)), unitq q -> qz q = 0 ->
  Forall (fun '(a, r, b) => 0 < a /\ r <> zero3 /\ exists c, 0 < c /\ b = scale3 c (sandwich q r)) l ->
  fold_right (fun '(a, r, b) s => a + s) 0 l = 1 ->
  let l' := map (fun '(a, r, b) => (a, normalize3 r, normalize3 b)) l in
  let W := flae_W (Hrow l' x3) (Hrow l' y3) (Hrow l' z3) in
  flae l = Ok (kernel_quat W 1) /\
  ~ (let '(p0, p1, p2) := pivots (shift W 1) in p0 <> 0 /\ p1 <> 0 /\ p2 <> 0).
Proof.
  intros q l Hq Hz HF HS l' W.
  assert (F : Forall (error_free q) l) by (eapply Forall_impl; [|exact HF]; intros [[? ?] ?]; exact (fun H => H)).
  assert (S : rsumf ma l = 1). { rewrite <- HS. clear. induction l as [|[[? ?] ?] l IH]; [reflexivity|]. cbn [rsumf fold_right]. rewrite <- IH. reflexivity. }
  assert (X := normed_exact q l Hq F S). split.
  - unfold flae. change (nofZ 1) with 1. rewrite (newton_root _ _ _ _ 3 1 (exact_quartic q _ Hq X)). reflexivity.
  - apply (zero_pivot _ q); [|intros E; unfold unitq in Hq; rewrite E in Hq; unfold zeroq in Hq; vunfold; rnum; lra|exact Hz].
    change W with (Wof (normed l)). rewrite mulW_shift, (exact_eigen q _ Hq X). unfold zeroq. clear. mring.
Qed.
Print Assumptions C15_zero_pivot_refuted.
(** binary64: three axes seen from the identity attitude give a NaN quaternion *)
Theorem C15_identity_nan_refuted :
  (match flae [(fdec 1 2, zv 1 0 0, zv 1 0 0); (fdec 1 2, zv 0 1 0, zv 0 1 0)] with Ok q => nanq q | _ => false end) = true.
Proof. vm_compute; reflexivity. Qed.
Print Assumptions C15_identity_nan_refuted.
Example C15_ex : let q := mkq (3/5) 0 0 (4/5) in unitq q /\ qz q <> 0 /\
  Forall (fun '(a, r, b) => 0 < a /\ r <> zero3 /\ exists c, 0 < c /\ b = scale3 c (sandwich q r))
    [(1/4, mk3 1 0 0, sandwich q (mk3 1 0 0)); (3/4, mk3 0 2 1, scale3 2 (sandwich q (mk3 0 2 1)))] /\
  cross3 (mk3 1 0 0) (mk3 0 2 1) <> zero3.
Proof.
  cbv zeta. split; [unfold unitq; vunfold; rnum; field|]. split; [cbn; lra|]. split.
  - constructor; [|constructor; [|constructor]].
    + split; [lra|]. split; [unfold zero3; rnumg; intros E; injection E; lra|]. exists 1. split; [lra|symmetry; apply scale3_1].
    + split; [lra|]. split; [unfold zero3; rnumg; intros E; injection E; lra|]. exists 2. split; [lra|reflexivity].
  - vunfold; rnum; intros E; injection E; lra.
Qed.
