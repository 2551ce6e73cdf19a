(** * C90: flae on noisy measurements *)
From Coq Require Import Reals ZArith List Bool Lra Psatz.
From Verif Require Import Num Vec M_vector M_quaternion M_att S_rot S_wahba P_quat P_triad P_flae P_wahba P_wahba2 P_opt.
Import ListNotations.
Local Open Scope R_scope.

(** there always is an optimum *)
Theorem C90_optimum_exists : forall (l : list (R * v3 * v3)), weighted l -> exists v, optimum l v.
Proof. exact optimum_exists. Qed.
Print Assumptions C90_optimum_exists.

(** Newton's iteration never falls below the largest eigenvalue 1 - (least loss), so it cannot pick another root,
    it stops within 3.0045e-5 above it, and the elimination that follows divides by three numbers that are not zero. *)
Theorem C90_root : forall (l : list (R * v3 * v3)) (v q : quat), weighted l -> optimum l v -> sole l v -> qz v <> 0 -> flae l = Ok q ->
  exists lam, 1 - wahba l v <= lam <= 1 /\ lam <= 1 - wahba l v + 30045 / 1000000000 /\
  let l' := map (fun '(a, r, b) => (a, direction r, direction b)) l in
  let W := flae_W (Hrow l' x3) (Hrow l' y3) (Hrow l' z3) in
  q = kernel_quat W lam /\ (let '(p0, p1, p2) := pivots (shift W lam) in p0 <> 0 /\ p1 <> 0 /\ p2 <> 0).
Proof.
  intros l v q HW HO SO VZ E. destruct (flae_result l v HW HO q E) as (t & Eq & B & A). exists (1 - wahba l v + t). assert (C := accepted_coarse _ _ _ _ _ A). split; [lra|]. split; [lra|]. cbv zeta.
  replace (map _ l) with (normed l).
  - split; [exact Eq|]. apply (sole_pivots l v HW HO t (proj1 B) VZ SO).
  - unfold normed. apply map_ext_in. intros [[a r] b] I. destruct HW as [F _]. rewrite Forall_forall in F. destruct (F _ I) as (_ & Rn & Bn). rewrite !direction_eq by assumption. reflexivity.
Qed.
Print Assumptions C90_root.

(** Whenever flae returns, its attitude is a unit quaternion whose loss exceeds the least possible loss by at most
    3.0045e-5 times a factor that depends on the last component of the optimum only. *)
Theorem C90_flae_optimal : forall (l : list (R * v3 * v3)) (v q : quat), weighted l -> optimum l v -> sole l v -> qz v <> 0 -> flae l = Ok q ->
  unitq q /\ wahba l v <= wahba l q <= wahba l v + 30045 / 1000000000 * (1 / qz v ^ 2 - 1).
Proof.
  intros l v q HW HO SO VZ E. destruct (flae_result l v HW HO q E) as (t & -> & B & A). destruct (accepted_coarse _ _ _ _ _ A) as [C0 C1].
  destruct (quality l v HW HO t C0 VZ (sole_pivots l v HW HO t C0 VZ SO)) as [U Q]. split; [exact U|]. split; [apply HO, U|].
  assert (WL := wahba_loss l v HW _ U). assert (F : 0 <= 1 / qz v ^ 2 - 1).
  { assert (V1 := last_le v). rewrite (proj1 HO) in V1. assert (V0 := Rsqr_pos_lt _ VZ). unfold Rsqr in V0. replace (1 / qz v ^ 2 - 1) with ((1 - qz v * qz v) / (qz v * qz v)) by (field; exact VZ). apply Rmult_le_pos; [lra|]. left. apply Rinv_0_lt_compat, V0. }
  assert (t * (1 / qz v ^ 2 - 1) <= 30045 / 1000000000 * (1 / qz v ^ 2 - 1)) by (apply Rmult_le_compat_r; assumption). lra.
Qed.
Print Assumptions C90_flae_optimal.

(** If attitudes half a turn from the optimum lose g more and the least loss is at most g^3 / 40, flae does return, and
    its attitude is within 1e-8 / g^4 of the optimum: 1 - (v . q)^2 is the squared sine of half the angle between them. *)
Theorem C90_flae_converges : forall (l : list (R * v3 * v3)) (v : quat) g, weighted l -> optimum l v -> 0 < g -> gap l v g -> qz v <> 0 -> 40 * wahba l v <= g ^ 3 ->
  exists q, flae l = Ok q /\ unitq q /\ wahba l q - wahba l v <= 1 / 100000000 / g ^ 3 * (1 / qz v ^ 2 - 1) /\
  1 - dotq v q ^ 2 <= 1 / 100000000 / g ^ 4 * (1 / qz v ^ 2 - 1).
Proof.
  intros l v g HW HO G0 GG VZ GW. destruct (flae_returns l v HW HO g G0 VZ GG GW) as [q E]. exists q. split; [exact E|].
  destruct (flae_result l v HW HO q E) as (t & -> & B & A). destruct (quality l v HW HO t (proj1 B) VZ (sole_pivots l v HW HO t (proj1 B) VZ (gap_sole l v HW HO g G0 GG))) as [U Q]. split; [exact U|].
  set (q := kernel_quat _ _) in *. assert (WL := wahba_loss l v HW _ U). destruct (lam_coeffs l v HW HO) as ([A1 A2] & A3 & _ & _ & A6). assert (LT := lam_trace l v HW HO). assert (LL := lam_le1 l v HW).
  assert (S := accepted_small (1 - wahba l v) (4 * (1 - wahba l v)) _ _ g t ltac:(lra) (conj A1 A2) G0 (A6 g G0 VZ GG) A (proj1 B)). assert (G3 : 0 < g ^ 3) by (apply pow_lt, G0).
  assert (TB : t <= 1 / 100000000 / g ^ 3). { apply (Rmult_le_reg_l (g ^ 3)); [exact G3|]. replace (g ^ 3 * (1 / 100000000 / g ^ 3)) with (1 / 100000000) by (field; lra). exact S. }
  assert (F : 0 <= 1 / qz v ^ 2 - 1).
  { assert (V1 := last_le v). rewrite (proj1 HO) in V1. assert (V0 := Rsqr_pos_lt _ VZ). unfold Rsqr in V0. replace (1 / qz v ^ 2 - 1) with ((1 - qz v * qz v) / (qz v * qz v)) by (field; exact VZ). apply Rmult_le_pos; [lra|]. left. apply Rinv_0_lt_compat, V0. }
  assert (K : t * (1 / qz v ^ 2 - 1) <= 1 / 100000000 / g ^ 3 * (1 / qz v ^ 2 - 1)) by (apply Rmult_le_compat_r; assumption). split; [lra|].
  assert (GF := gap_form l v HW HO g G0 GG q). rewrite form_shift, U in GF. apply (Rmult_le_reg_l g); [exact G0|]. replace (g * (1 / 100000000 / g ^ 4 * (1 / qz v ^ 2 - 1))) with (1 / 100000000 / g ^ 3 * (1 / qz v ^ 2 - 1)) by (field; split; [exact VZ|lra]). lra.
Qed.
Print Assumptions C90_flae_converges.

(** Six contradictory measurements have one best attitude -- half a turn about z -- and every attitude half a turn from it
    loses 2/15 more, yet four Newton steps do not suffice and flae raises. *)
Definition l6 : list (R * v3 * v3) :=
  [(9/60, ex, ex); (11/60, ex, mk3 (-1) 0 0); (9/60, ey, ey); (11/60, ey, mk3 0 (-1) 0); (11/60, ez, ez); (9/60, ez, mk3 0 0 (-1))].
Lemma direction_of_unit v : dot3 v v = 1 -> direction v = v.
Proof.
  intros H. unfold direction. replace (x3 v * x3 v + y3 v * y3 v + z3 v * z3 v) with 1 by (rewrite <- H; destruct v as [a b c]; vunfoldg; rnumg; reflexivity). rewrite sqrt_1. destruct v as [a b c]. cbn [x3 y3 z3]. apply mk3_c; field.
Qed.
Lemma unit_nz (v : v3) : dot3 v v = 1 -> v <> zero3. Proof. intros H ->. unfold zero3 in H. vunfold. rnum. lra. Qed.
Definition unit_meas (l : list (R * v3 * v3)) : Prop := Forall (fun '(a, r, b) => 0 <= a /\ dot3 r r = 1 /\ dot3 b b = 1) l.
Lemma unit_weighted l : unit_meas l -> fold_right (fun '(a, r, b) s => a + s) 0 l = 1 -> weighted l /\ normed l = l /\
  forall x, unitq x -> wahba l x = 1 - fold_right (fun '(a, r, b) s => a * dot3 b (sandwich x r) + s) 0 l.
Proof.
  intros F S. assert (HW : weighted l). { split; [|exact S]. eapply Forall_impl; [|exact F]. intros [[a r] b] (A & B & C). repeat split; [exact A| |]; apply unit_nz; assumption. }
  assert (N : normed l = l). { unfold normed. rewrite <- (map_id l) at 2. apply map_ext_in. intros [[a r] b] I. unfold unit_meas in F. rewrite Forall_forall in F. destruct (F _ I) as (_ & B & C).
    rewrite !direction_eq by (apply unit_nz; assumption). rewrite !direction_of_unit by assumption. reflexivity. }
  split; [exact HW|]. split; [exact N|]. intros x U. rewrite (wahba_gain l x HW U), N. f_equal. unfold form. rewrite mulW_sum, dotq_qsum. clear. induction l as [|k l IH]; [reflexivity|]. cbn [rsumf fold_right].
  unfold rsumf in IH. rewrite IH, W1_form. destruct k as [[a r] b]. reflexivity.
Qed.
Lemma l6_facts : weighted l6 /\ normed l6 = l6 /\ forall x, unitq x -> wahba l6 x = 1 - (1 / 10 * (qz x * qz x) - 1 / 30 * (qw x * qw x + qx x * qx x + qy x * qy x)).
Proof.
  destruct (unit_weighted l6) as (A & B & C).
  - unfold l6, unit_meas. repeat (apply Forall_cons; [split; [lra|split; unfold ex, ey, ez; vunfoldg; rnumg; field]|]); apply Forall_nil.
  - unfold l6. cbn [fold_right]. lra.
  - split; [exact A|]. split; [exact B|]. intros x U. rewrite (C x U). f_equal. unfold l6. cbn [fold_right]. destruct x as [w x y z]. cbn [qw qx qy qz]. unfold sandwich, product, conjugate, ex, ey, ez. vunfoldg. rnumg. field.
Qed.
Lemma l6_gap : optimum l6 (mkq 0 0 0 1) /\ gap l6 (mkq 0 0 0 1) (2 / 15).
Proof.
  destruct l6_facts as (_ & _ & C). assert (U0 : unitq (mkq 0 0 0 1)) by (unfold unitq; vunfold; rnum; ring). split; [split; [exact U0|]|].
  - intros x U. rewrite (C _ U0), (C _ U). destruct x as [w x y z]. unfold unitq in U. vunfold. rnum. cbn [qw qx qy qz]. nra.
  - intros x U D. rewrite (C _ U0), (C _ U). destruct x as [w x y z]. unfold unitq in U. vunfold. rnum. cbn [qw qx qy qz]. assert (z = 0) as -> by lra. lra.
Qed.
Theorem C90_no_convergence_refuted : weighted l6 /\ optimum l6 (mkq 0 0 0 1) /\ gap l6 (mkq 0 0 0 1) (2 / 15) /\ flae l6 = Raise RuntimeError.
Proof.
  destruct l6_facts as (A & B & _). split; [exact A|]. split; [apply l6_gap|]. split; [apply l6_gap|].
  unfold flae. fold (normed l6). rewrite B. assert (X : Hrow l6 x3 = mk3 (-1/30) 0 0) by (unfold Hrow, sum_across, l6, ex, ey, ez; cbn [fold_left x3 y3 z3]; rnumg; apply mk3_c; field).
  assert (Y : Hrow l6 y3 = mk3 0 (-1/30) 0) by (unfold Hrow, sum_across, l6, ex, ey, ez; cbn [fold_left x3 y3 z3]; rnumg; apply mk3_c; field).
  assert (Z : Hrow l6 z3 = mk3 0 0 (1/30)) by (unfold Hrow, sum_across, l6, ex, ey, ez; cbn [fold_left x3 y3 z3]; rnumg; apply mk3_c; field). rewrite X, Y, Z.
  set (F := quartic _ _ _). set (F' := quartic' _ _).
  assert (HF : forall t, F (1 / 10 + t) = t * (t + 2 / 15) ^ 3). { intros t. unfold F, quartic, tau1, tau2, tau3, flae_W. m4unfold. vunfoldg. rnumg. field. }
  assert (HF' : forall t, F' (1 / 10 + t) = (4 * t + 2 / 15) * (t + 2 / 15) ^ 2). { intros t. unfold F', quartic', tau1, tau2. vunfoldg. rnumg. field. }
  clearbody F F'. assert (ST : forall n t, 3 / 10 <= t <= 9 / 10 -> exists t', newton F F' (1 / 100000) (148 / 10000000000) (S n) (1 / 10 + t) = newton F F' (1 / 100000) (148 / 10000000000) n (1 / 10 + t') /\ (3 * t - 2 / 15) / 4 <= t' <= t).
  { intros n t T. cbn [newton]. rnumg. assert (P2 : 0 < (t + 2 / 15) ^ 2) by (apply pow_lt; lra). assert (P3 : 0 < (t + 2 / 15) ^ 3) by (apply pow_lt; lra). destruct (Reqb_spec (F (1 / 10 + t)) 0) as [Z0|_]; [rewrite HF in Z0; exfalso; nra|].
    destruct (Reqb_spec (F' (1 / 10 + t)) 0) as [Z0|_]; [rewrite HF' in Z0; exfalso; nra|]. set (s := t * (t + 2 / 15) / (4 * t + 2 / 15)). assert (SE : F (1 / 10 + t) / F' (1 / 10 + t) = s) by (rewrite HF, HF'; unfold s; field; lra). rewrite SE.
    assert (SM : s * (4 * t + 2 / 15) = t * (t + 2 / 15)) by (unfold s; field; lra). assert (S1 : s <= (t + 2 / 15) / 4) by nra. assert (S2 : t / 4 <= s) by nra.
    destruct (Rleb_spec (Rabs (1 / 10 + t - s - (1 / 10 + t))) (148 / 10000000000 + 1 / 100000 * Rabs (1 / 10 + t))) as [Q|_].
    - exfalso. replace (1 / 10 + t - s - (1 / 10 + t)) with (- s) in Q by ring. rewrite Rabs_Ropp, !Rabs_pos_eq in Q by lra. lra.
    - exists (t - s). split; [f_equal; ring|lra]. }
  change (nofZ 1) with 1. change (ndec 1 100000) with (1 / 100000). change (ndec 148 10000000000) with (148 / 10000000000).
  destruct (ST 3%nat (9 / 10) ltac:(lra)) as (t1 & E1 & B1). destruct (ST 2%nat t1 ltac:(lra)) as (t2 & E2 & B2). destruct (ST 1%nat t2 ltac:(lra)) as (t3 & E3 & B3). destruct (ST 0%nat t3 ltac:(lra)) as (t4 & E4 & B4).
  assert (E0 : newton F F' (1 / 100000) (148 / 10000000000) 4 1 = Raise RuntimeError). { replace (newton F F' (1 / 100000) (148 / 10000000000) 4 1) with (newton F F' (1 / 100000) (148 / 10000000000) 4 (1 / 10 + 9 / 10)) by (f_equal; field). rewrite E1, E2, E3, E4. reflexivity. }
  rewrite E0. reflexivity.
Qed.
Print Assumptions C90_no_convergence_refuted.

(** two measurements taken at the attitude (3/5, 0, 0, 4/5), one turned by plus, the other by minus 5.7 degrees *)
Definition l2 : list (R * v3 * v3) := [(1/2, ex, mk3 (-1833/10025) (-9856/10025) 0); (1/2, ey, mk3 (9296/10025) (-3753/10025) 0)].
Example C90_ex : let v := mkq (3/5) 0 0 (4/5) in
  weighted l2 /\ optimum l2 v /\ sole l2 v /\ gap l2 v (359/401) /\ wahba l2 v = 2/401 /\ 40 * wahba l2 v <= (359/401) ^ 3 /\ exists q, flae l2 = Ok q.
Proof.
  intros v. destruct (unit_weighted l2) as (A & _ & C).
  - unfold l2, unit_meas. repeat (apply Forall_cons; [split; [lra|split; unfold ex, ey, ez; vunfoldg; rnumg; field]|]); apply Forall_nil.
  - unfold l2. cbn [fold_right]. lra.
  - assert (G : forall x, unitq x -> wahba l2 x = 1 - (399/401 * ((3/5 * qw x + 4/5 * qz x) ^ 2 - (3/5 * qz x - 4/5 * qw x) ^ 2) + 80/401 * (3/5 * qx x - 4/5 * qy x) * (3/5 * qy x + 4/5 * qx x))).
    { intros x U. rewrite (C x U). f_equal. unfold l2. cbn [fold_right]. destruct x as [w x y z]. cbn [qw qx qy qz]. unfold sandwich, product, conjugate, ex, ey. vunfoldg. rnumg. field. }
    assert (U0 : unitq v) by (unfold v, unitq; vunfold; rnum; lra). assert (W0 : wahba l2 v = 2 / 401) by (rewrite (G v U0); unfold v; cbn [qw qx qy qz]; lra).
    assert (P : forall x, unitq x -> exists a b c d, dotq v x = a /\ a ^ 2 + b ^ 2 + c ^ 2 + d ^ 2 = 1 /\ wahba l2 x = 1 - (399/401 * (a ^ 2 - d ^ 2) + 80/401 * b * c)).
    { intros x U. exists (3/5 * qw x + 4/5 * qz x), (3/5 * qx x - 4/5 * qy x), (3/5 * qy x + 4/5 * qx x), (3/5 * qz x - 4/5 * qw x). split; [|split; [|exact (G x U)]].
      - unfold v. destruct x as [w x y z]. vunfoldg. rnumg. cbn [qw qx qy qz]. ring.
      - unfold unitq in U. rewrite <- U. destruct x as [w x y z]. vunfoldg. rnumg. cbn [qw qx qy qz]. field. }
    assert (O : optimum l2 v). { split; [exact U0|]. intros x U. rewrite W0. destruct (P x U) as (a & b & c & d & _ & N & ->). assert (0 <= (b - c) ^ 2) by apply pow2_ge_0. assert (0 <= b ^ 2) by apply pow2_ge_0. assert (0 <= c ^ 2) by apply pow2_ge_0. assert (0 <= d ^ 2) by apply pow2_ge_0. lra. }
    assert (GG : gap l2 v (359/401)). { intros x U D. rewrite W0. destruct (P x U) as (a & b & c & d & E & N & ->). rewrite D in E. rewrite <- E in *. assert (0 <= (b - c) ^ 2) by apply pow2_ge_0. assert (0 <= d ^ 2) by apply pow2_ge_0. lra. }
    split; [exact A|]. split; [exact O|]. split; [apply (gap_sole l2 v A O (359/401)); [lra|exact GG]|]. split; [exact GG|]. split; [exact W0|]. assert (K : 40 * wahba l2 v <= (359/401) ^ 3) by (rewrite W0; lra). split; [exact K|].
    destruct (C90_flae_converges l2 v (359/401) A O ltac:(lra) GG ltac:(unfold v; cbn [qz]; lra) K) as (q & E & _). exists q. exact E.
Qed.
