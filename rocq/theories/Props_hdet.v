(** * C129: detumbling with the moment held over a control period *)
From Coq Require Import Reals ZArith List Bool Arith Lra Psatz Lia.
From Coquelicot Require Import Coquelicot.
From Verif Require Import Num Vec M_vector M_quaternion M_struct M_env M_dyn M_ctrl S_rot S_dyn P_quat P_wheel P_dyn P_dyn2 P_ctrl2 P_tot3 P_posf P_detum P_detum2 P_samp P_hdet Props_detum.
From Verif Require Import P_picard P_who6 P_who7 P_hdet2.
From Verif Require Props_samp P_loop3.
Import ListNotations.
Local Open Scope R_scope.

(** detumble is called at time t0 with the field and the rate of that moment; the moment it asks for (before distribute) is held, fixed in the body,
    until t1.  Wheels at rest, no torque but the magnetic one.  The motion of the period is the restriction of one defined on a little more than the period *)
Definition kept_moment (sat : Satellite) (B F : R -> v3) (y : R -> SVec) (t0 t1 : R) : Prop :=
  exists z accl a b, a < t0 /\ t1 < b /\ (forall t, t0 <= t <= t1 -> y t = z t) /\
    forall t, a < t < b -> deriv_sv z t (derivative sat (z t) (F t) (cross3 (mag_moment_cmd (seen B y t0) (detumble_torque sat (v_rate (y t0)))) (seen B z t)) zero3 zero3 (accl t)).
(** sum of the squared sines between the direction of v and the field at p consecutive calls, from the n-th on *)
Definition sines (B : R -> v3) (h : R) (n p : nat) (v : v3) : R :=
  fold_right Rplus 0 (map (fun i => let b := B (INR i * h) in dot3 (cross3 v b) (cross3 v b) / dot3 b b) (seq n p)).

Lemma fold_end l a : fold_right Rplus a l = fold_right Rplus 0 l + a.
Proof. induction l as [|x l IH]; cbn [fold_right]; [ring|]. rewrite IH. ring. Qed.
Lemma sines_psum B h n p v : sines B h n p v = psum (fun i => across v (B (INR (n + i) * h))) p.
Proof.
  induction p as [|p IH]; [reflexivity|]. cbn [psum]. rewrite <- IH. unfold sines. rewrite seq_S, map_app, fold_right_app, fold_end. cbn [map fold_right]. rewrite Rplus_0_r. reflexivity.
Qed.
Lemma psum_ext f g n : (forall i, f i = g i) -> psum f n = psum g n.
Proof. intros E. induction n as [|n IH]; cbn [psum]; [reflexivity|]. rewrite IH, E. reflexivity. Qed.
Lemma psum_scale k f n : psum (fun i => k * f i) n = k * psum f n.
Proof. induction n as [|n IH]; cbn [psum]; [ring|]. rewrite IH. ring. Qed.
Lemma sines_any B h p c : (forall n v, unit3 v -> c * INR p <= sines B h n p v) -> forall n v, c * INR p * dot3 v v <= psum (fun i => across v (B (INR (n + i) * h))) p.
Proof.
  intros PE n v. destruct (Req_dec (dot3 v v) 0) as [Z|Z].
  - assert (V : v = zero3) by (apply dot3_zero, Z). subst v. rewrite Z, (psum_ext _ (fun _ => 0 * 0)) by (intros i; rewrite across_zero; ring). rewrite psum_scale. lra.
  - assert (P : 0 < dot3 v v) by (assert (Q := dot3_nonneg v); lra). set (m := norm3 v). assert (mm : m * m = dot3 v v) by apply P_quat.norm3_sq. assert (mp : 0 < m) by (assert (Q := norm3_pos v); fold m in Q; nra).
    assert (U : unit3 (scale3 (/ m) v)). { unfold unit3. transitivity (/ m * / m * dot3 v v); [destruct v as [a b d]; vunfoldg; rnumg; ring|]. rewrite <- mm. field. lra. }
    assert (X := PE n _ U). rewrite sines_psum in X. rewrite (psum_ext _ (fun i => / m * / m * across v (B (INR (n + i) * h)))) in X by (intros i; apply across_scale). rewrite psum_scale in X.
    set (q := psum _ p) in *. rewrite <- mm. replace q with (m * m * (/ m * / m * q)) by (field; lra). replace (c * INR p * (m * m)) with (m * m * (c * INR p)) by ring. apply Rmult_le_compat_l; [nra|exact X].
Qed.

(** what one period does to the momentum seen from space *)
Definition space_momentum (sat : Satellite) (y : R -> SVec) (t : R) : v3 := sandwich_opp (v_att (y t)) (spin_of sat y t).
Lemma sopp_norm (q : quat) (v : v3) : unitq q -> norm3 (sandwich_opp q v) = norm3 v.
Proof. intros U. unfold norm3. rewrite (turned_norm q v U). reflexivity. Qed.
Lemma one_period sat B F y t0 h L N be : det3 (s_total_moment sat) <> 0 -> (forall t, B t <> zero3) -> 0 < h -> 0 <= be -> 0 <= L -> 0 <= N ->
  (forall v, norm3 (mv (s_inv_tot sat) v) <= L * norm3 v) -> (forall t, t0 <= t <= t0 + h -> norm3 (sub3 (B t) (B t0)) <= be * (t - t0) * norm3 (B t0)) ->
  K_BBQ * h <= 1 / 2 -> be * h <= 1 -> unitq (v_att (y t0)) -> kept_moment sat B F y t0 (t0 + h) ->
  (forall t, t0 <= t <= t0 + h -> unitq (v_att (y t))) /\
  (norm3 (space_momentum sat y t0) <= 2 * N ->
   (forall t, t0 <= t <= t0 + h -> norm3 (space_momentum sat y t) <= 2 * norm3 (space_momentum sat y t0)) /\
   norm3 (sub3 (space_momentum sat y (t0 + h)) (cut (K_BBQ * h) (B t0) (space_momentum sat y t0))) <= K_BBQ * (h * h) * (8 * L * N + be) * norm3 (space_momentum sat y t0)).
Proof.
  intros DJ NB Hh Hbe HL HN NL LB KH BH U0 (z & accl & a & b & A0 & B0 & EQ & D). assert (kp := K_pos). set (m := mag_moment_cmd (seen B y t0) (detumble_torque sat (v_rate (y t0)))) in *.
  assert (Z0 : y t0 = z t0) by (apply EQ; lra).
  assert (DQ : forall t, a < t < b -> derivq (fun u => v_att (z u)) t (scaleq 0.5 (product (v_att (z t)) (pure (v_rate (z t)))))) by (intros t Ht; destruct (D t Ht) as (_ & _ & X & _); exact X).
  assert (UN : forall t, a < t < b -> unitq (v_att (z t))).
  { intros t Ht. unfold unitq. rewrite <- U0, Z0. apply (const_of_deriv (fun u => dotq (v_att (z u)) (v_att (z u))) a b); [|lra|lra].
    intros v Hv. eapply d_eq; [apply d_dotq; exact (DQ v Hv)|]. cbv beta. generalize (v_att (z v)) (v_rate (z v)). clear. intros [p q r s] [x y z]. unfold pure, product. replace 0.5 with (1/2) by lra. vunfoldg; cbn [x3 y3 z3 qw qx qy qz]; rnumg. field. }
  assert (IN : forall t, t0 <= t <= t0 + h -> a < t < b) by (intros t Ht; lra).
  assert (SM : forall t, t0 <= t <= t0 + h -> space_momentum sat y t = space_momentum sat z t) by (intros t Ht; unfold space_momentum, spin_of; rewrite (EQ t Ht); reflexivity).
  split; [intros t Ht; rewrite (EQ t Ht); apply UN, IN, Ht|]. rewrite !SM by lra. intros N0.
  set (H := space_momentum sat z) in *. set (M := fun t => sandwich_opp (v_att (z t)) m).
  assert (DH : forall t, t0 <= t <= t0 + h -> deriv3 H t (cross3 (M t) (B t))).
  { intros t Ht. assert (U := UN t (IN t Ht)). destruct (D t (IN t Ht)) as (_ & _ & _ & DW & _). unfold derivative in DW. cbn [v_rate] in DW.
    assert (DHh := d3_mv (s_total_moment sat) _ t _ DW). unfold s_inv_tot in DHh. rewrite mv_inv3 in DHh by exact DJ. cbv beta in DHh.
    eapply d3_eq; [apply (d3_sandwich_opp _ (spin_of sat z) t _ (v_rate (z t)) (DQ t (IN t Ht)) DHh)|]. destruct (sandwich_opp_rigid _ U) as (_ & R2 & _ & _).
    rewrite <- (sandwich_opp_sandwich (v_att (z t)) (B t) U) at 1. unfold M. rewrite R2. change (sandwich (v_att (z t)) (B t)) with (seen B z t). f_equal. change (mv (s_total_moment sat) (v_rate (z t))) with (spin_of sat z t).
    generalize (spin_of sat z t) (v_rate (z t)) (cross3 m (seen B z t)). clear. intros [h1 h2 h3] [w1 w2 w3] [b1 b2 b3]. vunfoldg. cbn [x3 y3 z3]. rnumg. apply mk3_c; ring. }
  assert (DM : forall t, t0 <= t <= t0 + h -> deriv3 M t (sandwich_opp (v_att (z t)) (add3 zero3 (cross3 (v_rate (z t)) m)))) by (intros t Ht; apply (d3_sandwich_opp _ (fun _ => m) t _ (v_rate (z t)) (DQ t (IN t Ht)) (d3_const m t))).
  assert (NM : forall t, t0 <= t <= t0 + h -> norm3 (M t) = norm3 m) by (intros t Ht; exact (sopp_norm (v_att (z t)) m (UN t (IN t Ht)))).
  assert (NM' : forall t, t0 <= t <= t0 + h -> norm3 (sandwich_opp (v_att (z t)) (add3 zero3 (cross3 (v_rate (z t)) m))) <= L * norm3 (H t) * norm3 m).
  { intros t Ht. assert (U := UN t (IN t Ht)). rewrite sopp_norm by exact U. replace (add3 zero3 (cross3 (v_rate (z t)) m)) with (cross3 (v_rate (z t)) m) by (generalize (cross3 (v_rate (z t)) m); vring).
    eapply Rle_trans; [apply cross_norm|]. apply Rmult_le_compat_r; [apply norm3_pos|]. unfold H, space_momentum. rewrite sopp_norm by exact U. eapply Rle_trans; [|apply NL]. unfold spin_of, s_inv_tot. rewrite inv3_mv by exact DJ. lra. }
  assert (I0 : t0 <= t0 <= t0 + h) by lra. assert (U := UN t0 (IN t0 I0)).
  assert (SE : seen B y t0 = seen B z t0) by (unfold seen; rewrite Z0; reflexivity). assert (EM : m = mag_moment_cmd (seen B z t0) (detumble_torque sat (v_rate (z t0)))) by (unfold m; rewrite SE, Z0; reflexivity). clearbody m.
  assert (NS : seen B z t0 <> zero3). { intros E. apply (NB t0). rewrite <- (sandwich_opp_sandwich (v_att (z t0)) (B t0) U). change (sandwich (v_att (z t0)) (B t0)) with (seen B z t0). rewrite E. apply opp_zero. }
  assert (TQ : cross3 m (seen B z t0) = scale3 (- K_BBQ) (rej (seen B z t0) (spin_of sat z t0))).
  { rewrite EM, mag_torque by exact NS. unfold detumble_torque. change (mv (s_total_moment sat) (v_rate (z t0))) with (spin_of sat z t0). assert (P := dpos _ NS). unfold rej.
    generalize (spin_of sat z t0) K_BBQ (seen B z t0) P. clear. intros [h1 h2 h3] k [b1 b2 b3]. vunfoldg. cbn [x3 y3 z3]. rnumg. intros P. apply mk3_c; field; lra. }
  assert (NSB : norm3 (seen B z t0) = norm3 (B t0)) by (unfold seen; destruct (sandwich_rigid _ U) as (R1 & _); unfold norm3; rewrite R1; reflexivity).
  assert (MU : norm3 m * norm3 (B t0) <= K_BBQ * norm3 (H t0)).
  { rewrite <- NSB. unfold H, space_momentum. rewrite sopp_norm by exact U. rewrite EM. unfold mag_moment_cmd. set (bb := seen B z t0) in *. assert (P := dpos _ NS). set (hh := spin_of sat z t0).
    replace (div3 (cross3 bb (detumble_torque sat (v_rate (z t0)))) (dot3 bb bb)) with (scale3 (/ dot3 bb bb) (cross3 bb (scale3 (- K_BBQ) hh))) by (unfold detumble_torque; change (mv (s_total_moment sat) (v_rate (z t0))) with hh; revert P; generalize (cross3 bb (scale3 (- K_BBQ) hh)) (dot3 bb bb); intros [?a ?b ?c] d P; vunfoldg; rnumg; apply mk3_c; unfold Rdiv; ring).
    rewrite norm3_scal. assert (X := cross_norm bb (scale3 (- K_BBQ) hh)). rewrite norm3_scal, Rabs_Ropp, (Rabs_pos_eq K_BBQ) in X by lra. assert (I : 0 < / dot3 bb bb) by (apply Rinv_0_lt_compat, P). rewrite (Rabs_pos_eq (/ dot3 bb bb)) by lra.
    assert (Q := P_quat.norm3_sq bb). assert (PB := norm3_pos bb).
    apply (Rle_trans _ (/ dot3 bb bb * (norm3 bb * (K_BBQ * norm3 hh)) * norm3 bb)); [apply Rmult_le_compat_r; [exact PB|]; apply Rmult_le_compat_l; [lra|exact X]|]. right. rewrite <- Q. field. intros E. rewrite E in Q. lra. }
  assert (ST : cross3 (M t0) (B t0) = scale3 (- K_BBQ) (rej (B t0) (H t0))).
  { destruct (sandwich_opp_rigid _ U) as (_ & R2 & _ & R4). unfold M. rewrite <- (sandwich_opp_sandwich (v_att (z t0)) (B t0) U) at 1. rewrite R2. change (sandwich (v_att (z t0)) (B t0)) with (seen B z t0). rewrite TQ, R4. f_equal. apply (rej_turn (v_att (z t0)) (B t0) (spin_of sat z t0) U). }
  split.
  - intros t Ht. rewrite (SM t Ht). exact (p_H H M B t0 h K_BBQ be (norm3 m) Hh kp Hbe DH NM MU LB KH BH t Ht).
  - exact (p_step H M _ B t0 h K_BBQ L N be (norm3 m) Hh kp HL HN Hbe DH DM NM' NM MU ST LB KH BH N0).
Qed.

(** ** C129 *)
(** Let be bound how fast the field changes, N the momentum at the start, L the inverse inertia, and let c be a lower bound of the mean squared
    sine between any direction and the field at p consecutive calls.  If the period h is short for these, the momentum falls by a factor
    below 1 every p calls, never exceeds 4 times its bound in between, and the satellite comes to rest *)
Theorem C129_held : forall sat B F y h p c be L N, det3 (s_total_moment sat) <> 0 -> (forall t, B t <> zero3) -> 0 < h -> (0 < p)%nat -> 0 < c -> 0 <= be ->
  (forall v, norm3 (mv (s_inv_tot sat) v) <= L * norm3 v) ->
  (forall s t, 0 <= s -> s <= t <= s + h -> norm3 (sub3 (B t) (B s)) <= be * (t - s) * norm3 (B s)) ->
  (forall n v, unit3 v -> c * INR p <= sines B h n p v) ->
  unitq (v_att (y 0)) -> (forall n, kept_moment sat B F y (INR n * h) (INR (S n) * h)) -> norm3 (spin_of sat y 0) <= N ->
  let k := K_BBQ * (INR p * h) in K_BBQ * h <= 1 / 2 -> 16 * h * (8 * L * N + be) * (1 + k ^ 2) <= c ->
  let r := 1 - c * k / (8 * (1 + k ^ 2)) in
  0 < r < 1 /\
  (forall j, norm3 (spin_of sat y (INR (j * p) * h)) <= r ^ j * norm3 (spin_of sat y 0)) /\
  (forall n t, INR n * h <= t <= INR (S n) * h -> norm3 (spin_of sat y t) <= 4 * r ^ (n / p) * norm3 (spin_of sat y 0)) /\
  is_lim (fun t => norm3 (v_rate (y t))) p_infty 0.
Proof.
  intros sat B F y h p c be L N DJ NB Hh Hp Hc Hbe NL LB PE U0 KM N0 k KH CO r. assert (kp := K_pos).
  assert (HN : 0 <= N) by (assert (X := norm3_pos (spin_of sat y 0)); lra).
  assert (U1 : norm3 (mk3 1 0 0 : v3) = 1) by (unfold norm3; vunfoldg; rnumg; replace (1 * 1 + 0 * 0 + 0 * 0) with 1 by ring; apply sqrt_1).
  assert (HL : 0 <= L) by (assert (X := NL (mk3 1 0 0)); rewrite U1 in X; assert (Y := norm3_pos (mv (s_inv_tot sat) (mk3 1 0 0))); lra).
  assert (PP : 1 <= INR p) by (apply (le_INR 1 p); lia).
  assert (C1 : c <= 1).
  { assert (X := PE 0%nat (mk3 1 0 0) exists_unit). rewrite sines_psum in X. assert (E : psum (fun i => across (mk3 1 0 0) (B (INR (0 + i) * h))) p <= psum (fun i => 0 * 0 + 1) p).
    { apply psum_le. intros i _. assert (A := across_le (mk3 1 0 0) (B (INR (0 + i) * h)) (NB _)). assert (U := exists_unit). unfold unit3 in U. lra. }
    rewrite (psum_lin 0 (fun _ => 0) 1) in E. assert (c * INR p <= 1 * INR p) by lra. apply (Rmult_le_reg_r (INR p)); lra. }
  assert (EN : 0 <= 8 * L * N + be) by (assert (0 <= 8 * L * N) by (apply Rmult_le_pos; lra); lra).
  assert (K0 : 0 < k) by (unfold k; apply Rmult_lt_0_compat; [exact kp|apply Rmult_lt_0_compat; lra]). assert (K2 : 0 < k ^ 2) by (apply pow_lt, K0).
  assert (HE : 16 * h * (8 * L * N + be) <= c). { assert (X : 0 <= 16 * h * (8 * L * N + be)) by (apply Rmult_le_pos; lra). assert (0 <= 16 * h * (8 * L * N + be) * k ^ 2) by (apply Rmult_le_pos; lra). lra. }
  assert (BH : be * h <= 1). { assert (0 <= 8 * L * N) by (apply Rmult_le_pos; lra). assert (0 <= h * (8 * L * N)) by (apply Rmult_le_pos; lra). lra. }
  assert (TS : forall n, INR (S n) * h = INR n * h + h) by (intros n; rewrite S_INR; ring). assert (T0 : forall n, 0 <= INR n * h) by (intros n; apply Rmult_le_pos; [apply pos_INR|lra]).
  assert (ONE : forall n, unitq (v_att (y (INR n * h))) -> _) by (intros n U; exact (one_period sat B F y (INR n * h) h L N be DJ NB Hh Hbe HL HN NL (fun t Ht => LB _ t (T0 n) Ht) KH BH U ltac:(rewrite <- TS; apply KM))).
  assert (UN : forall n, unitq (v_att (y (INR n * h)))) by (induction n as [|n IH]; [cbn [INR]; rewrite Rmult_0_l; exact U0|rewrite TS; apply (proj1 (ONE n IH)); lra]).
  set (G := fun n => space_momentum sat y (INR n * h)).
  assert (GS : forall n, norm3 (G n) = norm3 (spin_of sat y (INR n * h))) by (intros n; unfold G, space_momentum; apply sopp_norm, UN).
  set (e := K_BBQ * (h * h) * (8 * L * N + be)). assert (E0 : 0 <= e) by (unfold e; apply Rmult_le_pos; [apply Rmult_le_pos; nra|exact EN]).
  assert (STP : forall n, norm3 (G n) <= 2 * N -> norm3 (sub3 (G (S n)) (cut (K_BBQ * h) (B (INR n * h)) (G n))) <= e * norm3 (G n)).
  { intros n Hn. unfold G at 1. rewrite TS. exact (proj2 (proj2 (ONE n (UN n)) Hn)). }
  assert (HW : K_BBQ * h * INR p = k) by (unfold k; ring).
  assert (PK : 0 < 1 + k * k) by nra. set (g := c * k / (2 * (1 + k * k))).
  assert (HG : 8 * (INR p * e) <= g).
  { unfold g. apply (Rmult_le_reg_r (2 * (1 + k * k))); [lra|]. replace (c * k / (2 * (1 + k * k)) * (2 * (1 + k * k))) with (c * k) by (field; lra). replace (8 * (INR p * e) * (2 * (1 + k * k))) with (16 * h * (8 * L * N + be) * (1 + k ^ 2) * k) by (unfold e; rewrite <- HW; ring). apply Rmult_le_compat_r; lra. }
  assert (ER : r = 1 - g / 4) by (unfold r, g; field; nra).
  assert (WIN : forall n, norm3 (G n) <= N -> 0 <= g <= 1 / 4 /\ (forall i, (i <= p)%nat -> norm3 (G (n + i)%nat) <= 2 * norm3 (G n)) /\ norm3 (G (n + p)%nat) <= r * norm3 (G n)).
  { intros n Hn. assert (X := window_falls (K_BBQ * h) (fun i => B (INR (n + i) * h)) (fun i => G (n + i)%nat) e p N c ltac:(split; [apply Rmult_lt_0_compat; lra|lra]) (fun i => NB _) E0 ltac:(lra)). cbv beta zeta in X. rewrite HW in X. rewrite Nat.add_0_r in X.
    specialize (X Hn ltac:(intros i _ Hi; rewrite Nat.add_succ_r; apply STP, Hi) (sines_any B h p c PE n (G n)) HG). rewrite ER. exact X. }
  assert (G0 : norm3 (G 0%nat) = norm3 (spin_of sat y 0)) by (rewrite GS; cbn [INR]; rewrite Rmult_0_l; reflexivity).
  assert (GB : g <= 1 / 4) by (apply (WIN 0%nat); lra). assert (GP : 0 < g) by (unfold g; apply Rdiv_lt_0_compat; nra). assert (RR : 0 < r < 1) by lra.
  assert (RJ : forall j, 0 < r ^ j <= 1) by (intros j; split; [apply pow_lt; lra|rewrite <- (pow1 j); apply pow_incr; lra]). assert (P0 := norm3_pos (spin_of sat y 0)).
  assert (ALL : forall j, norm3 (G (j * p)%nat) <= r ^ j * norm3 (spin_of sat y 0)).
  { induction j as [|j IH]; [cbn [Nat.mul pow]; lra|]. assert (B1 : norm3 (G (j * p)%nat) <= N) by (assert (Y := RJ j); assert (r ^ j * norm3 (spin_of sat y 0) <= 1 * norm3 (spin_of sat y 0)) by (apply Rmult_le_compat_r; lra); lra).
    destruct (WIN _ B1) as (_ & _ & X). replace (S j * p)%nat with (j * p + p)%nat by lia. cbn [pow]. eapply Rle_trans; [exact X|]. rewrite Rmult_assoc. apply Rmult_le_compat_l; lra. }
  assert (MID : forall n t, INR n * h <= t <= INR (S n) * h -> norm3 (spin_of sat y t) <= 4 * r ^ (n / p) * norm3 (spin_of sat y 0)).
  { intros n t Ht. rewrite TS in Ht. assert (E := Nat.div_mod_eq n p). assert (Lm := Nat.mod_upper_bound n p ltac:(lia)). set (j := (n / p)%nat) in *. set (i := (n mod p)%nat) in *. assert (A := ALL j). assert (RJj := RJ j).
    assert (B1 : norm3 (G (j * p)%nat) <= N) by (assert (r ^ j * norm3 (spin_of sat y 0) <= 1 * norm3 (spin_of sat y 0)) by (apply Rmult_le_compat_r; lra); lra).
    destruct (WIN _ B1) as (_ & X & _). assert (XI := X i ltac:(lia)). replace (j * p + i)%nat with n in XI by lia.
    destruct (ONE n (UN n)) as (UA & O). destruct (O ltac:(fold (G n); lra)) as (O1 & _). assert (Q := O1 t Ht). unfold space_momentum in Q at 1. rewrite sopp_norm in Q by (apply UA, Ht). fold (G n) in Q. lra. }
  split; [exact RR|]. split; [intros j; rewrite <- GS; apply ALL|]. split; [exact MID|].
  apply (rate_lim sat y h DJ). apply is_lim_spec. intros [eps ep]. cbn [pos]. set (m := norm3 (spin_of sat y 0)) in *.
  set (d := Rmin eps 1 / (4 * m + 1)). assert (MP : 0 < Rmin eps 1) by (apply Rmin_pos; lra). assert (dp : 0 < d) by (apply Rdiv_lt_0_compat; lra).
  destruct (pow_lt_1_zero r ltac:(rewrite Rabs_pos_eq; lra) d dp) as (j & Hj). exists (INR (j * p) * h + h). intros t Ht. assert (TP : 0 <= t) by (assert (X := T0 (j * p)%nat); lra).
  destruct (Props_samp.step_of t h Hh TP) as (n & Hn). assert (Lj : (j <= n / p)%nat).
  { apply Nat.div_le_lower_bound; [lia|]. assert (Y : INR (j * p) < INR n) by (apply (Rmult_lt_reg_r h); lra). apply INR_lt in Y. lia. }
  assert (Q := MID n t ltac:(rewrite TS; exact Hn)). assert (Z := Hj (n / p)%nat ltac:(lia)). rewrite Rabs_pos_eq in Z by (left; apply RJ).
  assert (S1 : norm3 (spin_of sat y t) < Rmin eps 1).
  { eapply Rle_lt_trans; [exact Q|]. apply (Rle_lt_trans _ (4 * d * m)); [apply Rmult_le_compat_r; lra|]. replace (Rmin eps 1) with (d * (4 * m + 1)) by (unfold d; field; lra). nra. }
  assert (S2 := norm3_pos (spin_of sat y t)). rewrite Rminus_0_r, Rabs_pos_eq by apply dot3_nonneg. rewrite <- P_quat.norm3_sq. assert (M1 := Rmin_l eps 1). assert (M2 := Rmin_r eps 1). nra.
Qed.
Print Assumptions C129_held.

(** ** such motions exist, from every start *)
Section RUN.
Variables (sat : Satellite) (B F : R -> v3) (h kb : R).
Definition hn_m (v : SVec) (t0 : R) : v3 := mag_moment_cmd (sandwich (v_att v) (B t0)) (detumble_torque sat (v_rate v)).
Definition hn_h (v : SVec) : v3 := sandwich_opp (v_att v) (mv (s_total_moment sat) (v_rate v)).
Definition hn_b (v : SVec) (t0 : R) : R := 1 + (norm3 (hn_h v) + norm3 (hn_m v t0) * (norm3 (B t0) + kb * (h + 1)) * (h + 1)).
Definition hn_x (v : SVec) (t0 t : R) : nat -> R := hd_x (s_inv_tot sat) B (hn_m v t0) t0 h (hn_b v t0) (v_att v) (hn_h v) (t - t0).
Definition hn_v (v : SVec) (t0 t : R) : v3 := prim3 (fun s => div3 (F s) (s_mass sat)) (v_vel v) t0 t.
Definition hn (v : SVec) (t0 t : R) : SVec :=
  mkSV (prim3 (hn_v v t0) (v_pos v) t0 t) (hn_v v t0 t) (hd_q (hn_x v t0 t)) (mv (s_inv_tot sat) (sandwich (hd_q (hn_x v t0 t)) (hd_h (hn_x v t0 t)))) (v_whl v).
Hypothesis DJ : det3 (s_total_moment sat) <> 0.
Hypothesis CF : P_loop3.cont3 F.
Hypothesis Hh : 0 < h.
Hypothesis KB : 0 <= kb.
Hypothesis BL : forall s t, norm3 (sub3 (B s) (B t)) <= kb * Rabs (s - t).
Lemma shift (g : R -> R) d t0 t : derivable_pt_lim g (t - t0) d -> derivable_pt_lim (fun s => g (s - t0)) t d.
Proof. intros Hd. eapply d_eq; [apply (derivable_pt_lim_comp (fun s => s - t0) g); [apply (d_minus (fun s => s) (fun _ => t0) t 1 0); [apply derivable_pt_lim_id|apply derivable_pt_lim_const]|exact Hd]|]. ring. Qed.
Lemma hn_spec v t0 : unitq (v_att v) -> hn v t0 t0 = v /\ (forall t, unitq (v_att (hn v t0 t))) /\
  forall t, t0 - 1 < t < t0 + h + 1 -> deriv_sv (hn v t0) t (derivative sat (hn v t0 t) (F t) (cross3 (hn_m v t0) (seen B (hn v t0) t)) zero3 zero3 []).
Proof.
  intros U0.
  assert (BP : 0 < hn_b v t0).
  { unfold hn_b. assert (A := norm3_pos (hn_h v)). assert (C := norm3_pos (hn_m v t0)). assert (E := norm3_pos (B t0)). assert (0 <= kb * (h + 1)) by (apply Rmult_le_pos; lra). assert (0 <= norm3 (hn_m v t0) * (norm3 (B t0) + kb * (h + 1))) by (apply Rmult_le_pos; lra). assert (0 <= norm3 (hn_m v t0) * (norm3 (B t0) + kb * (h + 1)) * (h + 1)) by (apply Rmult_le_pos; lra). lra. }
  destruct (hd_spec (s_inv_tot sat) B (hn_m v t0) t0 h (hn_b v t0) BP Hh kb KB BL (v_att v) (hn_h v) U0 ltac:(unfold hn_b; lra)) as (Q0 & H0 & UQ & D).
  set (x := hd_x (s_inv_tot sat) B (hn_m v t0) t0 h (hn_b v t0) (v_att v) (hn_h v)) in *.
  destruct (prim3_spec (fun s => div3 (F s) (s_mass sat)) (v_vel v) t0 (P_loop3.cont3_div F (s_mass sat) CF)) as (V0 & DV). destruct (prim3_spec (hn_v v t0) (v_pos v) t0 (P_loop3.deriv3_cont _ _ DV)) as (P0 & DP).
  split; [|split].
  - unfold hn. rewrite P0. unfold hn_v at 1. rewrite V0. unfold hn_x. fold x. rewrite Rminus_eq_0, Q0, H0. unfold hn_h. rewrite sandwich_sandwich_opp by exact U0. unfold s_inv_tot. rewrite inv3_mv by exact DJ. destruct v; reflexivity.
  - intros t. exact (UQ (t - t0)).
  - intros t Ht. destruct (D (t - t0) ltac:(lra)) as (DQ & DH). set (q := fun s => hd_q (x s)) in *. set (H := fun s => hd_h (x s)) in *.
    set (om := mv (s_inv_tot sat) (sandwich (q (t - t0)) (H (t - t0)))).
    assert (DQ' : derivq (fun s => q (s - t0)) t (scaleq 0.5 (product (q (t - t0)) (pure om)))).
    { destruct DQ as (D0 & D1 & D2 & D3). split; [exact (shift (fun s => qw (q s)) _ t0 t D0)|]. split; [exact (shift (fun s => qx (q s)) _ t0 t D1)|]. split; [exact (shift (fun s => qy (q s)) _ t0 t D2)|exact (shift (fun s => qz (q s)) _ t0 t D3)]. }
    assert (DH' : deriv3 (fun s => H (s - t0)) t (cross3 (sandwich_opp (q (t - t0)) (hn_m v t0)) (B (t0 + (t - t0))))).
    { destruct DH as (D0 & D1 & D2). split; [exact (shift (fun s => x3 (H s)) _ t0 t D0)|]. split; [exact (shift (fun s => y3 (H s)) _ t0 t D1)|exact (shift (fun s => z3 (H s)) _ t0 t D2)]. }
    replace (t0 + (t - t0)) with t in DH' by ring.
    split; [exact (DP t)|]. split; [exact (DV t)|]. split; [exact DQ'|]. split; [|intros i; cbn [derivative v_whl]; replace (nth i [] 0) with 0 by (destruct i; reflexivity); exact (derivable_pt_lim_const (nth i (v_whl v) 0) t)].
    cbn [derivative v_rate]. eapply d3_eq; [exact (d3_mv (s_inv_tot sat) _ t _ (P_ctrl2.d3_sandwich (fun s => q (s - t0)) (fun s => H (s - t0)) t _ om DQ' DH'))|]. f_equal. cbv beta.
    change (v_rate (hn v t0 t)) with om. assert (JO : mv (s_total_moment sat) om = sandwich (q (t - t0)) (H (t - t0))) by (unfold om, s_inv_tot; apply mv_inv3, DJ). rewrite JO.
    assert (U := UQ (t - t0)). change (unitq (q (t - t0))) in U. destruct (sandwich_rigid _ U) as (_ & R2 & _ & _). rewrite <- R2, sandwich_sandwich_opp by exact U. change (sandwich (q (t - t0)) (B t)) with (seen B (hn v t0) t).
    generalize (cross3 (hn_m v t0) (seen B (hn v t0) t)) (sandwich (q (t - t0)) (H (t - t0))) om. clear. intros [a b c] [d e f] [g i j]. vunfoldg. rnumg. apply mk3_c; ring.
Qed.
Variable v0 : SVec.
Fixpoint hn_seq (k : nat) : SVec := match k with O => v0 | S j => hn (hn_seq j) (INR j * h) (INR (S j) * h) end.
Definition hn_y (t : R) : SVec := let k := Z.to_nat (up (t / h) - 1) in hn (hn_seq k) (INR k * h) t.
Lemma hn_run : unitq (v_att v0) -> hn_y 0 = v0 /\ forall n, kept_moment sat B F hn_y (INR n * h) (INR (S n) * h).
Proof.
  intros U0. assert (TS : forall k, INR (S k) * h = INR k * h + h) by (intros k; rewrite S_INR; ring).
  assert (US : forall k, unitq (v_att (hn_seq k))) by (induction k as [|k IH]; [exact U0|cbn [hn_seq]; apply (hn_spec _ _ IH)]).
  assert (AG : forall k t, INR k * h <= t <= INR (S k) * h -> hn_y t = hn (hn_seq k) (INR k * h) t).
  { intros k t [A [C|C]].
    - unfold hn_y. rewrite (Props_samp.ax_index h k t Hh (conj A C)). reflexivity.
    - subst t. unfold hn_y. rewrite (Props_samp.ax_index h (S k) (INR (S k) * h) Hh) by (rewrite (TS (S k)); lra). cbv zeta. rewrite (proj1 (hn_spec (hn_seq (S k)) (INR (S k) * h) (US (S k)))). reflexivity. }
  assert (ST : forall k, hn_y (INR k * h) = hn_seq k) by (intros k; rewrite (AG k) by (rewrite TS; lra); apply (hn_spec _ _ (US k))).
  split; [assert (X := ST 0%nat); cbn [INR hn_seq] in X; rewrite Rmult_0_l in X; exact X|].
  intros n. exists (hn (hn_seq n) (INR n * h)), (fun _ => []), (INR n * h - 1), (INR n * h + h + 1). rewrite TS. split; [lra|]. split; [lra|]. split; [intros t Ht; apply AG; rewrite TS; exact Ht|].
  intros t Ht. assert (E : mag_moment_cmd (seen B hn_y (INR n * h)) (detumble_torque sat (v_rate (hn_y (INR n * h)))) = hn_m (hn_seq n) (INR n * h)) by (unfold seen, hn_m; rewrite ST; reflexivity). rewrite E. apply (hn_spec _ _ (US n)). lra.
Qed.
End RUN.
Theorem C129_runs : forall sat B F v0 h kb, det3 (s_total_moment sat) <> 0 -> (forall s t, norm3 (sub3 (B s) (B t)) <= kb * Rabs (s - t)) -> P_loop3.cont3 F -> unitq (v_att v0) -> 0 < h ->
  exists y, y 0 = v0 /\ forall n, kept_moment sat B F y (INR n * h) (INR (S n) * h).
Proof.
  intros sat B F v0 h kb DJ BL CF U0 Hh. assert (KB : 0 <= kb) by (assert (X := BL 1 0); rewrite Rminus_0_r, Rabs_R1 in X; assert (Y := norm3_pos (sub3 (B 1) (B 0))); lra).
  exists (hn_y sat B F h kb v0). apply hn_run; assumption.
Qed.
Print Assumptions C129_runs.

(** ** but no period suits every rate: a ball that spins a little more than once per period *)
Section ALIAS.
Variables (h : R) (m : nat).
Hypothesis Hh : 0 < h.
Hypothesis Hm : (0 < m)%nat.
Definition al_a (t : R) : R := 2 * PI / h * t.
Definition al_n : R := PI / (2 * INR m * h).
Definition al_w0 : R := 2 * PI / h + al_n.
Definition al_w (t : R) : R := al_w0 - al_w0 * K_BBQ * (h / (2 * PI)) * sin (al_a t).
Definition al_ph (t : R) : R := al_n * t + al_w0 * K_BBQ * (h / (2 * PI)) * (h / (2 * PI)) * (cos (al_a t) - 1).
Definition al_B (t : R) : v3 := mk3 0 (cos (al_ph t)) (sin (al_ph t)).
Definition al_y : R -> SVec := spinning (fun t => al_ph t + al_a t) al_w.
Lemma al_mp : 1 <= INR m. Proof. apply (le_INR 1 m). lia. Qed.
Lemma al_da t : derivable_pt_lim al_a t (2 * PI / h). Proof. unfold al_a. eapply d_eq; [apply d_lin, d_id|ring]. Qed.
Lemma al_dcos t : derivable_pt_lim (fun s => cos (al_a s)) t (- sin (al_a t) * (2 * PI / h)).
Proof. apply (derivable_pt_lim_comp al_a cos); [apply al_da|apply derivable_pt_lim_cos]. Qed.
Lemma al_dsin t : derivable_pt_lim (fun s => sin (al_a s)) t (cos (al_a t) * (2 * PI / h)).
Proof. apply (derivable_pt_lim_comp al_a sin); [apply al_da|apply derivable_pt_lim_sin]. Qed.
Lemma al_dph t : derivable_pt_lim al_ph t (al_n - al_w0 * K_BBQ * (h / (2 * PI)) * sin (al_a t)).
Proof.
  assert (P := PI_RGT_0). unfold al_ph. eapply d_eq; [apply d_plus; [apply d_lin, d_id|apply d_lin; apply d_minus; [apply al_dcos|apply d_const]]|]. field. lra.
Qed.
Lemma al_dw t : derivable_pt_lim al_w t (- K_BBQ * al_w0 * cos (al_a t)).
Proof. assert (P := PI_RGT_0). unfold al_w. eapply d_eq; [apply d_minus; [apply d_const|apply d_lin, al_dsin]|]. field. lra. Qed.
Lemma al_turn j : cos (al_a (INR j * h)) = 1 /\ sin (al_a (INR j * h)) = 0.
Proof.
  assert (E : al_a (INR j * h) = 0 + 2 * INR j * PI) by (unfold al_a; field; lra). rewrite E. rewrite cos_period, sin_period, cos_0, sin_0. split; reflexivity.
Qed.
Lemma al_ph_at j : al_ph (INR j * h) = INR j * (PI / (2 * INR m)).
Proof. unfold al_ph. rewrite (proj1 (al_turn j)). unfold al_n. assert (M := al_mp). assert (P := PI_RGT_0). field. repeat split; lra. Qed.
Lemma al_w_at j : al_w (INR j * h) = al_w0.
Proof. unfold al_w. rewrite (proj2 (al_turn j)). ring. Qed.
Lemma al_seen t : seen al_B al_y t = mk3 0 (cos (al_a t)) (- sin (al_a t)).
Proof.
  unfold seen, al_y, al_B, spinning. cbn [v_att]. set (x := (al_ph t + al_a t) / 2).
  assert (E : al_a t = 2 * x - al_ph t) by (unfold x; field). rewrite E, cos_minus, sin_minus, cos_2a, sin_2a. assert (X := sin2_cos2 x). unfold Rsqr in X.
  generalize (cos x) (sin x) (cos (al_ph t)) (sin (al_ph t)) X. clear. intros c s p q X. unfold sandwich, product, conjugate. vunfoldg. cbn [qw qx qy qz x3 y3 z3]. rnumg. apply mk3_c; ring.
Qed.
Lemma al_kept n : kept_moment ball al_B (fun _ => zero3) al_y (INR n * h) (INR (S n) * h).
Proof.
  exists al_y, (fun _ => []), (INR n * h - 1), (INR (S n) * h + 1). split; [lra|]. split; [lra|]. split; [reflexivity|]. intros t _.
  assert (S := spinning_deriv (fun t => al_ph t + al_a t) al_w t _ ltac:(eapply d_eq; [apply d_plus; [apply al_dph|apply al_da]|unfold al_w, al_w0; ring]) (al_dw t)). fold al_y in S.
  assert (Q : mv (s_inv_tot ball) (sub3 (sub3 (cross3 (mag_moment_cmd (seen al_B al_y (INR n * h)) (detumble_torque ball (v_rate (al_y (INR n * h))))) (seen al_B al_y t)) zero3) (cross3 (v_rate (al_y t)) (add3 zero3 (mv (s_total_moment ball) (v_rate (al_y t)))))) = mk3 (- K_BBQ * al_w0 * cos (al_a t)) 0 0).
  { rewrite <- (ball_inv (mk3 _ 0 0)). f_equal. rewrite (ball_mv (mk3 _ 0 0)). unfold detumble_torque. rewrite !ball_mv, !al_seen. destruct (al_turn n) as (-> & ->). change (v_rate (al_y t)) with (mk3 (al_w t) 0 0). change (v_rate (al_y (INR n * h))) with (mk3 (al_w (INR n * h)) 0 0). rewrite al_w_at.
    generalize (al_w t) al_w0 (cos (al_a t)) (sin (al_a t)) K_BBQ. clear. intros w v c s k. unfold mag_moment_cmd. vunfoldg. cbn [x3 y3 z3]. rnumg. apply mk3_c; field. }
  unfold derivative. rewrite Q. assert (DZ : div3 zero3 (s_mass ball) = zero3) by (unfold ball; cbn [s_mass]; vunfoldg; cbn [x3 y3 z3]; rnumg; apply mk3_c; unfold Rdiv; ring). rewrite DZ. exact S.
Qed.
Lemma al_unit t : dot3 (al_B t) (al_B t) = 1.
Proof. unfold al_B. assert (X := sin2_cos2 (al_ph t)). unfold Rsqr in X. vunfoldg. cbn [x3 y3 z3]. rnumg. lra. Qed.
Lemma al_slow s t : s <= t -> norm3 (sub3 (al_B t) (al_B s)) <= (PI / (2 * INR m * h) + K_BBQ * (1 + / (4 * INR m))) * (t - s) * norm3 (al_B s).
Proof.
  intros L. assert (M := al_mp). assert (P := PI_RGT_0). assert (kp := K_pos).
  replace (norm3 (al_B s)) with 1 by (unfold norm3; rewrite al_unit; rnumg; rewrite sqrt_1; reflexivity). rewrite Rmult_1_r.
  assert (E : PI / (2 * INR m * h) + K_BBQ * (1 + / (4 * INR m)) = al_n + al_w0 * K_BBQ * (h / (2 * PI))) by (unfold al_w0, al_n; field; repeat split; lra). rewrite E.
  set (f := fun u => al_n - al_w0 * K_BBQ * (h / (2 * PI)) * sin (al_a u)).
  apply (vmvt al_B (fun u => mk3 0 (- sin (al_ph u) * f u) (cos (al_ph u) * f u)) s t _ L).
  - intros u _. split; [|split]; unfold al_B; cbn [x3 y3 z3].
    + apply d_const.
    + apply (derivable_pt_lim_comp al_ph cos); [apply al_dph|apply derivable_pt_lim_cos].
    + apply (derivable_pt_lim_comp al_ph sin); [apply al_dph|apply derivable_pt_lim_sin].
  - intros u _. assert (NP : 0 < al_n) by (unfold al_n; apply Rdiv_lt_0_compat; [lra|apply Rmult_lt_0_compat; lra]). assert (WP : 0 < al_w0) by (unfold al_w0; assert (0 < 2 * PI / h) by (apply Rdiv_lt_0_compat; lra); lra).
    set (g := al_w0 * K_BBQ * (h / (2 * PI))) in *. assert (GP : 0 < g) by (unfold g; apply Rmult_lt_0_compat; [apply Rmult_lt_0_compat; lra|apply Rdiv_lt_0_compat; lra]).
    assert (B1 := SIN_bound (al_a u)). assert (FB : f u * f u <= (al_n + g) * (al_n + g)). { assert (F1 : - (al_n + g) <= f u <= al_n + g) by (unfold f; split; nra). nra. }
    apply P_exist3.norm3_le_sq; [lra|]. replace (dot3 (mk3 0 (- sin (al_ph u) * f u) (cos (al_ph u) * f u)) (mk3 0 (- sin (al_ph u) * f u) (cos (al_ph u) * f u))) with (f u * f u); [exact FB|].
    assert (X := sin2_cos2 (al_ph u)). unfold Rsqr in X. vunfoldg. cbn [x3 y3 z3]. rnumg. transitivity ((sin (al_ph u) * sin (al_ph u) + cos (al_ph u) * cos (al_ph u)) * (f u * f u)); [rewrite X; ring|ring].
Qed.
Lemma psum_split f a b : psum f (a + b) = psum f a + psum (fun i => f (a + i)%nat) b.
Proof. induction b as [|b IH]; [rewrite Nat.add_0_r; cbn [psum]; ring|]. rewrite Nat.add_succ_r. cbn [psum]. rewrite IH. ring. Qed.
Lemma psum_add f g n : psum f n + psum g n = psum (fun i => f i + g i) n.
Proof. induction n as [|n IH]; cbn [psum]; [ring|]. rewrite <- IH. ring. Qed.
Lemma al_sines n v : unit3 v -> 1 / 2 * INR (2 * m) <= sines al_B h n (2 * m) v.
Proof.
  intros U. rewrite sines_psum. replace (2 * m)%nat with (m + m)%nat by lia. rewrite psum_split, psum_add.
  apply (Rle_trans _ (psum (fun i => 0 * 0 + 1) m)); [rewrite (psum_lin 0 (fun _ => 0) 1), plus_INR; right; field|]. apply psum_le. intros i _.
  set (b := al_B (INR (n + i) * h)). assert (EB : al_B (INR (n + (m + i)) * h) = mk3 0 (- z3 b) (y3 b)).
  { unfold b, al_B. cbn [y3 z3]. rewrite !al_ph_at. replace (INR (n + (m + i)) * (PI / (2 * INR m))) with (INR (n + i) * (PI / (2 * INR m)) + PI / 2) by (rewrite !plus_INR; assert (M := al_mp); field; lra). rewrite cos_plus, sin_plus, cos_PI2, sin_PI2. apply mk3_c; ring. }
  rewrite EB. assert (BX : x3 b = 0) by reflexivity. assert (BU : dot3 b b = 1) by apply al_unit. unfold across.
  assert (B2 : dot3 (mk3 0 (- z3 b) (y3 b)) (mk3 0 (- z3 b) (y3 b)) = 1) by (rewrite <- BU; destruct b as [p q r]; cbn [x3 y3 z3] in *; subst p; vunfoldg; rnumg; ring).
  rewrite BU, B2. unfold Rdiv. rewrite Rinv_1, !Rmult_1_r. revert U BX BU. unfold unit3. destruct v as [v1 v2 v3], b as [p q r]. vunfoldg. cbn [x3 y3 z3]. rnumg. intros U BX BU. subst p. nra.
Qed.
End ALIAS.

(** For every period and every m there is a field of constant strength that turns by a right angle in m periods, seen at 2 m consecutive calls with mean
    squared sine at least 1/2 from every direction, and a ball spinning at 2 PI / h plus the field's rate which the held moment leaves spinning for ever, at
    the same rate at every call, although the same law without holding would bring it to rest *)
Theorem C129_alias_refuted : forall h m, 0 < h -> (0 < m)%nat -> exists B y, let be := PI / (2 * INR m * h) + K_BBQ * (1 + / (4 * INR m)) in
  field B /\ (forall s t, s <= t -> norm3 (sub3 (B t) (B s)) <= be * (t - s) * norm3 (B s)) /\ (forall n v, unit3 v -> 1 / 2 * INR (2 * m) <= sines B h n (2 * m) v) /\
  unitq (v_att (y 0)) /\ (forall n, kept_moment ball B (fun _ => zero3) y (INR n * h) (INR (S n) * h)) /\
  (forall n, v_rate (y (INR n * h)) = mk3 (2 * PI / h + PI / (2 * INR m * h)) 0 0) /\ ~ is_lim (fun t => norm3 (v_rate (y t))) p_infty 0 /\
  forall F accl y', detumbled ball B F accl y' -> is_lim (fun t => norm3 (v_rate (y' t))) p_infty 0.
Proof.
  intros h m Hh Hm. exists (al_B h m), (al_y h m). assert (P := PI_RGT_0). assert (M := al_mp m Hm). intros be.
  assert (WP : 0 < al_w0 h m) by (unfold al_w0, al_n; assert (0 < 2 * PI / h) by (apply Rdiv_lt_0_compat; lra); assert (0 < PI / (2 * INR m * h)) by (apply Rdiv_lt_0_compat; [lra|apply Rmult_lt_0_compat; lra]); lra).
  assert (FB : field (al_B h m)).
  { split; [intros t; unfold al_B; intros E; injection E as E1 E2; assert (X := sin2_cos2 (al_ph h m t)); unfold Rsqr in X; rewrite E1, E2 in X; rnumg; lra|].
    assert (CC : forall t, continuous (al_ph h m) t) by (intros t; apply continuity_pt_filterlim, derivable_continuous_pt; eexists; apply (al_dph h m Hh)).
    intros t. unfold al_B. cbn [x3 y3 z3]. split; [apply continuous_const|]. split; [apply (continuous_comp (al_ph h m) cos); [apply CC|apply continuity_pt_filterlim, continuity_cos]|apply (continuous_comp (al_ph h m) sin); [apply CC|apply continuity_pt_filterlim, continuity_sin]]. }
  assert (VR : forall n, v_rate (al_y h m (INR n * h)) = mk3 (al_w0 h m) 0 0) by (intros n; unfold al_y, spinning; cbn [v_rate]; rewrite (al_w_at h m Hh n); reflexivity).
  split; [exact FB|]. split; [intros s t L; apply (al_slow h m Hh Hm s t L)|]. split; [intros n v U; apply (al_sines h m Hh Hm n v U)|].
  split. { unfold unitq, al_y, spinning. cbn [v_att]. vunfoldg. cbn [qw qx qy qz]. rnumg. set (x := (al_ph h m 0 + al_a h 0) / 2). assert (X := sin2_cos2 x). unfold Rsqr in X. lra. }
  split; [intros n; apply (al_kept h m Hh n)|]. split; [exact VR|]. split.
  - intros L. apply is_lim_spec in L. destruct (L (mkposreal _ WP)) as (T & HT). cbn [pos] in HT.
    destruct (archimed (T / h)) as (A & _). assert (UP : exists n : nat, T < INR n * h).
    { exists (Z.to_nat (up (T / h))). destruct (Z.le_gt_cases 0 (up (T / h))) as [Z|Z].
      - rewrite INR_IZR_INZ, Z2Nat.id by exact Z. apply (Rmult_lt_reg_r (/ h)); [apply Rinv_0_lt_compat, Hh|]. rewrite Rmult_assoc, Rinv_r by lra. unfold Rdiv in A. lra.
      - apply IZR_lt in Z. assert (T / h < 0) by lra. assert (T < 0) by (replace T with (T / h * h) by (field; lra); nra). assert (0 <= INR (Z.to_nat (up (T / h))) * h) by (apply Rmult_le_pos; [apply pos_INR|lra]). lra. }
    destruct UP as (n & Hn). specialize (HT _ Hn). rewrite VR, Rminus_0_r, Rabs_pos_eq in HT by apply norm3_pos.
    replace (norm3 (mk3 (al_w0 h m) 0 0)) with (al_w0 h m) in HT; [lra|]. unfold norm3. vunfoldg. cbn [x3 y3 z3]. rnumg. replace (al_w0 h m * al_w0 h m + 0 * 0 + 0 * 0) with (al_w0 h m * al_w0 h m) by ring. rewrite sqrt_square; lra.
  - intros F accl y' D. apply (C105_periodic ball (al_B h m) F accl y' (INR (4 * m) * h) (INR 0 * h) (INR m * h) ball_det FB); [apply Rmult_lt_0_compat; [apply lt_0_INR; lia|exact Hh]| | |exact D].
    + intros t. unfold al_B. replace (al_ph h m (t + INR (4 * m) * h)) with (al_ph h m t + 2 * INR 1 * PI).
      * rewrite cos_period, sin_period. reflexivity.
      * unfold al_ph. replace (al_a h (t + INR (4 * m) * h)) with (al_a h t + 2 * INR (4 * m) * PI) by (unfold al_a; field; lra). rewrite cos_period. unfold al_n. rewrite mult_INR. cbn [INR]. field. repeat split; lra.
    + unfold al_B. rewrite !(al_ph_at h m Hh Hm). replace (INR m * (PI / (2 * INR m))) with (PI / 2) by (field; lra). cbn [INR]. rewrite Rmult_0_l, cos_0, sin_0, cos_PI2, sin_PI2. intros E. assert (X : x3 (cross3 (mk3 0 1 0) (mk3 0 0 1)) = 0 :> R) by (rewrite E; reflexivity). revert X. vunfoldg. cbn [x3 y3 z3]. rnumg. lra.
Qed.
Print Assumptions C129_alias_refuted.

(** the hypotheses hold for a ball called ten times a second in a field that turns once in 40 s, tumbling at 0.01 rad/s: the momentum falls by a constant
    factor every 20 s *)
Example C129_ex :
  let B := fun t => mk3 0 (cos (PI / 20 * t)) (sin (PI / 20 * t)) in let h := 1 / 10 in
  exists y, v_rate (y 0) = mk3 (6 / 1000) (8 / 1000) 0 /\ (forall n, kept_moment ball B (fun _ => zero3) y (INR n * h) (INR (S n) * h)) /\
    let k := K_BBQ * (INR 200 * h) in let r := 1 - 1 / 2 * k / (8 * (1 + k ^ 2)) in
    r < 1 /\ (forall j, norm3 (spin_of ball y (INR (j * 200) * h)) <= r ^ j * (4 / 100)) /\ is_lim (fun t => norm3 (v_rate (y t))) p_infty 0.
Proof.
  intros B h. assert (P := PI_RGT_0). assert (P4 := PI_4). assert (kp := K_pos). assert (KB : K_BBQ <= 1 / 200) by (unfold K_BBQ; lra).
  assert (UB : forall t, dot3 (B t) (B t) = 1). { intros t. unfold B. assert (X := sin2_cos2 (PI / 20 * t)). unfold Rsqr in X. vunfoldg. cbn [x3 y3 z3]. rnumg. lra. }
  assert (NB1 : forall t, norm3 (B t) = 1) by (intros t; unfold norm3; rewrite UB; rnumg; apply sqrt_1).
  assert (SL : forall s t, s <= t -> norm3 (sub3 (B t) (B s)) <= PI / 20 * (t - s)).
  { intros s t L. apply (vmvt B (fun u => mk3 0 (- sin (PI / 20 * u) * (PI / 20)) (cos (PI / 20 * u) * (PI / 20))) s t _ L).
    - intros u _. assert (D : derivable_pt_lim (fun v => PI / 20 * v) u (PI / 20)) by (eapply d_eq; [apply d_lin, d_id|ring]). split; [|split]; unfold B; cbn [x3 y3 z3].
      + apply d_const.
      + apply (derivable_pt_lim_comp (fun v => PI / 20 * v) cos); [exact D|apply derivable_pt_lim_cos].
      + apply (derivable_pt_lim_comp (fun v => PI / 20 * v) sin); [exact D|apply derivable_pt_lim_sin].
    - intros u _. apply P_exist3.norm3_le_sq; [lra|]. right. assert (X := sin2_cos2 (PI / 20 * u)). unfold Rsqr in X. vunfoldg. cbn [x3 y3 z3]. rnumg. transitivity ((sin (PI / 20 * u) * sin (PI / 20 * u) + cos (PI / 20 * u) * cos (PI / 20 * u)) * (PI / 20 * (PI / 20))); [ring|rewrite X; ring]. }
  assert (SA : forall s t, norm3 (sub3 (B s) (B t)) <= PI / 20 * Rabs (s - t)).
  { intros s t. destruct (Rle_dec t s) as [L|L]; [rewrite Rabs_pos_eq by lra; apply SL, L|]. rewrite sub_sym. rewrite Rabs_minus_sym, Rabs_pos_eq by lra. apply SL. lra. }
  assert (PE : forall n v, unit3 v -> 1 / 2 * INR 200 <= sines B h n 200 v).
  { intros n v U. rewrite sines_psum. replace 200%nat with (100 + 100)%nat by reflexivity. rewrite psum_split, psum_add.
    apply (Rle_trans _ (psum (fun i => 0 * 0 + 1) 100)); [rewrite (psum_lin 0 (fun _ => 0) 1), plus_INR; right; field|]. apply psum_le. intros i _.
    set (b := B (INR (n + i) * h)). assert (EB : B (INR (n + (100 + i)) * h) = mk3 0 (- z3 b) (y3 b)).
    { unfold b, B. cbn [y3 z3]. replace (PI / 20 * (INR (n + (100 + i)) * h)) with (PI / 20 * (INR (n + i) * h) + PI / 2).
      - rewrite cos_plus, sin_plus, cos_PI2, sin_PI2. apply mk3_c; ring.
      - rewrite !plus_INR. replace (INR 100) with 100 by (rewrite INR_IZR_INZ; reflexivity). unfold h. field. }
    rewrite EB. assert (BX : x3 b = 0) by reflexivity. assert (BU : dot3 b b = 1) by apply UB. unfold across.
    assert (B2 : dot3 (mk3 0 (- z3 b) (y3 b)) (mk3 0 (- z3 b) (y3 b)) = 1) by (rewrite <- BU; destruct b as [p q r]; cbn [x3 y3 z3] in *; subst p; vunfoldg; rnumg; ring).
    rewrite BU, B2. unfold Rdiv. rewrite Rinv_1, !Rmult_1_r. revert U BX BU. clear. unfold unit3. destruct v as [v1 v2 v3], b as [p q r]. vunfoldg. cbn [x3 y3 z3]. rnumg. intros U BX BU. subst p. nra. }
  assert (IL : forall v, norm3 (mv (s_inv_tot ball) v) <= 1 / 4 * norm3 v).
  { intros v. assert (E : v = mv (s_total_moment ball) (scale3 (1 / 4) v)) by (rewrite ball_mv; destruct v as [a b c]; vunfoldg; cbn [x3 y3 z3]; rnumg; apply mk3_c; field). rewrite E at 1. rewrite ball_inv, norm3_scal, Rabs_pos_eq by lra. lra. }
  assert (I2 : INR 200 = 200) by (rewrite INR_IZR_INZ; reflexivity).
  set (v0 := mkSV zero3 zero3 (mkq 1 0 0 0) (mk3 (6 / 1000) (8 / 1000) 0) []).
  destruct (C129_runs ball B (fun _ => zero3) v0 h (PI / 20) ball_det SA) as (y & Y0 & KM).
  { intros t. repeat split; apply continuous_const. }
  { unfold unitq, v0. cbn [v_att]. vunfoldg. cbn [qw qx qy qz]. rnumg. ring. }
  { unfold h. lra. }
  assert (N0 : norm3 (spin_of ball y 0) = 4 / 100).
  { unfold spin_of. rewrite Y0, ball_mv, norm3_scal, Rabs_pos_eq by lra. unfold v0. cbn [v_rate]. unfold norm3. vunfoldg. cbn [x3 y3 z3]. rnumg. replace (6 / 1000 * (6 / 1000) + 8 / 1000 * (8 / 1000) + 0 * 0) with (1 / 100 * (1 / 100)) by field. rewrite sqrt_square; lra. }
  exists y. split; [rewrite Y0; reflexivity|]. split; [exact KM|]. intros k r.
  assert (k1 : 0 <= k <= 1 / 10) by (unfold k, h; rewrite I2; split; lra).
  destruct (C129_held ball B (fun _ => zero3) y h 200 (1 / 2) (PI / 20) (1 / 4) (1 / 20) ball_det) as (R1 & G & _ & LL); try assumption.
  - intros t. apply turned_field.
  - unfold h; lra.
  - lia.
  - lra.
  - lra.
  - intros s t Hs Ht. rewrite NB1, Rmult_1_r. apply SL. lra.
  - rewrite Y0. unfold unitq, v0. cbn [v_att]. vunfoldg. cbn [qw qx qy qz]. rnumg. ring.
  - lra.
  - unfold h. lra.
  - fold k. unfold h. cbn [pow]. nra.
  - fold k in R1, G. fold r in R1, G. split; [apply R1|]. split; [|exact LL]. intros j. rewrite <- N0. apply G.
Qed.
