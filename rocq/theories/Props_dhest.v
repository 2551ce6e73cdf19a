(** * C134: detumbling on an estimated rate with the moment held between calls *)
From Coq Require Import Reals ZArith List Bool Arith Lra Psatz Lia.
From Coquelicot Require Import Coquelicot.
From Verif Require Import Num Vec M_vector M_quaternion M_struct M_env M_dyn M_ctrl S_rot S_dyn P_quat P_wheel P_dyn P_dyn2 P_ctrl2 P_posf P_tot3 P_samp P_detum P_detum2 Props_detum P_hdet Props_hdet Props_dest.
Import ListNotations.
Local Open Scope R_scope.

(** as [kept_moment], but at the call detumble is told the rate z0 *)
Definition kept_told (sat : Satellite) (B F : R -> v3) (z0 : v3) (y : R -> SVec) (t0 t1 : R) : Prop :=
  exists z accl a b, a < t0 /\ t1 < b /\ (forall t, t0 <= t <= t1 -> y t = z t) /\
    forall t, a < t < b -> deriv_sv z t (derivative sat (z t) (F t) (cross3 (mag_moment_cmd (seen B y t0) (detumble_torque sat z0)) (seen B z t)) zero3 zero3 (accl t)).

(** ** steps with a relative and an absolute error *)
Lemma disturbed2 a B (G : nat -> v3) e f p M : 0 < a <= 1 -> (forall i, B i <> zero3) -> 0 <= e -> 0 <= f -> INR p * e <= 1 / 2 -> 2 * (norm3 (G 0%nat) + INR p * f) <= M ->
  (forall i, (i < p)%nat -> norm3 (G i) <= M -> norm3 (sub3 (G (S i)) (cut a (B i) (G i))) <= e * norm3 (G i) + f) ->
  forall i, (i <= p)%nat -> norm3 (G i) <= 2 * (norm3 (G 0%nat) + INR p * f) /\ norm3 (sub3 (G i) (pure_steps a B (G 0%nat) i)) <= 2 * (INR p * e) * norm3 (G 0%nat) + 2 * (INR p * f).
Proof.
  intros A NB E Ff P M0 ST.
  assert (K : forall i, (i <= p)%nat -> norm3 (G i) <= (1 + e) ^ i * (norm3 (G 0%nat) + INR i * f) /\ norm3 (sub3 (G i) (pure_steps a B (G 0%nat) i)) <= ((1 + e) ^ i - 1) * norm3 (G 0%nat) + (1 + e) ^ i * (INR i * f)).
  { induction i as [|i IH]; intros L.
    - cbn [pow pure_steps INR]. split; [lra|]. replace (sub3 (G 0%nat) (G 0%nat)) with (zero3 (T:=R)) by (destruct (G 0%nat) as [?a ?b ?c]; vunfoldg; rnumg; apply mk3_c; ring). replace (norm3 zero3) with 0 by (unfold norm3; vunfoldg; rnumg; replace (0 * 0 + 0 * 0 + 0 * 0) with 0 by ring; rewrite sqrt_0; reflexivity). lra.
    - destruct (IH ltac:(lia)) as (I1 & I2). destruct (grown e i p E ltac:(lia) P) as ((G1 & G2) & _). assert (N0 := norm3_pos (G 0%nat)). assert (IP := pos_INR i). assert (IL := le_INR i p ltac:(lia)).
      assert (F0 : 0 <= INR i * f) by (apply Rmult_le_pos; lra). assert (F1 : INR i * f <= INR p * f) by (apply Rmult_le_compat_r; lra).
      assert (B2 : norm3 (G i) <= M) by (assert ((1 + e) ^ i * (norm3 (G 0%nat) + INR i * f) <= 2 * (norm3 (G 0%nat) + INR p * f)) by (apply Rmult_le_compat; lra); lra).
      assert (X := ST i ltac:(lia) B2). assert (C := cut_le a (B i) (G i) ltac:(lra) (NB i)). assert (Y := norm3_sub_split (G (S i)) (cut a (B i) (G i))).
      assert (EI : e * norm3 (G i) <= e * ((1 + e) ^ i * (norm3 (G 0%nat) + INR i * f))) by (apply Rmult_le_compat_l; lra). rewrite S_INR. cbn [pow pure_steps].
      assert (FF : f <= (1 + e) * (1 + e) ^ i * f) by (assert (1 <= (1 + e) * (1 + e) ^ i) by nra; nra). split; [lra|].
      assert (Z : norm3 (sub3 (cut a (B i) (G i)) (cut a (B i) (pure_steps a B (G 0%nat) i))) <= norm3 (sub3 (G i) (pure_steps a B (G 0%nat) i))) by (rewrite <- cut_sub; apply cut_le; [lra|apply NB]).
      set (g := cut a (B i) (G i)) in *. set (r := cut a (B i) (pure_steps a B (G 0%nat) i)) in *.
      assert (T : norm3 (sub3 (G (S i)) r) <= norm3 (sub3 (G (S i)) g) + norm3 (sub3 g r)).
      { eapply Rle_trans; [|apply norm3_triangle]. right. f_equal. destruct (G (S i)) as [?a ?b ?c], g as [?a ?b ?c], r as [?a ?b ?c]. vunfoldg. rnumg. apply mk3_c; ring. }
      lra. }
  intros i L. destruct (K i L) as (K1 & K2). destruct (grown e i p E L P) as ((G1 & G2) & G3). assert (N0 := norm3_pos (G 0%nat)). assert (IP := pos_INR i). assert (IL := le_INR i p L). assert (F0 : 0 <= INR i * f) by (apply Rmult_le_pos; lra). assert (F1 : INR i * f <= INR p * f) by (apply Rmult_le_compat_r; lra).
  assert (Q1 : (1 + e) ^ i * (INR i * f) <= 2 * (INR p * f)) by (apply Rmult_le_compat; lra). assert (Q2 : (1 + e) ^ i * norm3 (G 0%nat) <= 2 * norm3 (G 0%nat)) by (apply Rmult_le_compat_r; lra).
  assert (Q3 : ((1 + e) ^ i - 1) * norm3 (G 0%nat) <= 2 * (INR p * e) * norm3 (G 0%nat)) by (apply Rmult_le_compat_r; lra). split; lra.
Qed.
Lemma window_falls2 a B (G : nat -> v3) e f p M c : 0 < a <= 1 -> (forall i, B i <> zero3) -> 0 <= e -> 0 <= f -> 0 < c <= 1 -> 2 * (norm3 (G 0%nat) + INR p * f) <= M ->
  (forall i, (i < p)%nat -> norm3 (G i) <= M -> norm3 (sub3 (G (S i)) (cut a (B i) (G i))) <= e * norm3 (G i) + f) ->
  c * INR p * dot3 (G 0%nat) (G 0%nat) <= psum (fun i => across (G 0%nat) (B i)) p ->
  let W := a * INR p in let g := c * W / (2 * (1 + W * W)) in 8 * (INR p * e) <= g ->
  0 <= g <= 1 / 4 /\ (forall i, (i <= p)%nat -> norm3 (G i) <= 2 * (norm3 (G 0%nat) + INR p * f)) /\ norm3 (G p) <= (1 - g / 4) * norm3 (G 0%nat) + 2 * (INR p * f).
Proof.
  intros A NB E Ff C M0 ST PE W g HG. assert (PN := pos_INR p). assert (W0 : 0 <= W) by (unfold W; apply Rmult_le_pos; lra). assert (P : 0 < 2 * (1 + W * W)) by nra.
  assert (G0 : 0 <= g) by (unfold g; apply Rmult_le_pos; [apply Rmult_le_pos; lra|left; apply Rinv_0_lt_compat, P]).
  assert (G1 : g <= 1 / 4). { unfold g. apply (Rmult_le_reg_r (2 * (1 + W * W))); [exact P|]. unfold Rdiv at 1. rewrite Rmult_assoc, Rinv_l by lra. assert (0 <= (1 - W) * (1 - W)) by apply Rle_0_sqr. nra. }
  split; [lra|]. assert (D := disturbed2 a B G e f p M A NB E Ff ltac:(lra) M0 ST). split; [intros i L; apply (D i L)|].
  destruct (D p (Nat.le_refl p)) as (_ & D2). assert (S := step_window a B (pure_steps a B (G 0%nat)) A NB (fun i => eq_refl) c p PE). cbv zeta in S. cbn [pure_steps] in S. fold W g in S.
  assert (N := norm3_of_sq _ _ (1 - g) ltac:(lra) S). assert (Q := sqrt_below g ltac:(lra)). assert (N0 := norm3_pos (G 0%nat)).
  assert (Y := norm3_sub_split (G p) (pure_steps a B (G 0%nat) p)). assert (sqrt (1 - g) * norm3 (G 0%nat) <= (1 - g / 2) * norm3 (G 0%nat)) by (apply Rmult_le_compat_r; lra).
  assert (2 * (INR p * e) * norm3 (G 0%nat) <= g / 4 * norm3 (G 0%nat)) by (apply Rmult_le_compat_r; lra). lra.
Qed.
(** ** one period *)
Section Period.
Variables (H M M' B : R -> v3) (t0 h K L N be mu : R).
Hypothesis Hh : 0 < h.
Hypothesis HK : 0 < K.
Hypothesis HL : 0 <= L.
Hypothesis HN : 0 <= N.
Hypothesis Hbe : 0 <= be.
Hypothesis DH : forall t, t0 <= t <= t0 + h -> deriv3 H t (cross3 (M t) (B t)).
Hypothesis DM : forall t, t0 <= t <= t0 + h -> deriv3 M t (M' t).
Hypothesis NM' : forall t, t0 <= t <= t0 + h -> norm3 (M' t) <= 4 * L * N * mu.
Hypothesis NM : forall t, t0 <= t <= t0 + h -> norm3 (M t) = mu.
Hypothesis MU : mu * norm3 (B t0) <= K * norm3 (H t0).
Hypothesis ST : cross3 (M t0) (B t0) = scale3 (- K) (rej (B t0) (H t0)).
Hypothesis LB : forall t, t0 <= t <= t0 + h -> norm3 (sub3 (B t) (B t0)) <= be * (t - t0) * norm3 (B t0).
Hypothesis BH : be * h <= 1.
Lemma p_step2 : norm3 (sub3 (H (t0 + h)) (cut (K * h) (B t0) (H t0))) <= K * (h * h) * (8 * L * N + be) * norm3 (H t0).
Proof.
  assert (P : 0 <= mu) by (rewrite <- (NM t0) by lra; apply norm3_pos). assert (PB := norm3_pos (B t0)). assert (PH := norm3_pos (H t0)). set (C := cross3 (M t0) (B t0)) in *.
  assert (GM : forall u, t0 <= u <= t0 + h -> norm3 (sub3 (M u) (M t0)) <= 4 * L * N * mu * h).
  { intros u Hu. assert (X := vmvt M M' t0 u (4 * L * N * mu) (proj1 Hu)). assert (Q : 0 <= 4 * L * N * mu) by (apply Rmult_le_pos; [apply Rmult_le_pos; lra|exact P]).
    assert (Y : norm3 (sub3 (M u) (M t0)) <= 4 * L * N * mu * (u - t0)) by (apply X; intros v Hv; [apply DM; lra|apply NM'; lra]).
    eapply Rle_trans; [exact Y|]. apply Rmult_le_compat_l; lra. }
  assert (X := vmvt (fun u => sub3 (H u) (scale3 (u - t0) C)) (fun u => sub3 (cross3 (M u) (B u)) C) t0 (t0 + h) (K * h * (8 * L * N + be) * norm3 (H t0)) ltac:(lra)). cbv beta in X.
  assert (Y : norm3 (sub3 (sub3 (H (t0 + h)) (scale3 (t0 + h - t0) C)) (sub3 (H t0) (scale3 (t0 - t0) C))) <= K * h * (8 * L * N + be) * norm3 (H t0) * (t0 + h - t0)).
  { apply X.
    - intros u Hu. apply P_exist2.d3_sub; [apply DH, Hu|]. apply d3_ramp.
    - intros u Hu. replace (sub3 (cross3 (M u) (B u)) C) with (add3 (cross3 (sub3 (M u) (M t0)) (B u)) (cross3 (M t0) (sub3 (B u) (B t0)))) by (unfold C; destruct (M u) as [?a ?b ?c], (M t0) as [?a ?b ?c], (B u) as [?a ?b ?c], (B t0) as [?a ?b ?c]; vunfoldg; rnumg; apply mk3_c; ring).
      eapply Rle_trans; [apply norm3_triangle|]. assert (C1 := cross_norm (sub3 (M u) (M t0)) (B u)). assert (C2 := cross_norm (M t0) (sub3 (B u) (B t0))). rewrite (NM t0) in C2 by lra. destruct (p_B B t0 h be Hbe LB BH u Hu) as (B1 & B2). assert (G := GM u Hu).
      assert (K1 : norm3 (sub3 (M u) (M t0)) * norm3 (B u) <= 4 * L * N * mu * h * (2 * norm3 (B t0))) by (apply Rmult_le_compat; [apply norm3_pos|apply norm3_pos|exact G|exact B1]).
      assert (K2 : mu * norm3 (sub3 (B u) (B t0)) <= mu * (be * h * norm3 (B t0))) by (apply Rmult_le_compat_l; assumption).
      assert (K3 : h * (8 * L * N + be) * (mu * norm3 (B t0)) <= h * (8 * L * N + be) * (K * norm3 (H t0))) by (apply Rmult_le_compat_l; [apply Rmult_le_pos; [lra|assert (0 <= 8 * L * N) by (apply Rmult_le_pos; lra); lra]|exact MU]). lra. }
  clear X. replace (t0 + h - t0) with h in Y by ring. replace (t0 - t0) with 0 in Y by ring.
  replace (sub3 (H (t0 + h)) (cut (K * h) (B t0) (H t0))) with (sub3 (sub3 (H (t0 + h)) (scale3 h C)) (sub3 (H t0) (scale3 0 C))); [eapply Rle_trans; [exact Y|]; right; ring|].
  rewrite ST. unfold cut. generalize (rej (B t0) (H t0)). intros r. destruct (H (t0 + h)) as [?a ?b ?c], (H t0) as [?a ?b ?c], r as [?a ?b ?c]. vunfoldg. rnumg. apply mk3_c; ring.
Qed.
End Period.
Lemma cut_add a b h g : cut a b (add3 h g) = add3 (cut a b h) (cut a b g).
Proof. unfold cut, rej. destruct b as [?a ?b ?c], h as [?a ?b ?c], g as [?a ?b ?c]. vunfoldg. cbn [x3 y3 z3]. rnumg. apply mk3_c; unfold Rdiv; ring. Qed.
Lemma rej_le (b h : v3) : b <> zero3 -> norm3 (rej b h) <= norm3 h.
Proof. intros N. apply norm3_mono. rewrite rej_sq by exact N. apply across_le, N. Qed.
Lemma one_told sat B F z0 y t0 h L N be d : det3 (s_total_moment sat) <> 0 -> (forall t, B t <> zero3) -> 0 < h -> 0 <= be -> 0 <= L -> 0 <= N -> 0 <= d ->
  (forall v, norm3 (mv (s_inv_tot sat) v) <= L * norm3 v) -> (forall t, t0 <= t <= t0 + h -> norm3 (sub3 (B t) (B t0)) <= be * (t - t0) * norm3 (B t0)) ->
  K_BBQ * h <= 1 / 2 -> be * h <= 1 -> unitq (v_att (y t0)) -> kept_told sat B F z0 y t0 (t0 + h) -> norm3 (mv (s_total_moment sat) (sub3 z0 (v_rate (y t0)))) <= d ->
  (forall t, t0 <= t <= t0 + h -> unitq (v_att (y t))) /\
  (2 * norm3 (space_momentum sat y t0) + 3 * d <= 4 * N ->
   (forall t, t0 <= t <= t0 + h -> norm3 (space_momentum sat y t) <= 2 * norm3 (space_momentum sat y t0) + 3 * d) /\
   norm3 (sub3 (space_momentum sat y (t0 + h)) (cut (K_BBQ * h) (B t0) (space_momentum sat y t0))) <= K_BBQ * (h * h) * (8 * L * N + be) * (norm3 (space_momentum sat y t0) + d) + K_BBQ * h * d).
Proof.
  intros DJ NB Hh Hbe HL HN Hd NL LB KH BH U0 (z & accl & a & b & A0 & B0 & EQ & D) TD. assert (kp := K_pos). set (m := mag_moment_cmd (seen B y t0) (detumble_torque sat z0)) in *.
  assert (Z0 : y t0 = z t0) by (apply EQ; lra).
  assert (DQ : forall t, a < t < b -> derivq (fun u => v_att (z u)) t (scaleq 0.5 (product (v_att (z t)) (pure (v_rate (z t)))))) by (intros t Ht; destruct (D t Ht) as (_ & _ & X & _); exact X).
  assert (UN : forall t, a < t < b -> unitq (v_att (z t))).
  { intros t Ht. unfold unitq. rewrite <- U0, Z0. apply (const_of_deriv (fun u => dotq (v_att (z u)) (v_att (z u))) a b); [|lra|lra].
    intros v Hv. eapply d_eq; [apply d_dotq; exact (DQ v Hv)|]. cbv beta. generalize (v_att (z v)) (v_rate (z v)). clear. intros [p q r s] [x y z]. unfold pure, product. replace 0.5 with (1/2) by lra. vunfoldg; cbn [x3 y3 z3 qw qx qy qz]; rnumg. field. }
  assert (IN : forall t, t0 <= t <= t0 + h -> a < t < b) by (intros t Ht; lra).
  assert (SM : forall t, t0 <= t <= t0 + h -> space_momentum sat y t = space_momentum sat z t) by (intros t Ht; unfold space_momentum, spin_of; rewrite (EQ t Ht); reflexivity).
  split; [intros t Ht; rewrite (EQ t Ht); apply UN, IN, Ht|]. rewrite !SM by lra. intros N0.
  set (H0 := space_momentum sat z) in *. set (M := fun t => sandwich_opp (v_att (z t)) m). assert (I0 : t0 <= t0 <= t0 + h) by lra. assert (U := UN t0 (IN t0 I0)).
  set (er := sandwich_opp (v_att (z t0)) (mv (s_total_moment sat) (sub3 z0 (v_rate (z t0))))). assert (NE : norm3 er <= d) by (unfold er; rewrite sopp_norm by exact U; rewrite Z0 in TD; exact TD).
  set (H := fun t => add3 (H0 t) er).
  assert (DH0 : forall t, t0 <= t <= t0 + h -> deriv3 H0 t (cross3 (M t) (B t))).
  { intros t Ht. assert (Ut := UN t (IN t Ht)). destruct (D t (IN t Ht)) as (_ & _ & _ & DW & _). unfold derivative in DW. cbn [v_rate] in DW.
    assert (DHh := d3_mv (s_total_moment sat) _ t _ DW). unfold s_inv_tot in DHh. rewrite mv_inv3 in DHh by exact DJ. cbv beta in DHh.
    eapply d3_eq; [apply (d3_sandwich_opp _ (spin_of sat z) t _ (v_rate (z t)) (DQ t (IN t Ht)) DHh)|]. destruct (sandwich_opp_rigid _ Ut) as (_ & R2 & _ & _).
    rewrite <- (sandwich_opp_sandwich (v_att (z t)) (B t) Ut) at 1. unfold M. rewrite R2. change (sandwich (v_att (z t)) (B t)) with (seen B z t). f_equal. change (mv (s_total_moment sat) (v_rate (z t))) with (spin_of sat z t).
    generalize (spin_of sat z t) (v_rate (z t)) (cross3 m (seen B z t)). clear. intros [h1 h2 h3] [w1 w2 w3] [b1 b2 b3]. vunfoldg. cbn [x3 y3 z3]. rnumg. apply mk3_c; ring. }
  assert (DH : forall t, t0 <= t <= t0 + h -> deriv3 H t (cross3 (M t) (B t))).
  { intros t Ht. eapply d3_eq; [apply d3_add; [apply DH0, Ht|apply (d3_const er)]|]. generalize (cross3 (M t) (B t)). clear. intros [?a ?b ?c]. vunfoldg. cbn [x3 y3 z3]. rnumg. apply mk3_c; ring. }
  assert (DM : forall t, t0 <= t <= t0 + h -> deriv3 M t (sandwich_opp (v_att (z t)) (add3 zero3 (cross3 (v_rate (z t)) m)))) by (intros t Ht; apply (d3_sandwich_opp _ (fun _ => m) t _ (v_rate (z t)) (DQ t (IN t Ht)) (d3_const m t))).
  assert (NM : forall t, t0 <= t <= t0 + h -> norm3 (M t) = norm3 m) by (intros t Ht; exact (sopp_norm (v_att (z t)) m (UN t (IN t Ht)))).
  assert (NM' : forall t, t0 <= t <= t0 + h -> norm3 (sandwich_opp (v_att (z t)) (add3 zero3 (cross3 (v_rate (z t)) m))) <= L * norm3 (H0 t) * norm3 m).
  { intros t Ht. assert (Ut := UN t (IN t Ht)). rewrite sopp_norm by exact Ut. replace (add3 zero3 (cross3 (v_rate (z t)) m)) with (cross3 (v_rate (z t)) m) by (generalize (cross3 (v_rate (z t)) m); vring).
    eapply Rle_trans; [apply cross_norm|]. apply Rmult_le_compat_r; [apply norm3_pos|]. unfold H0, space_momentum. rewrite sopp_norm by exact Ut. eapply Rle_trans; [|apply NL]. unfold spin_of, s_inv_tot. rewrite inv3_mv by exact DJ. lra. }
  assert (SE : seen B y t0 = seen B z t0) by (unfold seen; rewrite Z0; reflexivity). assert (EM : m = mag_moment_cmd (seen B z t0) (detumble_torque sat z0)) by (unfold m; rewrite SE; reflexivity). clearbody m.
  assert (NS : seen B z t0 <> zero3). { intros E. apply (NB t0). rewrite <- (sandwich_opp_sandwich (v_att (z t0)) (B t0) U). change (sandwich (v_att (z t0)) (B t0)) with (seen B z t0). rewrite E. apply opp_zero. }
  set (g0 := mv (s_total_moment sat) z0). destruct (sandwich_opp_rigid _ U) as (_ & R2 & R3 & R4).
  assert (EG : H t0 = sandwich_opp (v_att (z t0)) g0).
  { unfold H, H0, space_momentum, er. rewrite <- R3. f_equal. unfold spin_of, g0. rewrite P_obs.mv_sub3. generalize (mv (s_total_moment sat) z0) (mv (s_total_moment sat) (v_rate (z t0))). clear. intros [?a ?b ?c] [?a ?b ?c]. vunfoldg. cbn [x3 y3 z3]. rnumg. apply mk3_c; ring. }
  assert (TQ : cross3 m (seen B z t0) = scale3 (- K_BBQ) (rej (seen B z t0) g0)).
  { rewrite EM, mag_torque by exact NS. unfold detumble_torque. fold g0. assert (P := dpos _ NS). unfold rej.
    generalize g0 K_BBQ (seen B z t0) P. clear. intros [h1 h2 h3] k [b1 b2 b3]. vunfoldg. cbn [x3 y3 z3]. rnumg. intros P. apply mk3_c; field; lra. }
  assert (NSB : norm3 (seen B z t0) = norm3 (B t0)) by (unfold seen; destruct (sandwich_rigid _ U) as (R1 & _); unfold norm3; rewrite R1; reflexivity).
  assert (MU : norm3 m * norm3 (B t0) <= K_BBQ * norm3 (H t0)).
  { rewrite <- NSB, EG, sopp_norm by exact U. rewrite EM. unfold mag_moment_cmd. set (bb := seen B z t0) in *. assert (P := dpos _ NS).
    replace (div3 (cross3 bb (detumble_torque sat z0)) (dot3 bb bb)) with (scale3 (/ dot3 bb bb) (cross3 bb (scale3 (- K_BBQ) g0))) by (unfold detumble_torque; fold g0; revert P; generalize (cross3 bb (scale3 (- K_BBQ) g0)) (dot3 bb bb); intros [?a ?b ?c] dd P; vunfoldg; rnumg; apply mk3_c; unfold Rdiv; ring).
    rewrite norm3_scal. assert (X := cross_norm bb (scale3 (- K_BBQ) g0)). rewrite norm3_scal, Rabs_Ropp, (Rabs_pos_eq K_BBQ) in X by lra. assert (I : 0 < / dot3 bb bb) by (apply Rinv_0_lt_compat, P). rewrite (Rabs_pos_eq (/ dot3 bb bb)) by lra.
    assert (Q := P_quat.norm3_sq bb). assert (PB := norm3_pos bb).
    apply (Rle_trans _ (/ dot3 bb bb * (norm3 bb * (K_BBQ * norm3 g0)) * norm3 bb)); [apply Rmult_le_compat_r; [exact PB|]; apply Rmult_le_compat_l; [lra|exact X]|]. right. rewrite <- Q. field. intros E. rewrite E in Q. lra. }
  assert (ST : cross3 (M t0) (B t0) = scale3 (- K_BBQ) (rej (B t0) (H t0))).
  { unfold M. rewrite <- (sandwich_opp_sandwich (v_att (z t0)) (B t0) U) at 1. rewrite R2. change (sandwich (v_att (z t0)) (B t0)) with (seen B z t0). rewrite TQ, R4, EG. f_equal. apply (rej_turn (v_att (z t0)) (B t0) g0 U). }
  assert (NH0 : norm3 (H t0) <= norm3 (H0 t0) + d) by (unfold H; eapply Rle_trans; [apply norm3_triangle|lra]).
  assert (PH : forall t, t0 <= t <= t0 + h -> norm3 (H0 t) <= 2 * norm3 (H0 t0) + 3 * d).
  { intros t Ht. assert (X := p_H H M B t0 h K_BBQ be (norm3 m) Hh kp Hbe DH NM MU LB KH BH t Ht). assert (Y := norm3_sub_split (H0 t) (H t)). assert (EE : norm3 (sub3 (H0 t) (H t)) = norm3 er) by (unfold H, norm3; f_equal; generalize (H0 t) er; clear; intros [?a ?b ?c] [?a ?b ?c]; vunfoldg; cbn [x3 y3 z3]; rnumg; ring). lra. }
  split; [intros t Ht; rewrite (SM t Ht); apply PH, Ht|].
  assert (X := p_step2 H M _ B t0 h K_BBQ L N be (norm3 m) Hh HL HN Hbe DH DM ltac:(intros t Ht; eapply Rle_trans; [apply NM', Ht|]; assert (Q := PH t Ht); replace (4 * L * N * norm3 m) with (L * (4 * N) * norm3 m) by ring; apply Rmult_le_compat_r; [apply norm3_pos|apply Rmult_le_compat_l; lra]) NM MU ST LB BH).
  assert (EN : 0 <= 8 * L * N + be) by (assert (0 <= 8 * L * N) by (apply Rmult_le_pos; lra); lra).
  assert (X2 : K_BBQ * (h * h) * (8 * L * N + be) * norm3 (H t0) <= K_BBQ * (h * h) * (8 * L * N + be) * (norm3 (H0 t0) + d)) by (apply Rmult_le_compat_l; [apply Rmult_le_pos; [nra|exact EN]|exact NH0]).
  set (R0 := scale3 (- (K_BBQ * h)) (rej (B t0) er)). assert (NR : norm3 R0 <= K_BBQ * h * d) by (unfold R0; rewrite norm3_scal, Rabs_Ropp, Rabs_pos_eq by nra; apply Rmult_le_compat_l; [nra|]; eapply Rle_trans; [apply rej_le, NB|exact NE]).
  replace (sub3 (H0 (t0 + h)) (cut (K_BBQ * h) (B t0) (H0 t0))) with (add3 (sub3 (H (t0 + h)) (cut (K_BBQ * h) (B t0) (H t0))) R0); [eapply Rle_trans; [apply norm3_triangle|lra]|].
  unfold H. rewrite cut_add. unfold R0, cut at 2. generalize (H0 (t0 + h)) (cut (K_BBQ * h) (B t0) (H0 t0)) er (rej (B t0) er) (K_BBQ * h). clear. intros [?a ?b ?c] [?a ?b ?c] [?a ?b ?c] [?a ?b ?c] k. vunfoldg. cbn [x3 y3 z3]. rnumg. apply mk3_c; ring.
Qed.
(** ** C134, held *)
(** detumble called every h seconds with rates whose momenta are off by at most d, the moment held, fixed in the body, until the next call: as in C129 the momentum falls by the factor r every p calls, until it is of the size d *)
Theorem C134_held : forall sat B F zs y h p c be L N d, det3 (s_total_moment sat) <> 0 -> (forall t, B t <> zero3) -> 0 < h -> (0 < p)%nat -> 0 < c -> 0 <= be ->
  (forall v, norm3 (mv (s_inv_tot sat) v) <= L * norm3 v) ->
  (forall s t, 0 <= s -> s <= t <= s + h -> norm3 (sub3 (B t) (B s)) <= be * (t - s) * norm3 (B s)) ->
  (forall n v, unit3 v -> c * INR p <= sines B h n p v) ->
  unitq (v_att (y 0)) -> (forall n, kept_told sat B F (zs n) y (INR n * h) (INR (S n) * h)) -> norm3 (spin_of sat y 0) <= N ->
  (forall n, norm3 (mv (s_total_moment sat) (sub3 (zs n) (v_rate (y (INR n * h))))) <= d) ->
  let k := K_BBQ * (INR p * h) in K_BBQ * h <= 1 / 2 -> 16 * h * (16 * L * N + be) * (1 + k ^ 2) <= c -> 32 * (1 + k ^ 2) * d <= c * N ->
  let r := 1 - c * k / (8 * (1 + k ^ 2)) in
  0 < r < 1 /\
  (forall j, norm3 (spin_of sat y (INR (j * p) * h)) <= r ^ j * norm3 (spin_of sat y 0) + 32 * (1 + k ^ 2) / c * d) /\
  (forall n t, INR n * h <= t <= INR (S n) * h -> norm3 (spin_of sat y t) <= 4 * r ^ (n / p) * norm3 (spin_of sat y 0) + 136 * (1 + k ^ 2) / c * d).
Proof.
  intros sat B F zs y h p c be L N d DJ NB Hh Hp Hc Hbe NL LB PE U0 KM N0 TD k KH CO DN r. assert (kp := K_pos).
  assert (HN : 0 <= N) by (assert (X := norm3_pos (spin_of sat y 0)); lra).
  assert (Hd : 0 <= d) by (assert (X := TD 0%nat); assert (Y := norm3_pos (mv (s_total_moment sat) (sub3 (zs 0%nat) (v_rate (y (INR 0 * h)))))); lra).
  assert (U1 : norm3 (mk3 1 0 0 : v3) = 1) by (unfold norm3; vunfoldg; rnumg; replace (1 * 1 + 0 * 0 + 0 * 0) with 1 by ring; apply sqrt_1).
  assert (HL : 0 <= L) by (assert (X := NL (mk3 1 0 0)); rewrite U1 in X; assert (Y := norm3_pos (mv (s_inv_tot sat) (mk3 1 0 0))); lra).
  assert (PP : 1 <= INR p) by (apply (le_INR 1 p); lia).
  assert (C1 : c <= 1).
  { assert (X := PE 0%nat (mk3 1 0 0) exists_unit). rewrite sines_psum in X. assert (E : psum (fun i => across (mk3 1 0 0) (B (INR (0 + i) * h))) p <= psum (fun i => 0 * 0 + 1) p).
    { apply psum_le. intros i _. assert (A := across_le (mk3 1 0 0) (B (INR (0 + i) * h)) (NB _)). assert (U := exists_unit). unfold unit3 in U. lra. }
    rewrite (psum_lin 0 (fun _ => 0) 1) in E. assert (c * INR p <= 1 * INR p) by lra. apply (Rmult_le_reg_r (INR p)); lra. }
  assert (EN : 0 <= 16 * L * N + be) by (assert (0 <= 16 * L * N) by (apply Rmult_le_pos; lra); lra).
  assert (K0 : 0 < k) by (unfold k; apply Rmult_lt_0_compat; [exact kp|apply Rmult_lt_0_compat; lra]). assert (K2 : 0 < k ^ 2) by (apply pow_lt, K0).
  assert (HE : 16 * h * (16 * L * N + be) <= c). { assert (X : 0 <= 16 * h * (16 * L * N + be)) by (apply Rmult_le_pos; lra). assert (0 <= 16 * h * (16 * L * N + be) * k ^ 2) by (apply Rmult_le_pos; lra). lra. }
  assert (BH : be * h <= 1). { assert (0 <= 16 * L * N) by (apply Rmult_le_pos; lra). assert (0 <= h * (16 * L * N)) by (apply Rmult_le_pos; lra). lra. }
  assert (TS : forall n, INR (S n) * h = INR n * h + h) by (intros n; rewrite S_INR; ring). assert (T0 : forall n, 0 <= INR n * h) by (intros n; apply Rmult_le_pos; [apply pos_INR|lra]).
  assert (ONE : forall n, unitq (v_att (y (INR n * h))) -> _) by (intros n U; exact (one_told sat B F (zs n) y (INR n * h) h L (2 * N) be d DJ NB Hh Hbe HL ltac:(lra) Hd NL (fun t Ht => LB _ t (T0 n) Ht) KH BH U ltac:(rewrite <- TS; apply KM) (TD n))).
  assert (UN : forall n, unitq (v_att (y (INR n * h)))) by (induction n as [|n IH]; [cbn [INR]; rewrite Rmult_0_l; exact U0|rewrite TS; apply (proj1 (ONE n IH)); lra]).
  set (G := fun n => space_momentum sat y (INR n * h)).
  assert (GS : forall n, norm3 (G n) = norm3 (spin_of sat y (INR n * h))) by (intros n; unfold G, space_momentum; apply sopp_norm, UN).
  set (e := K_BBQ * (h * h) * (16 * L * N + be)). assert (E0 : 0 <= e) by (unfold e; apply Rmult_le_pos; [apply Rmult_le_pos; nra|exact EN]). set (f := (e + K_BBQ * h) * d). assert (KHP : 0 < K_BBQ * h) by (apply Rmult_lt_0_compat; lra). assert (F0 : 0 <= f) by (unfold f; apply Rmult_le_pos; lra).
  assert (EK : e <= K_BBQ * h). { unfold e. replace (K_BBQ * (h * h) * (16 * L * N + be)) with (K_BBQ * h * (h * (16 * L * N + be))) by ring. assert (h * (16 * L * N + be) <= 1) by lra. rewrite <- (Rmult_1_r (K_BBQ * h)) at 2. apply Rmult_le_compat_l; lra. }
  assert (HW : K_BBQ * h * INR p = k) by (unfold k; ring).
  assert (PF : INR p * f <= 2 * k * d). { unfold f. apply (Rle_trans _ (INR p * (2 * (K_BBQ * h) * d))); [apply Rmult_le_compat_l; [lra|]; apply Rmult_le_compat_r; lra|]. rewrite <- HW. right. ring. }
  assert (PF0 : 0 <= INR p * f) by (apply Rmult_le_pos; lra).
  assert (K1 : 2 * k <= 1 + k ^ 2) by (assert (X := Rle_0_sqr (k - 1)); unfold Rsqr in X; replace (k ^ 2) with (k * k) by ring; lra).
  assert (DC : 32 * ((1 + k ^ 2) * d) <= N) by (assert (c * N <= 1 * N) by (apply Rmult_le_compat_r; lra); lra). assert (D1 : d <= (1 + k ^ 2) * d) by (assert (0 <= k ^ 2 * d) by (apply Rmult_le_pos; lra); lra). assert (D2 : 2 * k * d <= (1 + k ^ 2) * d) by (apply Rmult_le_compat_r; lra).
  assert (STP : forall n, norm3 (G n) <= 3 * N -> norm3 (sub3 (G (S n)) (cut (K_BBQ * h) (B (INR n * h)) (G n))) <= e * norm3 (G n) + f).
  { intros n Hn. unfold G at 1. rewrite TS. destruct (ONE n (UN n)) as (_ & O). destruct (O ltac:(fold (G n); lra)) as (_ & O2). fold (G n) in O2. replace (8 * L * (2 * N) + be) with (16 * L * N + be) in O2 by ring. fold e in O2. unfold f. lra. }
  assert (PK : 0 < 1 + k * k) by nra. set (g := c * k / (2 * (1 + k * k))).
  assert (HG : 8 * (INR p * e) <= g).
  { unfold g. apply (Rmult_le_reg_r (2 * (1 + k * k))); [lra|]. replace (c * k / (2 * (1 + k * k)) * (2 * (1 + k * k))) with (c * k) by (field; lra). replace (8 * (INR p * e) * (2 * (1 + k * k))) with (16 * h * (16 * L * N + be) * (1 + k ^ 2) * k) by (unfold e; rewrite <- HW; ring). apply Rmult_le_compat_r; lra. }
  assert (ER : r = 1 - g / 4) by (unfold r, g; field; nra).
  assert (WIN : forall n, norm3 (G n) <= N -> 0 <= g <= 1 / 4 /\ (forall i, (i <= p)%nat -> norm3 (G (n + i)%nat) <= 2 * (norm3 (G n) + INR p * f)) /\ norm3 (G (n + p)%nat) <= r * norm3 (G n) + 2 * (INR p * f)).
  { intros n Hn. assert (X := window_falls2 (K_BBQ * h) (fun i => B (INR (n + i) * h)) (fun i => G (n + i)%nat) e f p (3 * N) c ltac:(split; lra) (fun i => NB _) E0 F0 ltac:(lra)). cbv beta zeta in X. rewrite HW in X. rewrite Nat.add_0_r in X.
    specialize (X ltac:(lra) ltac:(intros i _ Hi; rewrite Nat.add_succ_r; apply STP, Hi) (sines_any B h p c PE n (G n)) HG). rewrite ER. exact X. }
  assert (G0 : norm3 (G 0%nat) = norm3 (spin_of sat y 0)) by (rewrite GS; cbn [INR]; rewrite Rmult_0_l; reflexivity).
  assert (GB : g <= 1 / 4) by (apply (WIN 0%nat); lra). assert (GP : 0 < g) by (unfold g; apply Rdiv_lt_0_compat; nra). assert (RR : 0 < r < 1) by lra.
  assert (RJ : forall j, 0 < r ^ j <= 1) by (intros j; split; [apply pow_lt; lra|rewrite <- (pow1 j); apply pow_incr; lra]). assert (P0 := norm3_pos (spin_of sat y 0)).
  set (A := 32 * (1 + k ^ 2) / c * d). assert (A0 : 0 <= A) by (unfold A; apply Rmult_le_pos; [left; apply Rdiv_lt_0_compat; lra|exact Hd]).
  assert (FA : 2 * (INR p * f) <= (1 - r) * A). { apply (Rle_trans _ (4 * k * d)); [lra|]. unfold A, r. right. field. split; lra. }
  assert (AN : A <= N). { unfold A. apply (Rmult_le_reg_l c); [exact Hc|]. replace (c * (32 * (1 + k ^ 2) / c * d)) with (32 * (1 + k ^ 2) * d) by (field; lra). exact DN. }
  assert (ALL : forall j, norm3 (G (j * p)%nat) <= N /\ norm3 (G (j * p)%nat) <= r ^ j * norm3 (spin_of sat y 0) + A).
  { induction j as [|j (I1 & I2)]; [cbn [Nat.mul pow]; lra|]. destruct (WIN _ I1) as (_ & _ & X). replace (S j * p)%nat with (j * p + p)%nat by lia. cbn [pow]. split.
    - assert (r * norm3 (G (j * p)%nat) <= r * N) by (apply Rmult_le_compat_l; lra). assert ((1 - r) * A <= (1 - r) * N) by (apply Rmult_le_compat_l; lra). lra.
    - assert (r * norm3 (G (j * p)%nat) <= r * (r ^ j * norm3 (spin_of sat y 0) + A)) by (apply Rmult_le_compat_l; lra). lra. }
  split; [exact RR|]. split; [intros j; rewrite <- GS; apply ALL|].
  intros n t Ht. rewrite TS in Ht. assert (E := Nat.div_mod_eq n p). assert (Lm := Nat.mod_upper_bound n p ltac:(lia)). set (j := (n / p)%nat) in *. set (i := (n mod p)%nat) in *. destruct (ALL j) as (B1 & B2).
  destruct (WIN _ B1) as (_ & X & _). assert (XI := X i ltac:(lia)). replace (j * p + i)%nat with n in XI by lia.
  destruct (ONE n (UN n)) as (UA & O). destruct (O ltac:(fold (G n); lra)) as (O1 & _). assert (Q := O1 t Ht). unfold space_momentum in Q at 1. rewrite sopp_norm in Q by (apply UA, Ht). fold (G n) in Q.
  assert (AF : 8 * ((1 + k ^ 2) * d) <= 8 * (1 + k ^ 2) / c * d). { apply (Rmult_le_reg_l c); [exact Hc|]. replace (c * (8 * (1 + k ^ 2) / c * d)) with (1 * (8 * ((1 + k ^ 2) * d))) by (field; lra). apply Rmult_le_compat_r; lra. }
  assert (AE : 136 * (1 + k ^ 2) / c * d = 4 * A + 8 * (1 + k ^ 2) / c * d) by (unfold A; field; lra). rewrite AE. lra.
Qed.
Print Assumptions C134_held.
(** told at rest, the ball spins on whatever moment-free call it keeps *)
Lemma spins_on B w0 (b0 : v3) t : let y := spinning (fun t => w0 * t) (fun _ => w0) in
  deriv_sv y t (derivative ball (y t) zero3 (cross3 (mag_moment_cmd b0 (detumble_torque ball zero3)) (seen B y t)) zero3 zero3 []).
Proof.
  intros y. assert (S := spinning_deriv (fun t => w0 * t) (fun _ => w0) t 0 ltac:(eapply d_eq; [apply d_lin, d_id|cbv beta; ring]) (d_const w0 t)). fold y in S.
  assert (DT : detumble_torque ball zero3 = zero3) by (unfold detumble_torque; rewrite ball_mv; vunfoldg; cbn [x3 y3 z3]; rnumg; apply mk3_c; ring).
  assert (MM : forall b : v3, mag_moment_cmd b zero3 = zero3) by (intros [b1 b2 b3]; unfold mag_moment_cmd; vunfoldg; unfold div3; cbn [x3 y3 z3]; rnumg; apply mk3_c; unfold Rdiv; ring).
  assert (Q : mv (s_inv_tot ball) (sub3 (sub3 (cross3 (mag_moment_cmd b0 (detumble_torque ball zero3)) (seen B y t)) zero3) (cross3 (v_rate (y t)) (add3 zero3 (mv (s_total_moment ball) (v_rate (y t)))))) = mk3 0 0 0).
  { rewrite DT, MM. rewrite <- (ball_inv (mk3 0 0 0)). f_equal. rewrite !ball_mv. change (v_rate (y t)) with (mk3 w0 0 0). generalize (seen B y t). clear. intros [b1 b2 b3]. vunfoldg. cbn [x3 y3 z3]. rnumg. apply mk3_c; ring. }
  unfold derivative. rewrite Q. assert (DZ : div3 zero3 (s_mass ball) = zero3) by (unfold ball; cbn [s_mass]; vunfoldg; cbn [x3 y3 z3]; rnumg; apply mk3_c; unfold Rdiv; ring). rewrite DZ. exact S.
Qed.
(** the hypotheses are met: calls every millisecond in a field that turns by a right angle in 128 calls, a ball spinning at 1e-6 and told at rest for ever *)
Example C134_ex_held : let h := 1 / 1000 in let m := 128%nat in let B := al_B h m in let p := (2 * m)%nat in let be := PI / (2 * INR m * h) + K_BBQ * (1 + / (4 * INR m)) in let d := 4 / 1000000 in let N := 512 / 1000000 in let k := K_BBQ * (INR p * h) in
  det3 (s_total_moment ball) <> 0 /\ (forall t, B t <> zero3) /\ (forall v, norm3 (mv (s_inv_tot ball) v) <= 1 / 4 * norm3 v) /\ 0 <= be /\
  (forall s t, s <= t -> norm3 (sub3 (B t) (B s)) <= be * (t - s) * norm3 (B s)) /\ (forall n v, unit3 v -> 1 / 2 * INR p <= sines B h n p v) /\ K_BBQ * h <= 1 / 2 /\ 16 * h * (16 * (1 / 4) * N + be) * (1 + k ^ 2) <= 1 / 2 /\ 32 * (1 + k ^ 2) * d <= 1 / 2 * N /\
  exists y, unitq (v_att (y 0)) /\ (forall n, kept_told ball B (fun _ => zero3) zero3 y (INR n * h) (INR (S n) * h)) /\ norm3 (spin_of ball y 0) <= N /\
    (forall n, norm3 (mv (s_total_moment ball) (sub3 zero3 (v_rate (y (INR n * h))))) <= d) /\ forall t, norm3 (spin_of ball y t) = d.
Proof.
  intros h m B p be d N k. assert (Hh : 0 < h) by (unfold h; lra). assert (Hm : (0 < m)%nat) by (unfold m; lia). assert (EM : INR m = 128) by (unfold m; rewrite INR_IZR_INZ; reflexivity). assert (EP : INR p = 256) by (unfold p, m; rewrite INR_IZR_INZ; reflexivity).
  assert (P := PI_4). assert (P0 := PI_RGT_0). assert (kp := K_pos). assert (K1 : K_BBQ <= 1 / 100) by (unfold K_BBQ; lra). assert (EB : be = PI / (256 / 1000) + K_BBQ * (1 + / 512)) by (unfold be; rewrite EM; unfold h; f_equal; [f_equal; lra|do 2 f_equal; f_equal; lra]).
  assert (BB : be <= 16) by (rewrite EB; lra). assert (B0 : 0 <= be) by (rewrite EB; lra). assert (K2 : 0 <= k ^ 2 <= 1 / 10). { assert (0 <= k <= 1 / 10) by (unfold k; rewrite EP; unfold h; lra). replace (k ^ 2) with (k * k) by ring. nra. }
  assert (NB : forall t, B t <> zero3). { intros t E. assert (X := al_unit h m t). unfold B in E. rewrite E in X. revert X. vunfoldg. cbn [x3 y3 z3]. rnumg. lra. }
  split; [apply ball_det|]. split; [exact NB|]. split.
  { intros v. replace (mv (s_inv_tot ball) v) with (scale3 (1 / 4) v); [rewrite norm3_scal, Rabs_pos_eq by lra; lra|]. rewrite <- (ball_inv (scale3 (1 / 4) v)), ball_mv. f_equal. destruct v as [?a ?b ?c]. vunfoldg. cbn [x3 y3 z3]. rnumg. apply mk3_c; field. }
  split; [exact B0|]. split; [intros s t L; exact (al_slow h m Hh Hm s t L)|]. split; [intros n v U; exact (al_sines h m Hh Hm n v U)|]. split; [unfold h; lra|]. split; [unfold h, N; nra|]. split; [unfold d, N; lra|].
  set (y := spinning (fun t => 1 / 1000000 * t) (fun _ => 1 / 1000000)). exists y. assert (SP : forall t, v_rate (y t) = mk3 (1 / 1000000) 0 0) by reflexivity. assert (NS : forall t, norm3 (spin_of ball y t) = d).
  { intros t. unfold spin_of. rewrite ball_mv, SP, norm3_scal, Rabs_pos_eq by lra. unfold norm3. rnumg. replace (dot3 (mk3 (1 / 1000000) 0 0) (mk3 (1 / 1000000) 0 0)) with (1 / 1000000 * (1 / 1000000)) by (vunfoldg; cbn [x3 y3 z3]; rnumg; ring). rewrite sqrt_square by lra. unfold d. lra. }
  split; [unfold unitq, y, spinning; cbn [v_att]; vunfoldg; cbn [qw qx qy qz]; rnumg; assert (X := sin2_cos2 (1 / 1000000 * 0 / 2)); unfold Rsqr in X; lra|]. split; [|split; [rewrite NS; unfold d, N; lra|split; [|exact NS]]].
  - intros n. exists y, (fun _ => []), (INR n * h - 1), (INR (S n) * h + 1). split; [lra|]. split; [lra|]. split; [reflexivity|]. intros t _. apply spins_on.
  - intros n. rewrite SP. rewrite <- (NS 0). unfold spin_of. rewrite SP, !ball_mv. unfold norm3. right. rnumg. f_equal. vunfoldg. cbn [x3 y3 z3]. rnumg. ring.
Qed.
