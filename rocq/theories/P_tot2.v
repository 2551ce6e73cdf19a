(** * Lemmas: when a simulated step succeeds *)
From Coq Require Import Reals ZArith List Bool Arith Lra Psatz Lia.
From Verif Require Import Num Vec M_vector M_quaternion M_jday M_frame M_struct M_env M_dyn M_sensor M_integ.
From Verif Require Import S_rot S_integ S_dyn S_frame P_quat P_wheel P_integ2 P_dyn P_frame P_rk P_rk2 P_rk3 P_rk4 P_lla6 P_tot1.
Import ListNotations.
Local Open Scope R_scope.

(** ** the altitude of a state *)
Lemma polar_radius : wa * sqrt (1 - e2) = wa * (1 - wf).
Proof. f_equal. replace (1 - e2) with (Rsqr (1 - wf)) by (unfold Rsqr, e2; ring). apply sqrt_Rsqr. unfold wf. lra. Qed.
Lemma norm3_sq v : 0 <= norm3 v /\ norm3 v * norm3 v = dot3 v v.
Proof. unfold norm3. rnumg. split; [apply sqrt_pos|]. apply sqrt_sqrt. destruct v as [a b c]. unfold dot3. cbn [x3 y3 z3]. rnumg. nra. Qed.
Lemma state_made h a v : 6378137 <= norm3 (v_pos v) -> exists s, make_state h a v = Ok s /\ cached h s /\ sv s = v /\ clk s = a /\
  norm3 (v_pos v) - 6378137 - 3 / 10 ^ 23 * norm3 (v_pos v) <= c_h s <= norm3 (v_pos v) - 6356752.314 + 3 / 10 ^ 23 * norm3 (v_pos v).
Proof.
  intros R0. destruct (norm3_sq (v_pos v)) as [N0 NN]. set (th := clk_theta (h a)). set (p := mv (ecef_matrix th) (v_pos v)).
  assert (DP : dot3 p p = dot3 (v_pos v) (v_pos v)).
  { unfold p. assert (S := sc1 th). destruct (v_pos v) as [x y z]. unfold dot3, mv, ecef_matrix, dot3. cbn [x3 y3 z3 row1 row2 row3]. rnumg. transitivity ((x * x + y * y) * (sin th ^ 2 + cos th ^ 2) + z * z); [ring|rewrite S; ring]. }
  assert (NP : norm3 p = norm3 (v_pos v)) by (unfold norm3; rewrite DP; reflexivity).
  assert (E2 := e2_range).
  destruct (lla_total p) as (phi & lam & hh & lat & lon & alt & _ & _ & _ & _ & HB & E & _ & HA & _).
  { assert (D : dot3 p p = x3 p * x3 p + y3 p * y3 p + z3 p * z3 p) by reflexivity. rewrite DP, <- NN in D. assert (wa * wa <= norm3 (v_pos v) * norm3 (v_pos v)) by (apply Rmult_le_compat; unfold wa; lra).
    assert (0 <= z3 p * z3 p) by nra. replace ((x3 p * x3 p + y3 p * y3 p) * (1 - e2) + z3 p * z3 p) with (norm3 (v_pos v) * norm3 (v_pos v) * (1 - e2) + e2 * (z3 p * z3 p)) by (rewrite D; ring).
    assert (wa * wa * (1 - e2) <= norm3 (v_pos v) * norm3 (v_pos v) * (1 - e2)) by (apply Rmult_le_compat_r; lra). assert (0 <= e2 * (z3 p * z3 p)) by (apply Rmult_le_pos; lra). lra. }
  rewrite NP in HB, HA. rewrite polar_radius in HB.
  assert (M : make_state h a v = Ok (mkSS v a (ecef_matrix th) p (norm3 (v_pos v)) lat lon alt)). { unfold make_state. cbv zeta. fold th. fold p. rewrite E. reflexivity. }
  eexists. split; [exact M|]. destruct (made_cached _ _ _ _ M) as (CA & _). split; [exact CA|]. split; [reflexivity|]. split; [reflexivity|]. cbn [c_h].
  assert (WB : 6356752.314 <= wa * (1 - wf)) by (unfold wa, wf; lra). assert (WA : wa = 6378137) by reflexivity. rewrite WA in HB. rewrite WA in WB.
  revert HA. unfold Rabs. destruct (Rcase_abs _); lra.
Qed.
(** ** the domain of the vector field *)
Lemma actuate_ok (mt : list (Torquer R)) (cur : list R) : (exists m, sys_actuate mt cur = Ok m) <-> (length mt <= length cur)%nat.
Proof.
  revert cur. induction mt as [|t mt IH]; intros cur; [split; [cbn; lia|intros _; eexists; reflexivity]|]. destruct cur as [|x cur]; [split; [intros (m & E); discriminate|cbn; lia]|].
  cbn [sys_actuate length]. split.
  - intros (m & E). apply rbind_ok in E. destruct E as (r & E & _). assert (length mt <= length cur)%nat by (apply IH; eexists; exact E). lia.
  - intros L. destruct (proj2 (IH cur)) as (r & E); [lia|]. rewrite E. eexists. reflexivity.
Qed.
Lemma density_ok alt : (exists rho, atmo_density alt = Ok rho) <-> 250000 <= alt < 500000.
Proof.
  unfold atmo_density. destruct (Rleb_spec 250000 alt), (Rltb_spec alt 300000), (Rleb_spec 300000 alt), (Rltb_spec alt 350000), (Rleb_spec 350000 alt), (Rltb_spec alt 400000),
    (Rleb_spec 400000 alt), (Rltb_spec alt 450000), (Rleb_spec 450000 alt), (Rltb_spec alt 500000); cbn [andb]; try lra;
  (split; [intros [e E]; try discriminate E; lra|intros G; try (exfalso; lra); eexists; reflexivity]).
Qed.
Lemma density_raises alt : ~ (250000 <= alt < 500000) -> atmo_density alt = Raise UnboundLocalError.
Proof.
  intros N. unfold atmo_density. destruct (Rleb_spec 250000 alt), (Rltb_spec alt 300000), (Rleb_spec 300000 alt), (Rltb_spec alt 350000), (Rleb_spec 350000 alt), (Rltb_spec alt 400000),
    (Rleb_spec 400000 alt), (Rltb_spec alt 450000), (Rleb_spec 450000 alt), (Rltb_spec alt 500000); cbn [andb]; try lra; reflexivity.
Qed.
Lemma env_ok hi_fi sat h s m : (exists r, env_F_and_T hi_fi sat h s m = Ok r) <-> (exists c, h (clk s) = CJ c) /\ 250000 <= c_h s < 500000.
Proof.
  unfold env_F_and_T. split.
  - intros (r & E). apply rbind_ok in E. destruct E as (S & ES & E). apply rbind_ok in E. destruct E as (D & ED & _). split.
    + unfold solar_F_and_T in ES. apply rbind_ok in ES. destruct ES as (jd & EJ & _). destruct (h (clk s)) as [c|c]; [discriminate|eexists; reflexivity].
    + apply density_ok. unfold drag_F_and_T in ED. cbv zeta in ED. apply rbind_ok in ED. destruct ED as (rho & ER & _). eexists. exact ER.
  - intros ((c & EC) & HA). destruct (proj2 (density_ok (c_h s)) HA) as (rho & ER).
    assert (S : exists S, solar_F_and_T sat h s = Ok S). { unfold solar_F_and_T. rewrite EC. cbn [clk_julian rbind]. destruct (SRP_info (j_julian_date c) (v_pos (sv s))) as [[p sh] S]. destruct sh; [eexists; reflexivity|]. destruct (total_srp sat p S). eexists. reflexivity. }
    destruct S as (S & ->). cbn [rbind]. assert (D : exists D, drag_F_and_T sat s = Ok D). { unfold drag_F_and_T. cbv zeta. rewrite ER. cbn [rbind]. destruct (total_drag _ _ _). eexists. reflexivity. }
    destruct D as (D & ->). cbn [rbind]. eexists. reflexivity.
Qed.
Lemma field_ok hi_fi sat mt h s cur accl : (exists d, vector_field hi_fi sat mt h s cur accl = Ok d) <->
  (length mt <= length cur)%nat /\ (length (rw_wheels (s_rw sat)) <= length accl)%nat /\ (length (rw_wheels (s_rw sat)) <= length (v_whl (sv s)))%nat /\
  (exists c, h (clk s) = CJ c) /\ 250000 <= c_h s < 500000.
Proof.
  unfold vector_field, rw_torque_r, rw_momentum_r. split.
  - intros (d & E). apply rbind_ok in E. destruct E as (m & EM & E). apply rbind_ok in E. destruct E as (Tw & ET & E). apply rbind_ok in E. destruct E as (Hw & EH & E). apply rbind_ok in E. destruct E as (FT & EE & _).
    split; [apply actuate_ok; eexists; exact EM|]. destruct (Nat.ltb_spec (length accl) (length (rw_wheels (s_rw sat)))); [discriminate|]. destruct (Nat.ltb_spec (length (v_whl (sv s))) (length (rw_wheels (s_rw sat)))); [discriminate|].
    split; [assumption|]. split; [assumption|]. apply (env_ok hi_fi sat h s m). eexists. exact EE.
  - intros (A & B & C & D). destruct (proj2 (actuate_ok mt cur) A) as (m & ->). cbn [rbind]. destruct (Nat.ltb_spec (length accl) (length (rw_wheels (s_rw sat)))); [lia|]. cbn [rbind]. destruct (Nat.ltb_spec (length (v_whl (sv s))) (length (rw_wheels (s_rw sat)))); [lia|]. cbn [rbind].
    destruct (proj2 (env_ok hi_fi sat h s m) D) as ([F T] & ->). cbn [rbind]. eexists. reflexivity.
Qed.
