(** * Property C125: spinning the wheels down with the satellite around them *)
From Coq Require Import Reals ZArith List Bool Lra Lia Psatz.
From Verif Require Import Num Vec Mat6 M_vector M_quaternion M_jday M_struct M_dyn M_integ M_obs M_ctrl M_fsm M_mgr S_rot S_dyn S_fsm.
From Verif Require Import P_quat P_struct P_wheel P_dyn P_dyn2 P_ctrl P_ctrl2 P_tot3 P_detum P_mgr Props_struct Props_samp Props_mgr Props_stare.
Import ListNotations.
Local Open Scope R_scope.

(** the state machine and the manager, between two control cycles *)
Record Craft := mkCraft { cr_sm : SM; cr_mgr : Mgr }.
(** one control cycle: at t0 the state machine is asked for its transition, with the wheel speeds measured then and the wheel accelerations last commanded; the
    manager is called with the number of the state it comes to; until t1 the satellite moves by the code's equations with the wheels accelerating as commanded
    and the torquers [mt] carrying the commanded currents in a field [B], and no other torque.  The motion is the restriction of one defined on a little
    more than the period.  Everything else the calls are given is arbitrary *)
Definition cycle (bound : bool) (sat : Satellite) (mt : list (Torquer R)) (F B : R -> v3) (y : R -> SVec) (t0 t1 : R) (c c' : Craft) : Prop :=
  exists man x clock meas bore target st mom z a b,
    me_whl x = v_whl (y t0) /\ me_accl x = g_rw_cmd (cr_mgr c) /\ transition bound man x (cr_sm c) = (cr_sm c', Done tt) /\
    sm_cur (cr_sm c') = VS st /\ v_whl (cs_v meas) = v_whl (y t0) /\ cr_mgr c' = fst (mission_input clock meas (st_value st) bore target (cr_mgr c)) /\
    sys_actuate mt (g_mag_cmd (cr_mgr c')) = Ok mom /\
    a < t0 /\ t1 < b /\ (forall t, t0 <= t <= t1 -> y t = z t) /\
    forall t, a < t < b -> length (v_whl (z t)) = 4%nat /\
      deriv_sv z t (derivative sat (z t) (F t) (cross3 mom (B t)) (rw_torque (s_rw sat) (g_rw_cmd (cr_mgr c'))) (rw_momentum (s_rw sat) (v_whl (z t))) (g_rw_cmd (cr_mgr c'))).
(** angular momentum of body and wheels in the inertial frame *)
Definition inertial_momentum (sat : Satellite) (v : SVec) : v3 := sandwich_opp (v_att v) (body_momentum sat v).
(** four wheels with unit axes and moments of at most pm about them *)
Definition four_wheels (sat : Satellite) (pm : R) : Prop := length (rw_wheels (s_rw sat)) = 4%nat /\ Forall (fun w => norm3 (w_axis w) = 1 /\ Rabs (w_par w) <= pm) (rw_wheels (s_rw sat)).

Lemma torquers_off (ts : list (Torquer R)) n mom : sys_actuate ts (repeat 0 n) = Ok mom -> mom = zero3.
Proof.
  revert n mom. induction ts as [|t ts IH]; intros n mom H; [destruct n; cbn in H; congruence|]. destruct n as [|n]; [discriminate|]. cbn [repeat sys_actuate] in H.
  destruct (sys_actuate ts (repeat 0 n)) as [r|e] eqn:E; [|discriminate]. cbn [rbind] in H. rewrite (IH _ _ E) in H. assert (K : add3 (mt_actuate (t_type t) (t_axis t) 0) zero3 = mom) by congruence. rewrite <- K.
  destruct (t_type t); unfold mt_actuate; generalize (t_axis t); clear; intros [p q r]; [vring| |vring].
  cbn [nabs nsign RNum]. rewrite Rabs_R0. vunfoldg. cbn [x3 y3 z3]. rnumg. apply mk3_c; ring.
Qed.
Lemma cmd_length w a : length w = 4%nat -> spindown_cmd w = Ok a -> length a = 4%nat.
Proof.
  intros L H. destruct w as [|p [|q [|r [|s [|? ?]]]]]; try discriminate. destruct (spindown_cases p q r s) as (C1 & C2 & C3). cbv zeta in *.
  destruct (Rlt_dec (Rabs (along p q r s)) 0.00001) as [K|K].
  - destruct (Rlt_dec (norml [p; q; r; s]) 0.01) as [M|M]; [rewrite (C2 K M) in H|rewrite (C3 K ltac:(lra)) in H]; injection H as <-; reflexivity.
  - rewrite (C1 ltac:(lra)) in H. injection H as <-. reflexivity.
Qed.
Lemma cmd_ok w : length w = 4%nat -> exists a, spindown_cmd w = Ok a.
Proof.
  intros L. destruct w as [|p [|q [|r [|s [|? ?]]]]]; try discriminate. destruct (spindown_cases p q r s) as (C1 & C2 & C3). cbv zeta in *.
  destruct (Rlt_dec (Rabs (along p q r s)) 0.00001) as [K|K]; [|eexists; apply C1; lra]. destruct (Rlt_dec (norml [p; q; r; s]) 0.01) as [M|M]; eexists; [apply C2; assumption|apply C3; [exact K|lra]].
Qed.
Lemma speeds_linear (l : R -> list R) acc a b : length acc = 4%nat -> (forall t, a < t < b -> length (l t) = 4%nat /\ derivl l t acc) ->
  forall s t, a < s < b -> a < t < b -> l t = zip_with (fun x y => x + (t - s) * y) (l s) acc.
Proof.
  intros LA H s t Hs Ht. assert (K : forall i, nth i (l t) 0 - t * nth i acc 0 = nth i (l s) 0 - s * nth i acc 0).
  { intros i. apply (const_of_deriv (fun u => nth i (l u) 0 - u * nth i acc 0) a b); [|exact Ht|exact Hs]. intros u Hu. destruct (H u Hu) as [_ D]. specialize (D i).
    eapply d_eq; [apply d_minus; [exact D|apply d_mult; [exact (derivable_pt_lim_id u)|exact (d_const (nth i acc 0) u)]]|]. cbv beta; unfold id; ring. }
  destruct (H s Hs) as [L1 _]. destruct (H t Ht) as [L2 _]. revert K L1 L2. generalize (l s) (l t). clear - LA. intros u v K L1 L2.
  destruct u as [|u0 [|u1 [|u2 [|u3 [|? ?]]]]]; try discriminate. destruct v as [|v0 [|v1 [|v2 [|v3 [|? ?]]]]]; try discriminate. destruct acc as [|c0 [|c1 [|c2 [|c3 [|? ?]]]]]; try discriminate.
  assert (K0 := K 0%nat). assert (K1 := K 1%nat). assert (K2 := K 2%nat). assert (K3 := K 3%nat). cbn [nth] in *. cbn [zip_with]. apply list4_eq; lra.
Qed.
(** no torque from outside: momentum and the length of the quaternion stay *)
Lemma motion_keeps sat (F : R -> v3) acc z a b : det3 (s_total_moment sat) <> 0 ->
  (forall t, a < t < b -> deriv_sv z t (derivative sat (z t) (F t) zero3 (rw_torque (s_rw sat) acc) (rw_momentum (s_rw sat) (v_whl (z t))) acc)) ->
  forall s t, a < s < b -> a < t < b -> inertial_momentum sat (z t) = inertial_momentum sat (z s) /\ dotq (v_att (z t)) (v_att (z t)) = dotq (v_att (z s)) (v_att (z s)).
Proof.
  intros DJ D s t Hs Ht. set (J := s_total_moment sat) in *.
  assert (DQ : forall u, a < u < b -> derivq (fun u => v_att (z u)) u (scaleq 0.5 (product (v_att (z u)) (pure (v_rate (z u)))))) by (intros u Hu; destruct (D u Hu) as (_ & _ & X & _); exact X).
  assert (DH : forall u, a < u < b -> deriv3 (fun u => body_momentum sat (z u)) u (opp3 (cross3 (v_rate (z u)) (body_momentum sat (z u))))).
  { intros u Hu. destruct (D u Hu) as (_ & _ & _ & X & Y). unfold body_momentum at 1. eapply d3_eq; [apply d3_add; [apply d3_mv; exact X|apply d3_momentum; exact Y]|]. cbn [derivative v_rate v_whl]. change (s_inv_tot sat) with (inv3 J). fold J. rewrite mv_inv3 by exact DJ.
    unfold body_momentum. fold J. generalize (mv J (v_rate (z u))) (rw_momentum (s_rw sat) (v_whl (z u))) (v_rate (z u)) (rw_torque (s_rw sat) acc). clear. intros [p q r] [l m n] [d e f] [g h i]. vunfoldg; cbn [x3 y3 z3]; rnumg. apply mk3_c; ring. }
  split.
  - assert (DL : forall u, a < u < b -> deriv3 (fun u => inertial_momentum sat (z u)) u zero3).
    { intros u Hu. unfold inertial_momentum. eapply d3_eq; [apply d3_sandwich_opp; [exact (DQ u Hu)|exact (DH u Hu)]|]. replace (add3 (opp3 (cross3 (v_rate (z u)) (body_momentum sat (z u)))) (cross3 (v_rate (z u)) (body_momentum sat (z u)))) with (zero3 (T:=R)) by (generalize (cross3 (v_rate (z u)) (body_momentum sat (z u))); clear; intros [p q r]; vunfoldg; cbn [x3 y3 z3]; rnumg; apply mk3_c; ring).
      generalize (v_att (z u)). clear. intros [p q r w]. unfold sandwich_opp, sandwich, conjugate, product, pure, vec. vunfoldg. cbn [x3 y3 z3 qw qx qy qz]. rnumg. apply mk3_c; ring. }
    assert (X := const_of_deriv (fun u => x3 (inertial_momentum sat (z u))) a b (fun u Hu => proj1 (DL u Hu)) t s Ht Hs).
    assert (Y := const_of_deriv (fun u => y3 (inertial_momentum sat (z u))) a b (fun u Hu => proj1 (proj2 (DL u Hu))) t s Ht Hs).
    assert (Z := const_of_deriv (fun u => z3 (inertial_momentum sat (z u))) a b (fun u Hu => proj2 (proj2 (DL u Hu))) t s Ht Hs).
    cbv beta in X, Y, Z. revert X Y Z. generalize (inertial_momentum sat (z t)) (inertial_momentum sat (z s)). clear. intros [p q r] [l m n]. cbn [x3 y3 z3]. congruence.
  - apply (const_of_deriv (fun u => dotq (v_att (z u)) (v_att (z u))) a b); [|exact Ht|exact Hs].
    intros v Hv. eapply d_eq; [apply d_dotq; exact (DQ v Hv)|]. cbv beta. generalize (v_att (z v)) (v_rate (z v)). clear. intros [p q r s] [x y z]. unfold pure, product. replace 0.5 with (1/2) by lra. vunfoldg; cbn [x3 y3 z3 qw qx qy qz]; rnumg. field.
Qed.
Lemma sm_next bound man x mi s' : transition bound man x (mkSM (VS Spindown) mi false) = (s', Done tt) ->
  (s' = mkSM (VS Spindown) mi false /\ ~ (norml (me_accl x) < 0.00001 /\ norml (me_whl x) < 0.01)) \/ (s' = mkSM (VS Sleep) mi false /\ norml (me_whl x) < 0.01).
Proof.
  unfold transition. cbn [sm_cur sm_mission propose]. unfold spindown_transition. destruct (Rltb_spec (norml (me_accl x)) 0.00001); destruct (Rltb_spec (norml (me_whl x)) 0.01); intros E; cbn in E; injection E as <-.
  - right. split; [reflexivity|assumption]. - left. split; [reflexivity|]. intros [U V]; lra. - left. split; [reflexivity|]. intros [U V]; lra. - left. split; [reflexivity|]. intros [U V]; lra.
Qed.
Lemma sm_sleeps bound man x mi s' : transition bound man x (mkSM (VS Sleep) mi false) = (s', Done tt) -> s' = mkSM (VS Sleep) mi false.
Proof. unfold transition. cbn. congruence. Qed.

(** what a cycle does, by the state it comes to *)
Lemma cycle_moves bound sat mt F B y t0 t1 mi c c' : det3 (s_total_moment sat) <> 0 -> t0 < t1 -> cycle bound sat mt F B y t0 t1 c c' -> (cr_sm c = mkSM (VS Spindown) mi false \/ cr_sm c = mkSM (VS Sleep) mi false) ->
  let w := v_whl (y t0) in length w = 4%nat /\ g_mag_cmd (cr_mgr c') = [0; 0; 0] /\
  ((cr_sm c = mkSM (VS Spindown) mi false /\ cr_sm c' = mkSM (VS Spindown) mi false /\ spindown_cmd w = Ok (g_rw_cmd (cr_mgr c')) /\ ~ (norml (g_rw_cmd (cr_mgr c)) < 0.00001 /\ norml w < 0.01)) \/
   (cr_sm c' = mkSM (VS Sleep) mi false /\ g_rw_cmd (cr_mgr c') = [0; 0; 0; 0] /\ (cr_sm c = mkSM (VS Spindown) mi false -> norml w < 0.01))) /\
  forall t, t0 <= t <= t1 -> v_whl (y t) = zip_with (fun x a => x + (t - t0) * a) w (g_rw_cmd (cr_mgr c')) /\ inertial_momentum sat (y t) = inertial_momentum sat (y t0) /\ dotq (v_att (y t)) (v_att (y t)) = dotq (v_att (y t0)) (v_att (y t0)).
Proof.
  intros DJ T01 (man & x & clock & meas & bore & target & st & mom & z & a & b & EW & EA & TR & ST & MW & MG & MM & A0 & B0 & EQ & D) S0 w.
  assert (Z0 : y t0 = z t0) by (apply EQ; lra). assert (LW : length w = 4%nat) by (unfold w; rewrite Z0; apply D; lra). split; [exact LW|].
  assert (SP : forall m, mission_input clock meas (st_value Spindown) bore target m = (set_cmds (fst (mission_input clock meas 42 bore target m)) [0; 0; 0] match spindown_cmd w with Ok a => a | Raise _ => [] end, None)).
  { intros m. unfold mission_input. cbn [kf_output]. unfold mission_commands. cbn [st_value Z.eqb Pos.eqb orb cs_v v_whl]. fold (v_whl (cs_v meas)). rewrite MW. fold w. destruct (cmd_ok w LW) as [q ->]. reflexivity. }
  assert (C : g_mag_cmd (cr_mgr c') = [0; 0; 0] /\
    ((cr_sm c = mkSM (VS Spindown) mi false /\ cr_sm c' = mkSM (VS Spindown) mi false /\ spindown_cmd w = Ok (g_rw_cmd (cr_mgr c')) /\ ~ (norml (g_rw_cmd (cr_mgr c)) < 0.00001 /\ norml w < 0.01)) \/
     (cr_sm c' = mkSM (VS Sleep) mi false /\ g_rw_cmd (cr_mgr c') = [0; 0; 0; 0] /\ (cr_sm c = mkSM (VS Spindown) mi false -> norml w < 0.01)))).
  { assert (SL : forall P : Prop, cr_sm c' = mkSM (VS Sleep) mi false -> P -> g_mag_cmd (cr_mgr c') = [0; 0; 0] /\ cr_sm c' = mkSM (VS Sleep) mi false /\ g_rw_cmd (cr_mgr c') = [0; 0; 0; 0] /\ P).
    { intros P E HP. rewrite E in ST. cbn [sm_cur] in ST. assert (st = Sleep) by congruence. subst st. destruct (C64_rest clock meas 1 bore target (cr_mgr c) (or_intror eq_refl)) as (m' & Q & M1 & M2). cbn [st_value] in MG. rewrite Q in MG. cbn [fst] in MG. rewrite MG. auto. }
    destruct S0 as [S0|S0]; rewrite S0 in TR.
    - destruct (sm_next _ _ _ _ _ TR) as [[E N]|[E N]]; rewrite EW in N.
      + rewrite EA in N. rewrite E in ST. cbn [sm_cur] in ST. assert (st = Spindown) by congruence. subst st. rewrite SP in MG. cbn [fst] in MG. rewrite MG. cbn [set_cmds g_mag_cmd g_rw_cmd]. split; [reflexivity|]. left.
        split; [exact S0|]. split; [exact E|]. split; [destruct (cmd_ok w LW) as [q ->]; reflexivity|exact N].
      + destruct (SL (norml w < 0.01) E N) as (P1 & P2 & P3 & P4). split; [exact P1|]. right. auto.
    - destruct (SL True (sm_sleeps _ _ _ _ _ TR) I) as (P1 & P2 & P3 & _). split; [exact P1|]. right. split; [exact P2|]. split; [exact P3|]. rewrite S0. discriminate. }
  destruct C as [CM CS]. split; [exact CM|]. split; [exact CS|].
  assert (LA : length (g_rw_cmd (cr_mgr c')) = 4%nat) by (destruct CS as [(_ & _ & Q & _)|(_ & Q & _)]; [exact (cmd_length _ _ LW Q)|rewrite Q; reflexivity]).
  rewrite CM in MM. assert (M0 := torquers_off mt 3 mom MM). set (acc := g_rw_cmd (cr_mgr c')) in *.
  assert (D' : forall t, a < t < b -> deriv_sv z t (derivative sat (z t) (F t) zero3 (rw_torque (s_rw sat) acc) (rw_momentum (s_rw sat) (v_whl (z t))) acc)).
  { intros t Ht. destruct (D t Ht) as [_ X]. rewrite M0 in X. replace (cross3 zero3 (B t)) with (zero3 (T:=R)) in X by (generalize (B t); clear; intros [p q r]; vunfoldg; cbn [x3 y3 z3]; rnumg; apply mk3_c; ring). exact X. }
  intros t Ht. rewrite (EQ t Ht). assert (I0 : a < t0 < b) by lra. assert (I1 : a < t < b) by lra. unfold w. rewrite Z0. split; [|apply (motion_keeps sat F acc z a b DJ D'); assumption].
  apply (speeds_linear (fun u => v_whl (z u)) acc a b LA); [|exact I0|exact I1]. intros u Hu. split; [apply D, Hu|]. destruct (D' u Hu) as (_ & _ & _ & _ & X). exact X.
Qed.
Lemma norm3_stretch (s : R) (v : v3) : norm3 (scale3 s v) = Rabs s * norm3 v.
Proof.
  unfold norm3. change (@nsqrt R RNum) with sqrt. rewrite <- sqrt_Rsqr_abs, <- sqrt_mult_alt by apply Rle_0_sqr. f_equal. destruct v as [p q r]. unfold Rsqr. vunfoldg. cbn [x3 y3 z3]. rnumg. ring.
Qed.
Lemma wheel_part sat pm w : four_wheels sat pm -> length w = 4%nat -> norm3 (rw_momentum (s_rw sat) w) <= 2 * pm * norml w.
Proof.
  intros [L4 FW] LW. unfold rw_momentum. destruct (rw_wheels (s_rw sat)) as [|w0 [|w1 [|w2 [|w3 [|? ?]]]]]; try discriminate. destruct w as [|s0 [|s1 [|s2 [|s3 [|? ?]]]]]; try discriminate.
  inversion_clear FW as [|? ? [A0 B0] F1]. inversion_clear F1 as [|? ? [A1 B1] F2]. inversion_clear F2 as [|? ? [A2 B2] F3]. inversion_clear F3 as [|? ? [A3 B3] _].
  assert (W : forall w s, norm3 (w_axis w) = 1 -> Rabs (w_par w) <= pm -> norm3 (w_momentum w s) <= pm * Rabs s).
  { intros w s A Bd. unfold w_momentum. rewrite !norm3_stretch, A, Rmult_1_r. apply Rmult_le_compat_r; [apply Rabs_pos|exact Bd]. }
  assert (W0 := W _ s0 A0 B0). assert (W1 := W _ s1 A1 B1). assert (W2 := W _ s2 A2 B2). assert (W3 := W _ s3 A3 B3).
  cbn [zip_with sum3 fold_right]. assert (Z : norm3 (zero3 (T:=R)) = 0) by (unfold norm3; vunfoldg; cbn [x3 y3 z3]; rnumg; replace (0 * 0 + 0 * 0 + 0 * 0) with 0 by ring; exact sqrt_0).
  assert (T1 := norm3_triangle (w_momentum w0 s0) (add3 (w_momentum w1 s1) (add3 (w_momentum w2 s2) (add3 (w_momentum w3 s3) zero3)))).
  assert (T2 := norm3_triangle (w_momentum w1 s1) (add3 (w_momentum w2 s2) (add3 (w_momentum w3 s3) zero3))). assert (T3 := norm3_triangle (w_momentum w2 s2) (add3 (w_momentum w3 s3) zero3)). assert (T4 := norm3_triangle (w_momentum w3 s3) zero3).
  assert (PM : 0 <= pm) by (apply (Rle_trans _ (Rabs (w_par w0))); [apply Rabs_pos|exact B0]).
  assert (SQ : Rabs s0 + Rabs s1 + Rabs s2 + Rabs s3 <= 2 * norml [s0; s1; s2; s3]).
  { rewrite norml4. set (n := s0 * s0 + s1 * s1 + s2 * s2 + s3 * s3). assert (E : forall e, e * e = Rabs e * Rabs e) by (intros e; rewrite <- Rabs_mult, Rabs_pos_eq; [reflexivity|nra]).
    assert (N0 : 0 <= n) by (unfold n; nra). assert (R0 := sqrt_pos n). assert (R1 := sqrt_sqrt n N0). assert (P0 := Rabs_pos s0). assert (P1 := Rabs_pos s1). assert (P2 := Rabs_pos s2). assert (P3 := Rabs_pos s3).
    unfold n in R1 at 3. rewrite (E s0), (E s1), (E s2), (E s3) in R1. revert R1 R0 P0 P1 P2 P3. generalize (sqrt n) (Rabs s0) (Rabs s1) (Rabs s2) (Rabs s3). clear. intros r a b c d R1 R0 P0 P1 P2 P3.
    apply Rsqr_incr_0_var; [|lra]. unfold Rsqr. replace (2 * r * (2 * r)) with (4 * (r * r)) by ring. rewrite R1. assert (X1 := Rle_0_sqr (a - b)). assert (X2 := Rle_0_sqr (a - c)). assert (X3 := Rle_0_sqr (a - d)). assert (X4 := Rle_0_sqr (b - c)). assert (X5 := Rle_0_sqr (b - d)). assert (X6 := Rle_0_sqr (c - d)). unfold Rsqr in *. nra. }
  assert (Q := Rmult_le_compat_l pm _ _ PM SQ). lra.
Qed.
Lemma hold_zero h w : length w = 4%nat -> zip_with (fun x a => x + h * a) w [0; 0; 0; 0] = w.
Proof. intros L. destruct w as [|p [|q [|r [|s [|? ?]]]]]; try discriminate. cbn [zip_with]. apply list4_eq; ring. Qed.

(** whatever the satellite, its four wheels, its state and the commands in force, and for every period up to a second: the momentum of body and wheels in the inertial frame
    never changes; after finitely many cycles the machine is asleep for good, nothing is commanded, and the wheels turn at less than 0.01 rad/s; all the
    momentum but 0.02 times the largest wheel moment is then in the body's own rotation *)
Theorem C125_asleep : forall bound sat mt F B y c h pm mi, det3 (s_total_moment sat) <> 0 -> four_wheels sat pm -> 0 < h <= 1 -> unitq (v_att (y 0)) ->
  cr_sm (c 0%nat) = mkSM (VS Spindown) mi false -> (forall k, cycle bound sat mt F B y (INR k * h) (INR (S k) * h) (c k) (c (S k))) ->
  (forall t, 0 <= t -> inertial_momentum sat (y t) = inertial_momentum sat (y 0)) /\
  exists N, (forall k, (N <= k)%nat -> cr_sm (c k) = mkSM (VS Sleep) mi false /\ g_rw_cmd (cr_mgr (c k)) = [0; 0; 0; 0] /\ g_mag_cmd (cr_mgr (c k)) = [0; 0; 0]) /\
    forall t, INR N * h <= t -> v_whl (y t) = v_whl (y (INR N * h)) /\ norml (v_whl (y t)) < 0.01 /\
      Rabs (norm3 (mv (s_total_moment sat) (v_rate (y t))) - norm3 (inertial_momentum sat (y 0))) <= 0.02 * pm.
Proof.
  intros bound sat mt F B y c h pm mi DJ FW Hh U0 C0 CY. set (tk := fun k => INR k * h). set (w := fun k => v_whl (y (tk k))).
  assert (TS : forall k, tk (S k) = tk k + h) by (intros k; unfold tk; rewrite S_INR; ring). assert (T0 : tk 0%nat = 0) by (unfold tk; cbn; ring).
  assert (TL : forall k, INR k * h < INR (S k) * h) by (intros k; fold (tk k) (tk (S k)); rewrite TS; lra).
  assert (SM : forall k, cr_sm (c k) = mkSM (VS Spindown) mi false \/ cr_sm (c k) = mkSM (VS Sleep) mi false).
  { intros k. induction k as [|k IH]; [left; exact C0|]. destruct (cycle_moves _ _ _ _ _ _ _ _ mi _ _ DJ (TL k) (CY k) IH) as (_ & _ & [(_ & X & _)|(X & _)] & _); auto. }
  assert (MV := fun k => cycle_moves _ _ _ _ _ _ _ _ mi _ _ DJ (TL k) (CY k) (SM k)). cbv zeta in MV.
  assert (LW : forall k, length (w k) = 4%nat) by (intros k; apply MV).
  assert (ST : forall t, 0 <= t -> exists k, tk k <= t <= tk (S k)) by (intros t Ht; destruct (step_of t h (proj1 Hh) Ht) as [k Hk]; exists k; rewrite TS; exact Hk).
  assert (IK : forall k, inertial_momentum sat (y (tk k)) = inertial_momentum sat (y 0) /\ unitq (v_att (y (tk k)))).
  { intros k. induction k as [|k IH]; [rewrite T0; split; [reflexivity|exact U0]|]. destruct (MV k) as (_ & _ & _ & P). destruct (P (tk (S k))) as (_ & P1 & P2); [fold (tk k) (tk (S k)); rewrite TS; lra|]. fold (tk k) in P1, P2. unfold unitq. rewrite P1, P2. exact IH. }
  assert (IT : forall t, 0 <= t -> inertial_momentum sat (y t) = inertial_momentum sat (y 0) /\ unitq (v_att (y t))).
  { intros t Ht. destruct (ST t Ht) as [k Hk]. destruct (MV k) as (_ & _ & _ & P). destruct (P t Hk) as (_ & P1 & P2). fold (tk k) in P1, P2. unfold unitq. rewrite P1, P2. apply IK. }
  split; [intros t Ht; apply IT, Ht|].
  assert (WN : forall k, w (S k) = zip_with (fun x a => x + h * a) (w k) (g_rw_cmd (cr_mgr (c (S k))))).
  { intros k. destruct (MV k) as (_ & _ & _ & P). destruct (P (tk (S k))) as (P0 & _); [fold (tk k) (tk (S k)); rewrite TS; lra|]. fold (tk k) in P0. fold (w k) (w (S k)) in P0. replace (tk (S k) - tk k) with h in P0 by (rewrite TS; ring). exact P0. }
  assert (INV : forall k, (cr_sm (c k) = mkSM (VS Spindown) mi false /\ w k = Nat.iter k (whl_hold h) (w 0%nat)) \/ (cr_sm (c k) = mkSM (VS Sleep) mi false /\ norml (w k) < 0.01)).
  { intros k. induction k as [|k IH]; [left; split; [exact C0|reflexivity]|]. destruct (MV k) as (_ & _ & [(S1 & S2 & S3 & _)|(S1 & S2 & S3)] & _); fold (tk k) in *; fold (w k) in *.
    - left. split; [exact S2|]. destruct IH as [[_ IH]|[IH _]]; [|rewrite S1 in IH; discriminate]. cbn [Nat.iter nat_rect]. change (w (S k) = whl_hold h (Nat.iter k (whl_hold h) (w 0%nat))). rewrite <- IH, WN. unfold whl_hold. rewrite S3. reflexivity.
    - right. split; [exact S1|]. rewrite WN, S2, hold_zero by apply LW. destruct IH as [[IH _]|[_ IH]]; [exact (S3 IH)|exact IH]. }
  destruct (spin_settles h (w 0%nat) Hh (LW 0%nat)) as [N HN].
  assert (SL : forall k, cr_sm (c k) = mkSM (VS Sleep) mi false -> cr_sm (c (S k)) = mkSM (VS Sleep) mi false) by (intros k E; destruct (MV k) as (_ & _ & [(S1 & _)|(S1 & _)] & _); [rewrite E in S1; discriminate|exact S1]).
  assert (A2 : cr_sm (c (S (S N))) = mkSM (VS Sleep) mi false).
  { destruct (MV N) as (_ & _ & [(S1 & S2 & S3 & _)|(S1 & _)] & _); [|apply SL, S1]. fold (tk N) in S3. fold (w N) in S3. destruct (INV N) as [[_ EN]|[EN _]]; [|rewrite S1 in EN; discriminate].
    destruct (HN N (le_n N)) as (L1 & K1 & M1 & _). rewrite <- EN in L1, K1, M1. destruct (C65_rest (w N) h L1 K1 M1) as [R1 _]. rewrite R1 in S3.
    destruct (MV (S N)) as (_ & _ & [(_ & _ & _ & X)|(X & _)] & _); [|exact X]. exfalso. apply X. assert (S3' : g_rw_cmd (cr_mgr (c (S N))) = [0; 0; 0; 0]) by congruence. rewrite S3'. split.
    - rewrite norml4. replace (0 * 0 + 0 * 0 + 0 * 0 + 0 * 0) with 0 by ring. rewrite sqrt_0. lra.
    - fold (tk (S N)). fold (w (S N)). rewrite WN, S3', hold_zero by exact L1. exact M1. }
  assert (A3 : forall j, cr_sm (c (j + S (S N))%nat) = mkSM (VS Sleep) mi false) by (intros j; induction j as [|j IH]; [exact A2|exact (SL _ IH)]).
  assert (AK : forall k, (S (S N) <= k)%nat -> cr_sm (c k) = mkSM (VS Sleep) mi false) by (intros k Hk; replace k with ((k - S (S N)) + S (S N))%nat by lia; apply A3).
  set (M := S (S (S N))). 
  assert (AC : forall k, (M <= k)%nat -> cr_sm (c k) = mkSM (VS Sleep) mi false /\ g_rw_cmd (cr_mgr (c k)) = [0; 0; 0; 0] /\ g_mag_cmd (cr_mgr (c k)) = [0; 0; 0]).
  { intros k Hk. unfold M in Hk. destruct k as [|k]; [lia|]. split; [apply AK; lia|]. assert (E := AK k ltac:(lia)). destruct (MV k) as (_ & Q & [(S1 & _)|(_ & S2 & _)] & _); [rewrite E in S1; discriminate|]. auto. }
  exists M. split; [exact AC|].
  assert (WK : forall j, w (j + M)%nat = w M) by (intros j; induction j as [|j IH]; [reflexivity|]; cbn [Nat.add]; rewrite WN; destruct (AC (S (j + M))%nat ltac:(lia)) as (_ & -> & _); rewrite hold_zero by apply LW; exact IH).
  assert (WM : norml (w M) < 0.01) by (destruct (INV M) as [[E _]|[_ E]]; [rewrite AK in E by (unfold M; lia); discriminate|exact E]).
  assert (MONO : forall i j, (i <= j)%nat -> tk i <= tk j) by (intros i j Hij; unfold tk; apply Rmult_le_compat_r; [lra|apply le_INR, Hij]).
  assert (M0 : 0 <= tk M) by (rewrite <- T0; apply MONO; lia).
  intros t Ht. fold (tk M) in *. fold (w M). assert (W : v_whl (y t) = w M).
  { destruct (Rle_lt_or_eq_dec _ _ Ht) as [Lt|Eq]; [|rewrite <- Eq; reflexivity]. destruct (ST t ltac:(lra)) as [k Hk]. assert (KM : (M <= k)%nat) by (destruct (Nat.le_gt_cases M k) as [X|X]; [exact X|]; assert (Y := MONO (S k) M ltac:(lia)); lra).
    destruct (MV k) as (_ & _ & _ & P). destruct (P t Hk) as (P0 & _). fold (tk k) in P0. fold (w k) in P0. rewrite P0. destruct (AC (S k) ltac:(lia)) as (_ & -> & _). rewrite hold_zero by apply LW. replace k with ((k - M) + M)%nat by lia. apply WK. }
  split; [exact W|]. rewrite W. split; [exact WM|]. destruct (IT t ltac:(lra)) as [I1 I2]. rewrite <- I1. unfold inertial_momentum, sandwich_opp. rewrite norm_sand.
  replace (dotq (conjugate (v_att (y t))) (conjugate (v_att (y t)))) with 1 by (unfold unitq in I2; rewrite <- I2; generalize (v_att (y t)); clear; intros [p q r s]; unfold conjugate, dotq; cbn [qw qx qy qz]; rnumg; ring). rewrite Rmult_1_l.
  assert (WP := wheel_part sat pm (w M) FW (LW M)). assert (PM : 0 <= pm). { destruct FW as [L4 FW]. destruct (rw_wheels (s_rw sat)) as [|w0 ?]; [discriminate|]. inversion_clear FW as [|? ? [_ Q] _]. apply (Rle_trans _ (Rabs (w_par w0))); [apply Rabs_pos|exact Q]. }
  assert (WQ : norm3 (rw_momentum (s_rw sat) (w M)) <= 0.02 * pm) by (assert (Q := Rmult_le_compat_l (2 * pm) _ _ ltac:(lra) (Rlt_le _ _ WM)); lra).
  unfold body_momentum. rewrite W. revert WQ. generalize (mv (s_total_moment sat) (v_rate (y t))) (rw_momentum (s_rw sat) (w M)). clear. intros p q WQ. assert (T1 := norm3_triangle p q). assert (T2 := norm3_triangle (add3 p q) (scale3 (-1) q)). rewrite norm3_stretch in T2.
  replace (add3 (add3 p q) (scale3 (-1) q)) with p in T2 by (destruct p as [p1 p2 p3], q as [q1 q2 q3]; vunfoldg; cbn [x3 y3 z3]; rnumg; apply mk3_c; ring). replace (Rabs (-1)) with 1 in T2 by (unfold Rabs; destruct (Rcase_abs (-1)); lra). apply Rabs_le. lra.
Qed.
Print Assumptions C125_asleep.
(** that the satellite sleeps at rest is false: it goes to sleep turning.  Started from a body at rest with wheels turning, it turns for ever after at no less than the
    wheels' momentum at the start (less 0.02 pm) divided by the largest moment of inertia *)
Theorem C125_rest_refuted : forall bound sat mt F B y c h pm mi jm, det3 (s_total_moment sat) <> 0 -> four_wheels sat pm -> 0 < h <= 1 -> unitq (v_att (y 0)) ->
  cr_sm (c 0%nat) = mkSM (VS Spindown) mi false -> (forall k, cycle bound sat mt F B y (INR k * h) (INR (S k) * h) (c k) (c (S k))) ->
  0 < jm -> (forall v, norm3 (mv (s_total_moment sat) v) <= jm * norm3 v) -> v_rate (y 0) = zero3 ->
  exists N, (forall k, (N <= k)%nat -> cr_sm (c k) = mkSM (VS Sleep) mi false) /\
    forall t, INR N * h <= t -> (norm3 (rw_momentum (s_rw sat) (v_whl (y 0))) - 0.02 * pm) / jm <= norm3 (v_rate (y t)).
Proof.
  intros bound sat mt F B y c h pm mi jm DJ FW Hh U0 C0 CY J0 JM R0. destruct (C125_asleep bound sat mt F B y c h pm mi DJ FW Hh U0 C0 CY) as (_ & N & P & Q). exists N. split; [intros k Hk; apply P, Hk|].
  intros t Ht. destruct (Q t Ht) as (_ & _ & X). assert (X' : norm3 (inertial_momentum sat (y 0)) - norm3 (mv (s_total_moment sat) (v_rate (y t))) <= 0.02 * pm) by (apply (Rle_trans _ _ _ (Rle_abs _)); rewrite Rabs_minus_sym; exact X). assert (Y := JM (v_rate (y t))).
  assert (E : norm3 (inertial_momentum sat (y 0)) = norm3 (rw_momentum (s_rw sat) (v_whl (y 0)))).
  { unfold inertial_momentum, sandwich_opp. rewrite norm_sand. replace (dotq (conjugate (v_att (y 0))) (conjugate (v_att (y 0)))) with 1 by (unfold unitq in U0; rewrite <- U0; generalize (v_att (y 0)); clear; intros [p q r s]; unfold conjugate, dotq; cbn [qw qx qy qz]; rnumg; ring). rewrite Rmult_1_l. f_equal.
    unfold body_momentum. rewrite R0. generalize (s_total_moment sat) (rw_momentum (s_rw sat) (v_whl (y 0))). clear. intros [[a b c] [d e f] [g h i]] [p q r]. vunfoldg. cbn [x3 y3 z3 row1 row2 row3]. rnumg. apply mk3_c; ring. }
  rewrite E in X'. apply (Rmult_le_reg_l jm); [exact J0|]. replace (jm * ((norm3 (rw_momentum (s_rw sat) (v_whl (y 0))) - 0.02 * pm) / jm)) with (norm3 (rw_momentum (s_rw sat) (v_whl (y 0))) - 0.02 * pm) by (field; lra). lra.
Qed.
Print Assumptions C125_rest_refuted.

(** a satellite with the pyramid of four wheels, at rest with its wheels at 1/50 rad/s: a first period of braking, a second of zero commands, then sleep, turning about z *)
Definition coast_sat : Satellite := mkSat 0 0 0 0.8 2 5 (mkRWS (pyramid (PI / 4) 0 1 1) 1 false) (mk3 1 1 1) zero3 false.
Definition coast_state (th p s : R) : SVec := mkSV zero3 zero3 (mkq (cos (th / 2)) 0 0 (sin (th / 2))) (mk3 0 0 p) [s; s; s; s].
Lemma coast_total : s_total_moment coast_sat = diag3 5 5 5.
Proof.
  unfold s_total_moment, s_reduced_moment, s_wheel_moment, rw_parallel, rw_orthogonal, coast_sat, pyramid. cbn [s_rw rw_wheels s_reduced s_principal map summ fold_right]. unfold w_par_moment, w_orth_moment. cbn [w_axis w_par w_orth].
  generalize (pyramid_axis (PI / 4) 0 0) (pyramid_axis (PI / 4) 0 1) (pyramid_axis (PI / 4) 0 2) (pyramid_axis (PI / 4) 0 3). clear. intros [a1 a2 a3] [b1 b2 b3] [c1 c2 c3] [d1 d2 d3].
  unfold addm, scalem, subm, outer3, id3, diag3. vunfoldg. cbn [x3 y3 z3 row1 row2 row3]. rnumg. f_equal; apply mk3_c; ring.
Qed.
Lemma coast_wheels s : rw_momentum (s_rw coast_sat) [s; s; s; s] = mk3 0 0 (4 * cos (PI / 4) * s).
Proof.
  assert (X := pyr_axes (PI / 4) 0 1 1). unfold rw_momentum, coast_sat. cbn [s_rw rw_wheels]. unfold pyramid in *. cbn [map w_axis zip_with] in *.
  assert (LI : forall (a b c d a' b' c' d' : v3), [a; b; c; d] = [a'; b'; c'; d'] -> a = a' /\ b = b' /\ c = c' /\ d = d') by (intros * Q; repeat split; congruence).
  apply LI in X. destruct X as (A0 & A1 & A2 & A3). unfold w_momentum. cbn [w_axis w_par]. rewrite A0, A1, A2, A3. cbn [sum3 fold_right]. generalize (sin (PI / 4)) (cos (PI / 4)) (sin 0) (cos 0). clear. intros a b c d. vunfoldg. cbn [x3 y3 z3]. rnumg. apply mk3_c; ring.
Qed.
Lemma coast_moves (th p s : R -> R) t ds : derivable_pt_lim th t (p t) -> derivable_pt_lim s t ds -> derivable_pt_lim p t (- (4 * cos (PI / 4) * ds) / 5) ->
  deriv_sv (fun u => coast_state (th u) (p u) (s u)) t (derivative coast_sat (coast_state (th t) (p t) (s t)) zero3 (cross3 zero3 zero3) (rw_torque (s_rw coast_sat) [ds; ds; ds; ds]) (rw_momentum (s_rw coast_sat) (v_whl (coast_state (th t) (p t) (s t)))) [ds; ds; ds; ds]).
Proof.
  intros DT DS DP. change (rw_torque (s_rw coast_sat)) with (rw_momentum (s_rw coast_sat)). unfold derivative. cbn [coast_state v_pos v_vel v_att v_rate v_whl]. rewrite !coast_wheels. change (s_inv_tot coast_sat) with (inv3 (s_total_moment coast_sat)). rewrite coast_total.
  assert (H2 : derivable_pt_lim (fun u => th u / 2) t (p t / 2)) by (eapply d_eq; [apply d_mult; [exact DT|exact (d_const (/ 2) t)]|]; cbv beta; unfold Rdiv; ring).
  assert (DC := derivable_pt_lim_comp (fun u => th u / 2) cos t _ _ H2 (derivable_pt_lim_cos (th t / 2))). assert (DSn := derivable_pt_lim_comp (fun u => th u / 2) sin t _ _ H2 (derivable_pt_lim_sin (th t / 2))). unfold comp in DC, DSn.
  split; [exact (d3_const zero3 t)|]. split; [eapply d3_eq; [exact (d3_const zero3 t)|]; vunfoldg; cbn [x3 y3 z3]; rnumg; apply mk3_c; unfold Rdiv; ring|]. split; [|split].
  - unfold derivq. cbn [v_att qw qx qy qz]. unfold product, scaleq. cbn [qw qx qy qz]. rnumg. repeat split.
    + eapply d_eq; [exact DC|]. generalize (sin (th t / 2)) (cos (th t / 2)) (p t). clear. intros. replace 0.5 with (/ 2) by lra. unfold pure, vec. vunfoldg. cbn [x3 y3 z3 qw qx qy qz]. rnumg. field.
    + eapply d_eq; [exact (d_const 0 t)|]. generalize (sin (th t / 2)) (cos (th t / 2)) (p t). clear. intros. replace 0.5 with (/ 2) by lra. unfold pure, vec. vunfoldg. cbn [x3 y3 z3 qw qx qy qz]. rnumg. field.
    + eapply d_eq; [exact (d_const 0 t)|]. generalize (sin (th t / 2)) (cos (th t / 2)) (p t). clear. intros. replace 0.5 with (/ 2) by lra. unfold pure, vec. vunfoldg. cbn [x3 y3 z3 qw qx qy qz]. rnumg. field.
    + eapply d_eq; [exact DSn|]. generalize (sin (th t / 2)) (cos (th t / 2)) (p t). clear. intros. replace 0.5 with (/ 2) by lra. unfold pure, vec. vunfoldg. cbn [x3 y3 z3 qw qx qy qz]. rnumg. field.
  - cbn [v_rate]. split; [|split]; cbn [x3 y3 z3]; (eapply d_eq; [first [exact DP|exact (d_const 0 t)]|]); generalize (cos (PI / 4)) (p t) (s t); clear; intros a b c; vunfoldg; cbn [x3 y3 z3 row1 row2 row3]; rnumg; field.
  - cbn [v_whl]. intros i. destruct i as [|[|[|[|i]]]]; cbn [nth]; try exact DS. destruct i; exact (d_const 0 t).
Qed.
Lemma down_cmd clock meas bore target m a : spindown_cmd (v_whl (cs_v meas)) = Ok a -> g_rw_cmd (fst (mission_input clock meas 4 bore target m)) = a.
Proof. intros E. unfold mission_input. cbn [kf_output]. unfold mission_commands. cbn [st_value Z.eqb Pos.eqb orb cs_v v_whl]. fold (v_whl (cs_v meas)). rewrite E. reflexivity. Qed.
Lemma equal_speeds x : norml [x; x; x; x] = 2 * Rabs x /\ along x x x x = 0.
Proof. split; [|unfold along; lra]. rewrite norml4. replace (x * x + x * x + x * x + x * x) with (Rsqr (2 * x)) by (unfold Rsqr; ring). rewrite sqrt_Rsqr_abs, Rabs_mult, (Rabs_pos_eq 2) by lra. reflexivity. Qed.
Lemma MULT_near1 : 3 / 4 < MULT < 5 / 4.
Proof.
  unfold MULT, K_BBQ. assert (Q := PI_4). assert (P := PI2_3_2). replace (1.72192143 * 4 * PI / 5560.8 * 250) with (PI * (1.72192143 * 4 / 5560.8 * 250)) by lra.
  assert (1.72192143 * 4 / 5560.8 * 250 < 0.31) by lra. assert (0.3 < 1.72192143 * 4 / 5560.8 * 250) by lra. nra.
Qed.
Definition coast_rate : R := 4 * cos (PI / 4) * (1 / 50 * MULT) / 5.
Definition coast_a (t : R) : SVec := coast_state (coast_rate * t * t / 2) (coast_rate * t) (1 / 50 * (1 - MULT * t)).
Definition coast_b (t : R) : SVec := coast_state (coast_rate * t - coast_rate / 2) coast_rate (1 / 50 * (1 - MULT)).
Definition coast (t : R) : SVec := if Rle_dec t 1 then coast_a t else coast_b t.
Lemma coast_1 : coast_a 1 = coast_b 1.
Proof. unfold coast_a, coast_b. f_equal; field. Qed.
Section Coast.
Variables (clock : AClock) (mi : option Mission).
Definition meas_of (v : SVec) : CState := mkCS v zero3.
Definition coast_mgr (k : nat) : Mgr := nat_rect (fun _ => Mgr) ex_mgr (fun k m => fst (mission_input clock (meas_of (coast (INR k * 1))) (if Nat.ltb k 2 then 4 else 1)%Z zero3 zero3 m)) k.
Definition coast_craft (k : nat) : Craft := mkCraft (mkSM (VS (if Nat.leb k 2 then Spindown else Sleep)) mi false) (coast_mgr k).
Lemma coast_cycles bound (man : Man) k : cycle bound coast_sat [] (fun _ => zero3) (fun _ => zero3) coast (INR k * 1) (INR (S k) * 1) (coast_craft k) (coast_craft (S k)).
Proof.
  assert (MR := MULT_near1). destruct (equal_speeds (1 / 50)) as [N0 A0]. destruct (equal_speeds (1 / 50 * (1 - MULT))) as [N1 A1].
  rewrite (Rabs_pos_eq (1 / 50)) in N0 by lra. assert (N1' : norml [1 / 50 * (1 - MULT); 1 / 50 * (1 - MULT); 1 / 50 * (1 - MULT); 1 / 50 * (1 - MULT)] < 0.01) by (rewrite N1; assert (Rabs (1 / 50 * (1 - MULT)) < 0.005) by (apply Rabs_def1; lra); lra).
  assert (Y0 : coast (INR 0 * 1) = coast_state 0 0 (1 / 50)) by (unfold coast; destruct (Rle_dec (INR 0 * 1) 1) as [Q|Q]; [|cbn in Q; lra]; unfold coast_a; cbn [INR]; f_equal; field).
  assert (YK : forall k, v_whl (coast (INR (S k) * 1)) = [1 / 50 * (1 - MULT); 1 / 50 * (1 - MULT); 1 / 50 * (1 - MULT); 1 / 50 * (1 - MULT)]).
  { intros j. unfold coast. destruct (Rle_dec (INR (S j) * 1) 1) as [Q|Q]; [|reflexivity]. assert (P := pos_INR j). rewrite S_INR in *. replace ((INR j + 1) * 1) with 1 by lra. rewrite coast_1. reflexivity. }
  assert (AB : Rabs 0 < 0.00001) by (rewrite Rabs_R0; lra).
  assert (C0 : spindown_cmd [1 / 50; 1 / 50; 1 / 50; 1 / 50] = Ok [- (1 / 50) * MULT; - (1 / 50) * MULT; - (1 / 50) * MULT; - (1 / 50) * MULT]) by (destruct (spindown_cases (1 / 50) (1 / 50) (1 / 50) (1 / 50)) as (_ & _ & C); cbv zeta in C; apply C; [rewrite A0; exact AB|rewrite N0; lra]).
  set (x1 := 1 / 50 * (1 - MULT)) in *.
  assert (C1 : spindown_cmd [x1; x1; x1; x1] = Ok [0; 0; 0; 0]) by (destruct (spindown_cases x1 x1 x1 x1) as (_ & C & _); cbv zeta in C; apply C; [rewrite A1; exact AB|exact N1']).
  assert (G1 : g_rw_cmd (coast_mgr 1) = [- (1 / 50) * MULT; - (1 / 50) * MULT; - (1 / 50) * MULT; - (1 / 50) * MULT]) by (apply down_cmd; cbn [meas_of cs_v]; rewrite Y0; exact C0).
  assert (GK : forall k, g_rw_cmd (coast_mgr (S (S k))) = [0; 0; 0; 0]).
  { intros j. change (coast_mgr (S (S j))) with (fst (mission_input clock (meas_of (coast (INR (S j) * 1))) (if Nat.ltb (S j) 2 then 4 else 1)%Z zero3 zero3 (coast_mgr (S j)))). destruct (Nat.ltb (S j) 2) eqn:E.
    - apply down_cmd. cbn [meas_of cs_v]. rewrite YK. exact C1.
    - destruct (C64_rest clock (meas_of (coast (INR (S j) * 1))) 1 zero3 zero3 (coast_mgr (S j)) (or_intror eq_refl)) as (m' & Q & _ & Q2). rewrite Q. exact Q2. }
  assert (NA : 0.00001 <= norml [- (1 / 50) * MULT; - (1 / 50) * MULT; - (1 / 50) * MULT; - (1 / 50) * MULT]).
  { destruct (equal_speeds (- (1 / 50) * MULT)) as [-> _]. replace (- (1 / 50) * MULT) with (- (1 / 50 * MULT)) by ring. rewrite Rabs_Ropp, Rabs_pos_eq by lra. lra. }
  assert (NZ : norml [0; 0; 0; 0] < 0.00001) by (destruct (equal_speeds 0) as [-> _]; rewrite Rabs_R0; lra).
  exists man, (mkMeas q1 zero3 (v_whl (coast (INR k * 1))) [] (g_rw_cmd (coast_mgr k))), clock, (meas_of (coast (INR k * 1))), zero3, zero3, (if Nat.leb (S k) 2 then Spindown else Sleep), zero3.
  destruct k as [|k].
  - exists coast_a, (-1), 2. cbn [me_whl me_accl coast_craft cr_mgr cr_sm sm_cur Nat.leb]. split; [reflexivity|]. split; [reflexivity|]. split.
    { unfold transition. cbn [sm_cur sm_mission propose]. unfold spindown_transition. cbn [me_accl me_whl]. rewrite Y0. cbn [coast_state v_whl]. rewrite N0. destruct (Rltb_spec (2 * (1 / 50)) 0.01); [lra|]. rewrite andb_false_r. reflexivity. }
    split; [reflexivity|]. split; [reflexivity|]. split; [reflexivity|]. split; [reflexivity|]. split; [cbn; lra|]. split; [cbn; lra|]. split.
    { intros t Ht. cbn in Ht. unfold coast. destruct (Rle_dec t 1); [reflexivity|lra]. }
    intros t Ht. split; [reflexivity|]. rewrite G1. apply coast_moves.
    + eapply d_eq; [apply d_mult; [apply d_mult; [apply d_mult; [exact (d_const coast_rate t)|exact (derivable_pt_lim_id t)]|exact (derivable_pt_lim_id t)]|exact (d_const (/ 2) t)]|]. cbv beta. unfold id. field.
    + eapply d_eq; [apply d_mult; [exact (d_const (1 / 50) t)|apply d_minus; [exact (d_const 1 t)|apply d_mult; [exact (d_const MULT t)|exact (derivable_pt_lim_id t)]]]|]. cbv beta. unfold id. ring.
    + eapply d_eq; [apply d_mult; [exact (d_const coast_rate t)|exact (derivable_pt_lim_id t)]|]. cbv beta. unfold id, coast_rate. field.
  - exists coast_b, 0, (INR (S (S k)) * 1 + 1). assert (P := pos_INR k). cbn [me_whl me_accl coast_craft cr_mgr cr_sm sm_cur]. split; [reflexivity|]. split; [reflexivity|]. split.
    { destruct k as [|k].
      - unfold transition. cbn [sm_cur sm_mission propose Nat.leb]. unfold spindown_transition. cbn [me_accl me_whl]. rewrite G1. destruct (Rltb_spec (norml [- (1 / 50) * MULT; - (1 / 50) * MULT; - (1 / 50) * MULT; - (1 / 50) * MULT]) 0.00001); [lra|]. reflexivity.
      - destruct k as [|k]; [|reflexivity]. unfold transition. cbn [sm_cur sm_mission propose Nat.leb]. unfold spindown_transition. cbn [me_accl me_whl]. rewrite (GK 0%nat), (YK 1%nat). destruct (Rltb_spec (norml [0; 0; 0; 0]) 0.00001); [|lra]. destruct (Rltb_spec (norml [x1; x1; x1; x1]) 0.01); [|lra]. reflexivity. }
    split; [reflexivity|]. split; [reflexivity|]. split.
    { change (coast_mgr (S (S k))) with (fst (mission_input clock (meas_of (coast (INR (S k) * 1))) (if Nat.ltb (S k) 2 then 4 else 1)%Z zero3 zero3 (coast_mgr (S k)))). destruct k; reflexivity. }
    split; [reflexivity|]. split; [rewrite S_INR; lra|]. split; [lra|]. split.
    { intros t Ht. rewrite S_INR in Ht. unfold coast. destruct (Rle_dec t 1) as [Q|Q]; [|reflexivity]. replace t with 1 by lra. apply coast_1. }
    intros t Ht. split; [reflexivity|]. rewrite GK. apply (coast_moves (fun t => coast_rate * t - coast_rate / 2) (fun _ => coast_rate) (fun _ => x1)).
    + eapply d_eq; [apply d_minus; [apply d_mult; [exact (d_const coast_rate t)|exact (derivable_pt_lim_id t)]|exact (d_const (coast_rate / 2) t)]|]. cbv beta. unfold id. field.
    + exact (d_const x1 t).
    + eapply d_eq; [exact (d_const coast_rate t)|]. field.
Qed.
End Coast.
Example C125_ex : forall clock (man : Man) mi, det3 (s_total_moment coast_sat) <> 0 /\ four_wheels coast_sat 1 /\ 0 < 1 <= 1 /\ unitq (v_att (coast 0)) /\
  cr_sm (coast_craft clock mi 0) = mkSM (VS Spindown) mi false /\ (forall k, cycle true coast_sat [] (fun _ => zero3) (fun _ => zero3) coast (INR k * 1) (INR (S k) * 1) (coast_craft clock mi k) (coast_craft clock mi (S k))) /\
  (forall v, norm3 (mv (s_total_moment coast_sat) v) <= 5 * norm3 v) /\ v_rate (coast 0) = zero3 /\ 0.02 * 1 < norm3 (rw_momentum (s_rw coast_sat) (v_whl (coast 0))).
Proof.
  intros clock man mi.
  assert (Y0 : coast 0 = coast_state 0 0 (1 / 50)) by (unfold coast; destruct (Rle_dec 0 1) as [Q|Q]; [|lra]; unfold coast_a; f_equal; field). rewrite Y0. rewrite coast_total.
  split; [vunfoldg; cbn [x3 y3 z3 row1 row2 row3]; rnumg; lra|]. split.
  { split; [reflexivity|]. apply Forall_forall. intros w Hw. cbn [coast_sat s_rw rw_wheels] in Hw. split; [unfold norm3; rewrite (proj1 (C27_axes _ _ _ _ w Hw)); exact sqrt_1|]. unfold pyramid in Hw. apply in_map_iff in Hw. destruct Hw as (j & <- & _). cbn [w_par]. rewrite Rabs_pos_eq; lra. }
  split; [lra|]. split; [unfold unitq, coast_state; cbn [v_att]; replace (0 / 2) with 0 by field; rewrite cos_0, sin_0; unfold dotq; cbn [qw qx qy qz]; rnumg; ring|]. split; [reflexivity|]. split; [intros k; apply coast_cycles, man|]. split.
  { intros v. replace (mv (diag3 5 5 5) v) with (scale3 5 v) by (destruct v as [v1 v2 v3]; vunfoldg; cbn [x3 y3 z3 row1 row2 row3]; rnumg; apply mk3_c; ring). rewrite norm3_stretch, Rabs_pos_eq by lra. right. reflexivity. }
  split; [reflexivity|]. cbn [coast_state v_whl]. rewrite coast_wheels. replace (mk3 0 0 (4 * cos (PI / 4) * (1 / 50))) with (scale3 (4 * cos (PI / 4) * (1 / 50)) (mk3 0 0 1)) by (vunfoldg; cbn [x3 y3 z3]; rnumg; apply mk3_c; ring). rewrite norm3_stretch.
  replace (norm3 (mk3 0 0 1)) with 1 by (unfold norm3; vunfoldg; cbn [x3 y3 z3]; rnumg; replace (0 * 0 + 0 * 0 + 1 * 1) with 1 by ring; symmetry; exact sqrt_1).
  assert (C : 1 / 2 < cos (PI / 4)). { rewrite <- cos_PI3. assert (P := PI_RGT_0). apply cos_decreasing_1; lra. } rewrite Rabs_pos_eq; lra.
Qed.
