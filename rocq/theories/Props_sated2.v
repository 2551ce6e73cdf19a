(** * C137, continued: excess spin decays exponentially under weak wheels *)
From Coq Require Import Reals ZArith List Bool Lra Lia Psatz.
From Coquelicot Require Derive.
From Verif Require Import Num Vec M_vector M_quaternion M_jday M_struct M_dyn M_ctrl S_rot S_dyn S_ctrl.
From Verif Require Import P_quat P_sat P_struct P_wheel P_dyn P_dyn2 P_obs P_ctrl P_ctrl2 P_ctrl5 P_tot3 P_samp P_posf Props_struct Props_conv Props_samp Props_sated.
Import ListNotations.
Local Open Scope R_scope.

(** the wheels give a fraction of the torque asked for that is no smaller than the limit requires *)
Lemma fraction s : spanning s -> (rw_limited s = true -> 0 < rw_maxT s) ->
  exists D, 0 <= D /\ forall T, exists a k, rw_accelerations s T = Ok a /\ 0 < k <= 1 /\ rw_torque s a = scale3 k T /\ (k < 1 -> 0 < rw_maxT s /\ rw_maxT s <= k * (D * norm3 T)).
Proof.
  intros [HD HP] LM. destruct (mv_bounded (inv3 (rw_gram s))) as (m & M0 & MB).
  assert (NB : exists A, 0 <= A /\ forall w, In w (rw_wheels s) -> norm3 (w_axis w) <= A).
  { clear. induction (rw_wheels s) as [|w ws (A & A0 & AB)]; [exists 0; split; [lra|intros w []]|]. assert (N := P_quat.norm3_pos (w_axis w)). exists (norm3 (w_axis w) + A). split; [lra|]. intros w' [<-|H]; [lra|]. assert (X := AB w' H). lra. }
  destruct NB as (A & A0 & AB). exists (A * m). split; [apply Rmult_le_pos; assumption|]. intros T. destruct (rw_limited s) eqn:E.
  2: { destruct (C26_exact s T E HD HP) as (a & EA & _ & Q). exists a, 1. split; [exact EA|]. split; [lra|]. split; [|lra]. rewrite Q. destruct T as [?a ?b ?c]. vunfoldg. cbn [x3 y3 z3]. rnumg. apply mk3_c; ring. }
  specialize (LM eq_refl). set (tau := rw_distribute s T).
  assert (L : length tau = length (rw_wheels s)) by (unfold tau, rw_distribute; apply map_length).
  assert (NE : tau <> []). { intros X. rewrite X in L. destruct (rw_wheels s) eqn:W; [|discriminate]. apply HD. unfold rw_gram. rewrite W. cbn [map summ fold_right]. vunfold; rnum. ring. }
  assert (NE' : map Rabs tau <> []) by (destruct tau; [congruence|discriminate]). destruct (greatest_exists _ NE') as [G HG]. assert (SE := saturation_eq tau (rw_maxT s) G HG).
  assert (GB : G <= A * m * norm3 T).
  { destruct HG as [IG _]. apply in_map_iff in IG. destruct IG as (x & <- & IX). unfold tau, rw_distribute in IX. apply in_map_iff in IX. destruct IX as (w & <- & IW).
    eapply Rle_trans; [apply P_orb3.dot_norm|]. assert (X1 := AB w IW). assert (X2 := MB T). assert (N1 := P_quat.norm3_pos (w_axis w)). assert (N2 := P_quat.norm3_pos (mv (inv3 (rw_gram s)) T)).
    rewrite Rmult_assoc. apply Rmult_le_compat; assumption. }
  assert (K : exists k, 0 < k <= 1 /\ saturation tau (rw_maxT s) = Ok (map (fun x => k * x) tau) /\ (k < 1 -> rw_maxT s = k * G)).
  { rewrite SE. destruct (Rltb_spec (rw_maxT s) G) as [H|H].
    - exists (rw_maxT s / G). split; [split; [apply Rdiv_lt_0_compat; lra|apply Rmult_le_reg_r with G; [lra|]; replace (rw_maxT s / G * G) with (rw_maxT s) by (field; lra); lra]|]. split; [f_equal; apply map_ext; intros x; field; lra|intros _; field; lra].
    - exists 1. split; [lra|]. split; [f_equal; symmetry; apply map_id_ext; intros; ring|lra]. }
  destruct K as (k & K & SA & KG). exists (zip_with w_acceleration (rw_wheels s) (map (fun x => k * x) tau)), k.
  split; [unfold rw_accelerations; rewrite E; fold tau; cbv zeta; rewrite SA; reflexivity|]. split; [exact K|].
  split. { rewrite torque_of_accel by (assumption || (rewrite map_length; exact L)). rewrite wheel_sum_scale. f_equal. apply distribute_exact, HD. }
  intros K1. split; [exact LM|]. rewrite (KG K1) at 1. apply Rmult_le_compat_l; [lra|exact GB].
Qed.
(** the power of a fraction k of the torque asked for *)
Lemma power_decay J (k s al ga jm : R) (om e h d : v3) : symm J -> pdm J -> 0 < k -> s * s = 1 -> 0 < ga -> dot3 e e <= 1 -> 0 <= jm -> (forall v, dot3 v (mv J v) <= jm * dot3 v v) ->
  mv J d = add3 (scale3 (k - 1) (cross3 om h)) (scale3 (- k) (mv J (add3 (scale3 (s * al) e) (scale3 ga om)))) -> 2 * dot3 om (mv J d) <= - (k * ga) * (dot3 om (mv J om) - jm * (al / ga) ^ 2).
Proof.
  intros SY PD K S GA E JM B ->.
  set (z := add3 (scale3 (s * al) e) (scale3 ga om)).
  assert (X : dot3 om (add3 (scale3 (k - 1) (cross3 om h)) (scale3 (- k) (mv J z))) = - k * dot3 om (mv J z)) by (generalize (mv J z); clear; destruct om as [?a ?b ?c], h as [?a ?b ?c]; intros [?a ?b ?c]; vunfoldg; cbn [x3 y3 z3]; rnumg; ring).
  rewrite X. assert (ZN : 0 <= dot3 z (mv J z)). { destruct (zero3_dec z) as [->|NZ]; [right; vunfoldg; cbn [x3 y3 z3]; rnumg; ring|left; apply PD, NZ]. }
  assert (Y : 2 * ga * dot3 om (mv J z) = dot3 z (mv J z) + ga ^ 2 * dot3 om (mv J om) - al ^ 2 * dot3 e (mv J e)).
  { assert (SE : dot3 om (mv J e) = dot3 e (mv J om)) by (apply sym_dot, SY).
    assert (MZ : mv J z = add3 (scale3 (s * al) (mv J e)) (scale3 ga (mv J om))) by (unfold z; generalize J e om (s * al) ga; clear; vring). rewrite MZ. unfold z.
    transitivity (2 * ga * (s * al * dot3 om (mv J e) + ga * dot3 om (mv J om))); [generalize (mv J e) (mv J om); clear; destruct om as [?a ?b ?c]; intros [?a ?b ?c] [?a ?b ?c]; vunfoldg; cbn [x3 y3 z3]; rnumg; ring|].
    transitivity (((s * s) * al ^ 2 * dot3 e (mv J e) + s * al * ga * (dot3 e (mv J om) + dot3 om (mv J e)) + ga ^ 2 * dot3 om (mv J om)) + ga ^ 2 * dot3 om (mv J om) - al ^ 2 * dot3 e (mv J e)).
    - rewrite S, SE. ring.
    - generalize (mv J e) (mv J om); clear; destruct om as [?a ?b ?c], e as [?a ?b ?c]; intros [?a ?b ?c] [?a ?b ?c]; vunfoldg; cbn [x3 y3 z3]; rnumg; ring. }
  assert (BE := B e). assert (EJ : dot3 e (mv J e) <= jm) by nra. assert (A2 : 0 <= al ^ 2) by nra.
  assert (P : ga ^ 2 * dot3 om (mv J om) - al ^ 2 * jm <= 2 * ga * dot3 om (mv J z)) by nra.
  assert (P1 : ga * (dot3 om (mv J om) - jm * (al / ga) ^ 2) <= 2 * dot3 om (mv J z)).
  { apply (Rmult_le_reg_l ga); [exact GA|]. replace (ga * (ga * (dot3 om (mv J om) - jm * (al / ga) ^ 2))) with (ga ^ 2 * dot3 om (mv J om) - al ^ 2 * jm) by (field; lra). lra. }
  assert (P2 := Rmult_le_compat_l k _ _ (Rlt_le _ _ K) P1). lra.
Qed.
Definition total_momentum (sat : Satellite) (v : SVec) : v3 := add3 (rw_momentum (s_rw sat) (v_whl v)) (mv (s_total_moment sat) (v_rate v)).
(** what one instant of the loop does to rate, attitude and momentum *)
Lemma limited_step sat al ga D w qc F y t : tracker sat al ga w -> det3 (s_total_moment sat) <> 0 ->
  (forall T, exists a k, rw_accelerations (s_rw sat) T = Ok a /\ 0 < k <= 1 /\ rw_torque (s_rw sat) a = scale3 k T /\ (k < 1 -> 0 < rw_maxT (s_rw sat) /\ rw_maxT (s_rw sat) <= k * (D * norm3 T))) -> obeys_limited w qc F y t ->
  let h := total_momentum sat (y t) in
  derivq (fun u => v_att (y u)) t (scaleq 0.5 (product (v_att (y t)) (pure (v_rate (y t))))) /\ deriv3 (fun u => total_momentum sat (y u)) t (opp3 (cross3 (v_rate (y t)) h)) /\
  exists k s d, 0 < k <= 1 /\ s * s = 1 /\ deriv3 (fun u => v_rate (y u)) t d /\
    let z := add3 (scale3 (s * al) (vec (error_quat (v_att (y t)) qc))) (scale3 ga (v_rate (y t))) in
    mv (s_total_moment sat) d = add3 (scale3 (k - 1) (cross3 (v_rate (y t)) h)) (scale3 (- k) (mv (s_total_moment sat) z)) /\
    (k < 1 -> 0 < rw_maxT (s_rw sat) /\ rw_maxT (s_rw sat) <= k * (D * norm3 (sub3 (mv (s_total_moment sat) z) (cross3 (v_rate (y t)) h)))).
Proof.
  intros (<- & <- & <- & (f & HS) & HZ & PM) DJ FR (w' & u & acc & TR & WA & DV) h. assert (HL := tracking_len _ _ _ _ _ _ TR).
  assert (T := tracking_free w (y t) zero3 zero3 qc f HS HZ HL). cbv zeta in T. rewrite T in TR. clear T.
  assert (EW : wc_sat w' = wc_sat w) by (injection TR as <- _; reflexivity). injection TR as _ EU.
  set (s := tr_mem (trig_step (qw (error_quat (v_att (y t)) qc)) (wc_trig w))) in *. assert (SS : s * s = 1) by (apply pm1_sq, trig_pm, PM).
  destruct (FR (opp3 u)) as (a & k & EA & K & Q & KB). unfold whl_actuator_commands in WA. rewrite EW, EA in WA. injection WA as <-.
  destruct DV as (_ & _ & D1 & D2 & D3). split; [exact D1|]. unfold derivative in D2, D3. cbn [v_rate v_whl] in D2, D3.
  set (dd := mv (s_inv_tot (wc_sat w)) _) in D2.
  assert (JD : mv (s_total_moment (wc_sat w)) dd = sub3 (sub3 zero3 (rw_torque (s_rw (wc_sat w)) a)) (cross3 (v_rate (y t)) h)).
  { unfold dd. change (s_inv_tot (wc_sat w)) with (inv3 (s_total_moment (wc_sat w))). rewrite mv_inv3 by exact DJ. reflexivity. }
  split.
  { unfold total_momentum. eapply d3_eq. { apply d3_add; [apply d3_momentum; exact D3|apply d3_mv; exact D2]. } rewrite JD. generalize (rw_torque (s_rw (wc_sat w)) a) (cross3 (v_rate (y t)) h). vring. }
  exists k, s, dd. split; [exact K|]. split; [exact SS|]. split; [exact D2|]. cbv zeta.
  rewrite !sandwich_0, cross_0_r in EU. fold h in EU. revert JD KB. rewrite Q, <- EU.
  set (e := vec (error_quat (v_att (y t)) qc)). set (om := v_rate (y t)). set (J := s_total_moment (wc_sat w)).
  replace (add3 (mv J om) (rw_momentum (s_rw (wc_sat w)) (v_whl (y t)))) with h by (unfold h, total_momentum; fold J om; generalize (mv J om) (rw_momentum (s_rw (wc_sat w)) (v_whl (y t))); vring).
  replace (sub3 (sub3 (scale3 (- s * wc_alpha w) e) (scale3 (wc_gamma w) (sub3 om zero3))) (add3 zero3 zero3)) with (scale3 (-1) (add3 (scale3 (s * wc_alpha w) e) (scale3 (wc_gamma w) om))).
  2: { generalize e om s (wc_alpha w) (wc_gamma w). vring. }
  set (z := add3 (scale3 (s * wc_alpha w) e) (scale3 (wc_gamma w) om)).
  replace (mv J (scale3 (-1) z)) with (scale3 (-1) (mv J z)) by (generalize J z; clear; vring).
  replace (opp3 (add3 (cross3 om h) (scale3 (-1) (mv J z)))) with (sub3 (mv J z) (cross3 om h)) by (generalize (mv J z) (cross3 om h); clear; vring).
  intros -> KB. split; [generalize (mv J z) (cross3 om h); clear; vring|exact KB].
Qed.

(** the spin above what the gains allow decays at a rate fixed by the satellite, the gains, the momentum and the largest spin at the start *)
Theorem C137_decays : forall sat al ga jl jm X L, 0 < ga -> 0 < jl -> (forall v, jl * dot3 v v <= dot3 v (mv (s_total_moment sat) v) <= jm * dot3 v v) ->
  spanning (s_rw sat) -> (rw_limited (s_rw sat) = true -> 0 < rw_maxT (s_rw sat)) ->
  exists lam, 0 < lam /\ forall (w : R -> WhlCtl) (qc : R -> quat) F y a, a < 0 ->
    (forall t, a < t -> tracker sat al ga (w t) /\ unitq (qc t) /\ obeys_limited (w t) (qc t) F y t) -> unitq (v_att (y 0)) ->
    spin2 sat (y 0) <= X -> norm3 (add3 (rw_momentum (s_rw sat) (v_whl (y 0))) (mv (s_total_moment sat) (v_rate (y 0)))) <= L ->
    forall t, 0 <= t -> spin2 sat (y t) <= jm * (al / ga) ^ 2 + Rmax 0 (spin2 sat (y 0) - jm * (al / ga) ^ 2) * exp (- lam * t).
Proof.
  intros sat al ga jl jm X L GA JL B SP LM.
  assert (PD : pdm (s_total_moment sat)). { intros v NV. destruct (B v) as [Y _]. assert (P : 0 < dot3 v v). { destruct (dot3_nonneg v) as [Q|E]; [exact Q|]. exfalso. apply NV, dot3_zero. lra. } assert (X2 := Rmult_lt_0_compat _ _ JL P). lra. }
  assert (SY := total_symm sat). assert (DP := pd_det _ SY PD).
  assert (JM : 0 < jm). { assert (Y := B (mk3 1 0 0)). replace (dot3 (mk3 1 0 0) (mk3 1 0 0)) with 1 in Y by (vunfoldg; cbn [x3 y3 z3]; rnumg; ring). lra. }
  destruct (fraction (s_rw sat) SP LM) as (D & D0 & FR). destruct (mv_bounded (s_total_moment sat)) as (m & M0 & MB).
  set (C := jm * (al / ga) ^ 2). assert (C0 : 0 <= C) by (unfold C; apply Rmult_le_pos; [lra|apply pow2_ge_0]).
  set (W := sqrt (Rmax X C / jl)). assert (W0 : 0 <= W) by apply sqrt_pos.
  set (U := m * (Rabs al + ga * W) + W * Rmax 0 L). assert (U0 : 0 <= U). { unfold U. assert (A1 := Rabs_pos al). assert (A2 := Rmax_l 0 L). assert (A3 : 0 <= ga * W) by nra. assert (A4 := Rmult_le_pos m (Rabs al + ga * W) M0 ltac:(lra)). assert (A5 := Rmult_le_pos _ _ W0 A2). lra. }
  set (kap := if Rlt_dec 0 (rw_maxT (s_rw sat)) then Rmin 1 (rw_maxT (s_rw sat) / (D * U + 1)) else 1). assert (DU := Rmult_le_pos _ _ D0 U0).
  assert (K0 : 0 < kap <= 1). { unfold kap. destruct (Rlt_dec 0 (rw_maxT (s_rw sat))) as [P|P]; [|lra]. split; [apply Rmin_glb_lt; [lra|apply Rdiv_lt_0_compat; lra]|apply Rmin_l]. }
  exists (kap * ga). split; [nra|]. intros w qc F y a A O UQ HX HL.
  assert (ROT : forall u, a < u -> _) by (intros u Hu; destruct (O u Hu) as (TK & _ & OB); exact (limited_step sat al ga D (w u) (qc u) F y u TK ltac:(lra) FR OB)).
  assert (UA : forall u, 0 <= u -> unitq (v_att (y u))).
  { intros u Hu. unfold unitq in *. rewrite <- UQ. apply (d_pos_const (fun u => dotq (v_att (y u)) (v_att (y u))) a A); [|exact Hu].
    intros x Hx. destruct (ROT x Hx) as [D1 _]. eapply d_eq; [apply d_dotq; exact D1|].
    cbv beta. generalize (v_att (y x)) (v_rate (y x)). clear. intros [p q r s] [x y z]. unfold pure, product. replace 0.5 with (1/2) by lra. vunfoldg; cbn [x3 y3 z3 qw qx qy qz]; rnumg. field. }
  assert (HM : forall u, 0 <= u -> norm3 (total_momentum sat (y u)) <= Rmax 0 L).
  { intros u Hu. assert (E : dot3 (total_momentum sat (y u)) (total_momentum sat (y u)) = dot3 (total_momentum sat (y 0)) (total_momentum sat (y 0))).
    { apply (d_pos_const (fun u => dot3 (total_momentum sat (y u)) (total_momentum sat (y u))) a A); [|exact Hu]. intros x Hx. destruct (ROT x Hx) as (_ & D2 & _). eapply d_eq; [apply d_dot3; exact D2|].
      cbv beta. generalize (total_momentum sat (y x)) (v_rate (y x)). clear. intros [?a ?b ?c] [?a ?b ?c]. vunfoldg; cbn [x3 y3 z3]; rnumg. ring. }
    assert (EN : norm3 (total_momentum sat (y u)) = norm3 (total_momentum sat (y 0))). { assert (S1 := P_quat.norm3_sq (total_momentum sat (y u))). assert (S2 := P_quat.norm3_sq (total_momentum sat (y 0))). assert (P1 := P_quat.norm3_pos (total_momentum sat (y u))). assert (P2 := P_quat.norm3_pos (total_momentum sat (y 0))). clear - S1 S2 P1 P2 E. nra. }
    rewrite EN. eapply Rle_trans; [exact HL|apply Rmax_r]. }
  assert (CAP := C137_capped sat al ga jm w qc F y a PD GA (fun v => proj2 (B v)) SP LM A O UQ 0).
  assert (WB : forall u, 0 <= u -> norm3 (v_rate (y u)) <= W).
  { intros u Hu. assert (Y := CAP u ltac:(lra)). fold C in Y. assert (Y2 : spin2 sat (y u) <= Rmax X C) by (eapply Rle_trans; [exact Y|apply Rle_max_compat_r; exact HX]). unfold spin2 in Y2. destruct (B (v_rate (y u))) as [BL _].
    apply Rsqr_incr_0_var; [|exact W0]. assert (Z : 0 <= Rmax X C) by (eapply Rle_trans; [exact C0|apply Rmax_r]). unfold Rsqr, W. rewrite sqrt_sqrt by (apply Rmult_le_pos; [exact Z|left; apply Rinv_0_lt_compat, JL]).
    apply (Rmult_le_reg_l jl); [exact JL|]. replace (jl * (Rmax X C / jl)) with (Rmax X C) by (field; lra). assert (SQ := P_quat.norm3_sq (v_rate (y u))). replace (norm3 (v_rate (y u)) * norm3 (v_rate (y u))) with (dot3 (v_rate (y u)) (v_rate (y u))) by (clear - SQ; nra). lra. }
  assert (PW : forall u, 0 <= u -> exists d, derivable_pt_lim (fun x => spin2 sat (y x)) u d /\ (C < spin2 sat (y u) -> d <= - (kap * ga) * (spin2 sat (y u) - C))).
  { intros u Hu. destruct (ROT u ltac:(lra)) as (_ & _ & k & s & d & K & S & D1 & EQ & KB). destruct (O u ltac:(lra)) as (_ & UC & _).
    assert (EV : dot3 (vec (error_quat (v_att (y u)) (qc u))) (vec (error_quat (v_att (y u)) (qc u))) <= 1) by (apply vec_unit_le, error_quat_unit; [apply UA, Hu|exact UC]).
    exists (2 * dot3 (v_rate (y u)) (mv (s_total_moment sat) d)). split.
    - unfold spin2. eapply d_eq. { apply d_dot3; [exact D1|apply d3_mv; exact D1]. } cbv beta. rewrite (sym_dot _ d) by exact SY. ring.
    - intros LT. assert (KK : kap <= k).
      { destruct (Rle_lt_dec 1 k) as [K1|K1]; [lra|]. destruct (KB K1) as [TP TB]. unfold kap. destruct (Rlt_dec 0 (rw_maxT (s_rw sat))) as [_|N]; [|lra]. eapply Rle_trans; [apply Rmin_r|].
        apply (Rmult_le_reg_r (D * U + 1)); [lra|]. replace (rw_maxT (s_rw sat) / (D * U + 1) * (D * U + 1)) with (rw_maxT (s_rw sat)) by (field; lra). eapply Rle_trans; [exact TB|]. apply Rmult_le_compat_l; [lra|].
        set (z := add3 (scale3 (s * al) (vec (error_quat (v_att (y u)) (qc u)))) (scale3 ga (v_rate (y u)))) in *. assert (Z1 : norm3 z <= Rabs al + ga * W).
        { unfold z. eapply Rle_trans; [apply norm3_triangle|]. rewrite !norm3_scal. assert (SA : Rabs s = 1) by (assert (E1 : Rabs s * Rabs s = 1) by (rewrite <- Rabs_mult, S; apply Rabs_R1); assert (E2 := Rabs_pos s); clear - E1 E2; nra). rewrite Rabs_mult, SA, (Rabs_right ga) by lra.
          assert (V1 : norm3 (vec (error_quat (v_att (y u)) (qc u))) <= 1) by (assert (SQ := P_quat.norm3_sq (vec (error_quat (v_att (y u)) (qc u)))); assert (N0 := P_quat.norm3_pos (vec (error_quat (v_att (y u)) (qc u)))); clear - SQ N0 EV; nra).
          assert (WU := WB u Hu). assert (A1 := Rabs_pos al). assert (T1 := Rmult_le_compat_l _ _ _ A1 V1). assert (T2 := Rmult_le_compat_l ga _ _ ltac:(lra) WU). lra. }
        assert (Z2 : norm3 (sub3 (mv (s_total_moment sat) z) (cross3 (v_rate (y u)) (total_momentum sat (y u)))) <= U).
        { eapply Rle_trans; [apply sub_norm|]. unfold U. apply Rplus_le_compat; [eapply Rle_trans; [apply MB|]; apply Rmult_le_compat_l; assumption|].
          eapply Rle_trans; [apply cross_norm|]. apply Rmult_le_compat; [apply P_quat.norm3_pos|apply P_quat.norm3_pos|apply WB, Hu|apply HM, Hu]. }
        assert (Z3 := Rmult_le_compat_l _ _ _ D0 Z2). lra. }
      assert (PWR := power_decay (s_total_moment sat) k s al ga jm (v_rate (y u)) (vec (error_quat (v_att (y u)) (qc u))) (total_momentum sat (y u)) d SY PD ltac:(lra) S GA EV ltac:(lra) (fun v => proj2 (B v)) EQ). fold C in PWR.
      eapply Rle_trans; [exact PWR|]. fold (spin2 sat (y u)). assert (Q1 := Rmult_le_compat_r ga _ _ (Rlt_le _ _ GA) KK). assert (Q2 : 0 <= spin2 sat (y u) - C) by lra. assert (Q3 := Rmult_le_compat_r _ _ _ Q2 Q1). lra. }
  intros t Ht. set (lam := kap * ga) in *. assert (EX : forall x, 0 < exp x) by exact exp_pos.
  assert (GO : (spin2 sat (y t) - C) * exp (lam * t) <= Rmax 0 (spin2 sat (y 0) - C)).
  { apply (capped (fun x => (spin2 sat (y x) - C) * exp (lam * x)) (fun x => Derive.Derive (fun x => spin2 sat (y x)) x * exp (lam * x) + (spin2 sat (y x) - C) * (lam * exp (lam * x))) _ 0 t Ht).
    - intros u Hu. destruct (PW u ltac:(lra)) as (d & D1 & _). assert (D2 : derivable_pt_lim (fun x => spin2 sat (y x)) u (Derive.Derive (fun x => spin2 sat (y x)) u)) by (rewrite (Derive.is_derive_unique _ u d) by (apply Derive.is_derive_Reals; exact D1); exact D1).
      assert (D3 : derivable_pt_lim (fun x => exp (lam * x)) u (lam * exp (lam * u))).
      { eapply d_eq; [apply (derivable_pt_lim_comp (fun x => lam * x) exp); [apply d_scal, derivable_pt_lim_id|apply derivable_pt_lim_exp]|]. ring. }
      eapply d_eq; [apply (d_mult (fun x => spin2 sat (y x) - C) (fun x => exp (lam * x))); [apply (d_minus (fun x => spin2 sat (y x)) (fun _ => C)); [exact D2|apply d_const]|exact D3]|]. cbv beta. ring.
    - intros u Hu LT. destruct (PW u ltac:(lra)) as (d & D1 & N). rewrite (Derive.is_derive_unique _ u d) by (apply Derive.is_derive_Reals; exact D1).
      assert (P := EX (lam * u)). assert (M1 := Rmax_l 0 (spin2 sat (y 0) - C)). assert (CL : C < spin2 sat (y u)). { destruct (Rle_lt_dec (spin2 sat (y u)) C) as [Q|Q]; [|exact Q]. exfalso. assert (Q1 := Rmult_le_compat_r _ _ _ (Rlt_le _ _ P) (Rle_minus _ _ Q)). lra. }
      assert (N1 := Rmult_le_compat_r _ _ _ (Rlt_le _ _ P) (N CL)). lra.
    - rewrite Rmult_0_r, exp_0, Rmult_1_r. apply Rmax_r. }
  assert (P := EX (lam * t)). assert (E1 : exp (lam * t) * exp (- lam * t) = 1) by (rewrite <- exp_plus; replace (lam * t + - lam * t) with 0 by ring; apply exp_0).
  assert (G2 := Rmult_le_compat_r _ _ _ (Rlt_le _ _ (EX (- lam * t))) GO). rewrite Rmult_assoc, E1 in G2. lra.
Qed.
Print Assumptions C137_decays.

(** the motion of C137_ex, in which the command far exceeds the limit at the start, meets the hypotheses *)
Example C137_ex_decays : exists (qc : R -> quat) y u lam, 0 < lam /\ tracking weak_ctl (y 0) zero3 zero3 (qc 0) = Ok (weak_ctl, u) /\ ~ unsaturated (s_rw weak_ball) (opp3 u) /\
  (forall t, -1 < t -> obeys_limited weak_ctl (qc t) (fun _ => zero3) y t) /\
  forall t, 0 <= t -> spin2 weak_ball (y t) <= 4 * (2 * 0.1 ^ 2 / (2 * 0.707 * 0.1)) ^ 2 + Rmax 0 (spin2 weak_ball (y 0) - 4 * (2 * 0.1 ^ 2 / (2 * 0.707 * 0.1)) ^ 2) * exp (- lam * t).
Proof.
  destruct C137_ex as (qc & y & u & PD & B & SP & LM & MT & O & U & TR & NS & _).
  destruct (C137_decays weak_ball (2 * 0.1 ^ 2) (2 * 0.707 * 0.1) 4 4 (spin2 weak_ball (y 0)) (norm3 (total_momentum weak_ball (y 0)))) as (lam & L0 & H); [lra|lra|intros v; rewrite weak_bound; lra|exact SP|intros _; exact MT|].
  exists qc, y, u, lam. split; [exact L0|]. split; [exact TR|]. split; [exact NS|]. split; [intros t Ht; apply (O t Ht)|].
  apply (H (fun _ => weak_ctl) qc (fun _ => zero3) y (-1)); [lra|exact O|exact U|lra|right; reflexivity].
Qed.
