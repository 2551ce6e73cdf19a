(** * C123: where a satellite parks that is told a biased rate *)
From Coq Require Import Reals ZArith List Bool Lra Lia Psatz.
From Coquelicot Require Import Coquelicot.
From Verif Require Import Num Vec M_vector M_quaternion M_jday M_struct M_dyn M_ctrl S_rot S_dyn S_ctrl.
From Verif Require Import P_quat P_struct P_wheel P_dyn P_dyn2 P_obs P_ctrl P_ctrl2 P_ctrl3 P_ctrl4 P_ctrl5 P_conv P_ode P_tot3 P_orb3 P_posf P_detum P_samp P_samp2 Props_struct Props_ctrl2 Props_conv Props_samp Props_dist P_meas Props_meas P_park.
Import ListNotations.
Local Open Scope R_scope.

(** how far the state is from balancing the bias: zero exactly when s alpha e = J^-1 (b x (J b + h)) - gamma b, h the wheels' momentum *)
Definition parting (w : WhlCtl) (qc : quat) (b : v3) (v : SVec) : v3 :=
  let sat := wc_sat w in let s := tr_mem (wc_trig w) in
  sub3 (scale3 (s * wc_alpha w) (vec (error_quat (v_att v) qc)))
       (sub3 (mv (s_inv_tot sat) (cross3 b (add3 (mv (s_total_moment sat) b) (rw_momentum (s_rw sat) (v_whl v))))) (scale3 (wc_gamma w) b)).

(** the acceleration commanded on the state with exactly the bias *)
Definition gacc (w : WhlCtl) (qc : quat) (b : v3) (v : SVec) : v3 :=
  let sat := wc_sat w in let s := tr_mem (wc_trig w) in let Jb := mv (s_total_moment sat) b in let H := body_momentum sat v in
  add3 (mv (s_inv_tot sat) (add3 (cross3 (v_rate v) Jb) (add3 (cross3 b H) (cross3 b Jb)))) (sub3 (scale3 (- s * wc_alpha w) (vec (error_quat (v_att v) qc))) (scale3 (wc_gamma w) (add3 (v_rate v) b))).
Lemma gacc_split w qc b v m : trig_step (qw (error_quat (v_att m) qc)) (wc_trig w) = wc_trig w -> let s := tr_mem (wc_trig w) in
  add3 (misled w qc zero3 v m) (sub3 (scale3 (- s * wc_alpha w) (vec (error_quat (v_att v) qc))) (scale3 (wc_gamma w) (v_rate v))) = add3 (gacc w qc b v) (misled w qc zero3 (biased b v) m).
Proof.
  intros TR s. unfold misled, gacc. rewrite TR. fold s. change (v_att (biased b v)) with (v_att v). change (v_rate (biased b v)) with (add3 (v_rate v) b). rewrite biased_momentum. unfold push. rewrite mv_zero3.
  set (e := vec (error_quat (v_att v) qc)). set (em := vec (error_quat (v_att m) qc)). set (H := body_momentum (wc_sat w) v). set (Jb := mv (s_total_moment (wc_sat w)) b). set (Gm := cross3 (v_rate m) _). set (JI := s_inv_tot (wc_sat w)).
  replace (cross3 (add3 (v_rate v) b) (add3 H Jb)) with (add3 (cross3 (v_rate v) H) (add3 (cross3 (v_rate v) Jb) (add3 (cross3 b H) (cross3 b Jb)))) by (generalize (v_rate v) H Jb; clear; destruct b as [b1 b2 b3]; intros [w1 w2 w3] [h1 h2 h3] [j1 j2 j3]; vunfoldg; cbn [x3 y3 z3]; rnumg; apply mk3_c; ring).
  set (X := add3 (cross3 (v_rate v) Jb) _). rewrite !mv_sub3, mv_add3. generalize (mv JI Gm) (mv JI (cross3 (v_rate v) H)) (mv JI X) (v_rate v) (v_rate m) e em (wc_alpha w) (wc_gamma w) s. clear.
  destruct b as [b1 b2 b3]. intros [g1 g2 g3] [k1 k2 k3] [l1 l2 l3] [w1 w2 w3] [m1 m2 m3] [e1 e2 e3] [f1 f2 f3] al ga s. vunfoldg. cbn [x3 y3 z3]. rnumg. apply mk3_c; ring.
Qed.
Lemma gacc_parting w qc b v : let sat := wc_sat w in
  gacc w qc b v = add3 (opp3 (parting w qc b v)) (sub3 (mv (s_inv_tot sat) (add3 (cross3 (v_rate v) (mv (s_total_moment sat) b)) (cross3 b (mv (s_total_moment sat) (v_rate v))))) (scale3 (wc_gamma w) (v_rate v))).
Proof.
  intros sat. unfold gacc, parting. fold sat. unfold body_momentum. set (h := rw_momentum (s_rw sat) (v_whl v)). set (Jb := mv (s_total_moment sat) b). set (Jw := mv (s_total_moment sat) (v_rate v)). set (JI := s_inv_tot sat). set (s := tr_mem (wc_trig w)). set (e := vec (error_quat (v_att v) qc)).
  replace (add3 (cross3 (v_rate v) Jb) (add3 (cross3 b (add3 Jw h)) (cross3 b Jb))) with (add3 (add3 (cross3 (v_rate v) Jb) (cross3 b Jw)) (cross3 b (add3 Jb h))) by (generalize (v_rate v) h Jb Jw; clear; destruct b as [b1 b2 b3]; intros [w1 w2 w3] [h1 h2 h3] [j1 j2 j3] [k1 k2 k3]; vunfoldg; cbn [x3 y3 z3]; rnumg; apply mk3_c; ring).
  rewrite mv_add3. generalize (mv JI (add3 (cross3 (v_rate v) Jb) (cross3 b Jw))) (mv JI (cross3 b (add3 Jb h))) (v_rate v) e (wc_alpha w) (wc_gamma w) s. clear.
  destruct b as [b1 b2 b3]. intros [g1 g2 g3] [k1 k2 k3] [w1 w2 w3] [e1 e2 e3] al ga s. vunfoldg. cbn [x3 y3 z3]. rnumg. apply mk3_c; ring.
Qed.
(** the disturbance of the oscillator *)
Definition jolt (w : WhlCtl) (qc : quat) (b nu : v3) (v : SVec) : v3 :=
  let sat := wc_sat w in let s := tr_mem (wc_trig w) in let al := wc_alpha w in let er := error_quat (v_att v) qc in
  add3 (sub3 (scale3 (al / 2 * (1 - s * qw er)) (v_rate v)) (scale3 (s * al / 2) (cross3 (vec er) (v_rate v))))
       (sub3 (mv (s_inv_tot sat) (sub3 (cross3 (add3 (gacc w qc b v) nu) (mv (s_total_moment sat) b)) (cross3 b (cross3 (v_rate v) (body_momentum sat v))))) (scale3 (wc_gamma w) nu)).
Lemma gacc_deriv w qc b nu (y : R -> SVec) t : unitq (v_att (y t)) -> unitq qc -> derivq (fun u => v_att (y u)) t (scaleq 0.5 (product (v_att (y t)) (pure (v_rate (y t))))) -> deriv3 (fun u => v_rate (y u)) t (add3 (gacc w qc b (y t)) nu) ->
  deriv3 (fun u => body_momentum (wc_sat w) (y u)) t (sub3 zero3 (cross3 (v_rate (y t)) (body_momentum (wc_sat w) (y t)))) ->
  deriv3 (fun u => gacc w qc b (y u)) t (add3 (sub3 (scale3 (- (wc_alpha w / 2)) (v_rate (y t))) (scale3 (wc_gamma w) (gacc w qc b (y t)))) (jolt w qc b nu (y t))).
Proof.
  intros U UC DQ DW DH. assert (X := dq_error (fun u => v_att (y u)) (fun _ => qc) t (v_rate (y t)) zero3 DQ (dq_const qc t) U UC). cbv zeta in X. rewrite sandwich_0, sub3_0_r in X.
  set (er := fun u => error_quat (v_att (y u)) qc) in *. assert (DE : deriv3 (fun u => vec (er u)) t (vec (scaleq 0.5 (product (er t) (pure (v_rate (y t))))))) by (destruct X as (_ & X1 & X2 & X3); split; [exact X1|split; [exact X2|exact X3]]).
  set (JI := s_inv_tot (wc_sat w)). set (Jb := mv (s_total_moment (wc_sat w)) b). set (s := tr_mem (wc_trig w)). set (a' := add3 (gacc w qc b (y t)) nu) in *. set (H := fun u => body_momentum (wc_sat w) (y u)) in *.
  assert (S3 : forall k (f : R -> v3) l, deriv3 f t l -> deriv3 (fun u => scale3 k (f u)) t (scale3 k l)) by (intros k f l (A1 & A2 & A3); unfold scale3; repeat split; cbn [x3 y3 z3]; rnumg; apply d_scal; assumption).
  assert (D := d3_add _ _ t _ _ (d3_mv JI _ t _ (d3_add _ _ t _ _ (P_exist3.d3_cross _ _ t _ _ DW (d3_const Jb t)) (d3_add _ _ t _ _ (P_exist3.d3_cross _ _ t _ _ (d3_const b t) DH) (d3_const (cross3 b Jb) t))))
    (P_ctrl3.d3_sub _ _ t _ _ (S3 (- s * wc_alpha w) _ _ DE) (S3 (wc_gamma w) _ _ (d3_add _ _ t _ _ DW (d3_const b t))))).
  cbv beta in D. eapply d3_eq; [exact D|]. clear D X DE DQ DW DH S3. unfold jolt. fold JI Jb s (er t) (H t) a'.
  replace (add3 (add3 (cross3 a' Jb) (cross3 (v_rate (y t)) zero3)) (add3 (add3 (cross3 zero3 (H t)) (cross3 b (sub3 zero3 (cross3 (v_rate (y t)) (H t))))) zero3)) with (sub3 (cross3 a' Jb) (cross3 b (cross3 (v_rate (y t)) (H t)))).
  2:{ generalize (cross3 a' Jb) (cross3 (v_rate (y t)) (H t)) (v_rate (y t)) (H t). clear. destruct b as [b1 b2 b3]. intros [c1 c2 c3] [d1 d2 d3] [w1 w2 w3] [h1 h2 h3]. unfold zero3. vunfoldg. cbn [x3 y3 z3]. rnumg. apply mk3_c; ring. }
  unfold a'. generalize (mv JI (sub3 (cross3 (add3 (gacc w qc b (y t)) nu) Jb) (cross3 b (cross3 (v_rate (y t)) (H t))))) (gacc w qc b (y t)) (v_rate (y t)) (er t) (wc_alpha w) (wc_gamma w) s. clear.
  destruct nu as [n1 n2 n3]. intros [c1 c2 c3] [g1 g2 g3] [w1 w2 w3] [e0 e1 e2 e3] al ga s. unfold zero3, pure, product. replace 0.5 with (/ 2) by lra. vunfoldg. cbn [x3 y3 z3 qw qx qy qz]. rnumg. apply mk3_c; field.
Qed.
Lemma jolt_size w qc b nu v mi mj N x : 0 <= wc_alpha w -> 0 <= wc_gamma w -> tr_mem (wc_trig w) * tr_mem (wc_trig w) = 1 -> 0 <= mi -> 0 <= mj ->
  (forall v, norm3 (mv (s_inv_tot (wc_sat w)) v) <= mi * norm3 v) -> (forall v, norm3 (mv (s_total_moment (wc_sat w)) v) <= mj * norm3 v) ->
  norm3 (body_momentum (wc_sat w) v) <= N -> norm3 b <= 1 -> let s := tr_mem (wc_trig w) in let er := error_quat (v_att v) qc in 0 <= 1 - s * qw er ->
  wc_alpha w / 2 * ((1 - s * qw er) + norm3 (vec er)) + mi * (mj + N) * norm3 b <= x ->
  norm3 (jolt w qc b nu v) <= x * (norm3 (v_rate v) + norm3 (gacc w qc b v)) + (wc_gamma w + mi * mj) * norm3 nu.
Proof.
  intros A G SS MI MJ BI BJ HN HB s er E0 HX. unfold jolt. fold s er. set (al := wc_alpha w) in *. set (ga := wc_gamma w) in *. set (g := gacc w qc b v). set (Jb := mv (s_total_moment (wc_sat w)) b). set (H := body_momentum (wc_sat w) v) in *. set (o := v_rate v).
  assert (P1 := norm3_pos o). assert (P2 := norm3_pos g). assert (P3 := norm3_pos nu). assert (P4 := norm3_pos b). assert (P5 := norm3_pos (vec er)). assert (P6 := norm3_pos H).
  fold s in SS. assert (AS : Rabs s = 1). { assert (X : Rabs s * Rabs s = 1) by (rewrite <- Rabs_mult, SS; apply Rabs_right; lra). assert (Y := Rabs_pos s). nra. }
  assert (BJb : norm3 Jb <= mj * norm3 b) by apply BJ.
  assert (T1 : norm3 (scale3 (al / 2 * (1 - s * qw er)) o) = al / 2 * (1 - s * qw er) * norm3 o) by (rewrite norm3_scal, Rabs_right; [reflexivity|]; apply Rle_ge, Rmult_le_pos; lra).
  assert (T2 : norm3 (scale3 (s * al / 2) (cross3 (vec er) o)) <= al / 2 * norm3 (vec er) * norm3 o). { rewrite norm3_scal. replace (s * al / 2) with (s * (al / 2)) by field. rewrite Rabs_mult, AS, (Rabs_right (al / 2)), Rmult_1_l, Rmult_assoc by lra. apply Rmult_le_compat_l; [lra|apply cross_norm]. }
  assert (T3 : norm3 (cross3 (add3 g nu) Jb) <= (norm3 g + norm3 nu) * (mj * norm3 b)). { eapply Rle_trans; [apply cross_norm|]. apply Rmult_le_compat; try apply norm3_pos; [apply norm3_triangle|exact BJb]. }
  assert (T4 : norm3 (cross3 b (cross3 o H)) <= norm3 b * (norm3 o * N)). { eapply Rle_trans; [apply cross_norm|]. apply Rmult_le_compat_l; [exact P4|]. eapply Rle_trans; [apply cross_norm|]. apply Rmult_le_compat_l; assumption. }
  assert (T5 : norm3 (mv (s_inv_tot (wc_sat w)) (sub3 (cross3 (add3 g nu) Jb) (cross3 b (cross3 o H)))) <= mi * ((norm3 g + norm3 nu) * (mj * norm3 b) + norm3 b * (norm3 o * N))). { eapply Rle_trans; [apply BI|]. apply Rmult_le_compat_l; [exact MI|]. eapply Rle_trans; [apply sub_norm|]. lra. }
  eapply Rle_trans; [apply norm3_triangle|]. eapply Rle_trans; [apply Rplus_le_compat; apply sub_norm|]. rewrite T1, (norm3_scal ga nu), (Rabs_right ga) by lra.
  set (e := norm3 (vec er)) in *. set (b' := norm3 b) in *. set (n := norm3 nu) in *. set (p := norm3 o) in *. set (q := norm3 g) in *. set (z := 1 - s * qw er) in *. fold Jb in T5.
  assert (Z1 : (al / 2 * (z + e) + mi * (mj + N) * b') * (p + q) <= x * (p + q)) by (apply Rmult_le_compat_r; lra).
  assert (Q0 : 0 <= mi * mj) by (apply Rmult_le_pos; assumption). assert (Q1 : mi * mj * (b' * n) <= mi * mj * n) by (apply Rmult_le_compat_l; [exact Q0|]; assert (b' * n <= 1 * n) by (apply Rmult_le_compat_r; assumption); lra).
  assert (N0 : 0 <= N) by lra. assert (Q2 : 0 <= mi * N * b' * q) by (repeat apply Rmult_le_pos; assumption). assert (Q3 : 0 <= mi * mj * b' * p) by (repeat apply Rmult_le_pos; assumption). assert (Q4 : 0 <= al / 2 * (z + e) * q) by (apply Rmult_le_pos; [apply Rmult_le_pos; lra|assumption]). lra.
Qed.
Lemma pow2_sqrt_le x y : 0 <= y -> x * x <= y * y -> x <= y.
Proof. intros Y H. destruct (Rle_dec x y) as [L|L]; [exact L|]. exfalso. assert (y < x) by lra. assert (y * y < x * x) by (apply Rmult_le_0_lt_compat; lra). lra. Qed.
Lemma vec_le1 (e : quat) : unitq e -> norm3 (vec e) <= 1.
Proof. intros U. apply P_exist3.norm3_le_sq; [lra|]. unfold unitq in U. destruct e as [a b c d]. revert U. vunfoldg. cbn [x3 y3 z3 qw qx qy qz]. rnumg. intros U. assert (X := Rle_0_sqr a). unfold Rsqr in X. lra. Qed.
(** ** C123: for all gains, band, bound on the starting energy, bounds on the inertia, its inverse and the momentum, and rate at which the errors of the given state other than the bias fade there are a rate, a largest bias and a factor:
    the satellite comes to rest exponentially (up to the part of the errors that does not fade) and its attitude balances the bias *)
Theorem C123_settles : forall al ga hw E mi mj N nu, 0 < al -> 0 < ga -> 0 < hw < 1 -> 0 <= E < 2 * al * (1 + hw) -> 0 <= mi -> 0 <= mj -> 0 <= N -> 0 < nu -> exists lam d0 K, 0 < lam /\ 0 < d0 /\ 0 < K /\
  forall w f qc F y m a b D d, wc_alpha w = al -> wc_gamma w = ga -> tr_hw (wc_trig w) = hw -> pm1 (tr_mem (wc_trig w)) ->
  wc_sun w = Some f -> zone_free w -> spanning (s_rw (wc_sat w)) -> det3 (s_total_moment (wc_sat w)) <> 0 ->
  (forall v, norm3 (mv (s_inv_tot (wc_sat w)) v) <= mi * norm3 v) -> (forall v, norm3 (mv (s_total_moment (wc_sat w)) v) <= mj * norm3 v) ->
  unitq qc -> unitq (v_att (y 0)) -> a < 0 -> (forall t, a < t -> obeys_given w qc F (fun _ => zero3) y m t) ->
  0 <= D -> 0 <= d -> norm3 b + D + d <= d0 -> (forall t, 0 <= t -> astray (wc_sat w) (D * exp (- nu * t) + d) (biased b (y t)) (m t)) -> norm3 (body_momentum (wc_sat w) (y 0)) <= N ->
  al * off_target (tr_mem (wc_trig w)) qc (y 0) + rate2 (y 0) / 2 <= E ->
  forall t, 0 <= t -> (exists u, tracking w (m t) zero3 zero3 qc = Ok (w, u)) /\ norm3 (v_rate (y t)) <= K * (exp (- lam * t) + d) /\ norm3 (parting w qc b (y t)) <= K * (exp (- lam * t) + d).
Proof.
  intros al ga hw E mi mj N nu A G HW HE MI MJ HN NU. destruct (C114_alone al ga hw E mi mj N A G HW HE MI MJ HN) as (lam1 & d1 & K1 & L1 & D1 & K1p & CORE).
  set (c3 := ga + mi * mj). assert (Q0 : 0 <= mi * mj) by (apply Rmult_le_pos; assumption). assert (C3 : 0 <= c3) by (unfold c3; lra). destruct (osc_fades (al / 2) ga c3 ltac:(lra) G C3) as (sg & c & Q & SG & Cp & Qp & OF).
  set (x0 := Rmin sg (sg * sg / (4 * al))). assert (X0 : 0 < x0) by (apply Rmin_pos; [exact SG|apply Rdiv_lt_0_compat; [apply Rmult_lt_0_compat; exact SG|lra]]). assert (X1 : x0 <= sg) by apply Rmin_l. assert (X2 : x0 <= sg * sg / (4 * al)) by apply Rmin_r.
  destruct (fades_late (3 * E) lam1 (x0 / 2) ltac:(lra) L1 ltac:(lra)) as (T & T0 & HT).
  set (M0 := 3 * E + K1 / 2). assert (M0p : 0 < M0) by (unfold M0; lra). set (O := sqrt (2 * M0)). assert (O0 : 0 <= O) by apply sqrt_pos. assert (OO : O * O = 2 * M0) by (apply sqrt_sqrt; lra).
  set (c4 := mi * ((O + 1) * (mj + 1) + (N + mj) + (mj + 1)) + al + ga). assert (c4p : 0 < c4). { unfold c4. assert (0 <= (O + 1) * (mj + 1)) by (apply Rmult_le_pos; lra). assert (0 <= mi * ((O + 1) * (mj + 1) + (N + mj) + (mj + 1))) by (apply Rmult_le_pos; lra). lra. }
  set (Gm := mi * (O * mj + N + mj) + al + ga * (O + 1)). assert (Omj : 0 <= O * mj) by (apply Rmult_le_pos; assumption). assert (Gm0 : 0 <= Gm). { unfold Gm. assert (0 <= mi * (O * mj + N + mj)) by (apply Rmult_le_pos; lra). assert (0 <= ga * (O + 1)) by (apply Rmult_le_pos; lra). lra. }
  set (M1 := O * O + Gm * Gm). assert (M1p : 0 <= M1) by (unfold M1; assert (0 <= O * O) by (apply Rmult_le_pos; assumption); assert (0 <= Gm * Gm) by (apply Rmult_le_pos; assumption); lra).
  set (CV := 3 / 2 + ga * ga + al / 2). assert (CVp : 0 < CV) by (unfold CV; assert (0 < ga * ga) by (apply Rmult_lt_0_compat; lra); lra). set (cv := Rmin (/ 2) (al / 2)). assert (cvp : 0 < cv) by (apply Rmin_pos; lra).
  set (mu := Rmin (c / 2) nu). assert (mup : 0 < mu) by (apply Rmin_pos; lra). assert (muc : mu <= c / 2) by apply Rmin_l.
  set (KA := 2 * Q * c4 ^ 2 / c). set (KB := 4 * Q * c4 ^ 2 / c + CV * M1 * exp (mu * T)). assert (c42 : 0 < c4 ^ 2) by (apply pow_lt, c4p). assert (Qc : 0 < Q * c4 ^ 2 / c) by (apply Rdiv_lt_0_compat; [apply Rmult_lt_0_compat; assumption|exact Cp]).
  assert (KAp : 0 < KA) by (unfold KA; replace (2 * Q * c4 ^ 2 / c) with (2 * (Q * c4 ^ 2 / c)) by (field; lra); lra). assert (CM : 0 <= CV * M1) by (apply Rmult_le_pos; lra). assert (CME : 0 <= CV * M1 * exp (mu * T)) by (apply Rmult_le_pos; [exact CM|left; apply exp_pos]).
  assert (KBp : 0 < KB) by (unfold KB; replace (4 * Q * c4 ^ 2 / c) with (4 * (Q * c4 ^ 2 / c)) by (field; lra); lra). set (K2 := (KA + KB) / cv). assert (K2p : 0 < K2) by (apply Rdiv_lt_0_compat; lra).
  set (k := mi * (mj + N) + 1). assert (kp : 0 < k) by (unfold k; assert (0 <= mi * (mj + N)) by (apply Rmult_le_pos; lra); lra).
  set (d0 := Rmin (Rmin 1 d1) (Rmin (x0 / K1) (sg / (2 * k)))). assert (D0 : 0 < d0) by (repeat apply Rmin_pos; try lra; apply Rdiv_lt_0_compat; lra).
  assert (d01 : d0 <= 1) by (eapply Rle_trans; [apply Rmin_l|apply Rmin_l]). assert (d02 : d0 <= d1) by (eapply Rle_trans; [apply Rmin_l|apply Rmin_r]). assert (d03 : d0 <= x0 / K1) by (eapply Rle_trans; [apply Rmin_r|apply Rmin_l]). assert (d04 : d0 <= sg / (2 * k)) by (eapply Rle_trans; [apply Rmin_r|apply Rmin_r]).
  assert (SK : 0 < sqrt K2) by (apply sqrt_lt_R0, K2p). set (K := sqrt K2 * (1 + 2 * (mi * mj) + ga)).
  exists (mu / 2), d0, K. split; [lra|]. split; [exact D0|]. split; [apply Rmult_lt_0_compat; lra|].
  intros w f qc F y m a b D d EA EG EH PM HS HZ SP DJ BI BJ UC U0 HA HO HD Hd Hsum HM HN0 HV. set (s := tr_mem (wc_trig w)) in *. assert (SS := pm1_sq _ PM). fold s in SS.
  assert (B0 := norm3_pos b). assert (UN := given_unit w f qc F _ y m a HA HS HZ SP DJ HO U0).
  assert (EN : forall t, 0 <= t -> 0 <= D * exp (- nu * t) + d <= D + d). { intros t Ht. assert (P := exp_pos (- nu * t)). assert (P1 : exp (- nu * t) <= 1). { rewrite <- exp_0. assert (L : - nu * t <= 0) by (assert (0 <= nu * t) by (apply Rmult_le_pos; lra); lra). destruct L as [L|L]; [left; apply exp_increasing, L|rewrite L; right; reflexivity]. } assert (D * exp (- nu * t) <= D * 1) by (apply Rmult_le_compat_l; assumption). assert (0 <= D * exp (- nu * t)) by (apply Rmult_le_pos; lra). lra. }
  assert (AST : forall t, 0 <= t -> astray (wc_sat w) (norm3 b + D + d) (y t) (m t)).
  { intros t Ht. destruct (HM t Ht) as (A1 & A2 & A3). cbn [biased v_att v_rate v_whl] in A1, A2, A3. assert (X := EN t Ht). split; [|split].
    - eapply Rle_trans; [exact A1|]. apply pow_incr. lra.
    - replace (sub3 (v_rate (m t)) (v_rate (y t))) with (add3 b (sub3 (v_rate (m t)) (add3 (v_rate (y t)) b))) by (generalize (v_rate (m t)) (v_rate (y t)); clear; destruct b as [b1 b2 b3]; intros [p q r] [p' q' r']; vunfoldg; cbn [x3 y3 z3]; rnumg; apply mk3_c; ring). eapply Rle_trans; [apply norm3_triangle|]. lra.
    - lra. }
  assert (DR : 0 <= norm3 b + D + d <= d1) by (split; lra). assert (C := CORE w f qc F y m a (norm3 b + D + d) EA EG EH PM HS HZ SP DJ BI BJ UC U0 HA HO DR AST HN0 HV). clear CORE.
  set (er := fun t => error_quat (v_att (y t)) qc). assert (UE : forall t, a < t -> unitq (er t)) by (intros t Ht; apply error_quat_unit; [apply UN, Ht|exact UC]).
  set (V := fun t => ev al s (er t) (v_rate (y t))). assert (VOFF : forall t, a < t -> 2 * V t = 2 * al * off_target s qc (y t) + rate2 (y t)). { intros t Ht. change (V t) with (en al s qc (y t)). rewrite (en_off al s qc (y t) SS (UN t Ht) UC). field. }
  assert (VB : forall t, 0 <= t -> V t <= 3 * E * exp (- lam1 * t) + K1 / 2 * (norm3 b + D + d) ^ 2).
  { intros t Ht. destruct (C t Ht) as (_ & X). fold s in X. rewrite <- (VOFF t ltac:(lra)), <- (VOFF 0 HA) in X. assert (V0 : V 0 <= E) by (assert (Y := VOFF 0 HA); lra). assert (P := exp_pos (- lam1 * t)). assert (V 0 * exp (- lam1 * t) <= E * exp (- lam1 * t)) by (apply Rmult_le_compat_r; lra). lra. }
  assert (S2 : (norm3 b + D + d) ^ 2 <= d0). { replace ((norm3 b + D + d) ^ 2) with ((norm3 b + D + d) * (norm3 b + D + d)) by ring. apply (Rle_trans _ (d0 * 1)); [apply Rmult_le_compat; lra|lra]. }
  assert (KS : K1 / 2 * (norm3 b + D + d) ^ 2 <= x0 / 2). { apply (Rle_trans _ (K1 / 2 * (x0 / K1))); [apply Rmult_le_compat_l; lra|right; field; lra]. }
  assert (VM : forall t, 0 <= t -> V t <= M0). { intros t Ht. eapply Rle_trans; [apply VB, Ht|]. unfold M0. assert (P1 : exp (- lam1 * t) <= 1). { rewrite <- exp_0. assert (L : - lam1 * t <= 0) by (assert (0 <= lam1 * t) by (apply Rmult_le_pos; lra); lra). destruct L as [L|L]; [left; apply exp_increasing, L|rewrite L; right; reflexivity]. }
    assert (3 * E * exp (- lam1 * t) <= 3 * E * 1) by (apply Rmult_le_compat_l; lra). assert (K1 / 2 * (norm3 b + D + d) ^ 2 <= K1 / 2 * 1) by (apply Rmult_le_compat_l; lra). lra. }
  assert (VT : forall t, T <= t -> V t <= x0) by (intros t Ht; assert (X := VB t ltac:(lra)); assert (Y := HT t Ht); lra).
  assert (FX : forall t, 0 <= t -> 0 <= 1 - s * qw (er t) /\ 2 * al * (1 - s * qw (er t)) <= V t /\ norm3 (v_rate (y t)) <= O /\ al * (norm3 (vec (er t)) * norm3 (vec (er t))) <= V t).
  { intros t Ht. destruct (ev_facts al s (er t) (v_rate (y t)) A SS (UE t ltac:(lra))) as (F1 & F2 & _ & F4 & F5 & _). fold (V t) in F4, F5. assert (Y := VM t Ht). split; [lra|]. split; [unfold V, ev; lra|]. split; [apply P_exist3.norm3_le_sq; [exact O0|]; rewrite OO; lra|]. rewrite P_quat.norm3_sq. exact F5. }
  assert (KEEP : forall t, 0 <= t -> trig_step (qw (error_quat (v_att (m t)) qc)) (wc_trig w) = wc_trig w).
  { intros t Ht. destruct (C t Ht) as ((u & TR) & _). destruct (given_rot w f qc F _ y m t HS HZ SP DJ (HO t ltac:(lra))) as (_ & _ & _ & u' & TR'). rewrite TR in TR'. assert (X := f_equal (fun r => match r with Ok (x, _) => wc_trig x | Raise _ => wc_trig w end) TR'). cbv beta iota in X. symmetry. exact X. }
  assert (HH : forall t, 0 <= t -> norm3 (body_momentum (wc_sat w) (y t)) <= N) by (intros t Ht; rewrite (momentum_kept w f qc F y m a HS HZ SP DJ HO HA t Ht); exact HN0).
  set (nn := fun t => misled w qc zero3 (biased b (y t)) (m t)). set (g := fun t => gacc w qc b (y t)).
  assert (Jb : norm3 (mv (s_total_moment (wc_sat w)) b) <= mj * norm3 b) by apply BJ. assert (Jb1 : mj * norm3 b <= mj) by (assert (mj * norm3 b <= mj * 1) by (apply Rmult_le_compat_l; lra); lra).
  assert (NS : forall t, 0 <= t -> norm3 (nn t) <= c4 * D * exp (- nu * t) + c4 * d).
  { intros t Ht. destruct (FX t Ht) as (_ & _ & OW & _). assert (X := EN t Ht).
    assert (Z := misled_size w qc zero3 (biased b (y t)) (m t) mi mj (N + mj) (O + 1) (D * exp (- nu * t) + d) 0 ltac:(lra) ltac:(lra) ltac:(lra) PM UC MI MJ BI BJ).
    rewrite EA, EG in Z. replace (c4 * D * exp (- nu * t) + c4 * d) with (0 + c4 * (D * exp (- nu * t) + d)) by ring. unfold c4. apply Z.
    - rewrite biased_momentum. eapply Rle_trans; [apply norm3_triangle|]. assert (Y := HH t Ht). lra.
    - cbn [biased v_rate]. eapply Rle_trans; [apply norm3_triangle|]. lra.
    - lra.
    - apply HM, Ht.
    - unfold push. rewrite mv_zero3, norm_zero. lra. }
  assert (DYN : forall t, 0 <= t -> deriv3 (fun u => v_rate (y u)) t (add3 (g t) (nn t)) /\ deriv3 g t (add3 (sub3 (scale3 (- (al / 2)) (v_rate (y t))) (scale3 ga (g t))) (jolt w qc b (nn t) (y t)))).
  { intros t Ht. destruct (given_rot w f qc F _ y m t HS HZ SP DJ (HO t ltac:(lra))) as (R1 & R2 & R3 & _). rewrite (KEEP t Ht) in R2. cbv beta in R2, R3. rewrite (gacc_split w qc b (y t) (m t) (KEEP t Ht)) in R2. split; [exact R2|].
    assert (X := gacc_deriv w qc b (nn t) y t (UN t ltac:(lra)) UC R1 R2 R3). rewrite EA, EG in X. exact X. }
  assert (GB : forall t, 0 <= t -> norm3 (g t) <= Gm).
  { intros t Ht. destruct (FX t Ht) as (_ & _ & OW & _). unfold g, gacc. rewrite EA, EG. fold s (er t). eapply Rle_trans; [apply norm3_triangle|]. assert (P1 := norm3_pos (v_rate (y t))).
    assert (Y1 : norm3 (sub3 (scale3 (- s * al) (vec (er t))) (scale3 ga (add3 (v_rate (y t)) b))) <= al + ga * (O + 1)).
    { eapply Rle_trans; [apply sub_norm|]. rewrite !norm3_scal, Rabs_mult, Rabs_Ropp, (Rabs_right al), (Rabs_right ga) by lra. replace (Rabs s) with 1 by (destruct PM as [PM|PM]; fold s in PM; rewrite PM; [rewrite Rabs_right; lra|rewrite Rabs_left; lra]). assert (Z1 := vec_le1 (er t) (UE t ltac:(lra))). assert (Z2 := norm3_triangle (v_rate (y t)) b).
      assert (al * norm3 (vec (er t)) <= al * 1) by (apply Rmult_le_compat_l; lra). assert (ga * norm3 (add3 (v_rate (y t)) b) <= ga * (O + 1)) by (apply Rmult_le_compat_l; lra). lra. }
    set (X := add3 (cross3 (v_rate (y t)) _) _). assert (Y2 : norm3 X <= O * mj + N + mj).
    { unfold X. set (J := mv (s_total_moment (wc_sat w)) b) in *. set (H := body_momentum (wc_sat w) (y t)). assert (HHt := HH t Ht). fold H in HHt. assert (P2 := norm3_pos J). assert (P3 := norm3_pos H). eapply Rle_trans; [apply norm3_triangle|]. assert (Z0 := norm3_triangle (cross3 b H) (cross3 b J)). assert (Z1 := cross_norm (v_rate (y t)) J). assert (Z2 := cross_norm b H). assert (Z3 := cross_norm b J).
      assert (norm3 (v_rate (y t)) * norm3 J <= O * mj) by (apply Rmult_le_compat; lra). assert (norm3 b * norm3 H <= 1 * N) by (apply Rmult_le_compat; lra). assert (norm3 b * norm3 J <= 1 * mj) by (apply Rmult_le_compat; lra). lra. }
    assert (Y3 := BI X). assert (mi * norm3 X <= mi * (O * mj + N + mj)) by (apply Rmult_le_compat_l; assumption). unfold Gm. lra. }
  set (W := fun t => osc (al / 2) ga (v_rate (y t)) (g t)). assert (STB : forall t, 0 <= t -> stir (v_rate (y t)) (g t) <= M1).
  { intros t Ht. destruct (FX t Ht) as (_ & _ & OW & _). assert (GW := GB t Ht). unfold stir, M1. rewrite <- (P_quat.norm3_sq (v_rate (y t))), <- (P_quat.norm3_sq (g t)). assert (P1 := norm3_pos (v_rate (y t))). assert (P2 := norm3_pos (g t)). assert (norm3 (v_rate (y t)) * norm3 (v_rate (y t)) <= O * O) by (apply Rmult_le_compat; assumption). assert (norm3 (g t) * norm3 (g t) <= Gm * Gm) by (apply Rmult_le_compat; assumption). lra. }
  assert (OSZ : forall t, cv * stir (v_rate (y t)) (g t) <= W t <= CV * stir (v_rate (y t)) (g t)) by (intros t; apply osc_size; lra).
  assert (ST0 : forall t, 0 <= stir (v_rate (y t)) (g t)) by (intros t; unfold stir; assert (P1 := dot3_nonneg (v_rate (y t))); assert (P2 := dot3_nonneg (g t)); lra).
  assert (WM : forall t, 0 <= t -> 0 <= W t <= CV * M1). { intros t Ht. destruct (OSZ t) as [Y1 Y2]. assert (Y3 := STB t Ht). assert (Y4 := ST0 t). assert (0 <= cv * stir (v_rate (y t)) (g t)) by (apply Rmult_le_pos; lra). assert (CV * stir (v_rate (y t)) (g t) <= CV * M1) by (apply Rmult_le_compat_l; lra). lra. }
  assert (WL : forall t, 0 <= t -> W t <= KA * d ^ 2 + KB * exp (- mu * t)).
  { intros t Ht. assert (P1 := exp_pos (- mu * t)). assert (d2 := pow2_ge_0 d). assert (KAd : 0 <= KA * d ^ 2) by (apply Rmult_le_pos; lra). assert (Q4 : 0 <= 4 * Q * c4 ^ 2 / c) by (replace (4 * Q * c4 ^ 2 / c) with (4 * (Q * c4 ^ 2 / c)) by (field; lra); lra).
    assert (EE : exp (mu * T) * exp (- mu * t) = exp (mu * (T - t))) by (rewrite <- exp_plus; f_equal; ring). destruct (Rle_dec T t) as [L|L].
    - assert (FD := fades c Q nu (c4 * D) (c4 * d) T W _ Cp Qp NU ltac:(apply Rmult_le_pos; lra) ltac:(apply Rmult_le_pos; lra) T0 (fun u Hu => osc_deriv (al / 2) ga _ g (nn u) (jolt w qc b (nn u) (y u)) u (proj1 (DYN u ltac:(lra))) (proj2 (DYN u ltac:(lra))))). cbv zeta in FD. fold mu in FD.
      assert (FD2 := FD ltac:(intros u Hu; cbv beta; refine (OF _ _ _ _ _ (NS u ltac:(lra)) _);
        destruct (FX u ltac:(lra)) as (F1 & F2 & F3 & F4); assert (VU := VT u Hu);
        assert (JS := jolt_size w qc b (nn u) (y u) mi mj N sg ltac:(lra) ltac:(lra) SS MI MJ BI BJ (HH u ltac:(lra)) ltac:(lra)); cbv zeta in JS; fold s (er u) (g u) in JS; rewrite EA, EG in JS;
        assert (NSU := NS u ltac:(lra)); eapply Rle_trans; [apply JS; [exact F1|]|fold c3; assert (c3 * norm3 (nn u) <= c3 * (c4 * D * exp (- nu * u) + c4 * d)) by (apply Rmult_le_compat_l; assumption); lra];
        assert (VE : norm3 (vec (er u)) <= sg / (2 * al)) by (apply pow2_sqrt_le; [left; apply Rdiv_lt_0_compat; lra|]; apply (Rmult_le_reg_l al); [exact A|]; replace (al * (sg / (2 * al) * (sg / (2 * al)))) with (sg * sg / (4 * al)) by (field; lra); lra);
        assert (VE2 : al / 2 * norm3 (vec (er u)) <= sg / 4) by (apply (Rle_trans _ (al / 2 * (sg / (2 * al)))); [apply Rmult_le_compat_l; lra|right; field; lra]);
        assert (KB' : mi * (mj + N) * norm3 b <= sg / 2) by (apply (Rle_trans _ (k * (sg / (2 * k)))); [apply Rmult_le_compat; [apply Rmult_le_pos; lra|exact B0|unfold k; lra|lra]|right; field; lra]); lra) t L). clear FD.
      assert (WT := WM T T0). rewrite (Rabs_right (W T)) in FD2 by lra. assert (E1 : exp (- c * (t - T)) <= exp (mu * (T - t))). { assert (LL : - c * (t - T) <= mu * (T - t)) by (assert (0 <= (c - mu) * (t - T)) by (apply Rmult_le_pos; lra); lra). destruct LL as [LL|LL]; [left; apply exp_increasing, LL|rewrite LL; right; reflexivity]. }
      assert (E2 : W T * exp (- c * (t - T)) <= CV * M1 * exp (mu * (T - t))) by (apply Rmult_le_compat; [lra|left; apply exp_pos|lra|exact E1]).
      replace (2 * Q * (c4 * d) ^ 2 / c) with (KA * d ^ 2) in FD2 by (unfold KA; field; lra). replace (4 * Q * (c4 * D) ^ 2 / c) with (4 * Q * c4 ^ 2 / c * D ^ 2) in FD2 by (field; lra).
      assert (D2 : D ^ 2 <= 1) by (replace 1 with (1 ^ 2) by ring; apply pow_incr; lra). assert (E3 : 4 * Q * c4 ^ 2 / c * D ^ 2 * exp (- mu * t) <= 4 * Q * c4 ^ 2 / c * 1 * exp (- mu * t)) by (apply Rmult_le_compat_r; [lra|]; apply Rmult_le_compat_l; assumption).
      unfold KB. rewrite Rmult_plus_distr_r, (Rmult_assoc (CV * M1)), EE. lra.
    - assert (WT := WM t Ht). unfold KB. rewrite Rmult_plus_distr_r, (Rmult_assoc (CV * M1)), EE. assert (E1 : 1 <= exp (mu * (T - t))) by (assert (X := exp_ineq1_le (mu * (T - t))); assert (0 <= mu * (T - t)) by (apply Rmult_le_pos; lra); lra).
      assert (CV * M1 * 1 <= CV * M1 * exp (mu * (T - t))) by (apply Rmult_le_compat_l; assumption). assert (0 <= 4 * Q * c4 ^ 2 / c * exp (- mu * t)) by (apply Rmult_le_pos; lra). lra. }
  assert (SZ : forall t, 0 <= t -> norm3 (v_rate (y t)) <= sqrt K2 * (exp (- (mu / 2) * t) + d) /\ norm3 (g t) <= sqrt K2 * (exp (- (mu / 2) * t) + d)).
  { intros t Ht. set (x := exp (- (mu / 2) * t)). assert (Xp : 0 < x) by apply exp_pos. assert (XX : exp (- mu * t) = x * x) by (unfold x; rewrite <- exp_plus; f_equal; field). assert (W1 := WL t Ht). rewrite XX in W1. destruct (OSZ t) as [Y1 _]. assert (xd : 0 <= x * d) by (apply Rmult_le_pos; lra).
    assert (ST : stir (v_rate (y t)) (g t) <= K2 * ((x + d) * (x + d))).
    { apply (Rmult_le_reg_l cv); [exact cvp|]. replace (cv * (K2 * ((x + d) * (x + d)))) with ((KA + KB) * ((x + d) * (x + d))) by (unfold K2; field; lra). eapply Rle_trans; [exact Y1|]. eapply Rle_trans; [exact W1|]. assert (dd : 0 <= d * d) by (apply Rmult_le_pos; assumption). assert (xx : 0 <= x * x) by (apply Rmult_le_pos; lra).
      assert (0 <= KA * (x * x + 2 * (x * d))) by (apply Rmult_le_pos; lra). assert (0 <= KB * (d * d + 2 * (x * d))) by (apply Rmult_le_pos; lra). lra. }
    assert (RT : sqrt K2 * (x + d) * (sqrt K2 * (x + d)) = K2 * ((x + d) * (x + d))) by (transitivity ((sqrt K2 * sqrt K2) * ((x + d) * (x + d))); [ring|rewrite sqrt_sqrt by lra; reflexivity]). unfold stir in ST. assert (P1 := dot3_nonneg (v_rate (y t))). assert (P2 := dot3_nonneg (g t)). assert (R0 : 0 <= sqrt K2 * (x + d)) by (apply Rmult_le_pos; lra).
    split; (apply P_exist3.norm3_le_sq; [exact R0|rewrite RT; lra]). }
  intros t Ht. split; [exact (proj1 (C t Ht))|]. destruct (SZ t Ht) as [Z1 Z2]. set (x := exp (- (mu / 2) * t) + d) in *. assert (x0' : 0 <= x) by (unfold x; assert (P := exp_pos (- (mu / 2) * t)); lra). assert (SX : 0 <= sqrt K2 * x) by (apply Rmult_le_pos; lra). assert (CF : 0 <= 2 * (mi * mj) + ga) by lra.
  assert (KX : K * x = sqrt K2 * x + (2 * (mi * mj) + ga) * (sqrt K2 * x)) by (unfold K; ring). rewrite KX. assert (0 <= (2 * (mi * mj) + ga) * (sqrt K2 * x)) by (apply Rmult_le_pos; assumption). split; [lra|].
  assert (PG := gacc_parting w qc b (y t)). cbv zeta in PG. fold (g t) in PG. set (Z := sub3 (mv _ _) _) in PG. assert (PE : parting w qc b (y t) = sub3 Z (g t)) by (rewrite PG; generalize (parting w qc b (y t)) Z; clear; vring). rewrite PE. eapply Rle_trans; [apply sub_norm|].
  assert (ZB : norm3 Z <= (2 * (mi * mj) + ga) * norm3 (v_rate (y t))).
  { unfold Z. rewrite EG. eapply Rle_trans; [apply sub_norm|]. rewrite norm3_scal, (Rabs_right ga) by lra. set (o := v_rate (y t)) in *. assert (P1 := norm3_pos o). set (X := add3 _ _). assert (Y1 := BI X). assert (Y2 : norm3 X <= 2 * mj * norm3 o).
    { unfold X. eapply Rle_trans; [apply norm3_triangle|]. assert (Z3 := cross_norm o (mv (s_total_moment (wc_sat w)) b)). assert (Z4 := cross_norm b (mv (s_total_moment (wc_sat w)) o)). assert (Z5 := BJ o). assert (P2 := norm3_pos (mv (s_total_moment (wc_sat w)) o)).
      assert (norm3 o * norm3 (mv (s_total_moment (wc_sat w)) b) <= norm3 o * mj) by (apply Rmult_le_compat_l; lra). assert (norm3 b * norm3 (mv (s_total_moment (wc_sat w)) o) <= 1 * (mj * norm3 o)) by (apply Rmult_le_compat; lra). lra. }
    assert (mi * norm3 X <= mi * (2 * mj * norm3 o)) by (apply Rmult_le_compat_l; assumption). lra. }
  assert ((2 * (mi * mj) + ga) * norm3 (v_rate (y t)) <= (2 * (mi * mj) + ga) * (sqrt K2 * x)) by (apply Rmult_le_compat_l; assumption). lra.
Qed.
Print Assumptions C123_settles.
(** ** C123: when the errors other than the bias fade, the satellite parks: attitude and wheels' momentum have limits, which balance the bias, so the attitude is off the target by gamma |b| / alpha up to the wheels' part, and never the target *)
Theorem C123_parks : forall al ga hw E mi mj N nu, 0 < al -> 0 < ga -> 0 < hw < 1 -> 0 <= E < 2 * al * (1 + hw) -> 0 <= mi -> 0 <= mj -> 0 <= N -> 0 < nu -> exists lam d0 K, 0 < lam /\ 0 < d0 /\ 0 < K /\
  forall w f qc F y m a b D, wc_alpha w = al -> wc_gamma w = ga -> tr_hw (wc_trig w) = hw -> pm1 (tr_mem (wc_trig w)) ->
  wc_sun w = Some f -> zone_free w -> spanning (s_rw (wc_sat w)) -> det3 (s_total_moment (wc_sat w)) <> 0 ->
  (forall v, norm3 (mv (s_inv_tot (wc_sat w)) v) <= mi * norm3 v) -> (forall v, norm3 (mv (s_total_moment (wc_sat w)) v) <= mj * norm3 v) ->
  unitq qc -> unitq (v_att (y 0)) -> a < 0 -> (forall t, a < t -> obeys_given w qc F (fun _ => zero3) y m t) ->
  0 <= D -> norm3 b + D <= d0 -> (forall t, 0 <= t -> astray (wc_sat w) (D * exp (- nu * t)) (biased b (y t)) (m t)) -> norm3 (body_momentum (wc_sat w) (y 0)) <= N ->
  al * off_target (tr_mem (wc_trig w)) qc (y 0) + rate2 (y 0) / 2 <= E ->
  exists qr hr, let s := tr_mem (wc_trig w) in let e := vec (error_quat qr qc) in let Jb := mv (s_total_moment (wc_sat w)) b in unitq qr /\ norm3 hr <= N /\
    scale3 (s * al) e = sub3 (mv (s_inv_tot (wc_sat w)) (cross3 b (add3 Jb hr))) (scale3 ga b) /\
    ga * dot3 b Jb <= al * norm3 e * norm3 Jb /\ norm3 (add3 (scale3 (s * al) e) (scale3 ga b)) <= mi * norm3 b * (mj * norm3 b + N) /\
    forall t, 0 <= t -> normq (subq (v_att (y t)) qr) <= K * exp (- lam * t) /\ norm3 (v_rate (y t)) <= K * exp (- lam * t) /\ norm3 (sub3 (rw_momentum (s_rw (wc_sat w)) (v_whl (y t))) hr) <= K * exp (- lam * t).
Proof.
  intros al ga hw E mi mj N nu A G HW HE MI MJ HN NU. destruct (C123_settles al ga hw E mi mj N nu A G HW HE MI MJ HN NU) as (lam & d0 & K & L0 & D0 & K0 & CORE).
  set (K2 := K + K / lam + 2 * (K * N / lam) + mj * K). assert (KL : 0 < K / lam) by (apply Rdiv_lt_0_compat; assumption). assert (KN : 0 <= K * N / lam) by (apply Rmult_le_pos; [apply Rmult_le_pos; lra|left; apply Rinv_0_lt_compat, L0]). assert (MK : 0 <= mj * K) by (apply Rmult_le_pos; lra).
  exists lam, d0, K2. split; [exact L0|]. split; [exact D0|]. split; [unfold K2; lra|].
  intros w f qc F y m a b D EA EG EH PM HS HZ SP DJ BI BJ UC U0 HA HO HD Hsum HM HN0 HV. set (s := tr_mem (wc_trig w)) in *. assert (SS := pm1_sq _ PM). fold s in SS.
  assert (HM' : forall t, 0 <= t -> astray (wc_sat w) (D * exp (- nu * t) + 0) (biased b (y t)) (m t)) by (intros t Ht; rewrite Rplus_0_r; apply HM, Ht).
  assert (C := CORE w f qc F y m a b D 0 EA EG EH PM HS HZ SP DJ BI BJ UC U0 HA HO HD ltac:(lra) ltac:(lra) HM' HN0 HV). clear CORE HM'.
  assert (UN := given_unit w f qc F _ y m a HA HS HZ SP DJ HO U0). assert (HH : forall t, 0 <= t -> norm3 (body_momentum (wc_sat w) (y t)) <= N) by (intros t Ht; rewrite (momentum_kept w f qc F y m a HS HZ SP DJ HO HA t Ht); exact HN0).
  assert (WB : forall t, 0 <= t -> norm3 (v_rate (y t)) <= K * exp (- lam * t)) by (intros t Ht; destruct (C t Ht) as (_ & X & _); lra). assert (PB : forall t, 0 <= t -> norm3 (parting w qc b (y t)) <= K * exp (- lam * t)) by (intros t Ht; destruct (C t Ht) as (_ & _ & X); lra).
  assert (GR := fun t (Ht : 0 <= t) => given_rot w f qc F _ y m t HS HZ SP DJ (HO t ltac:(lra))). cbv beta zeta in GR.
  destruct (quat_limit (fun t => v_att (y t)) (fun t => scaleq 0.5 (product (v_att (y t)) (pure (v_rate (y t))))) (K / 2) lam ltac:(lra) L0 (fun t Ht => proj1 (GR t Ht))) as (qr & QL).
  { intros t Ht. rewrite P_integ2.normq_scale, P_integ2.normq_product. unfold pure. rewrite P_integ2.pure_norm, (Rabs_right 0.5) by lra. replace (normq (v_att (y t))) with 1 by (symmetry; unfold normq; rewrite (UN t ltac:(lra)); apply sqrt_1). assert (X := WB t Ht). lra. }
  destruct (vec_limit (fun t => body_momentum (wc_sat w) (y t)) (fun t => sub3 zero3 (cross3 (v_rate (y t)) (body_momentum (wc_sat w) (y t)))) (K * N) lam ltac:(apply Rmult_le_pos; lra) L0 (fun t Ht => proj1 (proj2 (proj2 (GR t Ht))))) as (hr & HL).
  { intros t Ht. replace (sub3 zero3 (cross3 (v_rate (y t)) (body_momentum (wc_sat w) (y t)))) with (scale3 (-1) (cross3 (v_rate (y t)) (body_momentum (wc_sat w) (y t)))) by (generalize (cross3 (v_rate (y t)) (body_momentum (wc_sat w) (y t))); clear; intros [p q r]; unfold zero3; vunfoldg; cbn [x3 y3 z3]; rnumg; apply mk3_c; ring).
    rewrite norm3_scal. replace (Rabs (-1)) with 1 by (rewrite Rabs_left; lra). rewrite Rmult_1_l. eapply Rle_trans; [apply cross_norm|]. replace (K * N * exp (- lam * t)) with (K * exp (- lam * t) * N) by ring. apply Rmult_le_compat; try apply norm3_pos; [apply WB, Ht|apply HH, Ht]. }
  assert (EP : forall t, 0 < exp (- lam * t)) by (intros t; apply exp_pos).
  assert (QL' : forall t, 0 <= t -> normq (subq (v_att (y t)) qr) <= K / lam * exp (- lam * t)). { intros t Ht. eapply Rle_trans; [apply QL, Ht|]. right. field. lra. }
  assert (HL' : forall t, 0 <= t -> norm3 (sub3 (rw_momentum (s_rw (wc_sat w)) (v_whl (y t))) hr) <= (2 * (K * N / lam) + mj * K) * exp (- lam * t)).
  { intros t Ht. replace (sub3 (rw_momentum (s_rw (wc_sat w)) (v_whl (y t))) hr) with (sub3 (sub3 (body_momentum (wc_sat w) (y t)) hr) (mv (s_total_moment (wc_sat w)) (v_rate (y t)))) by (unfold body_momentum; generalize (mv (s_total_moment (wc_sat w)) (v_rate (y t))) (rw_momentum (s_rw (wc_sat w)) (v_whl (y t))); clear; destruct hr as [h1 h2 h3]; intros [p q r] [p' q' r']; vunfoldg; cbn [x3 y3 z3]; rnumg; apply mk3_c; ring).
    eapply Rle_trans; [apply sub_norm|]. assert (X := HL t Ht). assert (Y := BJ (v_rate (y t))). assert (mj * norm3 (v_rate (y t)) <= mj * (K * exp (- lam * t))) by (apply Rmult_le_compat_l; [exact MJ|apply WB, Ht]). lra. }
  assert (UR : unitq qr).
  { unfold unitq. assert (ND : normq qr = 1).
    { assert (TR : forall t, 0 <= t -> Rabs (normq qr - 1) <= K / lam * exp (- lam * t)).
      { intros t Ht. assert (X := QL' t Ht). assert (N1 : normq (v_att (y t)) = 1) by (unfold normq; rewrite (UN t ltac:(lra)); apply sqrt_1). assert (T1 := P_integ2.normq_triangle (subq (v_att (y t)) qr) qr). assert (T2 := P_integ2.normq_triangle (subq qr (v_att (y t))) (v_att (y t))).
        replace (addq (subq (v_att (y t)) qr) qr) with (v_att (y t)) in T1 by (generalize (v_att (y t)); clear; destruct qr as [a b c d]; intros [a' b' c' d']; vunfoldg; cbn [qw qx qy qz]; rnumg; apply mkq_c; ring). replace (addq (subq qr (v_att (y t))) (v_att (y t))) with qr in T2 by (generalize (v_att (y t)); clear; destruct qr as [a b c d]; intros [a' b' c' d']; vunfoldg; cbn [qw qx qy qz]; rnumg; apply mkq_c; ring).
        replace (normq (subq qr (v_att (y t)))) with (normq (subq (v_att (y t)) qr)) in T2 by (unfold normq; f_equal; generalize (v_att (y t)); clear; destruct qr as [a b c d]; intros [a' b' c' d']; vunfoldg; cbn [qw qx qy qz]; rnumg; ring). apply Rabs_le. lra. }
      assert (Z : Rabs (normq qr - 1) <= 0) by (apply (nothing _ (K / lam) lam); [lra|exact L0|exact TR]). assert (Z2 := Rabs_pos (normq qr - 1)). assert (Z3 : Rabs (normq qr - 1) = 0) by lra. destruct (Req_dec (normq qr - 1) 0) as [Z4|Z4]; [lra|apply Rabs_no_R0 in Z4; lra]. }
    rewrite <- normq_sq, ND. ring. }
  set (Jb := mv (s_total_moment (wc_sat w)) b). set (e := vec (error_quat qr qc)). set (JI := s_inv_tot (wc_sat w)) in *.
  set (Rr := sub3 (scale3 (s * al) e) (sub3 (mv JI (cross3 b (add3 Jb hr))) (scale3 ga b))).
  assert (AS : Rabs s = 1) by (destruct PM as [PM|PM]; fold s in PM; rewrite PM; [rewrite Rabs_right; lra|rewrite Rabs_left; lra]). assert (B0 := norm3_pos b).
  assert (R0 : norm3 Rr <= 0).
  { apply (nothing _ (K + al * (K / lam) + mi * norm3 b * (2 * (K * N / lam) + mj * K)) lam); [assert (0 <= al * (K / lam)) by (apply Rmult_le_pos; lra); assert (0 <= mi * norm3 b * (2 * (K * N / lam) + mj * K)) by (apply Rmult_le_pos; [apply Rmult_le_pos; assumption|lra]); lra|exact L0|]. intros t Ht.
    set (et := vec (error_quat (v_att (y t)) qc)). set (ht := rw_momentum (s_rw (wc_sat w)) (v_whl (y t))).
    assert (SPL : Rr = add3 (parting w qc b (y t)) (sub3 (scale3 (- (s * al)) (sub3 et e)) (mv JI (cross3 b (sub3 hr ht))))).
    { unfold Rr, parting. rewrite EA, EG. fold s et ht Jb JI. replace (cross3 b (sub3 hr ht)) with (sub3 (cross3 b (add3 Jb hr)) (cross3 b (add3 Jb ht))) by (generalize Jb ht; clear; destruct b as [b1 b2 b3], hr as [h1 h2 h3]; intros [p q r] [p' q' r']; vunfoldg; cbn [x3 y3 z3]; rnumg; apply mk3_c; ring). rewrite mv_sub3.
      generalize (mv JI (cross3 b (add3 Jb hr))) (mv JI (cross3 b (add3 Jb ht))) e et s. clear. destruct b as [b1 b2 b3]. intros [p1 p2 p3] [q1 q2 q3] [e1 e2 e3] [f1 f2 f3] s. vunfoldg; cbn [x3 y3 z3]; rnumg; apply mk3_c; ring. }
    rewrite SPL. eapply Rle_trans; [apply norm3_triangle|]. eapply Rle_trans; [apply Rplus_le_compat_l, sub_norm|]. rewrite norm3_scal, Rabs_Ropp, Rabs_mult, AS, (Rabs_right al), Rmult_1_l by lra.
    assert (X1 := PB t Ht). assert (X2 : norm3 (sub3 et e) <= K / lam * exp (- lam * t)). { apply (err_shift (v_att (y t)) qr qc); [apply Rmult_le_pos; [lra|left; apply EP]|exact UC|]. rewrite <- normq_sq. replace ((K / lam * exp (- lam * t)) ^ 2) with (K / lam * exp (- lam * t) * (K / lam * exp (- lam * t))) by ring. apply Rmult_le_compat; try apply sqrt_pos; apply QL', Ht. }
    assert (X3 : norm3 (mv JI (cross3 b (sub3 hr ht))) <= mi * (norm3 b * ((2 * (K * N / lam) + mj * K) * exp (- lam * t)))). { eapply Rle_trans; [apply BI|]. apply Rmult_le_compat_l; [exact MI|]. eapply Rle_trans; [apply cross_norm|]. apply Rmult_le_compat_l; [exact B0|]. replace (norm3 (sub3 hr ht)) with (norm3 (sub3 ht hr)); [apply HL', Ht|]. unfold norm3. f_equal. generalize ht. clear. destruct hr as [h1 h2 h3]. intros [p q r]. vunfoldg; cbn [x3 y3 z3]; rnumg; ring. }
    assert (X4 : al * norm3 (sub3 et e) <= al * (K / lam * exp (- lam * t))) by (apply Rmult_le_compat_l; lra). lra. }
  assert (RZ : Rr = zero3) by (apply dot3_zero; rewrite <- P_quat.norm3_sq; assert (X := norm3_pos Rr); replace (norm3 Rr) with 0 by lra; ring).
  assert (EQ : scale3 (s * al) e = sub3 (mv JI (cross3 b (add3 Jb hr))) (scale3 ga b)). { unfold Rr in RZ. revert RZ. generalize (scale3 (s * al) e) (sub3 (mv JI (cross3 b (add3 Jb hr))) (scale3 ga b)). clear. intros [p q r] [p' q' r']. unfold zero3. vunfoldg; cbn [x3 y3 z3]; rnumg. intros X. injection X as X1 X2 X3. apply mk3_c; lra. }
  assert (HR : norm3 hr <= N).
  { assert (X : norm3 hr - N <= 0); [|lra]. apply (nothing _ (2 * (K * N / lam)) lam); [lra|exact L0|]. intros t Ht. assert (Y := HL t Ht). assert (Z := HH t Ht). assert (W := sub_norm (body_momentum (wc_sat w) (y t)) (sub3 (body_momentum (wc_sat w) (y t)) hr)).
    replace (sub3 (body_momentum (wc_sat w) (y t)) (sub3 (body_momentum (wc_sat w) (y t)) hr)) with hr in W by (generalize (body_momentum (wc_sat w) (y t)); clear; destruct hr as [h1 h2 h3]; intros [p q r]; vunfoldg; cbn [x3 y3 z3]; rnumg; apply mk3_c; ring). lra. }
  exists qr, hr. cbv zeta. fold Jb e JI. split; [exact UR|]. split; [exact HR|]. split; [exact EQ|].
  assert (DOT : dot3 Jb (scale3 (s * al) e) = - ga * dot3 b Jb).
  { rewrite EQ. assert (X : dot3 Jb (mv JI (cross3 b (add3 Jb hr))) = 0). { unfold Jb at 1. rewrite <- (symm_dot _ b _ (total_symm (wc_sat w))). unfold JI, s_inv_tot. rewrite mv_inv3 by exact DJ. generalize (add3 Jb hr). clear. destruct b as [b1 b2 b3]. intros [p q r]. vunfoldg; cbn [x3 y3 z3]; rnumg; ring. }
    transitivity (dot3 Jb (mv JI (cross3 b (add3 Jb hr))) - ga * dot3 b Jb); [|rewrite X; ring]. generalize (mv JI (cross3 b (add3 Jb hr))) Jb. clear. destruct b as [b1 b2 b3]. intros [p q r] [p' q' r']. vunfoldg; cbn [x3 y3 z3]; rnumg; ring. }
  split.
  { assert (X := dot_norm Jb (scale3 (s * al) e)). rewrite DOT, norm3_scal, (Rabs_mult s al), AS, (Rabs_right al), Rmult_1_l in X by lra. apply rabs_b in X. lra. }
  split.
  { replace (add3 (scale3 (s * al) e) (scale3 ga b)) with (mv JI (cross3 b (add3 Jb hr))) by (rewrite EQ; generalize (mv JI (cross3 b (add3 Jb hr))); clear; destruct b as [b1 b2 b3]; intros [p q r]; vunfoldg; cbn [x3 y3 z3]; rnumg; apply mk3_c; ring).
    eapply Rle_trans; [apply BI|]. rewrite Rmult_assoc. apply Rmult_le_compat_l; [exact MI|]. eapply Rle_trans; [apply cross_norm|]. apply Rmult_le_compat_l; [exact B0|]. eapply Rle_trans; [apply norm3_triangle|]. assert (X := BJ b). fold Jb in X. lra. }
  intros t Ht. assert (P := EP t). assert (Z1 : 0 <= (2 * (K * N / lam) + mj * K) * exp (- lam * t)) by (apply Rmult_le_pos; lra). assert (Z2 : 0 <= K / lam * exp (- lam * t)) by (apply Rmult_le_pos; lra). assert (Z3 : 0 <= K * exp (- lam * t)) by (apply Rmult_le_pos; lra).
  assert (SUM : K2 * exp (- lam * t) = K * exp (- lam * t) + K / lam * exp (- lam * t) + (2 * (K * N / lam) + mj * K) * exp (- lam * t)) by (unfold K2; ring). rewrite SUM.
  split; [assert (X := QL' t Ht); lra|]. split; [assert (X := WB t Ht); lra|]. assert (X := HL' t Ht). lra.
Qed.
Print Assumptions C123_parks.
Lemma astray_same sat v : astray sat 0 v v.
Proof.
  unfold astray. split; [|split].
  - replace (dotq _ _) with 0; [lra|]. generalize (v_att v). clear. intros [p q r u]. vunfoldg; cbn [qw qx qy qz]; rnumg; ring.
  - replace (sub3 (v_rate v) (v_rate v)) with (zero3 (T:=R)) by (generalize (v_rate v); clear; intros [p q r]; unfold zero3; vunfoldg; cbn [x3 y3 z3]; rnumg; apply mk3_c; ring). apply P_exist3.norm3_le_sq; [lra|]. unfold zero3. vunfoldg; cbn [x3 y3 z3]; rnumg; lra.
  - generalize (rw_momentum (s_rw sat) (v_whl v)). intros h. replace (sub3 h h) with (zero3 (T:=R)) by (generalize h; clear; intros [p q r]; unfold zero3; vunfoldg; cbn [x3 y3 z3]; rnumg; apply mk3_c; ring). apply P_exist3.norm3_le_sq; [lra|]. unfold zero3. vunfoldg; cbn [x3 y3 z3]; rnumg; lra.
Qed.
(** a motion that meets the hypotheses with a bias that is not zero, and is parked off its target *)
Example C123_ex : exists y b lam K qr hr, 0 < lam /\ b <> zero3 /\
  (forall t, -1 < t -> obeys_given axis_ctl q1 (fun _ => zero3) (fun _ => zero3) y (fun t => biased b (y t)) t) /\ unitq qr /\
  scale3 (1 * (2 * 0.1 ^ 2)) (vec (error_quat qr q1)) = sub3 (mv (s_inv_tot free_ball) (cross3 b (add3 (mv (s_total_moment free_ball) b) hr))) (scale3 (2 * 0.707 * 0.1) b) /\
  0 < norm3 (vec (error_quat qr q1)) /\ forall t, 0 <= t -> normq (subq (v_att (y t)) qr) <= K * exp (- lam * t).
Proof.
  destruct (C123_parks (2 * 0.1 ^ 2) (2 * 0.707 * 0.1) 0.3 0.02 (/ 4) 4 1 1) as (lam & d0 & K & L0 & D0 & K0 & H); try lra.
  destruct (C114_ex d0 D0) as (y & b & d & Hd & NB & OB & AS & U0 & PM & SP & DJ & BI & BJ & HN & HV & _ & POS & _).
  assert (Bd : norm3 b <= d). { destruct (AS 0 ltac:(lra)) as (_ & X & _). revert X. unfold biased. cbn [v_rate]. rewrite add_sub. auto. }
  destruct (H axis_ctl (fun _ => ex) q1 (fun _ => zero3) y (fun t => biased b (y t)) (-1) b 0) as (qr & hr & UR & _ & EQ & DOT & _ & LIM); try assumption; try reflexivity; try lra.
  - right. reflexivity.
  - unfold unitq, q1. vunfoldg; cbn [qw qx qy qz]; rnumg; ring.
  - intros t Ht. rewrite Rmult_0_l. apply astray_same.
  - exists y, b, lam, K, qr, hr. split; [exact L0|]. split; [exact NB|]. split; [exact OB|]. split; [exact UR|]. split; [exact EQ|]. split.
    + change (wc_sat axis_ctl) with free_ball in DOT. destruct (Rle_lt_or_eq_dec _ _ (norm3_pos (vec (error_quat qr q1)))) as [X|X]; [exact X|]. rewrite <- X in DOT. nra.
    + intros t Ht. apply (LIM t Ht).
Qed.
