(** * Theorems C45-C51: the Kalman filters (classes/observers.py) *)
From Coq Require Import Reals List Bool Lra Psatz Lia.
From Verif Require Import Num Vec Mat6 M_vector M_quaternion M_jday M_frame M_env M_dyn M_obs S_rot S_env S_dyn S_obs P_quat P_wheel P_env P_dyn P_dyn2 P_obs P_obs2 P_obs3.
Import ListNotations.
Local Open Scope R_scope.

Lemma pf_R_symm : symm6 pf_R. Proof. apply diag6_symm. Qed.
Lemma sig_pos : 0 < x_sigma ^ 2 /\ 0 < v_sigma ^ 2 /\ 0 < a_sigma ^ 2. Proof. unfold x_sigma, v_sigma, a_sigma. repeat split; nra. Qed.
Lemma pf_R_pd : pd6 pf_R. Proof. destruct sig_pos as (A & B & _). apply diag6_pd; assumption. Qed.
Lemma pf_R_psd : psd6 pf_R. Proof. destruct sig_pos as (A & B & _). apply diag6_psd; lra. Qed.
Lemma pf_inv P : symm6 P -> psd6 P -> exists N, inv6 (addm6 P pf_R) = Ok N /\ inverse6 (addm6 P pf_R) N.
Proof.
  intros S Q. destruct (inv6_pd (addm6 P pf_R)) as [N E]; [apply symm6_add; [exact S|apply pf_R_symm]|apply pd6_add; [exact Q|apply pf_R_pd]|].
  exists N. split; [exact E|]. apply inv6_correct, E.
Qed.
(** propagation divides by the length of the estimated position *)
Fixpoint pf_defined (ops : list POp) (f : PosF) : Prop :=
  match ops with
  | [] => True
  | o :: r => match o with PProp _ => u1 (p_x f) <> zero3 | _ => True end /\ pf_defined r (fst (pf_step f o))
  end.
Lemma upd_cov P N : symm6 P -> psd6 P -> inverse6 (addm6 P pf_R) N -> let P' := mm6 (subm6 id6 (mm6 P N)) P in symm6 P' /\ psd6 P'.
Proof.
  intros S Q I P'. destruct (update_forms P pf_R N S pf_R_symm I) as (A & B & _). split; [exact A|]. intros x. unfold P'. rewrite B. cbv zeta.
  set (g := mv6 N (mv6 P x)). assert (H1 := Q (sub6 x g)). assert (H2 := pf_R_psd g). lra.
Qed.
Lemma pf_Q_psd : psd6 pf_Q. Proof. destruct sig_pos as (_ & _ & C). apply diag6_psd; lra. Qed.
Lemma pf_step_cov f o : symm6 (p_P f) -> psd6 (p_P f) -> symm6 (p_P (fst (pf_step f o))) /\ psd6 (p_P (fst (pf_step f o))).
Proof.
  intros S Q. destruct o as [h x v|dt]; cbn [pf_step].
  - unfold pf_update. destruct (pf_inv _ S Q) as (N & E & I). rewrite E. destruct (refresh h (p_st f) _ _) as [st e]. cbn [fst p_P]. apply upd_cov; assumption.
  - cbn [fst]. unfold pf_propagate. cbn [p_P]. split.
    + apply symm6_add; [apply symm6_conj, S|apply diag6_symm].
    + apply psd6_add; [apply psd6_conj, Q|apply pf_Q_psd].
Qed.
Lemma ecef_exn r e : ecef_to_lla r = Raise e -> e <> LinAlgError.
Proof.
  unfold ecef_to_lla. destruct (lla_initial _ _) as [[[[lat s] c] ss]|e1] eqn:E1; cbn [rbind].
  - destruct (lla_correct _ _ _ _ _ _) as [[l h]|e2] eqn:E2; cbn [rbind]; [discriminate|]. intros H. injection H as <-. revert E2. unfold lla_correct, mdiv, msqrt. cbv zeta.
    repeat match goal with |- context [if ?b then _ else _] => destruct b; cbn [rbind] end; intros H ->; discriminate H.
  - intros H. injection H as <-. revert E1. unfold lla_initial, mdiv, msqrt, masin, macos. cbv zeta.
    repeat match goal with |- context [if ?b then _ else _] => destruct b; cbn [rbind] end; intros H ->; discriminate H.
Qed.

(** ** C45 *)
Theorem C45_covariance : forall ops f, symm6 (p_P f) -> psd6 (p_P f) -> pf_defined ops f ->
  let g := pf_run ops f in
  symm6 (p_P g) /\ psd6 (p_P g) /\ exists N, inv6 (addm6 (p_P g) pf_R) = Ok N /\ inverse6 (addm6 (p_P g) pf_R) N.
Proof.
  intros ops. induction ops as [|o ops IH]; intros f S Q D; cbv zeta.
  - cbn. split; [exact S|]. split; [exact Q|]. apply pf_inv; assumption.
  - destruct D as [_ D]. destruct (pf_step_cov f o S Q) as [S' Q']. apply (IH _ S' Q' D).
Qed.
Print Assumptions C45_covariance.
Theorem C45_from_start : forall s ops, pf_defined ops (pf_init s) ->
  let g := pf_run ops (pf_init s) in
  symm6 (p_P g) /\ psd6 (p_P g) /\ (forall h x v, snd (pf_step g (PUpd h x v)) <> Some LinAlgError).
Proof.
  intros s ops D. assert (S : symm6 (p_P (pf_init s))) by (cbn [pf_init p_P]; replace id6 with (diag6 1 1) by (unfold diag6, id6; f_equal; vring); apply diag6_symm).
  assert (Q : psd6 (p_P (pf_init s))) by (cbn [pf_init p_P]; replace id6 with (diag6 1 1) by (unfold diag6, id6; f_equal; vring); apply diag6_psd; lra).
  destruct (C45_covariance ops _ S Q D) as (A & B & N & E & _). cbv zeta. split; [exact A|]. split; [exact B|].
  intros h x v. cbn [pf_step]. unfold pf_update. rewrite E. destruct (refresh h _ _ _) as [st e] eqn:RF. cbn [snd].
  revert RF. unfold refresh. cbv zeta. destruct (ecef_to_lla _) as [[[la lo] al]|e0] eqn:EE; intros H; injection H as <- <-; [discriminate|].
  intros X. injection X as ->. exact (ecef_exn _ _ EE eq_refl).
Qed.
Print Assumptions C45_from_start.
(** updates keep a definite covariance definite *)
Theorem C45_update_definite : forall h x v f, symm6 (p_P f) -> pd6 (p_P f) -> pd6 (p_P (fst (pf_update h x v f))).
Proof.
  intros h x v f S P. assert (Q : psd6 (p_P f)). { intros y. destruct (zero3_dec (u1 y)) as [E1|E1]; [destruct (zero3_dec (u2 y)) as [E2|E2]|].
    - replace y with zero6 by (apply V6_eq; symmetry; assumption). rewrite mv6_zero. unfold dot6, zero6. cbn [u1 u2]. replace (dot3 zero3 zero3) with 0 by vring. lra.
    - left. apply P. intros E. apply E2. rewrite E. reflexivity.
    - left. apply P. intros E. apply E1. rewrite E. reflexivity. }
  unfold pf_update. destruct (pf_inv _ S Q) as (N & E & I). rewrite E. destruct (refresh h (p_st f) _ _) as [st e]. cbn [fst p_P].
  destruct (update_forms _ pf_R N S pf_R_symm I) as (_ & B & _). intros y Y. rewrite B. cbv zeta. set (g := mv6 N (mv6 (p_P f) y)).
  assert (H1 := Q (sub6 y g)). assert (H2 := pf_R_psd g).
  destruct (zero3_dec (u1 g)) as [G1|G1]; [destruct (zero3_dec (u2 g)) as [G2|G2]|].
  - assert (G : g = zero6) by (apply V6_eq; assumption). rewrite G in *. replace (sub6 y zero6) with y in * by (apply V6_eq; cbn; rewrite sub3_0_r; reflexivity). assert (X := P y Y). lra.
  - assert (X := pf_R_pd g). assert (g <> zero6) by (intros EG; apply G2; rewrite EG; reflexivity). specialize (X H). lra.
  - assert (X := pf_R_pd g). assert (g <> zero6) by (intros EG; apply G1; rewrite EG; reflexivity). specialize (X H). lra.
Qed.
Print Assumptions C45_update_definite.

(** ** C46 *)
Lemma polar m n : symm6 m -> symm6 n -> (forall x, dot6 x (mv6 m x) = dot6 x (mv6 n x)) -> m = n.
Proof.
  intros SM SN H. apply m6_ext. intros y. apply dot6_ext. intros x. assert (A := H (add6 x y)). rewrite !mv6_add, !dot6_add_l, !dot6_add_r, !H in A.
  assert (B : dot6 y (mv6 m x) = dot6 x (mv6 m y)) by (rewrite <- (symm6_dot m) by exact SM; apply dot6_comm).
  assert (C : dot6 y (mv6 n x) = dot6 x (mv6 n y)) by (rewrite <- (symm6_dot n) by exact SN; apply dot6_comm). lra.
Qed.
Theorem C46_minimum_variance : forall h x v f, symm6 (p_P f) -> psd6 (p_P f) ->
  let f' := fst (pf_update h x v f) in
  exists K, mm6 K (addm6 (p_P f) pf_R) = p_P f /\
    p_x f' = add6 (p_x f) (mv6 K (sub6 (mk6 x v) (p_x f))) /\
    p_P f' = combined (p_P f) pf_R K /\
    loewner (p_P f') (p_P f) /\ loewner (p_P f') pf_R /\ (forall L, loewner (p_P f') (combined (p_P f) pf_R L)).
Proof.
  intros h x v f S Q. unfold pf_update. destruct (pf_inv _ S Q) as (N & E & I). rewrite E. destruct (refresh h (p_st f) _ _) as [st e]. cbn [fst p_P p_x].
  destruct (update_forms _ pf_R N S pf_R_symm I) as (A & B & C & D & F). set (P := p_P f) in *. set (P' := mm6 (subm6 id6 (mm6 P N)) P) in *.
  assert (XP : psd6 (addm6 P pf_R)) by (apply psd6_add; [exact Q|apply pf_R_psd]).
  assert (EK : mm6 (mm6 P N) (addm6 P pf_R) = P). { destruct I as [_ I2]. apply m6_ext. intros y. rewrite !mv6_mm. rewrite <- (mv6_mm N), I2, mv6_id. reflexivity. }
  exists (mm6 P N). split; [exact EK|]. split; [reflexivity|]. split; [|split; [|split]].
  - apply polar.
    + exact A.
    + unfold combined. apply symm6_add; apply symm6_conj; [exact S|apply pf_R_symm].
    + intros y. rewrite F. cbv zeta. assert (Z : mv6 (tr6 (mm6 P N)) y = mv6 N (mv6 P y)).
      { apply dot6_ext. intros z. rewrite <- dot6_tr, mv6_mm, (symm6_dot P) by exact S. destruct I as [I1 I2].
        assert (E1 : forall a, mv6 (addm6 P pf_R) (mv6 N a) = a) by (intros; rewrite <- mv6_mm, I1; apply mv6_id).
        rewrite <- (E1 (mv6 P y)) at 1. rewrite <- (symm6_dot (addm6 P pf_R)) by (apply symm6_add; [exact S|apply pf_R_symm]). rewrite E1. reflexivity. }
      rewrite Z. set (g := mv6 N (mv6 P y)). replace (sub6 g g) with zero6 by (apply V6_eq; cbn; rewrite sub3_self; reflexivity). rewrite mv6_zero.
      replace (dot6 zero6 zero6) with 0 by (unfold dot6, zero6; cbn [u1 u2]; replace (dot3 zero3 zero3) with 0 by vring; lra). lra.
  - intros y. rewrite C. cbv zeta. assert (Z := XP (mv6 N (mv6 P y))). lra.
  - intros y. rewrite D. cbv zeta. assert (Z := XP (mv6 N (mv6 pf_R y))). lra.
  - intros L y. rewrite F. cbv zeta. assert (Z := XP (sub6 (mv6 (tr6 L) y) (mv6 N (mv6 P y)))). lra.
Qed.
Print Assumptions C46_minimum_variance.
Theorem C46_agreement : forall h f, symm6 (p_P f) -> psd6 (p_P f) ->
  p_x (fst (pf_update h (u1 (p_x f)) (u2 (p_x f)) f)) = p_x f.
Proof.
  intros h f S Q. destruct (C46_minimum_variance h (u1 (p_x f)) (u2 (p_x f)) f S Q) as (K & _ & E & _). rewrite E.
  replace (sub6 (mk6 (u1 (p_x f)) (u2 (p_x f))) (p_x f)) with zero6 by (apply V6_eq; cbn; rewrite sub3_self; reflexivity).
  rewrite mv6_zero. apply V6_eq; cbn; rewrite add3_0_r; reflexivity.
Qed.
Print Assumptions C46_agreement.
(** the shared state object: written by update (even when it then raises), left alone by propagate *)
Theorem C46_state_object : forall h x v dt f, symm6 (p_P f) -> psd6 (p_P f) ->
  let f' := fst (pf_update h x v f) in
  v_pos (sv (p_st f')) = u1 (p_x f') /\ v_vel (sv (p_st f')) = u2 (p_x f') /\
  v_att (sv (p_st f')) = v_att (sv (p_st f)) /\ v_rate (sv (p_st f')) = v_rate (sv (p_st f)) /\ v_whl (sv (p_st f')) = v_whl (sv (p_st f)) /\
  p_st (pf_propagate dt f) = p_st f.
Proof.
  intros h x v dt f S Q. unfold pf_update. destruct (pf_inv _ S Q) as (N & E & I). rewrite E. cbv zeta.
  unfold refresh. cbv zeta. destruct (ecef_to_lla _) as [[[la lo] al]|e0]; cbn [fst p_x p_st sv v_pos v_vel v_att v_rate v_whl]; repeat split; reflexivity.
Qed.
Print Assumptions C46_state_object.
Definition ex_state : SatState := mkSS (circle 0) 0 id3 zero3 orbit_r 0 0 400000.
Lemma ex_pos : u1 (p_x (pf_init ex_state)) = mk3 orbit_r 0 0.
Proof. cbn [pf_init p_x u1 ex_state sv circle v_pos]. rewrite Rmult_0_r, cos_0, sin_0. apply mk3_c; ring. Qed.
Lemma id6_cov : symm6 id6 /\ psd6 id6.
Proof. replace id6 with (diag6 1 1) by (unfold diag6, id6; f_equal; vring). split; [apply diag6_symm|apply diag6_psd; lra]. Qed.
Example C45_ex : pf_defined [PProp 60; PUpd store0 (mk3 7000000 0 0) (mk3 0 7500 0); PUpd store0 (mk3 0 0 0) (mk3 0 7500 0)] (pf_init ex_state) /\
  symm6 (p_P (pf_init ex_state)) /\ psd6 (p_P (pf_init ex_state)).
Proof.
  split; [|exact id6_cov]. cbn [pf_defined pf_step fst]. rewrite ex_pos. repeat split. intros E. injection E. unfold orbit_r. rnumg. lra.
Qed.
(** the estimate drifts away from the state object while propagating *)
Theorem C46_stale_refuted : exists f dt, symm6 (p_P f) /\ psd6 (p_P f) /\ v_pos (sv (p_st f)) = u1 (p_x f) /\
  v_pos (sv (p_st (pf_propagate dt f))) <> u1 (p_x (pf_propagate dt f)).
Proof.
  exists (pf_init ex_state), 1. split; [apply id6_cov|]. split; [apply id6_cov|]. split; [reflexivity|].
  assert (P0 : v_pos (sv ex_state) = mk3 orbit_r 0 0) by (cbn [ex_state sv circle v_pos]; rewrite Rmult_0_r, cos_0, sin_0; apply mk3_c; ring).
  assert (V0 : v_vel (sv ex_state) = mk3 0 (orbit_r * orbit_n) 0) by (cbn [ex_state sv circle v_vel]; rewrite Rmult_0_r, cos_0, sin_0; apply mk3_c; ring).
  unfold pf_propagate, pf_init. cbn [p_st p_x]. rewrite P0, V0. unfold mv6, A_discrete. cbv zeta. cbn [b11 b12 u1 u2]. rewrite !mv_scalem, !mv_id3. unfold scale3, add3. cbn [x3 y3 z3]. rnumg.
  intros E. apply (f_equal x3) in E. cbn [x3] in E. unfold orbit_r, pf_a in E. lra.
Qed.
Print Assumptions C46_stale_refuted.

(** ** C47 *)
Theorem C47_jacobian : forall p, p <> zero3 ->
  let G := b21 (F_continuous p) in
  gradient (fun p => x3 (gravity_accel false p (norm3 p))) p (opp3 (row1 G)) /\
  gradient (fun p => y3 (gravity_accel false p (norm3 p))) p (opp3 (row2 G)) /\
  gradient (fun p => z3 (gravity_accel false p (norm3 p))) p (opp3 (row3 G)) /\
  tr3 G = G /\ trace3 G = 0.
Proof.
  intros p H. cbv zeta. cbn [F_continuous b21]. destruct (gravity_jacobian p H) as (A & B & C). repeat (split; [assumption|]). split.
  - destruct p as [x y z]. reflexivity.
  - rewrite (grad_block_inv p H). cbv zeta. assert (N := norm3_gt0 p H). assert (Q := norm3_sq p). set (r := norm3 p) in *. clearbody r. unfold trace3. cbn [row1 row2 row3 x3 y3 z3]. rnumg.
    transitivity (3 * MU * (/ r) ^ 5 * (r * r - dot3 p p)); [|rewrite Q; ring]. generalize MU. intros mu. destruct p as [x y z]. unfold dot3. cbn [x3 y3 z3]. rnumg. field. lra.
Qed.
Print Assumptions C47_jacobian.
Lemma MU_pos : 0 < MU. Proof. unfold MU, G_NEWTON, EARTH_MASS. apply Rmult_lt_0_compat; lra. Qed.
(** so the block is never the Jacobian itself *)
Theorem C47_sign_refuted : forall p, p <> zero3 ->
  let G := b21 (F_continuous p) in
  ~ (gradient (fun p => x3 (gravity_accel false p (norm3 p))) p (row1 G) /\
     gradient (fun p => y3 (gravity_accel false p (norm3 p))) p (row2 G) /\
     gradient (fun p => z3 (gravity_accel false p (norm3 p))) p (row3 G)).
Proof.
  intros p H G (A & B & C). destruct (C47_jacobian p H) as (A' & B' & C' & _). fold G in A', B', C'.
  assert (EA := gradient_unique _ _ _ _ A A'). assert (EB := gradient_unique _ _ _ _ B B'). assert (EC := gradient_unique _ _ _ _ C C'). clear A B C A' B' C'.
  unfold G in *. clear G. cbn [F_continuous b21] in *. rewrite (grad_block_inv p H) in *. cbv zeta in *. assert (N := norm3_gt0 p H). assert (M := MU_pos). set (m := MU) in *. clearbody m.
  assert (W : 0 < / norm3 p) by (apply Rinv_0_lt_compat, N). set (w := / norm3 p) in *. clearbody w. destruct p as [x y z]. cbn [x3 y3 z3 row1 row2 row3] in *. unfold opp3 in *. cbn [x3 y3 z3] in *.
  injection EA as E1 E2 E3. injection EB as _ E4 E5. injection EC as _ _ E6. rnum.
  assert (W3 : 0 < w ^ 3) by (apply pow_lt; exact W). assert (W5 : 0 < w ^ 5) by (apply pow_lt; exact W).
  assert (X : forall a b, - m * (3 * w ^ 5 * a * b) = - (- m * (3 * w ^ 5 * a * b)) -> a * b = 0).
  { intros a b E. assert (m * w ^ 5 * (a * b) = 0) by lra. assert (0 < m * w ^ 5) by (apply Rmult_lt_0_compat; assumption). apply Rmult_integral in H0. destruct H0; lra. }
  assert (Y : forall a, - m * (- w ^ 3 + 3 * w ^ 5 * a * a) = - (- m * (- w ^ 3 + 3 * w ^ 5 * a * a)) -> a <> 0).
  { intros a E Z. subst a. assert (m * w ^ 3 = 0) by lra. assert (0 < m * w ^ 3) by (apply Rmult_lt_0_compat; assumption). lra. }
  apply X in E2. apply Y in E1, E4. apply Rmult_integral in E2. destruct E2; contradiction.
Qed.
Print Assumptions C47_sign_refuted.
(** the drag term too: the state decays with rate b, the covariance grows with it *)
Theorem C47_drag_sign : forall p x,
  deriv3 (fun t => u2 (mv6 (A_discrete t) x)) 0 (add3 (scale3 (- pf_a) (u1 x)) (scale3 (- pf_b) (u2 x))) /\
  deriv3 (fun t => u2 (mv6 (F_discrete p t) x)) 0 (add3 (mv (b21 (F_continuous p)) (u1 x)) (scale3 pf_b (u2 x))).
Proof.
  intros p x. split.
  - apply (d3_ext (fun t => add3 (scale3 (- pf_a * t) (u1 x)) (scale3 (1 - 0.5 * pf_a * t ^ 2 - pf_b * t) (u2 x))) _ 0 (add3 (scale3 (- pf_a) (u1 x)) (scale3 (- pf_b) (u2 x)))).
    + intros t. unfold mv6, A_discrete. cbv zeta. cbn [u2 b21 b22]. rewrite !mv_scalem, !mv_id3. reflexivity.
    + apply d3_plus; apply d3_mul.
      * eapply d_eq; [apply d_scal, derivable_pt_lim_id|ring].
      * eapply d_eq; [apply d_minus; [apply d_minus; [apply d_const|apply d_scal; apply (derivable_pt_lim_pow 0 2)]|apply d_scal, derivable_pt_lim_id]|]. cbn [pow Init.Nat.pred INR]. ring.
    + reflexivity.
  - set (F := F_continuous p). set (y := u2 (mv6 (mm6 F F) x)).
    apply (d3_ext (fun t => add3 (add3 (u2 x) (scale3 t (u2 (mv6 F x)))) (scale3 (t ^ 2) (scale3 0.5 y))) _ 0 (add3 (add3 zero3 (scale3 1 (u2 (mv6 F x)))) (scale3 0 (scale3 0.5 y)))).
    + intros t. unfold F_discrete. cbv zeta. fold F. rewrite !mv6_addm, mv6_id. unfold add6. cbn [u2]. f_equal; [f_equal|].
      * unfold scalem6, mv6. cbn [u2 b21 b22]. rewrite !mv_scalem. generalize (mv (b21 F) (u1 x)) (mv (b22 F) (u2 x)). clear. vring.
      * unfold y. generalize (mm6 F F). intros FF. unfold scalem6, mv6. cbn [u2 b21 b22]. rewrite !mv_scalem. generalize (mv (b21 FF) (u1 x)) (mv (b22 FF) (u2 x)). clear. generalize 0.5. intros k. revert t. vring.
    + apply d3_plus; [apply d3_plus; [exact (d3_const (u2 x) 0)|]|].
      * apply d3_mul. apply derivable_pt_lim_id.
      * apply d3_mul. eapply d_eq; [apply (derivable_pt_lim_pow 0 2)|]. cbn [pow Init.Nat.pred INR]. ring.
    + unfold mv6. cbn [u2 F F_continuous b21 b22]. rewrite mv_scalem, mv_id3. generalize (mv (grad_block p) (u1 x)) (scale3 pf_b (u2 x)) (scale3 0.5 y). clear. vring.
Qed.
Print Assumptions C47_drag_sign.
Example C47_ex : mk3 7000000 1 2 <> zero3 (T:=R) /\ 0 < pf_b.
Proof. split; [intros E; injection E; rnumg; lra|unfold pf_b; lra]. Qed.

(** ** C48 *)
Definition forward (o : AOp) : Prop := match o with AProp _ dt => 0 <= dt | _ => True end.
Definition cov_ok (P : M6) : Prop := symm6 P /\ psd6 P.
Lemma meas_cov q f : cov_ok (a_P f) -> exists f', af_measurement q f = Ok f' /\ cov_ok (a_P f') /\ loewner (a_P f') (a_P f).
Proof.
  intros [S Q]. destruct (innovation_pd _ _ R_pos S Q) as (_ & _ & D). unfold af_measurement. fold af_R in D. cbv zeta in D. destruct (Reqb_spec (det3 (addm af_R (b11 (a_P f)))) 0) as [E|_]; [lra|].
  unfold af_gain. cbv zeta. eexists. split; [reflexivity|]. unfold af_reset. cbn [a_P].
  destruct (att_update _ _ R_pos S Q) as (A & B & C). fold af_R in A, B, C. split; [split; [exact A|]|exact C].
  intros x. rewrite B. cbv zeta. match goal with |- 0 <= dot6 (sub6 x ?g) _ + _ * ?d => assert (H1 := Q (sub6 x g)); assert (H2 : 0 <= d) by apply dot3_nonneg end.
  assert (H3 := R_pos). assert (0 <= SENSOR_SIGMA ^ 2 * dot3 (mv (inv3 (addm af_R (b11 (a_P f)))) (u1 (mv6 (a_P f) x))) (mv (inv3 (addm af_R (b11 (a_P f)))) (u1 (mv6 (a_P f) x)))) by (apply Rmult_le_pos; lra). lra.
Qed.
Lemma prop_cov w dt f : 0 <= dt -> cov_ok (a_P f) -> cov_ok (a_P (af_propagate w dt f)).
Proof.
  intros H [S Q]. unfold af_propagate. cbv zeta. cbn [a_P]. split.
  - apply symm6_add; apply symm6_conj; [exact S|apply Q_symm].
  - apply psd6_add; apply psd6_conj; [exact Q|apply Q_psd, H].
Qed.
Theorem C48_covariance : forall ops f, cov_ok (a_P f) -> Forall forward ops ->
  exists f', af_run ops f = Ok f' /\ symm6 (a_P f') /\ psd6 (a_P f') /\ 0 < det3 (addm af_R (b11 (a_P f'))).
Proof.
  intros ops. induction ops as [|o ops IH]; intros f C F; cbn [af_run].
  - exists f. split; [reflexivity|]. destruct C as [S Q]. split; [exact S|]. split; [exact Q|]. apply (innovation_pd _ _ R_pos S Q).
  - inversion F as [|? ? F1 F2]; subst. destruct o as [q|w dt]; cbn [af_step].
    + destruct (meas_cov q f C) as (f1 & E & C1 & _). rewrite E. cbn [rbind]. apply IH; assumption.
    + cbn [rbind]. apply IH; [|exact F2]. apply prop_cov; assumption.
Qed.
Print Assumptions C48_covariance.
Lemma init_cov q : cov_ok (a_P (af_init q)).
Proof. cbn [af_init a_P]. split; [apply diag6_symm|]. apply diag6_psd; [left; apply R_pos|left; apply bias_pos]. Qed.
(** a measurement never adds uncertainty; a step adds at least GQG' *)
Theorem C48_measurement_shrinks : forall q f f', cov_ok (a_P f) -> af_measurement q f = Ok f' -> loewner (a_P f') (a_P f).
Proof. intros q f f' C E. destruct (meas_cov q f C) as (f1 & E1 & _ & L). rewrite E in E1. injection E1 as <-. exact L. Qed.
Print Assumptions C48_measurement_shrinks.
(** the sign condition is needed: one negative step from the start breaks it *)
Theorem C48_negative_step_refuted : forall q, exists w dt, dt < 0 /\ ~ psd6 (a_P (af_propagate w dt (af_init q))).
Proof.
  intros q. exists zero3, (-1). split; [lra|]. intros H. assert (K := H (mk6 (mk3 1 0 0) zero3)). revert K. unfold af_propagate. cbv zeta. cbn [a_P a_b af_init].
  replace (sub3 (zero3 (T:=R)) zero3) with (zero3 (T:=R)) by vring. unfold af_phi. rewrite phi11_zero, phi12_zero. rewrite mv6_addm, dot6_add_r, !mv6_mm.
  unfold af_G. rewrite !diag6_mv. 
  assert (T : tr6 (diag6 (-1) 1) = diag6 (-1) 1) by apply diag6_symm. rewrite T, diag6_mv. unfold dot6, mv6, tr6, diag6, af_Q. cbv zeta. cbn [u1 u2 b11 b12 b21 b22].
  vunfoldg. cbn [x3 y3 z3 row1 row2 row3]. rnumg. unfold SENSOR_SIGMA, INITIAL_BIAS, GYRO_VAR, DRIFT_VAR. intros K. lra.
Qed.
Print Assumptions C48_negative_step_refuted.
Example C48_ex : cov_ok (a_P (af_init (mkq 1 0 0 0))) /\ Forall forward [AProp (mk3 1 2 3) 0.05; AMeas (mkq 0.6 0 0.8 0); AProp (mk3 0 0 0) 0.05].
Proof. split; [apply init_cov|]. repeat constructor; cbn; lra. Qed.

(** ** C49 *)
Theorem C49_measurement : forall q f f', cov_ok (a_P f) -> af_measurement q f = Ok f' ->
  exists K1 K2, mm K1 (addm af_R (b11 (a_P f))) = b11 (a_P f) /\ mm K2 (addm af_R (b11 (a_P f))) = b21 (a_P f) /\
  let y := sub3 (vec (error_quat q (a_q f))) (a_dq f) in
  a_dq f' = zero3 /\ a_db f' = zero3 /\ a_b f' = add3 (a_b f) (mv K2 y) /\
  (a_q f <> zeroq -> unitq (a_q f') /\ exists k, 0 < k /\ a_q f' = scaleq k (product (a_q f) (mkqv 1 (scale3 0.5 (mv K1 y))))).
Proof.
  intros q f f' C. destruct C as [S Q]. destruct (innovation_pd _ _ R_pos S Q) as (_ & _ & D). fold af_R in D. cbv zeta in D. unfold af_measurement. destruct (Reqb_spec (det3 (addm af_R (b11 (a_P f)))) 0) as [E|NZ]; [lra|].
  unfold af_gain. cbv zeta. set (X := addm af_R (b11 (a_P f))) in *. intros H. injection H as <-. exists (mm (b11 (a_P f)) (inv3 X)), (mm (b21 (a_P f)) (inv3 X)).
  assert (I : forall v, mv (inv3 X) (mv X v) = v) by (intros; apply inv3_mv; lra).
  split; [apply m3_ext; intros v; rewrite !mv_mm, I; reflexivity|]. split; [apply m3_ext; intros v; rewrite !mv_mm, I; reflexivity|].
  unfold af_reset. cbn [a_dq a_db a_b a_q]. split; [reflexivity|]. split; [reflexivity|]. split; [reflexivity|]. intros N.
  set (d := mv (mm (b11 (a_P f)) (inv3 X)) _). assert (NZ2 := reset_nonzero (a_q f) d N). split; [apply normalizeq_unit, NZ2|].
  exists (/ normq (addq (a_q f) (scaleq 0.5 (xi_mul (xi (a_q f)) d)))). split; [apply Rinv_0_lt_compat, normq_gt0, NZ2|]. rewrite (normalizeq_nz _ NZ2). rewrite <- reset_product. reflexivity.
Qed.
Print Assumptions C49_measurement.
Lemma scaleq_one (q : quat) : scaleq 1 q = q. Proof. vring. Qed.
(** a measurement equal to the prior, in either sign, changes neither attitude nor bias *)
Theorem C49_agreement : forall f f' q, cov_ok (a_P f) -> unitq (a_q f) -> a_dq f = zero3 -> q = a_q f \/ q = oppq (a_q f) ->
  af_measurement q f = Ok f' -> a_q f' = a_q f /\ a_b f' = a_b f.
Proof.
  intros f f' q C U Z Hq E. destruct (C49_measurement q f f' C E) as (K1 & K2 & _ & _ & H). cbv zeta in H. rewrite Z in H.
  assert (EV : vec (error_quat q (a_q f)) = zero3).
  { destruct Hq as [->| ->]; destruct (a_q f) as [a b c d]; qunfoldg; vunfoldg; cbn [qw qx qy qz x3 y3 z3]; rnumg; apply mk3_c; ring. }
  rewrite EV, sub3_0_r, !mv_zero3 in H. destruct H as (_ & _ & HB & HQ).
  assert (N : a_q f <> zeroq). { intros E0. rewrite E0 in U. unfold unitq, zeroq, dotq in U. cbn [qw qx qy qz] in U. rnum. lra. }
  destruct (HQ N) as (U' & k & Hk & EQ). split; [|rewrite HB; apply add3_0_r].
  assert (ID : product (a_q f) (mkqv 1 (scale3 0.5 zero3)) = a_q f).
  { generalize 0.5. intros h. clear. destruct (a_q f) as [a b c d]. qunfoldg. vunfoldg. cbn [qw qx qy qz x3 y3 z3]. rnumg. apply mkq_c; ring. }
  rewrite ID in EQ. assert (K : k * k = 1).
  { rewrite EQ in U'. unfold unitq in *. rewrite <- U'. replace (dotq (scaleq k (a_q f)) (scaleq k (a_q f))) with (k * k * dotq (a_q f) (a_q f)) by (generalize (a_q f); clear; revert k; vring). rewrite U. ring. }
  assert (k = 1) by nra. subst k. rewrite EQ. apply scaleq_one.
Qed.
Print Assumptions C49_agreement.
(** the half-angle error is halved again: at least half of the vector error survives any measurement, whatever the gain *)
Theorem C49_half_correction : forall q f f', cov_ok (a_P f) -> unitq (a_q f) -> unitq q -> a_dq f = zero3 -> af_measurement q f = Ok f' ->
  norm3 (vec (error_quat q (a_q f))) / 2 <= norm3 (vec (error_quat q (a_q f'))).
Proof.
  intros q f f' C U Uq Z E. destruct C as [S Q].
  assert (N : a_q f <> zeroq). { intros E0. rewrite E0 in U. unfold unitq, zeroq, dotq in U. cbn [qw qx qy qz] in U. rnum. lra. }
  revert E. unfold af_measurement. destruct (innovation_pd _ _ R_pos S Q) as (_ & _ & D). fold af_R in D. cbv zeta in D. destruct (Reqb_spec (det3 (addm af_R (b11 (a_P f)))) 0) as [E|_]; [lra|].
  unfold af_gain. cbv zeta. intros H. injection H as <-. unfold af_reset. cbn [a_q a_dq]. rewrite Z, sub3_0_r.
  set (e := error_quat q (a_q f)). assert (GB := gain_bounds _ _ (vec e) R_pos S Q). cbv zeta in GB. fold af_R in GB. set (k := mv (mm (b11 (a_P f)) (inv3 (addm af_R (b11 (a_P f))))) (vec e)) in *.
  assert (NZ2 := reset_nonzero (a_q f) k N). rewrite (normalizeq_nz _ NZ2), error_scale, scale_vec, reset_product, error_corrected. cbv zeta. fold e.
  assert (UE : qw e * qw e + dot3 (vec e) (vec e) = 1).
  { transitivity (dotq e e); [destruct e as [a b c d]; unfold dot3, dotq, vec; cbn [qw qx qy qz x3 y3 z3]; rnumg; ring|]. unfold e, error_quat. rewrite product_norm, conj_norm. unfold unitq in *. rewrite U, Uq. ring. }
  destruct GB as [G1 G2]. assert (RB := residual_bound (qw e) (vec e) k UE G1 G2). cbv zeta in RB. set (v := sub3 (sub3 (vec e) _) _) in *.
  assert (NN := reset_norm (a_q f) k). cbv zeta in NN. unfold unitq in U. rewrite U, Rmult_1_l in NN. rewrite reset_product in NN. set (p := product (a_q f) (mkqv 1 (scale3 0.5 k))) in *.
  assert (NP : 0 < normq p) by (apply normq_gt0; unfold p; rewrite <- reset_product; exact NZ2). assert (NQ := normq_sq p). rewrite NN in NQ.
  set (n := normq p) in *. clearbody n.
  assert (A0 : norm3 (scale3 (/ n) v) ^ 2 = dot3 v v / (n * n)).
  { rewrite <- Rsqr_pow2. unfold Rsqr. rewrite norm3_sq. clear - NP. generalize v. intros [a b c]. vunfoldg. rnumg. field. lra. }
  assert (B0 := norm3_sq (vec e)). assert (P1 := norm3_pos (vec e)). assert (P2 := norm3_pos (scale3 (/ n) v)).
  assert (0 <= norm3 (scale3 (/ n) v)) by apply norm3_pos.
  apply Rsqr_incr_0_var; [|exact H]. rewrite !Rsqr_pow2, A0. rewrite NQ.
  assert (0 < 1 + dot3 k k / 4) by (assert (X := dot3_nonneg k); lra).
  apply (Rmult_le_reg_r (4 * (1 + dot3 k k / 4))); [lra|].
  replace ((norm3 (vec e) / 2) ^ 2 * (4 * (1 + dot3 k k / 4))) with (dot3 (vec e) (vec e) * (1 + dot3 k k / 4)) by (rewrite <- B0; field).
  replace (dot3 v v / (1 + dot3 k k / 4) * (4 * (1 + dot3 k k / 4))) with (4 * dot3 v v) by (field; lra). exact RB.
Qed.
Print Assumptions C49_half_correction.
(** so n star-tracker fixes in a row leave at least the 2^-n part of the error *)
Theorem C49_half_forever : forall n q f, cov_ok (a_P f) -> unitq (a_q f) -> unitq q -> a_dq f = zero3 ->
  exists f', af_run (repeat (AMeas q) n) f = Ok f' /\ norm3 (vec (error_quat q (a_q f))) / 2 ^ n <= norm3 (vec (error_quat q (a_q f'))).
Proof.
  intros n. induction n as [|n IH]; intros q f C U Uq Z; cbn [repeat af_run].
  - exists f. split; [reflexivity|]. cbn [pow]. lra.
  - destruct (meas_cov q f C) as (f1 & E & C1 & _). cbn [af_step]. rewrite E. cbn [rbind].
    assert (HC := C49_half_correction q f f1 C U Uq Z E). destruct (C49_measurement q f f1 C E) as (K1 & K2 & _ & _ & H). cbv zeta in H. destruct H as (Z1 & _ & _ & HQ).
    assert (N : a_q f <> zeroq). { intros E0. rewrite E0 in U. unfold unitq, zeroq, dotq in U. cbn [qw qx qy qz] in U. rnum. lra. }
    destruct (HQ N) as (U1 & _). destruct (IH q f1 C1 U1 Uq Z1) as (f' & E' & B). exists f'. split; [exact E'|].
    apply (Rle_trans _ (norm3 (vec (error_quat q (a_q f1))) / 2 ^ n)); [|exact B]. assert (P := pow_lt 2 n ltac:(lra)). apply (Rmult_le_reg_r (2 ^ n)); [exact P|]. cbn [pow].
    replace (norm3 (vec (error_quat q (a_q f))) / (2 * 2 ^ n) * 2 ^ n) with (norm3 (vec (error_quat q (a_q f))) / 2) by (field; lra).
    replace (norm3 (vec (error_quat q (a_q f1))) / 2 ^ n * 2 ^ n) with (norm3 (vec (error_quat q (a_q f1)))) by (field; lra). exact HC.
Qed.
Print Assumptions C49_half_forever.
Example C49_ex : let f := af_init (mkq 1 0 0 0) in cov_ok (a_P f) /\ unitq (a_q f) /\ unitq (mkq 0.6 0 0.8 0) /\ a_dq f = zero3 /\ a_q f <> zeroq /\
  norm3 (vec (error_quat (mkq 0.6 0 0.8 0) (a_q f))) = 0.8.
Proof.
  cbv zeta. split; [apply init_cov|]. split; [unfold unitq; vunfoldg; cbn [af_init a_q qw qx qy qz]; rnumg; lra|]. split; [unfold unitq; vunfoldg; cbn [qw qx qy qz]; rnumg; lra|]. split; [reflexivity|].
  split; [intros E; injection E; rnumg; lra|]. unfold norm3. rnumg. apply Rsqr_inj; [apply sqrt_pos|lra|]. rewrite Rsqr_sqrt; [|apply dot3_nonneg]. unfold Rsqr, error_quat. cbn [af_init a_q].
  qunfoldg. vunfoldg. cbn [qw qx qy qz x3 y3 z3]. rnumg. lra.
Qed.

(** ** C50 *)
(** the coordinate change into a frame that turned at rate w for dt *)
Theorem C50_rotation : forall w dt, w <> zero3 ->
  (forall v, mv (phi_11 w dt) v = rodrigues (div3 w (norm3 w)) (- (norm3 w * dt)) v) /\
  (forall v, mv (phi_11 w dt) v = sandwich (axisangle_to_quat (div3 w (norm3 w)) (norm3 w * dt)) v).
Proof.
  intros w dt N. split; intros v; [apply phi11_rodrigues, N|]. rewrite (phi11_rodrigues w v dt N). symmetry. apply sandwich_axisangle, unit_div, N.
Qed.
Print Assumptions C50_rotation.
Theorem C50_rigid : forall w dt, rigid (mv (phi_11 w dt)).
Proof.
  intros w dt. destruct (zero3_dec w) as [->|N].
  - rewrite phi11_zero. unfold rigid. repeat split; intros; rewrite !mv_id3; reflexivity.
  - destruct (C50_rotation w dt N) as [_ R]. assert (U := axisangle_unit (div3 w (norm3 w)) (norm3 w * dt) (unit_div w N)).
    destruct (sandwich_rigid _ U) as (A & B & C & D). unfold rigid. repeat split; intros; rewrite !R; auto.
Qed.
Print Assumptions C50_rigid.
Theorem C50_equations : forall w v t,
  phi_11 w 0 = id3 /\ phi_12 w 0 = zerom /\
  deriv3 (fun u => mv (phi_11 w u) v) t (opp3 (cross3 w (mv (phi_11 w t) v))) /\
  deriv3 (fun u => mv (phi_12 w u) v) t (opp3 (mv (phi_11 w t) v)).
Proof. intros w v t. destruct (phi_start w) as [A B]. split; [exact A|]. split; [exact B|]. split; [apply phi11_derive|apply phi12_derive]. Qed.
Print Assumptions C50_equations.
(** phi solves the linear error equation: d(angle)/dt = -w x angle - bias, d(bias)/dt = 0, from any initial error, at
    constant rate *)
Theorem C50_error_equation : forall w x t,
  let e u := mv6 (af_phi w u) x in
  e 0 = x /\
  deriv3 (fun u => u1 (e u)) t (sub3 (opp3 (cross3 w (u1 (e t)))) (u2 (e t))) /\ deriv3 (fun u => u2 (e u)) t zero3.
Proof.
  intros w x t. cbv zeta. destruct (phi_start w) as [A B].
  assert (E2 : forall u, u2 (mv6 (af_phi w u) x) = u2 x) by (intros u; unfold af_phi, mv6; cbn [u2 b21 b22]; rewrite mv_zerom, mv_id3, add3_0_l; reflexivity).
  assert (E1 : forall u, u1 (mv6 (af_phi w u) x) = add3 (mv (phi_11 w u) (u1 x)) (mv (phi_12 w u) (u2 x))) by reflexivity.
  split; [|split].
  - apply V6_eq; [rewrite E1, A, B, mv_id3, mv_zerom; apply add3_0_r|apply E2].
  - rewrite E2. apply (d3_ext (fun u => add3 (mv (phi_11 w u) (u1 x)) (mv (phi_12 w u) (u2 x))) _ t (add3 (opp3 (cross3 w (mv (phi_11 w t) (u1 x)))) (opp3 (mv (phi_11 w t) (u2 x))))).
    + exact E1.
    + apply d3_plus; [apply phi11_derive|apply phi12_derive].
    + rewrite E1. rewrite (phi_relation w (u2 x) t). generalize (mv (phi_11 w t) (u1 x)) (mv (phi_12 w t) (u2 x)) (u2 x). clear. revert w. vring.
  - apply (d3_ext (fun _ => u2 x) _ t zero3); [exact E2|exact (d3_const (u2 x) t)|reflexivity].
Qed.
Print Assumptions C50_error_equation.
Example C50_ex : mk3 0 3 4 <> zero3 (T:=R) /\ norm3 (mk3 0 3 4) = 5.
Proof. split; [intros E; injection E; rnumg; lra|]. rewrite norm3_sqrt. replace (0 ^ 2 + 3 ^ 2 + 4 ^ 2) with (5 ^ 2) by ring. apply sqrt_pow2. lra. Qed.

(** ** C51 *)
(** the quaternion of the turn w dt *)
Definition turn (w : v3) (dt : R) : quat := mkqv (cos (norm3 w * dt / 2)) (scale3 (sin (norm3 w * dt / 2)) (normalize3 w)).
Theorem C51_decomposition : forall w dt q,
  let c := cos (norm3 w * dt / 2) in
  af_omega_mul w dt q = addq (product q (turn w dt)) (mkqv 0 (scale3 (1 - c) (vec q))).
Proof.
  intros w dt q. cbv zeta. rewrite omega_eq. cbv zeta. replace (norm3 w * dt * 0.5) with (norm3 w * dt / 2) by lra. f_equal. f_equal. unfold turn. f_equal. unfold af_psi, normalize3. cbv zeta. rnumg.
  replace (norm3 w * dt * 0.5) with (norm3 w * dt / 2) by lra. destruct (Reqb_spec (norm3 w) 0) as [E|E]; cbn [negb].
  - apply norm0 in E. subst w. rewrite norm3_zero. replace (0 * dt / 2) with 0 by lra. rewrite sin_0. vring.
  - set (n := norm3 w) in *. clearbody n. generalize (sin (n * dt / 2)). intros s. destruct w as [x y z]. vunfoldg. cbn [x3 y3 z3]. rnumg. apply mk3_c; field; exact E.
Qed.
Print Assumptions C51_decomposition.
Lemma cos_one x : cos x = 1 <-> exists k, x = 2 * IZR k * PI.
Proof.
  split.
  - intros E. assert (S : sin (x / 2) = 0).
    { assert (C := cos_2a_sin (x / 2)). replace (2 * (x / 2)) with x in C by field. rewrite E in C. nra. }
    apply sin_eq_0_0 in S. destruct S as [k Hk]. exists k. lra.
  - intros [k ->]. replace (2 * IZR k * PI) with (2 * (IZR k * PI)) by ring. rewrite cos_2a_sin. assert (S : sin (IZR k * PI) = 0) by (apply sin_eq_0_1; exists k; reflexivity). rewrite S. ring.
Qed.
Lemma cos_low x : 1 - x ^ 2 / 2 <= cos x.
Proof.
  assert (E : cos x = 1 - 2 * sin (x / 2) * sin (x / 2)) by (rewrite <- cos_2a_sin; f_equal; field). rewrite E.
  assert (S : sin (x / 2) ^ 2 <= (x / 2) ^ 2).
  { destruct (Rle_or_lt 0 (x / 2)) as [P|P].
    - destruct P as [P|P]; [|rewrite <- P, sin_0; lra]. assert (A := sin_lt_x _ P). assert (B := SIN_bound (x / 2)).
      assert (C : - (x / 2) <= sin (x / 2)).
      { destruct (Rle_or_lt (x / 2) 1) as [L|L]; [|lra]. assert (0 <= sin (x / 2)) by (apply sin_ge_0; [lra|]; assert (K := PI2_1); unfold PI2 in *; lra). lra. }
      nra.
    - assert (P' : 0 < - (x / 2)) by lra. assert (A := sin_lt_x _ P'). rewrite sin_neg in A. assert (B := SIN_bound (x / 2)).
      assert (C : sin (x / 2) <= - (x / 2)).
      { destruct (Rle_or_lt (- (x / 2)) 1) as [L|L]; [|lra]. assert (0 <= sin (- (x / 2))) by (apply sin_ge_0; [lra|]; assert (K := PI2_1); unfold PI2 in *; lra). rewrite sin_neg in H. lra. }
      nra. }
  lra.
Qed.
(** exact exactly when the half angle is a whole number of turns (zero rate or step included) or the attitude has no vector part *)
Theorem C51_exact_iff : forall w dt q,
  af_omega_mul w dt q = product q (turn w dt) <-> (exists k, norm3 w * dt / 2 = 2 * IZR k * PI) \/ vec q = zero3.
Proof.
  intros w dt q. rewrite <- cos_one. rewrite C51_decomposition. cbv zeta. set (c := cos (norm3 w * dt / 2)). generalize (product q (turn w dt)). intros p. destruct q as [a x y z]. split.
  - intros E. assert (H : scale3 (1 - c) (mk3 x y z) = zero3).
    { destruct p as [p1 p2 p3 p4]. revert E. vunfoldg. cbn [qw qx qy qz x3 y3 z3]. rnumg. intros E. injection E as E1 E2 E3. apply mk3_c; lra. }
    revert H. unfold vec, scale3. cbn [qw qx qy qz x3 y3 z3]. rnumg. intros H. injection H as H1 H2 H3. rnum.
    destruct (Req_dec c 1) as [C|C]; [left; exact C|right]. assert (X : forall u, (1 - c) * u = 0 -> u = 0) by (intros u Hu; apply Rmult_integral in Hu; destruct Hu; lra).
    apply mk3_c; rnumg; apply X; assumption.
  - intros [C|V]; [rewrite C|].
    + destruct p as [p1 p2 p3 p4]. vunfoldg. cbn [qw qx qy qz x3 y3 z3]. rnumg. apply mkq_c; ring.
    + rewrite V. destruct p as [p1 p2 p3 p4]. vunfoldg. cbn [qw qx qy qz x3 y3 z3]. rnumg. apply mkq_c; ring.
Qed.
Print Assumptions C51_exact_iff.
Theorem C51_norm : forall w dt q,
  let q' := af_omega_mul w dt q in let c := cos (norm3 w * dt / 2) in
  dotq q' q' = dotq q q + (1 - c) * (2 * qw q * dot3 (vec q) (vec (turn w dt)) + (1 + c) * dot3 (vec q) (vec q)).
Proof.
  intros w dt q. cbv zeta. assert (N := omega_norm w dt q). cbv zeta in N. rewrite N. replace (norm3 w * dt * 0.5) with (norm3 w * dt / 2) by lra.
  replace (af_psi w dt) with (vec (turn w dt)); [reflexivity|]. unfold turn, af_psi, normalize3. cbv zeta. rnumg.
  replace (norm3 w * dt * 0.5) with (norm3 w * dt / 2) by lra. destruct (Reqb_spec (norm3 w) 0) as [E|E]; cbn [negb].
  - apply norm0 in E. subst w. rewrite norm3_zero. replace (0 * dt / 2) with 0 by lra. rewrite sin_0. generalize (cos 0). intros c. vring.
  - set (n := norm3 w) in *. clearbody n. generalize (sin (n * dt / 2)) (cos (n * dt / 2)). intros s c. destruct w as [x y z]. vunfoldg. cbn [x3 y3 z3 qw qx qy qz]. rnumg. apply mk3_c; field; exact E.
Qed.
Print Assumptions C51_norm.
(** the error of one step is (1 - c) |q_v|, second order in the angle *)
Theorem C51_error_bound : forall w dt q,
  let e := subq (af_omega_mul w dt q) (product q (turn w dt)) in
  normq e = (1 - cos (norm3 w * dt / 2)) * norm3 (vec q) /\ normq e <= (norm3 w * dt) ^ 2 / 8 * norm3 (vec q).
Proof.
  intros w dt q. cbv zeta. assert (B := COS_bound (norm3 w * dt / 2)). assert (L := cos_low (norm3 w * dt / 2)). assert (P := norm3_pos (vec q)).
  assert (E : normq (subq (af_omega_mul w dt q) (product q (turn w dt))) = (1 - cos (norm3 w * dt / 2)) * norm3 (vec q)).
  { rewrite C51_decomposition. cbv zeta. set (c := cos (norm3 w * dt / 2)) in *. generalize (product q (turn w dt)). intros p.
    unfold normq. rnumg. apply Rsqr_inj; [apply sqrt_pos|apply Rmult_le_pos; lra|]. rewrite Rsqr_sqrt by apply dotq_nonneg. rewrite Rsqr_mult. unfold Rsqr at 2. rewrite norm3_sq. unfold Rsqr.
    destruct p as [p1 p2 p3 p4], q as [a x y z]. vunfoldg. cbn [qw qx qy qz x3 y3 z3]. rnumg. ring. }
  split; [exact E|]. rewrite E. apply Rmult_le_compat_r; [exact P|]. replace ((norm3 w * dt) ^ 2 / 8) with ((norm3 w * dt / 2) ^ 2 / 2) by field. lra.
Qed.
Print Assumptions C51_error_bound.
(** a unit attitude need not stay unit, nor proportional to the rotated one *)
Theorem C51_norm_refuted : exists w dt q, unitq q /\ ~ unitq (af_omega_mul w dt q) /\ forall k, af_omega_mul w dt q <> scaleq k (product q (turn w dt)).
Proof.
  exists (mk3 0 0 1), PI, (mkq 0 1 0 0).
  assert (N1 : norm3 (mk3 0 0 1) = 1) by (rewrite norm3_sqrt; replace (0 ^ 2 + 0 ^ 2 + 1 ^ 2) with 1 by ring; apply sqrt_1).
  assert (T : turn (mk3 0 0 1) PI = mkq 0 0 0 1).
  { unfold turn, normalize3. rnumg. rewrite N1. replace (1 * PI / 2) with (PI / 2) by field. rewrite cos_PI2, sin_PI2. destruct (Reqb_spec 1 0) as [E|_]; [lra|]. vunfoldg. cbn [x3 y3 z3]. rnumg. apply mkq_c; field. }
  assert (E := C51_decomposition (mk3 0 0 1) PI (mkq 0 1 0 0)). cbv zeta in E. rewrite T, N1 in E. replace (1 * PI / 2) with (PI / 2) in E by field. rewrite cos_PI2 in E.
  assert (E' : af_omega_mul (mk3 0 0 1) PI (mkq 0 1 0 0) = mkq 0 1 (-1) 0).
  { rewrite E. qunfoldg. vunfoldg. cbn [x3 y3 z3 qw qx qy qz]. rnumg. apply mkq_c; ring. }
  split; [unfold unitq; vunfoldg; cbn [qw qx qy qz]; rnumg; ring|]. rewrite E'. split; [unfold unitq; vunfoldg; cbn [qw qx qy qz]; rnumg; lra|].
  intros k H. rewrite T in H. revert H. qunfoldg. vunfoldg. cbn [x3 y3 z3 qw qx qy qz]. rnumg. intros H. injection H. intros. lra.
Qed.
Print Assumptions C51_norm_refuted.
Example C51_ex : let w := mk3 0 0 1 in let q := mkq 0 1 0 0 in vec q <> zero3 /\ norm3 w * PI / 2 = PI / 2.
Proof. cbv zeta. split; [intros E; injection E; rnumg; lra|]. rewrite norm3_sqrt. replace (0 ^ 2 + 0 ^ 2 + 1 ^ 2) with 1 by ring. rewrite sqrt_1. field. Qed.
(** the step as a whole: rate minus bias, bias and error state kept *)
Theorem C51_propagate : forall ws dt f,
  let f' := af_propagate ws dt f in let w := sub3 ws (a_b f) in
  a_q f' = addq (product (a_q f) (turn w dt)) (mkqv 0 (scale3 (1 - cos (norm3 w * dt / 2)) (vec (a_q f)))) /\
  a_b f' = a_b f /\ a_dq f' = a_dq f /\ a_db f' = a_db f.
Proof. intros ws dt f. cbv zeta. split; [|repeat split; reflexivity]. unfold af_propagate. cbv zeta. cbn [a_q]. apply C51_decomposition. Qed.
Print Assumptions C51_propagate.
(** variance of any linear combination of the errors after a step: transported by phi, plus gyro noise and integrated drift noise *)
Theorem C50_covariance : forall ws dt f x, let w := sub3 ws (a_b f) in
  let y := mk6 (mv (tr3 (phi_11 w dt)) (u1 x)) (add3 (mv (tr3 (phi_12 w dt)) (u1 x)) (u2 x)) in
  dot6 x (mv6 (a_P (af_propagate ws dt f)) x) = dot6 y (mv6 (a_P f) y) +
    GYRO_VAR * dt * dot3 (u1 x) (u1 x) +
    DRIFT_VAR * dt * (dot3 (add3 (u2 x) (scale3 (dt / 2) (u1 x))) (add3 (u2 x) (scale3 (dt / 2) (u1 x))) + 0.0833333 * dt ^ 2 * dot3 (u1 x) (u1 x)).
Proof.
  intros ws dt f x w y. unfold af_propagate. cbv zeta. cbn [a_P]. rewrite mv6_addm, dot6_add_r, !mv6_mm. fold w.
  assert (TT : forall a u v, dot6 u (mv6 a v) = dot6 (mv6 (tr6 a) u) v) by (intros; rewrite dot6_tr, tr6_invol; reflexivity).
  rewrite (TT (af_phi w dt)), (TT af_G). assert (Y : mv6 (tr6 (af_phi w dt)) x = y).
  { unfold y, af_phi, tr6, mv6. cbn [u1 u2 b11 b12 b21 b22]. f_equal.
    - replace (tr3 (zerom (T:=R))) with (zerom (T:=R)) by vring. rewrite mv_zerom. apply add3_0_r.
    - replace (tr3 (id3 (T:=R))) with (id3 (T:=R)) by vring. rewrite mv_id3. reflexivity. }
  rewrite Y. unfold af_G. assert (TG : tr6 (diag6 (-1) 1) = diag6 (-1) 1) by apply diag6_symm. rewrite TG, diag6_mv, Q_form. cbn [u1 u2].
  generalize GYRO_VAR DRIFT_VAR (dot6 y (mv6 (a_P f) y)) 0.0833333. intros a b c d. clear. destruct x as [[p q r] [s t u]]. cbn [u1 u2]. vunfoldg. cbn [x3 y3 z3]. rnumg. field.
Qed.
Print Assumptions C50_covariance.
(** ** C47, the whole step, and C72: the added noise does not depend on the length of the step *)
Theorem C47_propagate : forall dt f x, let F := F_discrete (u1 (p_x f)) dt in let y := mv6 (tr6 F) x in
  p_x (pf_propagate dt f) = mv6 (A_discrete dt) (p_x f) /\
  dot6 x (mv6 (p_P (pf_propagate dt f)) x) = dot6 y (mv6 (p_P f) y) + a_sigma ^ 2 * dot3 (u2 x) (u2 x).
Proof.
  intros dt f x F y. split; [reflexivity|]. unfold pf_propagate. cbn [p_P]. fold F. rewrite mv6_addm, dot6_add_r, !mv6_mm.
  assert (TT : forall a u v, dot6 u (mv6 a v) = dot6 (mv6 (tr6 a) u) v) by (intros; rewrite dot6_tr, tr6_invol; reflexivity).
  rewrite (TT F). fold y. unfold pf_Q. rewrite diag6_form. ring.
Qed.
Print Assumptions C47_propagate.
Theorem C72_zero_steps : forall n f,
  let f' := pf_run (repeat (PProp 0) n) f in
  p_x f' = p_x f /\ p_st f' = p_st f /\ forall x, dot6 x (mv6 (p_P f') x) = dot6 x (mv6 (p_P f) x) + INR n * a_sigma ^ 2 * dot3 (u2 x) (u2 x).
Proof.
  intros n. induction n as [|n IH]; intros f; cbv zeta.
  - cbn. split; [reflexivity|]. split; [reflexivity|]. intros x. ring.
  - cbn [repeat]. change (pf_run (PProp 0 :: repeat (PProp 0) n) f) with (pf_run (repeat (PProp 0) n) (pf_propagate 0 f)).
    destruct (IH (pf_propagate 0 f)) as (A & B & C). rewrite A, B.
    assert (A0 : forall x, mv6 (A_discrete 0) x = x).
    { intros x. unfold A_discrete. cbv zeta. replace (1 - 0.5 * pf_a * 0 ^ 2) with 1 by ring. replace (0 - 0.5 * pf_b * 0 ^ 2 - 0.1666 * pf_a * 0 * 0 ^ 2) with 0 by ring. replace (- pf_a * 0) with 0 by ring. replace (1 - pf_b * 0) with 1 by ring.
      unfold mv6. cbn [b11 b12 b21 b22]. rewrite !mv_scalem, !mv_id3. destruct x as [[a b c] [d e g]]. cbn [u1 u2]. f_equal; vunfoldg; cbn [x3 y3 z3]; rnumg; apply mk3_c; ring. }
    split; [cbn [pf_propagate p_x]; apply A0|]. split; [reflexivity|]. intros x. rewrite C. destruct (C47_propagate 0 f x) as [_ E]. rewrite E.
    assert (F0 : mv6 (tr6 (F_discrete (u1 (p_x f)) 0)) x = x).
    { apply dot6_ext. intros z. rewrite <- dot6_tr. f_equal. unfold F_discrete. cbv zeta. rewrite !mv6_addm, mv6_id. unfold scalem6 at 1 2, mv6. cbn [b11 b12 b21 b22]. rewrite !mv_scalem. unfold add6. cbn [u1 u2].
      replace (0 ^ 2) with 0 by ring. apply V6_eq; cbn [u1 u2]; generalize (u1 z) (u2 z); intros u v;
      repeat match goal with |- context [scale3 0 ?t] => replace (scale3 0 t) with (zero3 (T:=R)) by (generalize t; clear; vring) end; rewrite !add3_0_r; reflexivity. }
    rewrite F0, S_INR. ring.
Qed.
Print Assumptions C72_zero_steps.
(** one zero step and two zero steps span the same time and end with different covariances *)
Theorem C72_steps_refuted : forall f, p_P (pf_run [PProp 0] f) <> p_P (pf_run [PProp 0; PProp 0] f).
Proof.
  intros f E. destruct (C72_zero_steps 1 f) as (_ & _ & A). destruct (C72_zero_steps 2 f) as (_ & _ & B). cbn [repeat] in A, B.
  assert (H := A (mk6 zero3 (mk3 1 0 0))). rewrite E, B in H. destruct sig_pos as (_ & _ & P). cbn [INR u2] in H. replace (dot3 (mk3 1 0 0) (mk3 1 0 0)) with 1 in H by (vunfoldg; rnumg; ring). lra.
Qed.
Print Assumptions C72_steps_refuted.
