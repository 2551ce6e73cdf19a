(** * Properties of the orbital motion: C86 *)
From Coq Require Import Reals ZArith List Bool Arith Lra Psatz Lia.
From Coquelicot Require Import Coquelicot.
From Verif Require Import Num Flt Vec M_vector M_quaternion M_jday M_frame M_struct M_env M_dyn M_sensor M_integ.
From Verif Require Import S_rot S_env S_integ S_dyn P_vec2 P_quat P_wheel P_env Props_env P_frame P_flae P_sat P_struct P_integ P_integ2 P_dyn P_dyn2.
Import ListNotations.
Local Open Scope R_scope.

(** ** what the statements speak of *)
(** at time t the state moves as the code's vector field says *)
Definition moves (hi_fi : bool) (sat : Satellite) (mt : list (Torquer R)) (clock : R -> AClock) (cur accl : R -> list R) (y : R -> SVec) (t : R) : Prop :=
  exists st d, make_state (fun _ => clock t) 0 (y t) = Ok st /\ vector_field hi_fi sat mt (fun _ => clock t) st (cur t) (accl t) = Ok d /\ deriv_sv y t d.
(** the force of the air and of the sunlight on the satellite, as the code computes them *)
Definition surface_force (sat : Satellite) (clock : AClock) (v : SVec) (F : v3) : Prop :=
  exists st Fd Td Fs Ts, make_state (fun _ => clock) 0 v = Ok st /\ drag_F_and_T sat st = Ok (Fd, Td) /\ solar_F_and_T sat (fun _ => clock) st = Ok (Fs, Ts) /\ F = add3 Fd Fs.
(** energy per unit mass in the potential U (acceleration is the gradient of U), and angular momentum per unit mass *)
Definition orbital_energy (U : v3 -> R) (v : SVec) : R := dot3 (v_vel v) (v_vel v) / 2 - U (v_pos v).
Definition orbital_momentum (v : SVec) : v3 := cross3 (v_pos v) (v_vel v).
(** the eccentricity vector of Laplace, Runge and Lenz *)
Definition ecc (v : SVec) : v3 := sub3 (div3 (cross3 (v_vel v) (orbital_momentum v)) MU) (div3 (v_pos v) (norm3 (v_pos v))).

(** ** calculus along a curve *)
Lemma d3_cross f g t a b : deriv3 f t a -> deriv3 g t b -> deriv3 (fun u => cross3 (f u) (g u)) t (add3 (cross3 a (g t)) (cross3 (f t) b)).
Proof.
  intros (A1 & A2 & A3) (B1 & B2 & B3). unfold cross3, add3. cbn [x3 y3 z3]. rnumg.
  split; [|split]; cbn [x3 y3 z3]; rnumg; (eapply d_eq; [apply d_minus; apply d_mult; eassumption|]; cbv beta; rnumg; ring).
Qed.
Lemma norm3_pos_sqr (p : v3) : p <> zero3 -> 0 < x3 p ^ 2 + y3 p ^ 2 + z3 p ^ 2 /\ norm3 p = sqrt (x3 p ^ 2 + y3 p ^ 2 + z3 p ^ 2).
Proof.
  intros Hp. assert (H := dot3_nonneg p). assert (E : dot3 p p = x3 p ^ 2 + y3 p ^ 2 + z3 p ^ 2) by (destruct p as [x y z]; vunfoldg; rnumg; ring). split.
  - destruct H as [H|H]; [|symmetry in H; apply dot3_zero in H; contradiction]. lra.
  - unfold norm3. rnumg. rewrite E. reflexivity.
Qed.
Lemma d_inv_norm (p : R -> v3) t v : deriv3 p t v -> p t <> zero3 -> is_derive (fun u => / sqrt (x3 (p u) ^ 2 + y3 (p u) ^ 2 + z3 (p u) ^ 2)) t (- dot3 (p t) v * (/ norm3 (p t)) ^ 3).
Proof.
  intros (A & B & C) Hp. destruct (norm3_pos_sqr _ Hp) as [N E]. rewrite E.
  replace (- dot3 (p t) v) with (- (2 * dot3 (p t) v / 2)) by field.
  apply (inv_sqrt_derive (fun u => x3 (p u) ^ 2 + y3 (p u) ^ 2 + z3 (p u) ^ 2)); [exact N|]. apply is_derive_Reals.
  assert (S : forall f d, derivable_pt_lim f t d -> derivable_pt_lim (fun u => f u ^ 2) t (2 * (f t * d))).
  { intros f d D. eapply derivable_pt_lim_ext; [|eapply d_eq; [apply (d_mult f f t d d D D)|ring]]. intros u. cbv beta. ring. }
  eapply d_eq; [apply d_plus; [apply d_plus|]; apply S; eassumption|]. cbv beta. unfold dot3. rnumg. ring.
Qed.
Lemma d_zonal mu re j2 j3 j4 (p : R -> v3) t v : deriv3 p t v -> p t <> zero3 ->
  exists g, gradient (zonal mu re j2 j3 j4) (p t) g /\ derivable_pt_lim (fun u => zonal mu re j2 j3 j4 (p u)) t (dot3 g v).
Proof.
  intros D Hp. eexists. split; [apply zonal_gradient; exact Hp|]. apply is_derive_Reals.
  assert (DZ : is_derive (fun u => z3 (p u)) t (z3 v)) by (apply is_derive_Reals; apply D).
  assert (C := zpoly_chain mu re j2 j3 j4 _ _ t _ _ (d_inv_norm p t v D Hp) DZ). cbv beta in C. destruct (norm3_pos_sqr _ Hp) as [_ E]. rewrite <- E in C.
  eapply is_derive_ext; [intros u; symmetry; apply zonal_poly|].
  match type of C with is_derive _ _ ?a => match goal with |- is_derive _ _ ?b => replace b with a; [exact C|] end end.
  generalize (zdw mu re j2 j3 j4 (/ norm3 (p t)) (z3 (p t))) (zdz mu re j2 j3 j4 (/ norm3 (p t)) (z3 (p t))) (/ norm3 (p t)). generalize (p t). clear. intros [x y z] a b w. destruct v as [p q r].
  vunfoldg; rnumg. ring.
Qed.
Lemma moves_inv hi_fi sat mt clock cur accl y t : s_mass sat <> 0 -> moves hi_fi sat mt clock cur accl y t ->
  exists F, surface_force sat (clock t) (y t) F /\ deriv3 (fun u => v_pos (y u)) t (v_vel (y t)) /\
    deriv3 (fun u => v_vel (y u)) t (add3 (gravity_accel hi_fi (v_pos (y t)) (norm3 (v_pos (y t)))) (div3 F (s_mass sat))).
Proof.
  intros HM (st & d & MS & VF & (D1 & D2 & _)). apply vf_inv in VF. destruct VF as (m & F & T & _ & E & ->).
  assert (Hst : sv st = y t /\ c_length st = norm3 (v_pos (y t))).
  { unfold make_state in MS. apply rbind_ok in MS. destruct MS as ([[lat lon] alt] & _ & MS). injection MS as <-. split; reflexivity. }
  destruct Hst as [S1 S2]. unfold env_F_and_T in E. apply rbind_ok in E. destruct E as ([Fs Ts] & ES & E). apply rbind_ok in E. destruct E as ([Fd Td] & ED & E).
  unfold add_FT, gravity_F_and_T, magnetic_F_and_T in E. cbn [fst snd] in E. rewrite S1, S2 in E. injection E as E1 _.
  exists (add3 Fd Fs). split; [exists st, Fd, Td, Fs, Ts; auto|]. cbn [derivative v_pos v_vel] in D1, D2. rewrite S1 in D1. split; [exact D1|].
  eapply d3_eq; [exact D2|]. rewrite <- E1. generalize (gravity_accel hi_fi (v_pos (y t)) (norm3 (v_pos (y t)))). intros a. clear - HM. generalize dependent (s_mass sat). intros m HM.
  destruct Fd as [f1 f2 f3], Fs as [g1 g2 g3], a as [a1 a2 a3]. vunfoldg; rnumg. apply mk3_c; field; exact HM.
Qed.
Lemma d_kin (y : R -> SVec) t a : deriv3 (fun u => v_vel (y u)) t a -> derivable_pt_lim (fun u => dot3 (v_vel (y u)) (v_vel (y u)) / 2) t (dot3 (v_vel (y t)) a).
Proof.
  intros D. eapply d_eq; [unfold Rdiv; apply d_mult; [apply d_dot3; exact D|apply d_const]|]. cbv beta. generalize (v_vel (y t)). clear. intros [p q r]. destruct a as [x y z]. vunfoldg; rnumg. field.
Qed.
Lemma cross_add_r (a b c : v3) : cross3 a (add3 b c) = add3 (cross3 a b) (cross3 a c). Proof. vring. Qed.
Lemma low_eq p : p <> zero3 -> gravity_accel false p (norm3 p) = scale3 (- (MU / norm3 p ^ 3)) p.
Proof. intros Hp. exact (proj2 (C33_low_fidelity p Hp)). Qed.
Lemma zonal_low p : zonal MU 1 0 0 0 p = MU / norm3 p.
Proof.
  destruct p as [x y z]. unfold zonal. cbn [x3 y3 z3]. unfold norm3. rnumg. replace (dot3 (mk3 x y z) (mk3 x y z)) with (x^2 + y^2 + z^2) by (vunfold; rnum; ring). ring.
Qed.
Lemma d_low (p : R -> v3) t v : deriv3 p t v -> p t <> zero3 -> derivable_pt_lim (fun u => MU / norm3 (p u)) t (dot3 (gravity_accel false (p t) (norm3 (p t))) v).
Proof.
  intros D Hp. destruct (d_zonal MU 1 0 0 0 p t v D Hp) as (g & G & DG). rewrite (gradient_unique _ _ _ _ (lo_fi_eq _ Hp) G).
  eapply derivable_pt_lim_ext; [|exact DG]. intros u. apply zonal_low.
Qed.
Lemma d_high (p : R -> v3) t v : deriv3 p t v -> p t <> zero3 ->
  derivable_pt_lim (fun u => zonal MU EARTH_RAD J2 J3 J4 (p u)) t (dot3 (gravity_accel true (p t) (norm3 (p t))) v + j34_error (p t) * (x3 (p t) * x3 v + y3 (p t) * y3 v)).
Proof.
  intros D Hp. destruct (d_zonal MU EARTH_RAD J2 J3 J4 p t v D Hp) as (g & G & DG). destruct (C33_high_fidelity (p t) Hp) as (g' & G' & E).
  rewrite <- (gradient_unique _ _ _ _ G G') in E. rewrite E. eapply d_eq; [exact DG|]. generalize (j34_error (p t)). intros k. destruct (p t) as [x y z], g as [a b c], v as [q r s]. vunfoldg; rnumg. ring.
Qed.

(** ** C86 *)
(** Low-fidelity gravity: the orbital energy changes by the power of the surface forces and the angular momentum by their moment, nothing
    else; neither attitude, nor wheels, nor magnetorquers enter. *)
Theorem C86_energy : forall sat mt clock cur accl y t, s_mass sat <> 0 -> v_pos (y t) <> zero3 -> moves false sat mt clock cur accl y t ->
  exists F, surface_force sat (clock t) (y t) F /\
    derivable_pt_lim (fun u => orbital_energy (fun p => MU / norm3 p) (y u)) t (dot3 (v_vel (y t)) F / s_mass sat) /\
    deriv3 (fun u => orbital_momentum (y u)) t (div3 (cross3 (v_pos (y t)) F) (s_mass sat)).
Proof.
  intros sat mt clock cur accl y t HM Hp H. destruct (moves_inv _ _ _ _ _ _ _ _ HM H) as (F & SF & D1 & D2). exists F. split; [exact SF|]. split.
  - unfold orbital_energy. eapply d_eq; [apply d_minus; [apply d_kin; exact D2|apply (d_low (fun u => v_pos (y u)) t _ D1 Hp)]|]. cbv beta.
    generalize (gravity_accel false (v_pos (y t)) (norm3 (v_pos (y t)))) (v_vel (y t)). intros [a b c] [p q r]. destruct F as [f g h]. revert HM; generalize (s_mass sat); intros m HM. vunfoldg; rnumg. field. exact HM.
  - unfold orbital_momentum. eapply d3_eq; [apply d3_cross; [exact D1|exact D2]|]. cbv beta. rewrite (low_eq _ Hp). generalize (v_vel (y t)) (v_pos (y t)) (- (MU / norm3 (v_pos (y t)) ^ 3)). intros [a b c] [p q r] k. destruct F as [f g h].
    revert HM; generalize (s_mass sat); intros m HM. vunfoldg; rnumg. apply mk3_c; field; exact HM.
Qed.
Print Assumptions C86_energy.
(** High-fidelity gravity: the momentum about the Earth's axis still changes by the moment of the surface forces only, but the energy in
    the J2-J3-J4 potential also changes by the work of the wrongly signed part (C33). *)
Theorem C86_high_fidelity : forall sat mt clock cur accl y t, s_mass sat <> 0 -> v_pos (y t) <> zero3 -> moves true sat mt clock cur accl y t ->
  exists F, surface_force sat (clock t) (y t) F /\
    derivable_pt_lim (fun u => orbital_energy (zonal MU EARTH_RAD J2 J3 J4) (y u)) t
      (dot3 (v_vel (y t)) F / s_mass sat - j34_error (v_pos (y t)) * (x3 (v_pos (y t)) * x3 (v_vel (y t)) + y3 (v_pos (y t)) * y3 (v_vel (y t)))) /\
    derivable_pt_lim (fun u => z3 (orbital_momentum (y u))) t (z3 (cross3 (v_pos (y t)) F) / s_mass sat).
Proof.
  intros sat mt clock cur accl y t HM Hp H. destruct (moves_inv _ _ _ _ _ _ _ _ HM H) as (F & SF & D1 & D2). exists F. split; [exact SF|]. split.
  - unfold orbital_energy. eapply d_eq; [apply d_minus; [apply d_kin; exact D2|apply (d_high (fun u => v_pos (y u)) t _ D1 Hp)]|]. cbv beta.
    generalize (gravity_accel true (v_pos (y t)) (norm3 (v_pos (y t)))) (j34_error (v_pos (y t))) (v_vel (y t)) (v_pos (y t)). intros [a b c] k [p q r] [p' q' r']. destruct F as [f g h]. revert HM; generalize (s_mass sat); intros m HM. vunfoldg; rnumg. field. exact HM.
  - destruct (d3_cross _ _ t _ _ D1 D2) as (_ & _ & D). cbv beta in D. unfold orbital_momentum. eapply d_eq; [exact D|].
    unfold gravity_accel, hi_fi_gravity. cbv zeta. assert (N := norm3_gt0 _ Hp). generalize MU EARTH_RAD J2 J3 J4. intros mu re j2 j3 j4. set (r := norm3 (v_pos (y t))) in *. clearbody r.
    generalize (v_pos (y t)) (v_vel (y t)). intros [a b c] [p q s]. destruct F as [f g h]. revert HM; generalize (s_mass sat); intros m HM. vunfoldg; rnumg. field. split; [exact HM|lra].
Qed.
Print Assumptions C86_high_fidelity.
Lemma surface_unique sat c v F F' : surface_force sat c v F -> surface_force sat c v F' -> F = F'.
Proof. intros (st & a & b & p & q & A & B & C & ->) (st' & a' & b' & p' & q' & A' & B' & C' & ->). congruence. Qed.
Lemma d3_div (f : R -> v3) t d k : deriv3 f t d -> deriv3 (fun u => div3 (f u) k) t (div3 d k).
Proof.
  intros (A & B & C). unfold div3. cbn [x3 y3 z3]. rnumg. split; [|split]; cbn [x3 y3 z3]; unfold Rdiv; (eapply d_eq; [apply d_mult; [eassumption|apply d_const]|]; cbv beta; ring).
Qed.
Lemma d3_sub f g t a b : deriv3 f t a -> deriv3 g t b -> deriv3 (fun u => sub3 (f u) (g u)) t (sub3 a b).
Proof. intros (A1 & A2 & A3) (B1 & B2 & B3). unfold sub3. cbn [x3 y3 z3]. rnumg. split; [|split]; cbn [x3 y3 z3]; apply d_minus; assumption. Qed.
Lemma const3 (f : R -> v3) a b : (forall t, a < t < b -> deriv3 f t zero3) -> forall t1 t2, a < t1 < b -> a < t2 < b -> f t1 = f t2.
Proof.
  intros H t1 t2 H1 H2. assert (E : forall g : v3 -> R, (forall t, a < t < b -> derivable_pt_lim (fun u => g (f u)) t 0) -> g (f t1) = g (f t2)) by (intros g Hg; apply (const_of_deriv (fun u => g (f u)) a b Hg); assumption).
  assert (X := E x3 (fun t Ht => proj1 (H t Ht))). assert (Y := E y3 (fun t Ht => proj1 (proj2 (H t Ht)))). assert (Z := E z3 (fun t Ht => proj2 (proj2 (H t Ht)))).
  destruct (f t1) as [p q r], (f t2) as [p' q' r']. cbn [x3 y3 z3] in *. subst. reflexivity.
Qed.
Lemma d3_unit (p : R -> v3) t v : deriv3 p t v -> p t <> zero3 ->
  deriv3 (fun u => div3 (p u) (norm3 (p u))) t (sub3 (div3 v (norm3 (p t))) (scale3 (dot3 (p t) v / norm3 (p t) ^ 3) (p t))).
Proof.
  intros D Hp. assert (W := d_inv_norm p t v D Hp). apply is_derive_Reals in W. assert (N := norm3_gt0 _ Hp).
  assert (E : forall u, sqrt (x3 (p u) ^ 2 + y3 (p u) ^ 2 + z3 (p u) ^ 2) = norm3 (p u)).
  { intros u. unfold norm3. rnumg. f_equal. destruct (p u) as [x y z]. vunfoldg; rnumg. ring. }
  assert (W' : derivable_pt_lim (fun u => / norm3 (p u)) t (- dot3 (p t) v * (/ norm3 (p t)) ^ 3)) by (eapply derivable_pt_lim_ext; [|exact W]; intros u; cbv beta; rewrite E; reflexivity).
  destruct D as (A & B & C). unfold div3, sub3, scale3. cbn [x3 y3 z3]. rnumg. unfold Rdiv.
  split; [|split]; cbn [x3 y3 z3]; (eapply d_eq; [apply d_mult; [eassumption|exact W']|]); cbv beta; field; lra.
Qed.
Lemma MU_pos : 0 < MU. Proof. assert (H := MU_val). lra. Qed.
Lemma cross_0_r' (a : v3) : cross3 a zero3 = zero3. Proof. vring. Qed.
Lemma add_div0 (a : v3) m : m <> 0 -> add3 a (div3 zero3 m) = a.
Proof. intros HM. destruct a as [p q r]. vunfoldg; rnumg. apply mk3_c; field; exact HM. Qed.
Lemma bac_cab k (p w : v3) : cross3 (scale3 k p) (cross3 p w) = scale3 k (sub3 (scale3 (dot3 p w) p) (scale3 (dot3 p p) w)). Proof. vring. Qed.
Lemma dot_ecc_pos mu r p w : mu <> 0 -> r <> 0 -> dot3 (sub3 (div3 (cross3 w (cross3 p w)) mu) (div3 p r)) p = dot3 (cross3 p w) (cross3 p w) / mu - dot3 p p / r.
Proof. intros M N. destruct p as [p1 p2 p3], w as [w1 w2 w3]. vunfoldg; rnumg. field. auto. Qed.
Lemma dot_ecc_ecc mu r p w : mu <> 0 -> r <> 0 -> dot3 (sub3 (div3 (cross3 w (cross3 p w)) mu) (div3 p r)) (sub3 (div3 (cross3 w (cross3 p w)) mu) (div3 p r)) =
  dot3 w w * dot3 (cross3 p w) (cross3 p w) / mu ^ 2 - 2 * dot3 (cross3 p w) (cross3 p w) / (mu * r) + dot3 p p / r ^ 2.
Proof. intros M N. destruct p as [p1 p2 p3], w as [w1 w2 w3]. vunfoldg; rnumg. field. auto. Qed.
(** Without surface forces the motion is Kepler's: energy, angular momentum and eccentricity vector are constant, the path lies in the
    plane through the Earth's centre at right angles to the momentum, on the conic with that eccentricity vector, and a motion of negative energy stays within
    the distance MU over minus the energy. *)
Theorem C86_kepler : forall sat mt clock cur accl y a b, s_mass sat <> 0 ->
  (forall t, a < t < b -> v_pos (y t) <> zero3 /\ moves false sat mt clock cur accl y t /\ surface_force sat (clock t) (y t) zero3) ->
  let E := orbital_energy (fun p => MU / norm3 p) in
  forall t0 t, a < t0 < b -> a < t < b ->
    E (y t) = E (y t0) /\ orbital_momentum (y t) = orbital_momentum (y t0) /\ ecc (y t) = ecc (y t0) /\
    dot3 (orbital_momentum (y t0)) (v_pos (y t)) = 0 /\
    norm3 (v_pos (y t)) + dot3 (ecc (y t0)) (v_pos (y t)) = dot3 (orbital_momentum (y t0)) (orbital_momentum (y t0)) / MU /\
    dot3 (ecc (y t0)) (ecc (y t0)) = 1 + 2 * E (y t0) * dot3 (orbital_momentum (y t0)) (orbital_momentum (y t0)) / MU ^ 2 /\
    (E (y t0) < 0 -> norm3 (v_pos (y t)) <= MU / - E (y t0)).
Proof.
  intros sat mt clock cur accl y a b HM H E t0 t H0 Ht. assert (MP := MU_pos).
  assert (K : forall t, a < t < b -> derivable_pt_lim (fun u => E (y u)) t 0 /\ deriv3 (fun u => orbital_momentum (y u)) t zero3 /\ deriv3 (fun u => ecc (y u)) t zero3).
  { clear t t0 H0 Ht. intros t Ht. destruct (H t Ht) as (Hp & M & SF). destruct (C86_energy _ _ _ _ _ _ _ HM Hp M) as (F & SF' & DE & DH). rewrite (surface_unique _ _ _ _ _ SF' SF) in DE, DH.
    rewrite cross_0_r' in DH. assert (DH' : deriv3 (fun u => orbital_momentum (y u)) t zero3) by (eapply d3_eq; [exact DH|]; vunfoldg; rnumg; apply mk3_c; field; exact HM).
    destruct (moves_inv _ _ _ _ _ _ _ _ HM M) as (F' & SF'' & D1 & D2). rewrite (surface_unique _ _ _ _ _ SF'' SF), (low_eq _ Hp), add_div0 in D2 by exact HM.
    split; [eapply d_eq; [exact DE|]; generalize (v_vel (y t)); intros [p q r]; vunfoldg; rnumg; field; exact HM|]. split; [exact DH'|].
    unfold ecc. eapply d3_eq; [apply d3_sub; [apply d3_div, d3_cross; [exact D2|exact DH']|apply (d3_unit (fun u => v_pos (y u)) t _ D1 Hp)]|]. cbv beta.
    unfold orbital_momentum. assert (N := norm3_gt0 _ Hp). assert (NN : norm3 (v_pos (y t)) ^ 2 = dot3 (v_pos (y t)) (v_pos (y t))) by (unfold norm3; rnumg; apply pow2_sqrt, dot3_nonneg).
    rewrite bac_cab, <- NN, cross_0_r'. clear NN. generalize (dot3 (v_pos (y t)) (v_vel (y t))). intros d. revert N. generalize (norm3 (v_pos (y t))). intros r N.
    generalize (v_pos (y t)) (v_vel (y t)). intros [x1 x2 x3'] [w1 w2 w3]. revert MP. generalize MU. intros mu MP. vunfoldg; rnumg. apply mk3_c; field; lra. }
  assert (EE : E (y t) = E (y t0)) by (apply (const_of_deriv (fun u => E (y u)) a b); [intros u Hu; apply (K u Hu)|exact Ht|exact H0]).
  assert (EH : orbital_momentum (y t) = orbital_momentum (y t0)) by (apply (const3 (fun u => orbital_momentum (y u)) a b); [intros u Hu; apply (K u Hu)|exact Ht|exact H0]).
  assert (EC : ecc (y t) = ecc (y t0)) by (apply (const3 (fun u => ecc (y u)) a b); [intros u Hu; apply (K u Hu)|exact Ht|exact H0]).
  split; [exact EE|]. split; [exact EH|]. split; [exact EC|]. rewrite <- EE, <- EH, <- EC.
  destruct (H t Ht) as (Hp & _ & _). assert (N := norm3_gt0 _ Hp). assert (NN : norm3 (v_pos (y t)) ^ 2 = dot3 (v_pos (y t)) (v_pos (y t))) by (unfold norm3; rnumg; apply pow2_sqrt, dot3_nonneg).
  unfold E, orbital_energy, ecc, orbital_momentum. set (r := norm3 (v_pos (y t))) in *. clearbody r. clear - MP N NN. revert MP NN. generalize MU (v_pos (y t)) (v_vel (y t)). intros mu p w MP NN.
  split; [clear; generalize p w; vring|]. split; [|split].
  - rewrite (dot_ecc_pos mu r p w), <- NN by lra. field. lra.
  - rewrite (dot_ecc_ecc mu r p w), <- NN by lra. field. lra.
  - intros E0. assert (W := dot3_nonneg w). assert (X : r * (mu / r) = mu) by (field; lra). set (k := mu / r) in *. set (e := dot3 w w / 2 - k) in *.
    apply (Rmult_le_reg_r (- e)); [lra|]. replace (mu / - e * - e) with mu by (field; lra). unfold e. nra.
Qed.
Print Assumptions C86_kepler.

(** The high-fidelity acceleration has no potential at all: no function changes along every curve by the work of the acceleration. *)
Definition works (acc : v3 -> v3) (U : v3 -> R) : Prop :=
  forall (p : R -> v3) t v, deriv3 p t v -> p t <> zero3 -> derivable_pt_lim (fun u => U (p u)) t (dot3 (acc (p t)) v).
Lemma arc_d r u : deriv3 (fun u => mk3 (r * cos u) 0 (r * sin u)) u (mk3 (- r * sin u) 0 (r * cos u)).
Proof.
  unfold deriv3. cbn [x3 y3 z3]. split; [|split].
  - eapply d_eq; [apply d_mult; [apply d_const|apply derivable_pt_lim_cos]|]. cbv beta. ring.
  - apply d_const.
  - eapply d_eq; [apply d_mult; [apply d_const|apply derivable_pt_lim_sin]|]. cbv beta. ring.
Qed.
Lemma arc_norm r u : 0 < r -> norm3 (mk3 (r * cos u) 0 (r * sin u)) = r.
Proof.
  intros H. unfold norm3. rnumg. replace (dot3 _ _) with (r ^ 2 * (Rsqr (sin u) + Rsqr (cos u))) by (vunfoldg; rnumg; unfold Rsqr; ring). rewrite sin2_cos2, Rmult_1_r. apply sqrt_pow2. lra.
Qed.
Lemma norm_nz (p : v3) : norm3 p <> 0 -> p <> zero3.
Proof. intros H ->. apply H. unfold norm3. rnumg. replace (dot3 (zero3 : v3) zero3) with 0 by vring. apply sqrt_0. Qed.
Theorem C86_no_potential_refuted : ~ exists U, works (fun p => gravity_accel true p (norm3 p)) U.
Proof.
  intros (U & HU). set (W := fun p => zonal MU EARTH_RAD J2 J3 J4 p - U p).
  assert (HW : forall p t v, deriv3 p t v -> p t <> zero3 -> derivable_pt_lim (fun u => W (p u)) t (j34_error (p t) * (x3 (p t) * x3 v + y3 (p t) * y3 v))).
  { intros p t v D N. unfold W. eapply d_eq; [apply d_minus; [apply (d_high p t v D N)|apply (HU p t v D N)]|]. ring. }
  assert (RE : 0 < EARTH_RAD) by (unfold EARTH_RAD; lra). assert (MP := MU_pos).
  set (pole := fun r => mk3 0 0 r). set (eq := fun r => mk3 r 0 0).
  (* along the arc from the equator to the pole *)
  assert (ARC : forall r, 0 < r -> W (pole r) - W (eq r) = - 2 * MU / r * (J3 * (EARTH_RAD / r) ^ 3 + 15 / 16 * J4 * (EARTH_RAD / r) ^ 4)).
  { intros r Hr. set (g := fun u => W (mk3 (r * cos u) 0 (r * sin u)) + 2 * MU / r * (5 / 2 * J3 * (EARTH_RAD / r) ^ 3 * (7 / 5 * sin u ^ 5 - sin u ^ 3) + 5 / 8 * J4 * (EARTH_RAD / r) ^ 4 * (3 / 2 * sin u ^ 2 - 21 / 2 * sin u ^ 4 + 21 / 2 * sin u ^ 6))).
    assert (D : forall u, -1 < u < 3 -> derivable_pt_lim g u 0).
    { intros u _. assert (NZ : mk3 (r * cos u) 0 (r * sin u) <> zero3) by (apply norm_nz; rewrite arc_norm; lra). assert (D1 := HW _ u _ (arc_d r u) NZ). cbv beta in D1. unfold g.
      assert (D2 : derivable_pt_lim (fun u => 2 * MU / r * (5 / 2 * J3 * (EARTH_RAD / r) ^ 3 * (7 / 5 * sin u ^ 5 - sin u ^ 3) + 5 / 8 * J4 * (EARTH_RAD / r) ^ 4 * (3 / 2 * sin u ^ 2 - 21 / 2 * sin u ^ 4 + 21 / 2 * sin u ^ 6))) u
        (2 * MU / r * (5 / 2 * J3 * (EARTH_RAD / r) ^ 3 * (7 * sin u ^ 4 - 3 * sin u ^ 2) * cos u + 5 / 8 * J4 * (EARTH_RAD / r) ^ 4 * (3 * sin u - 42 * sin u ^ 3 + 63 * sin u ^ 5) * cos u))).
      { generalize (2 * MU / r) (5 / 2 * J3 * (EARTH_RAD / r) ^ 3) (5 / 8 * J4 * (EARTH_RAD / r) ^ 4). intros k1 k2 k3. apply is_derive_Reals. auto_derive; [exact I|field]. }
      eapply d_eq; [apply d_plus; [exact D1|exact D2]|]. unfold j34_error. cbv zeta. rewrite arc_norm by exact Hr. cbn [x3 y3 z3]. revert Hr RE MP. generalize MU EARTH_RAD J3 J4 (sin u) (cos u). clear. intros. field. lra. }
    assert (PP := PI2_1). assert (P2 := PI2_3_2). assert (P4 := PI_4).
    assert (E := const_of_deriv g (-1) 3 D 0 (PI / 2) ltac:(lra) ltac:(lra)). unfold g in E. rewrite sin_PI2, cos_PI2, sin_0, cos_0, !Rmult_0_r, !Rmult_1_r in E. fold (pole r) (eq r) in E.
    replace (- 2 * MU / r) with (- (2 * MU / r)) by (field; lra). revert E. generalize (W (eq r)) (W (pole r)) (EARTH_RAD / r) (2 * MU / r) J3 J4. clear. intros a b rho k j3 j4 E.
    assert (X : b - a = k * (5 / 2 * j3 * rho ^ 3 * (7 / 5 * 0 ^ 5 - 0 ^ 3) + 5 / 8 * j4 * rho ^ 4 * (3 / 2 * 0 ^ 2 - 21 / 2 * 0 ^ 4 + 21 / 2 * 0 ^ 6)) - k * (5 / 2 * j3 * rho ^ 3 * (7 / 5 * 1 ^ 5 - 1 ^ 3) + 5 / 8 * j4 * rho ^ 4 * (3 / 2 * 1 ^ 2 - 21 / 2 * 1 ^ 4 + 21 / 2 * 1 ^ 6))) by lra.
    rewrite X. field. }
  (* along the axis nothing changes, along the equatorial radius only the J4 part *)
  assert (R1 : 0 < EARTH_RAD / 2 < EARTH_RAD * 2) by lra.
  assert (AX : W (pole EARTH_RAD) = W (pole (EARTH_RAD / 2))).
  { apply (const_of_deriv (fun u => W (pole u)) (EARTH_RAD / 4) (EARTH_RAD * 2)); [|lra|lra]. intros u Hu.
    assert (D : deriv3 pole u (mk3 0 0 1)) by (split; [exact (d_const 0 u)|split; [exact (d_const 0 u)|exact (derivable_pt_lim_id u)]]).
    eapply d_eq; [apply (HW pole u _ D); unfold pole, zero3; rnumg; intros X; apply mk3_inj in X; lra|]. unfold pole. cbn [x3 y3 z3]. ring. }
  assert (EQ : W (eq EARTH_RAD) + 3 / 4 * MU * J4 * EARTH_RAD ^ 4 * (/ EARTH_RAD) ^ 5 = W (eq (EARTH_RAD / 2)) + 3 / 4 * MU * J4 * EARTH_RAD ^ 4 * (/ (EARTH_RAD / 2)) ^ 5).
  { apply (const_of_deriv (fun u => W (eq u) + 3 / 4 * MU * J4 * EARTH_RAD ^ 4 * (/ u) ^ 5) (EARTH_RAD / 4) (EARTH_RAD * 2)); [|lra|lra]. intros u Hu.
    assert (D : deriv3 eq u (mk3 1 0 0)) by (split; [exact (derivable_pt_lim_id u)|split; exact (d_const 0 u)]).
    assert (NE : norm3 (eq u) = u) by (unfold norm3, eq; rnumg; replace (dot3 _ _) with (u ^ 2) by (vunfoldg; rnumg; ring); apply sqrt_pow2; lra).
    assert (D2 : derivable_pt_lim (fun u => 3 / 4 * MU * J4 * EARTH_RAD ^ 4 * (/ u) ^ 5) u (- (15 / 4) * MU * J4 * EARTH_RAD ^ 4 / u ^ 6)).
    { generalize (EARTH_RAD ^ 4) MU J4. intros k1 k2 k3. apply is_derive_Reals. auto_derive; [lra|field; lra]. }
    eapply d_eq; [apply d_plus; [apply (HW eq u _ D); apply norm_nz; rewrite NE; lra|exact D2]|]. unfold j34_error. cbv zeta. rewrite NE. unfold eq. cbn [x3 y3 z3]. assert (0 < u) by lra. revert H. generalize EARTH_RAD MU J3 J4. clear. intros. field. lra. }
  assert (A1 := ARC EARTH_RAD RE). assert (A2 := ARC (EARTH_RAD / 2) ltac:(lra)).
  assert (N3 : J3 < 0) by (unfold J3; lra). assert (N4 : J4 < 0) by (unfold J4; lra).
  assert (K : MU / EARTH_RAD * (- 2 * J3 * 15 - 21 / 8 * J4 * 31) = 0).
  { replace (MU / EARTH_RAD * (-2 * J3 * 15 - 21 / 8 * J4 * 31)) with
      ((- 2 * MU / (EARTH_RAD / 2) * (J3 * (EARTH_RAD / (EARTH_RAD / 2)) ^ 3 + 15 / 16 * J4 * (EARTH_RAD / (EARTH_RAD / 2)) ^ 4) - 3 / 4 * MU * J4 * EARTH_RAD ^ 4 * (/ (EARTH_RAD / 2)) ^ 5)
       - (- 2 * MU / EARTH_RAD * (J3 * (EARTH_RAD / EARTH_RAD) ^ 3 + 15 / 16 * J4 * (EARTH_RAD / EARTH_RAD) ^ 4) - 3 / 4 * MU * J4 * EARTH_RAD ^ 4 * (/ EARTH_RAD) ^ 5)).
    - lra.
    - revert RE. generalize EARTH_RAD MU J3 J4. clear. intros. field. lra. }
  assert (0 < MU / EARTH_RAD * (- 2 * J3 * 15 - 21 / 8 * J4 * 31)); [|lra]. apply Rmult_lt_0_compat; [apply Rdiv_lt_0_compat; assumption|lra].
Qed.
Print Assumptions C86_no_potential_refuted.
(** whereas the low-fidelity one has *)
Theorem C86_potential : works (fun p => gravity_accel false p (norm3 p)) (fun p => MU / norm3 p).
Proof. intros p t v D N. apply d_low; assumption. Qed.
Print Assumptions C86_potential.

(** a circular orbit of the satellite of C40_ex meets the hypotheses of C86_energy and C86_kepler; the momentum and the energy are not zero *)
Example C86_ex : forall c t, s_mass ball <> 0 /\ v_pos (circle t) <> zero3 /\ moves false ball [] (fun _ => CJ c) (fun _ => []) (fun _ => [0; 0; 0]) circle t /\
  surface_force ball (CJ c) (circle t) zero3 /\ orbital_energy (fun p => MU / norm3 p) (circle t) < 0 /\ circle 0 <> circle 1.
Proof.
  intros c t. assert (RV : orbit_r = 6778137) by reflexivity.
  assert (NP : norm3 (v_pos (circle t)) = orbit_r).
  { unfold circle. cbn [v_pos]. unfold norm3. rnumg. set (u := orbit_n * t). replace (dot3 _ _) with (orbit_r ^ 2 * (Rsqr (sin u) + Rsqr (cos u))) by (vunfoldg; rnumg; unfold Rsqr; ring). rewrite sin2_cos2, Rmult_1_r. apply sqrt_pow2. lra. }
  assert (ME : s_mass ball <> 0) by (unfold ball; cbn [s_mass]; lra). assert (NZ : v_pos (circle t) <> zero3) by (apply norm_nz; rewrite NP; lra).
  destruct (circle_solution c (t - 1) (t + 1)) as [A _]. assert (M : moves false ball [] (fun _ => CJ c) (fun _ => []) (fun _ => [0; 0; 0]) circle t) by exact (A t ltac:(lra)).
  split; [exact ME|]. split; [exact NZ|]. split; [exact M|]. split; [|split].
  - destruct (moves_inv _ _ _ _ _ _ _ _ ME M) as (F & SF & _). destruct SF as (st & Fd & Td & Fs & Ts & A1 & A2 & A3 & EF). exists st, zero3, zero3, zero3, zero3. split; [exact A1|]. split; [|split].
    + destruct (atmo_density (c_h st)) as [rho|e] eqn:ER; [apply (ball_dragF st rho ER)|]. unfold drag_F_and_T in A2. rewrite ER in A2. discriminate.
    + apply (ball_solar c). reflexivity.
    + vunfoldg; rnumg. apply mk3_c; ring.
  - unfold orbital_energy. rewrite NP. unfold circle. cbn [v_vel]. set (u := orbit_n * t). replace (dot3 _ _) with (orbit_r ^ 2 * (orbit_n * orbit_n) * (Rsqr (sin u) + Rsqr (cos u))) by (vunfoldg; rnumg; unfold Rsqr; ring).
    rewrite sin2_cos2, orbit_n_sq, Rmult_1_r. assert (MP := MU_pos). assert (R0 : 0 < orbit_r) by lra. replace (orbit_r ^ 2 * (MU / orbit_r ^ 3) / 2 - MU / orbit_r) with (- (MU / orbit_r / 2)) by (field; lra).
    assert (0 < MU / orbit_r) by (apply Rdiv_lt_0_compat; assumption). lra.
  - intros E. assert (E2 : qw (v_att (circle 0)) = qw (v_att (circle 1))) by (rewrite E; reflexivity). unfold circle in E2. cbn [v_att qw] in E2.
    rewrite Rmult_0_r, cos_0, Rmult_1_r in E2. assert (P := PI_4). assert (P3 := PI2_3_2). unfold spin in E2.
    assert (cos (3 / 2) < cos 0) by (apply cos_decreasing_1; lra). rewrite cos_0 in *. lra.
Qed.
