(** * Properties of functions/frame.py, classes/dynamics.py and system/simulator.py: C94 (where the simulation is defined) *)
From Coq Require Import Reals ZArith List Bool Arith Lra Psatz Lia.
From Flocq Require Import Core.
From Verif Require Import Num Vec M_vector M_quaternion M_jday M_frame M_struct M_env M_dyn M_sensor M_integ.
From Verif Require Import S_rot S_integ S_dyn S_frame P_quat P_wheel P_integ2 P_dyn P_dyn2 P_frame Props_spin P_rk P_rk2 P_rk3 P_rk4 P_lla6 P_tot1 P_tot2 P_tot3.
Import ListNotations.
Local Open Scope R_scope.

(** ** C94: every place outside the Earth has coordinates, and they are found *)
(** Whatever the point on or outside the WGS-84 ellipsoid, there are a geodetic latitude, a longitude and a height whose place it
    is, the height lies between the distances to the equatorial and to the polar sphere, and the closed form returns them. *)
Theorem C94_coordinates : forall p : v3,
  1 <= (x3 p * x3 p + y3 p * y3 p) / (wgs_a * wgs_a) + z3 p * z3 p / (wgs_a * wgs_a * (1 - wgs_e2)) ->
  exists phi lam h lat lon hh, - (PI / 2) <= phi <= PI / 2 /\ - PI < lam <= PI /\ 0 <= h /\
    p = mk3 (geodetic_w phi h * cos lam) (geodetic_w phi h * sin lam) (geodetic_z phi h) /\
    sqrt (dot3 p p) - wgs_a <= h <= sqrt (dot3 p p) - wgs_a * sqrt (1 - wgs_e2) /\
    ecef_to_lla p = Ok (lat, lon, hh) /\ Rabs (lat - phi * (180 / PI)) <= 2 / 10 ^ 14 /\ Rabs (hh - h) <= 3 / 10 ^ 23 * sqrt (dot3 p p) /\
    (phi <> PI / 2 -> phi <> - (PI / 2) -> lon = lam * (180 / PI)).
Proof.
  intros p HP. apply (lla_total p). change wgs_a with wa in HP. change wgs_e2 with e2 in HP. assert (E := e2_range). assert (A0 : 0 < wa) by (unfold wa; lra). assert (A : 0 < wa * wa) by (apply Rmult_lt_0_compat; lra). assert (B : 0 < wa * wa * (1 - e2)) by (apply Rmult_lt_0_compat; lra).
  apply (Rmult_le_compat_r (wa * wa * (1 - e2))) in HP; [|lra]. replace (((x3 p * x3 p + y3 p * y3 p) / (wa * wa) + z3 p * z3 p / (wa * wa * (1 - e2))) * (wa * wa * (1 - e2))) with ((x3 p * x3 p + y3 p * y3 p) * (1 - e2) + z3 p * z3 p) in HP by (field; split; apply Rgt_not_eq; lra). lra.
Qed.
Print Assumptions C94_coordinates.
Example C94_coordinates_ex : let p := mk3 4000000 (-4000000) 4000000 in
  1 <= (x3 p * x3 p + y3 p * y3 p) / (wgs_a * wgs_a) + z3 p * z3 p / (wgs_a * wgs_a * (1 - wgs_e2)).
Proof.
  cbn [x3 y3 z3]. change wgs_e2 with e2. unfold wgs_a. assert (E := e2_range). apply Rle_trans with (32000000000000 / (6378137 * 6378137) + 16000000000000 / (6378137 * 6378137)); [lra|]. apply Rplus_le_compat; [lra|]. unfold Rdiv. replace (4000000 * 4000000) with 16000000000000 by lra. apply Rmult_le_compat_l; [lra|].
  apply Rinv_le_contravar; [apply Rmult_lt_0_compat; lra|]. rewrite <- (Rmult_1_r (6378137 * 6378137)) at 2. apply Rmult_le_compat_l; lra.
Qed.

(** ** C94: exactly when the vector field has a value, and what it raises otherwise *)
Theorem C94_field_domain : forall hi_fi sat mt h s cur accl, (exists d, vector_field hi_fi sat mt h s cur accl = Ok d) <->
  (length mt <= length cur)%nat /\ (length (rw_wheels (s_rw sat)) <= length accl)%nat /\ (length (rw_wheels (s_rw sat)) <= length (v_whl (sv s)))%nat /\
  (exists c, h (clk s) = CJ c) /\ 250000 <= c_h s < 500000.
Proof. exact field_ok. Qed.
Print Assumptions C94_field_domain.
Theorem C94_field_raises : forall hi_fi sat mt h s cur accl,
  ((length cur < length mt)%nat \/ (length accl < length (rw_wheels (s_rw sat)))%nat \/ (length (v_whl (sv s)) < length (rw_wheels (s_rw sat)))%nat ->
   vector_field hi_fi sat mt h s cur accl = Raise IndexError) /\
  ((length mt <= length cur)%nat -> (length (rw_wheels (s_rw sat)) <= length accl)%nat -> (length (rw_wheels (s_rw sat)) <= length (v_whl (sv s)))%nat ->
   (forall c, h (clk s) = CClock c -> vector_field hi_fi sat mt h s cur accl = Raise TypeError) /\
   (forall c, h (clk s) = CJ c -> ~ (250000 <= c_h s < 500000) -> vector_field hi_fi sat mt h s cur accl = Raise UnboundLocalError)).
Proof.
  intros hi_fi sat mt h s cur accl.
  assert (AR : forall (mt : list (Torquer R)) (cur : list R), (length cur < length mt)%nat -> sys_actuate mt cur = Raise IndexError).
  { clear. induction mt as [|t mt IH]; intros [|x cur] L; cbn [length] in L; try lia; [reflexivity|]. cbn [sys_actuate]. rewrite IH by lia. reflexivity. }
  unfold vector_field, rw_torque_r, rw_momentum_r. split.
  - intros L. destruct (Nat.lt_ge_cases (length cur) (length mt)) as [A|A]; [rewrite AR by exact A; reflexivity|]. destruct (proj2 (actuate_ok mt cur) A) as (m & ->). cbn [rbind].
    destruct (Nat.ltb_spec (length accl) (length (rw_wheels (s_rw sat)))); [reflexivity|]. cbn [rbind]. destruct (Nat.ltb_spec (length (v_whl (sv s))) (length (rw_wheels (s_rw sat)))); [reflexivity|]. lia.
  - intros A B C. destruct (proj2 (actuate_ok mt cur) A) as (m & ->). cbn [rbind]. destruct (Nat.ltb_spec (length accl) (length (rw_wheels (s_rw sat)))); [lia|]. cbn [rbind]. destruct (Nat.ltb_spec (length (v_whl (sv s))) (length (rw_wheels (s_rw sat)))); [lia|]. cbn [rbind].
    unfold env_F_and_T. split.
    + intros c EC. unfold solar_F_and_T. rewrite EC. reflexivity.
    + intros c EC HA. assert (S : exists S, solar_F_and_T sat h s = Ok S). { unfold solar_F_and_T. rewrite EC. cbn [clk_julian rbind]. destruct (SRP_info (j_julian_date c) (v_pos (sv s))) as [[p sh] S]. destruct sh; [eexists; reflexivity|]. destruct (total_srp sat p S). eexists. reflexivity. }
      destruct S as (S & ->). cbn [rbind]. unfold drag_F_and_T. cbv zeta. rewrite density_raises by exact HA. reflexivity.
Qed.
Print Assumptions C94_field_raises.

(** ** C94: a simulated step succeeds *)
(** A state of flight: built by SatelliteState on its clock, which is a JulianClock; a unit attitude; a distance from the Earth's
    centre between lo and hi; speeds, rates and wheel speeds within bounds; one wheel speed per commanded acceleration. *)
Definition flight (accl : list R) (lo hi V W U : R) (w : World) : Prop :=
  let v := sv (w_state w) in
  (exists c, w_store w (clk (w_state w)) = CJ c) /\ make_state (w_store w) (clk (w_state w)) v = Ok (w_state w) /\
  unitq (v_att v) /\ lo <= sqrt (dot3 (v_pos v) (v_pos v)) <= hi /\ norm3 (v_vel v) <= V /\ norm3 (v_rate v) <= W /\ Forall (fun x => Rabs x <= U) (v_whl v) /\ length (v_whl v) = length accl.
(** the clock can be advanced by dt: the date stays in the calendar of datetime *)
Definition in_calendar (dt : R) (w : World) : Prop :=
  forall c, w_store w (clk (w_state w)) = CJ c -> (0 <= j_us c + ZnearestE (dt * 1000000) < datetime_end)%Z.

Lemma calendar_ok dt w c : w_store w (clk (w_state w)) = CJ c -> in_calendar dt w -> datetime_ok (j_us c + ZnearestE (dt * 1000000)) = true.
Proof. intros HC IC. specialize (IC c HC). unfold datetime_ok. apply andb_true_intro. split; [apply Z.leb_le|apply Z.ltb_lt]; lia. Qed.
Lemma momentum_bound ws U : 0 <= U -> exists H, 0 <= H /\ forall u, Forall (fun x => Rabs x <= U) u -> n1 (sum3 (zip_with w_momentum ws u)) <= H.
Proof.
  intros U0. assert (Z0 : n1 zero3 = 0) by (unfold n1, zero3; cbn [x3 y3 z3]; rnumg; rewrite Rabs_R0; ring).
  induction ws as [|w ws (H & H0 & IH)]; [exists 0; split; [lra|]; intros u _; cbn; rewrite Z0; lra|].
  exists (U * n1 (scale3 (w_par w) (w_axis w)) + H). assert (P := n1_pos (scale3 (w_par w) (w_axis w))). assert (P2 := Rmult_le_pos _ _ U0 P). split; [lra|].
  intros [|x u] F; [cbn; rewrite Z0; lra|]. inversion F as [|? ? F1 F2]; subst. cbn [zip_with]. cbn [sum3 fold_right]. fold (sum3 (zip_with w_momentum ws u)). assert (A := n1_add (w_momentum w x) (sum3 (zip_with w_momentum ws u))). assert (B := IH u F2).
  replace (w_momentum w x) with (scale3 x (scale3 (w_par w) (w_axis w))) in * by (unfold w_momentum; destruct (w_axis w) as [a b c]; vunfoldg; rnumg; apply mk3_c; ring). rewrite n1_scale in A.
  assert (Rabs x * n1 (scale3 (w_par w) (w_axis w)) <= U * n1 (scale3 (w_par w) (w_axis w))) by (apply Rmult_le_compat_r; assumption). lra.
Qed.

Section Flight.
Context (hi_fi : bool) (sat : Satellite) (mt : list (Torquer R)) (cur accl : list R) (lo hi V W U : R).
Context (LM : (length mt <= length cur)%nat) (LA : (length (rw_wheels (s_rw sat)) <= length accl)%nat) (LO : 6628138 < lo) (HI : hi < 6856752).
Local Notation field := (fun h s => vector_field hi_fi sat mt h s cur accl).
Lemma setup : exists mar D V' W' H, 0 < mar <= 1 / 2 /\ 1 <= D /\ (forall w, flight accl lo hi V W U w -> inside sat accl lo hi V' W' H (sv (w_state w))) /\
  forall lo' hi' V2 W2 H2 stream dt w cc, lo - mar <= lo' -> hi' <= hi + mar -> V2 <= V' + mar -> W2 <= W' + mar -> H2 <= H + n1 (rw_torque (s_rw sat) accl) ->
  w_store w (clk (w_state w)) = CJ cc -> cached (w_store w) (w_state w) -> inside sat accl lo' hi' V2 W2 H2 (sv (w_state w)) -> 0 < dt <= 1 -> dt * D <= mar ->
  datetime_ok (j_us cc + ZnearestE (dt * 1000000)) = true ->
  exists w', update field stream true dt w = Ok w' /\ w_store w' (clk (w_state w')) = CJ (mkJ (j_us cc + ZnearestE (dt * 1000000)) (j_absolute cc)) /\ cached (w_store w') (w_state w') /\
    inside sat accl (lo' - dt * D) (hi' + dt * D) (V2 + dt * D) (W2 + dt * D) (H2 + dt * n1 (rw_torque (s_rw sat) accl)) (sv (w_state w')).
Proof.
  destruct (proj2 (actuate_ok mt cur) LM) as (m & EM). set (Tw := n1 (rw_torque (s_rw sat) accl)). assert (PT : 0 <= Tw) by apply n1_pos.
  destruct (momentum_bound (rw_wheels (s_rw sat)) (Rabs U) (Rabs_pos U)) as (H & H0 & HH).
  set (V' := 3 * Rabs V). set (W' := 3 * Rabs W). assert (PV := Rabs_pos V). assert (PW := Rabs_pos W).
  set (mar := Rmin (1 / 2) (Rmin ((lo - 6628138) / 2) ((6856752 - hi) / 2))).
  assert (M1 : 0 < mar) by (unfold mar; apply Rmin_pos; [lra|apply Rmin_pos; lra]). assert (M2 : mar <= 1 / 2) by apply Rmin_l.
  assert (M3 : mar <= (lo - 6628138) / 2) by (eapply Rle_trans; [apply Rmin_r|apply Rmin_l]). assert (M4 : mar <= (6856752 - hi) / 2) by (eapply Rle_trans; [apply Rmin_r|apply Rmin_r]). clearbody mar.
  destruct (field_bound hi_fi sat mt cur accl m (V' + mar + 1) 5 (W' + mar + 1) (H + Tw + Tw)) as (D & D1 & DB); [unfold V'; lra|lra|unfold W'; lra|lra|exact EM|].
  exists mar, D, V', W', H. split; [lra|]. split; [exact D1|]. split.
  - intros w (_ & _ & Q & P & A & B & C & L). unfold inside. split; [exact P|]. split; [|split; [exact Q|split; [|split; [|exact L]]]].
    + assert (X := n1_norm3 (v_vel (sv (w_state w)))). assert (Y := Rle_abs V). unfold V'. lra.
    + assert (X := n1_norm3 (v_rate (sv (w_state w)))). assert (Y := Rle_abs W). unfold W'. lra.
    + apply HH. eapply Forall_impl; [|exact C]. cbv beta. intros x X. assert (Y := Rle_abs U). lra.
  - intros lo' hi' V2 W2 H2 stream dt w cc L1 L2 L3 L4 L5 HC CA IN DT DM TK.
    assert (IN' : inside sat accl (lo - mar) (hi + mar) (V' + mar) (W' + mar) (H + Tw) (sv (w_state w))). { destruct IN as (IP & IV & IQ & IW & IH & IL). unfold inside. split; [lra|]. split; [lra|]. split; [exact IQ|]. split; [lra|]. split; [lra|exact IL]. }
    destruct (update_ok hi_fi sat mt cur accl m (lo - mar) (hi + mar) (V' + mar) (W' + mar) (H + Tw) mar D) with (stream := stream) (dt := dt) (w := w) (cc := cc) as (w' & E & CL & HC' & CA' & UQ & NP & NV & NW & NH & NL); try assumption; try lra.
    exists w'. split; [exact E|]. split; [exact HC'|]. split; [exact CA'|]. destruct IN as (IP & IV & IQ & IW & IH & IL). unfold inside. split; [lra|]. split; [lra|]. split; [exact UQ|]. split; [lra|]. split; [fold Tw in NH; lra|exact NL].
Qed.
End Flight.

(** For every satellite, every set of commands of the right lengths and every range of distances between the two limits there is
    a longest step such that, whatever the state of flight in that range, one update of the simulation returns: neither the field
    at any of the four stages nor the coordinates nor the clock raises. *)
Theorem C94_step : forall hi_fi sat mt cur accl lo hi V W U, (length mt <= length cur)%nat -> (length (rw_wheels (s_rw sat)) <= length accl)%nat -> 6628138 < lo -> hi < 6856752 ->
  exists dt0, 0 < dt0 /\ forall stream dt w, 0 < dt <= dt0 -> flight accl lo hi V W U w -> in_calendar dt w ->
  exists w', update (fun h s => vector_field hi_fi sat mt h s cur accl) stream true dt w = Ok w' /\ unitq (v_att (sv (w_state w'))).
Proof.
  intros hi_fi sat mt cur accl lo hi V W U LM LA LO HI. destruct (setup hi_fi sat mt cur accl lo hi V W U LM LA LO HI) as (mar & D & V' & W' & H & M0 & D1 & IN & ST). assert (PT := n1_pos (rw_torque (s_rw sat) accl)).
  exists (Rmin 1 (mar / D)). assert (MD : 0 < mar / D) by (apply Rdiv_lt_0_compat; lra). split; [apply Rmin_pos; lra|]. intros stream dt w DT FL IC. assert (A := Rmin_l 1 (mar / D)). assert (B := Rmin_r 1 (mar / D)).
  assert (DM : dt * D <= mar). { replace mar with (mar / D * D) by (field; lra). apply Rmult_le_compat_r; lra. }
  assert (FL' := FL). destruct FL' as ((c & HC) & CA & _).
  destruct (ST lo hi V' W' H stream dt w c) as (w' & E & _ & _ & I'); try lra; [exact HC|exact CA|exact (IN w FL)|exact (calendar_ok dt w c HC IC)|]. exists w'. split; [exact E|]. apply I'.
Qed.
Print Assumptions C94_step.
(** So a run raises only after it has left the range, or the calendar. *)
Theorem C94_run : forall hi_fi sat mt cur accl lo hi V W U, (length mt <= length cur)%nat -> (length (rw_wheels (s_rw sat)) <= length accl)%nat -> 6628138 < lo -> hi < 6856752 ->
  exists dt0, 0 < dt0 /\ forall stream dt n w, 0 < dt <= dt0 ->
  (forall k wk, (k < n)%nat -> updates (fun h s => vector_field hi_fi sat mt h s cur accl) stream true dt k w = Ok wk -> flight accl lo hi V W U wk /\ in_calendar dt wk) ->
  exists w', updates (fun h s => vector_field hi_fi sat mt h s cur accl) stream true dt n w = Ok w'.
Proof.
  intros hi_fi sat mt cur accl lo hi V W U LM LA LO HI. destruct (C94_step hi_fi sat mt cur accl lo hi V W U LM LA LO HI) as (dt0 & P & ST). exists dt0. split; [exact P|]. intros stream dt n. induction n as [|n IH]; intros w DT G; [eexists; reflexivity|].
  destruct (G 0%nat w) as (FL & IC); [lia|reflexivity|]. destruct (ST stream dt w DT FL IC) as (w1 & E & _). cbn [updates]. rewrite E. cbn [rbind]. apply IH; [exact DT|].
  intros k wk L EK. apply (G (S k) wk); [lia|]. cbn [updates]. rewrite E. exact EK.
Qed.
Print Assumptions C94_run.
(** And it cannot leave at once: there is a time, the same for every state of flight in the range, during which every run goes
    through, however many steps it is cut into. *)
Theorem C94_run_time : forall hi_fi sat mt cur accl lo hi V W U, (length mt <= length cur)%nat -> (length (rw_wheels (s_rw sat)) <= length accl)%nat -> 6628138 < lo -> hi < 6856752 ->
  exists tau, 0 < tau /\ forall stream dt n w, 0 < dt -> INR n * dt <= tau -> flight accl lo hi V W U w ->
  (forall c, w_store w (clk (w_state w)) = CJ c -> 0 <= j_us c /\ j_us c + Z.of_nat n * ZnearestE (dt * 1000000) < datetime_end)%Z ->
  exists w', updates (fun h s => vector_field hi_fi sat mt h s cur accl) stream true dt n w = Ok w'.
Proof.
  intros hi_fi sat mt cur accl lo hi V W U LM LA LO HI. destruct (setup hi_fi sat mt cur accl lo hi V W U LM LA LO HI) as (mar & D & V' & W' & H & M0 & D1 & IN & ST). set (Tw := n1 (rw_torque (s_rw sat) accl)) in *. assert (PT : 0 <= Tw) by apply n1_pos.
  exists (mar / D). assert (MD : 0 < mar / D) by (apply Rdiv_lt_0_compat; lra). split; [exact MD|]. intros stream dt n w DT ND FL CAL.
  assert (M1 : mar / D <= 1 / 2). { apply Rmult_le_reg_r with D; [lra|]. replace (mar / D * D) with mar by (field; lra). lra. }
  assert (N1 : INR n * dt * D <= mar). { replace mar with (mar / D * D) by (field; lra). apply Rmult_le_compat_r; lra. }
  assert (ZP : (0 <= ZnearestE (dt * 1000000))%Z). { replace 0%Z with (ZnearestE 0) by (apply (Znearest_imp _ 0 0); rewrite Rminus_0_r, Rabs_R0; lra). apply (@Zrnd_le _ (valid_rnd_N _)). lra. }
  assert (FL' := FL). destruct FL' as ((c & HC) & CA & _). specialize (CAL c HC). assert (I0 := IN w FL). clear IN FL.
  assert (G : forall k w c, (k <= n)%nat -> w_store w (clk (w_state w)) = CJ c -> (0 <= j_us c /\ j_us c + Z.of_nat k * ZnearestE (dt * 1000000) < datetime_end)%Z -> cached (w_store w) (w_state w) ->
    inside sat accl (lo - mar + INR k * dt * D) (hi + mar - INR k * dt * D) (V' + mar - INR k * dt * D) (W' + mar - INR k * dt * D) (H + Tw - INR k * dt * Tw) (sv (w_state w)) ->
    exists w', updates (fun h s => vector_field hi_fi sat mt h s cur accl) stream true dt k w = Ok w').
  { clear w c HC CA CAL I0. induction k as [|k IH]; intros w c KN HC CAL CA I; [eexists; reflexivity|]. cbn [updates].
    assert (KP := pos_INR k). rewrite S_INR in I. assert (KD : 0 <= INR k * dt) by (apply Rmult_le_pos; lra). assert (KDD : 0 <= INR k * dt * D) by (apply Rmult_le_pos; lra). assert (KDT : 0 <= INR k * dt * Tw) by (apply Rmult_le_pos; lra). assert (DD : 0 < dt * D) by (apply Rmult_lt_0_compat; lra). assert (DTT : 0 <= dt * Tw) by (apply Rmult_le_pos; lra).
    assert (KN' : INR (S k) * dt <= INR n * dt) by (apply Rmult_le_compat_r; [lra|apply le_INR, KN]). rewrite S_INR in KN'. assert (DM : (INR k + 1) * dt * D <= INR n * dt * D) by (apply Rmult_le_compat_r; lra).
    destruct (ST (lo - mar + (INR k + 1) * dt * D) (hi + mar - (INR k + 1) * dt * D) (V' + mar - (INR k + 1) * dt * D) (W' + mar - (INR k + 1) * dt * D) (H + Tw - (INR k + 1) * dt * Tw) stream dt w c) as (w1 & E & HC1 & CA1 & I1); try assumption; try lra.
    { unfold datetime_ok. apply andb_true_intro. split; [apply Z.leb_le|apply Z.ltb_lt]; nia. }
    rewrite E. cbn [rbind]. apply (IH w1 _ ltac:(lia) HC1).
    - cbn [j_us]. nia.
    - exact CA1.
    - eapply inside_eq; [exact I1|ring|ring|ring|ring|ring]. }
  apply (G n w c (le_n n) HC CAL CA). destruct I0 as (IP & IV & IQ & IW & IH & IL). assert (NT : INR n * dt * Tw <= 1 * Tw) by (apply Rmult_le_compat_r; lra).
  unfold inside. split; [lra|]. split; [lra|]. split; [exact IQ|]. split; [lra|]. split; [lra|exact IL].
Qed.
Print Assumptions C94_run_time.
(** Below 6606752 m and above 6878138 m from the centre no step is possible: the density table has no entry and the first look-up
    raises UnboundLocalError.  (Between these radii and those of C94_step it depends on the latitude.) *)
Theorem C94_outside : forall hi_fi sat mt cur accl stream dt w c, (length mt <= length cur)%nat -> (length (rw_wheels (s_rw sat)) <= length accl)%nat -> (length (rw_wheels (s_rw sat)) <= length (v_whl (sv (w_state w))))%nat ->
  w_store w (clk (w_state w)) = CJ c -> make_state (w_store w) (clk (w_state w)) (sv (w_state w)) = Ok (w_state w) ->
  let r := sqrt (dot3 (v_pos (sv (w_state w))) (v_pos (sv (w_state w)))) in 6378137 <= r <= 6606752 \/ 6878138 <= r ->
  update (fun h s => vector_field hi_fi sat mt h s cur accl) stream true dt w = Raise UnboundLocalError.
Proof.
  intros hi_fi sat mt cur accl stream dt w c LM LA LW HC CA r HR. destruct (state_made (w_store w) (clk (w_state w)) (sv (w_state w))) as (s & E & _ & _ & _ & HT); [change (6378137 <= r); lra|]. rewrite CA in E. injection E as <-. change (norm3 (v_pos (sv (w_state w)))) with r in HT.
  destruct (C94_field_raises hi_fi sat mt (w_store w) (w_state w) cur accl) as (_ & F). destruct (F LM LA LW) as (_ & F'). unfold update, RK4_sat, RK4_step. rewrite (F' c HC); [reflexivity|lra].
Qed.
Print Assumptions C94_outside.

(** the ball on its orbit (C89's and C93's example) is a state of flight, with its wheels being accelerated *)
Example C94_ex : exists w, flight [0; 0; 2] 6700000 6800000 9000 4 10 w /\ in_calendar 0.05 w /\
  (forall c, w_store w (clk (w_state w)) = CJ c -> 0 <= j_us c /\ j_us c + Z.of_nat 1000 * 50000 < datetime_end)%Z /\ (length (rw_wheels (s_rw ball)) <= length [0; 0; 2])%nat /\ 6628138 < 6700000 /\ 6800000 < 6856752.
Proof.
  set (h := fun _ : nat => CJ (mkJ 0 0)). assert (OR : 0 <= orbit_r) by (unfold orbit_r; lra).
  assert (P : v_pos (circle 0) = mk3 orbit_r 0 0) by (unfold circle; cbn [v_pos]; rewrite Rmult_0_r, cos_0, sin_0; apply mk3_c; ring).
  assert (N : norm3 (v_pos (circle 0)) = orbit_r). { rewrite P. unfold norm3, dot3. cbn [x3 y3 z3]. rnumg. replace (orbit_r * orbit_r + 0 * 0 + 0 * 0) with (orbit_r * orbit_r) by ring. apply sqrt_square, OR. }
  destruct (state_made h 0 (circle 0)) as (s & E & CA & SV & CL & _); [rewrite N; unfold orbit_r; lra|]. exists (mkWorld s h (gyro_init 0 0 zero3) 0). unfold flight, in_calendar. cbn [w_state w_store]. rewrite SV, CL.
  assert (ZN : ZnearestE (0.05 * 1000000) = 50000%Z). { replace (0.05 * 1000000) with 50000 by lra. apply (Znearest_imp _ 50000 50000). replace (50000 - 50000) with 0 by ring. rewrite Rabs_R0. lra. }
  assert (OS := orbit_speed).
  split; [split; [exists (mkJ 0 0); reflexivity|]|].
  - split; [exact E|]. split; [unfold circle, unitq; cbn [v_att]; rewrite Rmult_0_r, cos_0, sin_0; vunfoldg; rnumg; ring|]. split; [change (6700000 <= norm3 (v_pos (circle 0)) <= 6800000); rewrite N; unfold orbit_r; lra|].
    split. { apply Rle_trans with (n1 (v_vel (circle 0))); [apply norm3_n1|]. unfold circle, n1. cbn [v_vel x3 y3 z3]. rewrite Rmult_0_r, cos_0, sin_0, ?Rmult_0_r, ?Ropp_0, ?Rmult_1_r, Rabs_R0. rewrite (Rabs_pos_eq (orbit_r * orbit_n)) by lra. lra. }
    split. { apply Rle_trans with (n1 (v_rate (circle 0))); [apply norm3_n1|]. unfold circle, n1, spin. cbn [v_rate x3 y3 z3]. rewrite Rabs_R0, Rabs_pos_eq; lra. }
    split; [|reflexivity]. unfold circle. cbn [v_whl]. repeat constructor; rewrite Rabs_pos_eq; lra.
  - split; [intros c EC; injection EC as <-; rewrite ZN; cbn [j_us]; split; vm_compute; congruence|]. split; [intros c EC; injection EC as <-; cbn [j_us]; split; vm_compute; congruence|]. split; [cbn; lia|]. lra.
Qed.
