(** * Properties of classes/observers.py: C113 (the position filter fed with fixes) *)
From Coq Require Import Reals List Bool Lra Psatz Lia.
From Coquelicot Require Import Coquelicot.
From Verif Require Import Num Vec Mat6 M_vector M_env M_dyn M_obs S_rot S_dyn S_orb S_obs P_quat P_wheel P_tot2 P_tot3 P_dyn P_orb3 P_obs P_obs2 P_posf Props_dyn Props_obs Props_posf P_gps1 P_gps2 P_gps3 P_gps4 P_gps5 P_gps6.
Local Open Scope R_scope.

(** ** The specification: one propagation and one fix per cycle; where the filter's own equations of motion take a position and a
    velocity in dt seconds; sizes of errors *)
Fixpoint fed (h : nat -> store) (dt : nat -> R) (mp mv : nat -> v3) (f : PosF) (k : nat) : PosF :=
  match k with O => f | S k => fst (pf_update (h k) (mp (S k)) (mv (S k)) (pf_propagate (dt k) (fed h dt mp mv f k))) end.
Definition ahead_p (dt : R) (p v : v3) : v3 := add3 (scale3 (1 - rate2 * dt ^ 2 / 2) p) (scale3 (dt - drag * dt ^ 2 / 2 - 0.1666 * rate2 * dt ^ 3) v).
Definition ahead_v (dt : R) (p v : v3) : v3 := add3 (scale3 (- (rate2 * dt)) p) (scale3 (1 - rate2 * dt ^ 2 / 2 - drag * dt) v).
Definition apart (a b : v3) : R := norm3 (sub3 a b).
(** unmodelled motion and noise of the k-th cycle, in units of the filter's own confidence *)
Definition upset (dt : R) (p v p' v' mp' mv' : v3) : R :=
  1.5 * apart p' (ahead_p dt p v) + 22 * apart v' (ahead_v dt p v) + 0.1 * apart mp' p' + 2 * apart mv' v'.
(** 0.998 per cycle: from E0 towards 500 W *)
Definition settling (E0 W : R) (k : nat) : R := 0.998 ^ k * E0 + (1 - 0.998 ^ k) * (500 * W).

Lemma fed_V h dt mp mv f k : fed h dt mp mv f k = fedV h dt (fun k => mk6 (mp k) (mv k)) f k.
Proof. induction k as [|k IH]; cbn [fed fedV]; [reflexivity|]. rewrite IH. reflexivity. Qed.
Lemma ahead_step dt p v : step6 dt (mk6 p v) = mk6 (ahead_p dt p v) (ahead_v dt p v).
Proof.
  unfold step6, ahead_p, ahead_v, cA11, cA12, cA21, cA22. cbn [u1 u2]. change rate2 with pf_a. change drag with pf_b. replace (dt - dt ^ 2 * pf_b / 2 - 1666 / 10000 * pf_a * dt ^ 3) with (dt - pf_b * dt ^ 2 / 2 - 0.1666 * pf_a * dt ^ 3) by lra. reflexivity.
Qed.

(** ** Convergence: for every true motion, every sequence of cycles of 0.5 to 1 s and every error of the fixes *)
Theorem C113_converges : forall s h dt tp tv mp mv E0 W,
  (forall k, 0.5 <= dt k <= 1) -> (forall k, 6600000 <= norm3 (tp k)) ->
  sqrt (apart (v_pos (sv s)) (tp O) ^ 2 + apart (v_vel (sv s)) (tv O) ^ 2) <= E0 -> E0 <= 9000 ->
  (forall k, upset (dt k) (tp k) (tv k) (tp (S k)) (tv (S k)) (mp (S k)) (mv (S k)) <= W) -> W <= 18 ->
  forall k, let f := fed h dt mp mv (pf_init s) k in
    apart (e_pos f) (tp k) <= 10.06 * settling E0 W k /\ (k <> O -> apart (e_vel f) (tv k) <= 0.5204 * settling E0 W k).
Proof.
  intros s h dt tp tv mp mv E0 W HT HX HE E9 HW W18 k. set (X := fun k => mk6 (tp k) (tv k)). set (Y := fun k => mk6 (mp k) (mv k)).
  assert (HE' : let e := sub6 (p_x (pf_init s)) (X O) in sqrt (dot6 e e) <= E0). { cbv zeta. eapply Rle_trans; [|exact HE]. right. f_equal. unfold dot6, pf_init, X, apart. cbn [p_x u1 u2 sub6]. rewrite <- !norm3_dot. ring. }
  assert (HW' : forall k, let d := sub6 (X (S k)) (step6 (dt k) (X k)) in let n := sub6 (Y (S k)) (X (S k)) in 1.5 * norm3 (u1 d) + 22 * norm3 (u2 d) + 0.1 * norm3 (u1 n) + 2 * norm3 (u2 n) <= W).
  { intros j. cbv zeta. unfold X, Y. rewrite ahead_step. exact (HW j). }
  assert (FL := fed_level s h dt Y X E0 W HT HX HE' E9 W18 HW' k). cbv zeta in FL. cbv zeta. rewrite fed_V. change (fun k => mk6 (mp k) (mv k)) with Y. destruct FL as (CF & IN & _ & LR).
  assert (E00 : 0 <= E0) by (eapply Rle_trans; [apply sqrt_pos|exact HE]). assert (W0 : 0 <= W). { eapply Rle_trans; [|exact (HW O)]. unfold upset, apart. repeat apply Rplus_le_le_0_compat; (apply Rmult_le_pos; [lra|apply norm3_pos]). }
  destruct (level_rng E0 W k ltac:(lra) ltac:(lra)) as [L0 _]. destruct (level_sizes _ _ _ CF L0 IN) as [A B]. change (level E0 W k) with (settling E0 W k) in A, B. split; [exact A|]. intros NZ. exact (B (LR NZ)).
Qed.
Print Assumptions C113_converges.

(** ** On a circular orbit of radius r, where nothing but the Earth's point mass pulls; fixes off by at most ep and ev *)
Theorem C113_orbit : forall s h dt T p v r mp mv E0 ep ev,
  (forall k, 0.5 <= dt k <= 1) -> T O = 0 -> (forall k, T (S k) = T k + dt k) ->
  (forall len, orbit_motion (fun t => attraction (p t)) len p v) -> 6600000 <= r -> norm3 (p 0) = r -> dot3 (p 0) (v 0) = 0 -> norm3 (v 0) ^ 2 = earth_mu / r ->
  sqrt (apart (v_pos (sv s)) (p 0) ^ 2 + apart (v_vel (sv s)) (v 0) ^ 2) <= E0 -> E0 <= 9000 ->
  (forall k, apart (mp (S k)) (p (T (S k))) <= ep /\ apart (mv (S k)) (v (T (S k))) <= ev) ->
  let W := r * (22.8 * Rabs (rate2 - earth_mu / r ^ 3) + 1.25 / 10 ^ 11) + 0.1 * ep + 2 * ev in W <= 18 ->
  forall k, let f := fed h dt mp mv (pf_init s) k in
    apart (e_pos f) (p (T k)) <= 10.06 * settling E0 W k /\ (k <> O -> apart (e_vel f) (v (T k)) <= 0.5204 * settling E0 W k).
Proof.
  intros s h dt T p v r mp mv E0 ep ev HT T0 TS OM R0 HP HO HV HE E9 HM W W18 k.
  destruct (orbit_is_circ p v r 0 ltac:(lra) HP HO HV (OM 0) ltac:(lra)) as (W0 & W3 & HV' & _). set (w := sqrt (earth_mu / r ^ 3)) in *.
  assert (CI : forall t, 0 <= t -> mk6 (p t) (v t) = circ w (p 0) (v 0) t). { intros t Ht. destruct (orbit_is_circ p v r t ltac:(lra) HP HO HV (OM t) Ht) as (_ & _ & _ & C). apply C. lra. }
  assert (TP : forall k, 0 <= T k). { induction k0 as [|j IH]; [lra|]. rewrite TS. assert (A := HT j). lra. }
  assert (WW : w * w = earth_mu / r ^ 3) by (rewrite <- W3; field; lra).
  assert (W1 : w <= 0.00118). { assert (R3 : 6600000 ^ 3 <= r ^ 3) by (apply pow_incr; lra). apply Rnot_lt_le. intros L. assert (0.00118 * 0.00118 <= w * w) by (apply Rmult_le_compat; lra). assert (0.00118 * 0.00118 * 6600000 ^ 3 <= w * w * r ^ 3) by (apply Rmult_le_compat; lra). rewrite W3 in *. unfold earth_mu in *. lra. }
  set (D := Rabs (rate2 - earth_mu / r ^ 3)) in *. assert (D0 : 0 <= D) by apply Rabs_pos. assert (RD : 0 <= r * D) by (apply Rmult_le_pos; lra).
  apply (C113_converges s h dt (fun k => p (T k)) (fun k => v (T k)) mp mv E0 W HT); try assumption.
  - intros j. assert (C := CI (T j) (TP j)). assert (E : p (T j) = u1 (circ w (p 0) (v 0) (T j))) by (rewrite <- C; reflexivity). rewrite E. destruct (circ_size w (p 0) (v 0) (T j) ltac:(lra) HO HV') as (S1 & _). unfold norm3 in *. rewrite S1, HP. exact R0.
  - rewrite T0. exact HE.
  - intros j. destruct (HM j) as [M1 M2]. unfold upset. cbv beta.
    assert (O := off_size w (p 0) (v 0) r (T j) (dt j) D ltac:(lra) (HT j) ltac:(rewrite WW; apply Rle_refl) ltac:(lra) HO HV' HP). cbv zeta in O. rewrite <- (TS j), <- (CI _ (TP (S j))), <- (CI _ (TP j)), ahead_step in O. cbn [u1 u2 sub6] in O. destruct O as [O1 O2]. unfold apart in *. unfold W. lra.
Qed.
Print Assumptions C113_orbit.

(** ** At the radius the filter is made for, with exact fixes: half a metre and a few centimetres per second remain *)
Theorem C113_design : forall s h dt T p v r E0,
  (forall k, 0.5 <= dt k <= 1) -> T O = 0 -> (forall k, T (S k) = T k + dt k) ->
  (forall len, orbit_motion (fun t => attraction (p t)) len p v) -> 0 < r -> rate2 * r ^ 3 = earth_mu -> norm3 (p 0) = r -> dot3 (p 0) (v 0) = 0 -> norm3 (v 0) ^ 2 = earth_mu / r ->
  sqrt (apart (v_pos (sv s)) (p 0) ^ 2 + apart (v_vel (sv s)) (v 0) ^ 2) <= E0 -> E0 <= 9000 ->
  forall k, let f := fed h dt (fun k => p (T k)) (fun k => v (T k)) (pf_init s) k in
    apart (e_pos f) (p (T k)) <= 10.06 * 0.998 ^ k * E0 + 0.45 /\ (k <> O -> apart (e_vel f) (v (T k)) <= 0.5204 * 0.998 ^ k * E0 + 0.025).
Proof.
  intros s h dt T p v r E0 HT T0 TS OM R0 HR HP HO HV HE E9 k. assert (PA := pfa_val). change pf_a with rate2 in PA.
  assert (R1 : 6600000 <= r <= 6800000).
  { unfold earth_mu in HR. split; apply Rnot_lt_le; intros L.
    - assert (r ^ 3 <= 6600000 ^ 3) by (apply pow_incr; lra). rewrite PA in HR. lra.
    - assert (6800000 ^ 3 <= r ^ 3) by (apply pow_incr; lra). rewrite PA in HR. lra. }
  assert (Z : rate2 - earth_mu / r ^ 3 = 0) by (rewrite <- HR; field; lra). assert (SLF : forall x, apart x x <= 0). { intros x. unfold apart. rewrite sub3_self. unfold norm3, dot3, zero3. cbn [x3 y3 z3]. rnumg. replace (0 * 0 + 0 * 0 + 0 * 0) with 0 by ring. rewrite sqrt_0. lra. }
  assert (G := C113_orbit s h dt T p v r (fun k => p (T k)) (fun k => v (T k)) E0 0 0 HT T0 TS OM ltac:(lra) HP HO HV HE E9 ltac:(intros j; split; apply SLF)). cbv zeta in G. rewrite Z, Rabs_R0 in G. specialize (G ltac:(lra) k).
  assert (P : 0 < 0.998 ^ k) by (apply pow_lt; lra). assert (P1 : 0.998 ^ k <= 1) by (rewrite <- (pow1 k); apply pow_incr; lra). unfold settling in G. set (z := 0.998 ^ k) in *.
  assert (B : (1 - z) * (500 * (r * (22.8 * 0 + 1.25 / 10 ^ 11) + 0.1 * 0 + 2 * 0)) <= 1 * 0.0427) by (apply Rmult_le_compat; lra). destruct G as [G1 G2]. split; [lra|]. intros NZ. specialize (G2 NZ). lra.
Qed.
Print Assumptions C113_design.

(** ** A hundred kilometres higher, with exact fixes and even from an exact start: never within 15 m and 2 m/s for a minute *)
Theorem C113_altitude_refuted : forall s h p v r E0 N,
  (forall len, orbit_motion (fun t => attraction (p t)) len p v) -> 6870000 <= r <= 6950000 -> norm3 (p 0) = r -> dot3 (p 0) (v 0) = 0 -> norm3 (v 0) ^ 2 = earth_mu / r ->
  sqrt (apart (v_pos (sv s)) (p 0) ^ 2 + apart (v_vel (sv s)) (v 0) ^ 2) <= E0 -> E0 <= 9000 -> (150 <= N)%nat ->
  exists k, (N <= k <= N + 60)%nat /\ let f := fed h (fun _ => 1) (fun k => p (INR k)) (fun k => v (INR k)) (pf_init s) k in
    15 < apart (e_pos f) (p (INR k)) \/ 2 < apart (e_vel f) (v (INR k)).
Proof.
  intros s h p v r E0 N OM HR HP HO HV HE E9 HN.
  destruct (orbit_is_circ p v r 0 ltac:(lra) HP HO HV (OM 0) ltac:(lra)) as (W0 & W3 & HV' & _). set (w := sqrt (earth_mu / r ^ 3)) in *.
  assert (CI : forall k, mk6 (p (INR k)) (v (INR k)) = circ w (p 0) (v 0) (INR k)). { intros k. assert (IN := pos_INR k). destruct (orbit_is_circ p v r (INR k) ltac:(lra) HP HO HV (OM _) IN) as (_ & _ & _ & C). apply C. lra. }
  assert (HE' : let e := sub6 (p_x (pf_init s)) (circ w (p 0) (v 0) (INR 0)) in sqrt (dot6 e e) <= E0). { cbv zeta. rewrite <- CI. eapply Rle_trans; [|exact HE]. right. f_equal. unfold dot6, pf_init, apart. cbn [p_x u1 u2 sub6 INR]. rewrite <- !norm3_dot. ring. }
  destruct (bias s h w (p 0) (v 0) r E0 N W0 W3 HR HO HV' HP HE' E9 HN) as (k & Hk & B). exists k. split; [exact Hk|]. cbv zeta. rewrite fed_V.
  assert (SAME : forall j, fedV h (fun _ => 1) (fun k => circ w (p 0) (v 0) (INR k)) (pf_init s) j = fedV h (fun _ => 1) (fun k => mk6 (p (INR k)) (v (INR k))) (pf_init s) j).
  { induction j as [|j IH]; [reflexivity|]. cbn [fedV]. rewrite IH, CI. reflexivity. }
  rewrite SAME, <- CI in B. exact B.
Qed.
Print Assumptions C113_altitude_refuted.

(** circular motions of both radii exist: the hypotheses of all four theorems can be met, also with a wrong start *)
Lemma circle_motion r : 0 < r -> exists p v, (forall len, orbit_motion (fun t => attraction (p t)) len p v) /\ norm3 (p 0) = r /\ dot3 (p 0) (v 0) = 0 /\ norm3 (v 0) ^ 2 = earth_mu / r.
Proof.
  intros R0. assert (M0 : 0 < earth_mu) by (unfold earth_mu; lra). assert (R3 : 0 < r ^ 3) by (apply pow_lt; exact R0). set (w := sqrt (earth_mu / r ^ 3)). assert (W0 : 0 < w) by (apply sqrt_lt_R0, Rdiv_lt_0_compat; assumption).
  assert (WW : w * w = earth_mu / r ^ 3) by (apply sqrt_sqrt; left; apply Rdiv_lt_0_compat; assumption).
  set (p0 := mk3 r 0 0 : v3). set (v0 := mk3 0 (w * r) 0 : v3).
  assert (N0 : norm3 p0 = r) by (unfold norm3, dot3, p0; cbn [x3 y3 z3]; rnumg; replace (r * r + 0 * 0 + 0 * 0) with (Rsqr r) by (unfold Rsqr; ring); apply sqrt_Rsqr; lra).
  assert (HO : dot3 p0 v0 = 0) by (unfold p0, v0, dot3; cbn [x3 y3 z3]; rnumg; ring). assert (HV : dot3 v0 v0 = w * w * dot3 p0 p0) by (unfold p0, v0, dot3; cbn [x3 y3 z3]; rnumg; ring).
  assert (H00 : circ w p0 v0 0 = mk6 p0 v0). { unfold circ. rewrite Rmult_0_r, cos_0, sin_0. unfold p0, v0, add3, scale3. cbn [x3 y3 z3]. rnumg. f_equal; apply mk3_c; field; lra. }
  exists (fun t => u1 (circ w p0 v0 t)), (fun t => u2 (circ w p0 v0 t)). cbv beta. rewrite H00. cbn [u1 u2]. split; [|split; [exact N0|split; [exact HO|]]].
  - intros len t _. destruct (circ_deriv w p0 v0 t ltac:(lra)) as [A B]. split; [exact A|]. cbv beta. unfold attraction. destruct (circ_size w p0 v0 t ltac:(lra) HO HV) as (S1 & _).
    assert (N : norm3 (u1 (circ w p0 v0 t)) = r). { rewrite <- N0. unfold norm3. rewrite S1. reflexivity. } rewrite N, <- WW. exact B.
  - replace (norm3 v0 ^ 2) with (norm3 v0 * norm3 v0) by ring. rewrite norm3_dot, HV, WW, <- norm3_dot, N0. field. lra.
Qed.
Example C113_ex : exists s p v r s' p' v', rate2 * r ^ 3 = earth_mu /\ 0 < r /\ (forall len, orbit_motion (fun t => attraction (p t)) len p v) /\ norm3 (p 0) = r /\ dot3 (p 0) (v 0) = 0 /\ norm3 (v 0) ^ 2 = earth_mu / r /\
  sqrt (apart (v_pos (sv s)) (p 0) ^ 2 + apart (v_vel (sv s)) (v 0) ^ 2) = 50 /\
  (forall len, orbit_motion (fun t => attraction (p' t)) len p' v') /\ norm3 (p' 0) = 6900000 /\ dot3 (p' 0) (v' 0) = 0 /\ norm3 (v' 0) ^ 2 = earth_mu / 6900000 /\ v_pos (sv s') = p' 0 /\ v_vel (sv s') = v' 0.
Proof.
  assert (PM : 0 < earth_mu / rate2) by (unfold earth_mu, rate2; lra). set (r := Rpower (earth_mu / rate2) (/ 3)). assert (R0 : 0 < r) by apply exp_pos.
  assert (RC : r ^ 3 = earth_mu / rate2). { rewrite <- (Rpower_pow 3 r R0). unfold r. rewrite Rpower_mult. replace (/ 3 * INR 3) with 1 by (cbn [INR]; field). apply Rpower_1. exact PM. }
  destruct (circle_motion r R0) as (p & v & OM & A & B & C). destruct (circle_motion 6900000 ltac:(lra)) as (p' & v' & OM' & A' & B' & C').
  set (st := fun a b => mkSS (mkSV a b (v_att (sv ex_state)) (v_rate (sv ex_state)) (v_whl (sv ex_state))) (clk ex_state) id3 zero3 r 0 0 400000).
  exists (st (add3 (p 0) (mk3 30 0 0)) (add3 (v 0) (mk3 0 40 0))), p, v, r, (st (p' 0) (v' 0)), p', v'.
  split; [rewrite RC; field; unfold rate2; lra|]. repeat (split; [assumption|]). split; [|repeat (split; [assumption|]); split; reflexivity].
  cbn [st sv v_pos v_vel]. unfold apart. replace (sub3 (add3 (p 0) (mk3 30 0 0)) (p 0)) with (mk3 30 0 0 : v3) by (clear; vring). replace (sub3 (add3 (v 0) (mk3 0 40 0)) (v 0)) with (mk3 0 40 0 : v3) by (clear; vring).
  replace (norm3 (mk3 30 0 0) ^ 2) with (norm3 (mk3 30 0 0) * norm3 (mk3 30 0 0)) by ring. replace (norm3 (mk3 0 40 0) ^ 2) with (norm3 (mk3 0 40 0) * norm3 (mk3 0 40 0)) by ring. rewrite !norm3_dot. unfold dot3. cbn [x3 y3 z3]. rnumg.
  replace (30 * 30 + 0 * 0 + 0 * 0 + (0 * 0 + 40 * 40 + 0 * 0)) with (50 * 50) by ring. apply sqrt_square. lra.
Qed.
