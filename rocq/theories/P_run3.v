(** * Lemmas: a whole simulated flight succeeds and follows the true orbit *)
From Coq Require Import Reals ZArith List Bool Arith Lra Psatz Lia.
From Flocq Require Import Core.
From Verif Require Import Num Vec M_vector M_quaternion M_jday M_frame M_struct M_env M_dyn M_sensor M_integ.
From Verif Require Import S_rot S_integ S_dyn S_frame S_orb P_quat P_wheel P_integ2 P_dyn P_frame P_struct P_rk P_rk2 P_rk3 P_rk4 P_lla6 P_tot1 P_tot2 P_tot3 P_orb3 P_orb4 P_orb5 P_run1 P_run2 Props_tot.
Import ListNotations.
Local Open Scope R_scope.

Lemma near_box_box sat V W H v : near_box sat V W H v -> box sat (3 * (V + 2)) 6 (3 * (W + 1)) H v.
Proof.
  intros (P & A & Q & B & M). assert (X := n1_norm3 (v_vel v)). assert (Y := n1_norm3 (v_rate v)). assert (Z := nq_normq (v_att v)). unfold box. split; [lra|]. split; [lra|]. split; [lra|]. split; [lra|exact M].
Qed.
Lemma norm_gap3 (a b : v3) : norm3 b - n1 (sub3 a b) <= norm3 a <= norm3 b + n1 (sub3 a b).
Proof. assert (X := norm3_gap a b). apply Rabs_le_inv in X. lra. Qed.
Lemma sq_le a b : 0 <= a -> 0 <= b -> a * a <= b * b -> a <= b.
Proof. intros A B C. destruct (Rle_lt_dec a b) as [X|X]; [exact X|]. assert (b * b < a * a) by (apply Rmult_le_0_lt_compat; lra). lra. Qed.
Lemma pow4_le x r : 0 <= x <= r -> r <= 1 -> x ^ 4 <= r.
Proof. intros X R1. assert (A : 0 <= x * x <= 1) by nra. replace (x ^ 4) with (x * x * (x * x)) by ring. assert (x * x * (x * x) <= 1 * (x * x)) by (apply Rmult_le_compat_r; lra). assert (x * x <= 1 * x) by (apply Rmult_le_compat_r; lra). lra. Qed.

Section Run.
Context (hi_fi : bool) (sat : Satellite) (mt : list (Torquer R)) (cur accl : list R) (m : v3) (lo hi V Wm H0 D Tb j mar len delta r C E0 : R).
Local Notation J := (s_total_moment sat).
Local Notation Tw := (n1 (rw_torque (s_rw sat) accl)).
Local Notation H := (H0 + len * Tw + Tw).
Context (EM : sys_actuate mt cur = Ok m) (LA : (length (rw_wheels (s_rw sat)) <= length accl)%nat).
Context (M0 : 0 < mar <= 1 / 2) (LO : 6628138 <= lo - mar - mar) (HI : hi + mar + mar <= 6856752) (D1 : 1 <= D) (V0 : 0 <= V) (L0 : 0 <= len) (J0 : 0 < j) (W1 : 0 <= Wm).
Context (DJ : det3 J <> 0) (PD : forall w : v3, j * dot3 w w <= dot3 w (mv J w)).
Context (DB : forall h s d, cached h s -> near_box sat V Wm H (sv s) -> vector_field hi_fi sat mt h s cur accl = Ok d -> small accl 1 D d).
Context (TB : forall h s F T, cached h s -> near_box sat V Wm H (sv s) -> env_F_and_T hi_fi sat h s m = Ok (F, T) -> n1 T <= Tb).
Local Notation G := (2 * gyr sat Wm H D + nm J * (D * D)).
Context (EN : E0 + len * (2 * Wm * (Tb + Tw)) + 1 <= j * (Wm * Wm)).
Context (FO : forall h s d, fresh h s -> confined sat V Wm H (fun h s => vector_field hi_fi sat mt h s cur accl) h s = Ok d -> orbits (3 * delta) (sv s) d).
(** what [orun_true] gives for the orbit *)
Context (p v : R -> v3) (dt : R) (wd : World).
Context (OR : forall n q' w', INR n * dt <= len -> orun (3 * delta) dt n (v_pos (sv (w_state wd))) (v_vel (sv (w_state wd))) q' w' ->
  n1 (sub3 q' (p (INR n * dt))) + n1 (sub3 w' (v (INR n * dt))) <= mar).
Context (PT : forall t, 0 <= t <= len -> lo <= norm3 (p t) <= hi /\ norm3 (v t) <= V).
Context (DT : 0 < dt <= 1) (DM : dt * D <= mar) (DG : 0 <= G) (DL : len * (dt * G) <= 1) (TP : 0 <= Tb + Tw).
Local Notation field := (confined sat V Wm H (fun h s => vector_field hi_fi sat mt h s cur accl)).
Local Notation w0 := (sv (w_state wd)).
Context (cc : JClock) (HC : w_store wd (clk (w_state wd)) = CJ cc) (CA : cached (w_store wd) (w_state wd)) (UQ : unitq (v_att w0)).
Context (EW : dot3 (v_rate w0) (mv J (v_rate w0)) <= E0) (MW : n1 (rw_momentum (s_rw sat) (v_whl w0)) <= H0) (LW : length (v_whl w0) = length accl).
Context (stream : nat -> v3).
Lemma run_ok N : INR N * dt <= len -> (0 <= j_us cc /\ j_us cc + Z.of_nat N * ZnearestE (dt * 1000000) < datetime_end)%Z -> forall k, (k <= N)%nat ->
  exists w, updates field stream true dt k wd = Ok w /\ w_store w (clk (w_state w)) = CJ (mkJ (j_us cc + Z.of_nat k * ZnearestE (dt * 1000000)) (j_absolute cc)) /\ cached (w_store w) (w_state w) /\
    unitq (v_att (sv (w_state w))) /\ length (v_whl (sv (w_state w))) = length accl /\ n1 (rw_momentum (s_rw sat) (v_whl (sv (w_state w)))) <= H0 + INR k * dt * Tw /\
    dot3 (v_rate (sv (w_state w))) (mv J (v_rate (sv (w_state w)))) <= E0 + INR k * dt * (2 * Wm * (Tb + Tw) + dt * G) /\
    norm3 (v_rate (sv (w_state w))) <= Wm /\ n1 (sub3 (v_pos (sv (w_state w))) (p (INR k * dt))) + n1 (sub3 (v_vel (sv (w_state w))) (v (INR k * dt))) <= mar.
Proof.
  intros HN CAL. assert (PTw : 0 <= Tw) by apply n1_pos. assert (ZP : (0 <= ZnearestE (dt * 1000000))%Z). { replace 0%Z with (ZnearestE 0) by (apply (Znearest_imp _ 0 0); rewrite Rminus_0_r, Rabs_R0; lra). apply (@Zrnd_le _ (valid_rnd_N _)). lra. }
  assert (KL : forall k, (k <= N)%nat -> 0 <= INR k * dt <= len). { intros k Hk. split; [apply Rmult_le_pos; [apply pos_INR|lra]|]. eapply Rle_trans; [|exact HN]. apply Rmult_le_compat_r; [lra|apply le_INR, Hk]. }
  assert (RATE : forall k w, (k <= N)%nat -> dot3 w (mv J w) <= E0 + INR k * dt * (2 * Wm * (Tb + Tw) + dt * G) -> norm3 w <= Wm).
  { intros k w Hk HE. apply sq_le; [apply norm3_sq|exact W1|]. rewrite (proj2 (norm3_sq w)). apply Rmult_le_reg_l with j; [exact J0|]. eapply Rle_trans; [apply PD|]. eapply Rle_trans; [exact HE|]. eapply Rle_trans; [|exact EN].
    assert (X := KL k Hk). assert (Y : 0 <= 2 * Wm * (Tb + Tw)) by (apply Rmult_le_pos; lra). assert (Y2 : 0 <= dt * G) by (apply Rmult_le_pos; lra).
    assert (INR k * dt * (2 * Wm * (Tb + Tw) + dt * G) <= len * (2 * Wm * (Tb + Tw) + dt * G)) by (apply Rmult_le_compat_r; lra). lra. }
  induction k as [|k IH]; intros Hk.
  - exists wd. cbn [updates]. split; [reflexivity|]. replace (j_us cc + Z.of_nat 0 * ZnearestE (dt * 1000000))%Z with (j_us cc) by lia. split; [rewrite HC; destruct cc; reflexivity|]. split; [exact CA|]. split; [exact UQ|]. split; [exact LW|]. change (INR 0) with 0. rewrite !Rmult_0_l, !Rplus_0_r.
    split; [exact MW|]. split; [exact EW|]. split; [apply (RATE 0%nat); [lia|]; change (INR 0) with 0; lra|]. assert (X := OR 0%nat (v_pos w0) (v_vel w0)). change (INR 0) with 0 in X. rewrite Rmult_0_l in X. apply X; [lra|]. split; reflexivity.
  - destruct (IH ltac:(lia)) as (w & UP & CK & CW & UW & LWw & MWw & EWw & RW & GP). assert (KK := KL k ltac:(lia)).
    assert (IN : within sat accl (lo - mar) (hi + mar) V Wm (H0 + len * Tw) (sv (w_state w))).
    { unfold within. destruct (PT (INR k * dt) KK) as [P1 P2]. assert (X1 := norm_gap3 (v_pos (sv (w_state w))) (p (INR k * dt))). assert (X2 := norm_gap3 (v_vel (sv (w_state w))) (v (INR k * dt))). assert (Y1 := n1_pos (sub3 (v_pos (sv (w_state w))) (p (INR k * dt)))). assert (Y2 := n1_pos (sub3 (v_vel (sv (w_state w))) (v (INR k * dt)))).
      split; [lra|]. split; [lra|]. split; [exact UW|]. split; [exact RW|]. split; [|exact LWw]. assert (INR k * dt * Tw <= len * Tw) by (apply Rmult_le_compat_r; lra). lra. }
    set (z := ZnearestE (dt * 1000000)) in *. set (ck := mkJ (j_us cc + Z.of_nat k * z) (j_absolute cc)) in *.
    destruct (update_ok1 hi_fi sat mt cur accl m (lo - mar) (hi + mar) V Wm (H0 + len * Tw) H mar D EM LA ltac:(lra) M0 ltac:(lra) ltac:(lra) D1 DB stream dt w ck) as (w' & E & CL & HC' & CA' & UQ' & NH & NL); try assumption.
    { unfold datetime_ok, ck. cbn [j_us]. assert (Z.of_nat (S k) * z <= Z.of_nat N * z)%Z by (apply Z.mul_le_mono_nonneg_r; lia). assert (0 <= Z.of_nat k * z)%Z by (apply Z.mul_nonneg_nonneg; lia). apply andb_true_intro. split; [apply Z.leb_le|apply Z.ltb_lt]; fold z; lia. }
    exists w'. assert (UP' : updates field stream true dt (S k) wd = Ok w') by (rewrite updates_snoc, UP; exact E). split; [exact UP'|].
    split. { rewrite HC'. unfold ck. cbn [j_us j_absolute]. fold z. f_equal. f_equal. lia. } split; [exact CA'|]. split; [exact UQ'|]. split; [exact NL|].
    assert (IK : INR (S k) * dt = INR k * dt + dt) by (rewrite S_INR; ring).
    split. { rewrite IK. replace ((INR k * dt + dt) * Tw) with (INR k * dt * Tw + dt * Tw) by ring. lra. }
    assert (EE : dot3 (v_rate (sv (w_state w'))) (mv J (v_rate (sv (w_state w')))) <= E0 + INR (S k) * dt * (2 * Wm * (Tb + Tw) + dt * G)).
    { destruct (update_inv _ _ _ _ _ _ E) as (next & c & HR & _ & _ & _ & _ & _ & HS & _). assert (X := rk4_energy hi_fi sat mt cur accl m V Wm H D Tb EM D1 DJ DB TB (w_store w) (w_state w) next dt CW RW ltac:(lra) HR).
      rewrite HS. unfold set_att. cbn [v_rate]. eapply Rle_trans; [exact X|]. rewrite IK. replace ((INR k * dt + dt) * (2 * Wm * (Tb + Tw) + dt * G)) with (INR k * dt * (2 * Wm * (Tb + Tw) + dt * G) + (dt * (2 * Wm * (Tb + Tw)) + dt * dt * G)) by ring. lra. }
    split; [exact EE|]. split; [exact (RATE (S k) _ Hk EE)|]. apply OR; [apply KL, Hk|]. apply (updates_orun field stream true dt (3 * delta) (S k) FO wd w' CA UP').
Qed.
End Run.
