(** * Lemmas: a bound on the true rotation, and the error of the simulated one *)
From Coq Require Import Reals ZArith List Bool Arith Lra Psatz Lia.
From Verif Require Import Num Vec M_vector M_quaternion M_jday M_frame M_struct M_env M_dyn M_sensor M_integ.
From Verif Require Import S_rot S_integ S_dyn S_rk P_quat P_wheel P_integ2 P_dyn P_rk P_rk2 P_rk3.
Import ListNotations.
Local Open Scope R_scope.

Lemma unit_nq q : unitq q -> nq q <= 4.
Proof. intros U. assert (K := nq_normq q). unfold unitq in U. unfold normq in K. rewrite U in K. revert K. rnumg. rewrite sqrt_1. lra. Qed.
Lemma nq_conj q : nq (conjugate q) = nq q.
Proof. destruct q as [a b c d]. unfold conjugate, nq. vunfoldg. rnumg. rewrite !Rabs_Ropp. reflexivity. Qed.
Lemma vec_nq (q : quat) : n1 (vec q) <= nq q.
Proof. destruct q as [a b c d]. unfold n1, nq. vunfoldg. assert (A := Rabs_pos a). lra. Qed.
Lemma pure_nq v : nq (pure v) = n1 v.
Proof. destruct v as [a b c]. unfold n1, nq, pure. vunfoldg. rnumg. rewrite Rabs_R0. ring. Qed.
Lemma n1_turn a b v : nq a <= 4 -> nq b <= 4 -> nq (product a (product (pure v) b)) <= 16 * n1 v.
Proof.
  intros A B. assert (P := n1_pos v). assert (PA := nq_pos a). assert (PB := nq_pos b). eapply Rle_trans; [apply nq_product|]. assert (K := nq_product (pure v) b). rewrite pure_nq in K.
  apply Rle_trans with (4 * (n1 v * 4)); [|lra]. apply Rmult_le_compat; try assumption; [apply nq_pos|]. eapply Rle_trans; [exact K|]. apply Rmult_le_compat_l; assumption.
Qed.
Lemma n1_sandwich q v : unitq q -> n1 (sandwich q v) <= 16 * n1 v.
Proof. intros U. assert (Q := unit_nq q U). unfold sandwich. eapply Rle_trans; [apply vec_nq|]. apply n1_turn; [rewrite nq_conj; exact Q|exact Q]. Qed.
Lemma n1_sandwich_opp q v : unitq q -> n1 (sandwich_opp q v) <= 16 * n1 v.
Proof. intros U. assert (Q := unit_nq q U). unfold sandwich_opp. eapply Rle_trans; [apply vec_nq|]. apply n1_turn; rewrite ?nq_conj; exact Q. Qed.
Lemma lipschitz f f' B t : 0 <= t -> (forall s, 0 <= s <= t -> derivable_pt_lim f s (f' s)) -> (forall s, 0 <= s <= t -> Rabs (f' s) <= B) -> Rabs (f t) <= Rabs (f 0) + t * B.
Proof.
  intros T D K. destruct (Req_dec t 0) as [->|N]; [rewrite Rmult_0_l; lra|]. destruct (MVT_cor2 f f' 0 t ltac:(lra) D) as (c & E & Hc). rewrite Rminus_0_r in E.
  replace (f t) with (f 0 + f' c * t) by lra. eapply Rle_trans; [apply Rabs_triang|]. rewrite Rabs_mult, (Rabs_pos_eq t) by lra. assert (K' := K c ltac:(lra)). apply Rplus_le_compat_l. rewrite Rmult_comm. apply Rmult_le_compat_l; lra.
Qed.
Lemma lipschitz3 (f f' : R -> v3) B t : 0 <= t -> (forall s, 0 <= s <= t -> deriv3 f s (f' s)) -> (forall s, 0 <= s <= t -> n1 (f' s) <= B) -> n1 (f t) <= n1 (f 0) + 3 * (t * B).
Proof.
  intros T D K. assert (P : forall s, 0 <= s <= t -> Rabs (x3 (f' s)) <= B /\ Rabs (y3 (f' s)) <= B /\ Rabs (z3 (f' s)) <= B). { intros s Hs. assert (E := K s Hs). revert E. unfold n1. absb. assert (Q1 := Rabs_pos (x3 (f' s))). assert (Q2 := Rabs_pos (y3 (f' s))). assert (Q3 := Rabs_pos (z3 (f' s))). lra. }
  assert (A1 := lipschitz (fun s => x3 (f s)) (fun s => x3 (f' s)) B t T (fun s Hs => proj1 (D s Hs)) (fun s Hs => proj1 (P s Hs))).
  assert (A2 := lipschitz (fun s => y3 (f s)) (fun s => y3 (f' s)) B t T (fun s Hs => proj1 (proj2 (D s Hs))) (fun s Hs => proj1 (proj2 (P s Hs)))).
  assert (A3 := lipschitz (fun s => z3 (f s)) (fun s => z3 (f' s)) B t T (fun s Hs => proj2 (proj2 (D s Hs))) (fun s Hs => proj2 (proj2 (P s Hs)))). cbv beta in *. unfold n1. lra.
Qed.
Lemma spun_n1 sat u a t : length u = length a -> 0 <= t -> n1 (spun (rw_wheels (s_rw sat)) u a t) <= n1 (rw_momentum (s_rw sat) u) + t * n1 (rw_torque (s_rw sat) a).
Proof.
  intros HL T. rewrite spun_lin by exact HL. unfold rw_momentum, rw_torque. eapply Rle_trans; [apply n1_add|]. rewrite n1_scale, (Rabs_pos_eq t T). lra.
Qed.
Lemma motion_bound sat u a tau len q w B t : det3 (s_total_moment sat) <> 0 -> length u = length a -> rigid_motion sat u a tau len q w -> 0 <= t <= len -> (forall s, 0 <= s <= len -> n1 (tau s) <= B) ->
  n1 (w t) <= nm (s_inv_tot sat) * (16 * (16 * (nm (s_total_moment sat) * n1 (w 0) + n1 (rw_momentum (s_rw sat) u)) + 3 * (len * (16 * B))) + (n1 (rw_momentum (s_rw sat) u) + len * n1 (rw_torque (s_rw sat) a))).
Proof.
  intros DJ HL (U & HM) Ht HB. set (J := s_total_moment sat) in *. set (H := spun (rw_wheels (s_rw sat)) u a) in *. set (H0 := n1 (rw_momentum (s_rw sat) u)). set (Tw := n1 (rw_torque (s_rw sat) a)).
  assert (PW : 0 <= Tw) by apply n1_pos. assert (B0 : 0 <= B) by (eapply Rle_trans; [apply n1_pos|apply (HB t Ht)]).
  set (L := fun s => sandwich_opp (q s) (add3 (mv J (w s)) (H s))).
  assert (LT : n1 (L t) <= n1 (L 0) + 3 * (t * (16 * B))).
  { apply (lipschitz3 L (fun s => sandwich_opp (q s) (tau s)) (16 * B) t (proj1 Ht)); intros s Hs.
    - apply HM; lra.
    - eapply Rle_trans; [apply n1_sandwich_opp, U|]. assert (K := HB s ltac:(lra)). lra. }
  assert (H00 : H 0 = rw_momentum (s_rw sat) u). { unfold H. rewrite spun_lin by exact HL. unfold rw_momentum. generalize (sum3 (zip_with w_momentum (rw_wheels (s_rw sat)) u)) (sum3 (zip_with w_torque (rw_wheels (s_rw sat)) a)). clear. intros. vring. }
  assert (L0 : n1 (L 0) <= 16 * (nm J * n1 (w 0) + H0)).
  { unfold L. eapply Rle_trans; [apply n1_sandwich_opp, U|]. apply Rmult_le_compat_l; [lra|]. eapply Rle_trans; [apply n1_add|]. rewrite H00. assert (K := n1_mv J (w 0)). unfold H0. lra. }
  assert (HT := spun_n1 sat u a t HL (proj1 Ht)). fold H in HT. fold H0 in HT. fold Tw in HT.
  assert (E : w t = mv (s_inv_tot sat) (sub3 (sandwich (q t) (L t)) (H t))).
  { unfold L. rewrite sandwich_sandwich_opp by apply U. unfold s_inv_tot. fold J. rewrite <- (inv3_mv J (w t) DJ) at 1. f_equal. generalize (mv J (w t)) (H t). clear. intros. vring. }
  rewrite E. eapply Rle_trans; [apply n1_mv|]. apply Rmult_le_compat_l; [apply nm_pos|]. eapply Rle_trans; [apply n1_sub|].
  assert (K := n1_sandwich (q t) (L t) (U t)).
  assert (T1 : t * (16 * B) <= len * (16 * B)) by (apply Rmult_le_compat_r; lra). assert (T2 : t * Tw <= len * Tw) by (apply Rmult_le_compat_r; lra). lra.
Qed.

(** ** the error *)
Lemma sub_n1 a b : n1 (add3 a (scale3 (-1) b)) = n1 (sub3 a b).
Proof. f_equal. vring. Qed.
Lemma sub_nq a b : nq (addq a (scaleq (-1) b)) = nq (subq a b).
Proof. f_equal. qring. Qed.
Lemma toX_sub sat a u q w v t : length u = length a -> v_whl v = zip_with (fun x y => x + t * y) u a ->
  nx (xsub (toX sat v) (trueX sat u a q w t)) = nq (subq (v_att v) (q t)) + n1 (sub3 (v_rate v) (w t)).
Proof.
  intros HL HV. unfold xsub, xadd, xscale, toX, trueX, nx. cbn [xq xw xh xo]. rewrite sub_nq, !sub_n1.
  assert (E : rw_momentum (s_rw sat) (v_whl v) = spun (rw_wheels (s_rw sat)) u a t).
  { unfold rw_momentum. rewrite HV. clear HV v. generalize (rw_wheels (s_rw sat)). clear sat q w. intros ws. revert u a HL. induction ws as [|x ws IH]; intros [|y u] [|z a] HL; try discriminate; try reflexivity.
    cbn [zip_with spun sum3 fold_right]. unfold sum3 in IH. rewrite IH by (injection HL; auto). f_equal. unfold w_momentum. generalize (w_par x) (w_axis x). clear. intros k [n1 n2 n3]. vunfoldg; rnumg; apply mk3_c; ring. }
  rewrite E. replace (sub3 (spun (rw_wheels (s_rw sat)) u a t) (spun (rw_wheels (s_rw sat)) u a t)) with (mk3 0 0 0) by (generalize (spun (rw_wheels (s_rw sat)) u a t); clear; intros [x y z]; vunfoldg; rnumg; apply mk3_c; ring).
  unfold n1 at 2. cbn [x3 y3 z3]. replace (1 + -1 * 1) with 0 by ring. rewrite Rabs_R0. ring.
Qed.
Lemma pow4_le h : 0 < h <= 1 -> 0 <= h ^ 4 <= h.
Proof. intros H. split; [apply pow_le; lra|]. assert (h ^ 3 <= 1) by (replace 1 with (1 ^ 3) by ring; apply pow_incr; lra). replace (h ^ 4) with (h * h ^ 3) by ring. nra. Qed.

Lemma simulated sat (T0 : v3) a len M : det3 (s_total_moment sat) <> 0 -> 0 <= len -> 0 <= M -> exists C r, 0 < C /\ 0 < r /\
  forall u tau q w eta delta f stream dt N wd wd',
  0 < dt <= r -> 0 <= eta <= r -> 0 <= delta <= r -> INR N * dt <= len -> length u = length a ->
  rigid_motion sat u a tau len q w -> norm3 (w 0) <= M -> norm3 (rw_momentum (s_rw sat) u) <= M ->
  (forall t, 0 <= t <= len -> norm3 (sub3 (tau t) T0) <= delta) ->
  (forall h s d, f h s = Ok d -> exists T Fo, norm3 (sub3 T T0) <= delta /\ d = derivative sat (sv s) Fo T (rw_torque (s_rw sat) a) (rw_momentum (s_rw sat) (v_whl (sv s))) a) ->
  v_whl (sv (w_state wd)) = u -> unitq (v_att (sv (w_state wd))) -> normq (subq (v_att (sv (w_state wd))) (q 0)) <= eta -> norm3 (sub3 (v_rate (sv (w_state wd))) (w 0)) <= eta ->
  updates f stream true dt N wd = Ok wd' ->
  unitq (v_att (sv (w_state wd'))) /\
  normq (subq (v_att (sv (w_state wd'))) (q (INR N * dt))) <= C * (eta + dt ^ 4 + delta) /\
  norm3 (sub3 (v_rate (sv (w_state wd'))) (w (INR N * dt))) <= C * (eta + dt ^ 4 + delta) /\
  v_whl (sv (w_state wd')) = zip_with (fun x y => x + INR N * dt * y) u a.
Proof.
  intros DJ HLen HM. set (J := s_total_moment sat). set (Ji := s_inv_tot sat). set (Tw := rw_torque (s_rw sat) a). set (B := n1 T0 + 3).
  set (Mw := nm Ji * (16 * (16 * (nm J * (3 * M) + 3 * M) + 3 * (len * (16 * B))) + (3 * M + len * n1 Tw))). set (MX := 4 + Mw + (3 * M + len * n1 Tw) + 1).
  assert (PJ := nm_pos J). assert (PI := nm_pos Ji). assert (PT := n1_pos Tw). assert (PB : 0 <= B) by (unfold B; assert (K := n1_pos T0); lra).
  assert (PTl : 0 <= len * n1 Tw) by (apply Rmult_le_pos; assumption). assert (PBl : 0 <= len * (16 * B)) by (apply Rmult_le_pos; lra). assert (PJM : 0 <= nm J * (3 * M)) by (apply Rmult_le_pos; lra).
  assert (PMw : 0 <= Mw) by (apply Rmult_le_pos; lra).
  set (Bs := bf J Ji (sub3 T0 Tw) Tw).
  destruct (run_error Bs (bb J Ji (sub3 T0 Tw) Tw) (bb_pos J Ji _ _) (bf_sym J Ji _ _) (fun u v w => bf_add_l J Ji _ _ u v w) (fun r u w => bf_scale_l J Ji _ _ r u w) (bf_le J Ji _ _) (bf_orth J Ji _ _) MX len ltac:(unfold MX; lra) HLen) as (C & h0 & PC & Hh0 & HR).
  set (K := 7 + 3 * nm Ji). set (CC := C * K). assert (PK : 7 <= K) by (unfold K; lra). assert (PCC : 0 < CC) by (apply Rmult_lt_0_compat; lra).
  exists CC, (Rmin h0 (/ (3 * CC))). assert (PI3 : 0 < / (3 * CC)) by (apply Rinv_0_lt_compat; lra).
  split; [exact PCC|]. split; [apply Rmin_pos; lra|].
  intros u tau q w eta delta f stream dt N wd wd' Hdt Heta Hdel HN HL RM W0 U0 HT HF EU UQ EQ EW UP.
  assert (R1 := Rmin_l h0 (/ (3 * CC))). assert (R2 := Rmin_r h0 (/ (3 * CC))). assert (P4 := pow4_le dt ltac:(lra)).
  assert (SM : CC * (eta + dt ^ 4 + delta) <= 1). { apply Rle_trans with (CC * (3 * / (3 * CC))); [apply Rmult_le_compat_l; lra|]. right. field. lra. }
  destruct (updates_run sat a T0 f stream dt (3 * delta) N) with (w := wd) (w' := wd') as [RR WW].
  { intros h s d Hd. destruct (HF h s d Hd) as (T & Fo & HTT & ->). exists T, Fo. split; [|reflexivity]. assert (NN := n1_norm3 (sub3 T T0)). lra. }
  { rewrite EU. exact HL. } { exact UP. }
  fold J Ji Tw in RR. fold Bs in RR. rewrite EU in WW.
  assert (TB : forall s, 0 <= s <= len -> n1 (tau s) <= B).
  { intros s Hs. replace (tau s) with (add3 (sub3 (tau s) T0) T0) by (clear; destruct (tau s) as [a1 a2 a3], T0 as [b1 b2 b3]; vunfoldg; rnumg; apply mk3_c; ring). eapply Rle_trans; [apply n1_add|]. assert (K1 := n1_norm3 (sub3 (tau s) T0)). assert (K2 := HT s Hs). unfold B. lra. }
  assert (N0 := n1_norm3 (w 0)). assert (N1 := n1_norm3 (rw_momentum (s_rw sat) u)).
  assert (X0 : nx (xsub (toX sat (sv (w_state wd))) (trueX sat u a q w 0)) <= 7 * eta).
  { rewrite (toX_sub sat a u q w _ 0 HL). - assert (K1 := nq_normq (subq (v_att (sv (w_state wd))) (q 0))). assert (K2 := n1_norm3 (sub3 (v_rate (sv (w_state wd))) (w 0))). lra.
    - rewrite EU. clear - HL. revert a HL. induction u as [|x u IH]; intros [|y a] HL; try discriminate; [reflexivity|]. cbn [zip_with]. f_equal; [ring|]. apply IH. injection HL; auto. }
  assert (KE : C * (nx (xsub (toX sat (sv (w_state wd))) (trueX sat u a q w 0)) + dt ^ 4 + nm Ji * (3 * delta)) <= CC * (eta + dt ^ 4 + delta)).
  { unfold CC. rewrite Rmult_assoc. apply Rmult_le_compat_l; [lra|]. apply Rle_trans with (7 * eta + dt ^ 4 + nm Ji * (3 * delta)); [lra|]. unfold K.
    assert (0 <= nm Ji * eta) by (apply Rmult_le_pos; lra). assert (0 <= nm Ji * dt ^ 4) by (apply Rmult_le_pos; lra). lra. }
  destruct (HR (trueX sat u a q w) (distX sat T0 tau) dt (nm Ji * (3 * delta)) N (toX sat (sv (w_state wd))) (toX sat (sv (w_state wd')))) as (UQ' & ER).
  { lra. } { apply Rmult_le_pos; lra. } { exact HN. } { lra. }
  { intros s Hs. split; [|split].
    - assert (MB := motion_bound sat u a tau len q w B s DJ HL RM Hs TB). fold J Ji Tw in MB.
      assert (MW : n1 (w s) <= Mw). { eapply Rle_trans; [exact MB|]. unfold Mw. apply Rmult_le_compat_l; [exact PI|]. assert (nm J * n1 (w 0) <= nm J * (3 * M)) by (apply Rmult_le_compat_l; lra). lra. }
      assert (SB := spun_n1 sat u a s HL (proj1 Hs)). fold Tw in SB. assert (s * n1 Tw <= len * n1 Tw) by (apply Rmult_le_compat_r; lra).
      assert (QB := unit_nq (q s) (proj1 RM s)). unfold nx, trueX, MX. cbn [xq xw xh xo]. rewrite Rabs_R1. lra.
    - unfold nx, distX. cbn [xq xw xh xo]. fold Ji. assert (K1 := n1_mv Ji (sub3 (tau s) T0)). assert (K2 := n1_norm3 (sub3 (tau s) T0)). assert (K3 := HT s Hs).
      assert (K4 : nm Ji * n1 (sub3 (tau s) T0) <= nm Ji * (3 * delta)) by (apply Rmult_le_compat_l; lra).
      assert (Z1 : nq (mkq 0 0 0 0) = 0) by (unfold nq; cbn [qw qx qy qz]; rewrite Rabs_R0; ring). assert (Z2 : n1 zero3 = 0) by (unfold n1, zero3; cbn [x3 y3 z3]; rnumg; rewrite Rabs_R0; ring). rewrite Z1, Z2, Rabs_R0. lra.
    - exact (motion_X sat u a T0 tau len q w s DJ HL RM Hs). }
  { exact UQ. } { exact RR. }
  rewrite (toX_sub sat a u q w _ (INR N * dt) HL WW) in ER. assert (ER' := Rle_trans _ _ _ ER KE).
  assert (G1 := normq_nq (subq (v_att (sv (w_state wd'))) (q (INR N * dt)))). assert (G2 := norm3_n1 (sub3 (v_rate (sv (w_state wd'))) (w (INR N * dt)))).
  assert (G3 := nq_pos (subq (v_att (sv (w_state wd'))) (q (INR N * dt)))). assert (G4 := n1_pos (sub3 (v_rate (sv (w_state wd'))) (w (INR N * dt)))).
  split; [exact UQ'|]. split; [lra|]. split; [lra|]. exact WW.
Qed.
