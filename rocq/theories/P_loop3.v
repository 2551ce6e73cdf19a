(** * Lemmas: wheel speeds that carry a given momentum, and the satellite's motion built from the error coordinates *)
From Coq Require Import Reals ZArith List Bool Arith Lra Psatz Lia.
From Coquelicot Require Import Coquelicot.
From Verif Require Import Num Vec M_vector M_quaternion M_struct M_dyn M_ctrl S_rot S_dyn S_ctrl P_rk P_exist2 P_loop1.
From Verif Require Import P_quat P_wheel P_dyn P_dyn2 P_obs P_sat P_ctrl P_ctrl2 P_ctrl3 P_ctrl4 P_ctrl5 P_conv P_detum P_detum2 Props_ctrl Props_ctrl2 Props_ctrl3 Props_conv Props_detum P_dump P_dump2 Props_dump P_loop2.
Import ListNotations.
Local Open Scope R_scope.

(** ** wheels *)
Definition acc_of (s : RWS) (T : v3) : list R := zip_with w_acceleration (rw_wheels s) (rw_distribute s T).
Lemma acc_of_len s T : length (acc_of s T) = length (rw_wheels s).
Proof. unfold acc_of. apply zip_with_length. unfold rw_distribute. rewrite map_length. reflexivity. Qed.
Lemma acc_of_lin s i : exists c, forall T, nth i (acc_of s T) 0 = dot3 c T.
Proof.
  unfold acc_of, rw_distribute. cbv zeta. set (G := inv3 (rw_gram s)). generalize (rw_wheels s). intros ws. revert i. induction ws as [|w ws IH]; intros i.
  - exists zero3. intros T. cbn. destruct i; destruct T as [a b c]; vunfoldg; rnumg; ring.
  - destruct i as [|i].
    + exists (scale3 (/ w_par w) (mv (tr3 G) (w_axis w))). intros T. cbn [map zip_with nth]. unfold w_acceleration. generalize (w_axis w) (w_par w). intros [a b c] p. destruct G as [[g1 g2 g3] [g4 g5 g6] [g7 g8 g9]], T as [x y z]. vunfoldg. rnumg. unfold Rdiv. ring.
    + destruct (IH i) as (c & H). exists c. intros T. cbn [map zip_with nth]. apply H.
Qed.
Lemma acc_of_torque s T : spanning s -> rw_torque s (acc_of s T) = T.
Proof. intros [HD HP]. unfold acc_of. rewrite torque_of_accel; [apply distribute_exact, HD|exact HP|unfold rw_distribute; apply map_length]. Qed.
Definition sped (l a : list R) : list R := map (fun i => nth i l 0 + nth i a 0) (seq 0 (length l)).
Lemma sped_len l a : length (sped l a) = length l. Proof. unfold sped. rewrite map_length, seq_length. reflexivity. Qed.
Lemma sped_nth l a i : (length a <= length l)%nat -> nth i (sped l a) 0 = nth i l 0 + nth i a 0.
Proof.
  intros H. destruct (Nat.lt_ge_cases i (length l)) as [L|L].
  - unfold sped. set (f := fun i => nth i l 0 + nth i a 0). rewrite (nth_indep _ 0 (f 0%nat)) by (rewrite map_length, seq_length; exact L). rewrite map_nth, seq_nth by exact L. reflexivity.
  - rewrite !nth_overflow; [ring|lia|exact L|rewrite sped_len; exact L].
Qed.
Lemma sped_zero l a : (forall i, nth i a 0 = 0) -> sped l a = l.
Proof.
  intros H. apply nth_ext with (d := 0) (d' := 0); [apply sped_len|]. intros i Hi. rewrite sped_len in Hi. unfold sped. set (f := fun i => nth i l 0 + nth i a 0).
  rewrite (nth_indep _ 0 (f 0%nat)) by (rewrite map_length, seq_length; exact Hi). rewrite map_nth, seq_nth by exact Hi. unfold f. cbn [Nat.add]. rewrite H. ring.
Qed.
Lemma sped_momentum s l a : (length a <= length l)%nat -> rw_momentum s (sped l a) = add3 (rw_momentum s l) (rw_torque s a).
Proof.
  intros H. unfold rw_torque, rw_momentum. rewrite !(zip_msum w_momentum) by exact w_momentum_0.
  generalize 0%nat. induction (rw_wheels s) as [|w ws IH]; intros i; cbn [msum]; [clear; vunfoldg; rnumg; apply mk3_c; ring|]. rewrite IH, sped_nth by exact H.
  generalize (msum w_momentum ws (S i) l) (msum w_momentum ws (S i) a) (nth i l 0) (nth i a 0). unfold w_momentum, w_torque. generalize (w_axis w) (w_par w). clear. intros [a b c] p [x y z] [x' y' z'] u v. vunfoldg. rnumg. apply mk3_c; ring.
Qed.
(** ** antiderivatives *)
Lemma antideriv (f : R -> R) c : (forall t, continuous f t) -> exists g, g 0 = c /\ forall t, derivable_pt_lim g t (f t).
Proof.
  intros H. exists (fun t => c + RInt f 0 t). split; [change (c + RInt f 0 0 = c); rewrite RInt_point; change (@zero R_CompleteNormedModule) with 0; ring|]. intros t. eapply d_eq; [apply (derivable_pt_lim_plus (fun _ => c) (fun t => RInt f 0 t)); [apply derivable_pt_lim_const|]|apply Rplus_0_l].
  apply is_derive_Reals, (is_derive_RInt f (fun x => RInt f 0 x) 0 t); [|apply H]. exists (mkposreal 1 Rlt_0_1). intros x _. apply (RInt_correct f 0 x), (ex_RInt_continuous f 0 x). intros z _. apply H.
Qed.
Definition cont3 (F : R -> v3) : Prop := forall t, continuous (fun s => x3 (F s)) t /\ continuous (fun s => y3 (F s)) t /\ continuous (fun s => z3 (F s)) t.
Lemma antideriv3 (F : R -> v3) c : cont3 F -> exists g, g 0 = c /\ forall t, deriv3 g t (F t).
Proof.
  intros H. destruct (antideriv (fun s => x3 (F s)) (x3 c) (fun t => proj1 (H t))) as (g1 & E1 & D1). destruct (antideriv (fun s => y3 (F s)) (y3 c) (fun t => proj1 (proj2 (H t)))) as (g2 & E2 & D2). destruct (antideriv (fun s => z3 (F s)) (z3 c) (fun t => proj2 (proj2 (H t)))) as (g3 & E3 & D3).
  exists (fun t => mk3 (g1 t) (g2 t) (g3 t)). split; [rewrite E1, E2, E3; destruct c; reflexivity|]. intros t. split; [|split]; [exact (D1 t)|exact (D2 t)|exact (D3 t)].
Qed.
Lemma deriv3_cont (g g' : R -> v3) : (forall t, deriv3 g t (g' t)) -> cont3 g.
Proof. intros D t. destruct (D t) as (A & B & C). split; [|split]; [exact (d_continuous _ _ _ A)|exact (d_continuous _ _ _ B)|exact (d_continuous _ _ _ C)]. Qed.
Lemma cont3_div (F : R -> v3) m : cont3 F -> cont3 (fun t => div3 (F t) m).
Proof. intros H t. destruct (H t) as (A & B & C). unfold div3. cbn [x3 y3 z3]. rnumg. unfold Rdiv. split; [|split]; [apply (continuous_mult (fun s => x3 (F s)) (fun _ => / m))|apply (continuous_mult (fun s => y3 (F s)) (fun _ => / m))|apply (continuous_mult (fun s => z3 (F s)) (fun _ => / m))]; try assumption; apply continuous_const. Qed.
(** ** rotations *)
Lemma rej_over b v : b <> zero3 -> rej b v = over (normalize3 b) v.
Proof.
  intros N. rewrite normalize3_nz by exact N. unfold rej, over. assert (P := dpos b N). assert (S := norm3_sq b). set (m := norm3 b) in *.
  assert (E : dot3 v (scale3 (/ m) b) = / m * dot3 v b) by (clear; destruct v as [p q r], b as [a c d]; vunfoldg; rnumg; ring). rewrite E.
  replace (dot3 v b / dot3 b b) with (/ m * dot3 v b * / m). { generalize (/ m) (dot3 v b). clear. intros u x. destruct v as [p q r], b as [a c d]. vunfoldg. rnumg. apply mk3_c; ring. }
  assert (MM : m * m = dot3 b b) by (rewrite <- S; reflexivity). assert (m <> 0) by (intros Z; rewrite Z in MM; lra). rewrite <- MM. field. assumption.
Qed.
Lemma scaleq_q1 (x : quat) : product (scaleq 1 q1) x = x. Proof. revert x. qring. Qed.
Lemma pure_turn (e : quat) (w : v3) : unitq e -> product (pure w) e = product e (pure (sandwich e w)).
Proof.
  intros U. change (pure (sandwich e w)) with (mkqv 0 (sandwich e w)). rewrite <- sandwich_pure, <- product_assoc, product_conj_r, (U : dotq e e = 1), scaleq_q1. reflexivity.
Qed.
Lemma half_l (a b : quat) : product (scaleq 0.5 a) b = scaleq 0.5 (product a b). Proof. revert a b. qring. Qed.
Lemma half_r (a b : quat) : product a (scaleq 0.5 b) = scaleq 0.5 (product a b). Proof. revert a b. qring. Qed.
Lemma half_add (a : quat) (u v : v3) : addq (scaleq 0.5 (product a (pure u))) (scaleq 0.5 (product a (pure v))) = scaleq 0.5 (product a (pure (add3 v u))).
Proof. destruct a as [p q r s], u as [x y z], v as [x' y' z']. unfold product, pure. vunfoldg. rnumg. apply mkq_c; ring. Qed.
Lemma turn_product (c e : quat) (w d : v3) : unitq e -> addq (product (scaleq 0.5 (product c (pure w))) e) (product c (scaleq 0.5 (product e (pure d)))) = scaleq 0.5 (product (product c e) (pure (add3 d (sandwich e w)))).
Proof. intros U. rewrite half_l, half_r, !product_assoc, (pure_turn e w U), <- !product_assoc. apply half_add. Qed.

(** ** existence *)
(** the moment that takes the wheels' momentum towards hr with gain kap *)
Definition moment (kap : R) (hr : v3) (sat : Satellite) (B : R -> v3) (y : R -> SVec) (t : R) : v3 := mag_moment_cmd (seen B y t) (scale3 (- kap) (sub3 (held sat (y t)) hr)).
(** the field's direction turns at a bounded rate *)
Definition swings (B : R -> v3) : Prop := (forall t, B t <> zero3) /\ exists k, 0 <= k /\ forall s t, n1 (sub3 (normalize3 (B s)) (normalize3 (B t))) <= k * Rabs (s - t).
Lemma rej_sandwich (q : quat) b v : unitq q -> sandwich q (rej b v) = rej (sandwich q b) (sandwich q v).
Proof. intros U. assert (E := rej_turn q b (sandwich q v) U). rewrite sandwich_opp_sandwich in E by exact U. rewrite <- E, sandwich_sandwich_opp by exact U. reflexivity. Qed.
Lemma rej_scale b k v : rej b (scale3 k v) = scale3 k (rej b v).
Proof. unfold rej. assert (E : dot3 (scale3 k v) b / dot3 b b = k * (dot3 v b / dot3 b b)). { unfold Rdiv. rewrite <- Rmult_assoc. f_equal. destruct v as [p q r], b as [a c d]. vunfoldg. rnumg. ring. } rewrite E. generalize (dot3 v b / dot3 b b). intros x. destruct v as [p q r], b as [a c d]. vunfoldg. rnumg. apply mk3_c; ring. Qed.
Lemma s_scale (q : quat) k v : sandwich q (scale3 k v) = scale3 k (sandwich q v).
Proof. destruct q as [p r s u], v as [x y z]. unfold sandwich, product, conjugate, pure, vec. vunfoldg. rnumg. apply mk3_c; ring. Qed.
Lemma s_sub (q : quat) u v : unitq q -> sandwich q (sub3 u v) = sub3 (sandwich q u) (sandwich q v).
Proof.
  intros U. destruct (sandwich_rigid q U) as (_ & _ & R3 & R4). assert (E : sub3 u v = add3 u (scale3 (-1) v)) by (clear; revert u v; vring). rewrite E, R3, R4. generalize (sandwich q u) (sandwich q v). clear. vring.
Qed.

Lemma va1 (a b : v3) : add3 (sub3 a b) b = a. Proof. revert a b. vring. Qed.
Lemma va2 (a b : v3) : sub3 (add3 a b) a = b. Proof. revert a b. vring. Qed.
Lemma va3 (a b : v3) : add3 a (sub3 b a) = b. Proof. revert a b. vring. Qed.
Lemma va4 (p g d c : v3) : add3 (sub3 p g) (add3 zero3 (cross3 c d)) = sub3 (sub3 p g) (cross3 (add3 d c) c). Proof. revert p g d c. vring. Qed.
Lemma va5 (z j r n : v3) : sub3 z (sub3 (add3 j r) n) = sub3 (sub3 (add3 z n) j) r. Proof. revert z j r n. vring. Qed.
Lemma va6 (m b j h o k : v3) : sub3 (add3 (cross3 m b) (cross3 (add3 j h) o)) k = opp3 (add3 (add3 (cross3 o (add3 j h)) k) (cross3 b m)). Proof. revert m b j h o k. vring. Qed.
Lemma va8 (a b : v3) : sub3 (add3 a b) b = a. Proof. revert a b. vring. Qed.
Lemma va9 (m b j h o k : v3) : sub3 (sub3 (cross3 m b) (opp3 (add3 (add3 (cross3 o (add3 j h)) k) (cross3 b m)))) (cross3 o (add3 h j)) = k. Proof. revert m b j h o k. vring. Qed.
Lemma dot_self0 (c x : v3) : dot3 c (sub3 x x) = 0. Proof. revert c x. vring. Qed.
Lemma va10 (c h x : v3) x' : 0 + (dot3 zero3 x + dot3 c (sub3 h zero3)) = x' -> dot3 c h = x'. Proof. intros <-. destruct c as [c1 c2 c3], h as [h1 h2 h3], x as [y1 y2 y3]. vunfoldg. rnumg. ring. Qed.

Section BUILD.
Variables (w : WhlCtl) (f : v3 -> v3) (kap : R) (hr : v3) (B : R -> v3) (qc : R -> quat) (wc : v3) (F : R -> v3) (v0 : SVec).
Let sat := wc_sat w.
Let J := s_total_moment sat.
Let tr := wc_trig w.
Hypothesis A : 0 < wc_alpha w.
Hypothesis G : 0 < wc_gamma w.
Hypothesis HW : 0 < tr_hw tr < 1.
Hypothesis PM : pm1 (tr_mem tr).
Hypothesis HS : wc_sun w = Some f.
Hypothesis HZ : zone_free w.
Hypothesis SP : spanning (s_rw sat).
Hypothesis NL : rw_limited (s_rw sat) = false.
Hypothesis DJ : det3 J <> 0.
Hypothesis KP : 0 <= kap.
Hypothesis SW : swings B.
Hypothesis ST : steady qc wc.
Hypothesis XK : cross3 wc (add3 (mv J wc) hr) = zero3.
Hypothesis CF : cont3 F.
Hypothesis U0 : unitq (v_att v0).
Hypothesis L0 : (length (rw_wheels (s_rw sat)) <= length (v_whl v0))%nat.
Hypothesis HE : wc_alpha w * off_target (tr_mem tr) (qc 0) v0 + dot3 (slip (qc 0) wc v0) (slip (qc 0) wc v0) / 2 < 2 * wc_alpha w * (1 + tr_hw tr).
Lemma loop_exists : exists y a, a < 0 /\ y 0 = v0 /\ (forall t, length (v_whl (y t)) = length (v_whl v0)) /\ forall t, a < t -> follows w (moment kap hr sat B y) B qc wc F y t.
Proof.
  destruct SW as (NB & kn & KN & HN). set (N := sandwich_opp (qc 0) (add3 (mv J wc) hr)). set (h0 := rw_momentum (s_rw sat) (v_whl v0)).
  set (e0 := error_quat (v_att v0) (qc 0)). set (d0 := sub3 (v_rate v0) (sandwich e0 wc)). set (z0 := sub3 (sandwich_opp (v_att v0) (add3 (mv J (v_rate v0)) h0)) N).
  assert (SS := pm1_sq _ PM). assert (UE0 : unitq e0) by (apply error_quat_unit; [exact U0|apply ST]).
  assert (ED : slip (qc 0) wc v0 = d0) by (unfold slip, d0, e0, error_quat; rewrite sandwich_product; reflexivity).
  assert (HE' : 2 * wc_alpha w * (1 - tr_mem tr * qw e0) + dot3 d0 d0 / 2 < 2 * wc_alpha w * (1 + tr_hw tr)). { rewrite ED in HE. rewrite (off_eq _ _ _ SS U0 (proj1 (ST 0))) in HE. fold e0 in HE. lra. }
  destruct (loop_solution (wc_alpha w) (wc_gamma w) tr kap J hr wc qc (fun t => normalize3 (B t)) kn e0 d0 z0 A G HW PM KP ST KN (fun t => normalize3_unit (B t) (NB t)) HN XK UE0 HE') as (e & d & z & a & HA & E0 & D0 & Z0 & UE & SOL). fold N in SOL.
  set (q := fun t => product (qc t) (e t)). set (om := fun t => add3 (d t) (sandwich (e t) wc)). set (h := fun t => sub3 (sandwich (q t) (add3 (z t) N)) (mv J (om t))).
  assert (Q0 : q 0 = v_att v0) by (unfold q; rewrite E0; unfold e0; apply error_quat_back, ST).
  assert (OM0 : om 0 = v_rate v0) by (unfold om; rewrite E0, D0; unfold d0; apply va1).
  assert (H0 : h 0 = h0).
  { unfold h. rewrite Q0, OM0, Z0. unfold z0. rewrite va1.
    rewrite sandwich_sandwich_opp by exact U0. apply va2. }
  destruct (antideriv3 (fun t => div3 (F t) (s_mass sat)) (v_vel v0) (cont3_div F (s_mass sat) CF)) as (vel & V0 & DV). destruct (antideriv3 vel (v_pos v0) (deriv3_cont _ _ DV)) as (pos & P0 & DP).
  set (whl := fun t => sped (v_whl v0) (acc_of (s_rw sat) (sub3 (h t) (h 0)))).
  set (y := fun t => mkSV (pos t) (vel t) (q t) (om t) (whl t)).
  assert (LA : forall T, (length (acc_of (s_rw sat) T) <= length (v_whl v0))%nat) by (intros T; rewrite acc_of_len; exact L0).
  assert (HH : forall t, held sat (y t) = h t).
  { intros t. unfold held, y, whl. cbn [v_whl]. rewrite sped_momentum by apply LA. rewrite acc_of_torque by exact SP. fold h0. rewrite H0. apply va3. }
  exists y, a. split; [exact HA|]. split.
  { unfold y. rewrite P0, V0, Q0, OM0. assert (EW : whl 0 = v_whl v0).
    { unfold whl. apply sped_zero. intros i. destruct (acc_of_lin (s_rw sat) i) as (c & HC). rewrite HC. apply dot_self0. }
    rewrite EW. destruct v0; reflexivity. }
  split; [intros t; unfold y, whl; cbn [v_whl]; apply sped_len|].
  intros t Ht. destruct (SOL t Ht) as (TS & DE & DD & DZ). assert (UC := proj1 (ST t)). assert (UQ : unitq (q t)) by (apply product_unit; [exact UC|apply UE]).
  assert (DQ : derivq q t (scaleq 0.5 (product (q t) (pure (om t))))). { eapply dq_eq; [exact (dq_product qc e t _ _ (proj2 (ST t)) DE)|]. apply turn_product, UE. }
  set (m := moment kap hr sat B y t). set (b := seen B y t). set (wcB := sandwich (e t) wc).
  set (dw := sub3 (sub3 (scale3 (- tr_mem tr * wc_alpha w) (vec (e t))) (scale3 (wc_gamma w) (d t))) (cross3 (om t) wcB)).
  assert (DO : deriv3 om t dw).
  { unfold om. eapply d3_eq; [exact (d3_add _ _ t _ _ DD (P_ctrl2.d3_sandwich e (fun _ => wc) t zero3 (d t) DE (d3_const wc t)))|]. rewrite sandwich_0. fold wcB. unfold dw, om. fold wcB. apply va4. }
  assert (NS : b <> zero3) by (apply seen_nz; [exact UQ|apply NB]).
  assert (EB : b = sandwich (q t) (B t)) by reflexivity.
  assert (MB : cross3 m b = scale3 (- kap) (rej b (sub3 (h t) hr))). { unfold m, moment. fold b. rewrite mag_torque by exact NS. rewrite HH, <- rej_scale. reflexivity. }
  set (u := add3 (cross3 (om t) (add3 (mv J (om t)) (h t))) (mv J dw)).
  assert (DH : deriv3 h t (opp3 (add3 u (cross3 b m)))).
  { unfold h. eapply d3_eq; [apply d3_sub; [exact (P_ctrl2.d3_sandwich q (fun t => add3 (z t) N) t _ (om t) DQ (d3_add _ _ t _ _ DZ (d3_const N t)))|exact (d3_mv J om t dw DO)]|].
    cbv beta. assert (EZ : sandwich (q t) (add3 (scale3 (- kap) (over (normalize3 (B t)) (sub3 (z t) (lo_L J hr wc N qc t (e t) (d t))))) zero3) = cross3 m b).
    { rewrite add3_0_r, <- rej_over by apply NB. rewrite s_scale, rej_sandwich by exact UQ. rewrite MB, EB. f_equal. f_equal. rewrite s_sub by exact UQ. unfold lo_L. fold (om t). fold (q t). rewrite (s_sub (q t) (sandwich_opp _ _)) by exact UQ. rewrite sandwich_sandwich_opp by exact UQ. unfold h.
      destruct (sandwich_rigid (q t) UQ) as (_ & _ & R3 & _). rewrite R3. apply va5. }
    rewrite EZ. unfold u. assert (EH : sandwich (q t) (add3 (z t) N) = add3 (mv J (om t)) (h t)) by (unfold h; symmetry; apply va3). rewrite EH. apply va6. }
  assert (EE : error_quat (v_att (y t)) (qc t) = e t) by (apply error_of_product, UC).
  assert (TR : tracking w (y t) wc zero3 (qc t) = Ok (set_trig w tr, u)).
  { rewrite (tracking_free w (y t) wc zero3 (qc t) f HS HZ ltac:(unfold y, whl; cbn [v_whl]; rewrite sped_len; exact L0)). cbv zeta. rewrite EE. fold tr. rewrite TS. f_equal. f_equal.
    change (rw_momentum (s_rw (wc_sat w)) (v_whl (y t))) with (held sat (y t)). rewrite HH. unfold u, dw. fold J sat. change (v_rate (y t)) with (om t). f_equal. f_equal. fold wcB. rewrite sandwich_0, add3_0_r. f_equal. f_equal. f_equal. unfold om. fold wcB. apply va8. }
  exists (set_trig w tr), u, (acc_of (s_rw sat) (opp3 (add3 u (cross3 b m)))). split; [exact TR|]. split; [left; exact NL|]. split.
  { unfold track_and_desaturate. cbn [cs_v cs_mag]. rewrite TR. cbn [rbind]. fold b. fold m. unfold whl_actuator_commands, rw_accelerations. change (wc_sat (set_trig w tr)) with sat. rewrite NL. reflexivity. }
  fold m b sat. rewrite acc_of_torque by exact SP. split; [|split; [|split; [|split]]]; cbn [derivative v_pos v_vel v_att v_rate v_whl].
  - exact (DP t).
  - exact (DV t).
  - exact DQ.
  - eapply d3_eq; [exact DO|]. change (rw_momentum (s_rw sat) (v_whl (y t))) with (held sat (y t)). rewrite HH. change (s_inv_tot sat) with (inv3 J). fold J. change (v_rate (y t)) with (om t).
    replace (sub3 (sub3 (cross3 m b) (opp3 (add3 u (cross3 b m)))) (cross3 (om t) (add3 (h t) (mv J (om t))))) with (mv J dw); [symmetry; apply inv3_mv, DJ|]. unfold u. symmetry. apply va9.
  - intros i. destruct (acc_of_lin (s_rw sat) i) as (c & HC). rewrite HC.
    apply (d_ext (fun t => nth i (v_whl v0) 0 + dot3 c (sub3 (h t) (h 0)))); [intros s; unfold y, whl; cbn [v_whl]; rewrite sped_nth by apply LA; rewrite HC; reflexivity|].
    eapply d_eq; [apply (derivable_pt_lim_plus (fun _ => nth i (v_whl v0) 0)); [apply derivable_pt_lim_const|exact (d_dot3 (fun _ => c) _ t _ _ (d3_const c t) (d3_sub _ _ t _ _ DH (d3_const (h 0) t)))]|].
    cbv beta. symmetry. eapply va10. reflexivity.
Qed.
End BUILD.
