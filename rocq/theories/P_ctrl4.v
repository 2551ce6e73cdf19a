(** * Lemmas about the controllers: alerts, references, error cases *)
From Coq Require Import Reals ZArith List Bool Lra Lia Psatz.
From Verif Require Import Num Vec M_vector M_quaternion M_jday M_struct M_dyn S_rot S_dyn P_quat P_sat P_struct P_wheel P_dyn P_dyn2 P_obs M_ctrl S_ctrl P_ctrl P_ctrl2 P_ctrl3.
Import ListNotations.
Local Open Scope R_scope.

(** the alert threshold of a bound in degrees *)
Definition threshold (stop bd : R) (fb : bool) : R :=
  let sgn := if fb then -1 else 1 in / 2 * Rabs (cos (bd * (PI / 180) - sgn * stop) - cos (bd * (PI / 180))).
(** no watched object is inside its alert zone *)
Definition quiet (ks : list CInstr) (objs : list v3) : Prop :=
  forall k j o fb bd, In k ks -> nth_error objs j = Some o -> nth_error (i_forbidden (ci k)) j = Some fb -> nth_error (i_bounds (ci k)) j = Some bd ->
    In (Z.of_nat j) (i_ids (ci k)) ->
    threshold (ci_stop k) bd fb <= margin (if fb then -1 else 1) (i_boresight (ci k)) (cos (bd * (PI / 180))) o.
Lemma alerts_from_spec k objs : forall j a, In a (alerts_from k j objs) -> exists i o fb bd g, nth_error objs i = Some o /\
  nth_error (i_forbidden (ci k)) (j + i) = Some fb /\ nth_error (i_bounds (ci k)) (j + i) = Some bd /\ nth_error (ci_gains k) (j + i) = Some g /\
  In (Z.of_nat (j + i)) (i_ids (ci k)) /\
  a = mkAl g (if fb then -1 else 1) (i_boresight (ci k)) (cos (bd * (PI / 180))) (threshold (ci_stop k) bd fb) o /\
  margin (if fb then -1 else 1) (i_boresight (ci k)) (cos (bd * (PI / 180))) o < threshold (ci_stop k) bd fb.
Proof.
  induction objs as [|o objs IH]; intros j a H; [destruct H|]. cbn [alerts_from] in H. apply in_app_or in H. destruct H as [H|H].
  - destruct (nth_error (i_forbidden (ci k)) j) as [fb|] eqn:E1; [|destruct H]. destruct (nth_error (i_bounds (ci k)) j) as [bd|] eqn:E2; [|destruct H].
    destruct (nth_error (ci_gains k) j) as [g|] eqn:E3; [|destruct H]. destruct (in_dec Z.eq_dec (Z.of_nat j) (i_ids (ci k))) as [I|I]; [|destruct H].
    cbv zeta in H. cbn [al_sign al_bore al_cos al_sigma] in H. destruct (Rlt_dec _ _) as [L|L]; [|destruct H]. destruct H as [<-|[]].
    exists 0%nat, o, fb, bd, g. rewrite Nat.add_0_r. repeat split; auto.
  - destruct (IH (S j) a H) as (i & o' & fb & bd & g & A & B & C & D & E & F & G). exists (S i), o', fb, bd, g.
    replace (j + S i)%nat with (S j + i)%nat by lia. repeat split; auto.
Qed.
Lemma alerts_quiet ks objs : quiet ks objs -> alerts ks objs = [].
Proof.
  intros Q. destruct (alerts ks objs) as [|a l] eqn:E; [reflexivity|]. exfalso.
  assert (I : In a (alerts ks objs)) by (rewrite E; left; reflexivity). apply in_flat_map in I. destruct I as (k & K & I).
  destruct (alerts_from_spec k objs 0 a I) as (i & o & fb & bd & g & A & B & C & D & F & _ & G). cbn [Nat.add] in *. assert (Z := Q k i o fb bd K A B C F). lra.
Qed.
(** every alert concerns the first object when no instrument watches another *)
Definition sun_only (ks : list CInstr) : Prop := forall k i, In k ks -> In i (i_ids (ci k)) -> i = 0%Z.
Lemma alerts_moved ks q sunv nadir : sun_only ks -> map (moved q sunv) (alerts ks [sandwich q sunv; nadir]) = alerts ks [sandwich q sunv; nadir].
Proof.
  intros S. rewrite <- (map_id (alerts ks [sandwich q sunv; nadir])) at 2. apply map_ext_in. intros a I. apply in_flat_map in I. destruct I as (k & K & I).
  destruct (alerts_from_spec _ _ 0 a I) as (i & o & fb & bd & g & A & B & C & D & F & -> & G). cbn [Nat.add] in *.
  assert (E := S k _ K F). assert (i = 0)%nat by lia. subst i. injection A as <-. reflexivity.
Qed.
(** ** exceptions *)
Lemma nthr_raise {A} (l : list A) j e : nthr l j = Raise e -> e = IndexError.
Proof. unfold nthr. destruct (nth_error l j); congruence. Qed.
Lemma zone_step_raise s dq dw k j o acc e : zone_step s dq dw k j o acc = Raise e -> e = IndexError.
Proof.
  destruct acc as [[c ax] nu]. unfold zone_step. destruct (nthr (i_forbidden (ci k)) j) eqn:E1; cbn [rbind]; [|intros H; injection H as <-; apply (nthr_raise _ _ _ E1)].
  destruct (nthr (i_cos_psi (ci k)) j) eqn:E2; cbn [rbind]; [|intros H; injection H as <-; apply (nthr_raise _ _ _ E2)].
  unfold cares_about. destruct (existsb _ _).
  - destruct (nthr (i_sigma (ci k) (ci_stop k)) j) eqn:E3; cbn [rbind]; [|intros H; injection H as <-; apply (nthr_raise _ _ _ E3)].
    destruct (Rltb _ a1); [|discriminate]. destruct (nthr (ci_gains k) j) eqn:E4; cbn [rbind]; [|intros H; injection H as <-; apply (nthr_raise _ _ _ E4)].
    destruct (nthr (i_iota (ci k) (ci_stop k)) j) eqn:E5; cbn [rbind]; [|intros H; injection H as <-; apply (nthr_raise _ _ _ E5)].
    destruct (Rltb _ (_ : R)); discriminate.
  - cbn [rbind]. discriminate.
Qed.
Lemma zone_objs_raise s dq dw k objs : forall j acc e, zone_objs s dq dw k j objs acc = Raise e -> e = IndexError.
Proof.
  induction objs as [|o r IH]; intros j acc e H; [discriminate|]. cbn [zone_objs] in H. destruct (zone_step s dq dw k j o acc) eqn:E; cbn [rbind] in H; [eapply IH, H|].
  injection H as <-. eapply zone_step_raise, E.
Qed.
Lemma zone_short s dq dw k objs : (length (i_forbidden (ci k)) < length objs \/ length (i_bounds (ci k)) < length objs)%nat ->
  forall acc, zone_objs s dq dw k 0 objs acc = Raise IndexError.
Proof.
  intros H.
  assert (G : forall objs j acc, (length (i_forbidden (ci k)) < j + length objs \/ length (i_bounds (ci k)) < j + length objs)%nat -> 
    (j <= length (i_forbidden (ci k)))%nat -> (j <= length (i_bounds (ci k)))%nat -> exists e, zone_objs s dq dw k j objs acc = Raise e).
  { clear H objs. induction objs as [|o r IH]; intros j acc H A B; [cbn [length] in H; lia|]. cbn [zone_objs].
    destruct (zone_step s dq dw k j o acc) as [acc'|e] eqn:E; cbn [rbind]; [|eauto].
    destruct acc as [[c ax] nu]. unfold zone_step, nthr in E.
    destruct (nth_error (i_forbidden (ci k)) j) eqn:E1; cbn [rbind] in E; [|discriminate]. destruct (nth_error (i_cos_psi (ci k)) j) eqn:E2; cbn [rbind] in E; [|discriminate].
    assert (j < length (i_forbidden (ci k)))%nat by (apply nth_error_Some; congruence).
    assert (J2 : (j < length (i_cos_psi (ci k)))%nat) by (apply nth_error_Some; congruence). unfold i_cos_psi in J2. rewrite map_length in J2.
    apply IH; cbn [length] in H; lia. }
  intros acc. destruct (G objs 0%nat acc) as [e E]; [lia|lia|lia|]. rewrite E. f_equal. eapply zone_objs_raise, E.
Qed.
Lemma zone_loop_short s dq dw ks objs k : In k ks -> (length (i_forbidden (ci k)) < length objs \/ length (i_bounds (ci k)) < length objs)%nat ->
  forall acc, zone_loop s dq dw ks objs acc = Raise IndexError.
Proof.
  intros I H. induction ks as [|k' ks IH]; [destruct I|]. intros acc. cbn [zone_loop]. destruct I as [->|I]; [rewrite zone_short by exact H; reflexivity|].
  destruct (zone_objs s dq dw k' 0 objs acc) eqn:E; cbn [rbind]; [apply IH, I|]. f_equal. eapply zone_objs_raise, E.
Qed.
(** ** the BBQ reference *)
Lemma ECL_unit : unitq ECL.
Proof. unfold unitq, ECL, dotq; cbn [qw qx qy qz]; rnumg. assert (H := sc1 (0.5 * EPS)). lra. Qed.
Definition roll_quat (t : R) : quat := mkq (cos (0.5 * (z3 BBQ * t))) 0 0 (sin (0.5 * (z3 BBQ * t))).
Lemma roll_unit t : unitq (roll_quat t).
Proof. unfold unitq, roll_quat, dotq; cbn [qw qx qy qz]; rnumg. assert (H := sc1 (0.5 * (z3 BBQ * t))). lra. Qed.
Lemma roll_axis t : sandwich_opp (roll_quat t) ez = ez.
Proof.
  transitivity (scale3 (dotq (roll_quat t) (roll_quat t)) ez); [|rewrite roll_unit; apply scale3_1].
  unfold roll_quat, ez, sandwich_opp, sandwich, conjugate, product. vunfold; rnum. apply mk3_c; ring.
Qed.
Lemma ecl_pole : sandwich_opp ECL ez = mk3 0 (- sin EPS) (cos EPS).
Proof.
  assert (C := cos_half EPS). assert (S := sin_half EPS). replace (0.5 * EPS) with (EPS / 2) by lra || idtac.
  unfold ECL, ez, sandwich_opp, sandwich, conjugate, product. replace (0.5 * EPS) with (EPS / 2) by lra. rewrite C, S. vunfold; rnum. apply mk3_c; ring.
Qed.
Lemma BBQ_eq : BBQ = mk3 0 0 (4 * 0.00733). Proof. unfold BBQ. vunfold; rnum. apply mk3_c; ring. Qed.
Lemma d_roll t : derivq roll_quat t (scaleq 0.5 (product (roll_quat t) (pure BBQ))).
Proof.
  set (k := 0.5 * z3 BBQ).
  assert (E : forall u, roll_quat u = mkq (cos (k * u)) 0 0 (sin (k * u))) by (intros u; unfold roll_quat, k; rewrite !Rmult_assoc; reflexivity).
  assert (D : derivq (fun u => mkq (cos (k * u)) 0 0 (sin (k * u))) t (mkq (- k * sin (k * t)) 0 0 (k * cos (k * t)))).
  { unfold derivq. cbn [qw qx qy qz]. split; [apply d_cos|split; [apply d_const|split; [apply d_const|apply d_sin]]]. }
  assert (D' : derivq roll_quat t (mkq (- k * sin (k * t)) 0 0 (k * cos (k * t)))).
  { unfold derivq in *. cbn [qw qx qy qz] in *. destruct D as (D1 & D2 & D3 & D4).
    split; [|split; [|split]]; eapply d_local; try eassumption; exists (mkposreal 1 Rlt_0_1); intros h _; rewrite E; reflexivity. }
  eapply dq_eq; [exact D'|]. rewrite E. unfold k. rewrite BBQ_eq. cbn [z3]. unfold pure, product. vunfold; rnum. replace 0.5 with (1/2) by lra. generalize (4 * 0.00733). intros b. apply mkq_c; field.
Qed.
Lemma jticks_absolute dts : forall c c', jticks dts c = Ok c' -> j_absolute c' = j_absolute c.
Proof.
  induction dts as [|d r IH]; intros c c' H; [injection H as <-; reflexivity|]. cbn [jticks] in H. unfold jtick at 1 in H.
  destruct (datetime_ok _); [|discriminate]. cbn [rbind] in H. apply IH in H. exact H.
Qed.
(** ** pointing *)
Lemma stare_points (p : v3) q (b tgt : v3) : unitq q -> unit3 b -> tgt <> p -> sandwich q (pointing_vector p tgt) <> opp3 b ->
  unitq (stare_attitude p q b tgt) /\ sandwich_opp (stare_attitude p q b tgt) b = pointing_vector p tgt.
Proof.
  intros U B N A. assert (NZ : sub3 tgt p <> zero3).
  { intros E. apply N. destruct tgt as [x y z], p as [a c d]. revert E. vunfoldg; cbn [x3 y3 z3]; rnumg. intros E. apply mk3_inj in E. destruct E as (E1 & E2 & E3). f_equal; lra. }
  assert (UP : unit3 (pointing_vector p tgt)) by (apply normalize3_unit, NZ).
  assert (UB : unit3 (sandwich q (pointing_vector p tgt))) by (unfold unit3; rewrite sandwich_dot, U; rewrite UP; ring).
  destruct (pointing_ok b _ B UB A) as [P1 P2].
  unfold stare_attitude, acquire_target. destruct (R_axis_angle b (sandwich q (pointing_vector p tgt))) as [r th]. cbn [fst snd] in P1, P2. cbv zeta in P1, P2.
  split; [apply product_unit; assumption|]. rewrite sandwich_opp_product, P2. apply sandwich_opp_sandwich, U.
Qed.
Lemma stare_error (p : v3) q (b tgt : v3) : unitq q -> error_quat q (stare_attitude p q b tgt) = conjugate (acquire_target p q b tgt).
Proof.
  intros U. unfold error_quat, stare_attitude. rewrite conj_product, product_assoc, product_conj_l. rewrite U.
  generalize (conjugate (acquire_target p q b tgt)). intros [a c d e]. unfold q1. qring.
Qed.
Lemma stare_antipode (p : v3) q (b tgt : v3) : unit3 b -> sandwich q (pointing_vector p tgt) = opp3 b -> stare_attitude p q b tgt = mkq 0 0 0 0.
Proof.
  intros B E. unfold stare_attitude, acquire_target. rewrite E. assert (P := pointing_antipode b B). destruct (R_axis_angle b (opp3 b)) as [r th]. cbn [fst snd] in P. rewrite P.
  destruct q as [a c d e]. qring.
Qed.
(** the direction to a fixed target turns at the reference rate *)
Lemma d_inv_norm f t d : f t <> zero3 -> deriv3 f t d -> derivable_pt_lim (fun u => / norm3 (f u)) t (- dot3 (f t) d / (norm3 (f t)) ^ 3).
Proof.
  intros N H. assert (P := norm3_gt0 _ N). assert (S := norm3_sq (f t)).
  assert (PP : 0 < dot3 (f t) (f t)) by (rewrite <- S; apply Rmult_lt_0_compat; exact P).
  assert (D := d_dot3 f f t d d H H).
  assert (Q : derivable_pt_lim (fun u => norm3 (f u)) t (dot3 (f t) d / norm3 (f t))).
  { assert (K := derivable_pt_lim_comp (fun u => dot3 (f u) (f u)) sqrt t _ _ D (derivable_pt_lim_sqrt _ PP)).
    eapply d_eq; [exact K|]. change (sqrt (dot3 (f t) (f t))) with (norm3 (f t)). rewrite (dot_comm3 d (f t)). field. lra. }
  assert (V := derivable_pt_lim_div (fun _ => 1) (fun u => norm3 (f u)) t _ _ (d_const 1 t) Q ltac:(lra)).
  eapply d_eq. { eapply d_local; [|exact V]. exists (mkposreal 1 Rlt_0_1). intros h _. unfold div_fct, Rdiv. rewrite Rmult_1_l. reflexivity. }
  cbv beta. unfold Rsqr. field. lra.
Qed.
Lemma d3_scale f g t a b : derivable_pt_lim f t a -> deriv3 g t b -> deriv3 (fun u => scale3 (f u) (g u)) t (add3 (scale3 a (g t)) (scale3 (f t) b)).
Proof. intros F (A & B & C). unfold deriv3. split; [|split]; apply d_mult; assumption. Qed.
Lemma stare_rate pos vel t (tgt : v3) : pos t <> tgt -> deriv3 pos t vel ->
  deriv3 (fun u => scale3 (/ norm3 (sub3 tgt (pos u))) (sub3 tgt (pos u))) t
    (cross3 (stare_rate_intl (pos t) vel tgt) (scale3 (/ norm3 (sub3 tgt (pos t))) (sub3 tgt (pos t)))).
Proof.
  intros N H. assert (NZ : sub3 tgt (pos t) <> zero3).
  { intros E. apply N. destruct tgt as [x y z], (pos t) as [a c d]. revert E. vunfoldg; cbn [x3 y3 z3]; rnumg. intros E. apply mk3_inj in E. destruct E as (E1 & E2 & E3). f_equal; lra. }
  assert (D := d3_sub (fun _ => tgt) pos t _ _ (d3_const tgt t) H). cbv beta in D.
  assert (I := d_inv_norm (fun u => sub3 tgt (pos u)) t _ NZ D). cbv beta in I.
  eapply d3_eq; [apply (d3_scale _ _ t _ _ I D)|]. cbv beta.
  assert (P := norm3_gt0 _ NZ). assert (S := norm3_sq (sub3 tgt (pos t))).
  unfold stare_rate_intl. assert (S' : dot3 (sub3 (pos t) tgt) (sub3 (pos t) tgt) = norm3 (sub3 tgt (pos t)) * norm3 (sub3 tgt (pos t))).
  { rewrite S. generalize (pos t). vring. }
  rewrite S'. replace (sub3 (pos t) tgt) with (opp3 (sub3 tgt (pos t))) by (generalize (pos t); vring).
  revert S P. clear. generalize (norm3 (sub3 tgt (pos t))). generalize (sub3 tgt (pos t)). intros [x y z] n S P. destruct vel as [a b c]. revert S. vunfoldg; cbn [x3 y3 z3]; rnumg. intros S.
  assert (N0 : n <> 0) by (apply Rgt_not_eq; exact P).
  apply mk3_c; apply (Rmult_eq_reg_r (n ^ 3)); try (apply pow_nonzero; assumption); field_simplify; try assumption; replace (n ^ 2) with (x * x + y * y + z * z) by (rewrite <- S; ring); ring.
Qed.
