(** * Equations of motion: conserved quantities; environment forces *)
From Coq Require Import Reals ZArith List Bool Arith Lra Psatz Lia.
From Verif Require Import Num Vec M_vector M_quaternion M_jday M_frame M_struct M_env M_dyn M_sensor M_integ S_integ S_rot S_dyn P_quat P_wheel P_integ2.
Import ListNotations.
Local Open Scope R_scope.

(** ** rules *)
Lemma d_plus f g t a b : derivable_pt_lim f t a -> derivable_pt_lim g t b -> derivable_pt_lim (fun u => f u + g u) t (a + b).
Proof. apply derivable_pt_lim_plus. Qed.
Lemma d_minus f g t a b : derivable_pt_lim f t a -> derivable_pt_lim g t b -> derivable_pt_lim (fun u => f u - g u) t (a - b).
Proof. apply derivable_pt_lim_minus. Qed.
Lemma d_mult f g t a b : derivable_pt_lim f t a -> derivable_pt_lim g t b -> derivable_pt_lim (fun u => f u * g u) t (a * g t + f t * b).
Proof. apply derivable_pt_lim_mult. Qed.
Lemma d_opp f t a : derivable_pt_lim f t a -> derivable_pt_lim (fun u => - f u) t (- a).
Proof. apply derivable_pt_lim_opp. Qed.
Lemma d_const c t : derivable_pt_lim (fun _ => c) t 0. Proof. apply derivable_pt_lim_const. Qed.
Lemma d_eq f t a b : derivable_pt_lim f t a -> a = b -> derivable_pt_lim f t b. Proof. intros H <-. exact H. Qed.
Ltac dsolve := eapply d_eq; [repeat first [eassumption | apply d_const | apply d_plus | apply d_minus | apply d_opp | apply d_mult]|cbv beta].
Lemma const_of_deriv f a b : (forall t, a < t < b -> derivable_pt_lim f t 0) -> forall t1 t2, a < t1 < b -> a < t2 < b -> f t1 = f t2.
Proof.
  intros H. assert (K : forall t1 t2, a < t1 < b -> a < t2 < b -> t1 < t2 -> f t1 = f t2).
  { intros t1 t2 H1 H2 L.
    destruct (MVT_cor2 f (fun _ => 0) t1 t2 L) as (c & E & _); [intros c Hc; apply H; lra|]. lra. }
  intros t1 t2 H1 H2. destruct (Rtotal_order t1 t2) as [L|[L|L]]; [apply K; assumption|congruence|symmetry; apply K; assumption].
Qed.
Lemma d3_add f g t a b : deriv3 f t a -> deriv3 g t b -> deriv3 (fun u => add3 (f u) (g u)) t (add3 a b).
Proof. intros (A & B & C) (D & E & F). unfold add3. cbn [x3 y3 z3]. rnumg. repeat split; cbn [x3 y3 z3]; apply d_plus; assumption. Qed.
Lemma d3_const v t : deriv3 (fun _ => v) t zero3.
Proof. repeat split; apply d_const. Qed.
Lemma d3_mv m f t a : deriv3 f t a -> deriv3 (fun u => mv m (f u)) t (mv m a).
Proof. intros (A & B & C). unfold mv, dot3. repeat split; cbn [x3 y3 z3]; rnumg; dsolve; ring. Qed.
Lemma d_dot3 f g t a b : deriv3 f t a -> deriv3 g t b -> derivable_pt_lim (fun u => dot3 (f u) (g u)) t (dot3 a (g t) + dot3 (f t) b).
Proof. intros (A & B & C) (D & E & F). unfold dot3. rnumg. dsolve. ring. Qed.
Lemma dq_product f g t a b : derivq f t a -> derivq g t b -> derivq (fun u => product (f u) (g u)) t (addq (product a (g t)) (product (f t) b)).
Proof.
  intros (A & B & C & D) (E & F & G & H). unfold product, addq, add3, scale3, cross3, dot3, vec. repeat split; cbn [qw qx qy qz x3 y3 z3]; rnumg; dsolve; ring.
Qed.
Lemma dq_conj f t a : derivq f t a -> derivq (fun u => conjugate (f u)) t (conjugate a).
Proof. intros (A & B & C & D). unfold conjugate. repeat split; cbn [qw qx qy qz]; rnumg; [assumption|apply d_opp; assumption..]. Qed.
Lemma dq_pure f t a : deriv3 f t a -> derivq (fun u => mkq 0 (x3 (f u)) (y3 (f u)) (z3 (f u))) t (mkq 0 (x3 a) (y3 a) (z3 a)).
Proof. intros (A & B & C). repeat split; cbn [qw qx qy qz]; [apply d_const|assumption..]. Qed.
Lemma d3_vec f t a : derivq f t a -> deriv3 (fun u => vec (f u)) t (vec a).
Proof. intros (A & B & C & D). unfold vec. repeat split; cbn [x3 y3 z3]; assumption. Qed.
Lemma d_dotq f g t a b : derivq f t a -> derivq g t b -> derivable_pt_lim (fun u => dotq (f u) (g u)) t (dotq a (g t) + dotq (f t) b).
Proof. intros (A & B & C & D) (E & F & G & H). unfold dotq. rnumg. dsolve. ring. Qed.
Lemma d3_eq f t a b : deriv3 f t a -> a = b -> deriv3 f t b. Proof. intros H <-. exact H. Qed.
Definition pure (w : v3) : quat := mkq 0 (x3 w) (y3 w) (z3 w).
(** rotating a vector out of the moving body frame *)
Lemma d3_sandwich_opp q h t h' w : derivq q t (scaleq 0.5 (product (q t) (pure w))) -> deriv3 h t h' ->
  deriv3 (fun u => sandwich_opp (q u) (h u)) t (sandwich_opp (q t) (add3 h' (cross3 w (h t)))).
Proof.
  intros Q H. unfold sandwich_opp, sandwich. 
  eapply d3_eq. { apply d3_vec. apply dq_product; [apply dq_conj, dq_conj, Q|]. apply dq_product; [apply dq_pure, H|apply dq_conj, Q]. }
  cbv beta. replace 0.5 with (1 / 2) by lra. generalize (q t) (h t). clear. intros [a b c d] [x y z]. destruct h' as [x' y' z'], w as [p r s]. unfold conjugate, product, pure. vunfold; rnum. apply mk3_c; field.
Qed.
(** ** wheels *)
Fixpoint msum (f : Wheel -> R -> v3) (ws : list Wheel) (i : nat) (l : list R) : v3 :=
  match ws with [] => zero3 | w :: r => add3 (f w (nth i l 0)) (msum f r (S i) l) end.
Lemma msum_shift f ws i x l : msum f ws (S i) (x :: l) = msum f ws i l.
Proof. revert i; induction ws as [|w ws IH]; intros i; cbn; [reflexivity|]. rewrite IH. reflexivity. Qed.
Lemma msum_nil f ws i : (forall w, f w 0 = zero3) -> msum f ws i [] = zero3.
Proof. intros H. revert i. induction ws as [|w ws IH]; intros i; cbn [msum]; [reflexivity|]. rewrite IH. replace (nth i [] 0) with 0 by (destruct i; reflexivity). rewrite H. vunfold; rnum. apply mk3_c; ring. Qed.
Lemma zip_msum f ws l : (forall w, f w 0 = zero3) -> sum3 (zip_with f ws l) = msum f ws 0 l.
Proof.
  intros H. revert l. induction ws as [|w ws IH]; intros [|x l]; try reflexivity.
  - cbn [zip_with sum3 fold_right]. symmetry. apply msum_nil, H.
  - cbn [zip_with sum3 fold_right msum nth]. rewrite msum_shift. f_equal. apply IH.
Qed.
Lemma w_momentum_0 w : w_momentum w 0 = zero3.
Proof. unfold w_momentum. destruct (w_axis w). vunfold; rnum. apply mk3_c; ring. Qed.
Lemma d3_momentum s l t d : derivl l t d -> deriv3 (fun u => rw_momentum s (l u)) t (rw_torque s d).
Proof.
  intros H. unfold rw_torque. rewrite (zip_msum w_torque) by (exact w_momentum_0).
  assert (E : forall ws i, deriv3 (fun u => msum w_momentum ws i (l u)) t (msum w_torque ws i d)).
  { induction ws as [|w ws IH]; intros i; cbn [msum]; [apply d3_const|]. apply d3_add; [|apply IH].
    unfold w_momentum, w_torque, scale3. repeat split; cbn [x3 y3 z3]; rnumg; assert (K := H i); dsolve; ring. }
  destruct (E (rw_wheels s) O) as (A & B & C). assert (X : forall u, rw_momentum s (l u) = msum w_momentum (rw_wheels s) 0 (l u)) by (intros u; apply zip_msum, w_momentum_0).
  repeat split; (eapply derivable_pt_lim_ext; [intros u; rewrite X; reflexivity|assumption]).
Qed.
(** ** the vector field *)
Lemma vf_inv hi_fi sat mt h s cur accl d : vector_field hi_fi sat mt h s cur accl = Ok d -> exists m F T,
  sys_actuate mt cur = Ok m /\ env_F_and_T hi_fi sat h s m = Ok (F, T) /\
  d = derivative sat (sv s) F T (rw_torque (s_rw sat) accl) (rw_momentum (s_rw sat) (v_whl (sv s))) accl.
Proof.
  unfold vector_field. intros H. apply rbind_ok in H. destruct H as (m & M & H). apply rbind_ok in H. destruct H as (Tw & Hw & H). apply rbind_ok in H. destruct H as (Hm & Hh & H).
  apply rbind_ok in H. destruct H as ([F T] & E & H). injection H as <-. unfold rw_torque_r, rw_momentum_r in *.
  destruct (Nat.ltb _ _) in Hw; [discriminate|]. injection Hw as <-. destruct (Nat.ltb _ _) in Hh; [discriminate|]. injection Hh as <-. exists m, F, T. auto.
Qed.
Lemma vf_kinematic hi_fi sat mt h cur accl : kinematic (fun s => vector_field hi_fi sat mt h s cur accl).
Proof. intros s d H. apply vf_inv in H. destruct H as (m & F & T & _ & _ & ->). reflexivity. Qed.
Lemma vf_wheels hi_fi sat mt h s cur accl d : vector_field hi_fi sat mt h s cur accl = Ok d -> v_whl d = accl.
Proof. intros H. apply vf_inv in H. destruct H as (m & F & T & _ & _ & ->). reflexivity. Qed.
(** what a solution does to the rotational quantities *)
Lemma solution_rot hi_fi sat mt a b clock cur accl y t : det3 (s_total_moment sat) <> 0 -> solution hi_fi sat mt a b clock cur accl y -> a < t < b ->
  exists T, external_torque hi_fi sat mt clock cur y t T /\
  derivable_pt_lim (fun u => dotq (v_att (y u)) (v_att (y u))) t 0 /\
  deriv3 (fun u => inertial_momentum sat (y u)) t (sandwich_opp (v_att (y t)) T) /\
  derivable_pt_lim (fun u => rotational_energy sat (y u)) t (dot3 (v_rate (y t)) (sub3 T (rw_torque (s_rw sat) (accl t)))).
Proof.
  intros DJ S Ht. destruct (S t Ht) as (st & d & MS & VF & (_ & _ & DQ & DW & DL)). clear S.
  destruct (vf_inv _ _ _ _ _ _ _ _ VF) as (m & F & T & AM & EF & ->). destruct (make_state_inv _ _ _ _ MS) as (SV & _ & _). rewrite SV in *.
  exists T. unfold derivative in DQ, DW, DL. cbn [v_att v_rate v_whl] in DQ, DW, DL. split; [exists st, m, F; auto|].
  set (J := s_total_moment sat) in *. set (H := rw_momentum (s_rw sat) (v_whl (y t))) in *. set (Tw := rw_torque (s_rw sat) (accl t)) in *.
  set (w := v_rate (y t)) in *. set (w' := mv (s_inv_tot sat) (sub3 (sub3 T Tw) (cross3 w (add3 H (mv J w))))) in *.
  assert (JW : mv J w' = sub3 (sub3 T Tw) (cross3 w (add3 H (mv J w)))) by (apply mv_inv3, DJ).
  split; [|split].
  - eapply d_eq; [apply d_dotq; exact DQ|cbv beta]. generalize (v_att (y t)). replace 0.5 with (1 / 2) by lra. clear. clearbody w. intros [a b c d]. destruct w as [x y0 z]. unfold product. vunfold; rnum. field.
  - eapply d3_eq. { unfold inertial_momentum. apply (d3_sandwich_opp _ _ t (add3 (mv J w') Tw) w); [exact DQ|]. apply d3_add; [apply d3_mv, DW|apply d3_momentum, DL]. }
    f_equal. rewrite JW. cbv beta. fold H w J. generalize (mv J w). clear. clearbody H Tw w. intros Jw. destruct T as [t1 t2 t3], Tw as [u1 u2 u3], w as [a b c], H as [i j k], Jw as [p q r]. vunfold; rnum. apply mk3_c; ring.
  - eapply d_eq. { unfold rotational_energy. apply d_mult; [apply d_const|]. apply d_dot3; [exact DW|apply d3_mv, DW]. }
    cbv beta. fold w J. assert (SJ : forall a b, dot3 a (mv J b) = dot3 (mv J a) b).
    { assert (Y := total_symm sat). fold J in Y. intros p q. unfold symm in Y. rewrite <- Y at 2. clear. destruct J as [[? ? ?] [? ? ?] [? ? ?]], p as [? ? ?], q as [? ? ?]. vunfold; rnum. ring. }
    rewrite (SJ w' w), JW.
    generalize (mv J w). clear. clearbody H Tw w. intros Jw. destruct T as [t1 t2 t3], Tw as [u1 u2 u3], w as [a b c], H as [i j k], Jw as [p q r]. vunfold; rnum. field.
Qed.
