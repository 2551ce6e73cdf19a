(** * Lemmas for the controllers, last part: closed-loop trajectories, the barrier, bang-bang histories *)
From Coq Require Import Reals ZArith List Bool Lra Lia Psatz.
From Verif Require Import Num Vec M_vector M_quaternion M_jday M_struct M_dyn M_ctrl S_rot S_dyn S_ctrl.
From Verif Require Import P_quat P_struct P_wheel P_dyn P_dyn2 P_obs P_ctrl P_ctrl2 P_ctrl3 P_ctrl4.
Import ListNotations.
Local Open Scope R_scope.

Lemma sandwich_0 (q : quat) : sandwich q zero3 = zero3.
Proof. destruct q as [a b c d]. unfold sandwich, conjugate, product. vunfold; rnum. apply mk3_c; ring. Qed.
Lemma cross_0_r (v : v3) : cross3 v zero3 = zero3. Proof. vring. Qed.
Lemma d_ext f g t a : (forall u, f u = g u) -> derivable_pt_lim f t a -> derivable_pt_lim g t a.
Proof. intros E. apply d_local. exists (mkposreal 1 Rlt_0_1). intros h _. apply E. Qed.
Lemma dq_const (q : quat) t : derivq (fun _ => q) t (scaleq 0.5 (product q (pure zero3))).
Proof.
  destruct q as [a b c d]. unfold derivq, pure. cbn [qw qx qy qz]. split; [|split; [|split]]; (eapply d_eq; [apply d_const|]); replace 0.5 with (1/2) by lra; unfold product; vunfold; rnum; ring.
Qed.
(** ** the alerts are exactly the watched objects inside their zone *)
Lemma alerts_from_iff k objs : forall j a, In a (alerts_from k j objs) <-> exists i o fb bd g, nth_error objs i = Some o /\
  nth_error (i_forbidden (ci k)) (j + i) = Some fb /\ nth_error (i_bounds (ci k)) (j + i) = Some bd /\ nth_error (ci_gains k) (j + i) = Some g /\
  In (Z.of_nat (j + i)) (i_ids (ci k)) /\
  a = mkAl g (if fb then -1 else 1) (i_boresight (ci k)) (cos (bd * (PI / 180))) (threshold (ci_stop k) bd fb) o /\
  margin (if fb then -1 else 1) (i_boresight (ci k)) (cos (bd * (PI / 180))) o < threshold (ci_stop k) bd fb.
Proof.
  intros j a. split; [apply alerts_from_spec|]. revert j. induction objs as [|o objs IH]; intros j (i & o' & fb & bd & g & A & B & C & D & E & F & G); [destruct i; discriminate|].
  cbn [alerts_from]. destruct i as [|i].
  - cbn in A. injection A as <-. rewrite Nat.add_0_r in *. apply in_or_app. left. rewrite B, C, D.
    destruct (in_dec Z.eq_dec (Z.of_nat j) (i_ids (ci k))) as [I|I]; [|contradiction]. unfold threshold in G, F.
    cbv zeta. destruct (Rlt_dec _ _) as [L|L]; [left; symmetry; exact F|]. contradiction.
  - apply in_or_app. right. apply IH. exists i, o', fb, bd, g. rewrite <- plus_n_Sm in *. cbn [Nat.add]. cbn in A. tauto.
Qed.
(** ** bang-bang histories *)
Fixpoint mag_run (c : MagCtl) (l : list (CState * v3)) : res MagCtl :=
  match l with [] => Ok c | (x, T) :: r => rbind (mag_actuator_commands c x T) (fun '(c', _) => mag_run c' r) end.
Definition small (B T : v3) : Prop := let m := mag_moment_cmd B T in Rabs (x3 m) < 0.3 /\ Rabs (y3 m) < 0.3 /\ Rabs (z3 m) < 0.3.
Definition ones : list (Trigger R) := [mkTr 1 0.3; mkTr 1 0.3; mkTr 1 0.3].
Lemma trig_inside (x : R) : Rabs x < 0.3 -> trig_step x (mkTr 1 0.3) = mkTr 1 0.3.
Proof.
  intros H. apply Rabs_def2 in H. unfold trig_step. cbn [tr_mem tr_hw nmul nleb nopp RNum].
  match goal with |- context [Rleb ?a ?b] => replace (Rleb a b) with false by (symmetry; apply Rleb_false; lra) end. reflexivity.
Qed.
Lemma ones_step (m : v3) : Rabs (x3 m) < 0.3 -> Rabs (y3 m) < 0.3 -> Rabs (z3 m) < 0.3 -> zip_with (fun tr x => trig_step x tr) ones [x3 m; y3 m; z3 m] = ones.
Proof. intros A B C. cbn [zip_with ones]. rewrite !trig_inside by assumption. reflexivity. Qed.
Lemma new_ones sat ts : mag_new sat ts true = mkMC sat ts true ones.
Proof. unfold mag_new, ones. rewrite trig_new_eq. destruct (Rlt_dec 1 0); [lra|reflexivity]. Qed.
Lemma bang_small sat ts x T t2 : nth_error ts 2 = Some t2 -> small (cs_mag x) T ->
  mag_actuator_commands (mkMC sat ts true ones) x T = rbind (distribute ts [max_m t2; max_m t2; max_m t2]) (fun cur => Ok (mkMC sat ts true ones, cur)).
Proof.
  intros N (A & B & C). unfold mag_actuator_commands. cbn [mc_bang mc_torquers mc_trig mc_sat]. unfold bang_cmd. change ones with ones at 1.
  unfold nthr. rewrite N. unfold ones at 1. cbn [rbind]. rewrite ones_step by assumption. cbn [map ones tr_mem rbind]. rewrite !Rmult_1_l. reflexivity.
Qed.
