(** * C121: detumbling with bang-bang torquers, as wired *)
From Coq Require Import Reals ZArith List Bool Arith Lra Psatz Lia.
From Coquelicot Require Import Coquelicot.
From Verif Require Import Num Vec M_vector M_quaternion M_struct M_env M_dyn M_ctrl S_rot S_dyn S_ctrl P_quat P_struct P_wheel P_dyn P_dyn2 P_ctrl P_ctrl2 Props_ctrl P_detum P_detum2 Props_detum Props_wired P_tot3 P_orb3 P_samp P_bang.
From Verif Require P_ctrl5 P_ctrl3 P_loop3.
Import ListNotations.
Local Open Scope R_scope.

(** at time t the body is under the moment the torquers make of the currents that the bang-bang controller with the triggers trs returns *)
Definition bang_at (sat : Satellite) (ts : list (Torquer R)) (trs : list (Trigger R)) (B : R -> v3) (F : R -> v3) (accl : R -> list R) (y : R -> SVec) (t : R) : Prop :=
  exists c cur M, detumble (mkMC sat ts true trs) (mkCS (y t) (seen B y t)) = Ok (c, cur) /\ sys_actuate ts cur = Ok M /\
    deriv_sv y t (derivative sat (y t) (F t) (cross3 M (seen B y t)) zero3 zero3 (accl t)).
(** the triggers of a bang-bang controller: each holds a sign, with half width 0.3 *)
Definition held3 (s1 s2 s3 : R) : list (Trigger R) := [mkTr s1 0.3; mkTr s2 0.3; mkTr s3 0.3].
Definition a_sign (s : R) : Prop := s = 1 \/ s = -1.
(** every component asked for is below the half width, or every one is at or beyond it *)
Definition inside (m : v3) : Prop := Rabs (x3 m) < 0.3 /\ Rabs (y3 m) < 0.3 /\ Rabs (z3 m) < 0.3.
Definition beyond (m : v3) : Prop := 0.3 <= Rabs (x3 m) /\ 0.3 <= Rabs (y3 m) /\ 0.3 <= Rabs (z3 m).
(** the moment of a new controller: the smallest torquer's full moment along each axis *)
Definition needle (a b c : R) : v3 := let g := gain_lin * (187 / 100 * Rmin a (Rmin b c)) in mk3 g g g.

Lemma needle_pos a b c : 0 < a -> 0 < b -> 0 < c -> 0 < x3 (needle a b c).
Proof. intros A B C. unfold needle. cbv zeta. cbn [x3]. unfold gain_lin. assert (0 < Rmin a (Rmin b c)) by (repeat apply Rmin_pos; assumption). lra. Qed.
Lemma full_up a b c : 0 < a -> 0 < b -> 0 < c -> let mu := 187 / 100 * c in exists cur, distribute (lin3 a b c) [mu; mu; mu] = Ok cur /\ sys_actuate (lin3 a b c) cur = Ok (needle a b c).
Proof.
  intros A B C mu. assert (M0 : 0 < mu) by (unfold mu; lra). assert (La := Rmin_l a (Rmin b c)). assert (Lb := Rle_trans _ _ _ (Rmin_r a (Rmin b c)) (Rmin_l b c)). assert (Lc := Rle_trans _ _ _ (Rmin_r a (Rmin b c)) (Rmin_r b c)). set (n := Rmin a (Rmin b c)) in *.
  assert (LN : forall x, x <= a -> x <= b -> x <= c -> x <= n) by (intros x X1 X2 X3; repeat apply Rmin_glb; assumption).
  destruct (distribute_nonneg (lin3 a b c) [mu; mu; mu] ltac:(discriminate) eq_refl (lin3_max a b c A B C)) as (s & Hs & E & G & H1 & H2). { apply Forall_cons; [lra|]. apply Forall_cons; [lra|]. apply Forall_cons; [lra|]. apply Forall_nil. }
  rewrite currents_ok in E by reflexivity. eexists. split; [exact E|]. assert (X := lin_actuate a b c s (mk3 mu mu mu)). cbn [x3 y3 z3] in X. rewrite X. f_equal.
  assert (Ga := G _ _ (or_introl eq_refl)). assert (Gb := G _ _ (or_intror (or_introl eq_refl))). assert (Gc := G _ _ (or_intror (or_intror (or_introl eq_refl)))). rewrite (lin_max _ _ u_x A) in Ga. rewrite (lin_max _ _ u_y B) in Gb. rewrite (lin_max _ _ u_z C) in Gc.
  assert (EN : s * c = n).
  { apply Rle_antisym; [apply LN; unfold mu in *; lra|]. destruct (Rle_lt_or_eq_dec s 1 (proj2 Hs)) as [L| ->]; [|lra]. destruct (H2 L) as (t & x & I & EQ). cbn [combine lin3] in I. destruct I as [I|[I|[I|[]]]]; injection I as <- <-; [rewrite (lin_max _ _ u_x A) in EQ|rewrite (lin_max _ _ u_y B) in EQ|rewrite (lin_max _ _ u_z C) in EQ]; unfold mu in EQ; lra. }
  unfold needle. fold n. vunfoldg. cbn [x3 y3 z3]. rnumg. unfold mu. rewrite <- EN. apply mk3_c; ring.
Qed.
(** ** below the half width: the moment is the needle's, whatever is asked for, and the triggers stay as they are *)
Theorem C121_needle : forall sat a b c x, 0 < a -> 0 < b -> 0 < c -> inside (mag_moment_cmd (cs_mag x) (detumble_torque sat (v_rate (cs_v x)))) ->
  mag_new sat (lin3 a b c) true = mkMC sat (lin3 a b c) true (held3 1 1 1) /\
  exists cur, detumble (mkMC sat (lin3 a b c) true (held3 1 1 1)) x = Ok (mkMC sat (lin3 a b c) true (held3 1 1 1), cur) /\ sys_actuate (lin3 a b c) cur = Ok (needle a b c).
Proof.
  intros sat a b c x A B C I. split; [apply P_ctrl5.new_ones|]. destruct (full_up a b c A B C) as (cur & E & EM). exists cur. split; [|exact EM].
  unfold detumble. cbn [mc_sat]. change (held3 1 1 1) with P_ctrl5.ones. rewrite (P_ctrl5.bang_small sat (lin3 a b c) x _ (mkT LinearRod (mk3 0 0 1) c) eq_refl I). rewrite (lin_max _ _ u_z C), E. reflexivity.
Qed.
Print Assumptions C121_needle.
(** so the satellite is a compass needle: energy is conserved, and unless that energy is exactly the largest or the smallest the needle's
    own can be, the satellite moves for ever *)
Theorem C121_compass : forall sat a b c (B0 : v3) F accl y, 0 < a -> 0 < b -> 0 < c -> det3 (s_total_moment sat) <> 0 ->
  (forall t, 0 <= t -> bang_at sat (lin3 a b c) (held3 1 1 1) (fun _ => B0) F accl y t /\ inside (asked sat (fun _ => B0) y t)) ->
  let M := needle a b c in let b0 := seen (fun _ => B0) y 0 in let E u := dot3 (v_rate (y u)) (mv (s_total_moment sat) (v_rate (y u))) / 2 - dot3 M (seen (fun _ => B0) y u) in
  (forall t, 0 <= t -> E t = E 0) /\ (Rabs (E 0) <> norm3 M * norm3 b0 -> exists eps, 0 < eps /\ forall T, exists t, T <= t /\ eps < norm3 (v_rate (y t))).
Proof.
  intros sat a b c B0 F accl y A B C DJ H M b0 E.
  assert (CP : compass sat M B0 F accl y).
  { intros t Ht. destruct (H t Ht) as ((ct & cur & M' & ED & EM & D) & I). destruct (C121_needle sat a b c (mkCS (y t) (seen (fun _ => B0) y t)) A B C I) as (_ & cur' & E1 & E2). rewrite E1 in ED. injection ED as _ <-. rewrite E2 in EM. injection EM as <-. exact D. }
  split; [intros t Ht; exact (compass_energy sat M B0 F accl y t DJ CP Ht)|]. intros NE. apply (compass_restless sat M B0 F accl y DJ CP). intros EQ. apply NE. change (energy_in sat M B0 (y 0)) with (E 0) in EQ. change (sandwich (v_att (y 0)) B0) with b0 in EQ.
  assert (P1 := norm3_pos M). assert (P2 := norm3_pos b0). apply Rsqr_inj; [apply Rabs_pos|apply Rmult_le_pos; assumption|]. rewrite <- Rsqr_abs. unfold Rsqr. rewrite EQ. rewrite <- (P_quat.norm3_sq M), <- (P_quat.norm3_sq b0). ring.
Qed.
Print Assumptions C121_compass.
(** a satellite that starts slowly stays below the half width: the needle's motion is then the closed loop's *)
Theorem C121_slow : forall sat a b c (B0 : v3) F accl y k, 0 < a -> 0 < b -> 0 < c -> det3 (s_total_moment sat) <> 0 -> 0 <= k ->
  (forall v, dot3 (mv (s_total_moment sat) v) (mv (s_total_moment sat) v) <= k * dot3 v (mv (s_total_moment sat) v)) ->
  let M := needle a b c in let b0 := seen (fun _ => B0) y 0 in
  (forall t, 0 <= t -> deriv_sv y t (derivative sat (y t) (F t) (cross3 M (seen (fun _ => B0) y t)) zero3 zero3 (accl t))) ->
  K_BBQ ^ 2 * k * (dot3 (v_rate (y 0)) (mv (s_total_moment sat) (v_rate (y 0))) + 4 * (norm3 M * norm3 b0)) < 0.09 * dot3 b0 b0 ->
  forall t, 0 <= t -> inside (asked sat (fun _ => B0) y t) /\ bang_at sat (lin3 a b c) (held3 1 1 1) (fun _ => B0) F accl y t.
Proof.
  intros sat a b c B0 F accl y k A B C DJ K0 HK M b0 CP SL t Ht. assert (CP' : compass sat M B0 F accl y) by exact CP. assert (Kp := K_pos).
  set (bt := seen (fun _ => B0) y t) in *. set (h := mv (s_total_moment sat) (v_rate (y t))) in *. assert (ST : dot3 bt bt = dot3 b0 b0) by exact (compass_strength sat M B0 F accl y t CP' Ht).
  assert (EN : dot3 (v_rate (y t)) h / 2 - dot3 M bt = dot3 (v_rate (y 0)) (mv (s_total_moment sat) (v_rate (y 0))) / 2 - dot3 M b0) by exact (compass_energy sat M B0 F accl y t DJ CP' Ht).
  assert (NN : norm3 bt = norm3 b0) by (unfold norm3; rewrite ST; reflexivity).
  assert (D1 : Rabs (dot3 M bt) <= norm3 M * norm3 b0) by (rewrite <- NN; apply dot_norm). assert (D2 : Rabs (dot3 M b0) <= norm3 M * norm3 b0) by apply dot_norm. apply Rabs_le_between in D1. apply Rabs_le_between in D2.
  assert (HH : dot3 h h <= k * (dot3 (v_rate (y 0)) (mv (s_total_moment sat) (v_rate (y 0))) + 4 * (norm3 M * norm3 b0))). { eapply Rle_trans; [apply HK|]. apply Rmult_le_compat_l; [exact K0|]. fold h. lra. }
  assert (PB : 0 < dot3 bt bt). { rewrite ST. assert (0 <= k * (dot3 (v_rate (y 0)) (mv (s_total_moment sat) (v_rate (y 0))) + 4 * (norm3 M * norm3 b0))) by (eapply Rle_trans; [apply dot3_nonneg|exact HH]). assert (0 <= K_BBQ ^ 2) by apply pow2_ge_0. assert (Y := Rmult_le_pos _ _ H0 H). rewrite <- Rmult_assoc in Y. lra. }
  assert (NB : bt <> zero3) by (intros E; rewrite E in PB; revert PB; vunfoldg; cbn [x3 y3 z3]; rnumg; lra).
  set (m := asked sat (fun _ => B0) y t). assert (MS : dot3 m m = K_BBQ * K_BBQ * across h bt / dot3 bt bt) by (unfold m, asked, detumble_torque; apply ask_size; [exact NB|exact Kp]).
  assert (ML : dot3 m m < 0.09). { assert (AL := across_le h bt NB). assert (K2 : 0 < K_BBQ * K_BBQ) by (apply Rmult_lt_0_compat; exact Kp). assert (X1 : K_BBQ * K_BBQ * across h bt <= K_BBQ * K_BBQ * dot3 h h) by (apply Rmult_le_compat_l; lra).
    assert (X2 : K_BBQ * K_BBQ * dot3 h h <= K_BBQ * K_BBQ * (k * (dot3 (v_rate (y 0)) (mv (s_total_moment sat) (v_rate (y 0))) + 4 * (norm3 M * norm3 b0)))) by (apply Rmult_le_compat_l; lra).
    rewrite MS. apply (Rmult_lt_reg_r (dot3 bt bt)); [exact PB|]. unfold Rdiv. rewrite Rmult_assoc, Rinv_l, Rmult_1_r by lra. rewrite ST. lra. }
  assert (I : inside m). { revert ML. destruct m as [p q r]. unfold inside, dot3. cbn [x3 y3 z3]. rnumg. intros ML. assert (Z1 := Rle_0_sqr p). assert (Z2 := Rle_0_sqr q). assert (Z3 := Rle_0_sqr r). unfold Rsqr in *. assert (L : forall x, x * x < 0.09 -> Rabs x < 0.3). { intros x X. rewrite <- (Rabs_pos_eq 0.3) by lra. apply Rsqr_lt_abs_0. unfold Rsqr. lra. } repeat split; apply L; lra. }
  split; [exact I|]. destruct (C121_needle sat a b c (mkCS (y t) (seen (fun _ => B0) y t)) A B C I) as (_ & cur & E1 & E2). eexists. exists cur, (needle a b c). split; [exact E1|]. split; [exact E2|]. exact (CP t Ht).
Qed.
Print Assumptions C121_slow.

(** ** at or beyond the half width: a negative component again turns the whole moment round *)
Definition sgn (x : R) : R := if Rlt_dec x 0 then -1 else 1.
Lemma nsign_R (x : R) : x <> 0 -> nsign x = sgn x.
Proof.
  intros N. unfold nsign, sgn. cbn [nltb nopp RNum]. rnumg. destruct (Rlt_dec x 0) as [L|L].
  - replace (Rltb x 0) with true by (symmetry; apply Rltb_true; lra). lra.
  - replace (Rltb x 0) with false by (symmetry; apply Rltb_false; lra). replace (Rltb 0 x) with true by (symmetry; apply Rltb_true; lra). lra.
Qed.
Lemma trig_beyond s (x : R) : a_sign s -> 0.3 <= Rabs x -> trig_step x (mkTr s 0.3) = mkTr (sgn x) 0.3.
Proof.
  intros A H. assert (N : x <> 0) by (intros ->; rewrite Rabs_R0 in H; lra). unfold trig_step. cbn [tr_mem tr_hw nmul nleb nopp RNum].
  assert (S : sgn x = 1 \/ sgn x = -1) by (unfold sgn; destruct (Rlt_dec x 0); lra).
  match goal with |- context [Rleb ?a ?b] => destruct (Rle_dec a b) as [L|L] end.
  - match goal with |- context [Rleb ?a ?b] => replace (Rleb a b) with true by (symmetry; apply Rleb_true; exact L) end. rewrite nsign_R by exact N. cbn [neqb RNum]. replace (Reqb (sgn x) n0) with false by (symmetry; apply Reqb_false; rnumg; lra). reflexivity.
  - match goal with |- context [Rleb ?a ?b] => replace (Rleb a b) with false by (symmetry; apply Rleb_false; lra) end. f_equal. unfold sgn. unfold Rabs in H. destruct (Rcase_abs x) as [X|X], (Rlt_dec x 0) as [Y|Y]; try lra; destruct A as [-> | ->]; lra.
Qed.
Lemma sgn_abs x : sgn x * x = Rabs x.
Proof. unfold sgn, Rabs. destruct (Rlt_dec x 0), (Rcase_abs x); lra. Qed.

Theorem C121_beyond : forall sat a b c B F accl y t s1 s2 s3, 0 < a -> 0 < b -> 0 < c -> a_sign s1 -> a_sign s2 -> a_sign s3 -> det3 (s_total_moment sat) <> 0 -> seen B y t <> zero3 ->
  bang_at sat (lin3 a b c) (held3 s1 s2 s3) B F accl y t -> let h := spin_of sat y in let m := asked sat B y t in beyond m ->
  exists d, derivable_pt_lim (fun u => dot3 (h u) (h u)) t d /\ let r := 3.72 * Rmin a (Rmin b c) * (Rabs (x3 m) + Rabs (y3 m) + Rabs (z3 m)) * dot3 (seen B y t) (seen B y t) / K_BBQ in
    0 < r /\ (has_negative m -> r <= d) /\ (~ has_negative m -> d < 0).
Proof.
  intros sat a b c B F accl y t s1 s2 s3 A1 A2 A3 S1 S2 S3 DJ NB (ct & cur & M & ED & EM & D) h m BY. set (Bb := seen B y t) in *. assert (KB := K_pos). assert (PB := dpos Bb NB).
  set (mu := 187 / 100 * c). set (cmd := mk3 (sgn (x3 m) * mu) (sgn (y3 m) * mu) (sgn (z3 m) * mu) : v3). destruct BY as (B1 & B2 & B3). assert (M0 : 0 < mu) by (unfold mu; lra).
  assert (EC : distribute (lin3 a b c) [x3 cmd; y3 cmd; z3 cmd] = Ok cur).
  { unfold detumble, mag_actuator_commands in ED. cbn [mc_sat mc_bang mc_torquers mc_trig cs_mag cs_v] in ED. change (mag_moment_cmd Bb (detumble_torque sat (v_rate (y t)))) with m in ED. unfold bang_cmd, held3, lin3 at 1 in ED. cbn [nthr nth_error rbind zip_with] in ED. rewrite !trig_beyond in ED by assumption. cbn [map tr_mem rbind] in ED. rewrite (lin_max _ _ u_z A3) in ED. fold mu in ED. unfold cmd. cbn [x3 y3 z3]. destruct (distribute _ _) as [cu|e]; cbn [rbind] in ED; [|discriminate]. injection ED as _ <-. reflexivity. }
  destruct D as (_ & _ & _ & D & _). cbn [derivative v_rate] in D.
  assert (H := d3_mv (s_total_moment sat) _ t _ D). cbv beta in H. unfold s_inv_tot in H. rewrite mv_inv3 in H by exact DJ. assert (DD := d_dot3 h h t _ _ H H). cbv beta in DD. clear H D.
  assert (SM : dot3 cmd m = mu * (Rabs (x3 m) + Rabs (y3 m) + Rabs (z3 m))). { unfold cmd. rewrite <- !sgn_abs. generalize (sgn (x3 m)) (sgn (y3 m)) (sgn (z3 m)). intros p q r. vunfoldg. cbn [x3 y3 z3]. rnumg. ring. }
  assert (EMM : m = mag_moment_cmd Bb (scale3 (- K_BBQ) (h t))) by reflexivity.
  assert (PW : dot3 (h t) (cross3 cmd Bb) = - (dot3 Bb Bb / K_BBQ) * dot3 cmd m). { rewrite EMM. assert (Q : dot3 Bb Bb <> 0) by lra. assert (Q2 : K_BBQ <> 0) by lra. revert Q Q2. clear. generalize cmd (h t) Bb K_BBQ. intros [c1 c2 c3] [h1 h2 h3] [e1 e2 e3] k. unfold mag_moment_cmd. vunfoldg. cbn [x3 y3 z3]. rnumg. intros Q Q2. field. split; [exact Q|exact Q2]. }
  assert (SP : forall s, M = scale3 s cmd -> derivable_pt_lim (fun u => dot3 (h u) (h u)) t (2 * - (s * mu) * (Rabs (x3 m) + Rabs (y3 m) + Rabs (z3 m)) * dot3 Bb Bb / K_BBQ)).
  { intros s ES. eapply d_eq; [exact DD|]. rewrite ES. change (mv (s_total_moment sat) (v_rate (y t))) with (h t). transitivity (2 * s * dot3 (h t) (cross3 cmd Bb)); [|rewrite PW, SM; field; lra]. generalize (h t) cmd Bb (v_rate (y t)). clear. vring. }
  set (n := Rmin a (Rmin b c)). assert (N0 : 0 < n) by (unfold n; repeat apply Rmin_pos; assumption). assert (U1 : n <= a) by apply Rmin_l. assert (U2 : n <= b) by (unfold n; eapply Rle_trans; [apply Rmin_r|apply Rmin_l]). assert (U3 : n <= c) by (unfold n; eapply Rle_trans; [apply Rmin_r|apply Rmin_r]).
  set (A := Rabs (x3 m) + Rabs (y3 m) + Rabs (z3 m)) in *. assert (AP : 0 < A) by (unfold A; lra). set (q := A * dot3 Bb Bb / K_BBQ). assert (QP : 0 < q) by (unfold q; apply Rdiv_lt_0_compat; [apply Rmult_lt_0_compat; assumption|exact KB]).
  assert (RE : 3.72 * n * A * dot3 Bb Bb / K_BBQ = 3.72 * n * q) by (unfold q; field; lra).
  assert (DE : forall s, 2 * - (s * mu) * A * dot3 Bb Bb / K_BBQ = 2 * - (s * mu) * q) by (intros s; unfold q; field; lra).
  assert (SG : has_negative cmd <-> has_negative m). { unfold has_negative, cmd. cbn [x3 y3 z3]. unfold sgn. destruct (Rlt_dec (x3 m) 0), (Rlt_dec (y3 m) 0), (Rlt_dec (z3 m) 0); split; lra. }
  assert (DECN : has_negative m \/ ~ has_negative m) by (unfold has_negative; destruct (Rlt_dec (x3 m) 0), (Rlt_dec (y3 m) 0), (Rlt_dec (z3 m) 0); tauto).
  destruct DECN as [N|N].
  - destruct (lin_negative a b c cmd A1 A2 A3 (proj2 SG N)) as (cur' & s & E & Hs & EM' & G1 & G2 & G3). rewrite E in EC. injection EC as <-. rewrite EM' in EM. injection EM as EM. eexists. split; [exact (SP s (eq_sym EM))|]. cbv zeta. rewrite RE, DE.
    split; [apply Rmult_lt_0_compat; lra|]. split; [|intros X; contradiction]. intros _. apply Rmult_le_compat_r; [lra|].
    assert (SB : forall x k, x < 0 -> n <= k -> (sgn x * mu < 0 -> 1.86 * k <= sgn x * mu * s) -> 1.86 * n <= - (s * mu)). { intros x k X L G. unfold sgn in G. destruct (Rlt_dec x 0) as [_|Y]; [|contradiction]. assert (Z := G ltac:(lra)). lra. }
    assert (W : 1.86 * n <= - (s * mu)); [|lra]. destruct N as [N|[N|N]]; [exact (SB _ a N U1 G1)|exact (SB _ b N U2 G2)|exact (SB _ c N U3 G3)].
  - destruct (lin_positive a b c cmd A1 A2 A3 (fun X => N (proj1 SG X))) as (cur' & s & E & Hs & EM'). rewrite E in EC. injection EC as <-. rewrite EM' in EM. injection EM as EM. eexists. split; [exact (SP s (eq_sym EM))|]. cbv zeta. rewrite RE, DE.
    split; [apply Rmult_lt_0_compat; lra|]. split; [intros X; contradiction|]. intros _. assert (0 < s * mu) by (apply Rmult_lt_0_compat; lra). assert (0 < s * mu * q) by (apply Rmult_lt_0_compat; assumption). lra.
Qed.
Print Assumptions C121_beyond.

(** ** a ball that precesses for ever *)
(** a ball in a field along z: turning about the field at rate -1 and about its own moment at rate kn sqrt 3 *)
Definition kn : R := x3 (needle 1 1 1) / 4.
Definition th3 (t : R) : R := kn * sqrt 3 * t / 2.
Definition about_z (t : R) : quat := mkq (cos (t / 2)) 0 0 (- sin (t / 2)).
Definition about_n (t : R) : quat := let s := sin (th3 t) / sqrt 3 in mkq (cos (th3 t)) s s s.
Definition both (t : R) : quat := product (about_z t) (about_n t).
Definition zed : v3 := mk3 0 0 1.
Definition prec (t : R) : SVec := mkSV zero3 zero3 (both t) (sub3 (mk3 kn kn kn) (sandwich (both t) zed)) [].
Lemma s3 : 0 < sqrt 3 /\ sqrt 3 * sqrt 3 = 3. Proof. split; [apply sqrt_lt_R0; lra|apply sqrt_sqrt; lra]. Qed.
Lemma d_about_z t : derivq about_z t (scaleq 0.5 (product (about_z t) (pure (mk3 0 0 (-1))))).
Proof.
  assert (H : derivable_pt_lim (fun u => u / 2) t (/ 2)) by (eapply d_eq; [exact (d_mult _ _ t _ _ (d_id t) (d_const (/ 2) t))|cbv beta; ring]).
  assert (DC := derivable_pt_lim_comp (fun u => u / 2) cos t _ _ H (derivable_pt_lim_cos (t / 2))). assert (DS := derivable_pt_lim_comp (fun u => u / 2) sin t _ _ H (derivable_pt_lim_sin (t / 2))).
  unfold about_z. repeat split; unfold product, pure, scaleq; vunfoldg; cbn [qw qx qy qz x3 y3 z3]; rnumg.
  - eapply d_eq; [exact DC|]. cbv beta. lra.
  - eapply d_eq; [apply d_const|]. ring.
  - eapply d_eq; [apply d_const|]. ring.
  - eapply d_eq; [exact (d_opp _ t _ DS)|]. cbv beta. lra.
Qed.
Lemma d_about_n t : derivq about_n t (scaleq 0.5 (product (about_n t) (pure (mk3 kn kn kn)))).
Proof.
  destruct s3 as [P Q]. assert (H : derivable_pt_lim th3 t (kn * sqrt 3 / 2)) by (unfold th3; eapply d_eq; [exact (d_mult _ _ t _ _ (d_lin _ t _ (kn * sqrt 3) (d_id t)) (d_const (/ 2) t))|cbv beta; field]).
  assert (DC := derivable_pt_lim_comp th3 cos t _ _ H (derivable_pt_lim_cos (th3 t))). assert (DS := derivable_pt_lim_comp th3 sin t _ _ H (derivable_pt_lim_sin (th3 t))).
  assert (DD := d_mult _ _ t _ _ DS (d_const (/ sqrt 3) t)). cbv beta in DD. unfold about_n. cbv zeta.
  assert (I3 : sqrt 3 = 3 / sqrt 3) by (apply Rmult_eq_reg_r with (sqrt 3); [rewrite Q; field; lra|lra]).
  repeat split; unfold product, pure, scaleq; vunfoldg; cbn [qw qx qy qz x3 y3 z3]; rnumg.
  - eapply d_eq; [exact DC|]. cbv beta. replace 0.5 with (/ 2) by lra. replace (kn * sqrt 3 / 2) with (kn * (3 / sqrt 3) / 2) by (rewrite <- I3; reflexivity). field. lra.
  - eapply d_eq; [exact DD|]. replace 0.5 with (/ 2) by lra. field. lra.
  - eapply d_eq; [exact DD|]. replace 0.5 with (/ 2) by lra. field. lra.
  - eapply d_eq; [exact DD|]. replace 0.5 with (/ 2) by lra. field. lra.
Qed.
Lemma unit_both t : unitq (both t).
Proof.
  destruct s3 as [P Q]. unfold both. assert (U1 : dotq (about_z t) (about_z t) = 1). { unfold about_z. assert (X := sin2_cos2 (t / 2)). unfold Rsqr in X. unfold dotq. cbn [qw qx qy qz]. rnumg. lra. }
  assert (U2 : dotq (about_n t) (about_n t) = 1). { unfold about_n. cbv zeta. assert (X := sin2_cos2 (th3 t)). unfold Rsqr in X. unfold dotq. cbn [qw qx qy qz]. rnumg. transitivity (cos (th3 t) * cos (th3 t) + 3 * (sin (th3 t) * sin (th3 t)) / (sqrt 3 * sqrt 3)); [field; lra|rewrite Q; lra]. }
  unfold unitq. transitivity (dotq (about_z t) (about_z t) * dotq (about_n t) (about_n t)); [|rewrite U1, U2; rnumg; ring]. generalize (about_z t) (about_n t). clear. intros [a b c d] [p q r s]. unfold product, dotq. vunfoldg. cbn [qw qx qy qz x3 y3 z3]. rnumg. ring.
Qed.
Lemma d_both t : derivq both t (scaleq 0.5 (product (both t) (pure (v_rate (prec t))))).
Proof.
  eapply dq_eq; [exact (dq_product _ _ t _ _ (d_about_z t) (d_about_n t))|]. cbv beta. unfold prec. cbn [v_rate]. assert (PT := P_loop3.pure_turn (both t) zed (unit_both t)).
  assert (CM : product (about_z t) (pure (mk3 0 0 (-1))) = scaleq (-1) (product (pure zed) (about_z t))). { unfold about_z, zed. generalize (cos (t / 2)) (sin (t / 2)). intros c s. unfold product, pure, scaleq. vunfoldg. cbn [qw qx qy qz x3 y3 z3]. rnumg. apply mkq_c; ring. }
  rewrite CM. assert (SP : product (both t) (pure (sub3 (mk3 kn kn kn) (sandwich (both t) zed))) = addq (scaleq (-1) (product (both t) (pure (sandwich (both t) zed)))) (product (both t) (pure (mk3 kn kn kn)))).
  { generalize (both t) (sandwich (both t) zed) kn. clear. intros [a b c d] [p q r] k. unfold product, pure, addq, scaleq. vunfoldg. cbn [qw qx qy qz x3 y3 z3]. rnumg. apply mkq_c; ring. }
  rewrite SP, <- PT. unfold both. generalize (about_z t) (about_n t) kn. clear. intros [a b c d] [p q r s] k. unfold zed, product, pure, addq, scaleq. vunfoldg. cbn [qw qx qy qz x3 y3 z3]. rnumg. apply mkq_c; ring.
Qed.
Lemma prec_law t : deriv_sv prec t (derivative ball (prec t) zero3 (cross3 (needle 1 1 1) (seen (fun _ => zed) prec t)) zero3 zero3 []).
Proof.
  assert (DZ : div3 zero3 (s_mass ball) = zero3) by (unfold ball; cbn [s_mass]; vunfoldg; cbn [x3 y3 z3]; rnumg; apply mk3_c; unfold Rdiv; ring).
  split; [|split; [|split; [|split]]]; cbn [derivative v_pos v_vel v_att v_rate v_whl].
  - exact (d3_const zero3 t).
  - rewrite DZ. exact (d3_const zero3 t).
  - exact (d_both t).
  - assert (DS := d3_sandwich both (fun _ => zed) t zero3 _ (d_both t) (d3_const zed t)). cbv beta in DS. unfold seen. cbn [prec v_att]. change (v_rate (prec t)) with (sub3 (mk3 kn kn kn) (sandwich (both t) zed)) in *.
    assert (Z : sandwich (both t) zero3 = zero3). { generalize (both t). clear. intros [a b c d]. unfold sandwich, product, conjugate. vunfoldg. cbn [qw qx qy qz x3 y3 z3]. rnumg. apply mk3_c; ring. }
    rewrite Z in DS. set (b := sandwich (both t) zed) in *. eapply d3_eq; [exact (P_ctrl3.d3_sub _ _ t _ _ (d3_const (mk3 kn kn kn) t) DS)|].
    rewrite <- (ball_inv (sub3 zero3 _)). f_equal. rewrite !ball_mv. assert (NE : needle 1 1 1 = scale3 4 (mk3 kn kn kn)). { unfold kn, needle. cbv zeta. cbn [x3]. vunfoldg. cbn [x3 y3 z3]. rnumg. apply mk3_c; field. }
    rewrite NE. clearbody b. generalize kn. clear. intros k. destruct b as [b1 b2 b3]. vunfoldg. cbn [x3 y3 z3]. rnumg. apply mk3_c; ring.
  - intros i. destruct i; exact (d_const 0 t).
Qed.

Lemma kn_range : 0.464 < kn < 0.4677.
Proof. unfold kn, needle. cbv zeta. cbn [x3]. unfold gain_lin. replace (Rmin 1 (Rmin 1 1)) with 1 by (rewrite (Rmin_left 1 1) by lra; rewrite Rmin_left; lra). lra. Qed.
Lemma K_small : K_BBQ < 0.005.
Proof. unfold K_BBQ. assert (P := PI_4). assert (1.72192143 * 4 * PI / 5560.8 <= 1.72192143 * 4 * 4 / 5560.8) by (unfold Rdiv; apply Rmult_le_compat_r; lra). lra. Qed.
Lemma seen0 : seen (fun _ => zed) prec 0 = zed.
Proof.
  unfold seen, prec, zed, both, about_z, about_n, th3. cbn [v_att]. replace (0 / 2) with 0 by field. replace (kn * sqrt 3 * 0 / 2) with 0 by field. rewrite cos_0, sin_0. unfold sandwich, product, conjugate. vunfoldg. cbn [qw qx qy qz x3 y3 z3]. rnumg. apply mk3_c; unfold Rdiv; ring.
Qed.
Lemma rate0 : v_rate (prec 0) = mk3 kn kn (kn - 1).
Proof. unfold prec. cbn [v_rate]. change (sandwich (both 0) zed) with (seen (fun _ => zed) prec 0). rewrite seen0. unfold zed. vunfoldg. cbn [x3 y3 z3]. rnumg. apply mk3_c; ring. Qed.
(** ** the ball starts slowly, its new bang-bang controller is in charge throughout, and it never comes to rest *)
Theorem C121_stuck_refuted : exists (B0 : v3) y, v_rate (y 0) <> zero3 /\ mag_new ball (lin3 1 1 1) true = mkMC ball (lin3 1 1 1) true (held3 1 1 1) /\
  (forall t, 0 <= t -> bang_at ball (lin3 1 1 1) (held3 1 1 1) (fun _ => B0) (fun _ => zero3) (fun _ => []) y t /\ inside (asked ball (fun _ => B0) y t)) /\
  ~ is_lim (fun t => norm3 (v_rate (y t))) p_infty 0.
Proof.
  assert (K1 := K_pos). assert (K2 := K_small). assert (KN := kn_range). exists zed, prec. split. { rewrite rate0. intros E. injection E as E _ _. rnumg. lra. } split; [apply P_ctrl5.new_ones|].
  assert (NS : dot3 (needle 1 1 1) (needle 1 1 1) = 48 * (kn * kn)). { unfold kn, needle. cbv zeta. cbn [x3]. vunfoldg. cbn [x3 y3 z3]. rnumg. field. }
  assert (NN : norm3 (needle 1 1 1) * norm3 (needle 1 1 1) = 48 * (kn * kn)) by (rewrite P_quat.norm3_sq; exact NS). assert (N0 := norm3_pos (needle 1 1 1)). set (N := norm3 (needle 1 1 1)) in *.
  assert (KK : 0.215 < kn * kn < 0.21875) by (split; [apply Rlt_le_trans with (0.464 * 0.464); [lra|]; apply Rmult_le_compat; lra|apply Rle_lt_trans with (0.4677 * 0.4677); [|lra]; apply Rmult_le_compat; lra]).
  assert (NB : 3.2 < N < 3.25). { split; apply Rsqr_incrst_0; unfold Rsqr; lra. }
  assert (Z1 : norm3 zed = 1) by (unfold zed, norm3, dot3; cbn [x3 y3 z3]; rnumg; replace (0 * 0 + 0 * 0 + 1 * 1) with 1 by ring; apply sqrt_1).
  assert (E0 : dot3 (v_rate (prec 0)) (mv (s_total_moment ball) (v_rate (prec 0))) = 12 * (kn * kn) - 8 * kn + 4). { rewrite rate0, ball_mv. vunfoldg. cbn [x3 y3 z3]. rnumg. ring. }
  assert (CL : forall t, 0 <= t -> inside (asked ball (fun _ => zed) prec t) /\ bang_at ball (lin3 1 1 1) (held3 1 1 1) (fun _ => zed) (fun _ => zero3) (fun _ => []) prec t).
  { apply (C121_slow ball 1 1 1 zed (fun _ => zero3) (fun _ => []) prec 4); try lra; [apply ball_det| |intros t _; apply prec_law|].
    - intros v. rewrite ball_mv. destruct v as [a b c]. vunfoldg. cbn [x3 y3 z3]. rnumg. lra.
    - rewrite seen0, E0. fold N. rewrite Z1. replace (dot3 zed zed) with 1 by (unfold zed, dot3; cbn [x3 y3 z3]; rnumg; ring). assert (KQ : K_BBQ ^ 2 < 0.000025). { replace 0.000025 with (0.005 ^ 2) by lra. cbn [pow]. rewrite !Rmult_1_r. apply Rmult_gt_0_lt_compat; lra. } assert (0 < K_BBQ ^ 2) by (cbn [pow]; rewrite Rmult_1_r; apply Rmult_lt_0_compat; lra).
      apply Rle_lt_trans with (K_BBQ ^ 2 * 4 * 100); [|lra]. apply Rmult_le_compat_l; lra. }
  assert (CL' : forall t, 0 <= t -> bang_at ball (lin3 1 1 1) (held3 1 1 1) (fun _ => zed) (fun _ => zero3) (fun _ => []) prec t /\ inside (asked ball (fun _ => zed) prec t)) by (intros t Ht; destruct (CL t Ht); split; assumption).
  split; [exact CL'|]. intros LM. destruct (C121_compass ball 1 1 1 zed (fun _ => zero3) (fun _ => []) prec ltac:(lra) ltac:(lra) ltac:(lra) ball_det CL') as (_ & RS).
  destruct RS as (eps & PE & RS).
  - rewrite seen0, E0. fold N. rewrite Z1. replace (dot3 (needle 1 1 1) zed) with (4 * kn) by (unfold kn, needle, zed; cbv zeta; cbn [x3]; vunfoldg; cbn [x3 y3 z3]; rnumg; field). unfold Rabs. destruct (Rcase_abs _); lra.
  - apply is_lim_spec in LM. destruct (LM (mkposreal eps PE)) as (T & HT). destruct (RS (T + 1)) as (t & Ht & L). specialize (HT t ltac:(lra)). change (Rabs (norm3 (v_rate (prec t)) - 0) < eps) in HT. rewrite Rminus_0_r, Rabs_pos_eq in HT by apply norm3_pos. lra.
Qed.
Print Assumptions C121_stuck_refuted.
(** the hypotheses are met: those of C121_compass and C121_slow by the ball above; those of C121_beyond by a ball asked for (-1,-1,-1) and
    by one asked for (1,1,1) *)
Lemma line3 (p d : v3) : deriv3 (fun t => add3 p (scale3 t d)) 0 d.
Proof. destruct p as [p1 p2 p3], d as [e1 e2 e3]. unfold add3, scale3. repeat split; cbn [x3 y3 z3]; rnumg; (eapply d_eq; [exact (d_plus _ _ 0 _ _ (d_const _ 0) (d_mult _ _ 0 _ _ (d_id 0) (d_const _ 0)))|cbv beta; ring]). Qed.
Lemma lineq (p d : quat) : derivq (fun t => addq p (scaleq t d)) 0 d.
Proof. destruct p as [p1 p2 p3 p4], d as [e1 e2 e3 e4]. unfold addq, scaleq. repeat split; cbn [qw qx qy qz]; rnumg; (eapply d_eq; [exact (d_plus _ _ 0 _ _ (d_const _ 0) (d_mult _ _ 0 _ _ (d_id 0) (d_const _ 0)))|cbv beta; ring]). Qed.
Example C121_ex : forall l, (l = 1 \/ l = -1) -> exists y, let B := fun _ : R => mk3 1 (-1) 0 : v3 in seen B y 0 <> zero3 /\
  bang_at ball (lin3 1 1 1) (held3 1 1 1) B (fun _ => zero3) (fun _ => []) y 0 /\ asked ball B y 0 = mk3 (- l) (- l) (- l) /\ beyond (asked ball B y 0).
Proof.
  intros l Hl. assert (K1 := K_pos). set (w := scale3 (l / (4 * K_BBQ)) (mk3 1 1 (-2)) : v3). set (B := fun _ : R => mk3 1 (-1) 0 : v3).
  set (v0 := mkSV zero3 zero3 (mkq 1 0 0 0) w []). set (n := mk3 (- l) (- l) (- l) : v3).
  assert (SW : sandwich (mkq 1 0 0 0) (mk3 1 (-1) 0) = mk3 1 (-1) 0 :> v3). { unfold sandwich, product, conjugate. vunfoldg. cbn [qw qx qy qz x3 y3 z3]. rnumg. apply mk3_c; ring. }
  assert (AS : mag_moment_cmd (mk3 1 (-1) 0) (detumble_torque ball w) = n). { unfold detumble_torque. rewrite ball_mv. unfold mag_moment_cmd, n, w. assert (Q : K_BBQ <> 0) by lra. revert Q. generalize K_BBQ. intros k Q. vunfoldg. cbn [x3 y3 z3]. rnumg. apply mk3_c; field; exact Q. }
  assert (BY : beyond n) by (unfold beyond, n; cbn [x3 y3 z3]; unfold Rabs; destruct (Rcase_abs (- l)); lra).
  set (mu := 187 / 100 * 1). set (cmd := mk3 (sgn (- l) * mu) (sgn (- l) * mu) (sgn (- l) * mu) : v3).
  assert (DC : exists cur M, distribute (lin3 1 1 1) [x3 cmd; y3 cmd; z3 cmd] = Ok cur /\ sys_actuate (lin3 1 1 1) cur = Ok M).
  { destruct (Rlt_dec (x3 cmd) 0) as [L|L].
    - destruct (lin_negative 1 1 1 cmd ltac:(lra) ltac:(lra) ltac:(lra) (or_introl L)) as (cur & s & E & _ & EM & _). exists cur, (scale3 s cmd). split; assumption.
    - destruct (lin_positive 1 1 1 cmd ltac:(lra) ltac:(lra) ltac:(lra)) as (cur & s & E & _ & EM). { unfold has_negative, cmd in *. cbn [x3 y3 z3] in *. tauto. } exists cur, (scale3 s cmd). split; assumption. }
  destruct DC as (cur & M & E & EM). set (d := derivative ball v0 zero3 (cross3 M (mk3 1 (-1) 0)) zero3 zero3 []).
  set (y := fun t => mkSV (add3 (v_pos v0) (scale3 t (v_pos d))) (add3 (v_vel v0) (scale3 t (v_vel d))) (addq (v_att v0) (scaleq t (v_att d))) (add3 (v_rate v0) (scale3 t (v_rate d))) []).
  assert (Y0 : y 0 = v0). { assert (A3 : forall p e : v3, add3 p (scale3 0 e) = p) by (clear; intros [p1 p2 p3] [e1 e2 e3]; vunfoldg; cbn [x3 y3 z3]; rnumg; apply mk3_c; ring). assert (A4 : forall p e : quat, addq p (scaleq 0 e) = p) by (clear; intros [p1 p2 p3 p4] [e1 e2 e3 e4]; unfold addq, scaleq; cbn [qw qx qy qz]; rnumg; apply mkq_c; ring). unfold y. rewrite !A3, A4. reflexivity. }
  exists y. cbv zeta. fold B. assert (SE : seen B y 0 = mk3 1 (-1) 0) by (unfold seen, B; rewrite Y0; exact SW). assert (AQ : asked ball B y 0 = n) by (unfold asked; rewrite SE, Y0; exact AS).
  split; [rewrite SE; intros X; injection X as X; rnumg; lra|]. split; [|rewrite AQ; split; [reflexivity|exact BY]].
  exists (mkMC ball (lin3 1 1 1) true (held3 (sgn (- l)) (sgn (- l)) (sgn (- l)))), cur, M. rewrite SE, Y0. split; [|split; [exact EM|]].
  - unfold detumble, mag_actuator_commands. cbn [mc_sat mc_bang mc_torquers mc_trig cs_mag cs_v]. change (v_rate v0) with w. rewrite AS. unfold bang_cmd, held3, lin3 at 1. cbn [nthr nth_error rbind zip_with]. destruct BY as (B1 & B2 & B3). rewrite !trig_beyond by (first [left; reflexivity|assumption]). cbn [map tr_mem rbind]. rewrite (lin_max _ 1 u_z ltac:(lra)). unfold n. cbn [x3 y3 z3]. change (187 / 100 * 1) with mu. unfold cmd in E. cbn [x3 y3 z3] in E. rewrite E. reflexivity.
  - split; [|split; [|split; [|split]]]; cbn [v_pos v_vel v_att v_rate v_whl]; [apply line3|apply line3|apply lineq|apply line3|]. intros i. destruct i; exact (d_const 0 0).
Qed.
