(** * C134: detumbling on an estimated rate *)
From Coq Require Import Reals ZArith List Bool Arith Lra Psatz Lia.
From Coquelicot Require Import Coquelicot.
From Verif Require Import Num Vec M_vector M_quaternion M_struct M_env M_dyn M_ctrl S_rot S_dyn P_quat P_wheel P_dyn P_dyn2 P_ctrl2 P_detum P_detum2 P_quat Props_detum.
Import ListNotations.
Local Open Scope R_scope.

(** as [detumbled], but detumble is told the rate z, not the body's *)
Definition detumbled_told (sat : Satellite) (B : R -> v3) (F : R -> v3) (accl : R -> list R) (z : R -> v3) (y : R -> SVec) : Prop :=
  unitq (v_att (y 0)) /\
  forall t, 0 <= t -> deriv_sv y t (derivative sat (y t) (F t) (cross3 (mag_moment_cmd (seen B y t) (detumble_torque sat (z t))) (seen B y t)) zero3 zero3 (accl t)).
(** the momentum it is told of is off by at most d *)
Definition told_within (sat : Satellite) (z : R -> v3) (y : R -> SVec) (d : R) : Prop := forall t, 0 <= t -> norm3 (mv (s_total_moment sat) (sub3 (z t) (v_rate (y t)))) <= d.

(** ** the damped momentum with an error *)
Lemma rej_mix (b h e : v3) : b <> zero3 -> - (2 * dot3 h (rej b e)) <= across h b + dot3 e e.
Proof.
  intros N. assert (P := dpos b N). assert (A := across_le e b N). assert (C := across_pos (add3 h e) b N).
  assert (E : across (add3 h e) b = across h b + 2 * dot3 h (rej b e) + across e b).
  { rewrite rej_dot_raw by lra. unfold across. assert (Q : dot3 b b <> 0) by lra. revert Q. clear. destruct h as [?a ?b ?c], e as [?a ?b ?c], b as [?a ?b ?c]. vunfoldg. cbn [x3 y3 z3]. rnumg. intros Q. field. exact Q. }
  lra.
Qed.
Lemma rej_add (b h e : v3) : b <> zero3 -> rej b (add3 h e) = add3 (rej b h) (rej b e).
Proof. intros N. assert (Q : dot3 b b <> 0) by (assert (P := dpos b N); lra). unfold rej. revert Q. destruct h as [?a ?b ?c], e as [?a ?b ?c], b as [?a ?b ?c]. vunfoldg. cbn [x3 y3 z3]. rnumg. intros Q. apply mk3_c; field; exact Q. Qed.
Section Damped.
Variables (H B E : R -> v3) (k e2 : R).
Hypothesis kp : 0 < k.
Hypothesis NB : forall t, B t <> zero3.
Hypothesis CB : cont3 B.
Hypothesis DH : forall t, 0 <= t -> deriv3 H t (scale3 (- k) (rej (B t) (add3 (H t) (E t)))).
Hypothesis EE : forall t, 0 <= t -> dot3 (E t) (E t) <= e2.
Let V (t : R) : R := dot3 (H t) (H t).
Let W (t : R) : R := V t - k * e2 * t.
Lemma e2_pos : 0 <= e2. Proof. assert (X := EE 0 (Rle_refl 0)). assert (Y := dot3_nonneg (E 0)). lra. Qed.
Lemma eV t : 0 <= t -> derivable_pt_lim V t (- 2 * k * (across (H t) (B t) + dot3 (H t) (rej (B t) (E t)))).
Proof.
  intros Ht. eapply d_eq; [apply d_dot3; apply DH, Ht|]. rewrite (dot_comm3 (scale3 _ _)), !dot_scale_r, rej_add by apply NB.
  replace (dot3 (H t) (add3 (rej (B t) (H t)) (rej (B t) (E t)))) with (dot3 (H t) (rej (B t) (H t)) + dot3 (H t) (rej (B t) (E t))) by (generalize (H t) (rej (B t) (H t)) (rej (B t) (E t)); clear; intros [?a ?b ?c] [?a ?b ?c] [?a ?b ?c]; vunfoldg; cbn [x3 y3 z3]; rnumg; ring).
  rewrite rej_dot by apply NB. ring.
Qed.
Definition W' (t : R) : R := - 2 * k * (across (H t) (B t) + dot3 (H t) (rej (B t) (E t))) - k * e2 * 1.
Lemma eW t : 0 <= t -> derivable_pt_lim W t (W' t) /\ W' t <= - k * across (H t) (B t).
Proof.
  intros Ht. split; [apply d_minus; [apply eV, Ht|apply d_lin, d_id]|]. unfold W'. assert (X := rej_mix (B t) (H t) (E t) (NB t)). assert (Y := EE t Ht). nra.
Qed.
Lemma W_dec t s : 0 <= t -> t <= s -> W s <= W t.
Proof. intros Ht L. apply (le_of_deriv W W' t s L (fun u Hu => proj1 (eW u ltac:(lra)))). intros u Hu. assert (X := across_pos (H u) (B u) (NB u)). assert (Y := proj2 (eW u ltac:(lra))). nra. Qed.
Lemma V_grow t s : 0 <= t -> t <= s -> V s <= V t + k * e2 * (s - t).
Proof. intros Ht L. assert (X := W_dec t s Ht L). unfold W in X. lra. Qed.
Lemma emoved t s : 0 <= t -> t <= s -> let m := k * (s - t) in dot3 (sub3 (H s) (H t)) (sub3 (H s) (H t)) <= 2 * m * (W t - W s) + 2 * (m * m) * e2.
Proof.
  intros Ht L m. destruct (Rle_lt_or_eq_dec t s L) as [L'| ->].
  2: { replace (dot3 (sub3 (H s) (H s)) (sub3 (H s) (H s))) with 0; [unfold m; right; ring|]. destruct (H s) as [?a ?b ?c]. vunfoldg. cbn [x3 y3 z3]. rnumg. ring. }
  set (d := sub3 (H s) (H t)). assert (mp : 0 < m) by (unfold m; nra). set (b := k * (dot3 d d / (2 * m)) + k * (m * e2)).
  assert (G : forall u, t <= u <= s -> derivable_pt_lim (fun u => dot3 d (H u) + m * W u - b * u) u (dot3 d (scale3 (- k) (rej (B u) (add3 (H u) (E u)))) + m * W' u - b * 1)).
  { intros u Hu. apply d_minus; [apply d_plus|].
    - eapply d_eq; [apply d_dot3; [apply (d3_const d)|apply DH; lra]|]. cbv beta. generalize (scale3 (- k) (rej (B u) (add3 (H u) (E u)))). intros w. destruct w as [?a ?b ?c], d as [?a ?b ?c], (H u) as [?a ?b ?c]. vunfoldg. cbn [x3 y3 z3]. rnumg. ring.
    - apply d_lin, eW. lra.
    - apply d_lin, d_id. }
  assert (X : dot3 d (H s) + m * W s - b * s <= dot3 d (H t) + m * W t - b * t).
  { apply (le_of_deriv _ _ t s L G). intros u Hu. cbv beta. assert (Hu0 : 0 <= u) by lra. rewrite dot_scale_r, rej_add by apply NB. assert (WU := proj2 (eW u Hu0)). rewrite <- (rej_sq (B u) (H u)) in WU by apply NB.
    assert (RE : dot3 (rej (B u) (E u)) (rej (B u) (E u)) <= e2) by (rewrite rej_sq by apply NB; eapply Rle_trans; [apply across_le, NB|apply EE, Hu0]). set (r := rej (B u) (H u)) in *. set (q := rej (B u) (E u)) in *.
    assert (Q1 : 0 <= dot3 (add3 d (scale3 (2 * m) r)) (add3 d (scale3 (2 * m) r))) by apply dot3_nonneg. assert (Q2 : 0 <= dot3 (add3 d (scale3 (2 * m) q)) (add3 d (scale3 (2 * m) q))) by apply dot3_nonneg.
    assert (E1 : dot3 (add3 d (scale3 (2 * m) r)) (add3 d (scale3 (2 * m) r)) = dot3 d d + 4 * m * dot3 d r + 4 * (m * m) * dot3 r r) by (destruct d as [?a ?b ?c], r as [?a ?b ?c]; vunfoldg; cbn [x3 y3 z3]; rnumg; ring).
    assert (E2 : dot3 (add3 d (scale3 (2 * m) q)) (add3 d (scale3 (2 * m) q)) = dot3 d d + 4 * m * dot3 d q + 4 * (m * m) * dot3 q q) by (destruct d as [?a ?b ?c], q as [?a ?b ?c]; vunfoldg; cbn [x3 y3 z3]; rnumg; ring).
    assert (E3 : dot3 d (add3 r q) = dot3 d r + dot3 d q) by (destruct d as [?a ?b ?c], r as [?a ?b ?c], q as [?a ?b ?c]; vunfoldg; cbn [x3 y3 z3]; rnumg; ring). rewrite E3.
    assert (S1 : - dot3 d r <= dot3 d d / (4 * m) + m * dot3 r r). { apply (Rmult_le_reg_l (4 * m)); [lra|]. replace (4 * m * (dot3 d d / (4 * m) + m * dot3 r r)) with (dot3 d d + 4 * (m * m) * dot3 r r) by (field; lra). lra. }
    assert (S2 : - dot3 d q <= dot3 d d / (4 * m) + m * dot3 q q). { apply (Rmult_le_reg_l (4 * m)); [lra|]. replace (4 * m * (dot3 d d / (4 * m) + m * dot3 q q)) with (dot3 d d + 4 * (m * m) * dot3 q q) by (field; lra). lra. }
    assert (S3 : m * dot3 q q <= m * e2) by (apply Rmult_le_compat_l; lra). assert (S4 : m * W' u <= m * (- k * dot3 r r)) by (apply Rmult_le_compat_l; lra).
    assert (S5 : k * (- dot3 d r - dot3 d q) <= k * (dot3 d d / (4 * m) + m * dot3 r r + (dot3 d d / (4 * m) + m * e2))) by (apply Rmult_le_compat_l; lra).
    assert (S6 : dot3 d d / (2 * m) = dot3 d d / (4 * m) + dot3 d d / (4 * m)) by (field; lra). unfold b. rewrite S6. lra. }
  assert (ED : dot3 d d = dot3 d (H s) - dot3 d (H t)) by (unfold d; destruct (H s) as [?a ?b ?c], (H t) as [?a ?b ?c]; vunfoldg; cbn [x3 y3 z3]; rnumg; ring).
  assert (F : b * s - b * t = dot3 d d / 2 + m * m * e2) by (unfold b, m; field; split; lra). lra.
Qed.
Lemma ewindow t T c : 0 <= t -> 0 < T -> c * V t <= RInt (fun s => across (H t) (B s)) t (t + T) -> V (t + T) <= (1 - c * k / (2 * (1 + 2 * (k * k * (T * T))))) * V t + 2 * (k * T) * e2.
Proof.
  intros Ht Tp PE. set (D := W t - W (t + T)). set (m := k * T). assert (mp : 0 < m) by (unfold m; nra). assert (E0 := e2_pos).
  assert (D0 : forall u, t <= u <= t + T -> W t - W u <= D) by (intros u Hu; unfold D; assert (X := W_dec u (t + T) ltac:(lra) ltac:(lra)); lra).
  assert (C := across_cont B (H t) CB NB). set (b := 4 * m * D + 4 * (m * m) * e2).
  assert (G : forall u, t <= u <= t + T -> derivable_pt_lim (fun u => RInt (fun s => across (H t) (B s)) t u + 2 / k * W u - b * u) u (across (H t) (B u) + 2 / k * W' u - b * 1)).
  { intros u Hu. apply d_minus; [apply d_plus|].
    - apply (d_prim (fun s => across (H t) (B s)) t u C).
    - apply d_lin, eW. lra.
    - apply d_lin, d_id. }
  assert (X : RInt (fun s => across (H t) (B s)) t (t + T) + 2 / k * W (t + T) - b * (t + T) <= RInt (fun s => across (H t) (B s)) t t + 2 / k * W t - b * t).
  { apply (le_of_deriv _ _ t (t + T) ltac:(lra) G). intros u Hu. cbv beta. assert (SP := across_split (H t) (H u) (B u) (NB u)). assert (M := emoved t u Ht ltac:(lra)). cbv zeta in M. assert (DU := D0 u Hu).
    assert (EQ : dot3 (sub3 (H t) (H u)) (sub3 (H t) (H u)) = dot3 (sub3 (H u) (H t)) (sub3 (H u) (H t))) by (destruct (H t) as [?a ?b ?c], (H u) as [?a ?b ?c]; vunfoldg; cbn [x3 y3 z3]; rnumg; ring). rewrite EQ in SP.
    assert (VD := W_dec t u Ht ltac:(lra)). assert (WU := proj2 (eW u ltac:(lra))). set (n := k * (u - t)) in *. assert (n0 : 0 <= n) by (unfold n; apply Rmult_le_pos; lra). assert (nm : n <= m) by (unfold n, m; apply Rmult_le_compat_l; lra).
    assert (K1 : 2 * n * (W t - W u) <= 2 * m * D) by (apply Rmult_le_compat; lra). assert (K2 : n * n * e2 <= m * m * e2) by (apply Rmult_le_compat_r; [lra|apply Rmult_le_compat; lra]).
    assert (K3 : 2 / k * W' u <= 2 / k * (- k * across (H u) (B u))) by (apply Rmult_le_compat_l; [left; apply Rdiv_lt_0_compat; lra|exact WU]). replace (2 / k * (- k * across (H u) (B u))) with (-2 * across (H u) (B u)) in K3 by (field; lra). unfold b. lra. }
  rewrite RInt_point in X. change (zero : R) with 0 in X. set (I := RInt (fun s => across (H t) (B s)) t (t + T)) in *.
  assert (Y : k * (c * V t) <= 2 * (1 + 2 * (m * m)) * D + 4 * (m * m * m) * e2).
  { apply (Rle_trans _ (k * I)); [apply Rmult_le_compat_l; lra|]. assert (Z : I <= 2 / k * D + b * T) by (unfold D; lra). apply (Rle_trans _ (k * (2 / k * D + b * T))); [apply Rmult_le_compat_l; lra|]. unfold b. right. replace (k * (2 / k * D + (4 * m * D + 4 * (m * m) * e2) * T)) with (2 * D + (4 * m * D + 4 * (m * m) * e2) * (k * T)) by (field; lra). fold m. ring. }
  replace (k * k * (T * T)) with (m * m) by (unfold m; ring). assert (P : 0 < 2 * (1 + 2 * (m * m))) by nra.
  assert (Z : c * k / (2 * (1 + 2 * (m * m))) * V t <= D + m * e2).
  { apply (Rmult_le_reg_r (2 * (1 + 2 * (m * m)))); [exact P|]. replace (c * k / (2 * (1 + 2 * (m * m))) * V t * (2 * (1 + 2 * (m * m)))) with (k * (c * V t)) by (field; lra). assert (0 <= m * e2) by (apply Rmult_le_pos; lra). lra. }
  assert (DV : D = V t - V (t + T) + m * e2) by (unfold D, W, m; ring). lra.
Qed.
End Damped.
Lemma told_unit sat B F accl z y : detumbled_told sat B F accl z y -> forall t, 0 <= t -> unitq (v_att (y t)).
Proof.
  intros (U & D) t Ht.
  assert (G : forall u, 0 <= u -> derivable_pt_lim (fun s => dotq (v_att (y s)) (v_att (y s))) u 0).
  { intros u Hu. destruct (D u Hu) as (_ & _ & DQ & _). unfold derivative in DQ. cbn [v_att] in DQ.
    eapply d_eq; [apply d_dotq; exact DQ|cbv beta]. generalize (v_att (y u)) (v_rate (y u)). replace 0.5 with (1 / 2) by lra. clear. intros [a b c d] [p q r]. unfold product. vunfold; rnum. field. }
  assert (A := le_of_deriv _ (fun _ => 0) 0 t Ht (fun u Hu => G u ltac:(lra)) ltac:(intros; lra)).
  assert (C := le_of_deriv _ (fun _ => -1 * 0) 0 t Ht (fun u Hu => d_lin _ _ _ (-1) (G u ltac:(lra))) ltac:(intros; lra)). cbv beta in *. unfold unitq in *. lra.
Qed.
Lemma told_law sat B F accl z y : det3 (s_total_moment sat) <> 0 -> (forall t, B t <> zero3) -> detumbled_told sat B F accl z y ->
  forall t, 0 <= t -> deriv3 (fun u => sandwich_opp (v_att (y u)) (spin_of sat y u)) t
    (scale3 (- K_BBQ) (rej (B t) (add3 (sandwich_opp (v_att (y t)) (spin_of sat y t)) (sandwich_opp (v_att (y t)) (mv (s_total_moment sat) (sub3 (z t) (v_rate (y t)))))))).
Proof.
  intros DJ NB M t Ht. assert (U := told_unit _ _ _ _ _ _ M t Ht). destruct M as (_ & D). destruct (D t Ht) as (_ & _ & DQ & DW & _). unfold derivative in DQ, DW. cbn [v_att v_rate] in DQ, DW.
  assert (NS : seen B y t <> zero3).
  { intros E. apply (NB t). rewrite <- (sandwich_opp_sandwich (v_att (y t)) (B t) U). change (sandwich (v_att (y t)) (B t)) with (seen B y t). rewrite E. apply opp_zero. }
  assert (DHh := d3_mv (s_total_moment sat) _ t _ DW). unfold s_inv_tot in DHh. rewrite mv_inv3 in DHh by exact DJ. cbv beta in DHh.
  eapply d3_eq; [apply (d3_sandwich_opp _ (spin_of sat y) t _ (v_rate (y t)) DQ DHh)|].
  rewrite mag_torque by exact NS. unfold detumble_torque. change (mv (s_total_moment sat) (v_rate (y t))) with (spin_of sat y t).
  destruct (sandwich_opp_rigid (v_att (y t)) U) as (_ & _ & R3 & _). rewrite <- R3.
  assert (EZ : add3 (spin_of sat y t) (mv (s_total_moment sat) (sub3 (z t) (v_rate (y t)))) = mv (s_total_moment sat) (z t)) by (unfold spin_of; rewrite P_obs.mv_sub3; generalize (mv (s_total_moment sat) (z t)) (mv (s_total_moment sat) (v_rate (y t))); clear; intros [?a ?b ?c] [?a ?b ?c]; vunfoldg; cbn [x3 y3 z3]; rnumg; apply mk3_c; ring).
  rewrite EZ. rewrite <- rej_turn, <- sopp_scale by exact U. change (sandwich (v_att (y t)) (B t)) with (seen B y t). f_equal. assert (P := dpos _ NS). unfold rej.
  generalize (mv (s_total_moment sat) (z t)) (spin_of sat y t) (v_rate (y t)) K_BBQ (seen B y t) P. clear. intros [g1 g2 g3] [h1 h2 h3] [w1 w2 w3] k [b1 b2 b3]. vunfoldg. cbn [x3 y3 z3]. rnumg. intros P. apply mk3_c; field; lra.
Qed.
(** ** C134 *)
(** in a field that turns as in C105: whatever errors within d the told rates have, the squared momentum falls by the factor rho per window until it is of the size d^2 *)
Theorem C134_turning : forall sat B F accl z y T c d, det3 (s_total_moment sat) <> 0 -> field B -> 0 < T -> 0 < c ->
  (forall t v, 0 <= t -> unit3 v -> c <= RInt (fun s => dot3 (cross3 v (B s)) (cross3 v (B s)) / dot3 (B s) (B s)) t (t + T)) ->
  detumbled_told sat B F accl z y -> told_within sat z y d ->
  let h := spin_of sat y in let rho := 1 - c * K_BBQ / (2 * (1 + 2 * (K_BBQ ^ 2 * T ^ 2))) in
  0 < rho < 1 /\
  (forall t, 0 <= t -> dot3 (h (t + T)) (h (t + T)) <= rho * dot3 (h t) (h t) + 2 * (K_BBQ * T) * d ^ 2) /\
  (forall n t, INR n * T <= t <= INR (S n) * T -> dot3 (h t) (h t) <= rho ^ n * dot3 (h 0) (h 0) + (4 * T * (1 + 2 * (K_BBQ ^ 2 * T ^ 2)) / c + K_BBQ * T) * d ^ 2).
Proof.
  intros sat B F accl z y T c d DJ (NB & CB) Tp cp TU M TW h rho. assert (KU := told_unit _ _ _ _ _ _ M). assert (IL := told_law _ _ _ _ _ _ DJ NB M).
  set (H := fun u => sandwich_opp (v_att (y u)) (spin_of sat y u)) in *. set (E := fun u => sandwich_opp (v_att (y u)) (mv (s_total_moment sat) (sub3 (z u) (v_rate (y u))))) in *. assert (kp := K_pos).
  assert (D0 : 0 <= d) by (assert (X := TW 0 (Rle_refl 0)); assert (Y := P_quat.norm3_pos (mv (s_total_moment sat) (sub3 (z 0) (v_rate (y 0))))); lra).
  assert (EH : forall t, 0 <= t -> dot3 (H t) (H t) = dot3 (h t) (h t)) by (intros t Ht; exact (turned_norm (v_att (y t)) (spin_of sat y t) (KU t Ht))).
  assert (EE : forall t, 0 <= t -> dot3 (E t) (E t) <= d ^ 2).
  { intros t Ht. unfold E. rewrite turned_norm by exact (KU t Ht). rewrite <- P_quat.norm3_sq. assert (X := TW t Ht). assert (Y := P_quat.norm3_pos (mv (s_total_moment sat) (sub3 (z t) (v_rate (y t))))). nra. }
  assert (IL' : forall t, 0 <= t -> deriv3 H t (scale3 (- K_BBQ) (rej (B t) (add3 (H t) (E t))))) by exact IL. clear IL.
  set (q := K_BBQ ^ 2 * T ^ 2) in *. assert (q0 : 0 <= q) by (unfold q; apply Rmult_le_pos; apply pow2_ge_0). assert (EQ : q = K_BBQ * K_BBQ * (T * T)) by (unfold q; ring).
  assert (cT := turning_le B T c CB NB Tp TU). assert (RR : 0 < rho < 1).
  { unfold rho. assert (Q : 0 < c * K_BBQ / (2 * (1 + 2 * q))) by (apply Rdiv_lt_0_compat; nra). split; [|lra]. assert (c * K_BBQ / (2 * (1 + 2 * q)) < 1); [|lra]. apply (Rmult_lt_reg_r (2 * (1 + 2 * q))); [lra|]. replace (c * K_BBQ / (2 * (1 + 2 * q)) * (2 * (1 + 2 * q))) with (c * K_BBQ) by (field; lra).
    assert (c * K_BBQ <= T * K_BBQ) by (apply Rmult_le_compat_r; lra). assert (0 <= (T * K_BBQ - 1) * (T * K_BBQ - 1)) by apply Rle_0_sqr. assert (q = (T * K_BBQ) * (T * K_BBQ)) by (rewrite EQ; ring). nra. }
  assert (WIN : forall t, 0 <= t -> dot3 (h (t + T)) (h (t + T)) <= rho * dot3 (h t) (h t) + 2 * (K_BBQ * T) * d ^ 2).
  { intros t Ht. assert (X := ewindow H B E K_BBQ (d ^ 2) kp NB CB IL' EE t T c Ht Tp (turning_any B T c t (H t) CB NB TU Ht)). cbv beta in X. rewrite !EH in X by lra. unfold rho. rewrite EQ. exact X. }
  split; [exact RR|]. split; [exact WIN|]. intros n t Ht. rewrite S_INR in Ht. assert (P := pos_INR n). assert (NT : 0 <= INR n * T) by (apply Rmult_le_pos; lra).
  assert (G := V_grow H B E K_BBQ (d ^ 2) kp NB IL' EE (INR n * T) t NT (proj1 Ht)). cbv beta in G. rewrite !EH in G by lra.
  assert (SUM : dot3 (h (INR n * T)) (h (INR n * T)) <= rho ^ n * dot3 (h 0) (h 0) + 4 * T * (1 + 2 * q) / c * d ^ 2).
  { assert (A0 : 0 <= 4 * T * (1 + 2 * q) / c * d ^ 2) by (apply Rmult_le_pos; [left; apply Rdiv_lt_0_compat; nra|apply pow2_ge_0]). clear -WIN RR A0 cp kp Tp q0. induction n as [|n IH]; [cbn [INR pow]; rewrite Rmult_0_l; lra|]. rewrite S_INR. replace ((INR n + 1) * T) with (INR n * T + T) by ring. eapply Rle_trans; [apply WIN; apply Rmult_le_pos; [apply pos_INR|lra]|].
    set (A := 4 * T * (1 + 2 * q) / c * d ^ 2) in *. assert (FX : 2 * (K_BBQ * T) * d ^ 2 = (1 - rho) * A) by (unfold rho, A; field; split; lra). rewrite FX. cbn [pow]. assert (rho * dot3 (h (INR n * T)) (h (INR n * T)) <= rho * (rho ^ n * dot3 (h 0) (h 0) + A)) by (apply Rmult_le_compat_l; lra). lra. }
  assert (K_BBQ * d ^ 2 * (t - INR n * T) <= K_BBQ * d ^ 2 * T) by (apply Rmult_le_compat_l; [apply Rmult_le_pos; [lra|apply pow2_ge_0]|lra]). lra.
Qed.
Print Assumptions C134_turning.
(** in a field that keeps to one line n of inertial space: the momentum along n never changes, and the squared momentum across n is carried to within d^2 *)
Lemma parallel_across (b n h : v3) : b <> zero3 -> n <> zero3 -> cross3 b n = zero3 -> across h b = across h n.
Proof.
  intros Nb Nn C. assert (P := dpos b Nb). assert (Q := dpos n Nn). rewrite !across_raw by lra. f_equal.
  assert (E1 : dot3 h b * dot3 h b * dot3 n n - dot3 h n * dot3 h n * dot3 b b = dot3 (cross3 b n) (cross3 h (add3 (scale3 (dot3 h n) b) (scale3 (dot3 h b) n)))).
  { clear. destruct b as [?a ?b ?c], n as [?a ?b ?c], h as [?a ?b ?c]. vunfoldg. cbn [x3 y3 z3]. rnumg. ring. }
  rewrite C in E1. replace (dot3 zero3 _) with 0 in E1 by (generalize (cross3 h (add3 (scale3 (dot3 h n) b) (scale3 (dot3 h b) n))); clear; intros [?a ?b ?c]; vunfoldg; cbn [x3 y3 z3]; rnumg; ring).
  apply (Rmult_eq_reg_r (dot3 b b * dot3 n n)); [|apply Rmult_integral_contrapositive; lra]. unfold Rdiv. transitivity (dot3 h b * dot3 h b * dot3 n n); [field; lra|]. transitivity (dot3 h n * dot3 h n * dot3 b b); [lra|field; lra].
Qed.
Theorem C134_fixed : forall sat B F accl z y n d, det3 (s_total_moment sat) <> 0 -> field B -> n <> zero3 -> (forall t, cross3 (B t) n = zero3) ->
  detumbled_told sat B F accl z y -> told_within sat z y d ->
  let H := fun t => sandwich_opp (v_att (y t)) (spin_of sat y t) in let off := fun t => dot3 (cross3 (H t) n) (cross3 (H t) n) / dot3 n n in
  forall t, 0 <= t -> dot3 (H t) n = dot3 (H 0) n /\ off t <= exp (- K_BBQ * t) * off 0 + d ^ 2.
Proof.
  intros sat B F accl z y n d DJ (NB & CB) Nn PN M TW H off. assert (KU := told_unit _ _ _ _ _ _ M). assert (IL := told_law _ _ _ _ _ _ DJ NB M).
  set (E := fun u => sandwich_opp (v_att (y u)) (mv (s_total_moment sat) (sub3 (z u) (v_rate (y u))))) in *. assert (kp := K_pos).
  assert (EE : forall t, 0 <= t -> dot3 (E t) (E t) <= d ^ 2).
  { intros t Ht. unfold E. rewrite turned_norm by exact (KU t Ht). rewrite <- P_quat.norm3_sq. assert (X := TW t Ht). assert (Y := P_quat.norm3_pos (mv (s_total_moment sat) (sub3 (z t) (v_rate (y t))))). nra. }
  assert (IL' : forall t, 0 <= t -> deriv3 H t (scale3 (- K_BBQ) (rej (B t) (add3 (H t) (E t))))) by exact IL. clear IL. assert (nn := dpos n Nn).
  assert (KN : forall t, 0 <= t -> dot3 (H t) n = dot3 (H 0) n).
  { intros t Ht. assert (G : forall u, 0 <= u -> derivable_pt_lim (fun u => dot3 (H u) n) u 0).
    { intros u Hu. eapply d_eq; [apply d_dot3; [apply IL', Hu|apply (d3_const n)]|]. cbv beta. set (x := add3 (H u) (E u)). assert (P := dpos _ (NB u)). assert (Z : dot3 (rej (B u) x) n = 0).
      { rewrite dot_comm3, rej_dot_raw by lra. assert (Q : dot3 n x * dot3 (B u) (B u) - dot3 x (B u) * dot3 n (B u) = dot3 x (cross3 (B u) (scale3 (-1) (cross3 (B u) n)))) by (generalize x (B u); clear; intros [?a ?b ?c] [?a ?b ?c]; destruct n as [?a ?b ?c]; vunfoldg; cbn [x3 y3 z3]; rnumg; ring).
        rewrite PN in Q. replace (dot3 x (cross3 (B u) (scale3 (-1) zero3))) with 0 in Q by (generalize x (B u); clear; intros [?a ?b ?c] [?a ?b ?c]; vunfoldg; cbn [x3 y3 z3]; rnumg; ring).
        replace (dot3 x (B u) * dot3 n (B u)) with (dot3 n x * dot3 (B u) (B u)) by lra. field. lra. }
      rewrite (dot_comm3 (scale3 _ _)), dot_scale_r, (dot_comm3 n), Z. replace (dot3 (H u) zero3) with 0 by (destruct (H u) as [?a ?b ?c]; vunfoldg; cbn [x3 y3 z3]; rnumg; ring). ring. }
    assert (A := le_of_deriv (fun u => dot3 (H u) n) (fun _ => 0) 0 t Ht (fun u Hu => G u ltac:(lra)) ltac:(intros; lra)).
    assert (C := le_of_deriv (fun u => -1 * dot3 (H u) n) (fun _ => -1 * 0) 0 t Ht (fun u Hu => d_lin _ _ _ (-1) (G u ltac:(lra))) ltac:(intros; lra)). cbv beta in *. lra. }
  assert (OF : forall t, 0 <= t -> off t = dot3 (H t) (H t) - dot3 (H 0) n * dot3 (H 0) n / dot3 n n) by (intros t Ht; rewrite <- (KN t Ht); exact (across_raw (H t) n ltac:(lra))).
  intros t Ht. split; [apply KN, Ht|]. set (p2 := dot3 (H 0) n * dot3 (H 0) n / dot3 n n) in *.
  set (V' := fun u => - 2 * K_BBQ * (across (H u) (B u) + dot3 (H u) (rej (B u) (E u)))).
  assert (DE : forall u, derivable_pt_lim (fun u => exp (K_BBQ * u)) u (K_BBQ * exp (K_BBQ * u))) by (intros u; eapply d_eq; [apply (derivable_pt_lim_comp (fun t => K_BBQ * t) exp); [apply d_lin, d_id|apply derivable_pt_lim_exp]|ring]).
  assert (X := le_of_deriv (fun u => exp (K_BBQ * u) * (dot3 (H u) (H u) - (p2 + d ^ 2))) (fun u => K_BBQ * exp (K_BBQ * u) * (dot3 (H u) (H u) - (p2 + d ^ 2)) + exp (K_BBQ * u) * (V' u - 0)) 0 t Ht).
  assert (Y : exp (K_BBQ * t) * (dot3 (H t) (H t) - (p2 + d ^ 2)) <= exp (K_BBQ * 0) * (dot3 (H 0) (H 0) - (p2 + d ^ 2))).
  { apply X.
    - intros u Hu. eapply d_eq; [apply d_mult; [apply DE|apply d_minus; [apply (eV H B E K_BBQ NB IL' u); lra|apply d_const]]|]. cbv beta. unfold V'. ring.
    - intros u Hu. cbv beta. assert (Z := rej_mix (B u) (H u) (E u) (NB u)). assert (ZE := EE u ltac:(lra)). assert (AC : across (H u) (B u) = dot3 (H u) (H u) - p2) by (rewrite (parallel_across (B u) n (H u) (NB u) Nn (PN u)); rewrite <- OF by lra; reflexivity).
      assert (VL : V' u <= - K_BBQ * (dot3 (H u) (H u) - p2) + K_BBQ * d ^ 2) by (unfold V'; rewrite <- AC; nra). assert (EP := exp_pos (K_BBQ * u)).
      replace (K_BBQ * exp (K_BBQ * u) * (dot3 (H u) (H u) - (p2 + d ^ 2)) + exp (K_BBQ * u) * (V' u - 0)) with (exp (K_BBQ * u) * (K_BBQ * (dot3 (H u) (H u) - (p2 + d ^ 2)) + V' u)) by ring.
      assert (exp (K_BBQ * u) * (K_BBQ * (dot3 (H u) (H u) - (p2 + d ^ 2)) + V' u) <= exp (K_BBQ * u) * 0) by (apply Rmult_le_compat_l; lra). lra. }
  rewrite Rmult_0_r, exp_0 in Y. rewrite !OF by lra. assert (EP := exp_pos (- K_BBQ * t)). assert (EI : exp (- K_BBQ * t) * exp (K_BBQ * t) = 1) by (rewrite <- exp_plus; replace (- K_BBQ * t + K_BBQ * t) with 0 by ring; apply exp_0).
  assert (Z : exp (- K_BBQ * t) * (exp (K_BBQ * t) * (dot3 (H t) (H t) - (p2 + d ^ 2))) <= exp (- K_BBQ * t) * (1 * (dot3 (H 0) (H 0) - (p2 + d ^ 2)))) by (apply Rmult_le_compat_l; lra).
  rewrite <- Rmult_assoc, EI in Z. assert (D2 := pow2_ge_0 d). assert (0 <= exp (- K_BBQ * t) * d ^ 2) by (apply Rmult_le_pos; lra). lra.
Qed.
Print Assumptions C134_fixed.
(** d is what remains: for every rate and every field there is a motion told at rest, i.e. off by its own momentum d, that spins on unchanged for ever (the docstring's "globally asymptotically stable" does not survive a bias) *)
Theorem C134_bias_refuted : forall B w0, (forall t, B t <> zero3) -> w0 <> 0 -> exists y d, 0 < d /\ v_rate (y 0) = mk3 w0 0 0 /\ detumbled_told ball B (fun _ => zero3) (fun _ => []) (fun _ => zero3) y /\ told_within ball (fun _ => zero3) y d /\
  forall t, dot3 (spin_of ball y t) (spin_of ball y t) = d ^ 2 /\ v_rate (y t) = mk3 w0 0 0.
Proof.
  intros B w0 NB N0. set (y := spinning (fun t => w0 * t) (fun _ => w0)). exists y, (Rabs (4 * w0)).
  assert (S4 : forall t, spin_of ball y t = mk3 (4 * w0) 0 0) by (intros t; unfold spin_of; rewrite ball_mv; unfold y, spinning; cbn [v_rate]; vunfoldg; cbn [x3 y3 z3]; rnumg; apply mk3_c; ring).
  split; [apply Rabs_pos_lt; lra|]. split; [reflexivity|]. split; [|split; [|intros t; split; [rewrite S4, pow2_abs; vunfoldg; cbn [x3 y3 z3]; rnumg; ring|reflexivity]]].
  - split; [unfold unitq, y, spinning; cbn [v_att]; vunfoldg; cbn [qw qx qy qz]; rnumg; assert (X := sin2_cos2 (w0 * 0 / 2)); unfold Rsqr in X; lra|]. intros t _.
    assert (S := spinning_deriv (fun t => w0 * t) (fun _ => w0) t 0 ltac:(eapply d_eq; [apply d_lin, d_id|cbv beta; ring]) (d_const w0 t)). fold y in S.
    assert (DT : detumble_torque ball zero3 = zero3) by (unfold detumble_torque; rewrite ball_mv; vunfoldg; cbn [x3 y3 z3]; rnumg; apply mk3_c; ring).
    assert (MM : forall b : v3, mag_moment_cmd b zero3 = zero3) by (intros [b1 b2 b3]; unfold mag_moment_cmd; vunfoldg; unfold div3; cbn [x3 y3 z3]; rnumg; apply mk3_c; unfold Rdiv; ring).
    assert (Q : mv (s_inv_tot ball) (sub3 (sub3 (cross3 (mag_moment_cmd (seen B y t) (detumble_torque ball zero3)) (seen B y t)) zero3) (cross3 (v_rate (y t)) (add3 zero3 (mv (s_total_moment ball) (v_rate (y t)))))) = mk3 0 0 0).
    { rewrite DT, MM. rewrite <- (ball_inv (mk3 0 0 0)). f_equal. rewrite !ball_mv. change (v_rate (y t)) with (mk3 w0 0 0). generalize (seen B y t). clear. intros [b1 b2 b3]. vunfoldg. cbn [x3 y3 z3]. rnumg. apply mk3_c; ring. }
    unfold derivative. rewrite Q. assert (DZ : div3 zero3 (s_mass ball) = zero3) by (unfold ball; cbn [s_mass]; vunfoldg; cbn [x3 y3 z3]; rnumg; apply mk3_c; unfold Rdiv; ring). rewrite DZ. exact S.
  - intros t _. rewrite ball_mv. change (v_rate (y t)) with (mk3 w0 0 0). unfold norm3. rnumg. rewrite <- sqrt_Rsqr_abs. apply sqrt_le_1_alt. right. vunfoldg. cbn [x3 y3 z3]. rnumg. unfold Rsqr. ring.
Qed.
Print Assumptions C134_bias_refuted.
(** the hypotheses are met: the turning field of C105's example and the motion that is told at rest *)
Example C134_ex : let B := fun t => mk3 0 (cos t) (sin t) in det3 (s_total_moment ball) <> 0 /\ field B /\
  (exists T c, 0 < T /\ 0 < c /\ forall t v, 0 <= t -> unit3 v -> c <= RInt (fun s => dot3 (cross3 v (B s)) (cross3 v (B s)) / dot3 (B s) (B s)) t (t + T)) /\
  exists y d, 0 < d /\ detumbled_told ball B (fun _ => zero3) (fun _ => []) (fun _ => zero3) y /\ told_within ball (fun _ => zero3) y d /\ v_rate (y 0) = mk3 1 0 0.
Proof.
  intros B. assert (CC : forall t, continuous cos t) by (intros t; apply continuity_pt_filterlim, continuity_cos). assert (CS : forall t, continuous sin t) by (intros t; apply continuity_pt_filterlim, continuity_sin).
  assert (NB : forall t, B t <> zero3) by (intros t; apply turned_field). assert (CB : cont3 B) by (intros t; repeat split; unfold B; cbn [x3 y3 z3]; [apply continuous_const|apply CC|apply CS]).
  split; [apply ball_det|]. split; [exact (conj NB CB)|]. split.
  - assert (X : cross3 (B 0) (B (PI / 2)) <> zero3) by (unfold B; rewrite cos_0, sin_0, cos_PI2, sin_PI2; intros E; assert (X : x3 (cross3 (mk3 0 1 0) (mk3 0 0 1)) = 0 :> R) by (rewrite E; reflexivity); revert X; vunfoldg; cbn [x3 y3 z3]; rnumg; lra).
    destruct (periodic_turning B (2 * PI) 0 (PI / 2) CB NB ltac:(assert (P := PI_RGT_0); lra) ltac:(intros t; unfold B; rewrite cos_plus, sin_plus, cos_2PI, sin_2PI; apply mk3_c; ring) X) as (T & c & Tp & cp & TU). exists T, c. split; [exact Tp|]. split; [exact cp|exact TU].
  - destruct (C134_bias_refuted B 1 NB ltac:(lra)) as (y & d & D0 & Y0 & D & W & _). exists y, d. auto.
Qed.
