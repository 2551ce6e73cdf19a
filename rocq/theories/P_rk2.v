(** * Lemmas: local error of a Runge-Kutta step of a quadratic field, with perturbed stages *)
From Coq Require Import Reals List Lra Psatz Lia.
From Verif Require Import Num Vec M_vector M_quaternion S_rot S_dyn P_rk.
Local Open Scope R_scope.

Section Local.
Context (B : X -> X -> X) (b : R) (Hb : 1 <= b).
Context (BS : forall u v, B u v = B v u) (BA : forall u v w, B (xadd u v) w = xadd (B u w) (B v w)).
Context (BC : forall r u w, B (xscale r u) w = xscale r (B u w)) (BL : forall u v, nx (B u v) <= b * (nx u * nx v)).
Lemma BA' u v w : B w (xadd u v) = xadd (B w u) (B w v).
Proof. rewrite BS, BA, (BS u), (BS v). reflexivity. Qed.
Lemma BC' r u w : B w (xscale r u) = xscale r (B w u).
Proof. rewrite BS, BC, (BS u). reflexivity. Qed.
Definition F (u : X) : X := B u u.

(** *** bounds *)
Lemma nb_add u v p q : nx u <= p -> nx v <= q -> nx (xadd u v) <= p + q.
Proof. intros. eapply Rle_trans; [apply nx_add|lra]. Qed.
Lemma nb_scale k u p : Rabs k <= 24 -> nx u <= p -> nx (xscale k u) <= 24 * p.
Proof. intros H1 H2. rewrite nx_scale. apply Rmult_le_compat; [apply Rabs_pos|apply nx_pos|assumption..]. Qed.
Lemma nb_B u v p q : nx u <= p -> nx v <= q -> nx (B u v) <= b * (p * q).
Proof. intros H1 H2. eapply Rle_trans; [apply BL|]. apply Rmult_le_compat_l; [lra|]. apply Rmult_le_compat; [apply nx_pos..|assumption|assumption]. Qed.
Lemma pow_le1 h n : 0 <= h <= 1 -> 0 <= h ^ n <= 1.
Proof. intros H. induction n as [|n IH]; simpl; [lra|]. nra. Qed.
Lemma F_diff u v : xsub (F u) (F v) = B (xadd u v) (xsub u v).
Proof. unfold F, xsub. repeat rewrite ?BA, ?BA', ?BC, ?BC'. rewrite (BS v u). xlin. Qed.
Lemma F_lip P u v : nx u <= P -> nx v <= P -> nx (xsub (F u) (F v)) <= 2 * b * P * nx (xsub u v).
Proof.
  intros Hu Hv. rewrite F_diff. eapply Rle_trans; [apply BL|]. assert (A := nx_add u v). assert (C := nx_pos (xsub u v)). assert (D := nx_pos (xadd u v)).
  replace (2 * b * P * nx (xsub u v)) with (b * (2 * P * nx (xsub u v))) by ring. apply Rmult_le_compat_l; [lra|]. apply Rmult_le_compat_r; lra.
Qed.
Lemma F_le P u : nx u <= P -> nx (F u) <= b * (P * P).
Proof. intros. apply nb_B; assumption. Qed.

(** *** the Taylor polynomial of degree four *)
Definition p5 (t0 t1 t2 t3 t4 : X) (s : R) : X := xadd (xadd (xadd (xadd t0 (xscale s t1)) (xscale (s ^ 2) t2)) (xscale (s ^ 3) t3)) (xscale (s ^ 4) t4).
Lemma p5_square t0 t1 t2 t3 t4 s : F (p5 t0 t1 t2 t3 t4 s) =
  xadd (xadd (xadd (xadd (B t0 t0) (xscale (2 * s) (B t0 t1))) (xscale (s ^ 2) (xadd (xscale 2 (B t0 t2)) (B t1 t1)))) (xscale (s ^ 3) (xadd (xscale 2 (B t0 t3)) (xscale 2 (B t1 t2)))))
    (xscale (s ^ 4) (xadd (xadd (xadd (xadd (xadd (xscale 2 (B t0 t4)) (xadd (xscale 2 (B t1 t3)) (B t2 t2))) (xscale (2 * s) (xadd (B t1 t4) (B t2 t3)))) (xscale (s ^ 2) (xadd (xscale 2 (B t2 t4)) (B t3 t3)))) (xscale (2 * s ^ 3) (B t3 t4))) (xscale (s ^ 4) (B t4 t4)))).
Proof.
  unfold F, p5. repeat rewrite ?BA, ?BA', ?BC, ?BC'. rewrite (BS t1 t0), (BS t2 t0), (BS t3 t0), (BS t4 t0), (BS t2 t1), (BS t3 t1), (BS t4 t1), (BS t3 t2), (BS t4 t2), (BS t4 t3). xlin.
Qed.
Definition d1 (x : X) : X := B x x.
Definition d2 (x : X) : X := B x (d1 x).
Definition d3 (x : X) : X := xadd (xscale (2 / 3) (B x (d2 x))) (xscale (1 / 3) (B (d1 x) (d1 x))).
Definition d4 (x : X) : X := xadd (xadd (xscale (1 / 3) (B x (B x (d2 x)))) (xscale (1 / 6) (B x (B (d1 x) (d1 x))))) (xscale (1 / 2) (B (d1 x) (d2 x))).
Definition tay (x : X) (s : R) : X := p5 x (d1 x) (d2 x) (d3 x) (d4 x) s.
Definition tay' (x : X) (s : R) : X := xadd (xadd (xadd (d1 x) (xscale (2 * s) (d2 x))) (xscale (3 * s ^ 2) (d3 x))) (xscale (4 * s ^ 3) (d4 x)).
Definition dfc (x : X) (s : R) : X :=
  xadd (xadd (xadd (xadd (xadd (xscale 2 (B x (d4 x))) (xadd (xscale 2 (B (d1 x) (d3 x))) (B (d2 x) (d2 x)))) (xscale (2 * s) (xadd (B (d1 x) (d4 x)) (B (d2 x) (d3 x))))) (xscale (s ^ 2) (xadd (xscale 2 (B (d2 x) (d4 x))) (B (d3 x) (d3 x))))) (xscale (2 * s ^ 3) (B (d3 x) (d4 x)))) (xscale (s ^ 4) (B (d4 x) (d4 x))).
Lemma tay_defect x s : F (tay x s) = xadd (tay' x s) (xscale (s ^ 4) (dfc x s)).
Proof.
  unfold tay. rewrite p5_square. fold (dfc x s). unfold tay'. replace (B x (d3 x)) with (xadd (xscale (2 / 3) (B x (B x (d2 x)))) (xscale (1 / 3) (B x (B (d1 x) (d1 x))))) by (unfold d3; repeat rewrite ?BA', ?BC'; reflexivity).
  fold (d1 x). fold (d2 x). generalize (dfc x s). intros D. unfold d3, d4. xlin.
Qed.
Lemma poly4_deriv (c0 c1 c2 c3 c4 s : R) (f : R -> R) : (forall u, f u = c0 + c1 * u + c2 * u ^ 2 + c3 * u ^ 3 + c4 * u ^ 4) ->
  derivable_pt_lim f s (c1 + 2 * c2 * s + 3 * c3 * s ^ 2 + 4 * c4 * s ^ 3).
Proof.
  intros E. assert (M : forall c n, derivable_pt_lim (fun u => c * u ^ n) s (c * (INR n * s ^ pred n))) by (intros c n; apply (derivable_pt_lim_scal (fun u => u ^ n)), derivable_pt_lim_pow).
  assert (D : derivable_pt_lim (fun u => c0 + c1 * u ^ 1 + c2 * u ^ 2 + c3 * u ^ 3 + c4 * u ^ 4) s (0 + c1 * (INR 1 * s ^ 0) + c2 * (INR 2 * s ^ 1) + c3 * (INR 3 * s ^ 2) + c4 * (INR 4 * s ^ 3))).
  { apply (derivable_pt_lim_plus (fun u => c0 + c1 * u ^ 1 + c2 * u ^ 2 + c3 * u ^ 3)); [|apply (M c4 4%nat)]. apply (derivable_pt_lim_plus (fun u => c0 + c1 * u ^ 1 + c2 * u ^ 2)); [|apply (M c3 3%nat)].
    apply (derivable_pt_lim_plus (fun u => c0 + c1 * u ^ 1)); [|apply (M c2 2%nat)]. apply (derivable_pt_lim_plus (fun _ => c0)); [apply derivable_pt_lim_const|apply (M c1 1%nat)]. }
  replace (c1 + 2 * c2 * s + 3 * c3 * s ^ 2 + 4 * c4 * s ^ 3) with (0 + c1 * (INR 1 * s ^ 0) + c2 * (INR 2 * s ^ 1) + c3 * (INR 3 * s ^ 2) + c4 * (INR 4 * s ^ 3)) by (simpl; ring).
  intros eps He. destruct (D eps He) as (d & Hd). exists d. intros h H1 H2. specialize (Hd h H1 H2). rewrite !E. rewrite !pow_1 in *. exact Hd.
Qed.
Lemma tay_deriv x s i : derivable_pt_lim (fun s => co i (tay x s)) s (co i (tay' x s)).
Proof.
  replace (co i (tay' x s)) with (co i (d1 x) + 2 * co i (d2 x) * s + 3 * co i (d3 x) * s ^ 2 + 4 * co i (d4 x) * s ^ 3) by (unfold tay'; rewrite !co_add, !co_scale; ring).
  apply poly4_deriv with (c0 := co i x). intros u. unfold tay, p5. rewrite !co_add, !co_scale. ring.
Qed.
Lemma tay_0 x : tay x 0 = x.
Proof. unfold tay, p5. xlin. Qed.
Ltac coef := first [rewrite Rabs_pos_eq; lra | rewrite Rabs_pos_eq; nra].
Ltac nbound := lazymatch goal with
  | |- nx (xadd _ _) <= _ => apply nb_add; nbound
  | |- nx (xscale _ _) <= _ => apply nb_scale; [coef|nbound]
  | |- nx (B _ _) <= _ => apply nb_B; nbound
  | |- _ => eassumption
  end.
Lemma tay_bounds M : 0 <= M -> exists C, 0 <= C /\ forall x s, nx x <= M -> 0 <= s <= 1 -> nx (tay x s) <= C /\ nx (dfc x s) <= C.
Proof.
  intros HM. assert (E : exists C1 C2, forall x s, nx x <= M -> 0 <= s <= 1 -> nx (tay x s) <= C1 /\ nx (dfc x s) <= C2).
  { eexists. eexists. intros x s Hx Hs. assert (S2 := pow_le1 s 2 Hs). assert (S3 := pow_le1 s 3 Hs). assert (S4 := pow_le1 s 4 Hs). set (s2 := s ^ 2) in *. set (s3 := s ^ 3) in *. set (s4 := s ^ 4) in *. unfold tay, p5, dfc. fold s2 s3 s4. clearbody s2 s3 s4. split; unfold d4, d3, d2, d1; nbound. }
  destruct E as (C1 & C2 & E). exists (Rmax 0 (Rmax C1 C2)). split; [apply Rmax_l|]. intros x s Hx Hs. destruct (E x s Hx Hs) as [E1 E2].
  assert (A := Rmax_r 0 (Rmax C1 C2)). assert (B1 := Rmax_l C1 C2). assert (B2 := Rmax_r C1 C2). lra.
Qed.

(** *** the Runge-Kutta step *)
Definition kk2 (x k1 : X) (h : R) : X := F (xadd x (xscale (h / 2) k1)).
Definition comb (x k1 k2 k3 k4 : X) (h : R) : X := xadd x (xscale (h / 6) (xadd (xadd (xadd k1 (xscale 2 k2)) (xscale 2 k3)) k4)).
Definition rk (x : X) (h : R) : X :=
  let k1 := F x in
  let k2 := F (xadd x (xscale (h / 2) k1)) in
  let k3 := F (xadd x (xscale (h / 2) k2)) in
  let k4 := F (xadd x (xscale h k3)) in comb x k1 k2 k3 k4 h.
Definition e1 (x : X) : X := B (d1 x) (d1 x).
Definition c3 (x : X) : X := xadd (B x (d2 x)) (xscale (1 / 4) (e1 x)).
Definition g3 (x : X) : X := xadd (xscale (1 / 4) (B x (e1 x))) (xscale (1 / 2) (B (d1 x) (d2 x))).
Definition r3 (x : X) (h : R) : X := xscale (1 / 4) (xadd (xadd (xadd (B (d2 x) (d2 x)) (xscale (1 / 2) (B (d1 x) (e1 x)))) (xscale (h / 2) (B (d2 x) (e1 x)))) (xscale (h ^ 2 / 16) (B (e1 x) (e1 x)))).
Definition n3 (x : X) (h : R) : X := xadd (xadd (c3 x) (xscale h (g3 x))) (xscale (h ^ 2) (r3 x h)).
Definition m3' (x : X) (h : R) : X := xadd (d2 x) (xscale h (n3 x h)).
Definition r4 (x : X) (h : R) : X :=
  xadd (xadd (xadd (xscale 2 (B x (g3 x))) (xscale (2 * h) (B x (r3 x h)))) (xscale 2 (B (d1 x) (n3 x h)))) (B (m3' x h) (m3' x h)).
Definition rem (x : X) (h : R) : X := xscale (1 / 6) (xadd (xscale 2 (r3 x h)) (r4 x h)).
Lemma stage2 x h : F (xadd x (xscale (h / 2) (d1 x))) = xadd (xadd (d1 x) (xscale h (d2 x))) (xscale (h ^ 2 / 4) (e1 x)).
Proof. unfold F. repeat rewrite ?BA, ?BA', ?BC, ?BC'. rewrite (BS (d1 x) x). fold (d1 x) (d2 x) (e1 x). xlin. Qed.
Lemma stage3 x h : F (xadd x (xscale (h / 2) (xadd (xadd (d1 x) (xscale h (d2 x))) (xscale (h ^ 2 / 4) (e1 x))))) = xadd (d1 x) (xscale h (m3' x h)).
Proof.
  unfold F. repeat rewrite ?BA, ?BA', ?BC, ?BC'. rewrite (BS (d1 x) x), (BS (d2 x) x), (BS (e1 x) x), (BS (d2 x) (d1 x)), (BS (e1 x) (d1 x)), (BS (e1 x) (d2 x)). fold (d1 x) (d2 x) (e1 x).
  unfold m3', n3, c3, g3, r3. xlin.
Qed.
Lemma stage4 x h : F (xadd x (xscale h (xadd (d1 x) (xscale h (m3' x h))))) =
  xadd (xadd (xadd (xadd (d1 x) (xscale (2 * h) (d2 x))) (xscale (h ^ 2) (xadd (xscale 2 (B x (d2 x))) (e1 x)))) (xscale (h ^ 3) (xadd (xscale 2 (B x (c3 x))) (xscale 2 (B (d1 x) (d2 x)))))) (xscale (h ^ 4) (r4 x h)).
Proof.
  unfold F. repeat rewrite ?BA, ?BA', ?BC, ?BC'. rewrite (BS (d1 x) x), (BS (m3' x h) x), (BS (m3' x h) (d1 x)). fold (d1 x) (d2 x) (e1 x). unfold r4. set (mm := B (m3' x h) (m3' x h)). clearbody mm.
  unfold m3'. repeat rewrite ?BA', ?BC'. replace (B x (n3 x h)) with (xadd (xadd (B x (c3 x)) (xscale h (B x (g3 x)))) (xscale (h ^ 2) (B x (r3 x h)))) by (unfold n3; repeat rewrite ?BA', ?BC'; reflexivity). xlin.
Qed.
Lemma rk_tay x h : rk x h = xadd (tay x h) (xscale (h ^ 5) (rem x h)).
Proof.
  unfold rk. cbv zeta. fold (d1 x). change (F x) with (d1 x). rewrite stage2, stage3, stage4. unfold comb, tay, p5, rem. set (q4 := r4 x h). clearbody q4.
  replace (B x (c3 x)) with (xadd (B x (B x (d2 x))) (xscale (1 / 4) (B x (e1 x)))) by (unfold c3; repeat rewrite ?BA', ?BC'; reflexivity).
  unfold d3, d4, m3', n3. fold (e1 x). set (q3 := r3 x h). clearbody q3. unfold c3, g3. xlin.
Qed.
Lemma rem_bound M : 0 <= M -> exists C, 0 <= C /\ forall x h, nx x <= M -> 0 <= h <= 1 -> nx (rem x h) <= C.
Proof.
  intros HM. assert (E : exists C, forall x h, nx x <= M -> 0 <= h <= 1 -> nx (rem x h) <= C).
  { eexists. intros x h Hx Hh. assert (S2 := pow_le1 h 2 Hh). unfold rem, r4, m3', n3, r3, g3, c3, e1, d2, d1. set (h2 := h ^ 2) in *. clearbody h2. nbound. }
  destruct E as (C & E). exists (Rmax 0 C). split; [apply Rmax_l|]. intros x h Hx Hh. eapply Rle_trans; [apply (E x h Hx Hh)|apply Rmax_r].
Qed.

(** *** a step whose stages are off by at most delta *)
Definition pstep (delta : R) (y : X) (h : R) (y' : X) : Prop := exists k1 k2 k3 k4,
  nx (xsub k1 (F y)) <= delta /\ nx (xsub k2 (F (xadd y (xscale (h / 2) k1)))) <= delta /\ nx (xsub k3 (F (xadd y (xscale (h / 2) k2)))) <= delta /\
  nx (xsub k4 (F (xadd y (xscale h k3)))) <= delta /\ y' = comb y k1 k2 k3 k4 h.
Lemma sub_of u v d : nx (xsub u v) <= d -> nx u <= nx v + d.
Proof. intros H. replace u with (xadd v (xsub u v)) by xlin. eapply Rle_trans; [apply nx_add|lra]. Qed.
Lemma stage_in P y k h c : nx y <= P - 1 -> nx k <= b * (P * P) + 1 -> 0 <= c <= h -> h * (b * (P * P) + 1) <= 1 -> nx (xadd y (xscale c k)) <= P.
Proof.
  intros Hy Hk Hc Hh. eapply Rle_trans; [apply nx_add|]. rewrite nx_scale, Rabs_pos_eq by lra. assert (Q := nx_pos k).
  assert (c * nx k <= h * (b * (P * P) + 1)) by (apply Rmult_le_compat; lra). lra.
Qed.
Lemma stage_near P u v k d delta : nx u <= P -> nx v <= P -> nx (xsub k (F u)) <= delta -> nx (xsub u v) <= d -> 0 <= P -> nx (xsub k (F v)) <= 2 * b * P * d + delta.
Proof.
  intros Hu Hv Hk Hd HP. eapply Rle_trans; [apply (nx_tri k (F u))|]. assert (A := F_lip P u v Hu Hv).
  assert (2 * b * P * nx (xsub u v) <= 2 * b * P * d) by (apply Rmult_le_compat_l; [nra|assumption]). lra.
Qed.
Lemma stage_gap y x k l c d e : nx (xsub y x) <= d -> nx (xsub k l) <= e -> 0 <= c <= 1 -> nx (xsub (xadd y (xscale c k)) (xadd x (xscale c l))) <= d + e.
Proof.
  intros H1 H2 Hc. replace (xsub (xadd y (xscale c k)) (xadd x (xscale c l))) with (xadd (xsub y x) (xscale c (xsub k l))) by xlin.
  eapply Rle_trans; [apply nx_add|]. rewrite nx_scale, Rabs_pos_eq by lra. assert (Q := nx_pos (xsub k l)). nra.
Qed.
Lemma pstep_stable P : 1 <= P -> exists L, 0 <= L /\ forall x y h delta y', nx x <= P - 1 -> nx y <= P - 1 -> 0 <= h -> h * (b * (P * P) + 1) <= 1 -> 0 <= delta <= 1 ->
  pstep delta y h y' -> nx (xsub y' (rk x h)) <= nx (xsub y x) + h * (L * (nx (xsub y x) + delta)).
Proof.
  intros HP. set (l := 2 * b * P + 1). assert (Hl : 1 <= l) by (unfold l; nra). exists (l + l * (1 + l) + l * (1 + l * (1 + l)) + l * (1 + l * (1 + l * (1 + l)))). split; [nra|].
  intros x y h delta y' Hx Hy Hh Hhb Hd (k1 & k2 & k3 & k4 & K1 & K2 & K3 & K4 & ->).
  assert (HB : 1 <= b * (P * P) + 1) by nra. assert (H1 : h <= 1) by nra. set (Z := nx (xsub y x) + delta). assert (HZ : 0 <= nx (xsub y x)) by apply nx_pos.
  assert (KB : forall u k, nx u <= P -> nx (xsub k (F u)) <= delta -> nx k <= b * (P * P) + 1). { intros u k Hu Hk. assert (A := sub_of _ _ _ Hk). assert (C := F_le P u Hu). lra. }
  assert (FB : forall u, nx u <= P -> nx (F u) <= b * (P * P) + 1) by (intros u Hu; assert (C := F_le P u Hu); lra).
  set (j1 := F x). set (j2 := F (xadd x (xscale (h / 2) j1))). set (j3 := F (xadd x (xscale (h / 2) j2))). set (j4 := F (xadd x (xscale h j3))).
  assert (J1 : nx j1 <= b * (P * P) + 1) by (apply FB; lra). assert (I1 := KB y k1 ltac:(lra) K1).
  assert (X2 := stage_in P x j1 h (h / 2) Hx J1 ltac:(lra) Hhb). assert (Y2 := stage_in P y k1 h (h / 2) Hy I1 ltac:(lra) Hhb).
  assert (J2 := FB _ X2). fold j2 in J2. assert (I2 := KB _ k2 Y2 K2).
  assert (X3 := stage_in P x j2 h (h / 2) Hx J2 ltac:(lra) Hhb). assert (Y3 := stage_in P y k2 h (h / 2) Hy I2 ltac:(lra) Hhb).
  assert (J3 := FB _ X3). fold j3 in J3. assert (I3 := KB _ k3 Y3 K3).
  assert (X4 := stage_in P x j3 h h Hx J3 ltac:(lra) Hhb). assert (Y4 := stage_in P y k3 h h Hy I3 ltac:(lra) Hhb).
  assert (T : forall u v k d, nx u <= P -> nx v <= P -> nx (xsub k (F u)) <= delta -> nx (xsub u v) <= nx (xsub y x) + d -> 0 <= d -> nx (xsub k (F v)) <= l * (Z + d)).
  { intros u v k d Hu Hv Hk Hg Hd0. eapply Rle_trans; [apply (stage_near P u v k _ delta Hu Hv Hk Hg ltac:(lra))|]. unfold l, Z. assert (0 <= 2 * b * P) by nra. nra. }
  assert (E1 : nx (xsub k1 j1) <= l * Z). { replace (l * Z) with (l * (Z + 0)) by ring. apply (T y x k1 0); [lra|lra|exact K1|lra|lra]. }
  assert (Z0 : 0 <= Z) by (unfold Z; lra). assert (LZ : 0 <= l * Z) by nra.
  assert (G2 := stage_gap y x k1 j1 (h / 2) _ _ (Rle_refl _) E1 ltac:(lra)). assert (E2 := T _ _ k2 _ Y2 X2 K2 G2 LZ). fold j2 in E2.
  assert (LZ2 : 0 <= l * (Z + l * Z)) by nra.
  assert (G3 := stage_gap y x k2 j2 (h / 2) _ _ (Rle_refl _) E2 ltac:(lra)). assert (E3 := T _ _ k3 _ Y3 X3 K3 G3 LZ2). fold j3 in E3.
  assert (LZ3 : 0 <= l * (Z + l * (Z + l * Z))) by nra.
  assert (G4 := stage_gap y x k3 j3 h _ _ (Rle_refl _) E3 ltac:(lra)). assert (E4 := T _ _ k4 _ Y4 X4 K4 G4 LZ3). fold j4 in E4.
  unfold rk. cbv zeta. fold j1. fold j2. fold j3. fold j4.
  replace (xsub (comb y k1 k2 k3 k4 h) (comb x j1 j2 j3 j4 h)) with (xadd (xsub y x) (xscale (h / 6) (xadd (xadd (xadd (xsub k1 j1) (xscale 2 (xsub k2 j2))) (xscale 2 (xsub k3 j3))) (xsub k4 j4)))) by (unfold comb; xlin).
  eapply Rle_trans; [apply nx_add|]. rewrite nx_scale, Rabs_pos_eq by lra. apply Rplus_le_compat_l.
  match goal with |- _ * nx ?v <= _ => assert (V : nx v <= l * Z + 2 * (l * (Z + l * Z)) + 2 * (l * (Z + l * (Z + l * Z))) + l * (Z + l * (Z + l * (Z + l * Z)))) end.
  { eapply Rle_trans; [apply nx_add|]. apply Rplus_le_compat; [|exact E4]. eapply Rle_trans; [apply nx_add|]. apply Rplus_le_compat; [|rewrite nx_scale, Rabs_pos_eq by lra; lra].
    eapply Rle_trans; [apply nx_add|]. apply Rplus_le_compat; [exact E1|rewrite nx_scale, Rabs_pos_eq by lra; lra]. }
  apply Rle_trans with (h / 6 * (l * Z + 2 * (l * (Z + l * Z)) + 2 * (l * (Z + l * (Z + l * Z))) + l * (Z + l * (Z + l * (Z + l * Z))))); [apply Rmult_le_compat_l; [lra|exact V]|].
  replace (h * ((l + l * (1 + l) + l * (1 + l * (1 + l)) + l * (1 + l * (1 + l * (1 + l)))) * Z)) with (h * (l * Z + l * (Z + l * Z) + l * (Z + l * (Z + l * Z)) + l * (Z + l * (Z + l * (Z + l * Z))))) by ring.
  replace (h / 6 * (l * Z + 2 * (l * (Z + l * Z)) + 2 * (l * (Z + l * (Z + l * Z))) + l * (Z + l * (Z + l * (Z + l * Z))))) with (h * ((l * Z + 2 * (l * (Z + l * Z)) + 2 * (l * (Z + l * (Z + l * Z))) + l * (Z + l * (Z + l * (Z + l * Z)))) / 6)) by field.
  apply Rmult_le_compat_l; [lra|]. assert (0 <= l * (Z + l * (Z + l * (Z + l * Z)))) by nra. lra.
Qed.

(** *** the true motion over one step, driven by a disturbance of at most delta *)
Definition derivX (f : R -> X) (t : R) (d : X) : Prop := forall i, derivable_pt_lim (fun s => co i (f s)) t (co i d).
Lemma nx_cont f a d : derivX f a d -> continuity_pt (fun s => nx (f s)) a.
Proof.
  intros H. assert (C : forall i, continuity_pt (fun s => Rabs (co i (f s))) a).
  { intros i. apply (continuity_pt_comp (fun s => co i (f s)) Rabs); [|apply Rcontinuity_abs]. apply derivable_continuous_pt. exists (co i d). apply H. }
  unfold nx, nq, n1.
  repeat apply continuity_pt_plus; [apply (C Q0)|apply (C Q1)|apply (C Q2)|apply (C Q3)|apply (C W1)|apply (C W2)|apply (C W3)|apply (C H1)|apply (C H2)|apply (C H3)|apply (C O0)].
Qed.
Lemma local_true M : 0 <= M -> exists C h0, 0 <= C /\ 0 < h0 <= 1 /\ forall (x e : R -> X) t h delta, 0 <= h <= h0 -> 0 <= delta ->
  (forall s, t <= s <= t + h -> nx (x s) <= M /\ nx (e s) <= delta /\ derivX x s (xadd (F (x s)) (e s))) ->
  nx (xsub (x (t + h)) (tay (x t) h)) <= C * (h * (h ^ 4 + delta)).
Proof.
  intros HM. destruct (tay_bounds M HM) as (C & C0 & HC). set (D := 22 * b * (M + C) + 1). assert (HD : 1 <= D) by (unfold D; nra).
  exists (22 * (C + 1)), (/ D). split; [lra|]. assert (ID : 0 < / D) by (apply Rinv_0_lt_compat; lra). assert (ID1 : / D <= 1) by (rewrite <- Rinv_1; apply Rinv_le_contravar; lra). split; [lra|].
  intros x e t h delta Hh Hd HX.
  set (d := fun s => xsub (x (t + s)) (tay (x t) s)).
  set (dv := fun s => xsub (xadd (F (x (t + s))) (e (t + s))) (tay' (x t) s)).
  assert (DX : forall s, 0 <= s <= h -> derivX d s (dv s) /\ nx (dv s) <= b * (nx (d s) * (M + C)) + delta + C * h ^ 4).
  { intros s Hs. destruct (HX (t + s) ltac:(lra)) as (N1 & He & De). split.
    - intros i. unfold d, dv. rewrite co_sub. assert (G : forall u, co i (xsub (x (t + u)) (tay (x t) u)) = co i (x (t + u)) - co i (tay (x t) u)) by (intros u; apply co_sub).
      intros eps Heps. assert (DD : derivable_pt_lim (fun u => co i (x (t + u)) - co i (tay (x t) u)) s (co i (xadd (F (x (t + s))) (e (t + s))) - co i (tay' (x t) s))).
      { apply (derivable_pt_lim_minus (fun u => co i (x (t + u))) (fun u => co i (tay (x t) u))); [|apply tay_deriv]. specialize (De i). intros ee Hee. destruct (De ee Hee) as (dd & Hdd). exists dd. intros h' A1 A2. specialize (Hdd h' A1 A2). replace (t + (s + h')) with (t + s + h') by ring. exact Hdd. }
      destruct (DD eps Heps) as (dd & Hdd). exists dd. intros h' A1 A2. rewrite !G. apply Hdd; assumption.
    - destruct (HX t ltac:(lra)) as (N0 & _). destruct (HC (x t) s N0 ltac:(lra)) as (T1 & T2).
      replace (dv s) with (xadd (xadd (xsub (F (x (t + s))) (F (tay (x t) s))) (e (t + s))) (xscale (s ^ 4) (dfc (x t) s))) by (unfold dv; rewrite tay_defect; xlin).
      eapply Rle_trans; [apply nx_add|]. apply Rplus_le_compat.
      + eapply Rle_trans; [apply nx_add|]. apply Rplus_le_compat; [|exact He]. rewrite F_diff. eapply Rle_trans; [apply BL|]. apply Rmult_le_compat_l; [lra|]. fold (d s). rewrite Rmult_comm. apply Rmult_le_compat_l; [apply nx_pos|]. eapply Rle_trans; [apply nx_add|lra].
      + assert (S4 := pow_le1 s 4 ltac:(lra)). rewrite nx_scale, Rabs_pos_eq by lra. assert (s ^ 4 <= h ^ 4) by (apply pow_incr; lra). assert (Q := nx_pos (dfc (x t) s)). rewrite (Rmult_comm C). apply Rmult_le_compat; lra. }
  destruct (continuity_ab_maj (fun s => nx (d s)) 0 h ltac:(lra)) as (mx & Hmx & Bmx). { intros c Hc. exact (nx_cont d c _ (proj1 (DX c Hc))). }
  set (m := nx (d mx)) in *. assert (Hm : 0 <= m) by apply nx_pos.
  assert (D0 : d 0 = xscale 0 (x t)). { unfold d. rewrite tay_0, Rplus_0_r. xlin. }
  assert (HB : 0 <= b * (m * (M + C)) + delta + C * h ^ 4). { assert (P4 := pow_le1 h 4 ltac:(lra)). assert (0 <= m * (M + C)) by (apply Rmult_le_pos; lra). assert (0 <= b * (m * (M + C))) by nra. assert (0 <= C * h ^ 4) by nra. lra. }
  assert (GR : forall s, 0 <= s <= h -> nx (d s) <= 11 * (h * (b * (m * (M + C)) + delta + C * h ^ 4))).
  { intros s Hs. apply nx_le. intros i. destruct (Req_dec s 0) as [-> |Hs0].
    - rewrite D0, co_scale, Rmult_0_l, Rabs_R0. apply Rmult_le_pos; lra.
    - assert (HV : forall c, 0 <= c <= s -> derivable_pt_lim (fun u => co i (d u)) c (co i (dv c)) /\ Rabs (co i (dv c)) <= b * (m * (M + C)) + delta + C * h ^ 4).
      { intros c Hc. destruct (DX c ltac:(lra)) as (Dv & Bv). split; [apply Dv|]. eapply Rle_trans; [apply nx_co|]. eapply Rle_trans; [exact Bv|].
        assert (Q := Hmx c ltac:(lra)). apply Rplus_le_compat_r, Rplus_le_compat_r, Rmult_le_compat_l; [lra|]. apply Rmult_le_compat_r; lra. }
      destruct (MVT_cor2 (fun u => co i (d u)) (fun c => co i (dv c)) 0 s ltac:(lra) (fun c Hc => proj1 (HV c Hc))) as (c & E & Hc). rewrite D0, co_scale, Rmult_0_l, Rminus_0_r, Rminus_0_r in E. rewrite E, Rabs_mult, (Rabs_pos_eq s) by lra.
      rewrite Rmult_comm. apply Rmult_le_compat; [lra|apply Rabs_pos|lra|apply HV; lra]. }
  assert (GM := GR mx Bmx). fold m in GM. assert (GH := Hmx h ltac:(lra)). replace (xsub (x (t + h)) (tay (x t) h)) with (d h) by reflexivity. eapply Rle_trans; [exact GH|].
  assert (HHD : h * D <= 1). { apply Rle_trans with (/ D * D); [apply Rmult_le_compat_r; lra|right; apply Rinv_l; lra]. }
  assert (E : 11 * (h * (b * (m * (M + C)))) <= m / 2). { replace (11 * (h * (b * (m * (M + C))))) with (m / 2 * (h * (22 * b * (M + C)))) by field. rewrite <- (Rmult_1_r (m / 2)) at 2. apply Rmult_le_compat_l; [lra|]. apply Rle_trans with (h * D); [apply Rmult_le_compat_l; [lra|unfold D; lra]|exact HHD]. }
  assert (P4 := pow_le1 h 4 ltac:(lra)). assert (S1 : m <= 22 * (h * (delta + C * h ^ 4))) by lra. eapply Rle_trans; [exact S1|].
  replace (22 * (C + 1) * (h * (h ^ 4 + delta))) with (22 * (h * ((C + 1) * (h ^ 4 + delta)))) by ring. apply Rmult_le_compat_l; [lra|]. apply Rmult_le_compat_l; [lra|]. nra.
Qed.

(** *** normalisation of the attitude *)
Definition nrm (y : X) : X := mkX (normalizeq (xq y)) (xw y) (xh y) (xo y).
Context (BO : forall u, dotq (xq u) (xq (B u u)) = 0).
Lemma dotq_le (a c : quat) : Rabs (dotq a c) <= nq a * nq c.
Proof.
  destruct a as [a0 a1 a2 a3], c as [b0 b1 b2 b3]. unfold nq. vunfoldg. rnumg.
  assert (T : Rabs (a0 * b0 + a1 * b1 + a2 * b2 + a3 * b3) <= Rabs a0 * Rabs b0 + Rabs a1 * Rabs b1 + Rabs a2 * Rabs b2 + Rabs a3 * Rabs b3).
  { rewrite <- !Rabs_mult. assert (A := Rabs_triang (a0 * b0 + a1 * b1 + a2 * b2) (a3 * b3)). assert (A' := Rabs_triang (a0 * b0 + a1 * b1) (a2 * b2)). assert (A'' := Rabs_triang (a0 * b0) (a1 * b1)). lra. }
  assert (P0 := Rabs_pos a0). assert (P1 := Rabs_pos a1). assert (P2 := Rabs_pos a2). assert (P3 := Rabs_pos a3). assert (R0 := Rabs_pos b0). assert (R1' := Rabs_pos b1). assert (R2' := Rabs_pos b2). assert (R3 := Rabs_pos b3).
  eapply Rle_trans; [exact T|]. clear T. assert (PP : forall u v, 0 <= u -> 0 <= v -> 0 <= u * v) by (intros; apply Rmult_le_pos; assumption).
  assert (PP1 := PP _ _ P0 R1'). assert (PP2 := PP _ _ P0 R2'). assert (PP3 := PP _ _ P0 R3). assert (PP4 := PP _ _ P1 R0). assert (PP5 := PP _ _ P1 R2'). assert (PP6 := PP _ _ P1 R3).
  assert (PP7 := PP _ _ P2 R0). assert (PP8 := PP _ _ P2 R1'). assert (PP9 := PP _ _ P2 R3). assert (PPa := PP _ _ P3 R0). assert (PPb := PP _ _ P3 R1'). assert (PPc := PP _ _ P3 R2'). lra.
Qed.
Lemma nq_nx y : nq (xq y) <= nx y.
Proof. unfold nx. assert (A := n1_pos (xw y)). assert (C := n1_pos (xh y)). assert (D := Rabs_pos (xo y)). lra. Qed.
Lemma dotq_split (a c : quat) : dotq a c = qw a * qw c + qx a * qx c + qy a * qy c + qz a * qz c.
Proof. destruct a, c. vunfoldg. rnumg. ring. Qed.
Lemma tay_unit M : 0 <= M -> exists C, 0 <= C /\ forall y h, nx y <= M -> dotq (xq y) (xq y) = 1 -> 0 <= h <= 1 -> Rabs (dotq (xq (tay y h)) (xq (tay y h)) - 1) <= C * h ^ 5.
Proof.
  intros HM. destruct (tay_bounds M HM) as (C & C0 & HC). exists (2 * (C * C)). split; [nra|]. intros y h Hy U Hh.
  set (G := fun s => dotq (xq (tay y s)) (xq (tay y s))).
  assert (DG : forall s, derivable_pt_lim G s (2 * dotq (xq (tay y s)) (xq (tay' y s)))).
  { intros s. assert (D := fun i => tay_deriv y s i). assert (M2 : forall i, derivable_pt_lim (fun s => co i (tay y s) * co i (tay y s)) s (co i (tay' y s) * co i (tay y s) + co i (tay y s) * co i (tay' y s))) by (intros i; apply (derivable_pt_lim_mult (fun s => co i (tay y s)) (fun s => co i (tay y s))); apply D).
    assert (S4 := derivable_pt_lim_plus _ _ _ _ _ (derivable_pt_lim_plus _ _ _ _ _ (derivable_pt_lim_plus _ _ _ _ _ (M2 Q0) (M2 Q1)) (M2 Q2)) (M2 Q3)).
    replace (2 * dotq (xq (tay y s)) (xq (tay' y s))) with (co Q0 (tay' y s) * co Q0 (tay y s) + co Q0 (tay y s) * co Q0 (tay' y s) + (co Q1 (tay' y s) * co Q1 (tay y s) + co Q1 (tay y s) * co Q1 (tay' y s)) + (co Q2 (tay' y s) * co Q2 (tay y s) + co Q2 (tay y s) * co Q2 (tay' y s)) + (co Q3 (tay' y s) * co Q3 (tay y s) + co Q3 (tay y s) * co Q3 (tay' y s))) by (rewrite dotq_split; cbn [co]; ring).
    intros eps He. destruct (S4 eps He) as (dd & Hdd). exists dd. intros h' A1 A2. specialize (Hdd h' A1 A2). unfold G. rewrite !dotq_split. exact Hdd. }
  assert (BG : forall s, 0 <= s <= h -> Rabs (2 * dotq (xq (tay y s)) (xq (tay' y s))) <= 2 * (C * C) * h ^ 4).
  { intros s Hs. destruct (HC y s Hy ltac:(lra)) as (T1 & T2). assert (E : tay' y s = xadd (F (tay y s)) (xscale (- s ^ 4) (dfc y s))) by (rewrite tay_defect; xlin).
    assert (V : dotq (xq (tay y s)) (xq (tay' y s)) = - s ^ 4 * dotq (xq (tay y s)) (xq (dfc y s))).
    { rewrite E. cbn [xadd xq xscale]. transitivity (dotq (xq (tay y s)) (xq (F (tay y s))) + - s ^ 4 * dotq (xq (tay y s)) (xq (dfc y s))).
      - generalize (xq (tay y s)) (xq (F (tay y s))) (xq (dfc y s)). intros u v w. rewrite !dotq_split. unfold addq, scaleq. cbn [qw qx qy qz]. rnumg. ring.
      - unfold F at 1. rewrite BO. ring. }
    rewrite V. replace (2 * (- s ^ 4 * dotq (xq (tay y s)) (xq (dfc y s)))) with (- (2 * (s ^ 4 * dotq (xq (tay y s)) (xq (dfc y s))))) by ring. rewrite Rabs_Ropp, Rabs_mult, (Rabs_pos_eq 2), Rabs_mult by lra.
    assert (S4 := pow_le1 s 4 ltac:(lra)). rewrite (Rabs_pos_eq (s ^ 4)) by lra. assert (s ^ 4 <= h ^ 4) by (apply pow_incr; lra). assert (DL := dotq_le (xq (tay y s)) (xq (dfc y s))).
    assert (nq (xq (tay y s)) * nq (xq (dfc y s)) <= C * C). { apply Rmult_le_compat; [apply nq_pos|apply nq_pos|eapply Rle_trans; [apply nq_nx|exact T1]|eapply Rle_trans; [apply nq_nx|exact T2]]. }
    rewrite Rmult_assoc. apply Rmult_le_compat_l; [lra|]. rewrite Rmult_comm. apply Rmult_le_compat; [apply Rabs_pos|lra|lra|lra]. }
  assert (G0 : G 0 = 1) by (unfold G; rewrite tay_0; exact U). destruct (Req_dec h 0) as [-> |Hh0].
  - change (Rabs (G 0 - 1) <= 2 * (C * C) * 0 ^ 5). rewrite G0. replace (1 - 1) with 0 by ring. rewrite Rabs_R0. simpl. nra.
  - destruct (MVT_cor2 G (fun s => 2 * dotq (xq (tay y s)) (xq (tay' y s))) 0 h ltac:(lra) (fun c _ => DG c)) as (c & E & Hc). rewrite G0 in E. change (Rabs (G h - 1) <= 2 * (C * C) * h ^ 5). rewrite E, Rminus_0_r, Rabs_mult, (Rabs_pos_eq h) by lra.
    replace (2 * (C * C) * h ^ 5) with (2 * (C * C) * h ^ 4 * h) by ring. apply Rmult_le_compat_r; [lra|]. apply BG. lra.
Qed.
Lemma nrm_near (v : quat) ep K : Rabs (dotq v v - 1) <= ep -> ep <= 1 / 2 -> nq v <= K -> dotq (normalizeq v) (normalizeq v) = 1 /\ nq (addq (normalizeq v) (scaleq (-1) v)) <= 2 * (ep * K).
Proof.
  intros H1' H2 HK. assert (H1 : - ep <= dotq v v - 1 <= ep) by (revert H1'; unfold Rabs; destruct (Rcase_abs _); lra). set (n := normq v). assert (N2 : n * n = dotq v v) by (unfold n, normq; rnumg; apply sqrt_sqrt; lra). assert (N0 : 0 <= n) by (unfold n, normq; rnumg; apply sqrt_pos).
  assert (N1 : 1 / 2 <= n) by nra. assert (EN : normalizeq v = scaleq (/ n) v).
  { unfold normalizeq. fold n. rnumg. destruct (Reqb_spec n 0) as [E|_]; [lra|]. destruct v as [a0 a1 a2 a3]. vunfoldg; rnumg. apply mkq_c; unfold Rdiv; ring. }
  rewrite EN. split.
  - transitivity (/ n * / n * dotq v v); [generalize (/ n); intros k; destruct v as [a0 a1 a2 a3]; vunfoldg; rnumg; ring|]. rewrite <- N2. field. lra.
  - replace (addq (scaleq (/ n) v) (scaleq (-1) v)) with (scaleq (/ n - 1) v) by (generalize (/ n); intros k; destruct v as [a0 a1 a2 a3]; vunfoldg; rnumg; apply mkq_c; ring).
    rewrite nq_scale. replace (2 * (ep * K)) with (2 * ep * K) by ring. apply Rmult_le_compat; [apply Rabs_pos|apply nq_pos| |exact HK].
    assert (E : / n - 1 = (1 - n * n) * / (n * (n + 1))) by (field; lra). rewrite E, Rabs_mult. assert (I : 0 < / (n * (n + 1)) <= 2). { split; [apply Rinv_0_lt_compat; nra|]. replace 2 with (/ (/ 2)) by (field; lra). apply Rinv_le_contravar; nra. }
    rewrite (Rabs_pos_eq (/ _)) by lra. replace (2 * ep) with (ep * 2) by ring. apply Rmult_le_compat; [apply Rabs_pos|lra| |lra]. rewrite N2. apply Rabs_le. lra.
Qed.
Lemma step_error M : 0 <= M -> exists C L h0, 0 <= C /\ 0 <= L /\ 0 < h0 <= 1 /\ forall (x e : R -> X) t h delta y z, 0 <= h <= h0 -> 0 <= delta <= 1 ->
  (forall s, t <= s <= t + h -> nx (x s) <= M /\ nx (e s) <= delta /\ derivX x s (xadd (F (x s)) (e s))) ->
  nx y <= M + 1 -> dotq (xq y) (xq y) = 1 -> pstep delta y h z ->
  dotq (xq (nrm z)) (xq (nrm z)) = 1 /\ nx (xsub (nrm z) (x (t + h))) <= (1 + L * h) * nx (xsub y (x t)) + C * (h * (h ^ 4 + delta)).
Proof.
  intros HM. destruct (pstep_stable (M + 2) ltac:(lra)) as (L & L0 & HL). destruct (local_true M HM) as (Ct & ht & Ct0 & Ht & HT).
  destruct (rem_bound (M + 1) ltac:(lra)) as (Cr & Cr0 & HR). destruct (tay_unit (M + 1) ltac:(lra)) as (Cu & Cu0 & HU). destruct (tay_bounds (M + 1) ltac:(lra)) as (Cb & Cb0 & HB).
  set (q1 := L + Cr). set (K := Cb + 2 * q1). set (Ce := Cu + q1 * (Cb + K)). assert (Q1 : 0 <= q1) by (unfold q1; lra). assert (K0 : 0 <= K) by (unfold K; lra). assert (Ce0 : 0 <= Ce) by (unfold Ce; assert (0 <= q1 * (Cb + K)) by (apply Rmult_le_pos; lra); lra).
  set (D := 4 * Ce + (b * ((M + 2) * (M + 2)) + 1)). assert (HD : 1 <= D) by (unfold D; assert (0 <= (M + 2) * (M + 2)) by nra; nra).
  exists (2 * (Ce * K) + L + Cr + Ct), L, (Rmin ht (/ D)). assert (ID : 0 < / D) by (apply Rinv_0_lt_compat; lra). assert (ID1 : / D <= 1) by (rewrite <- Rinv_1; apply Rinv_le_contravar; lra).
  split; [assert (0 <= Ce * K) by (apply Rmult_le_pos; lra); lra|]. split; [exact L0|]. split; [split; [apply Rmin_glb_lt; lra|eapply Rle_trans; [apply Rmin_r|exact ID1]]|].
  intros x e t h delta y z Hh Hd HX Hy U HP. assert (HT' : h <= ht) by (eapply Rle_trans; [apply Hh|apply Rmin_l]). assert (HD' : h <= / D) by (eapply Rle_trans; [apply Hh|apply Rmin_r]).
  assert (HHD : h * D <= 1). { apply Rle_trans with (/ D * D); [apply Rmult_le_compat_r; lra|right; apply Rinv_l; lra]. }
  assert (HSQ : 0 <= b * ((M + 2) * (M + 2)) + 1) by (assert (0 <= (M + 2) * (M + 2)) by nra; nra).
  assert (HHb : h * (b * ((M + 2) * (M + 2)) + 1) <= 1). { apply Rle_trans with (h * D); [apply Rmult_le_compat_l; [lra|unfold D; lra]|exact HHD]. }
  assert (HHe : h * (4 * Ce) <= 1). { apply Rle_trans with (h * D); [apply Rmult_le_compat_l; [lra|unfold D; lra]|exact HHD]. }
  assert (P4 := pow_le1 h 4 ltac:(lra)). set (Z := h ^ 4 + delta). assert (HZ : 0 <= Z <= 2) by (unfold Z; lra). assert (HhZ : 0 <= h * Z) by (apply Rmult_le_pos; lra).
  destruct (HX t ltac:(lra)) as (N0 & _).
  assert (ZY : nx (xsub z (tay y h)) <= q1 * (h * Z)).
  { eapply Rle_trans; [apply (nx_tri z (rk y h))|]. assert (A := HL y y h delta z ltac:(lra) ltac:(lra) ltac:(lra) HHb Hd HP). assert (ZZ : nx (xsub y y) = 0) by (replace (xsub y y) with (xscale 0 y) by xlin; rewrite nx_scale, Rabs_R0; ring). rewrite ZZ in A.
    assert (E : xsub (rk y h) (tay y h) = xscale (h ^ 5) (rem y h)) by (rewrite rk_tay; xlin). rewrite E, nx_scale. assert (P5 := pow_le1 h 5 ltac:(lra)). rewrite (Rabs_pos_eq (h ^ 5)) by lra. assert (R1 := HR y h Hy ltac:(lra)).
    assert (h ^ 5 * nx (rem y h) <= h ^ 5 * Cr) by (apply Rmult_le_compat_l; lra). replace (h ^ 5) with (h * h ^ 4) in * by ring. unfold q1, Z. assert (0 <= h * h ^ 4 * L) by (assert (0 <= h * h ^ 4) by (apply Rmult_le_pos; lra); nra). assert (0 <= h * delta * Cr) by (assert (0 <= h * delta) by (apply Rmult_le_pos; lra); nra). lra. }
  assert (HZ2 : h * Z <= 2) by nra. destruct (HB y h Hy ltac:(lra)) as (TB & _).
  assert (ZK : nx z <= K). { assert (A := sub_of _ _ _ ZY). unfold K. assert (q1 * (h * Z) <= q1 * 2) by (apply Rmult_le_compat_l; lra). lra. }
  assert (ZU : Rabs (dotq (xq z) (xq z) - 1) <= Ce * (h * Z)).
  { assert (A := HU y h Hy U ltac:(lra)). assert (E : dotq (xq z) (xq z) - 1 = (dotq (xq (tay y h)) (xq (tay y h)) - 1) + dotq (xq (xsub z (tay y h))) (addq (xq (tay y h)) (xq z))).
    { unfold xsub. cbn [xadd xscale xq]. generalize (xq z) (xq (tay y h)). intros u v. rewrite !dotq_split. unfold addq, scaleq. cbn [qw qx qy qz]. rnumg. ring. }
    rewrite E. eapply Rle_trans; [apply Rabs_triang|]. assert (DL := dotq_le (xq (xsub z (tay y h))) (addq (xq (tay y h)) (xq z))). assert (NA := nq_add (xq (tay y h)) (xq z)). assert (A1 := nq_nx (tay y h)). assert (A2 := nq_nx z). assert (A3 := nq_nx (xsub z (tay y h))).
    assert (nq (xq (xsub z (tay y h))) * nq (addq (xq (tay y h)) (xq z)) <= q1 * (h * Z) * (Cb + K)) by (apply Rmult_le_compat; [apply nq_pos|apply nq_pos|lra|lra]).
    assert (h ^ 5 <= h * Z). { replace (h ^ 5) with (h * h ^ 4) by ring. apply Rmult_le_compat_l; unfold Z; lra. } assert (Cu * h ^ 5 <= Cu * (h * Z)) by (apply Rmult_le_compat_l; lra). unfold Ce. lra. }
  destruct (nrm_near (xq z) (Ce * (h * Z)) K ZU) as (U' & NN); [|eapply Rle_trans; [apply nq_nx|exact ZK]|].
  { assert (Ce * (h * Z) <= Ce * (h * 2)) by (apply Rmult_le_compat_l; [lra|apply Rmult_le_compat_l; lra]). lra. }
  split; [exact U'|]. eapply Rle_trans; [apply (nx_tri (nrm z) z)|]. assert (NZ : nx (xsub (nrm z) z) <= 2 * (Ce * (h * Z) * K)).
  { replace (nx (xsub (nrm z) z)) with (nq (addq (normalizeq (xq z)) (scaleq (-1) (xq z)))); [exact NN|]. unfold nx, xsub, nrm. cbn [xadd xscale xq xw xh xo].
    assert (Z3 : forall v : v3, n1 (add3 v (scale3 (-1) v)) = 0) by (intros [v1 v2 v3]; unfold n1; vunfoldg; rnumg; replace (v1 + -1 * v1) with 0 by ring; replace (v2 + -1 * v2) with 0 by ring; replace (v3 + -1 * v3) with 0 by ring; rewrite Rabs_R0; ring).
    rewrite !Z3. replace (xo z + -1 * xo z) with 0 by ring. rewrite Rabs_R0. ring. }
  assert (A := HL (x t) y h delta z ltac:(lra) ltac:(lra) ltac:(lra) HHb Hd HP).
  assert (B1 := nx_tri z (rk (x t) h) (x (t + h))). assert (B2 := nx_tri (rk (x t) h) (tay (x t) h) (x (t + h))).
  assert (T1 := HT x e t h delta ltac:(lra) ltac:(lra) HX). fold Z in T1.
  assert (T2 : nx (xsub (tay (x t) h) (x (t + h))) = nx (xsub (x (t + h)) (tay (x t) h))). { replace (xsub (tay (x t) h) (x (t + h))) with (xscale (-1) (xsub (x (t + h)) (tay (x t) h))) by xlin. rewrite nx_scale, Rabs_left by lra. ring. }
  assert (T3 : nx (xsub (rk (x t) h) (tay (x t) h)) <= Cr * (h * Z)).
  { assert (E : xsub (rk (x t) h) (tay (x t) h) = xscale (h ^ 5) (rem (x t) h)) by (rewrite rk_tay; xlin). rewrite E, nx_scale. assert (P5 := pow_le1 h 5 ltac:(lra)). rewrite (Rabs_pos_eq (h ^ 5)) by lra. assert (R1 := HR (x t) h ltac:(lra) ltac:(lra)). assert (R2 := nx_pos (rem (x t) h)).
    assert (h ^ 5 <= h * Z). { replace (h ^ 5) with (h * h ^ 4) by ring. apply Rmult_le_compat_l; unfold Z; lra. } rewrite (Rmult_comm Cr). apply Rmult_le_compat; lra. }
  assert (h * (L * delta) <= L * (h * Z)). { replace (L * (h * Z)) with (h * (L * Z)) by ring. apply Rmult_le_compat_l; [lra|]. apply Rmult_le_compat_l; [lra|unfold Z; lra]. }
  lra.
Qed.
(** *** many steps *)
Fixpoint run (delta h : R) (n : nat) (y y' : X) : Prop := match n with O => y' = y | S n => exists z, pstep delta y h z /\ run delta h n (nrm z) y' end.
Lemma run_error M T : 0 <= M -> 0 <= T -> exists C h0, 0 < C /\ 0 < h0 <= 1 /\ forall (x e : R -> X) h delta n y y', 0 < h <= h0 -> 0 <= delta -> INR n * h <= T ->
  C * (nx (xsub y (x 0)) + h ^ 4 + delta) <= 1 ->
  (forall s, 0 <= s <= T -> nx (x s) <= M /\ nx (e s) <= delta /\ derivX x s (xadd (F (x s)) (e s))) ->
  dotq (xq y) (xq y) = 1 -> run delta h n y y' ->
  dotq (xq y') (xq y') = 1 /\ nx (xsub y' (x (INR n * h))) <= C * (nx (xsub y (x 0)) + h ^ 4 + delta).
Proof.
  intros HM HT. destruct (step_error M HM) as (C & L & h0 & C0 & L0 & H0 & HS).
  set (A := exp (L * T) * (1 + C * T) + 1). assert (EX : 1 <= exp (L * T)). { assert (0 <= L * T) by (apply Rmult_le_pos; lra). assert (E := exp_ineq1_le (L * T)). lra. }
  assert (CT : 0 <= C * T) by (apply Rmult_le_pos; lra). exists A, h0. split; [unfold A; nra|]. split; [exact H0|].
  intros x e h delta n y y' Hh Hd Hn HS1 HX U HR.
  assert (P4 := pow_le1 h 4 ltac:(lra)). assert (PY := nx_pos (xsub y (x 0))). set (Z := h ^ 4 + delta). assert (Z0 : 0 <= Z) by (unfold Z; lra).
  assert (A1 : 1 <= A) by (unfold A; nra). assert (D1 : delta <= 1) by nra.
  assert (G : forall n t eta y, 0 <= t -> t + INR n * h <= T -> dotq (xq y) (xq y) = 1 -> nx (xsub y (x t)) <= eta -> (1 + L * h) ^ n * (eta + INR n * (C * (h * Z))) <= 1 -> run delta h n y y' ->
    dotq (xq y') (xq y') = 1 /\ nx (xsub y' (x (t + INR n * h))) <= (1 + L * h) ^ n * (eta + INR n * (C * (h * Z)))).
  { clear n y U Hn HR HS1 PY. assert (LH : 0 <= L * h) by (apply Rmult_le_pos; lra). assert (CZ : 0 <= C * (h * Z)) by (apply Rmult_le_pos; [lra|apply Rmult_le_pos; lra]).
    induction n as [|n IH]; intros t eta y Ht Hn U He Hs HR.
    - cbn [run] in HR. subst y'. split; [exact U|]. simpl. rewrite Rmult_0_l, Rplus_0_r. rewrite Rmult_0_l, Rplus_0_r, Rmult_1_l. exact He.
    - cbn [run] in HR. destruct HR as (z & HP & HR). rewrite S_INR in *. assert (IN := pos_INR n). assert (E0 := nx_pos (xsub y (x t))).
      assert (NH : 0 <= INR n * h) by (apply Rmult_le_pos; lra). assert (ic : 0 <= INR n * (C * (h * Z))) by (apply Rmult_le_pos; lra).
      assert (E1 : eta <= 1). { assert (Q := pow_R1_Rle (1 + L * h) (S n) ltac:(lra)). assert (eta <= eta + (INR n + 1) * (C * (h * Z))) by lra. nra. }
      destruct (HX t ltac:(lra)) as (N0 & _).
      assert (NY : nx y <= M + 1) by (assert (Q := sub_of _ _ _ He); lra).
      destruct (HS x e t h delta y z ltac:(lra) ltac:(lra) (fun s Hs' => HX s ltac:(lra)) NY U HP) as (U' & E'). fold Z in E'.
      destruct (IH (t + h) ((1 + L * h) * eta + C * (h * Z)) (nrm z)) as (U2 & E2); [lra|lra|exact U'| | |exact HR|].
      + eapply Rle_trans; [exact E'|]. apply Rplus_le_compat_r, Rmult_le_compat_l; lra.
      + eapply Rle_trans; [|exact Hs]. rewrite <- tech_pow_Rmult, (Rmult_comm (1 + L * h) ((1 + L * h) ^ n)), Rmult_assoc. apply Rmult_le_compat_l; [apply pow_le; lra|].
        assert (0 <= L * h * ((INR n + 1) * (C * (h * Z)))) by (apply Rmult_le_pos; [lra|apply Rmult_le_pos; lra]). lra.
      + split; [exact U2|]. replace (t + (INR n + 1) * h) with (t + h + INR n * h) by ring. eapply Rle_trans; [exact E2|]. rewrite <- tech_pow_Rmult, (Rmult_comm (1 + L * h) ((1 + L * h) ^ n)), Rmult_assoc. apply Rmult_le_compat_l; [apply pow_le; lra|].
        assert (0 <= L * h * ((INR n + 1) * (C * (h * Z)))) by (apply Rmult_le_pos; [lra|apply Rmult_le_pos; lra]). lra. }
  assert (GB : (1 + L * h) ^ n * (nx (xsub y (x 0)) + INR n * (C * (h * Z))) <= A * (nx (xsub y (x 0)) + h ^ 4 + delta)).
  { assert (PE : (1 + L * h) ^ n <= exp (L * T)).
    { assert (LH : 0 <= L * h) by (apply Rmult_le_pos; lra). apply Rle_trans with (exp (L * h) ^ n); [apply pow_incr; split; [lra|apply exp_ineq1_le]|]. assert (EP : forall u, exp u ^ n = exp (INR n * u)).
      { clear. intros u. induction n as [|n IH]; [simpl; rewrite Rmult_0_l, exp_0; reflexivity|]. cbn [pow]. rewrite IH, S_INR, <- exp_plus. f_equal. ring. }
      rewrite EP. assert (INR n * (L * h) <= L * T) by (replace (INR n * (L * h)) with (L * (INR n * h)) by ring; apply Rmult_le_compat_l; lra). destruct H as [H|H]; [left; apply exp_increasing, H|rewrite H; apply Rle_refl]. }
    assert (CB : INR n * (C * (h * Z)) <= C * T * Z). { replace (INR n * (C * (h * Z))) with (C * (INR n * h) * Z) by ring. apply Rmult_le_compat_r; [lra|]. apply Rmult_le_compat_l; lra. }
    assert (NN : 0 <= INR n * (C * (h * Z))) by (apply Rmult_le_pos; [apply pos_INR|apply Rmult_le_pos; [lra|apply Rmult_le_pos; lra]]).
    apply Rle_trans with (exp (L * T) * (nx (xsub y (x 0)) + C * T * Z)); [apply Rmult_le_compat; [apply pow_le; assert (0 <= L * h) by (apply Rmult_le_pos; lra); lra|lra|exact PE|lra]|].
    replace (nx (xsub y (x 0)) + h ^ 4 + delta) with (nx (xsub y (x 0)) + Z) by (unfold Z; ring). unfold A. assert (0 <= C * T * nx (xsub y (x 0))) by (apply Rmult_le_pos; lra).
    apply Rle_trans with (exp (L * T) * ((1 + C * T) * (nx (xsub y (x 0)) + Z))); [apply Rmult_le_compat_l; lra|lra]. }
  destruct (G n 0 (nx (xsub y (x 0))) y ltac:(lra) ltac:(lra) U (Rle_refl _) ltac:(lra) HR) as (U' & E'). rewrite Rplus_0_l in E'. split; [exact U'|lra].
Qed.
End Local.
