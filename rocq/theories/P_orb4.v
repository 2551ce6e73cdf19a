(** * Lemmas: the two-body motion against its Taylor polynomial, and perturbed Runge-Kutta runs *)
From Coq Require Import Reals Lra Psatz List.
From Verif Require Import Num Vec M_vector M_env S_rot S_dyn P_dyn P_rk P_rk3 P_rk4 P_tot2 P_tot3 P_orb1 P_orb2 P_orb3.
Local Open Scope R_scope.

(** ** derivatives of the Taylor polynomial *)
Lemma d_poly5 a b c d e g s : derivable_pt_lim (fun h => a + b * h + c * h ^ 2 + d * h ^ 3 + e * h ^ 4 + g * h ^ 5) s (b + 2 * c * s + 3 * d * s ^ 2 + 4 * e * s ^ 3 + 5 * g * s ^ 4).
Proof.
  assert (Pw : forall n k, derivable_pt_lim (fun h => k * h ^ n) s (k * (INR n * s ^ pred n))). { intros n k. apply (derivable_pt_lim_scal (fun h => h ^ n)). apply derivable_pt_lim_pow. }
  assert (H1 := Pw 1%nat b). assert (H2 := Pw 2%nat c). assert (H3 := Pw 3%nat d). assert (H4 := Pw 4%nat e). assert (H5 := Pw 5%nat g).
  assert (Q := derivable_pt_lim_plus _ _ _ _ _ (derivable_pt_lim_plus _ _ _ _ _ (derivable_pt_lim_plus _ _ _ _ _ (derivable_pt_lim_plus _ _ _ _ _ (derivable_pt_lim_plus _ _ _ _ _ (derivable_pt_lim_const a s) H1) H2) H3) H4) H5).
  eapply d_eq; [eapply derivable_pt_lim_ext; [|exact Q]|].
  - intros h. unfold plus_fct, fct_cte. ring.
  - simpl INR. simpl pred. ring.
Qed.
Lemma ff_d t s : derivable_pt_lim (ff t) s (ff' t s).
Proof. eapply d_eq; [eapply derivable_pt_lim_ext; [|apply (d_poly5 1 0 (f2 t) (f3 t) (f4 t) (f5 t) s)]|]; [intros h; unfold ff; ring|unfold ff'; ring]. Qed.
Lemma gg_d t s : derivable_pt_lim (gg t) s (gg' t s).
Proof. eapply d_eq; [eapply derivable_pt_lim_ext; [|apply (d_poly5 0 1 0 (g3 t) (g4 t) (g5 t) s)]|]; [intros h; unfold gg; ring|unfold gg'; ring]. Qed.
Lemma ff'_d t s : derivable_pt_lim (ff' t) s (ff'' t s).
Proof. eapply d_eq; [eapply derivable_pt_lim_ext; [|apply (d_poly5 0 (2 * f2 t) (3 * f3 t) (4 * f4 t) (5 * f5 t) 0 s)]|]; [intros h; unfold ff'; ring|unfold ff''; ring]. Qed.
Lemma gg'_d t s : derivable_pt_lim (gg' t) s (gg'' t s).
Proof. eapply d_eq; [eapply derivable_pt_lim_ext; [|apply (d_poly5 1 0 (3 * g3 t) (4 * g4 t) (5 * g5 t) 0 s)]|]; [intros h; unfold gg'; ring|unfold gg''; ring]. Qed.
Lemma comb_d f g f' g' p v s : derivable_pt_lim f s f' -> derivable_pt_lim g s g' -> deriv3 (fun h => comb (f h) (g h) p v) s (comb f' g' p v).
Proof.
  intros F G. assert (Q : forall x y, derivable_pt_lim (fun h => f h * x + g h * y) s (f' * x + g' * y)).
  { intros x y. apply (derivable_pt_lim_plus (fun h => f h * x) (fun h => g h * y)); [eapply d_eq; [eapply derivable_pt_lim_ext; [|apply (derivable_pt_lim_scal f x _ _ F)]|]|eapply d_eq; [eapply derivable_pt_lim_ext; [|apply (derivable_pt_lim_scal g y _ _ G)]|]]; try (intros; unfold mult_real_fct); ring. }
  destruct p as [x y z], v as [x' y' z']. unfold comb, deriv3. vunfoldg. rnumg. cbn [x3 y3 z3]. split; [apply Q|split; apply Q].
Qed.
Lemma tp_d p v s : deriv3 (tp p v) s (tv p v s). Proof. apply comb_d; [apply ff_d|apply gg_d]. Qed.
Lemma tv_d p v s : deriv3 (tv p v) s (ta p v s). Proof. apply comb_d; [apply ff'_d|apply gg'_d]. Qed.
Lemma tp_0 p v : tp p v 0 = p.
Proof. unfold tp, ff, gg. destruct p as [x y z], v as [x' y' z']. unfold comb. vunfoldg. rnumg. apply mk3_c; ring. Qed.
Lemma tv_0 p v : tv p v 0 = v.
Proof. unfold tv, ff', gg'. destruct p as [x y z], v as [x' y' z']. unfold comb. vunfoldg. rnumg. apply mk3_c; ring. Qed.
Lemma sub_d (f g : R -> v3) s a b : deriv3 f s a -> deriv3 g s b -> deriv3 (fun u => sub3 (f u) (g u)) s (sub3 a b).
Proof. intros (A & B & C) (A' & B' & C'). unfold deriv3, sub3. cbn [x3 y3 z3]. split; [apply (derivable_pt_lim_minus (fun u => x3 (f u)) (fun u => x3 (g u))); assumption|]. split; [apply (derivable_pt_lim_minus (fun u => y3 (f u)) (fun u => y3 (g u))); assumption|apply (derivable_pt_lim_minus (fun u => z3 (f u)) (fun u => z3 (g u))); assumption]. Qed.
Lemma shift_d1 f t0 s l : derivable_pt_lim f (t0 + s) l -> derivable_pt_lim (fun u => f (t0 + u)) s l.
Proof. intros H e He. destruct (H e He) as (d & Hd). exists d. intros h Hh Hl. replace (t0 + (s + h)) with (t0 + s + h) by ring. apply Hd; assumption. Qed.
Lemma shift_d (f : R -> v3) t0 s a : deriv3 f (t0 + s) a -> deriv3 (fun u => f (t0 + u)) s a.
Proof. intros (A & B & C). split; [|split]. - apply (shift_d1 (fun u => x3 (f u))), A. - apply (shift_d1 (fun u => y3 (f u))), B. - apply (shift_d1 (fun u => z3 (f u))), C. Qed.
Lemma n1_self v : n1 (sub3 v v) = 0.
Proof. destruct v as [x y z]. unfold n1. vunfoldg. rnumg. rewrite !Rminus_diag_eq by reflexivity. rewrite Rabs_R0. ring. Qed.

Lemma int_twice (e e1 e2 : R -> v3) (B : R -> R) h : n1 (e 0) = 0 -> n1 (e1 0) = 0 -> (forall s, 0 <= s <= h -> deriv3 e s (e1 s) /\ deriv3 e1 s (e2 s) /\ n1 (e2 s) <= B s) -> (forall s u, 0 <= s <= u -> u <= h -> B s <= B u) ->
  forall s, 0 <= s <= h -> n1 (e1 s) <= 3 * (s * B s) /\ n1 (e s) <= 9 * (s * (s * B s)).
Proof.
  intros E0 E1 H MB. assert (P1 : forall s, 0 <= s <= h -> n1 (e1 s) <= 3 * (s * B s)).
  { intros s Hs. assert (L := lipschitz3 e1 e2 (B s) s ltac:(lra)). rewrite E1, Rplus_0_l in L. apply L.
    - intros u Hu. apply H. lra. - intros u Hu. eapply Rle_trans; [apply H; lra|apply MB; lra]. }
  intros s Hs. split; [apply P1, Hs|]. assert (L := lipschitz3 e e1 (3 * (s * B s)) s ltac:(lra)). rewrite E0, Rplus_0_l in L. replace (9 * (s * (s * B s))) with (3 * (s * (3 * (s * B s)))) by ring. apply L.
  - intros u Hu. apply H. lra.
  - intros u Hu. eapply Rle_trans; [apply P1; lra|]. assert (B0 : 0 <= B u) by (eapply Rle_trans; [apply n1_pos|apply (H u); lra]). assert (B u <= B s) by (apply MB; lra). apply Rmult_le_compat_l; [lra|]. apply Rmult_le_compat; lra.
Qed.
Lemma local_true rho M : 0 < rho -> 0 <= M -> exists C r, 0 <= C /\ 0 < r <= 1 /\ forall (p v acc : R -> v3) t0 h delta, 0 <= h <= r -> 0 <= delta <= 1 ->
  (forall t, t0 <= t <= t0 + h -> deriv3 p t (v t) /\ deriv3 v t (acc t) /\ region rho M (p t) (v t) /\ n1 (sub3 (acc t) (kep (p t))) <= delta) ->
  n1 (sub3 (p (t0 + h)) (tp (p t0) (v t0) h)) <= C * (h * (h ^ 4 + delta)) /\ n1 (sub3 (v (t0 + h)) (tv (p t0) (v t0) h)) <= C * (h * (h ^ 4 + delta)).
Proof.
  intros Hr HM. destruct (taylor_defect rho M Hr HM) as (Cd & rd & HCd & Hrd & TD).
  set (K := boxc rho M). assert (HK : 0 <= K) by (apply boxc_pos; lra).
  destruct (jet_small _ _ _ _ _ (fm_jet K HK)) as (Kf & rf & HKf & Hrf & Sf). destruct (jet_small _ _ _ _ _ (gg_jet K HK)) as (Kg & rg & HKg & Hrg & Sg).
  set (W := (Kf + Kg) * (6 * M)). assert (HW : 0 <= W) by (unfold W; nra).
  set (G := kepc (rho / 2)). set (L := lipc (rho / 2)). assert (MP := MU_pos).
  assert (HG : 0 <= G) by (unfold G, kepc; apply Rlt_le, Rdiv_lt_0_compat; [lra|apply pow_lt; lra]). assert (HL : 0 <= L) by (unfold L, lipc; apply Rlt_le, Rdiv_lt_0_compat; [lra|apply pow_lt; lra]).
  set (rw := rho / (2 * (W + 1))). assert (Hrw : 0 < rw) by (unfold rw; apply Rdiv_lt_0_compat; lra).
  set (B0 := 1 + 2 * G + Cd). set (B1 := 9 * L * B0 + Cd). set (B2 := 1 + 9 * L + 9 * L * B1 + Cd). assert (0 <= B0) by (unfold B0; lra). assert (0 <= L * B0) by (apply Rmult_le_pos; lra). assert (0 <= B1) by (unfold B1; lra). assert (0 <= L * B1) by (apply Rmult_le_pos; lra). assert (0 <= B2) by (unfold B2; lra).
  set (r := Rmin (Rmin rd rw) (Rmin rf rg)). assert (R1 := Rmin_l (Rmin rd rw) (Rmin rf rg)). assert (R2 := Rmin_r (Rmin rd rw) (Rmin rf rg)). fold r in R1, R2. assert (R3 := Rmin_l rd rw). assert (R4 := Rmin_r rd rw). assert (R5 := Rmin_l rf rg). assert (R6 := Rmin_r rf rg).
  assert (Hr0 : 0 < r) by (unfold r; repeat apply Rmin_pos; lra). clearbody r.
  exists (9 * B2), r. split; [lra|]. split; [lra|]. intros p v acc t0 h delta Hh Hd HT.
  destruct (HT t0 ltac:(lra)) as (_ & _ & RG0 & _). destruct (region_box rho M _ _ Hr RG0) as (BX & NP & N6). fold K in BX.
  set (e := fun s => sub3 (p (t0 + s)) (tp (p t0) (v t0) s)). set (e1 := fun s => sub3 (v (t0 + s)) (tv (p t0) (v t0) s)). set (e2 := fun s => sub3 (acc (t0 + s)) (ta (p t0) (v t0) s)).
  assert (E0 : n1 (e 0) = 0) by (unfold e; rewrite Rplus_0_r, tp_0; apply n1_self). assert (E1 : n1 (e1 0) = 0) by (unfold e1; rewrite Rplus_0_r, tv_0; apply n1_self).
  assert (DE : forall s, 0 <= s <= h -> deriv3 e s (e1 s) /\ deriv3 e1 s (e2 s)).
  { intros s Hs. destruct (HT (t0 + s) ltac:(lra)) as (D1 & D2 & _). split; [apply (sub_d (fun s => p (t0 + s))); [apply shift_d, D1|apply tp_d]|apply (sub_d (fun s => v (t0 + s))); [apply shift_d, D2|apply tv_d]]. }
  assert (TN : forall s, 0 <= s <= h -> rho / 2 <= norm3 (tp (p t0) (v t0) s)).
  { intros s Hs. destruct (Sf _ s BX ltac:(lra)) as [S1 _]. destruct (Sg _ s BX ltac:(lra)) as [S2 _]. set (t := par (p t0) (v t0)) in *.
    assert (Q : n1 (sub3 (tp (p t0) (v t0) s) (p t0)) <= W * s).
    { replace (sub3 (tp (p t0) (v t0) s) (p t0)) with (sub3 (comb (ff t s) (gg t s) (p t0) (v t0)) (comb 1 0 (p t0) (v t0))).
      2:{ unfold tp. fold t. f_equal. generalize (p t0) (v t0). clear. intros [x y z] [x' y' z']. unfold comb. vunfoldg. rnumg. apply mk3_c; ring. }
      eapply Rle_trans; [apply (n1_comb_sub _ _ _ _ _ _ ((Kf + Kg) * s))|].
      - assert (0 <= Kg * s) by (apply Rmult_le_pos; lra). lra.
      - rewrite Rminus_0_r. assert (0 <= Kf * s) by (apply Rmult_le_pos; lra). lra.
      - unfold W. replace ((Kf + Kg) * (6 * M) * s) with ((Kf + Kg) * s * (6 * M)) by ring. apply Rmult_le_compat_l; [apply Rmult_le_pos; lra|exact N6]. }
    assert (Q2 : W * s <= rho / 2). { apply Rle_trans with ((W + 1) * rw); [apply Rmult_le_compat; lra|]. unfold rw. right. field. lra. }
    assert (Q3 := norm3_gap (tp (p t0) (v t0) s) (p t0)). apply abs_split in Q3. destruct RG0 as (RG0 & _). lra. }
  assert (ACC : forall s, 0 <= s <= h -> n1 (e2 s) <= delta + n1 (sub3 (kep (p (t0 + s))) (kep (tp (p t0) (v t0) s))) + Cd * s ^ 4).
  { intros s Hs. destruct (HT (t0 + s) ltac:(lra)) as (_ & _ & _ & D). assert (T := TD _ _ s RG0 ltac:(lra)). unfold e2.
    assert (X1 := n1_sub_tri (acc (t0 + s)) (kep (p (t0 + s))) (ta (p t0) (v t0) s)). assert (X2 := n1_sub_tri (kep (p (t0 + s))) (kep (tp (p t0) (v t0) s)) (ta (p t0) (v t0) s)). lra. }
  assert (RP : forall s, 0 <= s <= h -> rho / 2 <= norm3 (p (t0 + s))). { intros s Hs. destruct (HT (t0 + s) ltac:(lra)) as (_ & _ & (RG & _) & _). lra. }
  assert (s4 : forall s, 0 <= s <= h -> 0 <= s ^ 4 <= 1) by (intros; apply pow_01; lra).
  (* first bound *)
  assert (I0 : forall s, 0 <= s <= h -> n1 (e s) <= 9 * (s * (s * B0))).
  { intros s Hs. refine (proj2 (int_twice e e1 e2 (fun _ => B0) h E0 E1 _ _ s Hs)).
    - intros u Hu. destruct (DE u Hu) as [D1 D2]. split; [exact D1|]. split; [exact D2|]. eapply Rle_trans; [apply ACC, Hu|]. assert (A1 := n1_sub (kep (p (t0 + u))) (kep (tp (p t0) (v t0) u))). assert (A2 := kep_le (rho / 2) _ ltac:(lra) (RP u Hu)). assert (A3 := kep_le (rho / 2) _ ltac:(lra) (TN u Hu)). fold G in A2, A3. destruct (s4 u Hu).
      assert (Cd * u ^ 4 <= Cd * 1) by (apply Rmult_le_compat_l; lra). unfold B0. lra.
    - intros. lra. }
  assert (LIP : forall s, 0 <= s <= h -> n1 (e2 s) <= delta + L * n1 (e s) + Cd * s ^ 4).
  { intros s Hs. eapply Rle_trans; [apply ACC, Hs|]. assert (A := kep_lip (rho / 2) _ _ ltac:(lra) (RP s Hs) (TN s Hs)). fold L in A. fold (e s) in A. lra. }
  assert (I1 : forall s, 0 <= s <= h -> n1 (e s) <= 9 * (s * (s * (delta + B1 * s ^ 2)))).
  { intros s Hs. refine (proj2 (int_twice e e1 e2 (fun s => delta + B1 * s ^ 2) h E0 E1 _ _ s Hs)).
    - intros u Hu. destruct (DE u Hu) as [D1 D2]. split; [exact D1|]. split; [exact D2|]. eapply Rle_trans; [apply LIP, Hu|]. assert (A := I0 u Hu). assert (L * n1 (e u) <= L * (9 * (u * (u * B0)))) by (apply Rmult_le_compat_l; lra).
      assert (U2 : 0 <= u ^ 2) by (apply pow_le; lra). assert (U4 : u ^ 4 <= u ^ 2). { replace (u ^ 4) with (u ^ 2 * u ^ 2) by ring. assert (u ^ 2 <= 1) by (apply (pow_01 u 2); lra). nra. }
      assert (Cd * u ^ 4 <= Cd * u ^ 2) by (apply Rmult_le_compat_l; lra). unfold B1. replace (L * (9 * (u * (u * B0)))) with (9 * L * B0 * u ^ 2) in * by ring. lra.
    - intros s' u Hs' Hu. assert (s' ^ 2 <= u ^ 2) by (apply pow_incr; lra). assert (B1 * s' ^ 2 <= B1 * u ^ 2) by (apply Rmult_le_compat_l; lra). lra. }
  assert (I2 := int_twice e e1 e2 (fun s => B2 * (delta + s ^ 4)) h E0 E1).
  destruct (fun X Y => I2 X Y h ltac:(lra)) as [F1 F2].
  - intros u Hu. destruct (DE u Hu) as [D1 D2]. split; [exact D1|]. split; [exact D2|]. eapply Rle_trans; [apply LIP, Hu|]. assert (A := I1 u Hu). assert (L * n1 (e u) <= L * (9 * (u * (u * (delta + B1 * u ^ 2))))) by (apply Rmult_le_compat_l; lra).
    destruct (pow_01 u 2 ltac:(lra)) as [U2 U2']. destruct (s4 u Hu) as [U4 U4']. replace (L * (9 * (u * (u * (delta + B1 * u ^ 2))))) with (9 * L * (delta * u ^ 2) + 9 * L * B1 * u ^ 4) in * by ring.
    assert (delta * u ^ 2 <= delta * 1) by (apply Rmult_le_compat_l; lra). assert (9 * L * (delta * u ^ 2) <= 9 * L * (delta * 1)) by (apply Rmult_le_compat_l; lra).
    unfold B2. assert (0 <= L * u ^ 4) by (apply Rmult_le_pos; lra). assert (0 <= L * B1 * delta) by (apply Rmult_le_pos; lra). assert (0 <= Cd * delta) by (apply Rmult_le_pos; lra). lra.
  - intros s' u Hs' Hu. assert (s' ^ 4 <= u ^ 4) by (apply pow_incr; lra). apply Rmult_le_compat_l; lra.
  - unfold e, e1 in F1, F2. destruct (s4 h ltac:(lra)) as [H4 _]. assert (Z : 0 <= B2 * (delta + h ^ 4)) by (apply Rmult_le_pos; lra). assert (Z2 : h * (h * (B2 * (delta + h ^ 4))) <= h * (B2 * (delta + h ^ 4))). { apply Rmult_le_compat_l; [lra|]. assert (h * (B2 * (delta + h ^ 4)) <= 1 * (B2 * (delta + h ^ 4))) by (apply Rmult_le_compat_r; lra). lra. }
    assert (Z3 : 0 <= h * (B2 * (delta + h ^ 4))) by (apply Rmult_le_pos; lra). split; (eapply Rle_trans; [eassumption|]); replace (9 * B2 * (h * (h ^ 4 + delta))) with (9 * (h * (B2 * (delta + h ^ 4)))) by ring; lra.
Qed.
