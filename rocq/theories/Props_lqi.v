(** * C92: the gain with integrators *)
From Coq Require Import Reals List Bool Lra Psatz Lia.
From Verif Require Import Num Vec Mat6 M_struct M_sim M_lqr M_lqi S_rot S_sim S_obs S_lqr S_lqi P_quat P_wheel P_obs P_lqr P_lqr2 P_dare P_lqi P_lqi2 P_lqi3 Props_lqr Props_dare.
Local Open Scope R_scope.

(** the weights, written out *)
Definition weight9 (max_error max_rate : R) : M9 := mkE (weight_x max_error max_rate) zero63 zero36 (diag3 100 100 100).
Lemma lqi_Q_eq e w : lqi_Q e w = weight9 e w.
Proof. unfold lqi_Q, weight9. rewrite lqr_Q_eq. f_equal. vunfoldg; rnumg. apply mkm_c; apply mk3_c; lra. Qed.
Lemma weight9_form e w x : dot9 x (mv9 (weight9 e w) x) = dot6 (v6 x) (mv6 (weight_x e w) (v6 x)) + 100 * dot3 (vz x) (vz x).
Proof.
  destruct x as [x1 x2]. unfold weight9. unf9. rewrite mv_zero63, mv_zero36, add6_0_r, add3_0_l. f_equal. vunfoldg; rnumg. ring.
Qed.
Lemma weight9_symm e w : symm9 (weight9 e w).
Proof.
  apply symm9_intro. intros x y. destruct x as [x1 x2], y as [y1 y2]. unfold weight9. unf9. rewrite !mv_zero63, !mv_zero36, !add6_0_r, !add3_0_l.
  assert (S6 : symm6 (weight_x e w)) by apply diag6_symm. rewrite (symm6_dot _ _ _ S6). f_equal. vunfoldg; rnumg. ring.
Qed.
Lemma weight9_low e w : e <> 0 -> w <> 0 -> exists m, 0 < m /\ forall x, m * dot9 x x <= dot9 x (mv9 (weight9 e w) x).
Proof.
  intros NE NW. destruct (weight_low e w NE NW) as (m & Hm & L). exists (Rmin m 100). split; [apply Rmin_pos; lra|]. intros x. rewrite weight9_form. unfold dot9.
  assert (A := Rmin_l m 100). assert (B := Rmin_r m 100). assert (H := L (v6 x)). assert (N1 := dot6_nonneg (v6 x)). assert (N2 := dot3_nonneg (vz x)). nra.
Qed.
Lemma cont2discrete9_eq Ji Ts : let '(A, B) := add_integrators lqr_A (lqr_B Ji) lqi_C in cont2discrete9 A B Ts = (held_A 1 Ts, held_B 1 Ts Ji).
Proof. cbn [add_integrators]. unfold cont2discrete9. f_equal; [apply (expm9_A_eq Ts 3); lia|apply (expm9_B_eq Ts 3); lia]. Qed.

(** the matrices given to the solver are the sampled plant and integrators: the series is finite, and its sum carries every solution of
    e' = w / 2, w' = J^-1 u, z' = - e over one sample *)
Theorem C92_zoh : forall J Ts, let '(A, B) := add_integrators lqr_A (lqr_B (inv3 J)) lqi_C in
  cont2discrete9 A B Ts = (held_A 1 Ts, held_B 1 Ts (inv3 J)) /\
  (forall n, (3 <= n)%nat -> expm9_A A Ts n = held_A 1 Ts /\ expm9_B A B Ts n = held_B 1 Ts (inv3 J)) /\
  (forall s u (e w z : R -> v3), (forall t, deriv3 e t (scale3 (s / 2) (w t))) -> (forall t, deriv3 w t (mv (inv3 J) u)) -> (forall t, deriv3 z t (opp3 (e t))) ->
     mk9 (mk6 (e Ts) (w Ts)) (z Ts) = add9 (mv9 (held_A s Ts) (mk9 (mk6 (e 0) (w 0)) (z 0))) (mv93 (held_B s Ts (inv3 J)) u)).
Proof.
  intros J Ts. cbn [add_integrators]. split; [apply (cont2discrete9_eq (inv3 J) Ts)|]. split.
  - intros n Hn. split; [apply expm9_A_eq; lia|apply expm9_B_eq; lia].
  - intros s u e w z He Hw Hz. apply flow9; assumption.
Qed.
Print Assumptions C92_zoh.

(** the gain, when the solver meets its contract: it exists, makes every motion of plant and integrators die out geometrically, and
    minimises the quadratic cost over all input sequences *)
Theorem C92_gain : forall dare J Ts max_error max_rate P, det3 J <> 0 -> max_error <> 0 -> max_rate <> 0 ->
  let A := held_A 1 Ts in let B := held_B 1 Ts (inv3 J) in let Q := weight9 max_error max_rate in
  dare A B Q weight_u = Ok P -> riccati9 A B Q weight_u P ->
  exists K, get_gain_matrix_int dare J Ts max_error max_rate = Ok K /\
    (exists C rho, 0 <= C /\ 0 <= rho < 1 /\ forall x n, let y := looped9 A B K x n in dot9 y y <= C * rho ^ n * dot9 x x) /\
    dies_out9 (looped9 A B K) /\
    (forall x u n, let y := driven9 A B u x in dot9 x (mv9 P x) <= cost9 Q weight_u y u n + dot9 (y n) (mv9 P (y n))) /\
    (forall x, Un_cv (cost9 Q weight_u (looped9 A B K x) (fun n => opp3 (mv39 K (looped9 A B K x n)))) (dot9 x (mv9 P x))).
Proof.
  intros dare J Ts e w P DJ NE NW A B Q HD HR. assert (HP : psd9 P) by (destruct HR as (_ & H & _); exact H).
  destruct (lqi_K_ok A B P HP) as (K & HK). exists K. split.
  { unfold get_gain_matrix_int. destruct (Reqb_spec e 0); [contradiction|]. destruct (Reqb_spec w 0); [contradiction|]. destruct (Reqb_spec (det3 J) 0); [contradiction|].
    assert (E := cont2discrete9_eq (inv3 J) Ts). cbn [add_integrators] in *. rewrite E, lqi_Q_eq. fold A B Q. rewrite lqr_R_eq in *. rewrite HD. cbn [rbind]. exact HK. }
  rewrite <- lqr_R_eq in *. destruct (weight9_low e w NE NW) as (m & Hm & QL). fold Q in QL.
  destruct (lqi_decay _ _ _ P K m HR HK Hm QL) as (C & rho & HC & Hr & HB).
  assert (DO : dies_out9 (looped9 A B K)).
  { intros x. apply (decay_dies C rho _ (dot9 x x) HC Hr (dot9_nonneg x)). intros n. split; [apply dot9_nonneg|apply HB]. }
  split; [exists C, rho; auto|]. split; [exact DO|].
  split; [intros x; apply (optimal_cost9 _ _ _ P K x HR HK)|].
  intros x. destruct (optimal_cost9 _ _ _ P K x HR HK) as [_ EQ]. destruct (bounded9 P) as (c & Hc & BP).
  intros eps He. destruct (DO x (eps / c)) as (N & HN); [apply Rdiv_lt_0_compat; assumption|]. exists N. intros n Hn. specialize (HN n Hn). specialize (EQ n).
  unfold R_dist in *. rewrite Rminus_0_r in HN. set (y := looped9 A B K x n) in *. assert (Py := HP y). assert (By := BP y). assert (Ny := dot9_nonneg y).
  rewrite Rabs_right in HN by lra. rewrite Rabs_left1 by lra. assert (c * dot9 y y < eps). { apply (Rmult_lt_compat_l c) in HN; [|exact Hc]. replace (c * (eps / c)) with eps in HN by (field; lra). exact HN. } lra.
Qed.
Print Assumptions C92_gain.

(** The equation has exactly one solution for every sample time but zero, so the gain is the same for every solver that finds one. *)
Theorem C92_exists : forall J Ts max_error max_rate, det3 J <> 0 -> max_error <> 0 -> max_rate <> 0 -> Ts <> 0 ->
  exists P K, riccati9 (held_A 1 Ts) (held_B 1 Ts (inv3 J)) (weight9 max_error max_rate) weight_u P /\
    (forall P', riccati9 (held_A 1 Ts) (held_B 1 Ts (inv3 J)) (weight9 max_error max_rate) weight_u P' -> P' = P) /\
    dies_out9 (looped9 (held_A 1 Ts) (held_B 1 Ts (inv3 J)) K) /\
    forall dare, dare (held_A 1 Ts) (held_B 1 Ts (inv3 J)) (weight9 max_error max_rate) weight_u = Ok P -> get_gain_matrix_int dare J Ts max_error max_rate = Ok K.
Proof.
  intros J Ts e w DJ NE NW HT. destruct (weight9_low e w NE NW) as (m & Hm & QL). set (A := held_A 1 Ts). set (B := held_B 1 Ts (inv3 J)). set (Q := weight9 e w) in *.
  destruct (dare_exists9 A B Q) as (P & HP & _).
  - apply weight9_symm.
  - intros x. assert (H := QL x). assert (K := dot9_nonneg x). nra.
  - intros x. apply three_steps; assumption.
  - assert (HP' := HP). rewrite lqr_R_eq in HP'. destruct (C92_gain (fun _ _ _ _ => Ok P) J Ts e w P DJ NE NW eq_refl HP') as (K & HK & _ & D & _).
    exists P, K. split; [exact HP'|]. split; [|split; [exact D|]].
    + intros P' H. rewrite <- lqr_R_eq in H. apply (dare_unique9 A B Q _ _ m Hm QL H HP).
    + intros dare E. destruct (C92_gain dare J Ts e w P DJ NE NW E HP') as (K' & HK' & _). rewrite HK'. revert HK HK'. unfold get_gain_matrix_int.
      destruct (Reqb e 0); [discriminate|]. destruct (Reqb w 0); [discriminate|]. destruct (Reqb (det3 J) 0); [discriminate|].
      assert (CE := cont2discrete9_eq (inv3 J) Ts). cbn [add_integrators] in *. rewrite CE, lqi_Q_eq, lqr_R_eq. fold A B Q. rewrite E. cbn [rbind]. intros H1 H2. rewrite H1 in H2. rewrite <- H2. reflexivity.
Qed.
Print Assumptions C92_exists.

(** What the integrators are for.  With any gain that stabilises the plant and integrators, a constant torque d on the body leaves no
    attitude error: e and w go to zero and the torque demanded to - d. *)
Lemma dot3_cv (f : nat -> V9) l : Un_cv (fun n => dot9 (sub9 (f n) l) (sub9 (f n) l)) 0 ->
  Un_cv (fun n => dot3 (sub3 (u1 (v6 (f n))) (u1 (v6 l))) (sub3 (u1 (v6 (f n))) (u1 (v6 l)))) 0 /\
  Un_cv (fun n => dot3 (sub3 (u2 (v6 (f n))) (u2 (v6 l))) (sub3 (u2 (v6 (f n))) (u2 (v6 l)))) 0 /\
  Un_cv (fun n => dot3 (sub3 (vz (f n)) (vz l)) (sub3 (vz (f n)) (vz l))) 0.
Proof.
  intros H. assert (G : forall g : nat -> R, (forall n, 0 <= g n <= dot9 (sub9 (f n) l) (sub9 (f n) l)) -> Un_cv g 0).
  { intros g Hg eps He. destruct (H eps He) as (N & HN). exists N. intros n Hn. specialize (HN n Hn). destruct (Hg n) as [G1 G2]. unfold R_dist in *. rewrite Rminus_0_r in *. rewrite Rabs_right in HN by lra. rewrite Rabs_right; lra. }
  assert (S : forall n, dot9 (sub9 (f n) l) (sub9 (f n) l) = dot3 (sub3 (u1 (v6 (f n))) (u1 (v6 l))) (sub3 (u1 (v6 (f n))) (u1 (v6 l))) + dot3 (sub3 (u2 (v6 (f n))) (u2 (v6 l))) (sub3 (u2 (v6 (f n))) (u2 (v6 l))) + dot3 (sub3 (vz (f n)) (vz l)) (sub3 (vz (f n)) (vz l))) by reflexivity.
  split; [|split]; apply G; intros n; rewrite S; assert (A := dot3_nonneg (sub3 (u1 (v6 (f n))) (u1 (v6 l)))); assert (B := dot3_nonneg (sub3 (u2 (v6 (f n))) (u2 (v6 l)))); assert (C := dot3_nonneg (sub3 (vz (f n)) (vz l))); lra.
Qed.
Lemma sub3_zero_r (a : v3) : sub3 a zero3 = a. Proof. vring. Qed.
Theorem C92_rejects : forall J Ts K d, dies_out9 (looped9 (held_A 1 Ts) (held_B 1 Ts (inv3 J)) K) ->
  exists z, mv (lz K) z = d /\ forall x, let y := pushed9 (held_A 1 Ts) (held_B 1 Ts (inv3 J)) K d x in
    Un_cv (fun n => dot3 (u1 (v6 (y n))) (u1 (v6 (y n)))) 0 /\
    Un_cv (fun n => dot3 (u2 (v6 (y n))) (u2 (v6 (y n)))) 0 /\
    Un_cv (fun n => dot3 (sub3 (vz (y n)) z) (sub3 (vz (y n)) z)) 0.
Proof.
  intros J Ts [[Kq Kw] Kz] d D. assert (DK := stable_Kz J Kq Kw Kz Ts 1 D). cbn [lz]. exists (mv (inv3 Kz) d). set (z := mv (inv3 Kz) d).
  assert (EZ : mv Kz z = d) by (apply mv_inv3, DK). split; [exact EZ|]. intros x. set (K := mkL (mkK Kq Kw) Kz) in *. set (y := pushed9 (held_A 1 Ts) (held_B 1 Ts (inv3 J)) K d x). set (xs := mk9 zero6 z).
  assert (F : add9 (mv9 (held_A 1 Ts) xs) (mv93 (held_B 1 Ts (inv3 J)) (sub3 d (mv39 K xs))) = xs).
  { replace (sub3 d (mv39 K xs)) with (zero3 : v3).
    - rewrite held_A_mv, held_B_mv, mv_zero3. unfold xs. clearbody z. destruct z as [z1 z2 z3']. unfold zero6. unf9. unf6. f_equal; [f_equal|]; vunfoldg; rnumg; apply mk3_c; ring.
    - unfold mv39, K, xs. cbn [lk lz v6 vz]. rewrite mv36_zero, add3_0_l, EZ. generalize d. vring. }
  assert (S := pushed_shift9 _ _ K d x xs F). assert (C : Un_cv (fun n => dot9 (sub9 (y n) xs) (sub9 (y n) xs)) 0).
  { intros eps He. destruct (D (sub9 x xs) eps He) as (N & HN). exists N. intros n Hn. specialize (HN n Hn). unfold y. rewrite S. exact HN. }
  destruct (dot3_cv y xs C) as (C1 & C2 & C3). unfold xs in C1, C2, C3. cbn [v6 vz u1 u2 zero6] in C1, C2, C3.
  assert (T : forall (g h : nat -> R), (forall n, g n = h n) -> Un_cv g 0 -> Un_cv h 0) by (intros g h E Hg eps He; destruct (Hg eps He) as (N & HN); exists N; intros n Hn; rewrite <- E; apply HN, Hn).
  split; [|split; [|exact C3]].
  - revert C1. apply T. intros n. rewrite sub3_zero_r. reflexivity.
  - revert C2. apply T. intros n. rewrite sub3_zero_r. reflexivity.
Qed.
Print Assumptions C92_rejects.
(** The gain without integrators, which the code uses, leaves the error e with Kq e = d: none but a zero torque leaves none. *)
Theorem C92_offset : forall J Ts K d, dies_out (looped (design_A Ts) (design_B Ts J) K) ->
  exists e, mv (k1 K) e = d /\ (d <> zero3 -> e <> zero3) /\ forall x, let y := pushed (design_A Ts) (design_B Ts J) K d x in
    Un_cv (fun n => dot6 (sub6 (y n) (mk6 e zero3)) (sub6 (y n) (mk6 e zero3))) 0.
Proof.
  intros J Ts [Kq Kw] d D. cbn [k1]. assert (EA : smp_A Ts 1 = design_A Ts) by (unfold smp_A, design_A; f_equal; f_equal; ring). assert (EB : smp_B Ts 1 (inv3 J) = design_B Ts J) by (unfold smp_B, design_B; f_equal; f_equal; ring).
  assert (DK : det3 Kq <> 0).
  { intros Z. destruct (kernel3 _ Z) as (e & N & E). apply (no_mode _ _ _ 1 (mk6 e zero3) D); [lra| |].
    - intros X. apply N. exact (f_equal u1 X).
    - rewrite <- EA, <- EB, mode_fixed by exact E. destruct e as [e1 e2 e3]. unf6. f_equal; vring. }
  exists (mv (inv3 Kq) d). set (e := mv (inv3 Kq) d). assert (EE : mv Kq e = d) by (apply mv_inv3, DK). split; [exact EE|]. split; [intros N X; apply N; rewrite <- EE, X; apply mv_zero3|].
  intros x. set (y := pushed (design_A Ts) (design_B Ts J) (mkK Kq Kw) d x). set (xs := mk6 e zero3).
  assert (F : add6 (mv6 (design_A Ts) xs) (mv63 (design_B Ts J) (sub3 d (mv36 (mkK Kq Kw) xs))) = xs).
  { replace (sub3 d (mv36 (mkK Kq Kw) xs)) with (zero3 : v3).
    - rewrite mv63_zero, add6_0_r. unfold design_A, xs. unf6. rewrite !mv_zero3, mv_id3, mv_zerom, !add3_0_r. reflexivity.
    - unfold mv36, xs. cbn [k1 k2 u1 u2]. rewrite mv_zero3, add3_0_r, EE. generalize d. vring. }
  intros eps He. destruct (D (sub6 x xs) eps He) as (N & HN). exists N. intros n Hn. specialize (HN n Hn). unfold y. rewrite (pushed_shift _ _ _ d x xs F). exact HN.
Qed.
Print Assumptions C92_offset.

(** The sign of C80 is not cured by the integrators: with e' = - w / 2 every gain that stabilises the design is unstable. *)
Theorem C92_unstable : forall J Ts K, det3 J <> 0 -> 0 < Ts -> dies_out9 (looped9 (held_A 1 Ts) (held_B 1 Ts (inv3 J)) K) ->
  exists l x, 1 < l /\ x <> zero9 /\ forall n, looped9 (held_A (-1) Ts) (held_B (-1) Ts (inv3 J)) K x n = scale9 (l ^ n) x.
Proof.
  intros J Ts [[Kq Kw] Kz] DJ HT D. assert (W := wrong_sign_unstable9 J Kq Kw Kz Ts 1 DJ HT ltac:(lra) D). replace (- (1)) with (-1) in W by lra. exact W.
Qed.
Print Assumptions C92_unstable.

(** And the flight software cannot use the gain: the state it multiplies has no integrators, so the first torque raises. *)
Theorem C92_controller : forall dare dare9 J Ts max_error max_rate K target err omega,
  (get_gain dare dare9 true J Ts max_error max_rate = Ok K -> controller_with K target err omega = Raise ValueError) /\
  (get_gain dare dare9 false J Ts max_error max_rate = Ok K -> exists K6, get_gain_matrix dare J Ts max_error max_rate = Ok K6 /\ controller_with K target err omega = Ok (controller_step (k1 K6) (k2 K6) target err omega)).
Proof.
  intros dare dare9 J Ts e w K target err omega. unfold get_gain. split.
  - destruct (get_gain_matrix_int dare9 J Ts e w) as [K9|]; cbn [rbind]; [|discriminate]. intros H. injection H as <-. reflexivity.
  - destruct (get_gain_matrix dare J Ts e w) as [K6|]; cbn [rbind]; [|discriminate]. intros H. injection H as <-. exists K6. split; reflexivity.
Qed.
Print Assumptions C92_controller.
Theorem C92_usable_refuted : ~ forall dare dare9 J Ts max_error max_rate K target err omega,
  get_gain dare dare9 true J Ts max_error max_rate = Ok K -> exists u, controller_with K target err omega = Ok u.
Proof.
  intros H. assert (DJ : det3 (id3 : m3) <> 0) by (vunfoldg; rnumg; lra). destruct (C92_exists id3 1 1 1 DJ ltac:(lra) ltac:(lra) ltac:(lra)) as (P & K & _ & _ & _ & HK).
  specialize (HK (fun _ _ _ _ => Ok P) eq_refl). assert (G : get_gain (fun _ _ _ _ => Raise ValueError) (fun _ _ _ _ => Ok P) true id3 1 1 1 = Ok (WithIntegrator K)) by (unfold get_gain; rewrite HK; reflexivity).
  destruct (H _ _ _ _ _ _ _ zero3 (mks 0 0 0 1) zero3 G) as (u & E). discriminate E.
Qed.
Print Assumptions C92_usable_refuted.
Theorem C92_errors : forall dare J Ts e w,
  (e = 0 \/ w = 0 -> get_gain_matrix_int dare J Ts e w = Raise ZeroDivisionError) /\
  (e <> 0 -> w <> 0 -> det3 J = 0 -> get_gain_matrix_int dare J Ts e w = Raise LinAlgError).
Proof.
  intros dare J Ts e w. unfold get_gain_matrix_int. split.
  - intros H. destruct (Reqb_spec e 0); [reflexivity|]. destruct (Reqb_spec w 0); [reflexivity|]. destruct H; contradiction.
  - intros NE NW D. destruct (Reqb_spec e 0); [contradiction|]. destruct (Reqb_spec w 0); [contradiction|]. destruct (Reqb_spec (det3 J) 0); [reflexivity|contradiction].
Qed.
Print Assumptions C92_errors.
(** ADCS_Discrete_State_Space_Calculator.py:92-107: the inertia, sample time and limits of the script *)
Definition script_J : m3 :=
  mkm (mk3 (1650237 / 10 ^ 8) (711 / 10 ^ 8) (4547 / 10 ^ 8)) (mk3 (7115 / 10 ^ 9) (15962 / 10 ^ 6) (3107 / 10 ^ 8)) (mk3 (4547 / 10 ^ 8) (3107 / 10 ^ 8) (651814 / 10 ^ 8)).
Example C92_ex : det3 script_J <> 0 /\
  exists K dare, get_gain_matrix_int dare script_J (1 / 10) (1 / 10) (1 / 20) = Ok K /\ dies_out9 (looped9 (held_A 1 (1 / 10)) (held_B 1 (1 / 10) (inv3 script_J)) K).
Proof.
  assert (DJ : det3 script_J <> 0) by (unfold script_J; vunfoldg; rnumg; lra). split; [exact DJ|].
  destruct (C92_exists script_J (1 / 10) (1 / 10) (1 / 20) DJ ltac:(lra) ltac:(lra) ltac:(lra)) as (P & K & _ & _ & D & HK).
  exists K, (fun _ _ _ _ => Ok P). split; [apply HK; reflexivity|exact D].
Qed.
