(** * C79, continued: the Riccati equation has exactly one solution, so the solver's contract can be met and fixes the gain *)
From Coq Require Import Reals Lra Psatz Lia.
From Verif Require Import Num Vec Mat6 M_struct M_sim M_lqr S_rot S_sim S_obs S_lqr P_quat P_wheel P_obs P_lqr P_lqr2 P_dare Props_lqr.
Local Open Scope R_scope.

(** the sampled satellite can be brought to rest on target in two steps *)
Lemma two_steps J Ts x : det3 J <> 0 -> Ts <> 0 ->
  exists a b, add6 (mv6 (design_A Ts) (add6 (mv6 (design_A Ts) x) (mv63 (design_B Ts J) a))) (mv63 (design_B Ts J) b) = zero6.
Proof.
  intros DJ HT. destruct x as [e w]. destruct (mm_inv3 J DJ) as [_ I].
  set (a := sub3 (scale3 (- (2 / Ts ^ 2)) e) (scale3 (3 / (2 * Ts)) w)). set (b := sub3 (scale3 (- / Ts) w) a).
  exists (mv J a), (mv J b). assert (E : forall v, mv (inv3 J) (mv J v) = v) by (intros v; rewrite <- mv_mm, I; apply mv_id3).
  unfold design_A, design_B. unf63. unf6. rewrite !mv_scalem, !E, !mv_id3, !mv_zerom. unfold b, a. unfold zero6. clear - HT. destruct e as [e1 e2 e3], w as [w1 w2 w3].
  f_equal; vunfoldg; rnumg; apply mk3_c; field; exact HT.
Qed.
Lemma weight_low e w : e <> 0 -> w <> 0 -> exists m, 0 < m /\ forall x, m * dot6 x x <= dot6 x (mv6 (weight_x e w) x).
Proof.
  intros NE NW. assert (E2 : 0 < / e ^ 2) by (apply Rinv_0_lt_compat; nra). assert (W2 : 0 < / w ^ 2) by (apply Rinv_0_lt_compat; nra).
  exists (Rmin (/ e ^ 2) (/ w ^ 2)). split; [apply Rmin_pos; assumption|]. intros x. unfold weight_x. rewrite diag6_form. unfold dot6.
  assert (A := Rmin_l (/ e ^ 2) (/ w ^ 2)). assert (B := Rmin_r (/ e ^ 2) (/ w ^ 2)). assert (N1 := dot3_nonneg (u1 x)). assert (N2 := dot3_nonneg (u2 x)). nra.
Qed.
(** For every invertible inertia, sample time and weights the equation has exactly one symmetric positive semidefinite solution; for
    the sample time zero it has none. *)
Theorem C79_exists : forall J Ts max_error max_rate, det3 J <> 0 -> max_error <> 0 -> max_rate <> 0 ->
  (Ts <> 0 -> exists! P, riccati (design_A Ts) (design_B Ts J) (weight_x max_error max_rate) weight_u P) /\
  (Ts = 0 -> forall P, ~ riccati (design_A Ts) (design_B Ts J) (weight_x max_error max_rate) weight_u P).
Proof.
  intros J Ts e w DJ NE NW. rewrite <- lqr_R_eq. destruct (weight_low e w NE NW) as (m & Hm & QL). split.
  - intros HT. destruct (dare_exists (design_A Ts) (design_B Ts J) (weight_x e w)) as (P & HP & _).
    + apply diag6_symm.
    + intros x. assert (H := QL x). assert (K := dot6_nonneg x). nra.
    + intros x. apply two_steps; assumption.
    + exists P. split; [exact HP|]. intros P' HP'. apply (dare_unique _ _ _ _ _ m Hm QL HP HP').
  - intros -> P (_ & _ & Si & _ & E). specialize (E (mk6 (mk3 1 0 0) zero3)). set (x := mk6 (mk3 1 0 0) zero3) in *.
    assert (EB : forall u, mv63 (design_B 0 J) u = zero6).
    { intros u. unfold design_B. unf63. rewrite !mv_scalem. generalize (mv (inv3 J) u). intros [p q r]. unfold zero6. f_equal; vunfoldg; rnumg; apply mk3_c; field. }
    assert (EA : forall z, mv6 (design_A 0) z = z /\ mv6 (tr6 (design_A 0)) z = z).
    { intros [[p q r] [s t u]]. unfold design_A. unf6. split; f_equal; vunfoldg; rnumg; apply mk3_c; field. }
    rewrite EB, mv6_zero, (proj1 (EA x)), !(fun z => proj2 (EA z)) in E. assert (F := f_equal (dot6 x) E). rewrite dot6_add_r, dot6_sub_r in F.
    assert (Z : dot6 x zero6 = 0) by (unfold dot6, x; cbn [u1 u2 zero6]; vunfoldg; rnumg; ring). assert (H := QL x).
    assert (X : dot6 x x = 1) by (unfold dot6, x; cbn [u1 u2]; vunfoldg; rnumg; ring). rewrite X in H. lra.
Qed.
Print Assumptions C79_exists.
(** The gain does not depend on the solver: there is one gain that get_gain_matrix returns with every solver that finds a solution
    of this equation, and it makes every motion of the design model die out. *)
Theorem C79_total : forall J Ts max_error max_rate, det3 J <> 0 -> max_error <> 0 -> max_rate <> 0 -> Ts <> 0 ->
  exists K, dies_out (looped (design_A Ts) (design_B Ts J) K) /\
  forall dare, (exists P, dare (design_A Ts) (design_B Ts J) (weight_x max_error max_rate) weight_u = Ok P /\
                          riccati (design_A Ts) (design_B Ts J) (weight_x max_error max_rate) weight_u P) ->
    get_gain_matrix dare J Ts max_error max_rate = Ok K.
Proof.
  intros J Ts e w DJ NE NW HT. destruct (proj1 (C79_exists J Ts e w DJ NE NW) HT) as (P & HP & U).
  set (solver := fun (_ : M6) (_ : M63) (_ : M6) (_ : m3) => Ok P).
  destruct (C79_gain solver J Ts e w P DJ NE NW eq_refl HP) as (K & HK & _ & DO & _). exists K. split; [exact DO|].
  intros dare (P' & E & HP').
  rewrite <- (U P' HP') in E. revert HK. unfold get_gain_matrix. destruct (Reqb e 0); [discriminate|]. destruct (Reqb w 0); [discriminate|]. destruct (Reqb (det3 J) 0); [discriminate|].
  rewrite cont2discrete_eq, lqr_Q_eq, lqr_R_eq, E. unfold solver. intros HK. exact HK.
Qed.
Print Assumptions C79_total.
(** the solution that C79_ex names is that one *)
Example C79_exists_ex : let e := sqrt (1830 / 225) in let w := sqrt (1830 / 344650) in
  forall P, riccati (design_A 2) (design_B 2 id3) (weight_x e w) weight_u P <-> P = ex_P.
Proof.
  intros e w P. destruct C79_ex as (D & NE & NW & HR). fold e w in NE, NW, HR. destruct (proj1 (C79_exists id3 2 e w D NE NW) ltac:(lra)) as (P0 & _ & U).
  split; [intros H; rewrite <- (U P H); apply U, HR|intros ->; exact HR].
Qed.
