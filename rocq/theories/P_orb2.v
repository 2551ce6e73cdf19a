(** * Lemmas: a Runge-Kutta step of the two-body field and the Taylor expansion of the motion, in the basis of the starting position and velocity *)
From Coq Require Import Reals Lra Psatz List.
From Verif Require Import Num Vec P_orb1.
Local Open Scope R_scope.

(** sigma = mu / r^3, u = (p . v) / r^2, w = v^2 / r^2 *)
Record Par := mkPar { ps : R; pu : R; pw : R }.
Definition box (K : R) (t : Par) : Prop := Rabs (ps t) <= K /\ Rabs (pu t) <= K /\ Rabs (pw t) <= K.
(** |(1 + a) p + b v|^2 / |p|^2 - 1 *)
Definition eps (t : Par) (a b : R) : R := 2 * a + 2 * b * pu t + a ^ 2 + 2 * a * b * pu t + b ^ 2 * pw t.
(** the acceleration at (1 + a) p + b v is - sg ((1 + a) p + b v) *)
Definition sg (t : Par) (a b : R) : R := ps t * cub (eps t a b).

(** the four stages: acceleration i = ai p + bi v *)
Definition a1 (t : Par) : R := - ps t.
Definition a2 (t : Par) (h : R) : R := - sg t 0 (h / 2).
Definition b2 (t : Par) (h : R) : R := - sg t 0 (h / 2) * (h / 2).
Definition al3 (t : Par) (h : R) : R := h / 2 * (h / 2 * a1 t).
Definition a3 (t : Par) (h : R) : R := - sg t (al3 t h) (h / 2) * (1 + al3 t h).
Definition b3 (t : Par) (h : R) : R := - sg t (al3 t h) (h / 2) * (h / 2).
Definition al4 (t : Par) (h : R) : R := h * (h / 2 * a2 t h).
Definition be4 (t : Par) (h : R) : R := h * (1 + h / 2 * b2 t h).
Definition a4 (t : Par) (h : R) : R := - sg t (al4 t h) (be4 t h) * (1 + al4 t h).
Definition b4 (t : Par) (h : R) : R := - sg t (al4 t h) (be4 t h) * be4 t h.

(** the Taylor coefficients of the two-body motion *)
Definition s1 (t : Par) : R := - 3 * ps t * pu t.
Definition s2 (t : Par) : R := ps t * (- (3 / 2) * (pw t - ps t) + 15 / 2 * (pu t * pu t)).
Definition s3 (t : Par) : R := ps t * (1 / 2 * ps t * pu t + 15 / 2 * pu t * (pw t - ps t) - 35 / 2 * (pu t * pu t * pu t)).
Definition f2 (t : Par) : R := - ps t / 2.
Definition f3 (t : Par) : R := - s1 t / 6.
Definition f4 (t : Par) : R := - (s2 t + ps t * f2 t) / 12.
Definition f5 (t : Par) : R := - (s3 t + s1 t * f2 t + ps t * f3 t) / 20.
Definition g3 (t : Par) : R := - ps t / 6.
Definition g4 (t : Par) : R := - s1 t / 12.
Definition g5 (t : Par) : R := - (s2 t + ps t * g3 t) / 20.
Definition ff (t : Par) (h : R) : R := 1 + f2 t * h ^ 2 + f3 t * h ^ 3 + f4 t * h ^ 4 + f5 t * h ^ 5.
Definition gg (t : Par) (h : R) : R := h + g3 t * h ^ 3 + g4 t * h ^ 4 + g5 t * h ^ 5.

Section Jets.
Context (K : R).
Notation D := (box K).
Lemma bd_s : 0 <= K -> bd D ps. Proof. intros H. exists K. split; [exact H|]. intros t (A & _). exact A. Qed.
Lemma bd_u : 0 <= K -> bd D pu. Proof. intros H. exists K. split; [exact H|]. intros t (_ & A & _). exact A. Qed.
Lemma bd_w : 0 <= K -> bd D pw. Proof. intros H. exists K. split; [exact H|]. intros t (_ & _ & A). exact A. Qed.
Context (HK : 0 <= K).
Lemma sg_jet al be x y z p q r : jet D al (fun _ => 0) x y z -> jet D be (fun _ => 0) p q r ->
  let e1 := fun t => 2 * x t + 2 * p t * pu t in
  let e2 := fun t => 2 * y t + 2 * q t * pu t + x t * x t + 2 * pu t * (x t * p t) + p t * p t * pw t in
  let e3 := fun t => 2 * z t + 2 * r t * pu t + 2 * x t * y t + 2 * pu t * (x t * q t + y t * p t) + 2 * p t * q t * pw t in
  jet D (fun t h => sg t (al t h) (be t h)) ps (fun t => ps t * (- (3 / 2) * e1 t)) (fun t => ps t * (- (3 / 2) * e2 t + 15 / 8 * (e1 t * e1 t)))
    (fun t => ps t * (- (3 / 2) * e3 t + 15 / 4 * (e1 t * e2 t) - 35 / 16 * (e1 t * e1 t * e1 t))).
Proof.
  intros JA JB e1 e2 e3. assert (JU := jet_const D _ (bd_u HK)). assert (JW := jet_const D _ (bd_w HK)). assert (JS := jet_const D _ (bd_s HK)).
  assert (AA := jet_mul D _ _ _ _ _ _ _ _ _ _ JA JA). assert (AB := jet_mul D _ _ _ _ _ _ _ _ _ _ JA JB). assert (BB := jet_mul D _ _ _ _ _ _ _ _ _ _ JB JB).
  assert (E : jet D (fun t h => eps t (al t h) (be t h)) (fun _ => 0) e1 e2 e3).
  { assert (J1 := jet_add D _ _ _ _ _ _ _ _ _ _ (jet_scal D 2 _ _ _ _ _ JA) (jet_scal D 2 _ _ _ _ _ (jet_mul D _ _ _ _ _ _ _ _ _ _ JB JU))).
    assert (J2 := jet_add D _ _ _ _ _ _ _ _ _ _ J1 AA). assert (J3 := jet_add D _ _ _ _ _ _ _ _ _ _ J2 (jet_scal D 2 _ _ _ _ _ (jet_mul D _ _ _ _ _ _ _ _ _ _ AB JU))).
    assert (J4 := jet_add D _ _ _ _ _ _ _ _ _ _ J3 (jet_mul D _ _ _ _ _ _ _ _ _ _ BB JW)).
    eapply jet_ext; [..|exact J4]; intros; cbv beta; unfold eps, e1, e2, e3; ring. }
  assert (C := jet_mul D _ _ _ _ _ _ _ _ _ _ JS (jet_cub D _ _ _ _ E)). eapply jet_ext; [..|exact C]; intros; cbv beta; unfold sg; ring.
Qed.
Lemma jet_half : jet D (fun _ h => h / 2) (fun _ => 0) (fun _ => 1 / 2) (fun _ => 0) (fun _ => 0).
Proof. eapply jet_ext; [..|exact (jet_scal D (1 / 2) _ _ _ _ _ (jet_h D))]; intros; cbv beta; field. Qed.
Lemma jet_0 : jet D (fun _ _ => 0) (fun _ => 0) (fun _ => 0) (fun _ => 0) (fun _ => 0).
Proof. exact (jet_const D _ (bd_const D 0)). Qed.
Lemma jet_1 : jet D (fun _ _ => 1) (fun _ => 1) (fun _ => 0) (fun _ => 0) (fun _ => 0).
Proof. exact (jet_const D _ (bd_const D 1)). Qed.
Lemma jet_opp F a b c d : jet D F a b c d -> jet D (fun t h => - F t h) (fun t => - a t) (fun t => - b t) (fun t => - c t) (fun t => - d t).
Proof. intros H. eapply jet_ext; [..|exact (jet_scal D (-1) _ _ _ _ _ H)]; intros; cbv beta; ring. Qed.
Lemma a1_jet : jet D (fun t _ => a1 t) (fun t => - ps t) (fun _ => 0) (fun _ => 0) (fun _ => 0).
Proof. eapply jet_ext; [..|exact (jet_opp _ _ _ _ _ (jet_const D _ (bd_s HK)))]; intros; cbv beta; unfold a1; ring. Qed.
Definition sj2 := sg_jet _ _ _ _ _ _ _ _ jet_0 jet_half.
Lemma a2_jet : jet D a2 (fun t => - ps t) (fun t => 3 / 2 * ps t * pu t) (fun t => - ps t * (- (3 / 8) * pw t + 15 / 8 * (pu t * pu t))) (fun t => - ps t * (15 / 16 * pu t * pw t - 35 / 16 * (pu t * pu t * pu t))).
Proof. eapply jet_ext; [..|exact (jet_opp _ _ _ _ _ sj2)]; intros; cbv beta zeta; unfold a2; try reflexivity; field. Qed.
Lemma b2_jet : jet D b2 (fun _ => 0) (fun t => - ps t / 2) (fun t => 3 / 4 * ps t * pu t) (fun t => - ps t * (- (3 / 8) * pw t + 15 / 8 * (pu t * pu t)) / 2).
Proof. eapply jet_ext; [..|exact (jet_mul D _ _ _ _ _ _ _ _ _ _ a2_jet jet_half)]; intros; cbv beta zeta; unfold a2, b2; try reflexivity; field. Qed.
Lemma al3_jet : jet D al3 (fun _ => 0) (fun _ => 0) (fun t => - ps t / 4) (fun _ => 0).
Proof. eapply jet_ext; [..|exact (jet_mul D _ _ _ _ _ _ _ _ _ _ jet_half (jet_mul D _ _ _ _ _ _ _ _ _ _ jet_half a1_jet))]; intros; cbv beta zeta; unfold al3; try reflexivity; field. Qed.
Lemma sj3 : jet D (fun t h => sg t (al3 t h) (h / 2)) ps (fun t => - (3 / 2) * ps t * pu t) (fun t => ps t * (- (3 / 2) * (pw t / 4 - ps t / 2) + 15 / 8 * (pu t * pu t)))
  (fun t => ps t * (3 / 8 * ps t * pu t + 15 / 4 * (pu t * (pw t / 4 - ps t / 2)) - 35 / 16 * (pu t * pu t * pu t))).
Proof. eapply jet_ext; [..|exact (sg_jet _ _ _ _ _ _ _ _ al3_jet jet_half)]; intros; cbv beta zeta; try reflexivity; field. Qed.
Lemma a3_jet : exists a b c d, jet D a3 a b c d /\ (forall t, a t = - ps t) /\ (forall t, b t = 3 / 2 * ps t * pu t) /\
  (forall t, c t = - ps t * (- (3 / 2) * (pw t / 4 - ps t / 2) + 15 / 8 * (pu t * pu t)) + ps t * ps t / 4) /\
  (forall t, d t = - ps t * (3 / 8 * ps t * pu t + 15 / 4 * (pu t * (pw t / 4 - ps t / 2)) - 35 / 16 * (pu t * pu t * pu t)) - 3 / 8 * ps t * ps t * pu t).
Proof. do 4 eexists. split; [exact (jet_mul D _ _ _ _ _ _ _ _ _ _ (jet_opp _ _ _ _ _ sj3) (jet_add D _ _ _ _ _ _ _ _ _ _ jet_1 al3_jet))|]. cbv beta. repeat split; intros; field. Qed.
Lemma b3_jet : jet D b3 (fun _ => 0) (fun t => - ps t / 2) (fun t => 3 / 4 * ps t * pu t) (fun t => - ps t * (- (3 / 2) * (pw t / 4 - ps t / 2) + 15 / 8 * (pu t * pu t)) / 2).
Proof. eapply jet_ext; [..|exact (jet_mul D _ _ _ _ _ _ _ _ _ _ (jet_opp _ _ _ _ _ sj3) jet_half)]; intros; cbv beta zeta; unfold b3; try reflexivity; field. Qed.
Lemma al4_jet : jet D al4 (fun _ => 0) (fun _ => 0) (fun t => - ps t / 2) (fun t => 3 / 4 * ps t * pu t).
Proof. eapply jet_ext; [..|exact (jet_mul D _ _ _ _ _ _ _ _ _ _ (jet_h D) (jet_mul D _ _ _ _ _ _ _ _ _ _ jet_half a2_jet))]; intros; cbv beta zeta; unfold al4; try reflexivity; field. Qed.
Lemma be4_jet : jet D be4 (fun _ => 0) (fun _ => 1) (fun _ => 0) (fun t => - ps t / 4).
Proof. eapply jet_ext; [..|exact (jet_mul D _ _ _ _ _ _ _ _ _ _ (jet_h D) (jet_add D _ _ _ _ _ _ _ _ _ _ jet_1 (jet_mul D _ _ _ _ _ _ _ _ _ _ jet_half b2_jet)))]; intros; cbv beta zeta; unfold be4; try reflexivity; field. Qed.
Definition sj4 := sg_jet _ _ _ _ _ _ _ _ al4_jet be4_jet.

(** the step agrees with the Taylor expansion *)
Theorem pos_a : jet D (fun t h => (h * a1 t + h * a2 t h + h * a3 t h) / 6) (fun _ => 0) f2 f3 f4.
Proof.
  destruct a3_jet as (a & b & c & d & J3 & Ea & Eb & Ec & Ed).
  eapply jet_ext; [..|exact (jet_scal D (1 / 6) _ _ _ _ _ (jet_mul D _ _ _ _ _ _ _ _ _ _ (jet_h D) (jet_add D _ _ _ _ _ _ _ _ _ _ (jet_add D _ _ _ _ _ _ _ _ _ _ a1_jet a2_jet) J3)))];
    intros; cbv beta zeta; rewrite ?Ea, ?Eb, ?Ec, ?Ed; unfold f2, f3, f4, s1, s2; unfold f2; field.
Qed.
Theorem pos_b : jet D (fun t h => (6 + h * b2 t h + h * b3 t h) / 6) (fun _ => 1) (fun _ => 0) g3 g4.
Proof.
  eapply jet_ext; [..|exact (jet_add D _ _ _ _ _ _ _ _ _ _ jet_1 (jet_scal D (1 / 6) _ _ _ _ _ (jet_mul D _ _ _ _ _ _ _ _ _ _ (jet_h D) (jet_add D _ _ _ _ _ _ _ _ _ _ b2_jet b3_jet))))];
    intros; cbv beta zeta; unfold g3, g4, s1; field.
Qed.
Theorem vel_a : jet D (fun t h => (a1 t + 2 * a2 t h + 2 * a3 t h + a4 t h) / 6) (fun t => 2 * f2 t) (fun t => 3 * f3 t) (fun t => 4 * f4 t) (fun t => 5 * f5 t).
Proof.
  destruct a3_jet as (a & b & c & d & J3 & Ea & Eb & Ec & Ed).
  assert (J4 := jet_mul D _ _ _ _ _ _ _ _ _ _ (jet_opp _ _ _ _ _ sj4) (jet_add D _ _ _ _ _ _ _ _ _ _ jet_1 al4_jet)).
  assert (J := jet_add D _ _ _ _ _ _ _ _ _ _ (jet_add D _ _ _ _ _ _ _ _ _ _ (jet_add D _ _ _ _ _ _ _ _ _ _ a1_jet (jet_scal D 2 _ _ _ _ _ a2_jet)) (jet_scal D 2 _ _ _ _ _ J3)) J4).
  eapply jet_ext; [..|exact (jet_scal D (1 / 6) _ _ _ _ _ J)]; intros; cbv beta zeta; rewrite ?Ea, ?Eb, ?Ec, ?Ed; unfold a4, f2, f3, f4, f5, s1, s2, s3, f2, f3, s1; unfold f2; field.
Qed.
Theorem vel_b : jet D (fun t h => (2 * b2 t h + 2 * b3 t h + b4 t h) / 6) (fun _ => 0) (fun t => 3 * g3 t) (fun t => 4 * g4 t) (fun t => 5 * g5 t).
Proof.
  assert (J4 := jet_mul D _ _ _ _ _ _ _ _ _ _ (jet_opp _ _ _ _ _ sj4) be4_jet).
  assert (J := jet_add D _ _ _ _ _ _ _ _ _ _ (jet_add D _ _ _ _ _ _ _ _ _ _ (jet_scal D 2 _ _ _ _ _ b2_jet) (jet_scal D 2 _ _ _ _ _ b3_jet)) J4).
  eapply jet_ext; [..|exact (jet_scal D (1 / 6) _ _ _ _ _ J)]; intros; cbv beta zeta; unfold b4, g3, g4, g5, s1, s2, g3, s1; field.
Qed.
(** the Taylor expansion solves the equation of motion to third order *)
Lemma bd_neg c : bd D c -> bd D (fun t => - c t).
Proof. intros H. apply (bd_ext D (fun t => -1 * c t)); [intros; ring|]. exact (bd_mul D _ _ (bd_const D (-1)) H). Qed.
Lemma bd_div c k : bd D c -> bd D (fun t => c t / k).
Proof. intros H. apply (bd_ext D (fun t => c t * / k)); [reflexivity|]. exact (bd_mul D _ _ H (bd_const D (/ k))). Qed.
Lemma bd_s1 : bd D s1. Proof. apply (bd_mul D _ _ (bd_mul D _ _ (bd_const D (- 3)) (bd_s HK)) (bd_u HK)). Qed.
Ltac bdt := first [exact bd_s1 | exact (bd_s HK) | exact (bd_u HK) | exact (bd_w HK) | apply bd_const | apply bd_div; bdt | apply bd_neg; bdt | apply bd_add; bdt | apply bd_mul; bdt ].
Lemma bd_s2 : bd D s2. Proof. apply (bd_ext D (fun t => ps t * (- (3 / 2) * (pw t + - ps t) + 15 / 2 * (pu t * pu t)))); [intros; unfold s2; ring|]. bdt. Qed.
Lemma bd_s3 : bd D s3. Proof. apply (bd_ext D (fun t => ps t * (1 / 2 * ps t * pu t + 15 / 2 * pu t * (pw t + - ps t) + - (35 / 2 * (pu t * pu t * pu t))))); [intros; unfold s3; ring|]. bdt. Qed.
Lemma bd_f2 : bd D f2. Proof. unfold f2. bdt. Qed.
Lemma bd_f3 : bd D f3. Proof. unfold f3. bdt. Qed.
Lemma bd_g3 : bd D g3. Proof. unfold g3. bdt. Qed.
Lemma bd_g4 : bd D g4. Proof. unfold g4. bdt. Qed.
Lemma bd_f4 : bd D f4. Proof. unfold f4. apply bd_div, bd_neg, bd_add; [apply bd_s2|apply bd_mul; [apply (bd_s HK)|apply bd_f2]]. Qed.
Lemma bd_g5 : bd D g5. Proof. unfold g5. apply bd_div, bd_neg, bd_add; [apply bd_s2|apply bd_mul; [apply (bd_s HK)|apply bd_g3]]. Qed.
Lemma bd_f5 : bd D f5. Proof. unfold f5. apply bd_div, bd_neg, bd_add; [apply bd_add; [apply bd_s3|apply bd_mul; [apply bd_s1|apply bd_f2]]|apply bd_mul; [apply (bd_s HK)|apply bd_f3]]. Qed.
Lemma poly_jet a b c d e g : bd D a -> bd D b -> bd D c -> bd D d -> bd D e -> bd D g -> jet D (fun t h => a t + b t * h + c t * h ^ 2 + d t * h ^ 3 + e t * h ^ 4 + g t * h ^ 5) a b c d.
Proof.
  intros A B C E (M & HM & HE) (N & HN & HG). split; [exact A|]. split; [exact B|]. split; [exact C|]. split; [exact E|]. exists (M + N), 1. split; [lra|]. split; [lra|]. intros t h Ht Hh.
  replace (_ - _) with ((e t + g t * h) * h ^ 4) by ring. assert (h4 := pow_01 h 4 Hh). apply abs_mul_le; [|rewrite Rabs_pos_eq; lra]. apply abs_add_le; [auto|].
  replace N with (N * 1) by ring. apply abs_mul_le; [auto|]. rewrite Rabs_pos_eq; lra.
Qed.
Lemma ff_jet : jet D ff (fun _ => 1) (fun _ => 0) f2 f3.
Proof. eapply jet_ext; [..|exact (poly_jet _ _ _ _ _ _ (bd_const D 1) (bd_const D 0) bd_f2 bd_f3 bd_f4 bd_f5)]; intros; unfold ff; ring. Qed.
Lemma gg_jet : jet D gg (fun _ => 0) (fun _ => 1) (fun _ => 0) g3.
Proof. eapply jet_ext; [..|exact (poly_jet _ _ _ _ _ _ (bd_const D 0) (bd_const D 1) (bd_const D 0) bd_g3 bd_g4 bd_g5)]; intros; unfold gg; ring. Qed.
Lemma fm_jet : jet D (fun t h => ff t h - 1) (fun _ => 0) (fun _ => 0) f2 f3.
Proof. eapply jet_ext; [..|exact (jet_add D _ _ _ _ _ _ _ _ _ _ ff_jet (jet_const D _ (bd_const D (-1))))]; intros; cbv beta; ring. Qed.
Theorem acc_f : jet D (fun t h => - sg t (ff t h - 1) (gg t h) * ff t h) (fun t => 2 * f2 t) (fun t => 6 * f3 t) (fun t => 12 * f4 t) (fun t => 20 * f5 t).
Proof.
  eapply jet_ext; [..|exact (jet_mul D _ _ _ _ _ _ _ _ _ _ (jet_opp _ _ _ _ _ (sg_jet _ _ _ _ _ _ _ _ fm_jet gg_jet)) ff_jet)]; intros; cbv beta zeta; unfold f5, f4, f3, f2, g3, s1, s2, s3; field.
Qed.
Theorem acc_g : jet D (fun t h => - sg t (ff t h - 1) (gg t h) * gg t h) (fun _ => 0) (fun t => 6 * g3 t) (fun t => 12 * g4 t) (fun t => 20 * g5 t).
Proof.
  eapply jet_ext; [..|exact (jet_mul D _ _ _ _ _ _ _ _ _ _ (jet_opp _ _ _ _ _ (sg_jet _ _ _ _ _ _ _ _ fm_jet gg_jet)) gg_jet)]; intros; cbv beta zeta; unfold g5, g4, f3, f2, g3, s1, s2; field.
Qed.
End Jets.
