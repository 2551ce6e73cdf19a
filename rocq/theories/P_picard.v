(** * A system of equations with a Lipschitz right-hand side has a solution for all time (Picard iteration) *)
From Coq Require Import Reals Lra Psatz Lia.
From Coquelicot Require Import Coquelicot.
From Verif Require Import P_ode.
Local Open Scope R_scope.

Fixpoint nrm (n : nat) (z : nat -> R) : R := match n with O => 0 | S n => nrm n z + Rabs (z n) end.
Lemma nrm_pos n z : 0 <= nrm n z.
Proof. induction n as [|n IH]; cbn [nrm]; [lra|]. assert (A := Rabs_pos (z n)). lra. Qed.
Lemma nrm_le n z b : (forall i, Rabs (z i) <= b) -> nrm n z <= INR n * b.
Proof. intros H. induction n as [|n IH]; [cbn; lra|]. rewrite S_INR. cbn [nrm]. specialize (H n). lra. Qed.
Lemma nrm_lt n z b : 0 < b -> (forall i, Rabs (z i) < b) -> nrm n z <= INR n * b.
Proof. intros Hb H. apply nrm_le. intros i. left. apply H. Qed.
Lemma nrm_comp n z i : (i < n)%nat -> Rabs (z i) <= nrm n z.
Proof.
  induction n as [|n IH]; [lia|]. intros H. cbn [nrm]. assert (A := Rabs_pos (z n)). assert (B := nrm_pos n z). destruct (Nat.eq_dec i n) as [->|E]; [lra|]. specialize (IH ltac:(lia)). lra.
Qed.
Lemma nrm_ext n z z' : (forall i, Rabs (z i) = Rabs (z' i)) -> nrm n z = nrm n z'.
Proof. intros H. induction n as [|n IH]; cbn [nrm]; [reflexivity|]. rewrite IH, H. reflexivity. Qed.

Section SYSTEM.
Variables (n : nat) (F : (nat -> R) -> nat -> R) (k : R) (x0 : nat -> R).
Hypothesis NP : (0 < n)%nat.
Hypothesis kP : 0 < k.
Hypothesis LF : forall x y i, Rabs (F x i - F y i) <= k * nrm n (fun j => x j - y j).
Let K : R := k * INR n.
Lemma NPR : 0 < INR n. Proof. apply lt_0_INR, NP. Qed.
Lemma KP : 0 < K. Proof. apply Rmult_lt_0_compat; [exact kP|apply NPR]. Qed.

Lemma min_fin (d : nat -> R) : (forall i, 0 < d i) -> forall m, exists e, 0 < e /\ forall i, (i < m)%nat -> e <= d i.
Proof.
  intros H m. induction m as [|m (e & E & HE)]; [exists 1; split; [lra|intros i Hi; lia]|].
  exists (Rmin e (d m)). split; [apply Rmin_pos; [exact E|apply H]|]. intros i Hi. destruct (Nat.eq_dec i m) as [->|N]; [apply Rmin_r|]. eapply Rle_trans; [apply Rmin_l|apply HE; lia].
Qed.
Lemma close_fin (P : nat -> R -> Prop) : (forall i e e', P i e -> e' <= e -> P i e') -> (forall i, exists e, 0 < e /\ P i e) -> forall m, exists e, 0 < e /\ forall i, (i < m)%nat -> P i e.
Proof.
  intros D H m. induction m as [|m (e & E & HE)]; [exists 1; split; [lra|intros i Hi; lia]|]. destruct (H m) as (e' & E' & HE').
  exists (Rmin e e'). split; [apply Rmin_pos; assumption|]. intros i Hi. destruct (Nat.eq_dec i m) as [->|N]; [apply (D m e'); [exact HE'|apply Rmin_r]|]. apply (D i e); [apply HE; lia|apply Rmin_l].
Qed.
Lemma nrm_le' m z b : (forall i, (i < m)%nat -> Rabs (z i) <= b) -> nrm m z <= INR m * b.
Proof. induction m as [|m IH]; intros H; [cbn; lra|]. rewrite S_INR. cbn [nrm]. assert (A := H m ltac:(lia)). assert (B := IH ltac:(intros i Hi; apply H; lia)). lra. Qed.
Lemma comp_cont (f : R -> nat -> R) i t : (forall j, continuous (fun s => f s j) t) -> continuous (fun s => F (f s) i) t.
Proof.
  intros C. apply continuity_pt_filterlim. intros eps He. assert (KK := KP). assert (E1 : 0 < eps / (2 * K)) by (apply Rdiv_lt_0_compat; lra).
  destruct (close_fin (fun j d => forall s, s <> t -> Rabs (s - t) < d -> Rabs (f s j - f t j) < eps / (2 * K))) with (m := n) as (d & D & H).
  - intros j e e' HH L s Hs Hd. apply HH; [exact Hs|lra].
  - intros j. specialize (C j). apply continuity_pt_filterlim in C. destruct (C _ E1) as (d & D & H). exists d. split; [exact D|]. intros s Hs Hd. apply (H s). split; [split; [exact Logic.I|intros E; apply Hs; symmetry; exact E]|exact Hd].
  - exists d. split; [exact D|]. intros s [[_ Hs] Hd]. cbn in *. unfold R_dist in *. eapply Rle_lt_trans; [apply LF|].
    assert (B : nrm n (fun j => f s j - f t j) <= INR n * (eps / (2 * K))). { apply nrm_le'. intros j Hj. left. apply H; [exact Hj|intros E; apply Hs; symmetry; exact E|exact Hd]. }
    apply Rle_lt_trans with (k * (INR n * (eps / (2 * K)))); [apply Rmult_le_compat_l; lra|]. replace (k * (INR n * (eps / (2 * K)))) with (eps / 2); [lra|]. unfold K. assert (A := NPR). field. split; lra.
Qed.
Fixpoint pic (m : nat) : R -> nat -> R :=
  match m with
  | O => fun _ => x0
  | S m => fun t i => x0 i + RInt (fun s => F (pic m s) i) 0 t
  end.
Lemma pic_cont m : forall i t, continuous (fun s => pic m s i) t.
Proof.
  induction m as [|m IH]; intros i t; [apply continuous_const|]. cbn [pic]. apply (prim_cont (fun s => F (pic m s) i)). intros s. apply comp_cont. intros j. apply IH.
Qed.
Lemma field_cont m i t : continuous (fun s => F (pic m s) i) t.
Proof. apply comp_cont. intros j. apply pic_cont. Qed.
Definition M0 : R := nrm n (F x0).
Lemma M0_nonneg : 0 <= M0. Proof. apply nrm_pos. Qed.
Lemma nrm_scal m z c : nrm m (fun i => z i * c) = nrm m z * Rabs c.
Proof. induction m as [|m IH]; cbn [nrm]; [ring|]. rewrite IH, Rabs_mult. ring. Qed.
Lemma step_bound m : forall t, nrm n (fun i => pic (S m) t i - pic m t i) <= M0 * K ^ m * (Rabs t ^ (S m) / INR (fact (S m))).
Proof.
  induction m as [|m IH]; intros t.
  - rewrite (nrm_ext n _ (fun i => F x0 i * t)). { rewrite nrm_scal. fold M0. cbn. apply Req_le. field. }
    intros i. f_equal. cbn [pic]. rewrite RInt_const. unfold scal; cbn. unfold mult; cbn. ring.
  - assert (FB : INR (fact (S m)) <> 0) by apply INR_fact_neq_0. assert (FB' : INR (S (S m)) <> 0) by (apply not_0_INR; discriminate).
    assert (BB : forall i, Rabs (pic (S (S m)) t i - pic (S m) t i) <= k * (M0 * K ^ m / INR (fact (S m))) * (Rabs t ^ (S (S m)) / INR (S (S m)))).
    { intros i. change (pic (S (S m)) t i) with (x0 i + RInt (fun s => F (pic (S m) s) i) 0 t). change (pic (S m) t i) with (x0 i + RInt (fun s => F (pic m s) i) 0 t).
      match goal with |- Rabs (?c + ?a - (?c + ?b)) <= _ => replace (c + a - (c + b)) with (a - b) by ring end. rewrite (rint_diff (fun s => F (pic (S m) s) i) (fun s => F (pic m s) i)) by (apply field_cont).
      apply (rint_pow (fun s => F (pic (S m) s) i - F (pic m s) i)); [intros s; apply (continuous_minus (V := R_NormedModule)); apply field_cont|]. intros s _. eapply Rle_trans; [apply LF|].
      rewrite (Rmult_assoc k). apply Rmult_le_compat_l; [left; exact kP|]. eapply Rle_trans; [apply IH|]. apply Req_le. field. exact FB. }
    eapply Rle_trans; [apply nrm_le, BB|]. apply Req_le. replace (fact (S (S m))) with (S (S m) * fact (S m))%nat by reflexivity. rewrite mult_INR. unfold K at 2. cbn [pow]. fold K. unfold K at 2. field. split; assumption.
Qed.
Definition dom (T : R) (m : nat) : R := M0 / K * sum_f_R0 (fun i => / INR (fact i) * (K * T) ^ i) m.
Lemma dom_S T m : dom T (S m) - dom T m = M0 * K ^ m * (T ^ (S m) / INR (fact (S m))).
Proof. assert (A := KP). unfold dom. cbn [sum_f_R0]. rewrite Rpow_mult_distr. cbn [pow]. field. split; [apply INR_fact_neq_0|lra]. Qed.
Lemma dom_cv T : Un_cv (dom T) (M0 / K * exp (K * T)).
Proof.
  unfold dom. apply (CV_mult (fun _ => M0 / K) (fun n => sum_f_R0 (fun i => / INR (fact i) * (K * T) ^ i) n)).
  - intros e He. exists O. intros m _. unfold R_dist. rewrite Rminus_eq_0, Rabs_R0. exact He.
  - unfold exp. destruct (exist_exp (K * T)) as [l Hl]. exact Hl.
Qed.
Lemma pic_gap T t a b i : (i < n)%nat -> Rabs t <= T -> (a <= b)%nat -> Rabs (pic b t i - pic a t i) <= dom T b - dom T a.
Proof.
  intros Hi Ht Hm. assert (KK := KP). assert (HT : 0 <= T) by (assert (A := Rabs_pos t); lra). induction Hm as [|m Hm IH]; [rewrite !Rminus_eq_0, Rabs_R0; lra|].
  assert (B := step_bound m t). assert (B' := nrm_comp n (fun i => pic (S m) t i - pic m t i) i Hi). cbv beta in B'. assert (D := dom_S T m).
  assert (C : M0 * K ^ m * (Rabs t ^ S m / INR (fact (S m))) <= M0 * K ^ m * (T ^ S m / INR (fact (S m)))).
  { apply Rmult_le_compat_l; [apply Rmult_le_pos; [apply M0_nonneg|apply pow_le; lra]|]. apply Rmult_le_compat_r; [left; apply Rinv_0_lt_compat, INR_fact_lt_0|]. apply pow_incr. split; [apply Rabs_pos|exact Ht]. }
  assert (T1 := Rabs_triang (pic (S m) t i - pic m t i) (pic m t i - pic a t i)).
  replace (pic (S m) t i - pic m t i + (pic m t i - pic a t i)) with (pic (S m) t i - pic a t i) in T1 by ring. lra.
Qed.
Lemma tail T : forall eps, 0 < eps -> exists N, forall a b, (N <= a)%nat -> (a <= b)%nat -> dom T b - dom T a < eps.
Proof.
  intros eps He. assert (C := CV_Cauchy (dom T) (exist _ _ (dom_cv T))). destruct (C eps He) as (N & HN). exists N. intros a b Hn Hm. assert (X := HN b a ltac:(lia) ltac:(lia)). unfold R_dist in X. apply Rabs_def2 in X. lra.
Qed.
Lemma pic_cauchy t i : Cauchy_crit (fun m => if lt_dec i n then pic m t i else x0 i).
Proof.
  intros eps He. destruct (tail (Rabs t) eps He) as (N & HN). exists N. intros a b Ha Hb. unfold R_dist. destruct (lt_dec i n) as [L|L]; [|rewrite Rminus_eq_0, Rabs_R0; exact He]. destruct (le_ge_dec a b) as [Q|Q].
  - rewrite Rabs_minus_sym. eapply Rle_lt_trans; [apply (pic_gap (Rabs t)); [exact L|lra|exact Q]|]. apply HN; lia.
  - eapply Rle_lt_trans; [apply (pic_gap (Rabs t)); [exact L|lra|exact Q]|]. apply HN; lia.
Qed.
Definition sol (t : R) (i : nat) : R := proj1_sig (Rcomplete.R_complete _ (pic_cauchy t i)).
Lemma sol_cv t i : (i < n)%nat -> Un_cv (fun m => pic m t i) (sol t i).
Proof. intros L. unfold sol. destruct (Rcomplete.R_complete _ _) as [l Hl]. cbn [proj1_sig]. destruct (lt_dec i n) as [Q|Q]; [exact Hl|contradiction]. Qed.
Lemma sol_out t i : ~ (i < n)%nat -> sol t i = x0 i.
Proof.
  intros L. unfold sol. destruct (Rcomplete.R_complete _ _) as [l Hl]. cbn [proj1_sig]. destruct (lt_dec i n) as [Q|Q]; [contradiction|].
  apply (UL_sequence _ _ _ Hl). intros e He. exists O. intros m _. unfold R_dist. rewrite Rminus_eq_0, Rabs_R0. exact He.
Qed.
Lemma sol_uniform T i : (i < n)%nat -> 0 <= T -> forall eps, 0 < eps -> exists N, forall m t, (N <= m)%nat -> Rabs t <= T -> Rabs (sol t i - pic m t i) <= eps.
Proof.
  intros Hi HT eps He. destruct (tail T eps He) as (N & HN). exists N. intros m t Hn Ht.
  apply (lim_close _ _ _ _ m (sol_cv t i Hi)). intros b Hb. assert (X := pic_gap T t m b i Hi Ht Hb). assert (Y := HN m b Hn Hb). lra.
Qed.
Lemma sol_unif_all T : 0 <= T -> forall eps, 0 < eps -> exists N, forall m t i, (N <= m)%nat -> Rabs t <= T -> (i < n)%nat -> Rabs (sol t i - pic m t i) <= eps.
Proof.
  intros HT eps He. assert (G : forall p, (p <= n)%nat -> exists N, forall m t i, (N <= m)%nat -> Rabs t <= T -> (i < p)%nat -> Rabs (sol t i - pic m t i) <= eps).
  { induction p as [|p IH]; intros Hp; [exists O; intros; lia|]. destruct (IH ltac:(lia)) as (N1 & H1). destruct (sol_uniform T p ltac:(lia) HT eps He) as (N2 & H2).
    exists (max N1 N2). intros m t i Hm Ht Hi. destruct (Nat.eq_dec i p) as [->|E]; [apply H2; [lia|exact Ht]|apply H1; [lia|exact Ht|lia]]. }
  apply (G n). lia.
Qed.
Lemma sol_cont i : forall t, continuous (fun s => sol s i) t.
Proof.
  destruct (lt_dec i n) as [L|L].
  - apply (unif_cont (fun m s => pic m s i)); [intros m t; apply pic_cont|]. intros T HT eps He. apply sol_uniform; assumption.
  - intros t. apply (continuous_ext (fun _ => x0 i)); [intros s; symmetry; apply sol_out, L|apply continuous_const].
Qed.
Lemma sol_field_cont i t : continuous (fun s => F (sol s) i) t.
Proof. apply comp_cont. intros j. apply sol_cont. Qed.
Lemma sol_integral i t : (i < n)%nat -> sol t i = x0 i + RInt (fun s => F (sol s) i) 0 t.
Proof.
  intros Hi. assert (KK := KP). apply cond_eq. intros eps He. assert (AT := Rabs_pos t).
  set (d := eps / (2 * (K * (Rabs t + 1)))). assert (KT : 0 < K * (Rabs t + 1)) by (apply Rmult_lt_0_compat; lra). assert (DP : 0 < d) by (unfold d; apply Rdiv_lt_0_compat; lra).
  destruct (sol_unif_all (Rabs t) AT d DP) as (N & HN).
  apply Rle_lt_trans with (eps / 2); [|lra]. apply (lim_close (fun m => pic m t i) _ _ _ (S N) (sol_cv t i Hi)). intros m Hm. destruct m as [|m]; [lia|]. assert (Hn : (N <= m)%nat) by lia. cbn [pic].
  match goal with |- Rabs (?c + ?a - (?c + ?b)) <= _ => replace (c + a - (c + b)) with (a - b) by ring end.
  rewrite (rint_diff (fun s => F (pic m s) i) (fun s => F (sol s) i)) by (first [apply field_cont|apply sol_field_cont]).
  assert (B := rint_pow (fun s => F (pic m s) i - F (sol s) i) (K * d) 0 t).
  eapply Rle_trans; [apply B|].
  - intros s. apply (continuous_minus (V := R_NormedModule)); [apply field_cont|apply sol_field_cont].
  - intros s Hs. eapply Rle_trans; [apply LF|]. replace (K * d * Rabs s ^ 0) with (k * (INR n * d)) by (unfold K; cbn [pow]; ring). apply Rmult_le_compat_l; [lra|]. apply nrm_le'. intros j Hj. rewrite Rabs_minus_sym. apply HN; assumption.
  - cbn [INR pow]. replace (K * d * (Rabs t * 1 / 1)) with (K * Rabs t * d) by field. unfold d. apply Rle_trans with (K * (Rabs t + 1) * (eps / (2 * (K * (Rabs t + 1))))); [apply Rmult_le_compat_r; [exact (Rlt_le _ _ DP)|nra]|]. apply Req_le. field. lra.
Qed.
Lemma picard_system : exists x : R -> nat -> R, (forall i, x 0 i = x0 i) /\ forall t i, (i < n)%nat -> derivable_pt_lim (fun s => x s i) t (F (x t) i).
Proof.
  exists sol. split.
  - intros i. destruct (lt_dec i n) as [L|L]; [|apply sol_out, L]. rewrite sol_integral by exact L. rewrite RInt_point. unfold zero; cbn; ring.
  - intros t i Hi. apply is_derive_Reals. apply (is_derive_ext (fun t => x0 i + RInt (fun s => F (sol s) i) 0 t)); [intros s; symmetry; apply sol_integral, Hi|].
    apply (prim_derive (fun s => F (sol s) i)). intros s. apply sol_field_cont.
Qed.
End SYSTEM.

(** ** functions of the state that are bounded and Lipschitz *)
Section LIPSCHITZ.
Context (n : nat).
Definition lip (f : (nat -> R) -> R) : Prop := exists k, 0 <= k /\ forall x y, Rabs (f x - f y) <= k * nrm n (fun j => x j - y j).
Definition blip (f : (nat -> R) -> R) : Prop := lip f /\ exists b, forall x, Rabs (f x) <= b.
Lemma blip_lip f : blip f -> lip f. Proof. intros [H _]. exact H. Qed.
Lemma lip_ext f g : (forall x, f x = g x) -> lip f -> lip g.
Proof. intros E (k & K & H). exists k. split; [exact K|]. intros x y. rewrite <- !E. apply H. Qed.
Lemma blip_ext f g : (forall x, f x = g x) -> blip f -> blip g.
Proof. intros E [H (b & B)]. split; [apply (lip_ext f); assumption|]. exists b. intros x. rewrite <- E. apply B. Qed.
Lemma lip_coord i : (i < n)%nat -> lip (fun x => x i).
Proof. intros Hi. exists 1. split; [lra|]. intros x y. rewrite Rmult_1_l. apply (nrm_comp n (fun j => x j - y j) i Hi). Qed.
Lemma blip_const c : blip (fun _ => c).
Proof. split; [exists 0; split; [lra|]; intros x y; rewrite Rminus_eq_0, Rabs_R0; lra|]. exists (Rabs c). intros _. lra. Qed.
Lemma lip_add f g : lip f -> lip g -> lip (fun x => f x + g x).
Proof.
  intros (k & K & H) (l & L & G). exists (k + l). split; [lra|]. intros x y. specialize (H x y). specialize (G x y). replace (f x + g x - (f y + g y)) with (f x - f y + (g x - g y)) by ring.
  eapply Rle_trans; [apply Rabs_triang|]. lra.
Qed.
Lemma lip_scal c f : lip f -> lip (fun x => c * f x).
Proof. intros (k & K & H). exists (Rabs c * k). split; [apply Rmult_le_pos; [apply Rabs_pos|exact K]|]. intros x y. replace (c * f x - c * f y) with (c * (f x - f y)) by ring. rewrite Rabs_mult, Rmult_assoc. apply Rmult_le_compat_l; [apply Rabs_pos|apply H]. Qed.
Lemma blip_add f g : blip f -> blip g -> blip (fun x => f x + g x).
Proof. intros [H (b & B)] [G (c & C)]. split; [apply lip_add; assumption|]. exists (b + c). intros x. eapply Rle_trans; [apply Rabs_triang|]. specialize (B x). specialize (C x). lra. Qed.
Lemma blip_mul f g : blip f -> blip g -> blip (fun x => f x * g x).
Proof.
  intros [(k & K & H) (b & B)] [(l & L & G) (c & C)].
  assert (B0 : 0 <= b) by (eapply Rle_trans; [apply Rabs_pos|apply (B (fun _ => 0))]). assert (C0 : 0 <= c) by (eapply Rle_trans; [apply Rabs_pos|apply (C (fun _ => 0))]).
  split.
  - exists (c * k + b * l). split; [assert (0 <= c * k) by (apply Rmult_le_pos; assumption); assert (0 <= b * l) by (apply Rmult_le_pos; assumption); lra|]. intros x y.
    replace (f x * g x - f y * g y) with ((f x - f y) * g x + f y * (g x - g y)) by ring. eapply Rle_trans; [apply Rabs_triang|]. rewrite !Rabs_mult. set (N := nrm n _) in *.
    assert (X1 : Rabs (f x - f y) * Rabs (g x) <= k * N * c) by (apply Rmult_le_compat; [apply Rabs_pos|apply Rabs_pos|apply H|apply C]).
    assert (X2 : Rabs (f y) * Rabs (g x - g y) <= b * (l * N)) by (apply Rmult_le_compat; [apply Rabs_pos|apply Rabs_pos|apply B|apply G]). lra.
  - exists (b * c). intros x. rewrite Rabs_mult. apply Rmult_le_compat; [apply Rabs_pos|apply Rabs_pos|apply B|apply C].
Qed.
Lemma blip_opp f : blip f -> blip (fun x => - f x).
Proof. intros H. apply (blip_ext (fun x => -1 * f x)); [intros x; ring|]. apply (blip_mul (fun _ => -1)); [apply blip_const|exact H]. Qed.
Lemma blip_sub f g : blip f -> blip g -> blip (fun x => f x - g x).
Proof. intros H G. apply (blip_ext (fun x => f x + - g x)); [intros x; ring|]. apply (blip_add f (fun x => - g x)); [exact H|apply blip_opp, G]. Qed.
Definition clamp (a b x : R) : R := Rmax a (Rmin b x).
Lemma clamp_id a b x : a <= x <= b -> clamp a b x = x.
Proof. intros H. unfold clamp. rewrite Rmin_right by lra. apply Rmax_right. lra. Qed.
Lemma clamp_in a b x : a <= b -> a <= clamp a b x <= b.
Proof. intros H. unfold clamp, Rmax, Rmin. destruct (Rle_dec b x), (Rle_dec a _); lra. Qed.
Lemma clamp_lip a b x y : Rabs (clamp a b x - clamp a b y) <= Rabs (x - y).
Proof.
  assert (A : forall c u v, Rabs (Rmax c u - Rmax c v) <= Rabs (u - v)). { intros c u v. unfold Rmax. destruct (Rle_dec c u), (Rle_dec c v); unfold Rabs; repeat destruct (Rcase_abs _); lra. }
  assert (B : forall c u v, Rabs (Rmin c u - Rmin c v) <= Rabs (u - v)). { intros c u v. unfold Rmin. destruct (Rle_dec c u), (Rle_dec c v); unfold Rabs; repeat destruct (Rcase_abs _); lra. }
  unfold clamp. eapply Rle_trans; [apply A|apply B].
Qed.
Lemma blip_clamp a b f : a <= b -> lip f -> blip (fun x => clamp a b (f x)).
Proof.
  intros AB (k & K & H). split.
  - exists k. split; [exact K|]. intros x y. eapply Rle_trans; [apply clamp_lip|apply H].
  - exists (Rabs a + Rabs b). intros x. assert (X := clamp_in a b (f x) AB). unfold Rabs. repeat match goal with |- context [Rcase_abs ?a] => destruct (Rcase_abs a) end; lra.
Qed.
Lemma lip_all (F : (nat -> R) -> nat -> R) m : (forall i, lip (fun x => F x i)) -> (forall x i, (m <= i)%nat -> F x i = 0) -> exists k, 0 < k /\ forall x y i, Rabs (F x i - F y i) <= k * nrm n (fun j => x j - y j).
Proof.
  intros H Z. assert (G : forall p, exists k, 0 < k /\ forall x y i, (i < p)%nat -> Rabs (F x i - F y i) <= k * nrm n (fun j => x j - y j)).
  { induction p as [|p (k & K & IH)]; [exists 1; split; [lra|intros; lia]|]. destruct (H p) as (l & L & Hl). exists (k + l). split; [lra|]. intros x y i Hi. assert (A := nrm_pos n (fun j => x j - y j)).
    assert (0 <= k * nrm n (fun j => x j - y j)) by (apply Rmult_le_pos; lra). assert (0 <= l * nrm n (fun j => x j - y j)) by (apply Rmult_le_pos; lra).
    destruct (Nat.eq_dec i p) as [->|E]; [specialize (Hl x y); lra|specialize (IH x y i ltac:(lia)); lra]. }
  destruct (G m) as (k & K & Hk). exists k. split; [exact K|]. intros x y i. destruct (lt_dec i m) as [L|L]; [apply Hk, L|]. rewrite !Z by lia. rewrite Rminus_eq_0, Rabs_R0. apply Rmult_le_pos; [lra|apply nrm_pos].
Qed.
End LIPSCHITZ.
