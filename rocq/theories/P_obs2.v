(** * Lemmas for the Kalman filters: gravity gradient, attitude filter *)
From Coq Require Import Reals List Bool Lra Psatz Lia.
From Coquelicot Require Import Coquelicot.
From Verif Require Import Num Vec Mat6 M_vector M_quaternion M_jday M_frame M_env M_dyn M_obs S_rot S_env S_dyn S_obs P_quat P_wheel P_env P_dyn P_dyn2 P_obs.
Local Open Scope R_scope.

(** ** the Jacobian of the two-body acceleration *)
Lemma gravity_comp p : p <> zero3 -> gravity_accel false p (norm3 p) = scale3 (- MU * (/ norm3 p) ^ 3) p.
Proof. intros H. assert (N := norm3_gt0 p H). unfold gravity_accel. cbv zeta. generalize MU. intros mu. set (r := norm3 p) in *. clearbody r. destruct p as [x y z]. vunfold; rnum. apply mk3_c; field; lra. Qed.
Lemma norm3_sqrt (x y z : R) : norm3 (mk3 x y z) = sqrt (x ^ 2 + y ^ 2 + z ^ 2).
Proof. unfold norm3. rnumg. f_equal. vunfoldg. rnumg. ring. Qed.
(** k u / |p|^3 along one coordinate: [f] is the squared length, [g] the component *)
Lemma cube_derive k (f g : R -> R) t f' g' : 0 < f t -> is_derive f t f' -> is_derive g t g' ->
  is_derive (fun u => k * (/ sqrt (f u)) ^ 3 * g u) t (k * (/ sqrt (f t)) ^ 3 * g' - k * (3 * (f' / 2) * (/ sqrt (f t)) ^ 5) * g t).
Proof.
  intros Hp Hf Hg. assert (W := inv_sqrt_derive f t f' Hp Hf). set (w := fun u => / sqrt (f u)) in *.
  assert (E : is_derive (fun u => k * w u ^ 3 * g u) t (k * (3 * w t ^ 2 * (- (f' / 2) * w t ^ 3)) * g t + k * w t ^ 3 * g')).
  { auto_derive; [split; [eexists; exact W|split; [eexists; exact Hg|exact I]]|].
    replace (Derive (fun x : R => w x) t) with (- (f' / 2) * w t ^ 3) by (symmetry; apply is_derive_unique; exact W).
    replace (Derive (fun x : R => g x) t) with g' by (symmetry; apply is_derive_unique; exact Hg). generalize (w t) (g t). intros. ring. }
  replace (k * (/ sqrt (f t)) ^ 3 * g' - k * (3 * (f' / 2) * (/ sqrt (f t)) ^ 5) * g t) with (k * (3 * w t ^ 2 * (- (f' / 2) * w t ^ 3)) * g t + k * w t ^ 3 * g')
    by (unfold w; generalize (/ sqrt (f t)) (g t); intros; field).
  exact E.
Qed.
Lemma grad_block_inv p : p <> zero3 -> grad_block p =
  let w := / norm3 p in let e a b := - MU * (3 * w ^ 5 * a * b) in let d a := - MU * (- w ^ 3 + 3 * w ^ 5 * a * a) in
  mkm (mk3 (d (x3 p)) (e (x3 p) (y3 p)) (e (x3 p) (z3 p))) (mk3 (e (x3 p) (y3 p)) (d (y3 p)) (e (y3 p) (z3 p))) (mk3 (e (x3 p) (z3 p)) (e (y3 p) (z3 p)) (d (z3 p))).
Proof.
  intros H. assert (N := norm3_gt0 p H). unfold grad_block. cbv zeta. generalize MU. intros mu. set (r := norm3 p) in *. clearbody r. destruct p as [x y z]. cbn [x3 y3 z3].
  apply mkm_c; apply mk3_c; field; lra.
Qed.
Lemma near_nonzero (c : R -> v3) (i : v3 -> R) t : (forall u, i (c u) = u) -> i zero3 = 0 -> c t <> zero3 -> (forall u, u <> 0 -> c u <> zero3).
Proof. intros A B C u U E. apply U. rewrite <- (A u), E. exact B. Qed.
(** derivative of one component of the acceleration along one coordinate *)
Lemma comp_derive (c : R -> v3) (i : v3 -> R) (f g : R -> R) t f' g' :
  (forall u, norm3 (c u) = sqrt (f u)) -> (forall u, i (c u) = g u) -> (forall k v, i (scale3 k v) = k * i v) -> 
  (forall u, c u = zero3 <-> f u = 0) -> continuity_pt f t -> 0 < f t -> is_derive f t f' -> is_derive g t g' ->
  derivable_pt_lim (fun u => i (gravity_accel false (c u) (norm3 (c u)))) t (- MU * (/ norm3 (c t)) ^ 3 * g' - - MU * (3 * (f' / 2) * (/ norm3 (c t)) ^ 5) * g t).
Proof.
  intros HN HI HL HZ HC Hp Hf Hg. rewrite (HN t). apply is_derive_Reals.
  apply (is_derive_ext_loc (fun u => - MU * (/ sqrt (f u)) ^ 3 * g u)); [|apply cube_derive; assumption].
  assert (L : locally t (fun u => 0 < f u)).
  { apply continuity_pt_locally with (eps := mkposreal _ Hp) in HC. revert HC. apply filter_imp. cbn [pos]. intros u Hu. apply Rabs_def2 in Hu. lra. }
  revert L. apply filter_imp. intros u Hu. rewrite gravity_comp by (rewrite HZ; lra). rewrite HL, HI, HN. reflexivity.
Qed.
Lemma sq_zero (x y z : R) : mk3 x y z = zero3 <-> x ^ 2 + y ^ 2 + z ^ 2 = 0.
Proof.
  split.
  - intros E. injection E as -> -> ->. rnumg. ring.
  - intros E. assert (0 <= x ^ 2) by nra. assert (0 <= y ^ 2) by nra. assert (0 <= z ^ 2) by nra.
    assert (X : forall a, a ^ 2 = 0 -> a = 0) by (intros; nra). rewrite (X x), (X y), (X z) by lra. reflexivity.
Qed.
Lemma gravity_jacobian p : p <> zero3 ->
  gradient (fun p => x3 (gravity_accel false p (norm3 p))) p (opp3 (row1 (grad_block p))) /\
  gradient (fun p => y3 (gravity_accel false p (norm3 p))) p (opp3 (row2 (grad_block p))) /\
  gradient (fun p => z3 (gravity_accel false p (norm3 p))) p (opp3 (row3 (grad_block p))).
Proof.
  intros H. rewrite (grad_block_inv p H). cbv zeta. destruct p as [x y z].
  assert (N : 0 < x ^ 2 + y ^ 2 + z ^ 2).
  { destruct (Req_dec (x ^ 2 + y ^ 2 + z ^ 2) 0) as [E|E]; [apply sq_zero in E; contradiction|]. assert (0 <= x ^ 2) by nra. assert (0 <= y ^ 2) by nra. assert (0 <= z ^ 2) by nra. lra. }
  assert (DA : forall a b t, is_derive (fun u => u ^ 2 + a ^ 2 + b ^ 2) t (2 * t)) by (intros; auto_derive; [exact I|ring]).
  assert (DB : forall a b t, is_derive (fun u => a ^ 2 + u ^ 2 + b ^ 2) t (2 * t)) by (intros; auto_derive; [exact I|ring]).
  assert (DC : forall a b t, is_derive (fun u => a ^ 2 + b ^ 2 + u ^ 2) t (2 * t)) by (intros; auto_derive; [exact I|ring]).
  assert (D1 : forall t, is_derive (fun u : R => u) t 1) by (intros; apply (is_derive_id (K := R_AbsRing) t)).
  assert (D0 : forall a t : R, is_derive (fun u : R => a) t 0) by (intros; apply (is_derive_const (K := R_AbsRing) (V := R_NormedModule) a)).
  assert (CT : forall (f : R -> R) t l, is_derive f t l -> continuity_pt f t).
  { intros f t l D. apply derivable_continuous_pt. exists l. apply is_derive_Reals. exact D. }
  assert (SX : forall k (v : v3), x3 (scale3 k v) = k * x3 v) by (intros k [a b c]; reflexivity).
  assert (SY : forall k (v : v3), y3 (scale3 k v) = k * y3 v) by (intros k [a b c]; reflexivity).
  assert (SZ : forall k (v : v3), z3 (scale3 k v) = k * z3 v) by (intros k [a b c]; reflexivity).
  assert (FIN : forall f t a b, derivable_pt_lim f t a -> a = b -> derivable_pt_lim f t b) by exact d_eq.
  unfold gradient. cbn [x3 y3 z3 row1 row2 row3].
  split; [|split]; (split; [|split]).
  - assert (E := comp_derive (fun u => mk3 u y z) x3 (fun u => u ^ 2 + y ^ 2 + z ^ 2) (fun u => u) x (2 * x) 1 (fun u => norm3_sqrt _ _ _) (fun u => eq_refl) SX (fun u => sq_zero _ _ _) (CT _ _ _ (DA y z x)) N (DA y z x) (D1 x)).
    cbv beta in E. eapply FIN; [exact E|]. unfold opp3. cbn [x3 y3 z3]. rnumg. generalize (/ norm3 (mk3 x y z)). generalize MU. intros. field.
  - assert (E := comp_derive (fun u => mk3 x u z) x3 (fun u => x ^ 2 + u ^ 2 + z ^ 2) (fun _ => x) y (2 * y) 0 (fun u => norm3_sqrt _ _ _) (fun u => eq_refl) SX (fun u => sq_zero _ _ _) (CT _ _ _ (DB x z y)) N (DB x z y) (D0 x y)).
    cbv beta in E. eapply FIN; [exact E|]. unfold opp3. cbn [x3 y3 z3]. rnumg. generalize (/ norm3 (mk3 x y z)). generalize MU. intros. field.
  - assert (E := comp_derive (fun u => mk3 x y u) x3 (fun u => x ^ 2 + y ^ 2 + u ^ 2) (fun _ => x) z (2 * z) 0 (fun u => norm3_sqrt _ _ _) (fun u => eq_refl) SX (fun u => sq_zero _ _ _) (CT _ _ _ (DC x y z)) N (DC x y z) (D0 x z)).
    cbv beta in E. eapply FIN; [exact E|]. unfold opp3. cbn [x3 y3 z3]. rnumg. generalize (/ norm3 (mk3 x y z)). generalize MU. intros. field.
  - assert (E := comp_derive (fun u => mk3 u y z) y3 (fun u => u ^ 2 + y ^ 2 + z ^ 2) (fun _ => y) x (2 * x) 0 (fun u => norm3_sqrt _ _ _) (fun u => eq_refl) SY (fun u => sq_zero _ _ _) (CT _ _ _ (DA y z x)) N (DA y z x) (D0 y x)).
    cbv beta in E. eapply FIN; [exact E|]. unfold opp3. cbn [x3 y3 z3]. rnumg. generalize (/ norm3 (mk3 x y z)). generalize MU. intros. field.
  - assert (E := comp_derive (fun u => mk3 x u z) y3 (fun u => x ^ 2 + u ^ 2 + z ^ 2) (fun u => u) y (2 * y) 1 (fun u => norm3_sqrt _ _ _) (fun u => eq_refl) SY (fun u => sq_zero _ _ _) (CT _ _ _ (DB x z y)) N (DB x z y) (D1 y)).
    cbv beta in E. eapply FIN; [exact E|]. unfold opp3. cbn [x3 y3 z3]. rnumg. generalize (/ norm3 (mk3 x y z)). generalize MU. intros. field.
  - assert (E := comp_derive (fun u => mk3 x y u) y3 (fun u => x ^ 2 + y ^ 2 + u ^ 2) (fun _ => y) z (2 * z) 0 (fun u => norm3_sqrt _ _ _) (fun u => eq_refl) SY (fun u => sq_zero _ _ _) (CT _ _ _ (DC x y z)) N (DC x y z) (D0 y z)).
    cbv beta in E. eapply FIN; [exact E|]. unfold opp3. cbn [x3 y3 z3]. rnumg. generalize (/ norm3 (mk3 x y z)). generalize MU. intros. field.
  - assert (E := comp_derive (fun u => mk3 u y z) z3 (fun u => u ^ 2 + y ^ 2 + z ^ 2) (fun _ => z) x (2 * x) 0 (fun u => norm3_sqrt _ _ _) (fun u => eq_refl) SZ (fun u => sq_zero _ _ _) (CT _ _ _ (DA y z x)) N (DA y z x) (D0 z x)).
    cbv beta in E. eapply FIN; [exact E|]. unfold opp3. cbn [x3 y3 z3]. rnumg. generalize (/ norm3 (mk3 x y z)). generalize MU. intros. field.
  - assert (E := comp_derive (fun u => mk3 x u z) z3 (fun u => x ^ 2 + u ^ 2 + z ^ 2) (fun _ => z) y (2 * y) 0 (fun u => norm3_sqrt _ _ _) (fun u => eq_refl) SZ (fun u => sq_zero _ _ _) (CT _ _ _ (DB x z y)) N (DB x z y) (D0 z y)).
    cbv beta in E. eapply FIN; [exact E|]. unfold opp3. cbn [x3 y3 z3]. rnumg. generalize (/ norm3 (mk3 x y z)). generalize MU. intros. field.
  - assert (E := comp_derive (fun u => mk3 x y u) z3 (fun u => x ^ 2 + y ^ 2 + u ^ 2) (fun u => u) z (2 * z) 1 (fun u => norm3_sqrt _ _ _) (fun u => eq_refl) SZ (fun u => sq_zero _ _ _) (CT _ _ _ (DC x y z)) N (DC x y z) (D1 z)).
    cbv beta in E. eapply FIN; [exact E|]. unfold opp3. cbn [x3 y3 z3]. rnumg. generalize (/ norm3 (mk3 x y z)). generalize MU. intros. field.
Qed.
