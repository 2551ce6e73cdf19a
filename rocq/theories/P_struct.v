(** * Actuators, wheels and inertia *)
From Coq Require Import Reals ZArith List Bool Lra Psatz Lia.
From Flocq Require Import Core BinarySingleNaN.
From Verif Require Import Num Flt Vec M_vector M_struct S_rot P_quat P_sat.
Import ListNotations.
Local Open Scope R_scope.

(** ** Magnetorquers *)
Lemma nsign_pos (x : R) : 0 < x -> nsign x = 1.
Proof. intros. unfold nsign. rnumg. destruct (Rltb_spec x 0); [lra|]. destruct (Rltb_spec 0 x); lra. Qed.
Lemma nsign_neg (x : R) : x < 0 -> nsign x = -1.
Proof. intros. unfold nsign. rnumg. destruct (Rltb_spec x 0); lra. Qed.
Lemma nsign_0 : nsign (0 : R) = 0.
Proof. unfold nsign. rnumg. destruct (Rltb_spec 0 0); [lra|]. destruct (Reqb_spec 0 0); lra. Qed.
Lemma nsign_opp (x : R) : nsign (- x) = - nsign x.
Proof.
  destruct (Rtotal_order x 0) as [H|[H|H]].
  - rewrite (nsign_neg x H), nsign_pos by lra. lra.
  - subst. rewrite Ropp_0, nsign_0. lra.
  - rewrite (nsign_pos x H), nsign_neg by lra. lra.
Qed.
Definition usable_current (t : mt_type) (i : R) : Prop := match t with Rod => Rabs i <= 59 / 55 | _ => True end.
Definition usable_moment (t : mt_type) (m : R) : Prop := match t with Rod => Rabs m <= 3481 / 2750 | _ => True end.

Lemma moment_opp t (i : R) : mt_moment t (- i) = - mt_moment t i.
Proof. destruct t; unfold mt_moment; rnumg; rewrite ?nsign_opp, ?Rabs_Ropp; ring. Qed.
Lemma current_opp t (m : R) : getCurrent t (- m) = - getCurrent t m.
Proof. destruct t; unfold getCurrent; rnumg; rewrite ?nsign_opp, ?Rabs_Ropp; ring. Qed.
Lemma actuate_moment t axis (i : R) : mt_actuate t axis i = scale3 (mt_moment t i) axis.
Proof. destruct t; unfold mt_actuate, mt_moment; generalize (nsign i); vring. Qed.

Lemma rod_pos (i : R) : 0 <= i -> mt_moment Rod i = 2.36 * i - 1.1 * (i * i).
Proof.
  intros [H|<-]; unfold mt_moment; rnumg; rewrite Rabs_pos_eq by lra; [rewrite nsign_pos by lra|rewrite nsign_0]; lra.
Qed.
Lemma rod_current_pos (m s : R) : 0 < m -> 0 <= s -> s * s = 3481 - 2750 * m -> getCurrent Rod m = 0.0181818 * (59 - s).
Proof.
  intros H Hs E. unfold getCurrent; rnumg. rewrite Rabs_pos_eq by lra. rewrite nsign_pos by lra. rewrite <- E, sqrt_square by exact Hs. lra.
Qed.
Lemma current_0 t : getCurrent t 0 = 0.
Proof. destruct t; unfold getCurrent; rnumg; rewrite ?nsign_0; ring. Qed.
Lemma moment_0 t : mt_moment t 0 = 0.
Proof. destruct t; unfold mt_moment; rnumg; rewrite ?nsign_0; ring. Qed.
Lemma roundtrip_nonneg t (i : R) : 0 <= i -> usable_current t i ->
  0 <= i - getCurrent t (mt_moment t i) <= i / 1000000.
Proof.
  intros Hi Hu. destruct t.
  - unfold getCurrent, mt_moment. rnumg. lra.
  - cbn in Hu. rewrite Rabs_pos_eq in Hu by lra. destruct Hi as [Hi|<-]; [|rewrite moment_0, current_0; lra].
    rewrite rod_pos by lra. rewrite (rod_current_pos _ (59 - 55 * i)); [lra|nra|lra|ring_simplify; lra].
  - unfold getCurrent, mt_moment. rnumg. lra.
Qed.
Lemma roundtrip t (i : R) : usable_current t i -> Rabs (getCurrent t (mt_moment t i) - i) <= Rabs i / 1000000.
Proof.
  intros Hu. destruct (Rle_lt_dec 0 i) as [H|H].
  - assert (K := roundtrip_nonneg t i H Hu). rewrite (Rabs_pos_eq i) by lra. rewrite Rabs_left1; lra.
  - assert (Hu' : usable_current t (- i)) by (destruct t; cbn in *; rewrite ?Rabs_Ropp; auto).
    assert (K := roundtrip_nonneg t (- i) ltac:(lra) Hu'). rewrite moment_opp, current_opp in K.
    rewrite (Rabs_left i) by lra. rewrite Rabs_pos_eq; lra.
Qed.
Lemma roundtrip_m_nonneg t (m : R) : 0 <= m -> usable_moment t m ->
  0 <= m - mt_moment t (getCurrent t m) <= m / 1000000.
Proof.
  intros Hi Hu. destruct t.
  - unfold getCurrent, mt_moment. rnumg. lra.
  - cbn in Hu. rewrite Rabs_pos_eq in Hu by lra. destruct Hi as [Hi|<-]; [|rewrite current_0, moment_0; lra].
    assert (D : 0 <= 3481 - 2750 * m) by lra. set (s := sqrt (3481 - 2750 * m)).
    assert (S : s * s = 3481 - 2750 * m) by (apply sqrt_sqrt; exact D). assert (S0 : 0 <= s) by apply sqrt_pos. clearbody s.
    assert (S1 : s <= 59) by nra.
    rewrite (rod_current_pos m s) by assumption. rewrite rod_pos by nra.
    replace m with ((3481 - s * s) / 2750) by (rewrite S; field). clear - S0 S1.
    assert (0 <= (59 - s) * s) by nra. assert (0 <= (59-s)*(59-s)) by nra. split; nra.
  - unfold getCurrent, mt_moment. rnumg. lra.
Qed.
Lemma roundtrip_m t (m : R) : usable_moment t m -> Rabs (mt_moment t (getCurrent t m) - m) <= Rabs m / 1000000.
Proof.
  intros Hu. destruct (Rle_lt_dec 0 m) as [H|H].
  - assert (K := roundtrip_m_nonneg t m H Hu). rewrite (Rabs_pos_eq m) by lra. rewrite Rabs_left1; lra.
  - assert (Hu' : usable_moment t (- m)) by (destruct t; cbn in *; rewrite ?Rabs_Ropp; auto).
    assert (K := roundtrip_m_nonneg t (- m) ltac:(lra) Hu'). rewrite current_opp, moment_opp in K.
    rewrite (Rabs_left m) by lra. rewrite Rabs_pos_eq; lra.
Qed.
Lemma moment_pos t (i : R) : 0 < i -> usable_current t i -> 0 < mt_moment t i.
Proof. intros H Hu. destruct t; [unfold mt_moment; rnumg; lra| |unfold mt_moment; rnumg; lra]. cbn in Hu. rewrite Rabs_pos_eq in Hu by lra. rewrite rod_pos by lra. nra. Qed.
Lemma moment_mono_nonneg t (i j : R) : 0 <= i -> i < j -> usable_current t j -> mt_moment t i < mt_moment t j.
Proof.
  intros H Hij Hu. destruct t; [unfold mt_moment; rnumg; lra| |unfold mt_moment; rnumg; lra].
  cbn in Hu. rewrite Rabs_pos_eq in Hu by lra. rewrite !rod_pos by lra. 
  assert (E : 2.36 * j - 1.1 * (j * j) - (2.36 * i - 1.1 * (i * i)) = (j - i) * (2.36 - 1.1 * (i + j))) by ring.
  assert (0 < (j - i) * (2.36 - 1.1 * (i + j))) by (apply Rmult_lt_0_compat; lra). lra.
Qed.
Lemma moment_mono t (i j : R) : usable_current t i -> usable_current t j -> i < j -> mt_moment t i < mt_moment t j.
Proof.
  intros Hi Hj H. destruct (Rle_lt_dec 0 i) as [P|N].
  - apply moment_mono_nonneg; assumption.
  - assert (Ui : usable_current t (- i)) by (destruct t; cbn in *; rewrite ?Rabs_Ropp; auto).
    assert (Uj : usable_current t (- j)) by (destruct t; cbn in *; rewrite ?Rabs_Ropp; auto).
    destruct (Rle_lt_dec 0 j) as [Pj|Nj].
    + assert (K := moment_pos t (- i) ltac:(lra) Ui). rewrite moment_opp in K.
      destruct Pj as [Pj|<-]; [|rewrite moment_0; lra]. assert (L := moment_pos t j Pj Hj). lra.
    + assert (K := moment_mono_nonneg t (- j) (- i) ltac:(lra) ltac:(lra) Ui). rewrite !moment_opp in K. lra.
Qed.
Lemma rod_fold i : 59 / 55 <= i -> i < 118 / 55 -> getCurrent Rod (mt_moment Rod i) = 0.999999 * (118 / 55 - i).
Proof.
  intros H1 H2. rewrite rod_pos by lra. rewrite (rod_current_pos _ (55 * i - 59)); [lra|nra|lra|ring_simplify; lra].
Qed.
Lemma max_m_R (t : Torquer R) : unit3 (t_axis t) -> max_m t = Rabs (mt_moment (t_type t) (t_maxA t)).
Proof.
  intros U. unfold max_m. rewrite actuate_moment. unfold norm3. rnumg.
  replace (dot3 _ _) with (Rsqr (mt_moment (t_type t) (t_maxA t)) * dot3 (t_axis t) (t_axis t)) by (unfold Rsqr; generalize (mt_moment (t_type t) (t_maxA t)) (t_axis t); vring).
  rewrite U, Rmult_1_r. apply sqrt_Rsqr_abs.
Qed.

(** ** distribution of a commanded moment *)
(** the command after scaling by s *)
Definition scaled (s : R) (m : list R) : list R := map (fun x => x * s) m.
Lemma scaled_1 m : scaled 1 m = m.
Proof. unfold scaled. induction m; simpl; [reflexivity|]. rewrite IHm, Rmult_1_r. reflexivity. Qed.
Lemma ratios_ok (dv : R -> R -> option R) ts m : length ts = length m -> exists rs, ratios dv ts m = Ok rs /\ Forall2 (fun tx r => r = dv (max_m (fst tx)) (snd tx)) (combine ts m) rs.
Proof.
  revert m; induction ts as [|t ts IH]; intros [|x m] H; try discriminate.
  - exists []. split; [reflexivity|constructor].
  - injection H as H. destruct (IH m H) as (rs & E & F). exists (dv (max_m t) x :: rs). split; [cbn; rewrite E; reflexivity|].
    cbn. constructor; [reflexivity|exact F].
Qed.
Lemma ext_ltb_trans_neg a b c : ext_ltb b a = false -> ext_ltb c b = false -> ext_ltb c a = false.
Proof.
  destruct a as [a|], b as [b|], c as [c|]; cbn; try discriminate; auto.
  intros H1 H2. apply Rltb_false in H1, H2. apply Rltb_false. lra.
Qed.
Lemma ext_ltb_irrefl a : ext_ltb a a = false.
Proof. destruct a as [a|]; [|reflexivity]. apply Rltb_false. lra. Qed.
Lemma ext_ltb_asym a b : ext_ltb a b = true -> ext_ltb b a = false.
Proof. destruct a as [a|], b as [b|]; cbn; try discriminate; auto. intros H. apply Rltb_true in H. apply Rltb_false. lra. Qed.
Lemma ext_min_ok l : l <> [] -> exists f, ext_min l = Ok f /\ In f l /\ forall x, In x l -> ext_ltb x f = false.
Proof.
  destruct l as [|a l]; [congruence|]. intros _. cbn. eexists. split; [reflexivity|].
  revert a. induction l as [|b l IH]; intros a; cbn [fold_left].
  - split; [left; reflexivity|]. intros x [<-|[]]. apply ext_ltb_irrefl.
  - destruct (ext_ltb b a) eqn:E.
    + destruct (IH b) as [I M]. split; [right; exact I|]. intros x [<-|[<-|Hx]].
      * apply (ext_ltb_trans_neg _ b); [apply M; left; reflexivity|apply ext_ltb_asym, E].
      * apply M; left; reflexivity.
      * apply M; right; exact Hx.
    + destruct (IH a) as [I M]. split.
      { destruct I as [<-|I]; [left; reflexivity|right; right; exact I]. }
      intros x [<-|[<-|Hx]].
      * apply M; left; reflexivity.
      * apply (ext_ltb_trans_neg _ a); [apply M; left; reflexivity|exact E].
      * apply M; right; exact Hx.
Qed.
Definition tx := (Torquer R * R)%type.
Lemma Forall2_In_l {A B} (P : A -> B -> Prop) l r x : Forall2 P l r -> In x l -> exists y, In y r /\ P x y.
Proof. induction 1; intros I; [destruct I|]; destruct I as [<-|I]; [exists y; split; [left; reflexivity|assumption]|]. destruct (IHForall2 I) as (z & Z1 & Z2). exists z; split; [right|]; assumption. Qed.
Lemma Forall2_In_r {A B} (P : A -> B -> Prop) l r y : Forall2 P l r -> In y r -> exists x, In x l /\ P x y.
Proof. induction 1; intros I; [destruct I|]; destruct I as [<-|I]; [exists x; split; [left; reflexivity|assumption]|]. destruct (IHForall2 I) as (z & Z1 & Z2). exists z; split; [right|]; assumption. Qed.
(** the factor: None when every component is zero, else the least of max/m over the non-zero components *)
Lemma distribute_factor ts m : ts <> [] -> length ts = length m ->
  exists f, distribute ts m = currents ts (scaled_command f m) /\
  match f with
  | None => Forall (fun x => x = 0) m
  | Some f => (exists t x, In (t, x) (combine ts m) /\ x <> 0 /\ f = max_m t / x) /\
              forall t x, In (t, x) (combine ts m) -> x <> 0 -> f <= max_m t / x
  end.
Proof.
  intros Hn Hl. destruct (ratios_ok ext_ratio ts m Hl) as (rs & E & F).
  assert (Hrs : rs <> []). { intros ->. destruct ts as [|t ts]; [congruence|]. destruct m; [discriminate|]. inversion F. }
  destruct (ext_min_ok rs Hrs) as (f & Ef & I & M). exists f. split; [unfold distribute; rewrite E; cbn [rbind]; rewrite Ef; reflexivity|].
  destruct (Forall2_In_r _ _ _ _ F I) as ([t x] & I1 & E1). cbn [fst snd] in E1.
  destruct f as [f|].
  - split.
    + exists t, x. split; [exact I1|]. unfold ext_ratio in E1. destruct (Reqb_spec x 0); [discriminate|]. injection E1 as ->. auto.
    + intros t' x' I' Hx'. destruct (Forall2_In_l _ _ _ _ F I') as (r & Ir & Er). cbn [fst snd] in Er.
      unfold ext_ratio in Er. destruct (Reqb_spec x' 0); [contradiction|]. subst r. assert (K := M _ Ir). cbn in K. apply Rltb_false in K. exact K.
  - assert (A : forall t x, In (t, x) (combine ts m) -> x = 0).
    { intros t' x' I'. destruct (Forall2_In_l _ _ _ _ F I') as (r & Ir & Er). cbn [fst snd] in Er.
      unfold ext_ratio in Er. destruct (Reqb_spec x' 0); [assumption|]. subst r. assert (K := M _ Ir). cbn in K. discriminate. }
    clear - A Hl. revert m Hl A. induction ts as [|t ts IH]; intros [|x m] Hl A; try discriminate; constructor.
    + apply (A t). left; reflexivity.
    + injection Hl as Hl. apply IH; [exact Hl|]. intros t' x' I'. apply (A t'). right; exact I'.
Qed.
Lemma distribute_nonneg ts m : ts <> [] -> length ts = length m -> Forall (fun t => 0 < max_m t) ts -> Forall (fun x => 0 <= x) m ->
  exists s, 0 < s <= 1 /\ distribute ts m = currents ts (scaled s m) /\
    (forall t x, In (t, x) (combine ts m) -> 0 <= x * s <= max_m t) /\
    ((forall t x, In (t, x) (combine ts m) -> x <= max_m t) <-> s = 1) /\
    (s < 1 -> exists t x, In (t, x) (combine ts m) /\ x * s = max_m t).
Proof.
  intros Hn Hl HM HP. destruct (distribute_factor ts m Hn Hl) as (f & E & Hf).
  assert (PX : forall t x, In (t, x) (combine ts m) -> 0 < max_m t /\ 0 <= x).
  { intros t x I. split; [|]. - apply in_combine_l in I. rewrite Forall_forall in HM. apply HM, I. - apply in_combine_r in I. rewrite Forall_forall in HP. apply HP, I. }
  destruct f as [f|].
  - destruct Hf as [(t0 & x0 & I0 & N0 & F0) Hle]. destruct (PX _ _ I0) as [M0 X0].
    assert (X0' : 0 < x0) by lra. assert (FP : 0 < f) by (rewrite F0; apply Rdiv_lt_0_compat; assumption).
    assert (LE : forall t x, In (t, x) (combine ts m) -> x * f <= max_m t).
    { intros t x I. destruct (PX _ _ I) as [M1 X1]. destruct (Req_dec x 0) as [->|Nx]; [lra|]. assert (K := Hle _ _ I Nx).
      apply (Rmult_le_compat_l x) in K; [|exact X1]. replace (x * (max_m t / x)) with (max_m t) in K by (field; exact Nx). exact K. }
    destruct (Rlt_le_dec f 1) as [Hlt|Hge].
    + exists f. split; [lra|]. split. { rewrite E. cbn [scaled_command]. rnumg. replace (Rltb f 1) with true by (symmetry; apply Rltb_true; exact Hlt). reflexivity. }
      split. { intros t x I. split; [apply Rmult_le_pos; [apply (PX _ _ I)|lra]|apply LE, I]. }
      split. { split; [|lra]. intros A. assert (K := A _ _ I0). exfalso. assert (max_m t0 = x0 * f) by (rewrite F0; field; lra). nra. }
      intros _. exists t0, x0. split; [exact I0|]. rewrite F0; field; lra.
    + exists 1. split; [lra|]. split. { rewrite E, scaled_1. cbn [scaled_command]. rnumg. replace (Rltb f 1) with false by (symmetry; apply Rltb_false; exact Hge). reflexivity. }
      split. { intros t x I. destruct (PX _ _ I). assert (K := LE _ _ I). nra. }
      split; [|lra]. split; [reflexivity|]. intros _ t x I. destruct (PX _ _ I). assert (K := LE _ _ I). nra.
  - exists 1. split; [lra|]. split; [rewrite E, scaled_1; reflexivity|].
    assert (Z : forall t x, In (t, x) (combine ts m) -> x = 0) by (intros t x I; apply in_combine_r in I; rewrite Forall_forall in Hf; apply Hf, I).
    split. { intros t x I. rewrite (Z _ _ I). destruct (PX _ _ I). lra. }
    split; [|lra]. split; [reflexivity|]. intros _ t x I. rewrite (Z _ _ I). destruct (PX _ _ I). lra.
Qed.
Lemma combine_ex {A B} (ts : list A) (m : list B) (P : B -> Prop) : length ts = length m -> Exists P m -> exists t x, In (t, x) (combine ts m) /\ P x.
Proof.
  intros Hl He. revert ts Hl. induction He as [x m H|x m _ IH]; intros [|t ts] Hl; try discriminate.
  - exists t, x. split; [left; reflexivity|exact H].
  - injection Hl as Hl. destruct (IH ts Hl) as (t' & x' & I & H). exists t', x'. split; [right|]; assumption.
Qed.
Lemma distribute_negative ts m : ts <> [] -> length ts = length m -> Forall (fun t => 0 < max_m t) ts -> Exists (fun x => x < 0) m ->
  exists s, s < 0 /\ distribute ts m = currents ts (scaled s m) /\
    (forall t x, In (t, x) (combine ts m) -> x < 0 -> max_m t <= x * s) /\
    (forall t x, In (t, x) (combine ts m) -> 0 < x -> x * s < 0).
Proof.
  intros Hn Hl HM HE. destruct (distribute_factor ts m Hn Hl) as (f & E & Hf).
  assert (PX : forall t x, In (t, x) (combine ts m) -> 0 < max_m t).
  { intros t x I. apply in_combine_l in I. rewrite Forall_forall in HM. apply HM, I. }
  destruct (combine_ex ts m _ Hl HE) as (t1 & x1 & I1 & N1).
  destruct f as [f|].
  2:{ exfalso. rewrite Forall_forall in Hf. apply in_combine_r in I1. apply Hf in I1. lra. }
  destruct Hf as [_ Hle]. assert (K := Hle _ _ I1 ltac:(lra)). assert (M1 := PX _ _ I1).
  assert (FN : f < 0). { assert (0 < / - x1) by (apply Rinv_0_lt_compat; lra). assert (EE : max_m t1 / x1 = - (max_m t1 * / - x1)) by (field; lra). assert (0 < max_m t1 * / - x1) by (apply Rmult_lt_0_compat; assumption). lra. }
  exists f. split; [exact FN|]. split.
  { rewrite E. cbn [scaled_command]. rnumg. replace (Rltb f 1) with true by (symmetry; apply Rltb_true; lra). reflexivity. }
  split; [|intros; nra]. intros t x I Nx. assert (L := Hle _ _ I ltac:(lra)).
  apply (Rmult_le_compat_neg_l x) in L; [|lra]. replace (x * (max_m t / x)) with (max_m t) in L by (field; lra). exact L.
Qed.
Lemma currents_ok ts m : length ts = length m -> currents ts m = Ok (zip_with (fun (t : Torquer R) x => getCurrent (t_type t) x) ts m).
Proof.
  revert m; induction ts as [|t ts IH]; intros [|x m] H; try discriminate; [reflexivity|]. injection H as H. cbn. rewrite IH by exact H. reflexivity.
Qed.

(** ** binary64: negative zero *)
Lemma fltb_ninf (x : b64) : fltb x (finf true) = false.
Proof. destruct x as [s|s| |s m e H]; try destruct s; reflexivity. Qed.
Lemma pymin_ninf_fold (l : list b64) : fold_left (fun m x => if nltb x m then x else m) l (finf true) = finf true.
Proof. induction l as [|x l IH]; [reflexivity|]. cbn [fold_left]. change (nltb x (finf true)) with (fltb x (finf true)). rewrite fltb_ninf. exact IH. Qed.
Lemma fmul_nan_l x : fmul B754_nan x = B754_nan. Proof. destruct x; reflexivity. Qed.
Lemma fmul_nan_r x : fmul x B754_nan = B754_nan. Proof. destruct x as [[]|[]| |]; reflexivity. Qed.
Lemma getCurrent_nan t : getCurrent t (B754_nan : b64) = B754_nan.
Proof.
  destruct t; unfold getCurrent; cbn [nmul FNum]; [apply fmul_nan_l| |apply fmul_nan_l].
  change (nsign (B754_nan : b64)) with (B754_nan : b64). rewrite !fmul_nan_l. reflexivity.
Qed.
(** a command whose first component is -0.0 (and whose maximum is a positive finite number) becomes NaN *)
Lemma distribute_negzero (t : Torquer b64) ts m r : fin (max_m t) = true -> 0 < fR (max_m t) ->
  distribute_f (t :: ts) (fzero true :: m) = Ok r -> hd_error r = Some B754_nan.
Proof.
  intros Hf Hp. unfold distribute_f. cbn [ratios]. destruct (ratios ndiv ts m) as [rs|e] eqn:ER; cbn [rbind]; [|discriminate].
  assert (ED : ndiv (max_m t) (fzero true) = finf true).
  { destruct (max_m t) as [s|s| |s mm e H]; try discriminate Hf.
    - cbn in Hp. lra.
    - destruct s; [|reflexivity]. exfalso. apply (Rlt_not_le _ _ Hp). unfold fR, B2R. apply F2R_le_0. cbn. lia. }
  rewrite ED. cbn [pymin rbind]. rewrite pymin_ninf_fold.
  cbn [scaled_command]. change (nltb (finf true) n1) with true. cbn [map currents].
  change (nmul (fzero true) (finf true)) with (B754_nan : b64).
  destruct (currents ts _); cbn [rbind]; [|discriminate]. intros HH; injection HH as <-. cbn [hd_error]. rewrite getCurrent_nan. reflexivity.
Qed.
(** ... and so does one with a -0.0 anywhere, when no component is NaN *)
Lemma fltb_ninf_l (x : b64) : is_nan x = false -> fltb (finf true) x = true \/ x = finf true.
Proof. destruct x as [s|s| |s m e H]; intros Hn; try discriminate; try (left; reflexivity). destruct s; [right|left]; reflexivity. Qed.
Lemma fold_min_ninf (l : list b64) a : Forall (fun x => is_nan x = false) (a :: l) -> In (finf true) (a :: l) ->
  fold_left (fun m x => if nltb x m then x else m) l a = finf true.
Proof.
  revert a. induction l as [|b l IH]; intros a HN HI.
  - destruct HI as [->|[]]. reflexivity.
  - cbn [fold_left]. inversion HN as [|? ? Na HN']; subst. inversion HN' as [|? ? Nb HN'']; subst. change (nltb b a) with (fltb b a).
    destruct HI as [->|[->|HI]].
    + rewrite fltb_ninf. apply pymin_ninf_fold.
    + destruct (fltb_ninf_l a Na) as [E| ->]; [rewrite E|rewrite fltb_ninf]; apply pymin_ninf_fold.
    + destruct (fltb b a); apply IH; try (constructor; assumption); right; exact HI.
Qed.
Lemma fdiv_posfin_nan (a x : b64) : fin a = true -> 0 < fR a -> is_nan x = false -> is_nan (fdiv a x) = false /\ (x = fzero true -> fdiv a x = finf true).
Proof.
  intros Hf Hp Hn. destruct a as [s|s| |s mm e H]; try discriminate Hf.
  - cbn in Hp. lra.
  - destruct s. { exfalso. apply (Rlt_not_le _ _ Hp). unfold fR, B2R. apply F2R_le_0. cbn. lia. }
    destruct x as [s'|s'| |s' m' e' H']; try discriminate Hn; try (split; [destruct s'; reflexivity|]; intros E; try discriminate E).
    + injection E as ->. reflexivity.
    + unfold fdiv. split; [|discriminate].
      assert (C := Bdiv_correct 53 1024 b64_prec b64_emax mode_NE (B754_finite false mm e H) (B754_finite s' m' e' H')).
      assert (NZ : B2R (B754_finite s' m' e' H') <> 0). { unfold B2R. intros Z. apply eq_0_F2R in Z. destruct s'; cbn in Z; discriminate Z. }
      specialize (C NZ). destruct (Rlt_bool _ _).
      * destruct C as (_ & C & _). destruct (Bdiv _ _ _); try reflexivity. cbn in C. discriminate C.
      * destruct (Bdiv mode_NE (B754_finite false mm e H) (B754_finite s' m' e' H')) as [?|?| |? ? ? ?]; try reflexivity.
        exfalso. unfold binary_overflow in C. cbn in C. discriminate C.
Qed.
Lemma ratios_nonan (ts : list (Torquer b64)) m : Forall (fun t => fin (max_m t) = true /\ 0 < fR (max_m t)) ts ->
  Forall (fun x => is_nan x = false) m -> length ts = length m ->
  exists rs, ratios ndiv ts m = Ok rs /\ Forall (fun x => is_nan x = false) rs /\ (In (fzero true) m -> In (finf true) rs).
Proof.
  intros HT. revert m. induction HT as [|t ts [Hf Hp] _ IH]; intros [|x m] HN HL; try discriminate.
  - exists []. split; [reflexivity|]. split; [constructor|intros []].
  - injection HL as HL. inversion HN as [|? ? Nx HN']; subst. destruct (fdiv_posfin_nan (max_m t) x Hf Hp Nx) as [D1 D2].
    destruct (IH m HN' HL) as (rs & E & F & G). exists (fdiv (max_m t) x :: rs). split; [cbn [ratios]; rewrite E; reflexivity|].
    split; [constructor; assumption|]. intros [->|I]; [left; apply D2; reflexivity|right; apply G, I].
Qed.
Lemma currents_in (ts : list (Torquer b64)) m : length ts = length m -> In B754_nan m -> exists r, currents ts m = Ok r /\ In B754_nan r.
Proof.
  revert m. induction ts as [|t ts IH]; intros [|x m] HL HI; try discriminate; [destruct HI|]. injection HL as HL. cbn [currents].
  destruct HI as [->|HI].
  - assert (R : exists r, currents ts m = Ok r). { clear IH. revert m HL. induction ts as [|t' ts IH]; intros [|x m] HL; try discriminate; [exists []; reflexivity|]. injection HL as HL. destruct (IH m HL) as [r E]. cbn [currents]. rewrite E. eexists; reflexivity. }
    destruct R as [r E]. rewrite E. cbn [rbind]. eexists. split; [reflexivity|]. left. apply getCurrent_nan.
  - destruct (IH m HL HI) as (r & E & I). rewrite E. cbn [rbind]. eexists. split; [reflexivity|]. right; exact I.
Qed.
Lemma distribute_negzero_any (ts : list (Torquer b64)) m : Forall (fun t => fin (max_m t) = true /\ 0 < fR (max_m t)) ts ->
  Forall (fun x => is_nan x = false) m -> length ts = length m -> In (fzero true) m ->
  exists r, distribute_f ts m = Ok r /\ In B754_nan r.
Proof.
  intros HT HN HL HI. unfold distribute_f. destruct (ratios_nonan ts m HT HN HL) as (rs & E & F & G). specialize (G HI).
  rewrite E. cbn [rbind]. destruct rs as [|a rs]; [destruct G|]. cbn [pymin rbind]. rewrite (fold_min_ninf rs a F G).
  cbn [scaled_command]. change (nltb (finf true) n1) with true. cbv iota. apply currents_in; [rewrite map_length; exact HL|].
  apply in_map_iff. exists (fzero true). split; [reflexivity|exact HI].
Qed.
(** small integers are exact in binary64 *)
Lemma fofZ_R z : (Z.abs z <= 9007199254740992)%Z -> fR (fofZ z) = IZR z /\ fin (fofZ z) = true.
Proof.
  intros Hz. assert (C := binary_normalize_correct 53 1024 b64_prec b64_emax mode_NE z 0 false). change (binary_normalize 53 1024 b64_prec b64_emax mode_NE z 0 false) with (fofZ z) in C.
  assert (E : F2R (Float radix2 z 0) = IZR z) by (unfold F2R; cbn; lra). rewrite E in C. change (round_mode mode_NE) with ZnearestE in C.
  assert (G : fmt (IZR z)).
  { rewrite fexp_FLT. apply generic_format_FLT. destruct (Z.eq_dec (Z.abs z) 9007199254740992) as [Ez|Nz].
    - destruct (Z.abs_eq_or_opp z) as [E1|E1].
      + exists (Float radix2 1 53); [|cbn; lia|cbn; lia]. unfold F2R. cbn. replace z with 9007199254740992%Z by lia. lra.
      + exists (Float radix2 (-1) 53); [|cbn; lia|cbn; lia]. unfold F2R. cbn. replace z with (-9007199254740992)%Z by lia. lra.
    - exists (Float radix2 z 0); [symmetry; exact E| |cbn; lia]. cbn [Fnum]. change (Z.pow radix2 53) with 9007199254740992%Z. lia. }
  cbv zeta in C. rewrite (round_generic radix2 (SpecFloat.fexp 53 1024) ZnearestE (IZR z) G) in C. rewrite Rlt_bool_true in C.
  - destruct C as (C1 & C2 & _). split; [exact C1|exact C2].
  - rewrite <- abs_IZR. apply Rle_lt_trans with (IZR 9007199254740992); [apply IZR_le; exact Hz|].
    replace (IZR 9007199254740992) with (bpow radix2 53) by (cbn; lra). apply bpow_lt. lia.
Qed.
(** ** binary64: a rod moment out of range gives NaN *)
Lemma getCurrent_rod_nan (m : b64) : fin m = true -> 3482 / 2750 <= Rabs (fR m) -> getCurrent Rod m = B754_nan.
Proof.
  intros Fm Hm. unfold getCurrent. 
  change (@nmul b64 FNum) with fmul. change (@nsub b64 FNum) with fsub. change (@nsqrt b64 FNum) with fsqrt. change (@nabs b64 FNum) with fabs. change (@nofZ b64 FNum) with fofZ.
  assert (K : fsqrt (fsub (fofZ 3481) (fmul (fofZ 2750) (fabs m))) = B754_nan).
  2:{ rewrite K. replace (fsub (fofZ 59) B754_nan) with (B754_nan : b64) by reflexivity. apply fmul_nan_r. }
  assert (F2750 := fofZ_R 2750 ltac:(lia)). assert (F3481 := fofZ_R 3481 ltac:(lia)). assert (F3482 := proj1 (fofZ_R 3482 ltac:(lia))).
  assert (G3482 : fmt 3482) by (rewrite <- F3482; apply fmt_R).
  destruct F2750 as [R1 F1]. destruct F3481 as [R2 F2].
  assert (FA : fin (fabs m) = true) by (rewrite fabs_fin; exact Fm).
  set (p := fmul (fofZ 2750) (fabs m)) in *.
  destruct (fin p) eqn:Fp.
  - assert (B := fmul_fin_bound _ _ F1 FA Fp). destruct (fmul_ok _ _ F1 FA B) as [Rp _]. fold p in Rp.
    rewrite R1, fabs_R in Rp.
    assert (P : 3482 <= fR p). { rewrite Rp. apply round_ge_generic; auto with typeclass_instances. lra. }
    assert (C := Bminus_correct 53 1024 b64_prec b64_emax mode_NE (fofZ 3481) p F2 Fp).
    change (B2R (fofZ 3481)) with (fR (fofZ 3481)) in C. change (B2R p) with (fR p) in C. rewrite R2 in C. change (round_mode mode_NE) with ZnearestE in C.
    assert (UB : Rabs (rnd (3481 - fR p)) <= fR p).
    { apply abs_round_le_generic; [apply fexp_valid|auto with typeclass_instances|apply fmt_R|]. rewrite Rabs_left1; lra. }
    assert (FB := fin_bound p). rewrite (Rabs_pos_eq (fR p)) in FB by lra.
    rewrite Rlt_bool_true in C by lra. destruct C as (C1 & C2 & _).
    assert (NEG : fR (fsub (fofZ 3481) p) <= -1).
    { unfold fR, fsub. rewrite C1. apply round_le_generic; auto with typeclass_instances; [|lra].
      replace (-1) with (fR (fofZ (-1))); [apply fmt_R|]. exact (proj1 (fofZ_R (-1) ltac:(lia))). }
    change (is_finite (fsub (fofZ 3481) p) = true) in C2.
    destruct (fsub (fofZ 3481) p) as [s|s| |s mm e H]; try discriminate C2.
    + cbn in NEG. lra.
    + destruct s; [reflexivity|]. exfalso. assert (0 <= fR (B754_finite false mm e H)) by (unfold fR, B2R; apply F2R_ge_0; cbn; lia). lra.
  - assert (C := Bmult_correct 53 1024 b64_prec b64_emax mode_NE (fofZ 2750) (fabs m)). change (Bmult mode_NE (fofZ 2750) (fabs m)) with p in C.
    destruct (Rlt_bool _ _).
    { destruct C as (_ & C & _). change (is_finite p) with (fin p) in C. change (is_finite (fofZ 2750)) with (fin (fofZ 2750)) in C. change (is_finite (fabs m)) with (fin (fabs m)) in C. rewrite Fp, F1, FA in C. discriminate C. }
    assert (E : p = finf false).
    { replace (Bsign (fabs m)) with false in C by (destruct m; reflexivity). change (Bsign (fofZ 2750)) with false in C.
      destruct p as [s|s| |s mm e H]; cbn in C; try discriminate C. injection C as ->. reflexivity. }
    rewrite E. reflexivity.
Qed.
