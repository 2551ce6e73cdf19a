(** * Lemmas for the state machine *)
From Coq Require Import Reals ZArith List Bool Lia Lra.
From Verif Require Import Num Vec M_jday M_struct M_ctrl M_fsm S_fsm.
Import ListNotations.

Lemma st_eqb_eq a b : st_eqb a b = true <-> a = b.
Proof. destruct a, b; split; intros H; try reflexivity; discriminate. Qed.
Lemma val_eqb_eq a b : val_eqb a b = true -> a = b.
Proof. destruct a, b; cbn; try discriminate; intros H; [apply st_eqb_eq in H|apply Z.eqb_eq in H]; congruence. Qed.
Lemma val_eqb_st a b : val_eqb (VS a) (VS b) = st_eqb a b. Proof. reflexivity. Qed.
Lemma accepts_listed a b : accepts (VS a) (VS b) = Ok (listed a b).
Proof. destruct a, b; reflexivity. Qed.
Lemma change_listed m a b : sm_locked m = false -> sm_cur m = VS a ->
  change_state m (VS b) = (mkSM (VS (after_command a b)) (sm_mission m) false, Done (listed a b)).
Proof.
  intros L C. unfold change_state. rewrite L, C, accepts_listed. unfold after_command. destruct (listed a b); reflexivity.
Qed.
Lemma after_app a l b : after_commands a (l ++ [b]) = after_command (after_commands a l) b.
Proof. revert a. induction l as [|c l IH]; intros a; [reflexivity|]. cbn. apply IH. Qed.

(** ** threads *)
Lemma tset_same ts i t : tset ts i t i = t. Proof. unfold tset. rewrite Nat.eqb_refl. reflexivity. Qed.
Lemma tset_other ts i t j : j <> i -> tset ts i t j = ts j. Proof. intros H. unfold tset. apply Nat.eqb_neq in H. rewrite H. reflexivity. Qed.
Definition member_pc (p : PC) : Prop := match p with ChAcq v _ | ChChk v _ | ChWr v _ _ => exists s, v = VS s | _ => True end.
Definition member_thread (t : Thread) : Prop := member_pc (th_pc t) /\ Forall member_call (th_todo t).
Lemma sequential_app m l1 m1 l2 m2 : sequential m l1 m1 -> sequential m1 l2 m2 -> sequential m (l1 ++ l2) m2.
Proof. intros H. induction H; intros K; [exact K|econstructor; eauto|eapply q_mission; eauto]. Qed.
(** what holds throughout every execution of calls with members of State *)
Record Inv (s0 s : Shared) (ts : Threads) (log : list (nat * Commit)) : Prop := {
  inv_mem : forall i, member_thread (ts i);
  inv_cur : exists c, sh_cur s = VS c;
  inv_free : sh_lock s = None -> forall i, critical (th_pc (ts i)) = false;
  inv_held : forall i, sh_lock s = Some i -> critical (th_pc (ts i)) = true /\ forall j, j <> i -> critical (th_pc (ts j)) = false;
  inv_chk : forall i v b tr, th_pc (ts i) = ChWr v b tr -> accepts (sh_cur s) v = Ok b;
  inv_seq : sequential (mkSM (sh_cur s0) (sh_mis s0) false) log (mkSM (sh_cur s) (sh_mis s) false) }.
Lemma inv_start s0 progs : (exists c, sh_cur s0 = VS c) -> sh_lock s0 = None -> (forall i, Forall member_call (progs i)) -> Inv s0 s0 (start progs) [].
Proof.
  intros C L M. constructor; intros.
  - split; [exact I|apply M].
  - exact C.
  - reflexivity.
  - congruence.
  - discriminate.
  - constructor.
Qed.
Ltac upd j i := destruct (Nat.eq_dec j i) as [->|?]; [rewrite ?tset_same in *|rewrite ?(tset_other _ i) in * by assumption].
Lemma step_member bound i s t k s' t' : (exists c, sh_cur s = VS c) -> member_thread t -> tstep bound i s t k s' t' -> member_thread t'.
Proof.
  intros C [M1 M2] H. inversion H; subst; cbn [th_pc th_todo] in *; split; cbn [th_pc th_todo member_pc]; try exact I; try assumption; try (inversion M2; assumption).
  - inversion M2 as [|? ? A B]; subst. destruct v as [s0| |]; [exists s0; reflexivity|destruct A|destruct A].
  - exists n. reflexivity.
Qed.
Lemma step_kind bound i s t k s' t' : (exists c, sh_cur s = VS c) -> member_thread t -> tstep bound i s t k s' t' ->
  (critical (th_pc t') = critical (th_pc t) /\ sh_lock s' = sh_lock s) \/
  (sh_lock s = None /\ sh_lock s' = Some i /\ critical (th_pc t') = true) \/
  (critical (th_pc t) = true /\ sh_lock s' = None /\ critical (th_pc t') = false).
Proof.
  intros [c C] [M _] H. inversion H; subst; cbn [th_pc critical sh_lock] in *; auto 6.
  destruct M as [a ->]. rewrite C, accepts_listed in H0. discriminate.
Qed.
Lemma step_commit bound i s t k s' t' : tstep bound i s t k s' t' ->
  match k with
  | None => sh_cur s' = sh_cur s /\ sh_mis s' = sh_mis s
  | Some (KMission mi) => critical (th_pc t) = true /\ sh_cur s' = sh_cur s /\ sh_mis s' = mi
  | Some (KChange v tr b) => th_pc t = ChWr v b tr /\ sh_cur s' = (if b then v else VS Failed) /\ sh_mis s' = sh_mis s
  end.
Proof. intros H. inversion H; subst; cbn; auto. Qed.
Lemma step_chk bound i s t k s' t' v b tr : tstep bound i s t k s' t' -> th_pc t' = ChWr v b tr -> k = None /\ accepts (sh_cur s) v = Ok b.
Proof. intros H E. inversion H; subst; cbn in E; try discriminate. injection E as -> -> ->. auto. Qed.
Lemma inv_step bound s0 s ts log i k s' t' : Inv s0 s ts log -> tstep bound i s (ts i) k s' t' ->
  Inv s0 s' (tset ts i t') (log ++ match k with Some k => [(i, k)] | None => [] end).
Proof.
  intros [IM IC IF IH IK IS] H.
  assert (MI := IM i). assert (KI := step_kind _ _ _ _ _ _ _ IC MI H). assert (CO := step_commit _ _ _ _ _ _ _ H).
  assert (HI : critical (th_pc (ts i)) = true -> sh_lock s = Some i).
  { intros C. destruct (sh_lock s) as [h|] eqn:L; [|rewrite IF in C by reflexivity; discriminate].
    destruct (Nat.eq_dec h i) as [->|N]; [reflexivity|]. destruct (IH h eq_refl) as [_ O]. specialize (O i (not_eq_sym N)). congruence. }
  assert (CR : k <> None -> critical (th_pc (ts i)) = true).
  { intros N. destruct k as [[v tr b|mi]|]; [destruct CO as [-> _]; reflexivity|apply CO|congruence]. }
  constructor.
  - intros j. upd j i; [eapply step_member; eassumption|apply IM].
  - destruct k as [[v tr b|mi]|].
    + destruct CO as (A & -> & _). destruct b; [|eexists; reflexivity]. destruct MI as [MI _]. rewrite A in MI. exact MI.
    + destruct CO as (_ & -> & _). exact IC.
    + destruct CO as (-> & _). exact IC.
  - intros L j. upd j i.
    + destruct KI as [[A B]|[[A [B C]]|[A [B C]]]]; [|congruence|exact C]. rewrite A. apply IF. congruence.
    + destruct KI as [[A B]|[[A [B C]]|[A [B C]]]]; [apply IF; congruence|congruence|]. apply (IH i (HI A)). assumption.
  - intros h L. destruct KI as [[A B]|[[A [B C]]|[A [B C]]]]; [| |congruence].
    + rewrite B in L. destruct (IH h L) as [P Q]. split; [upd h i; [congruence|exact P]|]. intros j N. upd j i; [rewrite A; apply Q, N|apply Q, N].
    + assert (h = i) by congruence. subst h. split; [rewrite tset_same; exact C|]. intros j N. rewrite tset_other by exact N. apply IF, A.
  - intros j v b tr E. upd j i.
    + destruct (step_chk _ _ _ _ _ _ _ _ _ _ H E) as [-> A]. destruct CO as [-> _]. exact A.
    + destruct k as [k|]; [|destruct CO as [-> _]; apply (IK j v b tr E)]. exfalso.
      assert (C := CR ltac:(discriminate)). destruct (IH i (HI C)) as [_ Q]. specialize (Q j n). rewrite E in Q. discriminate.
  - destruct k as [[v tr b|mi]|].
    + eapply sequential_app; [exact IS|]. destruct CO as (A & B & C). rewrite B, C. assert (K := IK i v b tr A).
      apply (q_change _ _ _ _ _ (mkSM (if b then v else VS Failed) (sh_mis s) false)); [unfold change_state; cbn [sm_locked sm_cur sm_mission]; rewrite K; destruct b; reflexivity|constructor].
    + eapply sequential_app; [exact IS|]. destruct CO as (A & B & C). rewrite B, C. apply (q_mission _ _ _ (mkSM (sh_cur s) mi false)); [reflexivity|constructor].
    + rewrite app_nil_r. destruct CO as [-> ->]. exact IS.
Qed.
Lemma inv_exec bound s0 progs log s ts : (exists c, sh_cur s0 = VS c) -> sh_lock s0 = None -> (forall i, Forall member_call (progs i)) ->
  exec bound s0 (start progs) log s ts -> Inv s0 s ts log.
Proof.
  intros C L M H. remember (start progs) as ts0. induction H; subst; [apply inv_start; assumption|]. eapply inv_step; [apply IHexec; reflexivity || assumption|eassumption].
Qed.
(** ** program order and results, for calls other than transition *)
Definition pending (p : PC) : list Call := match p with ChAcq v _ | ChChk v _ | ChWr v _ _ => [CChange v] | MsAcq m | MsWr m => [CMission m] | _ => [] end.
Definition inflight (p : PC) : list Ret := match p with ChRel b tr => [ret_change b tr] | MsRel => [RNone] | _ => [] end.
Definition plain_pc (p : PC) : Prop := match p with TrMis _ _ _ | TrDec _ _ _ _ => False | _ => True end.
Record Ord (prog : list Call) (t : Thread) (l : list Commit) : Prop := {
  ord_plain : plain_pc (th_pc t) /\ Forall plain_call (th_todo t);
  ord_calls : map commit_call l ++ pending (th_pc t) ++ th_todo t = prog;
  ord_rets : map commit_ret l = th_rets t ++ inflight (th_pc t) }.
Lemma of_thread_app i l1 l2 : of_thread i (l1 ++ l2) = of_thread i l1 ++ of_thread i l2.
Proof. unfold of_thread. rewrite filter_app, map_app. reflexivity. Qed.
Lemma of_thread_one i j k : of_thread i [(j, k)] = if Nat.eqb j i then [k] else [].
Proof. unfold of_thread. cbn. destruct (Nat.eqb j i); reflexivity. Qed.
Lemma ord_step bound i prog s t l k s' t' : (exists c, sh_cur s = VS c) -> member_thread t -> Ord prog t l -> tstep bound i s t k s' t' ->
  Ord prog t' (l ++ match k with Some k => [k] | None => [] end).
Proof.
  intros [c C] [M _] [[P1 P2] OC OR] H. inversion H; subst; cbn [th_pc th_todo th_rets plain_pc pending inflight] in *; try contradiction.
  all: try (inversion P2; subst; contradiction).
  all: try (inversion P2 as [|? ? Q1 Q2]; subst; match goal with Q : plain_call _ |- _ => destruct Q end; fail).
  all: try (match goal with A : accepts _ _ = Raise _ |- _ => destruct M as [a ->]; rewrite C, accepts_listed in A; discriminate end).
  all: constructor; cbn [th_pc th_todo th_rets plain_pc pending inflight]; rewrite ?app_nil_r in *; rewrite ?map_app, ?OR, <- ?app_assoc; cbn [map app commit_call commit_ret ret_change]; rewrite ?app_nil_r; auto.
  all: try (split; [exact I|]; inversion P2; subst; assumption).
Qed.
Lemma ord_exec bound s0 progs log s ts : (exists c, sh_cur s0 = VS c) -> sh_lock s0 = None -> (forall i, Forall member_call (progs i)) -> (forall i, Forall plain_call (progs i)) ->
  exec bound s0 (start progs) log s ts -> forall i, Ord (progs i) (ts i) (of_thread i log).
Proof.
  intros C L M P H. remember (start progs) as ts0. induction H; subst.
  - intros i. constructor; cbn; auto.
  - assert (IV := inv_exec bound s progs log s1 ts1 C L M H). intros j. specialize (IHexec C L eq_refl j). rewrite of_thread_app.
    destruct (Nat.eq_dec j i) as [->|N].
    + rewrite tset_same. replace (of_thread i match k with Some k0 => [(i, k0)] | None => [] end) with (match k with Some k => [k] | None => [] end).
      * eapply ord_step; [apply (inv_cur _ _ _ _ IV)|apply (inv_mem _ _ _ _ IV)|eassumption|eassumption].
      * destruct k; [rewrite of_thread_one, Nat.eqb_refl|]; reflexivity.
    + rewrite tset_other by exact N. replace (of_thread j match k with Some k0 => [(i, k0)] | None => [] end) with (@nil Commit); [rewrite app_nil_r; exact IHexec|].
      destruct k; [rewrite of_thread_one|reflexivity]. apply not_eq_sym, Nat.eqb_neq in N. rewrite N. reflexivity.
Qed.
(** ** progress *)
Lemma can_step bound i s t : (exists c, sh_cur s = VS c) -> member_thread t -> ~ finished t -> sh_lock s = None \/ critical (th_pc t) = true ->
  exists k s' t', tstep bound i s t k s' t'.
Proof.
  intros [c C] [M _] F L. destruct t as [pc todo rets]. cbn [th_pc th_todo] in *. destruct s as [cu mi lk]. cbn [sh_lock sh_cur] in *.
  destruct pc as [|v tr|v tr|v b tr|b tr|m|m| |man x c1|man x c1 mi1].
  - destruct todo as [|[v|m|man x] r]; [exfalso; apply F; split; reflexivity| | |]; do 3 eexists; constructor.
  - destruct L as [->|L]; [|discriminate]. do 3 eexists; constructor.
  - destruct M as [a ->]. do 3 eexists. apply s_ch_chk. cbn [sh_cur]. rewrite C. apply accepts_listed.
  - do 3 eexists; constructor.
  - do 3 eexists; constructor.
  - destruct L as [->|L]; [|discriminate]. do 3 eexists; constructor.
  - do 3 eexists; constructor.
  - do 3 eexists; constructor.
  - do 3 eexists; constructor.
  - destruct (propose bound man x c1 mi1) as [n|e] eqn:E; [destruct (val_eqb c1 (VS n)) eqn:V|].
    + do 3 eexists. eapply s_tr_same; eassumption.
    + do 3 eexists. eapply s_tr_go; eassumption.
    + do 3 eexists. eapply s_tr_exc; eassumption.
Qed.
Definition pc_work (p : PC) : nat := match p with Idle => 0 | TrMis _ _ _ => 6 | TrDec _ _ _ _ => 5 | ChAcq _ _ | MsAcq _ => 4 | ChChk _ _ => 3 | ChWr _ _ _ | MsWr _ => 2 | ChRel _ _ | MsRel => 1 end.
Definition work (t : Thread) : nat := pc_work (th_pc t) + 7 * length (th_todo t).
Lemma step_work bound i s t k s' t' : tstep bound i s t k s' t' -> (work t' < work t)%nat.
Proof. intros H. inversion H; subst; unfold work; cbn [th_pc th_todo pc_work length]; lia. Qed.
Fixpoint total (n : nat) (f : nat -> nat) : nat := match n with O => O | S n => (f n + total n f)%nat end.
Lemma total_ext n f g : (forall i, (i < n)%nat -> f i = g i) -> total n f = total n g.
Proof. induction n as [|n IH]; intros H; [reflexivity|]. cbn. rewrite H by lia. rewrite IH; [reflexivity|]. intros i L. apply H. lia. Qed.
Lemma total_upd n ts i t : (i < n)%nat -> (work t < work (ts i))%nat -> (total n (fun j => work (tset ts i t j)) < total n (fun j => work (ts j)))%nat.
Proof.
  induction n as [|n IH]; intros L W; [lia|]. cbn. destruct (Nat.eq_dec i n) as [->|N].
  - rewrite tset_same. rewrite (total_ext n (fun j => work (tset ts n t j)) (fun j => work (ts j))); [lia|]. intros j Lj. rewrite tset_other by lia. reflexivity.
  - rewrite tset_other by lia. assert (i < n)%nat by lia. specialize (IH H W). lia.
Qed.
Lemma steps_bound bound n k s ts s' ts' : steps bound k s ts s' ts' -> (forall i, (n <= i)%nat -> finished (ts i)) ->
  (forall i, (n <= i)%nat -> finished (ts' i)) /\ (k + total n (fun i => work (ts' i)) <= total n (fun i => work (ts i)))%nat.
Proof.
  intros H F. induction H as [s ts|m s ts s1 ts1 i k s2 t2 H IH T]; [split; [exact F|lia]|]. destruct (IH F) as [F1 W].
  assert (L : (i < n)%nat). { destruct (Nat.lt_ge_cases i n) as [L|G]; [exact L|]. destruct (F1 i G) as [A B]. destruct (ts1 i) as [pc todo rets]. cbn in A, B. subst. inversion T. }
  split; [intros j G; rewrite tset_other by lia; apply F1, G|]. assert (X := total_upd n ts1 i t2 L (step_work _ _ _ _ _ _ _ T)). lia.
Qed.
Lemma steps_exec bound k s ts s' ts' : steps bound k s ts s' ts' -> exists log, exec bound s ts log s' ts'.
Proof. intros H. induction H; [eexists; constructor|]. destruct IHsteps as [log E]. eexists. econstructor; eassumption. Qed.
(** ** a lock taken by nobody alive *)
Definition leaked (s : Shared) (ts : Threads) : Prop := sh_lock s <> None /\ forall i, critical (th_pc (ts i)) = false.
Lemma leak_step bound s ts i k s' t' : leaked s ts -> tstep bound i s (ts i) k s' t' ->
  leaked s' (tset ts i t') /\ sh_cur s' = sh_cur s /\ sh_mis s' = sh_mis s /\ k = None /\
  (forall b, th_rets t' <> th_rets (ts i) ++ [RBool b]).
Proof.
  intros [L C] H. assert (CI := C i).
  assert (Z : forall t2, critical (th_pc t2) = false -> forall j, critical (th_pc (tset ts i t2 j)) = false) by (intros t2 E j; upd j i; [exact E|apply C]).
  inversion H; subst; match goal with E : _ = ts i |- _ => rewrite <- E in CI end; cbn [th_pc critical sh_lock sh_cur sh_mis] in *; try discriminate; try (exfalso; apply L; reflexivity).
  all: split; [split; [exact L|apply Z; reflexivity]|]; split; [reflexivity|]; split; [reflexivity|]; split; [reflexivity|]; intros b0; cbn [th_rets]; intros E0.
  all: try (apply (f_equal (@length Ret)) in E0; rewrite app_length in E0; cbn in E0; lia).
  all: apply app_inv_head in E0; discriminate.
Qed.
