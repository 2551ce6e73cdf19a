(** * Polynomials with rational coefficients, computed: normal form and a bound on a box *)
From Coq Require Import Reals QArith Qreals Qabs List Bool Lra Lia PeanoNat.
Import ListNotations.
Local Open Scope R_scope.

Inductive pe := PC (q : Q) | PV (n : nat) | PA (a b : pe) | PM (a b : pe) | PO (a : pe).
Fixpoint peeval (env : nat -> R) (e : pe) : R :=
  match e with
  | PC q => Q2R q | PV n => env n | PA a b => peeval env a + peeval env b
  | PM a b => peeval env a * peeval env b | PO a => - peeval env a
  end.

(** a monomial: the exponents of variables i, i+1, ... *)
Fixpoint meval (env : nat -> R) (i : nat) (m : list nat) : R :=
  match m with [] => 1 | k :: t => env i ^ k * meval env (S i) t end.
Fixpoint mmul (a b : list nat) : list nat :=
  match a, b with
  | [], _ => b | _, [] => a
  | x :: a', y :: b' => (x + y)%nat :: mmul a' b'
  end.
Fixpoint meqb (a b : list nat) : bool :=
  match a, b with
  | [], [] => true | x :: a', y :: b' => Nat.eqb x y && meqb a' b' | _, _ => false
  end.
Definition poly := list (list nat * Q).
Fixpoint pval (env : nat -> R) (p : poly) : R :=
  match p with [] => 0 | (m, c) :: t => Q2R c * meval env 0 m + pval env t end.
Fixpoint pins (m : list nat) (c : Q) (p : poly) : poly :=
  match p with
  | [] => [(m, c)]
  | (m', c') :: t => if meqb m m' then (m', Qred (c + c')) :: t else (m', c') :: pins m c t
  end.
Fixpoint padd (p q : poly) : poly := match p with [] => q | (m, c) :: t => padd t (pins m c q) end.
Fixpoint pscale (m : list nat) (c : Q) (p q : poly) : poly :=
  match p with [] => q | (m', c') :: t => pscale m c t (pins (mmul m m') (Qred (c * c')) q) end.
Fixpoint pmul (p q : poly) : poly := match p with [] => [] | (m, c) :: t => pscale m c q (pmul t q) end.
Fixpoint pvar (n : nat) : list nat := match n with O => [1%nat] | S k => O :: pvar k end.
Fixpoint pnorm (e : pe) : poly :=
  match e with
  | PC q => [([], q)] | PV n => [(pvar n, 1%Q)] | PA a b => padd (pnorm a) (pnorm b)
  | PM a b => pmul (pnorm a) (pnorm b) | PO a => pmul [([], (-1)%Q)] (pnorm a)
  end.

Lemma meqb_ok a : forall b, meqb a b = true -> a = b.
Proof.
  induction a as [|x a IH]; intros [|y b] H; cbn in H; try discriminate; [reflexivity|].
  apply andb_prop in H as [H1 H2]. apply Nat.eqb_eq in H1 as ->. f_equal. apply IH, H2.
Qed.
Lemma meval_mmul env a : forall i b, meval env i (mmul a b) = meval env i a * meval env i b.
Proof.
  induction a as [|x a IH]; intros i [|y b]; cbn [mmul meval]; try ring. rewrite IH, pow_add. ring.
Qed.
Lemma meval_pvar env n : forall i, meval env i (pvar n) = env (n + i)%nat.
Proof. induction n as [|n IH]; intros i; cbn [pvar meval]; [cbn; ring|]. rewrite IH. replace (n + S i)%nat with (S n + i)%nat by lia. ring. Qed.
Lemma Q2R_red q : Q2R (Qred q) = Q2R q. Proof. apply Qeq_eqR, Qred_correct. Qed.
Lemma pval_pins env m c p : pval env (pins m c p) = Q2R c * meval env 0 m + pval env p.
Proof.
  induction p as [|[m' c'] t IH]; cbn [pins pval]; [reflexivity|]. destruct (meqb m m') eqn:E; cbn [pval].
  - apply meqb_ok in E as ->. rewrite Q2R_red, Q2R_plus. ring.
  - rewrite IH. ring.
Qed.
Lemma pval_padd env p : forall q, pval env (padd p q) = pval env p + pval env q.
Proof. induction p as [|[m c] t IH]; intros q; cbn [padd pval]; [ring|]. rewrite IH, pval_pins. ring. Qed.
Lemma pval_pscale env m c p : forall q, pval env (pscale m c p q) = Q2R c * meval env 0 m * pval env p + pval env q.
Proof.
  induction p as [|[m' c'] t IH]; intros q; cbn [pscale pval]; [ring|].
  rewrite IH, pval_pins, meval_mmul, Q2R_red, Q2R_mult. ring.
Qed.
Lemma pval_pmul env p q : pval env (pmul p q) = pval env p * pval env q.
Proof. induction p as [|[m c] t IH]; cbn [pmul pval]; [ring|]. rewrite pval_pscale, IH. ring. Qed.
Lemma Q2R_1 : Q2R 1 = 1. Proof. unfold Q2R; cbn; lra. Qed.
Lemma Q2R_m1 : Q2R (-1) = -1. Proof. unfold Q2R; cbn; lra. Qed.
Lemma pnorm_ok env e : peeval env e = pval env (pnorm e).
Proof.
  induction e as [q|n|a IHa b IHb|a IHa b IHb|a IHa]; cbn [peeval pnorm].
  - cbn; ring.
  - cbn [pval]. rewrite meval_pvar, Q2R_1, Nat.add_0_r. ring.
  - rewrite pval_padd, IHa, IHb. reflexivity.
  - rewrite pval_pmul, IHa, IHb. reflexivity.
  - rewrite pval_pmul, IHa. cbn [pval meval]. rewrite Q2R_m1. ring.
Qed.

(** the bound on a box: |variable i| <= b_i *)
Fixpoint qpow (q : Q) (n : nat) : Q := match n with O => 1%Q | S k => (q * qpow q k)%Q end.
Fixpoint mbound (bs : list Q) (m : list nat) : Q :=
  match m, bs with
  | [], _ => 1%Q | _ :: _, [] => 0%Q
  | k :: t, b :: bt => (qpow b k * mbound bt t)%Q
  end.
Fixpoint pbound (bs : list Q) (p : poly) : Q :=
  match p with [] => 0%Q | (m, c) :: t => Qred (Qabs c * mbound bs m + pbound bs t)%Q end.
Fixpoint mlen (n : nat) (p : poly) : bool := match p with [] => true | (m, _) :: t => Nat.leb (length m) n && mlen n t end.
Lemma Q2R_pow q n : Q2R (qpow q n) = Q2R q ^ n.
Proof. induction n as [|n IH]; cbn [qpow pow]; [apply Q2R_1|]. rewrite Q2R_mult, IH. reflexivity. Qed.
Lemma Q2R_abs q : Q2R (Qabs q) = Rabs (Q2R q).
Proof.
  apply Qabs_case; intros H; apply Qle_Rle in H; replace (Q2R 0) with 0 in H by (unfold Q2R; cbn; lra).
  - rewrite Rabs_pos_eq; auto.
  - rewrite Q2R_opp, Rabs_left1; auto.
Qed.
Lemma mbound_ok env m : forall i bs, (length m <= length bs)%nat -> (forall j, (j < length bs)%nat -> Rabs (env (i + j)%nat) <= Q2R (nth j bs 0%Q)) ->
  Rabs (meval env i m) <= Q2R (mbound bs m).
Proof.
  induction m as [|k m IH]; intros i bs L H; cbn [meval].
  - destruct bs; cbn [mbound]; rewrite Rabs_R1, Q2R_1; lra.
  - destruct bs as [|b bt]; [cbn in L; lia|]. cbn [mbound]. rewrite Rabs_mult, Q2R_mult, Q2R_pow, <- RPow_abs.
    assert (H0 : Rabs (env i) <= Q2R b). { specialize (H 0%nat ltac:(cbn; lia)). rewrite Nat.add_0_r in H. exact H. }
    apply Rmult_le_compat; [apply pow_le, Rabs_pos|apply Rabs_pos|apply pow_incr; split; [apply Rabs_pos|exact H0]|].
    apply IH; [cbn in L; lia|]. intros j Hj. specialize (H (S j) ltac:(cbn; lia)). replace (S i + j)%nat with (i + S j)%nat by lia. exact H.
Qed.
Lemma pbound_ok env bs p : mlen (length bs) p = true -> (forall j, (j < length bs)%nat -> Rabs (env j) <= Q2R (nth j bs 0%Q)) ->
  Rabs (pval env p) <= Q2R (pbound bs p).
Proof.
  intros L H. induction p as [|[m c] t IH]; cbn [pval pbound].
  - rewrite Rabs_R0. unfold Q2R; cbn; lra.
  - cbn [mlen] in L. apply andb_prop in L as [L1 L2]. apply Nat.leb_le in L1. specialize (IH L2). rewrite Q2R_red, Q2R_plus, Q2R_mult, Q2R_abs.
    eapply Rle_trans; [apply Rabs_triang|]. apply Rplus_le_compat; [|exact IH]. rewrite Rabs_mult.
    apply Rmult_le_compat_l; [apply Rabs_pos|]. apply mbound_ok; [exact L1|]. intros j Hj. apply H, Hj.
Qed.

(** splitting by the exponent of variable 0, and taking out a power of it *)
Definition deg0 (m : list nat) : nat := match m with [] => O | k :: _ => k end.
Fixpoint plow (d : nat) (p : poly) : poly :=
  match p with [] => [] | (m, c) :: t => if Nat.leb (deg0 m) d then (if Qeq_bool c 0 then plow d t else (m, c) :: plow d t) else plow d t end.
Definition mdrop (d : nat) (m : list nat) : list nat := match m with [] => [] | k :: t => (k - d)%nat :: t end.
Fixpoint phigh (d : nat) (p : poly) : poly :=
  match p with [] => [] | (m, c) :: t => if Nat.leb (deg0 m) d then phigh d t else (mdrop d m, c) :: phigh d t end.
Lemma psplit env d p : pval env p = pval env (plow d p) + env 0%nat ^ d * pval env (phigh d p).
Proof.
  induction p as [|[m c] t IH]; cbn [plow phigh pval]; [ring|]. destruct (Nat.leb (deg0 m) d) eqn:E.
  - destruct (Qeq_bool c 0) eqn:C; cbn [pval]; rewrite IH; [|ring].
    apply Qeq_bool_eq, Qeq_eqR in C. rewrite C. replace (Q2R 0) with 0 by (unfold Q2R; cbn; lra). ring.
  - cbn [pval]. rewrite IH. apply Nat.leb_gt in E. destruct m as [|k m]; [cbn in E; lia|]. cbn [mdrop meval deg0] in *.
    replace (env 0%nat ^ k) with (env 0%nat ^ d * env 0%nat ^ (k - d)) by (rewrite <- pow_add; f_equal; lia). ring.
Qed.
