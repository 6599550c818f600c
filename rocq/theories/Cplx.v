(** Complex numbers with rational parts ([comp] = std::complex<double>, rounding not modelled). *)
From Coq Require Import QArith Qfield.
From Verif Require Import Prelude.

Record cplx := Cplx { re : Q; im : Q }.
Declare Scope C_scope.
Delimit Scope C_scope with C.
Bind Scope C_scope with cplx.
Definition Ceq (a b : cplx) : Prop := (re a == re b)%Q /\ (im a == im b)%Q.
Definition Cofq (x : Q) : cplx := Cplx x 0%Q.
Definition C0 : cplx := Cplx 0 0.
Definition C1 : cplx := Cplx 1 0.
Definition Ci : cplx := Cplx 0 1.
Definition Cadd a b := Cplx (re a + re b)%Q (im a + im b)%Q.
Definition Csub a b := Cplx (re a - re b)%Q (im a - im b)%Q.
Definition Cneg a := Cplx (- re a)%Q (- im a)%Q.
Definition Cmul a b := Cplx (re a * re b - im a * im b)%Q (re a * im b + im a * re b)%Q.
Definition Cconj a := Cplx (re a) (- im a)%Q.
Definition Cnorm2 a : Q := (re a * re a + im a * im a)%Q.
Definition Cinv a := Cplx (re a / Cnorm2 a)%Q (- im a / Cnorm2 a)%Q.
Definition Cdiv a b := Cmul a (Cinv b).
Definition Cscale (x : Q) a := Cplx (x * re a)%Q (x * im a)%Q.
Infix "==" := Ceq (at level 70, no associativity) : C_scope.
Infix "+" := Cadd : C_scope.
Infix "-" := Csub : C_scope.
Infix "*" := Cmul : C_scope.
Infix "/" := Cdiv : C_scope.
Notation "- x" := (Cneg x) : C_scope.

From Coq Require Import Setoid Morphisms Ring.

Global Instance Ceq_equiv : Equivalence Ceq.
Proof.
  split.
  - intros x; split; reflexivity.
  - intros x y [H1 H2]; split; symmetry; auto.
  - intros x y z [H1 H2] [H3 H4]; split; etransitivity; eauto.
Qed.
Global Instance Cadd_m : Proper (Ceq ==> Ceq ==> Ceq) Cadd.
Proof. intros a b [H1 H2] c d [H3 H4]; split; simpl; rewrite ?H1, ?H2, ?H3, ?H4; reflexivity. Qed.
Global Instance Csub_m : Proper (Ceq ==> Ceq ==> Ceq) Csub.
Proof. intros a b [H1 H2] c d [H3 H4]; split; simpl; rewrite ?H1, ?H2, ?H3, ?H4; reflexivity. Qed.
Global Instance Cmul_m : Proper (Ceq ==> Ceq ==> Ceq) Cmul.
Proof. intros a b [H1 H2] c d [H3 H4]; split; simpl; rewrite ?H1, ?H2, ?H3, ?H4; reflexivity. Qed.
Global Instance Cneg_m : Proper (Ceq ==> Ceq) Cneg.
Proof. intros a b [H1 H2]; split; simpl; rewrite ?H1, ?H2; reflexivity. Qed.
Global Instance Cconj_m : Proper (Ceq ==> Ceq) Cconj.
Proof. intros a b [H1 H2]; split; simpl; rewrite ?H1, ?H2; reflexivity. Qed.
Global Instance Cinv_m : Proper (Ceq ==> Ceq) Cinv.
Proof. intros a b [H1 H2]; split; unfold Cinv, Cnorm2; simpl; rewrite ?H1, ?H2; reflexivity. Qed.
Global Instance Cdiv_m : Proper (Ceq ==> Ceq ==> Ceq) Cdiv.
Proof. intros a b H c d H'. unfold Cdiv. rewrite H, H'. reflexivity. Qed.
Global Instance Cscale_m : Proper (Qeq ==> Ceq ==> Ceq) Cscale.
Proof. intros a b H c d [H3 H4]; split; simpl; rewrite ?H, ?H3, ?H4; reflexivity. Qed.

Lemma Qsq_zero q : (q * q == 0)%Q -> (q == 0)%Q.
Proof. intros H. apply Qmult_integral in H. tauto. Qed.

Lemma Qsq_nonneg q : (0 <= q * q)%Q.
Proof.
  destruct (Qlt_le_dec q 0) as [L|L]; [|apply Qmult_le_0_compat; auto].
  setoid_replace (q * q)%Q with ((- q) * (- q))%Q by ring.
  apply Qlt_le_weak in L. apply Qopp_le_compat in L. apply Qmult_le_0_compat; exact L.
Qed.

Lemma Cnorm2_nonneg a : (0 <= Cnorm2 a)%Q.
Proof. unfold Cnorm2. rewrite <- (Qplus_0_l 0). apply Qplus_le_compat; apply Qsq_nonneg. Qed.

Lemma Cnorm2_zero a : (Cnorm2 a == 0)%Q <-> (a == C0)%C.
Proof.
  destruct a as [x y]. unfold Cnorm2, Ceq; simpl. split.
  - intros H. pose proof (Qsq_nonneg x) as Hx. pose proof (Qsq_nonneg y) as Hy.
    assert (Ex : (x * x == 0)%Q).
    { apply Qle_antisym; auto. setoid_replace (x * x)%Q with (- (y * y))%Q.
      - apply Qopp_le_compat in Hy. exact Hy.
      - setoid_replace (x * x)%Q with (x * x + y * y - y * y)%Q by ring. rewrite H. ring. }
    rewrite Ex in H. split; apply Qsq_zero; auto. rewrite <- H. ring.
  - intros [H1 H2]. rewrite H1, H2. reflexivity.
Qed.

Lemma C_ring_theory : ring_theory C0 C1 Cadd Cmul Csub Cneg Ceq.
Proof. split; intros; split; simpl; ring. Qed.

Lemma Cinv_l a : ~ (a == C0)%C -> (Cinv a * a == C1)%C.
Proof.
  intros H. assert (N : ~ (Cnorm2 a == 0)%Q) by (rewrite Cnorm2_zero; exact H).
  split; simpl; unfold Cnorm2 in *; field; exact N.
Qed.

Lemma C_field_theory : field_theory C0 C1 Cadd Cmul Csub Cneg Cdiv Cinv Ceq.
Proof.
  split.
  - exact C_ring_theory.
  - intros [H _]. discriminate H.
  - intros; reflexivity.
  - exact Cinv_l.
Qed.

Add Field Cfield : C_field_theory.

Global Arguments Cadd : simpl never.
Global Arguments Csub : simpl never.
Global Arguments Cmul : simpl never.
Global Arguments Cneg : simpl never.
Global Arguments Cinv : simpl never.
Global Arguments Cdiv : simpl never.
Global Arguments Cconj : simpl never.
