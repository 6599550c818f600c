From Coq Require Import QArith Qfield.
From Verif Require Import Prelude Deriv_Model Deriv_Spec Deriv_Proofs.
Open Scope Z_scope.

(** the coefficients for uniform grids are exact for quartics on uniform grids *)
Section Uniform.
  Context (getx getd : Z -> option Q) (x0 h : Q) (p : quartic) (n jt : Z).
  Hypothesis Hh : ~ (h == 0)%Q.
  Hypothesis Hx : forall j, 0 <= jt + j < n -> oeq (getx j) (x0 + inject_Z j * h)%Q.
  Hypothesis Hd : forall j, 0 <= jt + j < n -> oeq (getd j) (peval p (x0 + inject_Z j * h)%Q).

  Ltac use H j := let q := fresh "q" in let E := fresh "E" in let F := fresh "F" in
    destruct (H j) as (q & E & F); [lia|]; rewrite E; cbn [obind]; clear E.

  Ltac fin := eexists; split; [reflexivity|];
    repeat match goal with F : (_ == _)%Q |- _ => rewrite F; clear F end;
    destruct p as [[[[c0 c1] c2] c3] c4]; unfold peval, pderiv, inject_Z; field; let E := fresh "E" in intro E; apply Hh; rewrite <- E; ring.

  Lemma fd_uniform_exact : 5 <= n -> 0 <= jt < n -> oeq (fd_uniform getx getd n jt) (pderiv p x0).
  Proof.
    intros H5 Hj. unfold fd_uniform.
    destruct (Z.eqb_spec jt 0); [|destruct (Z.eqb_spec jt 1); [|destruct (Z.eqb_spec jt (n - 2)); [|destruct (Z.eqb_spec jt (n - 1))]]].
    - use Hx 1. use Hx 0. use Hd 0. use Hd 1. use Hd 2. use Hd 3. use Hd 4. fin.
    - use Hx 1. use Hx 0. use Hd (-1). use Hd 0. use Hd 1. use Hd 2. use Hd 3. fin.
    - use Hx 0. use Hx (-1). use Hd (-3). use Hd (-2). use Hd (-1). use Hd 0. use Hd 1. fin.
    - use Hx 0. use Hx (-1). use Hd (-4). use Hd (-3). use Hd (-2). use Hd (-1). use Hd 0. fin.
    - use Hx 1. use Hx 0. use Hd (-2). use Hd (-1). use Hd 1. use Hd 2. fin.
  Qed.
End Uniform.

(** Lagrange interpolation passes through its nodes *)
Lemma lag_prod_spec x xi os : forall num den,
  let r := lag_prod x xi os num den in
  (fst r == num * fold_right (fun xk a => (x - xk) * a) 1 os)%Q /\ (snd r == den * fold_right (fun xk a => (xi - xk) * a) 1 os)%Q.
Proof.
  induction os as [|k os IH]; intros num den; cbn [lag_prod fold_right]; cbn zeta.
  - cbn [fst snd]. split; ring.
  - destruct (IH (num * (x - k))%Q (den * (xi - k))%Q) as [E1 E2]. cbn zeta in *. rewrite E1, E2. split; ring.
Qed.

Lemma prod_zero x os : (exists y, In y os /\ y == x)%Q -> (fold_right (fun xk a => (x - xk) * a) 1 os == 0)%Q.
Proof.
  intros (y & Hin & E). induction os as [|k os IH]; [destruct Hin|]. cbn [fold_right]. destruct Hin as [->|Hin].
  - rewrite E. ring.
  - rewrite (IH Hin). ring.
Qed.

Lemma prod_nonzero x os : (forall y, In y os -> ~ y == x)%Q -> ~ (fold_right (fun xk a => (x - xk) * a) 1 os == 0)%Q.
Proof.
  intros H. induction os as [|k os IH]; cbn [fold_right].
  - intro E. discriminate E.
  - intro E. apply Qmult_integral in E. destruct E as [E|E].
    + apply (H k); [simpl; auto|]. rewrite <- (Qplus_0_l k). rewrite <- E. ring.
    + apply IH; auto. intros; apply H; simpl; auto.
Qed.

Lemma prod_ext x x' os : (x == x')%Q -> (fold_right (fun xk a => (x - xk) * a) 1 os == fold_right (fun xk a => (x' - xk) * a) 1 os)%Q.
Proof. intros E. induction os as [|k os IH]; cbn [fold_right]; [reflexivity|]. rewrite IH, E. reflexivity. Qed.

Lemma lagrange_seen x ys : forall before xs res, (exists y, In y before /\ y == x)%Q -> (lagrange_sum x before xs ys res == res)%Q.
Proof.
  induction ys as [|yi ys IH]; intros before [|xi xs] res Hb; cbn [lagrange_sum]; try reflexivity.
  destruct (lag_prod x xi (before ++ xs) 1 1) as [num den] eqn:E.
  rewrite IH.
  - pose proof (lag_prod_spec x xi (before ++ xs) 1 1) as [E1 _]. cbn zeta in E1. rewrite E in E1. cbn [fst] in E1.
    rewrite E1, prod_zero; [unfold Qdiv; ring|]. destruct Hb as (y & Hy & Ey). exists y. split; auto. apply in_app_iff; auto.
  - destruct Hb as (y & Hy & Ey). exists y. split; auto. apply in_app_iff; auto.
Qed.

Lemma lagrange_nodes xs : forall before ys i x y res,
  distinct (before ++ xs) -> nth_error xs i = Some x -> nth_error ys i = Some y ->
  (lagrange_sum x before xs ys res == res + y)%Q.
Proof.
  induction xs as [|xi xs IH]; intros before ys i x y res Hd Hx Hy; [destruct i; discriminate|].
  destruct ys as [|yi ys]; [destruct i; discriminate|]. cbn [lagrange_sum].
  destruct (lag_prod x xi (before ++ xs) 1 1) as [num den] eqn:E.
  pose proof (lag_prod_spec x xi (before ++ xs) 1 1) as [E1 E2]. cbn zeta in E1, E2. rewrite E in E1, E2. cbn [fst snd] in E1, E2.
  destruct i as [|i]; cbn [nth_error] in Hx, Hy.
  - inversion Hx; inversion Hy; subst. rewrite lagrange_seen.
    + rewrite E1, E2. field. apply prod_nonzero. intros z Hz Ez. apply In_nth_error in Hz. destruct Hz as (j & Hj).
      assert (Hn0 : nth_error (before ++ x :: xs) (length before) = Some x).
      { rewrite nth_error_app2, Nat.sub_diag by lia. reflexivity. }
      destruct (Nat.lt_ge_cases j (length before)) as [L|L].
      * rewrite nth_error_app1 in Hj by auto. assert (j = length before); [|lia]. eapply Hd; [|exact Hn0|exact Ez].
        rewrite nth_error_app1; auto.
      * rewrite nth_error_app2 in Hj by auto. assert (S j = length before); [|lia]. eapply Hd; [|exact Hn0|exact Ez].
        rewrite nth_error_app2 by lia. replace (S j - length before)%nat with (S (j - length before)) by lia. exact Hj.
    + exists x. split; [apply in_app_iff; simpl; auto|reflexivity].
  - rewrite (IH (before ++ [xi]) ys i x y).
    + rewrite E1, prod_zero; [unfold Qdiv; ring|]. exists x. split; [|reflexivity]. apply in_app_iff. right. eapply nth_error_In; eauto.
    + rewrite <- app_assoc. exact Hd.
    + exact Hx.
    + exact Hy.
Qed.

Lemma lagrangePoly_nodes xs ys i x y : distinct xs -> nth_error xs i = Some x -> nth_error ys i = Some y ->
  (lagrangePoly x xs ys == y)%Q.
Proof. intros. unfold lagrangePoly. rewrite (lagrange_nodes xs [] ys i x y); auto. ring. Qed.
