(** * Keldysh matrices: an instance of the ring used in Sbe_Model, and the projections of
    bubble/integrand.hpp:175-212 *)
From Coq Require Import ZArith QArith List Lia Setoid Morphisms.
From Coq Require Ncring.
From Verif Require Import Cplx.
Import ListNotations.
Open Scope C_scope.

(** 4x4 matrices of complex numbers, only the entries 0..3 count *)
Definition m4 := nat -> nat -> cplx.
Definition m4eq (a b : m4) : Prop := forall i j, (i < 4)%nat -> (j < 4)%nat -> a i j == b i j.
Definition m4zero : m4 := fun _ _ => C0.
Definition m4one : m4 := fun i j => if Nat.eqb i j then C1 else C0.
Definition m4add (a b : m4) : m4 := fun i j => a i j + b i j.
Definition m4sub (a b : m4) : m4 := fun i j => a i j - b i j.
Definition m4opp (a : m4) : m4 := fun i j => - a i j.
Definition m4mul (a b : m4) : m4 := fun i j =>
  a i 0%nat * b 0%nat j + a i 1%nat * b 1%nat j + a i 2%nat * b 2%nat j + a i 3%nat * b 3%nat j.

Global Instance m4_ops : @Ncring.Ring_ops m4 m4zero m4one m4add m4mul m4sub m4opp m4eq := {}.

Ltac entry4 := let i := fresh "i" in let j := fresh "j" in let Hi := fresh "Hi" in let Hj := fresh "Hj" in
  intros i j Hi Hj.
Ltac cases4 i H := destruct i as [|[|[|[|i]]]]; [| | | |exfalso; lia]; clear H.

Global Instance m4_ring : @Ncring.Ring m4 _ _ _ _ _ _ _ m4_ops.
Proof.
  split.
  - split.
    + intros a. entry4. reflexivity.
    + intros a b H. entry4. symmetry. apply H; assumption.
    + intros a b c H K. entry4. transitivity (b i j); [apply H | apply K]; assumption.
  - intros a b H c d K. entry4. unfold Algebra_syntax.addition, Ncring.add_notation, m4add. now rewrite (H i j), (K i j).
  - intros a b H c d K. entry4. unfold Algebra_syntax.multiplication, Ncring.mul_notation, m4mul.
    now rewrite (H i 0%nat), (H i 1%nat), (H i 2%nat), (H i 3%nat), (K 0%nat j), (K 1%nat j), (K 2%nat j), (K 3%nat j) by lia.
  - intros a b H c d K. entry4. unfold Algebra_syntax.subtraction, Ncring.sub_notation, m4sub. now rewrite (H i j), (K i j).
  - intros a b H. entry4. unfold Algebra_syntax.opposite, Ncring.opp_notation, m4opp. now rewrite (H i j).
  - intros a. entry4. cbv [Algebra_syntax.addition Algebra_syntax.zero Ncring.add_notation Ncring.zero_notation m4add m4zero]. ring.
  - intros a b. entry4. cbv [Algebra_syntax.addition Ncring.add_notation m4add]. ring.
  - intros a b c. entry4. cbv [Algebra_syntax.addition Ncring.add_notation m4add]. ring.
  - intros a. entry4. cbv [Algebra_syntax.multiplication Algebra_syntax.one Ncring.mul_notation Ncring.one_notation m4mul m4one].
    cases4 i Hi; cbn [Nat.eqb]; ring.
  - intros a. entry4. cbv [Algebra_syntax.multiplication Algebra_syntax.one Ncring.mul_notation Ncring.one_notation m4mul m4one].
    cases4 j Hj; cbn [Nat.eqb]; ring.
  - intros a b c. entry4. cbv [Algebra_syntax.multiplication Ncring.mul_notation m4mul]. ring.
  - intros a b c. entry4. cbv [Algebra_syntax.multiplication Algebra_syntax.addition Ncring.mul_notation Ncring.add_notation m4mul m4add]. ring.
  - intros a b c. entry4. cbv [Algebra_syntax.multiplication Algebra_syntax.addition Ncring.mul_notation Ncring.add_notation m4mul m4add]. ring.
  - intros a b. entry4. cbv [Algebra_syntax.subtraction Algebra_syntax.addition Algebra_syntax.opposite Ncring.sub_notation Ncring.add_notation Ncring.opp_notation m4sub m4add m4opp]. ring.
  - intros a. entry4. cbv [Algebra_syntax.addition Algebra_syntax.zero Algebra_syntax.opposite Ncring.opp_notation Ncring.zero_notation Ncring.add_notation m4opp m4add m4zero]. ring.
Qed.

Definition rows (l : list (list Z)) (f : Q) : m4 :=
  fun i j => Cofq (inject_Z (nth j (nth i l []) 0%Z) * f)%Q.

(** integrand.hpp:175-193 get_projection_lambdaBar and 194-212 get_projection_lambda *)
Definition projection_lambdaBar (contour : bool) : m4 :=
  if contour then rows [[1;0;0;0]; [0;0;0;0]; [0;0;0;0]; [0;0;0;1]]%Z 1
  else rows [[1;0;0;1]; [0;1;1;0]; [0;1;1;0]; [1;0;0;1]]%Z (1 # 2).
Definition projection_lambda (contour : bool) : m4 :=
  if contour then rows [[1;0;0;0]; [0;0;0;0]; [0;0;0;0]; [0;0;0;1]]%Z 1
  else rows [[1;0;0;1]; [0;1;1;0]; [0;1;1;0]; [1;0;0;1]]%Z (1 # 2).

(** vertex.hpp:1236-1253: bare vertex, non-zero for the Keldysh indices odd_Keldysh
    = {1,2,4,7,8,11,13,14}, in the contour basis for 0 and 15 with opposite signs; entry (i,j) of the
    matrix is Keldysh component 4 i + j *)
Definition bare_component (contour : bool) (val : cplx) (iK : nat) : cplx :=
  if contour then (if Nat.eqb iK 0 then val else if Nat.eqb iK 15 then - val else C0)
  else if existsb (Nat.eqb iK) [1;2;4;7;8;11;13;14]%nat then val else C0.
Definition bare_matrix (contour : bool) (val : cplx) : m4 :=
  fun i j => bare_component contour val (4 * i + j).

Ltac solve4 :=
  let i := fresh "i" in let j := fresh "j" in let Hi := fresh "Hi" in let Hj := fresh "Hj" in
  intros i j Hi Hj; cases4 i Hi; cases4 j Hj;
  unfold m4mul, projection_lambda, projection_lambdaBar, bare_matrix, bare_component, rows;
  cbn [nth existsb Nat.eqb Nat.mul Nat.add orb];
  unfold Ceq, Cadd, Cmul, Cneg, Cofq, C0; cbn [re im]; split; unfold inject_Z; ring.

Lemma projections_equal c : m4eq (projection_lambda c) (projection_lambdaBar c).
Proof. destruct c; intros i j _ _; reflexivity. Qed.
Lemma proj_idem c : m4eq (m4mul (projection_lambda c) (projection_lambda c)) (projection_lambda c).
Proof. destruct c; solve4. Qed.
Lemma proj_bare c val : m4eq (m4mul (projection_lambdaBar c) (bare_matrix c val)) (bare_matrix c val).
Proof. destruct c, val; solve4. Qed.
Lemma bare_proj c val : m4eq (m4mul (bare_matrix c val) (projection_lambda c)) (bare_matrix c val).
Proof. destruct c, val; solve4. Qed.
