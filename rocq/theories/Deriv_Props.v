(** Properties C10, C71: numerical differentiation and Lagrange interpolation. *)
From Coq Require Import QArith.
From Verif Require Import Prelude Idx_Spec Deriv_Model Deriv_Spec Deriv_Proofs Deriv_Proofs2 Deriv_Proofs3.
Open Scope Z_scope.

(** ** C10 *)
(** the partial derivative of an array of any rank along any dimension with at least five strictly increasing
    grid points exists, and on every fibre that samples a polynomial of degree at most four it is the exact
    derivative at every grid point *)
Theorem C10_partial_derivative_exact : forall (data xs : list Q) (pre post : list Z) (d : Z),
  pos_dims (pre ++ d :: post) -> prodZ (pre ++ d :: post) < w64 ->
  Z.of_nat (length data) = prodZ (pre ++ d :: post) ->
  Z.of_nat (length xs) = d -> 5 <= d -> increasing xs ->
  exists res, partial_deriv_vec data xs (pre ++ d :: post) (length pre) = Some res /\ length res = length data /\
    forall u x w p, length u = length pre -> in_range (u ++ x :: w) (pre ++ d :: post) ->
      (forall y, 0 <= y < d -> exists xv, zget xs y = Some xv /\
          oeq (elt data (pre ++ d :: post) (u ++ y :: w)) (peval p xv)) ->
      exists xv, zget xs x = Some xv /\ oeq (elt res (pre ++ d :: post) (u ++ x :: w)) (pderiv p xv).
Proof. exact partial_deriv_vec_spec. Qed.
Print Assumptions C10_partial_derivative_exact.

(** a 1 x 5 x 2 array on the grid 0,1,3,4,7 with f = x^4 and f = x^2 *)
Example C10_hyp :
  pos_dims ([1] ++ 5 :: [2]) /\ prodZ ([1] ++ 5 :: [2]) < w64 /\
  partial_deriv_vec [0;0;1;1;81#1;9#1;256#1;16#1;2401#1;49#1]%Q [0;1;3#1;4#1;7#1]%Q ([1] ++ 5 :: [2]) 1 <> None /\
  (let p := (0, 0, 0, 0, 1)%Q in forall y, 0 <= y < 5 -> exists xv, zget [0;1;3#1;4#1;7#1]%Q y = Some xv /\
     oeq (elt [0;0;1;1;81#1;9#1;256#1;16#1;2401#1;49#1]%Q ([1] ++ 5 :: [2]) ([0] ++ y :: [0])) (peval p xv)).
Proof.
  split; [inrange|]. split; [reflexivity|]. split; [vm_compute; discriminate|].
  intros p y Hy. assert (H : y = 0 \/ y = 1 \/ y = 2 \/ y = 3 \/ y = 4) by lia.
  destruct H as [-> | [-> | [-> | [-> | ->]]]]; (eexists; split; [reflexivity|]); eexists; (split; [reflexivity|]); vm_compute; reflexivity.
Qed.

(** ** C71 *)
(** the older formula with constant coefficients is exact for polynomials of degree at most four on uniform grids *)
Theorem C71_uniform_stencil_exact : forall (getx getd : Z -> option Q) (x0 h : Q) (p : quartic) (n jt : Z),
  ~ (h == 0)%Q ->
  (forall j, 0 <= jt + j < n -> oeq (getx j) (x0 + inject_Z j * h)%Q) ->
  (forall j, 0 <= jt + j < n -> oeq (getd j) (peval p (x0 + inject_Z j * h)%Q)) ->
  5 <= n -> 0 <= jt < n -> oeq (fd_uniform getx getd n jt) (pderiv p x0).
Proof. exact fd_uniform_exact. Qed.
Print Assumptions C71_uniform_stencil_exact.

(** Lagrange interpolation reproduces the data at the nodes, for any number of distinct nodes in any order *)
Theorem C71_lagrange_nodes : forall (xs ys : list Q) i x y,
  distinct xs -> nth_error xs i = Some x -> nth_error ys i = Some y -> (lagrangePoly x xs ys == y)%Q.
Proof. exact lagrangePoly_nodes. Qed.
Print Assumptions C71_lagrange_nodes.

Example C71_hyp : distinct [0;2#1;1#2]%Q /\ (lagrangePoly (2#1) [0;2#1;1#2] [5#1;7#1;9#1] == 7)%Q /\
  (let g := fun j : Z => Some (inject_Z j) in oeq (fd_uniform g (fun j => Some (inject_Z (j * j))) 6 0) 0).
Proof.
  split; [|split; [vm_compute; reflexivity|eexists; split; [vm_compute; reflexivity|vm_compute; reflexivity]]].
  intros i j a b Ha Hb E.
  destruct i as [|[|[|i]]], j as [|[|[|j]]]; cbn in Ha, Hb; try congruence; inversion Ha; inversion Hb; subst; vm_compute in E; try congruence;
    try (destruct i; discriminate); destruct j; discriminate.
Qed.
