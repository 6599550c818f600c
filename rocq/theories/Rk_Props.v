(** C37, C38: Butcher tableaux and Runge-Kutta steps. *)
From Coq Require Import QArith.
From Verif Require Import Prelude Rk_Model Rk_Spec Rk_Proofs.
Open Scope Q_scope.

(** ** C37 *)
(** solution of order 5 (and not 6), embedded solution of order 4 (and not 5); all rooted trees *)
Theorem C37_cash_karp_order :
  has_order 6 (used_a cash_carp) (get_b_high cash_carp) 5 /\
  has_order 6 (used_a cash_carp) (fun i => get_b_high cash_carp i - get_error_b cash_carp i) 4 /\
  ~ has_order 6 (used_a cash_carp) (get_b_high cash_carp) 6 /\
  ~ has_order 6 (used_a cash_carp) (fun i => get_b_high cash_carp i - get_error_b cash_carp i) 5.
Proof.
  split; [exact cc_high|]. split; [apply check_order_sound; vm_compute; reflexivity|].
  split; intro H.
  - specialize (H (Node (repeat (Node []) 5))). assert (C : (order (Node (repeat (Node []) 5)) <= 6)%nat) by (vm_compute; lia).
    specialize (H C). vm_compute in H. discriminate.
  - specialize (H (Node (repeat (Node []) 4))). assert (C : (order (Node (repeat (Node []) 4)) <= 5)%nat) by (vm_compute; lia).
    specialize (H C). vm_compute in H. discriminate.
Qed.
Print Assumptions C37_cash_karp_order.
Theorem C37_rk4_order :
  has_order 4 (used_a RK4basic) (get_b_high RK4basic) 4 /\ ~ has_order 4 (used_a RK4basic) (get_b_high RK4basic) 5 /\
  adaptive RK4basic = false /\ forall i, (i < 4)%nat -> get_error_b RK4basic i == 0.
Proof.
  split; [exact rk4_high|]. split.
  - intro H. specialize (H (Node (repeat (Node []) 4))). assert (C : (order (Node (repeat (Node []) 4)) <= 5)%nat) by (vm_compute; lia).
    specialize (H C). vm_compute in H. discriminate.
  - split; [reflexivity|]. intros i Hi. do 4 (destruct i as [|i]; [vm_compute; reflexivity|]). lia.
Qed.
Print Assumptions C37_rk4_order.
Theorem C37_bogacki_shampine_order :
  has_order 4 (used_a BogaSha) (get_b_high BogaSha) 3 /\
  has_order 4 (used_a BogaSha) (fun i => get_b_high BogaSha i - get_error_b BogaSha i) 2 /\
  ~ has_order 4 (used_a BogaSha) (get_b_high BogaSha) 4 /\
  ~ has_order 4 (used_a BogaSha) (fun i => get_b_high BogaSha i - get_error_b BogaSha i) 3.
Proof.
  split; [exact bs_high|]. split; [apply check_order_sound; vm_compute; reflexivity|].
  split; intro H.
  - specialize (H (Node [Node [Node [Node []]]])). assert (C : (order (Node [Node [Node [Node []]]]) <= 4)%nat) by (vm_compute; lia).
    specialize (H C). vm_compute in H. discriminate.
  - specialize (H (Node [Node []; Node []])). assert (C : (order (Node [Node []; Node []]) <= 3)%nat) by (vm_compute; lia).
    specialize (H C). vm_compute in H. discriminate.
Qed.
Print Assumptions C37_bogacki_shampine_order.
Example C37_trees_hyp : order (Node [Node [Node []]; Node []]) = 4%nat /\ gamma (Node [Node [Node []]; Node []]) = 8%Z /\
  weight 6 (used_a cash_carp) (get_b_high cash_carp) (Node [Node [Node []]; Node []]) == 1 # 8.
Proof. vm_compute. repeat split; reflexivity. Qed.

(** stage times are the row sums; entries on and right of the diagonal, which the step never reads, are zero *)
Theorem C37_nodes : forall T, In T [cash_carp; RK4basic; BogaSha] -> forall i, (i < stages T)%nat ->
  sumQ (fun j => used_a T i j) (stages T) == get_node T i /\
  forall j, (i <= j < stages T)%nat -> get_a T i j == 0 \/ (j = stages T - 1)%nat.
Proof.
  assert (D : forall n i j : nat, (i < n)%nat -> (i <= j < n)%nat -> In (i, j) (list_prod (seq 0 n) (seq 0 n))).
  { intros n i j Hi Hj. apply in_prod; apply in_seq; lia. }
  intros T [<-|[<-|[<-|[]]]] i Hi; (split; [cbn in Hi; do 6 (destruct i as [|i]; [vm_compute; reflexivity|]); lia|]); intros j Hj; cbn [stages cash_carp RK4basic BogaSha] in *.
  - do 6 (destruct i as [|i]; [do 6 (destruct j as [|j]; [try lia; (left; vm_compute; reflexivity) || (right; reflexivity)|]); lia|]); lia.
  - do 4 (destruct i as [|i]; [do 4 (destruct j as [|j]; [try lia; (left; vm_compute; reflexivity) || (right; reflexivity)|]); lia|]); lia.
  - do 4 (destruct i as [|i]; [do 4 (destruct j as [|j]; [try lia; (left; vm_compute; reflexivity) || (right; reflexivity)|]); lia|]); lia.
Qed.
Print Assumptions C37_nodes.
Example C37_nodes_hyp : In cash_carp [cash_carp; RK4basic; BogaSha] /\ (5 < stages cash_carp)%nat /\ get_node cash_carp 5 == 7 # 8.
Proof. split; [cbn; auto|]. split; [cbn; lia|reflexivity]. Qed.
(** every array read made by a step is inside the arrays *)
Theorem C37_wellformed : forall T, In T [cash_carp; RK4basic; BogaSha] ->
  (forall i, (i < stages T)%nat -> (i < length (tb_high T))%nat /\ (i < length (tb_low T))%nat) /\
  (forall i, (1 <= i < stages T)%nat -> (i - 1 < length (tc T))%nat) /\
  (forall i j, (1 <= i < stages T)%nat -> (j < i)%nat -> (j =? stages T)%nat = false /\ ((i - 1) * (stages T - 1) + j < length (ta T))%nat).
Proof.
  intros T [<-|[<-|[<-|[]]]]; cbn [stages tb_high tb_low tc ta length cash_carp RK4basic BogaSha Nat.sub];
  (split; [lia|]); (split; [lia|]); intros i j Hi Hj; (split; [apply Nat.eqb_neq; lia|nia]).
Qed.
Print Assumptions C37_wellformed.

(** ** C38 *)
(** [c i]: coefficients of the derivative of component [i] with respect to the variable of integration. This variable is [t] (or the flow
    parameter itself when the code is compiled without REPARAMETRIZE_FLOWGRID) *)
Definition polynomial_flow {I} (lam dlam : Q -> Q) (rp : bool) (rhs : (I -> Q) -> Q -> I -> Q) (c : I -> list Q) : Prop :=
  forall y s i, (if rp then rhs y (lam s) i * dlam s else rhs y s i) == poly (c i) s.
Definition start_at (lam : Q -> Q) (rp : bool) (t : Q) : Q := if rp then t else lam t.
Definition end_at (lam : Q -> Q) (rp : bool) (t h : Q) : Q := if rp then t + h else lam (t + h).
Lemma end_eq lam (rp : bool) t h : (if rp then t else lam t) + stepsize lam rp t h == end_at lam rp t h.
Proof. unfold stepsize, end_at. destruct rp; ring. Qed.
Lemma integral_cong l a b b' : b == b' -> integral l a b == integral l a b'.
Proof. intro E. unfold integral. rewrite (poly_cong _ _ _ E). reflexivity. Qed.
Theorem C38_cash_karp_exact : forall {I} lam dlam rp (rhs : (I -> Q) -> Q -> I -> Q) y t h c, polynomial_flow lam dlam rp rhs c ->
  forall i,
  ((length (c i) <= 5)%nat ->
     rk_result lam dlam rp cash_carp rhs y (rhs y (lam t)) t h i == y i + integral (c i) (start_at lam rp t) (end_at lam rp t h)) /\
  ((length (c i) <= 4)%nat -> rk_error lam dlam rp cash_carp rhs y (rhs y (lam t)) t h i == 0).
Proof.
  intros I lam dlam rp rhs y t h c H i. split; intro L.
  - rewrite <- (integral_cong _ _ _ _ (end_eq lam rp t h)). exact (cc_exact lam dlam rp rhs y t h c H i L).
  - exact (cc_err lam dlam rp rhs y t h c H i L).
Qed.
Print Assumptions C38_cash_karp_exact.
Theorem C38_rk4_exact : forall {I} lam dlam rp (rhs : (I -> Q) -> Q -> I -> Q) y t h c, polynomial_flow lam dlam rp rhs c ->
  forall i, (length (c i) <= 4)%nat ->
  rk_result lam dlam rp RK4basic rhs y (rhs y (lam t)) t h i == y i + integral (c i) (start_at lam rp t) (end_at lam rp t h).
Proof.
  intros I lam dlam rp rhs y t h c H i L. rewrite <- (integral_cong _ _ _ _ (end_eq lam rp t h)).
  exact (rk4_exact lam dlam rp rhs y t h c H i L).
Qed.
Print Assumptions C38_rk4_exact.
Theorem C38_bogacki_shampine_exact : forall {I} lam dlam rp (rhs : (I -> Q) -> Q -> I -> Q) y t h c, polynomial_flow lam dlam rp rhs c ->
  forall i,
  ((length (c i) <= 3)%nat ->
     rk_result lam dlam rp BogaSha rhs y (rhs y (lam t)) t h i == y i + integral (c i) (start_at lam rp t) (end_at lam rp t h)) /\
  ((length (c i) <= 2)%nat -> rk_error lam dlam rp BogaSha rhs y (rhs y (lam t)) t h i == 0).
Proof.
  intros I lam dlam rp rhs y t h c H i. split; intro L.
  - rewrite <- (integral_cong _ _ _ _ (end_eq lam rp t h)). exact (bs_exact lam dlam rp rhs y t h c H i L).
  - exact (bs_err lam dlam rp rhs y t h c H i L).
Qed.
Print Assumptions C38_bogacki_shampine_exact.
(** an instance that is not constant, with the reparametrisation Lambda = 2 t: d/dLambda y = 12 Lambda^3 / 2^4, i.e. d/dt y = 12 t^3 *)
Example C38_polynomial_hyp :
  polynomial_flow (fun t => 2 * t) (fun _ => 2) true (fun (_ : unit -> Q) L _ => (3 # 4) * L * L * L) (fun _ => [0; 0; 0; 12]) /\
  rk_result (fun t => 2 * t) (fun _ => 2) true cash_carp (fun (_ : unit -> Q) L _ => (3 # 4) * L * L * L) (fun _ => 7)
    (fun _ => (3 # 4) * 2 * 2 * 2) 1 (-2 # 1) tt == 7.
Proof. split; [intros y s i; cbn [poly]; field|]. vm_compute. reflexivity. Qed.

(** y' = z y: the step multiplies the state by the fifth Taylor polynomial of the exponential plus w^6/800 *)
Theorem C38_cash_karp_linear : forall {I} lam dlam (rp : bool) (rhs : (I -> Q) -> Q -> I -> Q) y t h z,
  (forall (y' : I -> Q) (s : Q) (i : I), (if rp then rhs y' (lam s) i * dlam s else rhs y' s i) == z * y' i) ->
  let w := z * stepsize lam rp t h in
  forall i, rk_result lam dlam rp cash_carp rhs y (rhs y (lam t)) t h i == y i * (expo 5 w + w * w * w * w * w * w / 800).
Proof. intros. apply cc_linear. assumption. Qed.
Print Assumptions C38_cash_karp_linear.
Example C38_linear_hyp : expo 5 1 == 163 # 60 /\
  rk_result (fun t => t) (fun _ => 1) true cash_carp (fun (y : unit -> Q) _ i => (-2#1) * y i) (fun _ => 3) (fun _ => -6 # 1) 0 (-1 # 1) tt
  == 3 * (expo 5 2 + 64 / 800).
Proof. split; vm_compute; reflexivity. Qed.
(** the step is y plus the step size times a weighted sum of the stage derivatives *)
Theorem C38_combination : forall {I} lam dlam rp T (rhs : (I -> Q) -> Q -> I -> Q) y dydx t h i,
  rk_result lam dlam rp T rhs y dydx t h i ==
  y i + stepsize lam rp t h * sumQ (fun s => get_b_high T s * nth s (all_k lam dlam rp T rhs y dydx t h) (fun _ => 0) i) (stages T).
Proof.
  intros. rewrite result_sum. unfold sumQ. apply Qplus_comp; [reflexivity|].
  generalize (seq 0 (stages T)). intro l. induction l as [|s l IH]; cbn [fold_right]; [ring|]. rewrite IH. ring.
Qed.
Print Assumptions C38_combination.
