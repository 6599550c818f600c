(** Enumeration of rooted trees; order of the tableaux; exactness for polynomials. *)
From Coq Require Import QArith.
From Verif Require Import Prelude Rk_Model Rk_Spec.
Open Scope Q_scope.

Fixpoint forests (fuel n : nat) : list (list tree) :=
  match fuel with
  | O => []
  | S fuel =>
      match n with
      | O => [[]]
      | S n' => flat_map (fun k => flat_map (fun f => map (fun r => Node f :: r) (forests fuel (n' - k))) (forests fuel k)) (seq 0 (S n'))
      end
  end.
Definition fsize (ts : list tree) : nat := fold_right (fun t n => order t + n)%nat 0%nat ts.
Lemma order_pos t : (1 <= order t)%nat. Proof. destruct t; cbn; lia. Qed.
Lemma forests_complete : forall fuel ts n, fsize ts = n -> (n < fuel)%nat -> In ts (forests fuel n).
Proof.
  induction fuel as [|fuel IH]; intros ts n E L; [lia|]. cbn [forests]. destruct ts as [|t r].
  - cbn in E. subst n. left. reflexivity.
  - destruct t as [f]. cbn [fsize fold_right] in E. fold (fsize r) in E. cbn [order] in E. fold (fsize f) in E.
    destruct n as [|n']; [lia|]. apply in_flat_map. exists (fsize f). split; [apply in_seq; lia|].
    apply in_flat_map. exists f. split; [apply IH; [reflexivity|lia]|]. apply in_map. apply IH; lia.
Qed.
Definition all_trees (p : nat) : list tree := flat_map (fun n => map Node (forests (S p) n)) (seq 0 p).
Lemma all_trees_complete p t : (order t <= p)%nat -> In t (all_trees p).
Proof.
  intro H. destruct t as [f]. cbn [order] in H. fold (fsize f) in H. apply in_flat_map. exists (fsize f). split; [apply in_seq; lia|].
  apply in_map. apply forests_complete; [reflexivity|lia].
Qed.
(** inner weights of all stages at once, with fractions in lowest terms *)
Fixpoint inners (s : nat) (A : nat -> nat -> Q) (t : tree) : list Q :=
  match t with
  | Node ts => fold_right (fun t p => (fun v q => map (fun i => Qred (Qred (fold_right (fun j r => Qred (A i j * nth j v 0 + r)) 0 (seq 0 s)) * nth i q 0)) (seq 0 s)) (inners s A t) p)
                 (repeat 1 s) ts
  end.
Fixpoint tree_rect' (P : tree -> Prop) (H : forall ts, Forall P ts -> P (Node ts)) (t : tree) : P t :=
  match t with
  | Node ts => H ts ((fix all l : Forall P l := match l with [] => Forall_nil P | u :: l' => Forall_cons u (tree_rect' P H u) (all l') end) ts)
  end.
Lemma nth_map_seq (g : nat -> Q) s i : (i < s)%nat -> nth i (map g (seq 0 s)) 0 = g i.
Proof.
  intros H. rewrite (nth_indep _ 0 (g 0%nat)) by (rewrite map_length, seq_length; exact H). rewrite map_nth, seq_nth by exact H. reflexivity.
Qed.
Lemma fold_red (g h : nat -> Q) l : (forall j, In j l -> g j == h j) -> fold_right (fun j r => Qred (g j + r)) 0 l == fold_right (fun j r => h j + r) 0 l.
Proof.
  induction l as [|j l IH]; intros H; [reflexivity|]. cbn [fold_right]. rewrite Qred_correct, (H j (or_introl eq_refl)), IH; [reflexivity|].
  intros k Hk. apply H. right. exact Hk.
Qed.
Lemma inners_spec s A t : forall i, (i < s)%nat -> nth i (inners s A t) 0 == inner s A t i.
Proof.
  induction t as [ts IH] using tree_rect'. cbn [inners inner]. induction IH as [|u ts Hu _ IHts]; intros i Hi.
  - cbn [fold_right]. rewrite (nth_indep _ 0 1) by (rewrite repeat_length; exact Hi). rewrite nth_repeat. reflexivity.
  - cbn [fold_right]. rewrite nth_map_seq by exact Hi. rewrite Qred_correct, Qred_correct, (IHts i Hi).
    unfold sumQ. rewrite (fold_red (fun j => A i j * nth j (inners s A u) 0) (fun j => A i j * inner s A u j)); [reflexivity|].
    intros j Hj. apply in_seq in Hj. rewrite Hu by lia. reflexivity.
Qed.
Definition check_order (s : nat) A b (p : nat) : bool :=
  forallb (fun t => (fun v => Qeq_bool (fold_right (fun i r => Qred (b i * nth i v 0 + r)) 0 (seq 0 s) * inject_Z (gamma t)) 1) (inners s A t)) (all_trees p).
Lemma check_order_sound s A b p : check_order s A b p = true -> has_order s A b p.
Proof.
  intros H t Ht. apply all_trees_complete in Ht. unfold check_order in H. rewrite forallb_forall in H. specialize (H t Ht). apply Qeq_bool_iff in H.
  rewrite <- H. unfold weight, sumQ. rewrite (fold_red (fun i => b i * nth i (inners s A t) 0) (fun i => b i * inner s A t i)); [reflexivity|].
  intros j Hj. apply in_seq in Hj. rewrite inners_spec by lia. reflexivity.
Qed.
(** the matrix used by the step routine: only entries left of the diagonal are read *)
Definition used_a (T : tableau) (i j : nat) : Q := if (j <? i)%nat then get_a T i j else 0.
Lemma cc_high : has_order 6 (used_a cash_carp) (get_b_high cash_carp) 5.
Proof. apply check_order_sound. vm_compute. reflexivity. Qed.
Lemma cc_low : has_order 6 (used_a cash_carp) (fun i => nth i (tb_low cash_carp) 0) 4.
Proof. apply check_order_sound. vm_compute. reflexivity. Qed.
Lemma rk4_high : has_order 4 (used_a RK4basic) (get_b_high RK4basic) 4.
Proof. apply check_order_sound. vm_compute. reflexivity. Qed.
Lemma bs_high : has_order 4 (used_a BogaSha) (get_b_high BogaSha) 3.
Proof. apply check_order_sound. vm_compute. reflexivity. Qed.
Lemma bs_low : has_order 4 (used_a BogaSha) (fun i => nth i (tb_low BogaSha) 0) 2.
Proof. apply check_order_sound. vm_compute. reflexivity. Qed.

(** stages whose derivative does not depend on the state *)
Lemma all_k_gen {I} lam dlam (rp : bool) T (rhs : (I -> Q) -> Q -> I -> Q) y dydx t h (g : nat -> I -> Q) :
  (forall i, first_k dlam rp dydx t i == g 0%nat i) ->
  (forall k s i, (1 <= s)%nat -> stage_k lam dlam rp T rhs y t h k s i == g s i) ->
  forall n,
  let k := fold_left (fun k stage => k ++ [stage_k lam dlam rp T rhs y t h k stage]) (seq 1 n) [first_k dlam rp dydx t] in
  length k = S n /\ forall s, (s <= n)%nat -> forall i, nth s k (fun _ => 0) i == g s i.
Proof.
  intros H0 Hs. induction n as [|n IH]; cbv zeta.
  - cbn. split; [reflexivity|]. intros s Hs' i. assert (s = 0)%nat by lia. subst s. apply H0.
  - replace (seq 1 (S n)) with (seq 1 n ++ [S n]) by (rewrite <- seq_S; f_equal). rewrite fold_left_app. cbn [fold_left].
    destruct IH as [E K]. set (k := fold_left _ (seq 1 n) _) in *. split; [rewrite app_length, E; cbn; lia|].
    intros s Hs' i. destruct (Nat.eq_dec s (S n)) as [->|N].
    + rewrite app_nth2 by lia. replace (S n - length k)%nat with 0%nat by lia. cbn [nth]. apply Hs. lia.
    + rewrite app_nth1 by lia. apply K. lia.
Qed.
Lemma fold_Yadd {I} (f : nat -> I -> Q) l : forall y i, fold_left (fun (r : I -> Q) s => Yadd r (f s)) l y i == y i + fold_right (fun s a => f s i + a) 0 l.
Proof.
  induction l as [|s l IH]; intros y i; cbn [fold_left fold_right]; [ring|]. rewrite IH. unfold Yadd. ring.
Qed.
Lemma result_sum {I} lam dlam rp T rhs y dydx t h (i : I) :
  rk_result lam dlam rp T rhs y dydx t h i ==
  y i + fold_right (fun s a => nth s (all_k lam dlam rp T rhs y dydx t h) (fun _ => 0) i * stepsize lam rp t h * get_b_high T s + a) 0 (seq 0 (stages T)).
Proof.
  unfold rk_result. cbv zeta.
  apply (fold_Yadd (fun s => Yscale (Yscale (nth s (all_k lam dlam rp T rhs y dydx t h) (fun _ => 0)) (stepsize lam rp t h)) (get_b_high T s))).
Qed.
Lemma error_sum {I} lam dlam rp T rhs y dydx t h (i : I) : (1 <= stages T)%nat ->
  rk_error lam dlam rp T rhs y dydx t h i ==
  fold_right (fun s a => nth s (all_k lam dlam rp T rhs y dydx t h) (fun _ => 0) i * stepsize lam rp t h * get_error_b T s + a) 0 (seq 0 (stages T)).
Proof.
  intro H. unfold rk_error. cbv zeta.
  eapply Qeq_trans; [apply (fold_Yadd (fun s => Yscale (Yscale (nth s (all_k lam dlam rp T rhs y dydx t h) (fun _ => 0)) (stepsize lam rp t h)) (get_error_b T s)))|].
  replace (seq 0 (stages T)) with (0%nat :: seq 1 (stages T - 1)) by (destruct (stages T); [lia|cbn; f_equal; f_equal; lia]).
  cbn [fold_right]. unfold Yscale. reflexivity.
Qed.
Section Poly.
Context {I : Type}.
Variables lam dlam : Q -> Q.
Variable rp : bool.
Variable rhs : (I -> Q) -> Q -> I -> Q.
Variables (y : I -> Q) (t h : Q) (c : I -> list Q).
(** start and step in the variable of integration: t, or the flow parameter itself without reparametrisation *)
Let x0 := if rp then t else lam t.
Let dx := stepsize lam rp t h.
(** the derivative with respect to the variable of integration is a polynomial in it *)
Hypothesis Hf : forall y' s i, (if rp then rhs y' (lam s) i * dlam s else rhs y' s i) == poly (c i) s.
Lemma k_poly T i : forall s, (s < stages T)%nat ->
  nth s (all_k lam dlam rp T rhs y (rhs y (lam t)) t h) (fun _ => 0) i == poly (c i) (if (s =? 0)%nat then x0 else x0 + dx * get_node T s).
Proof.
  intros s Hs. apply (all_k_gen lam dlam rp T rhs y (rhs y (lam t)) t h
    (fun s i => poly (c i) (if (s =? 0)%nat then x0 else x0 + dx * get_node T s))) with (n := (stages T - 1)%nat); [| |lia].
  - intro j. pose proof (fun s => Hf y s j) as F. unfold first_k, x0, Yscale. cbn [Nat.eqb]. destruct rp; apply F.
  - intros k n j Hn. destruct n as [|n]; [lia|]. pose proof (fun y' s => Hf y' s j) as F. unfold stage_k, x0, dx, stepsize, Yscale. cbv zeta.
    cbn [Nat.eqb]. destruct rp; apply F.
Qed.
Lemma poly_cong l s s' : s == s' -> poly l s == poly l s'.
Proof. intro E. induction l as [|a l IH]; cbn; [reflexivity|]. rewrite IH, E. reflexivity. Qed.
Definition value T i : Q := rk_result lam dlam rp T rhs y (rhs y (lam t)) t h i.
Definition errest T i : Q := rk_error lam dlam rp T rhs y (rhs y (lam t)) t h i.
Ltac expand T :=
  rewrite result_sum || rewrite error_sum by (cbn; lia);
  change (seq 0 (stages T)) with (seq 0 6) || change (seq 0 (stages T)) with (seq 0 4); cbn [seq fold_right]; fold dx;
  rewrite ?(k_poly T) by (cbn; lia).
Lemma cc_exact i : (length (c i) <= 5)%nat -> value cash_carp i == y i + integral (c i) x0 (x0 + dx).
Proof.
  intro L. unfold value. expand cash_carp. unfold get_node, get_b_high, cash_carp; cbn [Nat.eqb Nat.sub nth tc tb_high].
  unfold integral. destruct (c i) as [|c0 [|c1 [|c2 [|c3 [|c4 [|c5 r]]]]]]; cbn [length] in L; try lia;
    cbv [poly antiderivative inject_Z Z.add Pos.add Pos.succ]; field.
Qed.
Lemma cc_err i : (length (c i) <= 4)%nat -> errest cash_carp i == 0.
Proof.
  intro L. unfold errest. expand cash_carp. unfold get_node, get_error_b, cash_carp; cbn [Nat.eqb Nat.sub nth tc tb_high tb_low].
  destruct (c i) as [|c0 [|c1 [|c2 [|c3 [|c4 r]]]]]; cbn [length] in L; try lia; cbn [poly]; field.
Qed.
Lemma rk4_exact i : (length (c i) <= 4)%nat -> value RK4basic i == y i + integral (c i) x0 (x0 + dx).
Proof.
  intro L. unfold value. expand RK4basic. unfold get_node, get_b_high, RK4basic; cbn [Nat.eqb Nat.sub nth tc tb_high].
  unfold integral. destruct (c i) as [|c0 [|c1 [|c2 [|c3 [|c4 r]]]]]; cbn [length] in L; try lia;
    cbv [poly antiderivative inject_Z Z.add Pos.add Pos.succ]; field.
Qed.
Lemma bs_exact i : (length (c i) <= 3)%nat -> value BogaSha i == y i + integral (c i) x0 (x0 + dx).
Proof.
  intro L. unfold value. expand BogaSha. unfold get_node, get_b_high, BogaSha; cbn [Nat.eqb Nat.sub nth tc tb_high].
  unfold integral. destruct (c i) as [|c0 [|c1 [|c2 [|c3 r]]]]; cbn [length] in L; try lia;
    cbv [poly antiderivative inject_Z Z.add Pos.add Pos.succ]; field.
Qed.
Lemma bs_err i : (length (c i) <= 2)%nat -> errest BogaSha i == 0.
Proof.
  intro L. unfold errest. expand BogaSha. unfold get_node, get_error_b, BogaSha; cbn [Nat.eqb Nat.sub nth tc tb_high tb_low].
  destruct (c i) as [|c0 [|c1 [|c2 r]]]; cbn [length] in L; try lia; cbn [poly]; field.
Qed.
End Poly.

(** ** linear equations *)
Lemma lin_first {I} lam dlam (rp : bool) (rhs : (I -> Q) -> Q -> I -> Q) y t z i :
  (forall (y' : I -> Q) (s : Q) (i : I), (if rp then rhs y' (lam s) i * dlam s else rhs y' s i) == z * y' i) -> first_k dlam rp (rhs y (lam t)) t i == z * y i.
Proof. intro H. pose proof (fun s => H y s i) as F. unfold first_k, Yscale. destruct rp; apply F. Qed.
Lemma lin_stage {I} lam dlam (rp : bool) T (rhs : (I -> Q) -> Q -> I -> Q) (y : I -> Q) t h z k n (i : I) :
  (forall (y' : I -> Q) (s : Q) (i : I), (if rp then rhs y' (lam s) i * dlam s else rhs y' s i) == z * y' i) ->
  stage_k lam dlam rp T rhs y t h k n i == z * stage_state lam rp T y t h k n i.
Proof. intro H. pose proof (fun y' s => H y' s i) as F. unfold stage_k, Yscale. cbv zeta. destruct rp; apply F. Qed.
Section Linear.
Context {I : Type}.
Variables lam dlam : Q -> Q.
Variable rp : bool.
Variable rhs : (I -> Q) -> Q -> I -> Q.
Variables (y : I -> Q) (t h z : Q).
Let dx := stepsize lam rp t h.
Hypothesis Hf : forall y' s i, (if rp then rhs y' (lam s) i * dlam s else rhs y' s i) == z * y' i.
Variable T : tableau.
Definition kap_next (l : list Q) (s : nat) : Q := 1 + fold_right (fun j a => nth j l 0 * (z * dx) * get_a T s j + a) 0 (seq 0 s).
Definition kaps (n : nat) : list Q := fold_left (fun l s => l ++ [kap_next l s]) (seq 1 n) [1].
Lemma stage_lin k l n : (forall s, (s < n)%nat -> forall i, nth s k (fun _ => 0) i == z * nth s l 0 * y i) ->
  forall i, stage_state lam rp T y t h k n i == kap_next l n * y i.
Proof.
  intros H i. unfold stage_state, kap_next. eapply Qeq_trans.
  - apply (fold_Yadd (fun s => Yscale (nth s k (fun _ => 0)) (stepsize lam rp t h * get_a T n s))).
  - enough (E : fold_right (fun s a => Yscale (nth s k (fun _ => 0)) (stepsize lam rp t h * get_a T n s) i + a) 0 (seq 0 n) ==
        fold_right (fun j a => nth j l 0 * (z * dx) * get_a T n j + a) 0 (seq 0 n) * y i) by (rewrite E; ring).
    assert (G : forall m s, (s + m <= n)%nat -> fold_right (fun s a => Yscale (nth s k (fun _ => 0)) (stepsize lam rp t h * get_a T n s) i + a) 0 (seq s m) ==
        fold_right (fun j a => nth j l 0 * (z * dx) * get_a T n j + a) 0 (seq s m) * y i).
    { induction m as [|m IH]; intros s L; cbn [seq fold_right]; [ring|]. rewrite IH by lia. unfold Yscale. rewrite H by lia. fold dx. ring. }
    apply G. lia.
Qed.
Lemma k_lin : forall n,
  let k := fold_left (fun k stage => k ++ [stage_k lam dlam rp T rhs y t h k stage]) (seq 1 n) [first_k dlam rp (rhs y (lam t)) t] in
  length k = S n /\ length (kaps n) = S n /\ forall s, (s <= n)%nat -> forall i, nth s k (fun _ => 0) i == z * nth s (kaps n) 0 * y i.
Proof.
  induction n as [|n IH]; cbv zeta.
  - split; [reflexivity|]. split; [reflexivity|]. intros s Hs i. assert (s = 0)%nat by lia. subst s. cbn.
    rewrite (lin_first lam dlam rp rhs y t z i Hf). ring.
  - unfold kaps. replace (seq 1 (S n)) with (seq 1 n ++ [S n]) by (rewrite <- seq_S; f_equal). rewrite !fold_left_app. cbn [fold_left].
    fold (kaps n). destruct IH as (E & E' & K). set (k := fold_left _ (seq 1 n) _) in *.
    split; [rewrite app_length, E; cbn; lia|]. split; [rewrite app_length, E'; cbn; lia|].
    intros s Hs i. destruct (Nat.eq_dec s (S n)) as [->|N].
    + rewrite !app_nth2 by lia. replace (S n - length k)%nat with 0%nat by lia. replace (S n - length (kaps n))%nat with 0%nat by lia. cbn [nth].
      pose proof (stage_lin k (kaps n) (S n) (fun s Hs => K s ltac:(lia)) i) as St.
      rewrite (lin_stage lam dlam rp T rhs y t h z k (S n) i Hf), St. ring.
    + rewrite !app_nth1 by lia. apply K. lia.
Qed.
Lemma result_lin i : (1 <= stages T)%nat -> rk_result lam dlam rp T rhs y (rhs y (lam t)) t h i ==
  y i * (1 + fold_right (fun s a => nth s (kaps (stages T - 1)) 0 * (z * dx) * get_b_high T s + a) 0 (seq 0 (stages T))).
Proof.
  intro HT. rewrite result_sum. fold dx. destruct (k_lin (stages T - 1)) as (_ & _ & K). fold (all_k lam dlam rp T rhs y (rhs y (lam t)) t h) in K.
  enough (G : forall m s, (s + m <= stages T)%nat ->
    fold_right (fun s a => nth s (all_k lam dlam rp T rhs y (rhs y (lam t)) t h) (fun _ => 0) i * dx * get_b_high T s + a) 0 (seq s m) ==
    y i * fold_right (fun s a => nth s (kaps (stages T - 1)) 0 * (z * dx) * get_b_high T s + a) 0 (seq s m)).
  { rewrite G by lia. ring. }
  induction m as [|m IH]; intros s L; cbn [seq fold_right]; [ring|]. rewrite IH by lia. rewrite K by lia. ring.
Qed.
End Linear.
Definition expo (n : nat) (w : Q) : Q := poly (map (fun k => 1 / inject_Z (Z.of_nat (fact k))) (seq 0 (S n))) w.
Lemma cc_linear {I} lam dlam (rp : bool) (rhs : (I -> Q) -> Q -> I -> Q) y t h z i :
  (forall (y' : I -> Q) (s : Q) (i : I), (if rp then rhs y' (lam s) i * dlam s else rhs y' s i) == z * y' i) ->
  let w := z * stepsize lam rp t h in
  rk_result lam dlam rp cash_carp rhs y (rhs y (lam t)) t h i == y i * (expo 5 w + w * w * w * w * w * w / 800).
Proof.
  intros H w. rewrite (result_lin lam dlam rp rhs y t h z H) by (cbn; lia). fold w.
  apply Qmult_comp; [reflexivity|].
  cbv [cash_carp stages Nat.sub seq kaps fold_left kap_next fold_right app nth get_a get_b_high Nat.eqb orb ta tb_high Nat.mul Nat.add expo map poly].
  fold w. generalize w. intro v.
  repeat match goal with |- context[1 / inject_Z (Z.of_nat (fact ?k))] =>
    let q := eval vm_compute in (1 / inject_Z (Z.of_nat (fact k))) in change (1 / inject_Z (Z.of_nat (fact k))) with q end.
  field.
Qed.
