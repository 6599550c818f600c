(** Definedness of the wrappers and the first pass of the adaptive rule. *)
From Coq Require Import QArith Qfield Lqa Setoid Morphisms.
From Verif Require Import Prelude Cplx Osi_Model Osi_Spec Osi_Proofs Osi_Proofs2.
Open Scope Z_scope.
Local Arguments inject_Z : simpl never.
Local Arguments Cscale : simpl never.

Lemma simpson_some f a b N : exists v, integrator_simpson f Qcomp a b N = Some v.
Proof.
  destruct (Z.lt_ge_cases N 3) as [L|L].
  - rewrite simpson_small by exact L. destruct (simpson_sum f a b 3) as [v [E _]]; [lia|eauto].
  - destruct (simpson_sum f a b N) as [v [E _]]; [lia|eauto].
Qed.
Lemma qtrunc_bounds x M : (0 <= x)%Q -> (x <= inject_Z M)%Q -> 0 <= qtrunc x <= M.
Proof.
  intros H0 HM. unfold qtrunc. unfold Qle in H0, HM. cbn [Qnum Qden] in *.
  change (Qnum 0) with 0 in H0. unfold inject_Z in HM. cbn [Qnum Qden] in HM.
  assert (P : 0 <= Qnum x) by lia.
  split; [apply Z.quot_pos; lia|].
  apply Z.quot_le_upper_bound; [lia|].
  rewrite Z.mul_1_r in HM. lia.
Qed.
Lemma to_int_some x M : (0 <= x)%Q -> (x <= inject_Z M)%Q -> M < 2 ^ 31 -> exists z, to_int x = Some z.
Proof.
  intros H0 HM HN. pose proof (qtrunc_bounds x M H0 HM) as B. unfold to_int.
  destruct (Z.leb_spec (- 2 ^ 31) (qtrunc x)); [|lia].
  destruct (Z.ltb_spec (qtrunc x) (2 ^ 31)); [|lia]. cbn [andb]. eauto.
Qed.
Lemma share_some N len a b : (a < b)%Q -> (0 <= len)%Q -> (len <= b - a)%Q -> 0 <= N < 2 ^ 31 ->
  exists z, share N len a b = Some z.
Proof.
  intros Hab H0 HL HN. unfold share.
  assert (P : (0 < b - a)%Q) by lra.
  destruct (Qeq_bool (b - a) 0) eqn:E; [apply Qeq_bool_eq in E; lra|].
  assert (NN : (0 <= inject_Z N)%Q) by (unfold Qle, inject_Z; cbn; lia).
  apply (to_int_some _ N); [| |lia].
  - apply Qle_shift_div_l; [exact P|]. rewrite Qmult_0_l. apply Qmult_le_0_compat; assumption.
  - apply Qle_shift_div_r; [exact P|]. rewrite (Qmult_comm (inject_Z N) len), (Qmult_comm (inject_Z N) (b - a)).
    apply Qmult_le_compat_r; assumption.
Qed.
Lemma oadd_total o1 o2 : (exists v, o1 = Some v) -> (exists v, o2 = Some v) -> exists v, oadd o1 o2 = Some v.
Proof. intros [v1 ->] [v2 ->]. cbn [oadd obind]. eauto. Qed.

Lemma simpson_w_some f a b w N : (a < b)%Q -> (a <= w <= b)%Q -> 0 <= N < 2 ^ 31 ->
  exists v, integrator_simpson_w f Qcomp a b w N = Some v.
Proof.
  intros Hab [W1 W2] HN. unfold integrator_simpson_w.
  destruct (share_some N (w - a) a b Hab) as [na ->]; [lra|lra|exact HN|].
  destruct (share_some N (b - w) a b Hab) as [nb ->]; [lra|lra|exact HN|]. cbn [obind].
  repeat apply oadd_total; try apply simpson_some. eauto.
Qed.

Lemma qlt_iff x y : qlt x y = true <-> (x < y)%Q.
Proof.
  unfold qlt. rewrite negb_true_iff. split.
  - intros H. apply Qnot_le_lt. intros X. apply Qle_bool_iff in X. congruence.
  - intros H. apply not_true_is_false. intros X. apply Qle_bool_iff in X. lra.
Qed.
Lemma qlt_false x y : qlt x y = false -> (y <= x)%Q.
Proof.
  intros H. apply Qnot_lt_le. intros X. apply qlt_iff in X. congruence.
Qed.
Lemma make_odd_bounds n M : 0 <= n <= M -> 0 <= make_odd n <= M + 1.
Proof. unfold make_odd. destruct (Z.rem n 2 =? 0); lia. Qed.

Lemma simpson_ww_some f a b w1 w2 N : (a < b)%Q -> (a <= w1 <= b)%Q -> (a <= w2 <= b)%Q -> 0 <= N < 2 ^ 31 ->
  exists v, integrator_simpson_ww f Qcomp a b w1 w2 N = Some v.
Proof.
  intros Hab [A1 A2] [B1 B2] HN. unfold integrator_simpson_ww.
  set (u1 := if qlt w1 w2 then w1 else w2). set (u2 := if qlt w1 w2 then w2 else w1).
  assert (H : (a <= u1)%Q /\ (u1 <= u2)%Q /\ (u2 <= b)%Q).
  { unfold u1, u2. destruct (qlt w1 w2) eqn:E.
    - apply qlt_iff in E. repeat split; lra.
    - apply qlt_false in E. repeat split; lra. }
  destruct H as [H1 [H2 H3]]. clearbody u1 u2.
  destruct (qlt 5 (b - u2)).
  - destruct (share_some N (u1 - a) a b Hab) as [na ->]; [lra|lra|exact HN|].
    destruct (share_some N (b - u2) a b Hab) as [nb ->]; [lra|lra|exact HN|]. cbn [obind].
    destruct (qlt (10 * 5) (u2 - u1)) eqn:E.
    + destruct (share_some N (u2 - u1) a b Hab) as [nc ->]; [lra|lra|exact HN|]. cbn [obind].
      repeat apply oadd_total; try apply simpson_some. eauto.
    + apply qlt_false in E.
      assert (NW : 0 <= make_odd (Z.quot N 10) <= 2 ^ 31 / 10 + 1).
      { apply make_odd_bounds. split; [apply Z.quot_pos; lia|].
        rewrite Z.quot_div_nonneg by lia. apply Z.div_le_mono; lia. }
      set (Nw := make_odd (Z.quot N 10)) in *.
      assert (NN : (0 <= inject_Z Nw)%Q) by (unfold Qle, inject_Z; cbn; lia).
      destruct (to_int_some (inject_Z Nw * (u2 - u1 + 2 * 5) / (2 * 5))%Q (Nw * 6)) as [nc ->].
      * apply Qle_shift_div_l; [reflexivity|]. rewrite Qmult_0_l. apply Qmult_le_0_compat; [exact NN|lra].
      * apply Qle_shift_div_r; [reflexivity|]. rewrite inject_Z_mult.
        setoid_replace (inject_Z Nw * inject_Z 6 * (2 * 5))%Q with (60 * inject_Z Nw)%Q by (change (inject_Z 6) with 6%Q; ring).
        rewrite (Qmult_comm (inject_Z Nw)). apply Qmult_le_compat_r; [lra|exact NN].
      * assert (2 ^ 31 / 10 = 214748364) by reflexivity. change (2 ^ 31) with 2147483648. lia.
      * cbn [obind]. repeat apply oadd_total; try apply simpson_some. eauto.
  - repeat apply oadd_total; try apply simpson_some. eauto.
Qed.

Lemma abs_quot_lt_zero num den acc : (num == C0)%C -> ~ (den == C0)%C -> (0 < acc)%Q ->
  abs_quot_lt num den acc = true.
Proof.
  intros EN ND AC. unfold abs_quot_lt.
  destruct (Qeq_bool (Cnorm2 den) 0) eqn:E.
  { apply Qeq_bool_eq in E. apply (proj1 (Cnorm2_zero den)) in E. contradiction. }
  apply qlt_iff. apply (proj2 (Cnorm2_zero num)) in EN. rewrite EN.
  pose proof (Cnorm2_nonneg den) as N0.
  assert (ND' : (0 < Cnorm2 den)%Q).
  { apply Qle_lteq in N0. destruct N0 as [X|X]; [exact X|]. symmetry in X. apply (proj1 (Cnorm2_zero den)) in X. contradiction. }
  apply (proj2 (Qlt_minus_iff _ _)). 
  assert (0 < acc * acc * Cnorm2 den)%Q; [|lra].
  apply Qmult_lt_0_compat; [apply Qmult_lt_0_compat; exact AC|exact ND'].
Qed.
Lemma abs_quot_lt_den0 num den acc : (den == C0)%C -> abs_quot_lt num den acc = false.
Proof.
  intros E. unfold abs_quot_lt. apply (proj2 (Cnorm2_zero den)) in E.
  apply Qeq_bool_iff in E. rewrite E. reflexivity.
Qed.

(** the first pass for a polynomial of degree three with non-zero integral *)
Lemma first_pass_cubic c0 c1 c2 c3 a b Nmax fuel : (1 <= fuel)%nat ->
  ~ (cubic_integral c0 c1 c2 c3 a b == C0)%C ->
  exists o, adaptive_simpson (cubic c0 c1 c2 c3) fuel a b Nmax = Some (Some o)
  /\ o_iterations o = 1 /\ o_evals o = 5 /\ o_stop o = Total
  /\ (o_res o == cubic_integral c0 c1 c2 c3 a b)%C.
Proof.
  intros F1 NZ. destruct fuel as [|fuel]; [lia|].
  unfold adaptive_simpson. set (f := cubic c0 c1 c2 c3).
  pose proof (cubic_respects c0 c1 c2 c3 : respects f) as fm.
  set (dx := ((b - a) / 2)%Q).
  cbn [adaptive_loop l_points l_values l_result l_conv map split_loop obind andb].
  unfold push4. cbn [l_points l_values l_result l_conv app].
  set (r := simpson_rule_3 (f (a + 0 * dx)%Q) (f (a + 1 * dx)%Q) (f (a + 2 * dx)%Q) dx).
  set (r1 := simpson_rule_3 _ (f (a + 0 * dx + dx / 2)%Q) _ _).
  set (r2 := simpson_rule_3 _ (f (a + 1 * dx + dx / 2)%Q) _ _).
  assert (R : (r == cubic_integral c0 c1 c2 c3 a b)%C).
  { unfold r. rewrite (rule_panel f fm) by ring. rewrite <- panel_cubic.
    apply panel_m; [exact fm|ring|unfold dx; field]. }
  assert (R1 : (r1 == cubic_integral c0 c1 c2 c3 a (a + dx))%C).
  { unfold r1. rewrite (rule_panel f fm) by (first [ring|field]). rewrite <- panel_cubic.
    apply panel_m; [exact fm|ring|ring]. }
  assert (R2 : (r2 == cubic_integral c0 c1 c2 c3 (a + dx) b)%C).
  { unfold r2. rewrite (rule_panel f fm) by (first [ring|field]). rewrite <- panel_cubic.
    apply panel_m; [exact fm|ring|unfold dx; field]. }
  assert (RN : (accumulate [r1; r2] == cubic_integral c0 c1 c2 c3 a b)%C).
  { unfold accumulate. cbn [fold_left]. rewrite R1, R2. unfold cubic_integral. ring. }
  rewrite abs_quot_lt_zero; [|rewrite R, RN; ring|rewrite R; exact NZ|reflexivity].
  eexists. split; [reflexivity|]. cbn [o_iterations o_evals o_stop o_res].
  split; [reflexivity|]. split; [reflexivity|]. split; [reflexivity|exact RN].
Qed.

(** an integrand that vanishes at the five points of the first pass *)
Lemma first_pass_zero f (a b : Q) Nmax fuel : respects f -> (1 <= fuel)%nat ->
  (forall k, In k [0; 1; 2; 3; 4] -> (f (a + inject_Z k * ((b - a) / 4))%Q == C0)%C) ->
  exists o, adaptive_simpson f fuel a b Nmax = Some (Some o)
  /\ o_iterations o = 1 /\ o_evals o = 5 /\ o_stop o = Intervals /\ (o_res o == C0)%C.
Proof.
  intros fm F1 Z. destruct fuel as [|fuel]; [lia|].
  unfold adaptive_simpson. set (dx := ((b - a) / 2)%Q).
  assert (Z0 : (f (a + 0 * dx)%Q == C0)%C).
  { rewrite <- (Z 0) by (cbn; tauto). apply fm. unfold dx. change (inject_Z 0) with 0%Q. field. }
  assert (Z1 : (f (a + 1 * dx)%Q == C0)%C).
  { rewrite <- (Z 2) by (cbn; tauto). apply fm. unfold dx. change (inject_Z 2) with 2%Q. field. }
  assert (Z2 : (f (a + 2 * dx)%Q == C0)%C).
  { rewrite <- (Z 4) by (cbn; tauto). apply fm. unfold dx. change (inject_Z 4) with 4%Q. field. }
  assert (Z3 : (f (a + 0 * dx + dx / 2)%Q == C0)%C).
  { rewrite <- (Z 1) by (cbn; tauto). apply fm. unfold dx. change (inject_Z 1) with 1%Q. field. }
  assert (Z4 : (f (a + 1 * dx + dx / 2)%Q == C0)%C).
  { rewrite <- (Z 3) by (cbn; tauto). apply fm. unfold dx. change (inject_Z 3) with 3%Q. field. }
  cbn [adaptive_loop l_points l_values l_result l_conv map split_loop obind andb].
  unfold push4. cbn [l_points l_values l_result l_conv app].
  set (r := simpson_rule_3 (f (a + 0 * dx)%Q) (f (a + 1 * dx)%Q) (f (a + 2 * dx)%Q) dx).
  set (r1 := simpson_rule_3 _ (f (a + 0 * dx + dx / 2)%Q) _ _).
  set (r2 := simpson_rule_3 _ (f (a + 1 * dx + dx / 2)%Q) _ _).
  assert (R : (r == C0)%C).
  { unfold r, simpson_rule_3. rewrite Z0, Z1, Z2. unfold Ceq, Cscale, Cadd, C0; cbn [re im]; split; ring. }
  assert (R1 : (r1 == C0)%C).
  { unfold r1, simpson_rule_3. rewrite Z0, Z1, Z3. unfold Ceq, Cscale, Cadd, C0; cbn [re im]; split; ring. }
  assert (R2 : (r2 == C0)%C).
  { unfold r2, simpson_rule_3. rewrite Z1, Z2, Z4. unfold Ceq, Cscale, Cadd, C0; cbn [re im]; split; ring. }
  rewrite abs_quot_lt_den0 by exact R.
  rewrite abs_quot_lt_zero.
  - cbn [forallb andb]. eexists. split; [reflexivity|]. cbn [o_iterations o_evals o_stop o_res].
    split; [reflexivity|]. split; [reflexivity|]. split; [reflexivity|].
    unfold accumulate. cbn [fold_left]. rewrite R1, R2. ring.
  - rewrite R, R1, R2. ring.
  - rewrite R1, R2. intros [X _]. discriminate X.
  - reflexivity.
Qed.
