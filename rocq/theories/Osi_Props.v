(** C129-C131: the older quadrature routines (integrator/old_integrators.hpp). *)
From Coq Require Import QArith Qfield Lqa Setoid Morphisms.
From Verif Require Import Prelude Cplx Osi_Model Osi_Spec.
From Verif Require Osi_Proofs Osi_Proofs2 Osi_Proofs3.
Open Scope Z_scope.

(** C129: an odd number of points is Simpson's rule on (N-1)/2 equal intervals; exact for cubics.
    Partial: complex integrands only, see the refutations. *)
Theorem C129_simpson_partial : forall f a b N, respects f -> 3 <= N -> N mod 2 = 1 ->
  let m := (N - 1) / 2 in
  exists v, integrator_simpson f Qcomp a b N = Some v
  /\ (v == composite f a (map (fun k => a + inject_Z (Z.of_nat k) * ((b - a) / inject_Z m))%Q (seq 1 (Z.to_nat m))))%C.
Proof. intros f a b N fm H3 HO m. exact (Osi_Proofs.simpson_composite f fm a b N H3 HO). Qed.
Print Assumptions C129_simpson_partial.

Theorem C129_cubic_partial : forall c0 c1 c2 c3 a b N, N < 3 \/ N mod 2 = 1 ->
  exists v, integrator_simpson (cubic c0 c1 c2 c3) Qcomp a b N = Some v
  /\ (v == cubic_integral c0 c1 c2 c3 a b)%C.
Proof.
  intros c0 c1 c2 c3 a b N HN.
  destruct (Osi_Proofs.simpson_chain _ (Osi_Proofs.cubic_respects c0 c1 c2 c3) a b N HN) as [v [xs [E [L V]]]].
  exists v. split; [exact E|]. rewrite V. apply Osi_Proofs.composite_cubic. exact L.
Qed.
Print Assumptions C129_cubic_partial.

(** An even number of points loses a third of the last step already for a constant. *)
Theorem C129_even_refuted : forall c a b N, 4 <= N -> N mod 2 = 0 ->
  exists v, integrator_simpson (fun _ => c) Qcomp a b N = Some v
  /\ (v == Cscale ((b - a) * (1 - 1 / (3 * inject_Z (N - 1)))) c)%C
  /\ (~ (c == C0)%C -> ~ (a == b)%Q -> ~ (v == Cscale (b - a) c)%C).
Proof.
  intros c a b N HN HE.
  destruct (Osi_Proofs.simpson_sum (fun _ => c) a b N ltac:(lia)) as [v [E V]].
  exists v. split; [exact E|].
  assert (W : (v == Cscale ((b - a) * (1 - 1 / (3 * inject_Z (N - 1)))) c)%C).
  { cbv zeta in V. rewrite V.
    assert (EN : exists m, N = 2 * Z.of_nat (S m) + 2).
    { exists (Z.to_nat ((N - 4) / 2)). pose proof (Z_div_mod_eq_full (N - 4) 2).
      assert ((N - 4) mod 2 = 0) by (rewrite Zminus_mod, HE; reflexivity).
      assert (0 <= (N - 4) / 2) by (apply Z.div_pos; lia). lia. }
    destruct EN as [m ->]. set (k := Z.of_nat (S m)).
    replace (Z.to_nat (2 * k + 2 - 1)) with (2 * S m + 1)%nat by (unfold k; lia).
    rewrite Osi_Proofs.nsum_iw. fold k.
    replace (2 * k + 2 - 1) with (2 * k + 1) by lia.
    assert (NZ : ~ (inject_Z (2 * k + 1) == 0)%Q) by (apply Osi_Proofs.inject_pos; unfold k; lia).
    assert (S6 : (inject_Z (6 * k + 1) == 3 * inject_Z (2 * k + 1) - 2)%Q).
    { replace (6 * k + 1) with (3 * (2 * k + 1) + (-2)) by ring.
      rewrite inject_Z_plus, inject_Z_mult. change (inject_Z 3) with 3%Q. change (inject_Z (-2)) with (-2)%Q. ring. }
    rewrite S6. unfold Ceq, Cscale, Cadd; cbn [re im]. split; field; exact NZ. }
  split; [exact W|].
  intros NC NAB. rewrite W. intros [H1 H2]. unfold Cscale in H1, H2. cbn [re im] in H1, H2.
  assert (NZ : ~ (inject_Z (N - 1) == 0)%Q) by (apply Osi_Proofs.inject_pos; lia).
  assert (K : forall x, ((b - a) * (1 - 1 / (3 * inject_Z (N - 1))) * x == (b - a) * x)%Q -> (x == 0)%Q).
  { intros x Hx.
    assert (X : ((b - a) * x == 0)%Q).
    { setoid_replace ((b - a) * x)%Q with
        (3 * inject_Z (N - 1) * ((b - a) * x - (b - a) * (1 - 1 / (3 * inject_Z (N - 1))) * x))%Q by (field; exact NZ).
      rewrite Hx. ring. }
    apply Qmult_integral in X. destruct X as [X|X]; [exfalso; apply NAB; lra|exact X]. }
  apply NC. split; apply K; assumption.
Qed.
Print Assumptions C129_even_refuted.

(** For real-valued integrands the sum starts from an indeterminate value. *)
Theorem C129_double_refuted : forall f a b N, integrator_simpson f Qdouble a b N = None.
Proof. reflexivity. Qed.
Print Assumptions C129_double_refuted.

(** The Riemann sum is the trapezoidal rule on the first N bosonic frequencies, whatever the grid. *)
Theorem C129_riemann_partial : forall f bfreqs N b0 rest,
  2 <= N -> N <= Z.of_nat (length bfreqs) -> firstn (Z.to_nat N) bfreqs = b0 :: rest ->
  exists v, integrator_riemann f Qcomp bfreqs N = Some v /\ (v == trapezoids f b0 rest)%C.
Proof. exact Osi_Proofs.riemann_trapezoids. Qed.
Print Assumptions C129_riemann_partial.

Definition quartic (x : Q) : cplx := Cplx (x * x * x * x) (x - 1).
Lemma quartic_respects : respects quartic.
Proof. intros x y E. unfold quartic. split; cbn [re im]; rewrite E; reflexivity. Qed.
Example C129_hyp :
  respects quartic /\ 3 <= 5 /\ 5 mod 2 = 1
  /\ (exists v, integrator_simpson quartic Qcomp 0 4 5 = Some v /\ Qred (re v) = (616 # 3)%Q /\ Qred (im v) = 4%Q)
  /\ (exists v, integrator_simpson (fun _ => Ci) Qcomp 0 3 4 = Some v /\ Qred (im v) = (8 # 3)%Q)
  /\ (exists v, integrator_riemann quartic Qcomp [0; 1; 3; 4]%Q 3 = Some v /\ Qred (re v) = (165 # 2)%Q).
Proof.
  split; [exact quartic_respects|]. split; [lia|]. split; [reflexivity|].
  split; [|split]; eexists; (split; [vm_compute; reflexivity|]); try split; vm_compute; reflexivity.
Qed.

(** C130: splitting at sharp features covers [a,b] exactly once. *)
Theorem C130_one_feature : forall f a b w N, respects f ->
  ((a < b)%Q -> (a <= w <= b)%Q -> 0 <= N < 2 ^ 31 -> exists v, integrator_simpson_w f Qcomp a b w N = Some v)
  /\ (forall v, integrator_simpson_w f Qcomp a b w N = Some v ->
        exists xs, (last xs a == b)%Q /\ (v == composite f a xs)%C).
Proof.
  intros f a b w N fm. split.
  - apply Osi_Proofs3.simpson_w_some.
  - apply (Osi_Proofs.simpson_w_chained f fm).
Qed.
Print Assumptions C130_one_feature.

Theorem C130_one_feature_cubic : forall c0 c1 c2 c3 a b w N v,
  integrator_simpson_w (cubic c0 c1 c2 c3) Qcomp a b w N = Some v ->
  (v == cubic_integral c0 c1 c2 c3 a b)%C.
Proof.
  intros c0 c1 c2 c3 a b w N v E.
  destruct (Osi_Proofs.simpson_w_chained _ (Osi_Proofs.cubic_respects c0 c1 c2 c3) a b w N v E) as [xs [L V]].
  rewrite V. apply Osi_Proofs.composite_cubic. exact L.
Qed.
Print Assumptions C130_one_feature_cubic.

(** Partial: both features further than Delta = 5 from the upper boundary, or N odd. *)
Theorem C130_two_features_partial : forall f a b w1 w2 N, respects f ->
  ((a < b)%Q -> (a <= w1 <= b)%Q -> (a <= w2 <= b)%Q -> 0 <= N < 2 ^ 31 ->
     exists v, integrator_simpson_ww f Qcomp a b w1 w2 N = Some v)
  /\ (forall v, (5 < b - w1 /\ 5 < b - w2)%Q \/ N < 3 \/ N mod 2 = 1 ->
        integrator_simpson_ww f Qcomp a b w1 w2 N = Some v ->
        exists xs, (last xs a == b)%Q /\ (v == composite f a xs)%C).
Proof.
  intros f a b w1 w2 N fm. split.
  - apply Osi_Proofs3.simpson_ww_some.
  - intros v HN. apply (Osi_Proofs.simpson_ww_chained f fm). exact HN.
Qed.
Print Assumptions C130_two_features_partial.

Theorem C130_two_features_cubic_partial : forall c0 c1 c2 c3 a b w1 w2 N v,
  (5 < b - w1 /\ 5 < b - w2)%Q \/ N < 3 \/ N mod 2 = 1 ->
  integrator_simpson_ww (cubic c0 c1 c2 c3) Qcomp a b w1 w2 N = Some v ->
  (v == cubic_integral c0 c1 c2 c3 a b)%C.
Proof.
  intros c0 c1 c2 c3 a b w1 w2 N v HN E.
  destruct (Osi_Proofs.simpson_ww_chained _ (Osi_Proofs.cubic_respects c0 c1 c2 c3) a b w1 w2 N HN v E) as [xs [L V]].
  rewrite V. apply Osi_Proofs.composite_cubic. exact L.
Qed.
Print Assumptions C130_two_features_cubic_partial.

(** Features near the boundary: the middle interval gets N points without the correction to an odd
    number; a constant is integrated wrongly. *)
Theorem C130_boundary_refuted :
  exists a b w1 w2 N v, (a < b)%Q /\ (a <= w1 <= b)%Q /\ (a <= w2 <= b)%Q /\
  integrator_simpson_ww (fun _ => C1) Qcomp a b w1 w2 N = Some v /\
  ~ (v == Cofq (b - a))%C.
Proof.
  exists (-10)%Q, 10%Q, (-8)%Q, 8%Q, 6. eexists.
  split; [reflexivity|]. split; [split; discriminate|]. split; [split; discriminate|].
  split; [vm_compute; reflexivity|]. intros [H _]. vm_compute in H. discriminate H.
Qed.
Print Assumptions C130_boundary_refuted.

Example C130_hyp :
  (exists v, integrator_simpson_w quartic Qcomp (-6) 6 1 10 = Some v /\ Qred (im v) = (-12)%Q)
  /\ (exists v, integrator_simpson_ww quartic Qcomp (-9) 9 (-1) 2 10 = Some v /\ Qred (im v) = (-18)%Q)
  /\ (5 < 9 - -1 /\ 5 < 9 - 2)%Q.
Proof.
  split; [|split].
  - eexists. split; vm_compute; reflexivity.
  - eexists. split; vm_compute; reflexivity.
  - split; reflexivity.
Qed.

(** C131: the adaptive rule ends, evaluates each of its points once, and returns Simpson's rule on a
    partition into dyadic parts. *)
Theorem C131_adaptive_partial : forall f a b Nmax fuel, respects f ->
  (1 <= fuel)%nat -> Nmax < 3 + 2 * Z.of_nat fuel ->
  exists o, adaptive_simpson f fuel a b Nmax = Some (Some o)
  /\ o_evals o = Z.of_nat (length (l_points (o_lists o)))
  /\ o_evals o <= 2 * Z.max 3 Nmax - 1
  /\ exists xs, dyadic_chain (b - a) a b xs /\ (o_res o == composite f a xs)%C.
Proof. intros f a b Nmax fuel. apply Osi_Proofs2.adaptive_good. Qed.
Print Assumptions C131_adaptive_partial.

Theorem C131_cubic_partial : forall c0 c1 c2 c3 a b Nmax fuel,
  (1 <= fuel)%nat -> Nmax < 3 + 2 * Z.of_nat fuel ->
  exists o, adaptive_simpson (cubic c0 c1 c2 c3) fuel a b Nmax = Some (Some o)
  /\ (o_res o == cubic_integral c0 c1 c2 c3 a b)%C.
Proof.
  intros c0 c1 c2 c3 a b Nmax fuel F1 F2.
  destruct (Osi_Proofs2.adaptive_good _ a b Nmax fuel (Osi_Proofs.cubic_respects c0 c1 c2 c3) F1 F2)
    as [o [E [_ [_ [xs [D V]]]]]].
  exists o. split; [exact E|]. rewrite V. apply Osi_Proofs.composite_cubic.
  apply (Osi_Proofs2.dyadic_last (b - a)). exact D.
Qed.
Print Assumptions C131_cubic_partial.

(** "only after having performed the first few splits" holds for single intervals, not for the
    test of the total: a cubic with non-zero integral ends after one pass. *)
Theorem C131_first_splits_refuted : forall c0 c1 c2 c3 a b Nmax fuel, (1 <= fuel)%nat ->
  ~ (cubic_integral c0 c1 c2 c3 a b == C0)%C ->
  exists o, adaptive_simpson (cubic c0 c1 c2 c3) fuel a b Nmax = Some (Some o)
  /\ o_iterations o = 1 /\ o_evals o = 5 /\ o_stop o = Total
  /\ (o_res o == cubic_integral c0 c1 c2 c3 a b)%C.
Proof. exact Osi_Proofs3.first_pass_cubic. Qed.
Print Assumptions C131_first_splits_refuted.

(** An integrand that vanishes at five equidistant points is integrated to zero after one pass,
    whatever Nmax allows; with a non-negative witness that is at least 1 in [1/3, 2/3]. *)
Theorem C131_missed_feature_refuted :
  (forall f a b Nmax fuel, respects f -> (1 <= fuel)%nat ->
     (forall k, In k [0; 1; 2; 3; 4] -> (f (a + inject_Z k * ((b - a) / 4))%Q == C0)%C) ->
     exists o, adaptive_simpson f fuel a b Nmax = Some (Some o)
     /\ o_iterations o = 1 /\ o_evals o = 5 /\ o_stop o = Intervals /\ (o_res o == C0)%C)
  /\ exists f, respects f
     /\ (forall k, In k [0; 1; 2; 3; 4] -> (f (0 + inject_Z k * ((4 - 0) / 4))%Q == C0)%C)
     /\ (forall x, 0 <= re (f x))%Q
     /\ (forall x, (1 # 3 <= x)%Q -> (x <= 2 # 3)%Q -> (1 <= re (f x))%Q).
Proof.
  split; [intros f a b Nmax fuel; apply Osi_Proofs3.first_pass_zero|].
  set (g := fun x : Q => (x * (x - 1) * (x - 2) * (x - 3) * (x - 4))%Q).
  exists (fun x => Cofq (g x * g x)).
  assert (GM : forall x y, (x == y)%Q -> (g x == g y)%Q) by (intros x y E; unfold g; rewrite E; reflexivity).
  split; [|split; [|split]].
  - intros x y E. split; cbn [re im Cofq]; [|reflexivity]. rewrite (GM x y E). reflexivity.
  - intros k Hk. split; cbn [re im Cofq C0]; [|reflexivity].
    cbn [In] in Hk. destruct Hk as [<-|[<-|[<-|[<-|[<-|[]]]]]]; vm_compute; reflexivity.
  - intros x. cbn [re Cofq]. apply Qsq_nonneg.
  - intros x L U. cbn [re Cofq].
    assert (P1 : (2 # 9 <= x * (1 - x))%Q).
    { assert (0 <= (x - (1 # 3)) * ((2 # 3) - x))%Q by (apply Qmult_le_0_compat; lra). lra. }
    assert (P2 : (28 # 9 <= (2 - x) * (3 - x))%Q).
    { assert (0 <= ((2 # 3) - x) * ((2 # 3) - x))%Q by apply Qsq_nonneg.
      assert (0 <= ((2 # 3) - x) * (3 - x))%Q by (apply Qmult_le_0_compat; lra). lra. }
    assert (P3 : (10 # 3 <= 4 - x)%Q) by lra.
    assert (P4 : ((2 # 9) * (28 # 9) <= (x * (1 - x)) * ((2 - x) * (3 - x)))%Q).
    { apply Qle_trans with ((2 # 9) * ((2 - x) * (3 - x)))%Q.
      - rewrite (Qmult_comm (2 # 9) (28 # 9)), (Qmult_comm (2 # 9)). apply Qmult_le_compat_r; [exact P2|discriminate].
      - apply Qmult_le_compat_r; [exact P1|lra]. }
    assert (P5 : (1 <= (x * (1 - x)) * ((2 - x) * (3 - x)) * (4 - x))%Q).
    { apply Qle_trans with ((2 # 9) * (28 # 9) * (4 - x))%Q.
      - apply Qle_trans with ((2 # 9) * (28 # 9) * (10 # 3))%Q; [discriminate|].
        rewrite (Qmult_comm _ (10 # 3)), (Qmult_comm _ (4 - x)). apply Qmult_le_compat_r; [exact P3|discriminate].
      - apply Qmult_le_compat_r; [exact P4|lra]. }
    setoid_replace (g x * g x)%Q with
      (((x * (1 - x)) * ((2 - x) * (3 - x)) * (4 - x)) * ((x * (1 - x)) * ((2 - x) * (3 - x)) * (4 - x)))%Q by (unfold g; ring).
    set (y := ((x * (1 - x)) * ((2 - x) * (3 - x)) * (4 - x))%Q) in *.
    apply Qle_trans with (1 * y)%Q; [lra|]. apply Qmult_le_compat_r; lra.
Qed.
Print Assumptions C131_missed_feature_refuted.

Example C131_hyp :
  respects quartic /\ (1 <= 8)%nat /\ 9 < 3 + 2 * Z.of_nat 8
  /\ (exists o, adaptive_simpson quartic 8 0 4 9 = Some (Some o) /\ o_evals o = 17 /\ o_stop o = MaxPoints)
  /\ ~ (cubic_integral C1 Ci C0 C1 0 2 == C0)%C.
Proof.
  split; [exact quartic_respects|]. split; [lia|]. split; [reflexivity|]. split.
  - eexists. split; [vm_compute; reflexivity|]. split; reflexivity.
  - intros [H _]. vm_compute in H. discriminate H.
Qed.
