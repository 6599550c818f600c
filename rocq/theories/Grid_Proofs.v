(** Lemmas on the grid transformations (C30, C78). *)
From Coq Require Import Reals Lra Psatz.
From Verif Require Import Prelude Grid_Model.
Open Scope R_scope.

Lemma sgn_pos x : 0 < x -> sgn x = 1.
Proof. intro H. unfold sgn. destruct (Rle_dec 0 x), (Rle_dec x 0); lra. Qed.
Lemma sgn_neg x : x < 0 -> sgn x = -1.
Proof. intro H. unfold sgn. destruct (Rle_dec 0 x), (Rle_dec x 0); lra. Qed.
Lemma sgn_0 : sgn 0 = 0.
Proof. unfold sgn. destruct (Rle_dec 0 0); lra. Qed.
Lemma sgn_opp x : sgn (- x) = - sgn x.
Proof. unfold sgn. destruct (Rle_dec 0 x), (Rle_dec x 0), (Rle_dec 0 (-x)), (Rle_dec (-x) 0); lra. Qed.
Lemma sgn_mul_abs x : sgn x * x = Rabs x.
Proof.
  destruct (Rtotal_order x 0) as [H|[->|H]].
  - rewrite sgn_neg, Rabs_left by lra. lra.
  - rewrite Rabs_R0. lra.
  - rewrite sgn_pos, Rabs_pos_eq by lra. lra.
Qed.
Lemma sqrt_eq x y : 0 <= y -> y * y = x -> sqrt x = y.
Proof. intros H E. rewrite <- E. apply sqrt_square. exact H. Qed.
Lemma frac_lt a b d1 d2 : 0 <= a < b -> 0 < d2 -> d2 <= d1 -> a / d1 < b / d2.
Proof.
  intros H1 H2 H3. apply Rle_lt_trans with (a / d2).
  - unfold Rdiv. apply Rmult_le_compat_l; [lra|]. apply Rinv_le_contravar; lra.
  - unfold Rdiv. apply Rmult_lt_compat_r; [apply Rinv_0_lt_compat; lra|lra].
Qed.

(** an odd map that increases on the positive side increases everywhere *)
Definition odd (f : R -> R) : Prop := forall x, f (- x) = - f x.
Lemma odd_0 f : odd f -> f 0 = 0.
Proof. intro H. specialize (H 0). rewrite Ropp_0 in H. lra. Qed.
Lemma odd_increasing f : odd f -> (forall s t, 0 <= s < t -> t < 1 -> f s < f t) -> forall s t, -1 < s -> s < t -> t < 1 -> f s < f t.
Proof.
  intros O H s t Hs Hst Ht. pose proof (odd_0 f O) as Z. destruct (Rle_dec 0 s) as [P|P]; [apply H; lra|].
  pose proof (O s) as Os. destruct (Rle_dec t 0) as [Q|Q].
  - pose proof (O t) as Ot. assert (f (- t) < f (- s)) by (apply H; lra). lra.
  - assert (f 0 < f t) by (apply H; lra). assert (f 0 < f (- s)) by (apply H; lra). lra.
Qed.
(** an inverse of an increasing map is increasing *)
Lemma inverse_increasing f g : (forall s t, -1 < s -> s < t -> t < 1 -> g s < g t) ->
  (forall x, -1 < f x < 1) -> (forall x, g (f x) = x) -> forall x y, x < y -> f x < f y.
Proof.
  intros G B I x y H. destruct (Rtotal_order (f x) (f y)) as [L|[E|L]]; [exact L| |].
  - pose proof (I x). pose proof (I y). rewrite E in *. lra.
  - assert (g (f y) < g (f x)) by (apply G; try apply B; exact L). rewrite !I in H0. lra.
Qed.

Section Core.
Variable W : R.
Hypothesis HW : 0 < W.
(** the four maps and inverses about centre zero *)
Definition f1 d := d / sqrt (W * W + d * d).
Definition g1 t := W * t / sqrt (1 - t * t).
Definition f2 d := sgn d * sqrt ((sqrt (d * d * (d * d) + 4 * (d * d) * W * W) - d * d) / 2) / W.
Definition g2 t := W * t * Rabs t / sqrt (1 - t * t).
Definition f3 d := (- W + sqrt (4 * d * d + W * W)) / 2 / d.
Definition g3 t := W * t / (1 - t * t).
Definition f4 d := sgn d * sqrt (Rabs d / (Rabs d + W)).
Definition g4 t := W * sgn t * t * t / (1 - t * t).

Lemma sq_lt1 t : -1 < t < 1 -> 0 < 1 - t * t.
Proof. intro H. nra. Qed.
Lemma sqrt_pos_lt x : 0 < x -> 0 < sqrt x.
Proof. apply sqrt_lt_R0. Qed.
Lemma sqrt_sq x : 0 <= x -> sqrt x * sqrt x = x.
Proof. apply sqrt_sqrt. Qed.

Lemma g1_odd : odd g1. Proof. intro t. unfold g1. replace (1 - - t * - t) with (1 - t * t) by ring. unfold Rdiv. ring. Qed.
Lemma g2_odd : odd g2. Proof. intro t. unfold g2. replace (1 - - t * - t) with (1 - t * t) by ring. rewrite Rabs_Ropp. unfold Rdiv. ring. Qed.
Lemma g3_odd : odd g3. Proof. intro t. unfold g3. replace (1 - - t * - t) with (1 - t * t) by ring. unfold Rdiv. ring. Qed.
Lemma g4_odd : odd g4. Proof. intro t. unfold g4. replace (1 - - t * - t) with (1 - t * t) by ring. rewrite sgn_opp. unfold Rdiv. ring. Qed.
Lemma f1_odd : odd f1. Proof. intro t. unfold f1. replace (- t * - t) with (t * t) by ring. unfold Rdiv. ring. Qed.
Lemma f2_odd : odd f2. Proof. intro t. unfold f2. replace (- t * - t) with (t * t) by ring. rewrite sgn_opp. unfold Rdiv. ring. Qed.
Lemma f4_odd : odd f4. Proof. intro t. unfold f4. rewrite Rabs_Ropp, sgn_opp. ring. Qed.

Lemma den_dec s t : 0 <= s < t -> t < 1 -> 0 < sqrt (1 - t * t) /\ sqrt (1 - t * t) <= sqrt (1 - s * s).
Proof. intros. split; [apply sqrt_pos_lt; nra|apply sqrt_le_1; nra]. Qed.
Lemma g1_inc : forall s t, -1 < s -> s < t -> t < 1 -> g1 s < g1 t.
Proof.
  apply odd_increasing; [apply g1_odd|]. intros s t H1 H2. unfold g1. destruct (den_dec s t H1 H2). apply frac_lt; nra.
Qed.
Lemma g2_inc : forall s t, -1 < s -> s < t -> t < 1 -> g2 s < g2 t.
Proof.
  apply odd_increasing; [apply g2_odd|]. intros s t H1 H2. unfold g2. destruct (den_dec s t H1 H2).
  rewrite !Rabs_pos_eq by lra. apply frac_lt; [|assumption|assumption]. split; [|]. { assert (0 <= W * s) by nra. nra. }
  rewrite !Rmult_assoc. apply Rmult_lt_compat_l; nra.
Qed.
Lemma g3_inc : forall s t, -1 < s -> s < t -> t < 1 -> g3 s < g3 t.
Proof. apply odd_increasing; [apply g3_odd|]. intros s t H1 H2. unfold g3. apply frac_lt; nra. Qed.
Lemma g4_abs t : g4 t = W * (Rabs t * t) / (1 - t * t).
Proof. unfold g4. rewrite <- sgn_mul_abs. unfold Rdiv. ring. Qed.
Lemma g4_inc : forall s t, -1 < s -> s < t -> t < 1 -> g4 s < g4 t.
Proof.
  apply odd_increasing; [apply g4_odd|]. intros s t H1 H2. rewrite !g4_abs. rewrite !Rabs_pos_eq by lra.
  apply frac_lt; [|nra|nra]. split; [|apply Rmult_lt_compat_l; nra]. apply Rmult_le_pos; nra.
Qed.

(** version 1 *)
Lemma f1_range d : -1 < f1 d < 1.
Proof.
  unfold f1. assert (P : 0 < W * W + d * d) by nra. pose proof (sqrt_pos_lt _ P) as S. pose proof (sqrt_sq _ (Rlt_le _ _ P)) as E.
  assert (A : d < sqrt (W * W + d * d)) by (destruct (Rlt_dec d (sqrt (W * W + d * d))); [assumption|exfalso; nra]).
  assert (B : - sqrt (W * W + d * d) < d) by (destruct (Rlt_dec (- sqrt (W * W + d * d)) d); [assumption|exfalso; nra]).
  split; [apply (Rmult_lt_reg_r (sqrt (W * W + d * d)))|apply (Rmult_lt_reg_r (sqrt (W * W + d * d)))]; try assumption;
    unfold Rdiv; rewrite Rmult_assoc, Rinv_l; lra.
Qed.
Lemma g1f1 d : g1 (f1 d) = d.
Proof.
  unfold g1, f1. assert (P : 0 < W * W + d * d) by nra. pose proof (sqrt_pos_lt _ P) as S. pose proof (sqrt_sq _ (Rlt_le _ _ P)) as E.
  set (r := sqrt (W * W + d * d)) in *.
  rewrite (sqrt_eq (1 - d / r * (d / r)) (W / r)).
  - field. split; lra.
  - apply Rlt_le, Rdiv_lt_0_compat; assumption.
  - transitivity (W * W / (r * r)); [field; lra|]. transitivity ((r * r - d * d) / (r * r)); [rewrite E; field; lra|field; lra].
Qed.
Lemma f1g1 t : -1 < t < 1 -> f1 (g1 t) = t.
Proof.
  intro H. unfold g1, f1. pose proof (sq_lt1 t H) as P. pose proof (sqrt_pos_lt _ P) as S. pose proof (sqrt_sq _ (Rlt_le _ _ P)) as E.
  set (r := sqrt (1 - t * t)) in *.
  rewrite (sqrt_eq (W * W + W * t / r * (W * t / r)) (W / r)).
  - field. split; lra.
  - apply Rlt_le, Rdiv_lt_0_compat; assumption.
  - transitivity (W * W * (r * r + t * t) / (r * r)); [replace (r * r + t * t) with 1 by lra; field; lra|field; lra].
Qed.
Lemma f1_inc : forall x y, x < y -> f1 x < f1 y.
Proof. apply (inverse_increasing f1 g1 g1_inc f1_range g1f1). Qed.

(** version 2 *)
Definition u2 d := (sqrt (d * d * (d * d) + 4 * (d * d) * W * W) - d * d) / 2.
Lemma u2_spec d : 0 <= u2 d /\ u2 d < W * W /\ u2 d * u2 d + d * d * u2 d = d * d * (W * W) /\ (d <> 0 -> 0 < u2 d).
Proof.
  unfold u2. set (q := d * d). assert (Q : 0 <= q) by (unfold q; nra).
  assert (P : 0 <= q * q + 4 * q * W * W) by (assert (0 <= 4 * q * (W * W)) by nra; nra).
  pose proof (sqrt_sq _ P) as E. pose proof (sqrt_pos (q * q + 4 * q * W * W)) as S. set (r := sqrt (q * q + 4 * q * W * W)) in *.
  assert (A : q <= r). { destruct (Rle_dec q r); [assumption|exfalso]. assert (0 <= 4 * q * (W * W)) by nra. nra. }
  assert (B : r < q + 2 * (W * W)). { destruct (Rlt_dec r (q + 2 * (W * W))); [assumption|exfalso]. assert (0 < W * W) by nra. nra. }
  split; [lra|]. split; [lra|]. split; [nra|]. intro N. assert (0 < q) by (unfold q; nra).
  assert (q < r); [|lra]. destruct (Rlt_dec q r); [assumption|exfalso]. assert (0 < 4 * q * (W * W)) by (assert (0 < W * W) by nra; nra). nra.
Qed.
Lemma f2_u d : f2 d = sgn d * sqrt (u2 d) / W.
Proof. reflexivity. Qed.
Lemma f2_pos_range d : 0 <= d -> 0 <= f2 d < 1.
Proof.
  intros H. rewrite f2_u. destruct (u2_spec d) as (A & B & _ & _). destruct (Req_dec d 0) as [->|N].
  - rewrite sgn_0. unfold Rdiv. rewrite !Rmult_0_l. lra.
  - rewrite sgn_pos by lra. rewrite Rmult_1_l. pose proof (sqrt_pos (u2 d)) as S. pose proof (sqrt_sq _ A) as E. split.
    + unfold Rdiv. apply Rmult_le_pos; [assumption|]. apply Rlt_le, Rinv_0_lt_compat, HW.
    + apply (Rmult_lt_reg_r W); [exact HW|]. unfold Rdiv. rewrite Rmult_assoc, Rinv_l by lra. nra.
Qed.
Lemma f2_range d : -1 < f2 d < 1.
Proof.
  destruct (Rle_dec 0 d) as [P|P]; [pose proof (f2_pos_range d P); lra|].
  pose proof (f2_pos_range (- d)) as H. rewrite f2_odd in H. lra.
Qed.
Lemma g2f2_pos d : 0 < d -> g2 (f2 d) = d.
Proof.
  intro H. pose proof (f2_pos_range d ltac:(lra)) as R. unfold g2. rewrite Rabs_pos_eq by lra.
  destruct (u2_spec d) as (A & B & Q & P). specialize (P ltac:(lra)).
  assert (E : f2 d * f2 d = u2 d / (W * W)).
  { rewrite f2_u, sgn_pos by lra. pose proof (sqrt_sq _ A) as S. transitivity (sqrt (u2 d) * sqrt (u2 d) / (W * W)); [field; lra|rewrite S; reflexivity]. }
  rewrite (Rmult_assoc W), E.
  rewrite (sqrt_eq (1 - u2 d / (W * W)) (u2 d / (d * W))).
  - field. repeat split; lra.
  - apply Rlt_le, Rdiv_lt_0_compat; [exact P|nra].
  - transitivity (u2 d * u2 d / (d * d * (W * W))); [field; lra|].
    replace (u2 d * u2 d) with (d * d * (W * W) - d * d * u2 d) by lra. field. lra.
Qed.
Lemma g2f2 d : g2 (f2 d) = d.
Proof.
  destruct (Rtotal_order d 0) as [H|[->|H]].
  - rewrite <- (Ropp_involutive d) at 1. rewrite f2_odd, g2_odd, g2f2_pos; lra.
  - rewrite (odd_0 f2 f2_odd). apply (odd_0 g2 g2_odd).
  - apply g2f2_pos. exact H.
Qed.
Lemma f2_inc : forall x y, x < y -> f2 x < f2 y.
Proof. apply (inverse_increasing f2 g2 g2_inc f2_range g2f2). Qed.
Lemma g_inj (g : R -> R) : (forall s t, -1 < s -> s < t -> t < 1 -> g s < g t) -> forall s t, -1 < s < 1 -> -1 < t < 1 -> g s = g t -> s = t.
Proof.
  intros G s t Hs Ht E. destruct (Rtotal_order s t) as [L|[L|L]]; [|exact L|].
  - pose proof (G s t). lra.
  - pose proof (G t s). lra.
Qed.
Lemma f2g2 t : -1 < t < 1 -> f2 (g2 t) = t.
Proof. intro H. apply (g_inj g2 g2_inc); [apply f2_range|exact H|apply g2f2]. Qed.

(** version 3 *)
Lemma f3_spec d : d <> 0 -> -1 < f3 d < 1 /\ f3 d <> 0 /\ d * (1 - f3 d * f3 d) = W * f3 d.
Proof.
  intro N. unfold f3. assert (P : 0 <= 4 * d * d + W * W) by nra.
  pose proof (sqrt_sq _ P) as E. pose proof (sqrt_pos (4 * d * d + W * W)) as S. set (r := sqrt (4 * d * d + W * W)) in *.
  assert (D : 0 < d * d) by nra.
  assert (A : W < r) by (destruct (Rlt_dec W r); [assumption|exfalso; nra]).
  set (t := (- W + r) / 2 / d). assert (T : 2 * d * t = r - W) by (unfold t; field; lra).
  assert (N0 : t <> 0) by (intro Z; rewrite Z in T; lra).
  assert (Q : d * (1 - t * t) = W * t).
  { assert (X : (2 * d * t + W) * (2 * d * t + W) = 4 * d * d + W * W) by (rewrite T; lra).
    assert (Y : 4 * d * (d * (1 - t * t) - W * t) = 0) by lra.
    apply Rmult_integral in Y. destruct Y; lra. }
  split; [|split; [exact N0|exact Q]].
  assert (Z : t * t < 1).
  { destruct (Rlt_dec (t * t) 1); [assumption|exfalso].
    assert (Y : d * t * (1 - t * t) = W * (t * t)) by (replace (d * t * (1 - t * t)) with (t * (d * (1 - t * t))) by ring; rewrite Q; ring).
    assert (0 < d * t) by lra. assert (0 < W * (t * t)) by nra. nra. }
  split; nra.
Qed.
Lemma g3f3 d : d <> 0 -> g3 (f3 d) = d.
Proof.
  intro N. destruct (f3_spec d N) as (R & _ & Q). unfold g3. rewrite <- Q. pose proof (sq_lt1 _ R). field. lra.
Qed.
Lemma f3_odd d : f3 (- d) = - f3 d.
Proof.
  unfold f3. replace (4 * - d * - d) with (4 * d * d) by ring. destruct (Req_dec d 0) as [->|N].
  - rewrite Ropp_0. unfold Rdiv. rewrite Rinv_0. ring.
  - field. exact N.
Qed.
Lemma g3_nonzero t : -1 < t < 1 -> t <> 0 -> g3 t <> 0.
Proof. intros H N E. apply N. apply (g_inj g3 g3_inc); [exact H|lra|]. rewrite E. symmetry. apply (odd_0 g3 g3_odd). Qed.
Lemma f3g3 t : -1 < t < 1 -> t <> 0 -> f3 (g3 t) = t.
Proof.
  intros H N. pose proof (g3_nonzero t H N) as Z. apply (g_inj g3 g3_inc); [apply f3_spec; exact Z|exact H|apply g3f3; exact Z].
Qed.
Lemma f3_inc x y : x <> 0 -> y <> 0 -> x < y -> f3 x < f3 y.
Proof.
  intros Nx Ny H. destruct (Rtotal_order (f3 x) (f3 y)) as [L|[E|L]]; [exact L| |].
  - pose proof (g3f3 x Nx). pose proof (g3f3 y Ny). rewrite E in *. lra.
  - assert (g3 (f3 y) < g3 (f3 x)) by (apply g3_inc; try apply f3_spec; assumption). rewrite !g3f3 in H0 by assumption. lra.
Qed.
Lemma f3_sign x : (0 < x -> 0 < f3 x) /\ (x < 0 -> f3 x < 0).
Proof.
  assert (P : forall x, 0 < x -> 0 < f3 x).
  { intros y Hy. destruct (f3_spec y ltac:(lra)) as (R & N & Q). pose proof (sq_lt1 _ R). destruct (Rlt_dec 0 (f3 y)); [assumption|exfalso]. nra. }
  split; [apply P|]. intro H. pose proof (P (- x)). rewrite f3_odd in H0. lra.
Qed.

(** version 4 *)
Lemma f4_pos_range d : 0 <= d -> 0 <= f4 d < 1.
Proof.
  intro H. unfold f4. rewrite Rabs_pos_eq by exact H. destruct (Req_dec d 0) as [->|N].
  - rewrite sgn_0. lra.
  - rewrite sgn_pos by lra. rewrite Rmult_1_l. split; [apply sqrt_pos|]. rewrite <- sqrt_1. apply sqrt_lt_1.
    + apply Rlt_le, Rdiv_lt_0_compat; lra.
    + lra.
    + apply (Rmult_lt_reg_r (d + W)); [lra|]. unfold Rdiv. rewrite Rmult_assoc, Rinv_l; lra.
Qed.
Lemma f4_range d : -1 < f4 d < 1.
Proof.
  destruct (Rle_dec 0 d) as [P|P]; [pose proof (f4_pos_range d P); lra|].
  pose proof (f4_pos_range (- d)) as H. rewrite f4_odd in H. lra.
Qed.
Lemma g4f4_pos d : 0 < d -> g4 (f4 d) = d.
Proof.
  intro H. pose proof (f4_pos_range d ltac:(lra)) as R. rewrite g4_abs, Rabs_pos_eq by lra.
  assert (E : f4 d * f4 d = d / (d + W)).
  { unfold f4. rewrite sgn_pos, Rabs_pos_eq by lra. rewrite !Rmult_1_l. apply sqrt_sq. apply Rlt_le, Rdiv_lt_0_compat; lra. }
  rewrite E. field. split; lra.
Qed.
Lemma g4f4 d : g4 (f4 d) = d.
Proof.
  destruct (Rtotal_order d 0) as [H|[->|H]].
  - rewrite <- (Ropp_involutive d) at 1. rewrite f4_odd, g4_odd, g4f4_pos; lra.
  - rewrite (odd_0 f4 f4_odd). apply (odd_0 g4 g4_odd).
  - apply g4f4_pos. exact H.
Qed.
Lemma f4_inc : forall x y, x < y -> f4 x < f4 y.
Proof. apply (inverse_increasing f4 g4 g4_inc f4_range g4f4). Qed.
Lemma f4g4 t : -1 < t < 1 -> f4 (g4 t) = t.
Proof. intro H. apply (g_inj g4 g4_inc); [apply f4_range|exact H|apply g4f4]. Qed.
End Core.
