From Coq Require Import Reals Lra.
From Verif Require Import Prelude Bracket_Model Bracket_Spec.
Open Scope R_scope.

Lemma gt_spec x y : gt x y = true <-> exists a b, x = Some a /\ y = Some b /\ b < a.
Proof.
  unfold gt. destruct x as [a|], y as [b|]; try (split; [discriminate|intros (? & ? & A & B & _); discriminate]).
  destruct (Rlt_dec b a); split; try discriminate; intros H; [exists a, b; auto|reflexivity|destruct H as (? & ? & A & B & C); congruence].
Qed.
Lemma gt_some a b : gt (Some a) (Some b) = true <-> b < a.
Proof. unfold gt. destruct (Rlt_dec b a); split; auto; discriminate || (intros; contradiction). Qed.
Lemma gt_nan_l y : gt None y = false. Proof. reflexivity. Qed.
Lemma pass_ordered cost t t' : ordered t -> pass cost t = Next t' -> ordered t'.
Proof.
  intros (A & B & C) H. unfold pass in H. cbv zeta in H.
  destruct (_ && _); [discriminate|]. destruct (gt (cost (hi t)) (cost (lo t))); [injection H as <-; unfold ordered; cbn; lra|].
  destruct (gt (cost (lo t)) (cost (hi t))); [injection H as <-; unfold ordered; cbn; lra|].
  destruct (close _ _). { destruct (gt _ _); [injection H as <-; unfold ordered; cbn; lra|discriminate]. }
  destruct (close _ _); [|discriminate]. destruct (gt _ _); [injection H as <-; unfold ordered; cbn; lra|discriminate].
Qed.
Lemma pass_stop cost t o : pass cost t = Stop o -> triple_of o = t.
Proof.
  unfold pass. cbv zeta. destruct (_ && _); [intros H; injection H as <-; reflexivity|].
  destruct (gt _ _); [discriminate|]. destruct (gt _ _); [discriminate|].
  destruct (close _ _); [destruct (gt _ _); [discriminate|intros H; injection H as <-; reflexivity]|].
  destruct (close _ _); [destruct (gt _ _); [discriminate|]|]; intros H; injection H as <-; reflexivity.
Qed.

(** ** C50: the order is kept, whatever the cost function (including values that are not numbers) *)
Theorem C50_ordered : forall fuel cost t, ordered t -> ordered (triple_of (bracket fuel cost t)).
Proof.
  induction fuel as [|f IH]; intros cost t H; [exact H|]. cbn. destruct (pass cost t) as [t'|o] eqn:E.
  - apply IH. apply (pass_ordered _ _ _ H E).
  - rewrite (pass_stop _ _ _ E). exact H.
Qed.
Print Assumptions C50_ordered.

Lemma bracket_stop fuel cost : forall t o, bracket fuel cost t = o -> (exists u, o = OutOfFuel u) \/ pass cost (triple_of o) = Stop o.
Proof.
  induction fuel as [|f IH]; intros t o H; cbn in H; [left; exists t; auto|]. destruct (pass cost t) as [t'|o'] eqn:E; [apply (IH t'); exact H|].
  subst o'. right. rewrite (pass_stop _ _ _ E). exact E.
Qed.
(** normal end of the loop: the middle value is below the ends; a continuous cost function has a minimum strictly inside *)
Theorem C50_bracketed : forall fuel cost t u, bracket fuel cost t = Bracketed u -> below_ends cost u.
Proof.
  intros fuel cost t u H. destruct (bracket_stop _ _ _ _ H) as [(v & E)|E]; [discriminate|]. cbn [triple_of] in E. unfold pass in E. cbv zeta in E.
  destruct (gt (cost (lo u)) (cost (mid u)) && gt (cost (hi u)) (cost (mid u))) eqn:G.
  - apply andb_prop in G. destruct G as (G1 & G2). apply gt_spec in G1, G2. destruct G1 as (a & b & A & B & C), G2 as (a' & b' & A' & B' & C').
    exists a, b, a'. rewrite B in B'. injection B' as <-. auto 10.
  - repeat match type of E with (if ?b then _ else _) = _ => destruct b end; discriminate.
Qed.
Print Assumptions C50_bracketed.
Theorem C50_minimum_enclosed : forall fuel f t u, ordered t -> bracket fuel (total f) t = Bracketed u -> (forall x, lo u <= x <= hi u -> continuity_pt f x) ->
  exists x, lo u < x < hi u /\ forall y, lo u <= y <= hi u -> f x <= f y.
Proof.
  intros fuel f t u O H C. pose proof (C50_ordered fuel (total f) t O) as O'. rewrite H in O'. cbn in O'. destruct O' as (P & Q & R).
  destruct (C50_bracketed _ _ _ _ H) as (fa & fm & fb & A & M & B & L1 & L2). unfold total, num in A, M, B. cbv beta in A, M, B. injection A as <-. injection M as <-. injection B as <-.
  destruct (continuity_ab_min f (lo u) (hi u)) as (x & Hx & I); [lra|exact C|]. exists x. split; [|exact Hx].
  pose proof (Hx (mid u) ltac:(lra)). destruct I as [I1 I2]. destruct I1 as [I1|I1]; [|subst x; lra]. destruct I2 as [I2|I2]; [lra|]. subst x. lra.
Qed.
Print Assumptions C50_minimum_enclosed.
(** the other way to return: equal ends, the middle at most 1e-10 above them, and no lower value at the midpoint tried; the interval
    need not enclose a minimum *)
Theorem C50_gave_up : forall fuel f t u, bracket fuel (total f) t = GaveUp u ->
  f (lo u) = f (hi u) /\ f (lo u) <= f (mid u) < f (lo u) + / 10 ^ 10 /\ f (lo u) <= f ((lo u + mid u) / 2).
Proof.
  intros fuel f t u H. destruct (bracket_stop _ _ _ _ H) as [(v & E)|E]; [discriminate|]. cbn [triple_of] in E. unfold pass, total in E. cbv zeta in E.
  unfold gt, close in E. set (T := / 10 ^ 10) in *. clearbody T.
  destruct (Rlt_dec (f (mid u)) (f (lo u))) as [G1|G1], (Rlt_dec (f (mid u)) (f (hi u))) as [G2|G2]; cbn [andb] in E; try discriminate;
  destruct (Rlt_dec (f (lo u)) (f (hi u))); try discriminate; destruct (Rlt_dec (f (hi u)) (f (lo u))); try discriminate; try lra.
  destruct (Rlt_dec (Rabs (f (lo u) - f (mid u))) T) as [D|D].
  - destruct (Rlt_dec (f ((lo u + mid u) / 2)) (f (lo u))); [discriminate|]. apply Rabs_def2 in D. lra.
  - destruct (Rlt_dec (Rabs (f (hi u) - f (mid u))) T) as [D'|D']; [|discriminate]. exfalso. apply D.
    replace (f (lo u)) with (f (hi u)) by lra. exact D'.
Qed.
Print Assumptions C50_gave_up.
(** witness: a constant cost function *)
Theorem C50_constant_refuted : forall fuel c t, ordered t -> bracket (S fuel) (total (fun _ => c)) t = GaveUp t /\ ~ below_ends (total (fun _ => c)) t.
Proof.
  intros fuel c t O. split.
  - cbn. unfold pass, total, gt, close. cbv zeta. destruct (Rlt_dec c c); [lra|]. cbn [andb].
    replace (c - c) with 0 by ring. rewrite Rabs_R0. destruct (Rlt_dec 0 (/ 10 ^ 10)) as [H|H]; [reflexivity|]. exfalso. apply H. apply Rinv_0_lt_compat. apply pow_lt. lra.
  - intros (a & m & b & A & M & B & L & _). unfold total, num in A, M. cbv beta in A, M. injection A as <-. injection M as <-. lra.
Qed.
Print Assumptions C50_constant_refuted.

(** ** C51 *)
(** a parabola with its minimum between the first two points: the interval moves left and right forever *)
Definition parabola (x : R) : R := (x - 3 / 2) * (x - 3 / 2).
Definition start : triple := Triple 1 2 3.
Ltac cmp := repeat match goal with |- context [Rlt_dec ?x ?y] => destruct (Rlt_dec x y); try (exfalso; unfold parabola in *; lra); cbn [andb] end.
Lemma parabola_left : pass (total parabola) start = Next (Triple (1 / 2) 1 2).
Proof. unfold pass, total, gt, start, lo, mid, hi. cbv zeta. cmp. reflexivity. Qed.
Lemma parabola_right : pass (total parabola) (Triple (1 / 2) 1 2) = Next start.
Proof. unfold pass, total, gt, lo, mid, hi. cbv zeta. cmp. unfold start. do 2 f_equal. lra. Qed.
Theorem C51_parabola_refuted : ~ terminates (total parabola) start /\ forall fuel, exists u, bracket fuel (total parabola) start = OutOfFuel u.
Proof.
  assert (A : forall fuel, (exists u, bracket fuel (total parabola) start = OutOfFuel u) /\ exists u, bracket fuel (total parabola) (Triple (1 / 2) 1 2) = OutOfFuel u).
  { induction fuel as [|f (I1 & I2)]; [split; eexists; reflexivity|]. cbn [bracket]. rewrite parabola_left, parabola_right. auto. }
  split; [|intros fuel; apply (A fuel)]. intros (fuel & H). destruct (proj1 (A fuel)) as (u & E). apply (H u E).
Qed.
Print Assumptions C51_parabola_refuted.
(** the same happens for every cost function that is equal at two points a < m and larger at a/2 and 3m/2 *)
Theorem C51_cycle_refuted : forall f a m, f a = f m -> f a < f (a / 2) -> f m < f (m * (3 / 2)) -> ~ terminates (total f) (Triple a m (m * (3 / 2))).
Proof.
  intros f a m E L R (fuel & H). set (s := Triple a m (m * (3 / 2))) in *. set (s' := Triple (a / 2) a m).
  assert (P : pass (total f) s = Next s').
  { unfold pass, total, gt, s, lo, mid, hi. cbv zeta. repeat match goal with |- context [Rlt_dec ?x ?y] => destruct (Rlt_dec x y); try (exfalso; lra); cbn [andb] end. reflexivity. }
  assert (P' : pass (total f) s' = Next s).
  { unfold pass, total, gt, s', lo, mid, hi. cbv zeta. repeat match goal with |- context [Rlt_dec ?x ?y] => destruct (Rlt_dec x y); try (exfalso; lra); cbn [andb] end. reflexivity. }
  assert (A : forall n, (exists u, bracket n (total f) s = OutOfFuel u) /\ exists u, bracket n (total f) s' = OutOfFuel u).
  { induction n as [|n (I1 & I2)]; [split; eexists; reflexivity|]. cbn [bracket]. rewrite P, P'. auto. }
  destruct (proj1 (A fuel)) as (u & Q). apply (H u Q).
Qed.
Print Assumptions C51_cycle_refuted.

(** without ties the phase ends with a bracket, provided that the function does not fall forever towards 0 or infinity *)
Lemma left_phase f : forall k a m b, (forall x y, 0 < x -> 0 < y -> f x = f y -> x = y) -> ordered (Triple a m b) -> f m < f b ->
  f m <= f a \/ (exists j, (j <= k)%nat /\ f (a / 2 ^ j) < f (a / 2 ^ S j)) ->
  exists fuel u, bracket fuel (total f) (Triple a m b) = Bracketed u.
Proof.
  induction k as [|k IH]; intros a m b Inj O L H.
  all: destruct O as (O1 & O2 & O3); cbn in O1, O2, O3.
  all: destruct (Rlt_dec (f m) (f a)) as [G|G]; [exists 1%nat, (Triple a m b); cbn; unfold pass, total, gt, lo, mid, hi; cbv zeta;
    destruct (Rlt_dec (f m) (f a)); [|contradiction]; destruct (Rlt_dec (f m) (f b)); [|contradiction]; reflexivity|].
  all: assert (N : f a < f m) by (destruct (Rtotal_order (f a) (f m)) as [X|[X|X]]; [exact X| |lra]; exfalso; apply Inj in X; lra).
  all: destruct H as [H|(j & Hj & Hf)]; [lra|].
  all: assert (P : pass (total f) (Triple a m b) = Next (Triple (a / 2) a m)) by
    (unfold pass, total, gt, lo, mid, hi; cbv zeta; destruct (Rlt_dec (f m) (f a)); [lra|]; cbn [andb]; destruct (Rlt_dec (f a) (f b)); [reflexivity|lra]).
  - assert (j = 0)%nat by lia. subst j. cbn in Hf. exists 2%nat, (Triple (a / 2) a m). cbn [bracket]. rewrite P.
    unfold pass, total, gt, lo, mid, hi. cbv zeta.
    replace (a / 1) with a in Hf by field. replace (a / (2 * 1)) with (a / 2) in Hf by field.
    destruct (Rlt_dec (f a) (f (a / 2))); [|lra]. destruct (Rlt_dec (f a) (f m)); [reflexivity|lra].
  - destruct (IH (a / 2) a m Inj) as (fuel & u & E).
    + split; cbn; lra.
    + exact N.
    + destruct j as [|j].
      * left. replace (a / 2 ^ 0) with a in Hf by (cbn; field). replace (a / 2 ^ 1) with (a / 2) in Hf by (cbn; field). lra.
      * right. exists j. split; [lia|]. replace (a / 2 / 2 ^ j) with (a / 2 ^ S j) by (cbn; field; apply pow_nonzero; lra).
        replace (a / 2 / 2 ^ S j) with (a / 2 ^ S (S j)) by (cbn; field; apply pow_nonzero; lra). exact Hf.
    + exists (S fuel), u. cbn [bracket]. rewrite P. exact E.
Qed.
Lemma right_phase f : forall k a m b, (forall x y, 0 < x -> 0 < y -> f x = f y -> x = y) -> ordered (Triple a m b) -> f m < f a ->
  f m <= f b \/ (exists j, (j <= k)%nat /\ f (b * (3 / 2) ^ j) < f (b * (3 / 2) ^ S j)) ->
  exists fuel u, bracket fuel (total f) (Triple a m b) = Bracketed u.
Proof.
  induction k as [|k IH]; intros a m b Inj O L H.
  all: destruct O as (O1 & O2 & O3); cbn in O1, O2, O3.
  all: destruct (Rlt_dec (f m) (f b)) as [G|G]; [exists 1%nat, (Triple a m b); cbn; unfold pass, total, gt, lo, mid, hi; cbv zeta;
    destruct (Rlt_dec (f m) (f b)); [|contradiction]; destruct (Rlt_dec (f m) (f a)); [|contradiction]; reflexivity|].
  all: assert (N : f b < f m) by (destruct (Rtotal_order (f b) (f m)) as [X|[X|X]]; [exact X| |lra]; exfalso; apply Inj in X; lra).
  all: destruct H as [H|(j & Hj & Hf)]; [lra|].
  all: assert (P : pass (total f) (Triple a m b) = Next (Triple m b (b * (3 / 2)))) by
    (unfold pass, total, gt, lo, mid, hi; cbv zeta; destruct (Rlt_dec (f m) (f b)); [lra|]; rewrite Bool.andb_false_r; destruct (Rlt_dec (f a) (f b)); [lra|];
     destruct (Rlt_dec (f b) (f a)); [reflexivity|lra]).
  - assert (j = 0)%nat by lia. subst j. exists 2%nat, (Triple m b (b * (3 / 2))). cbn [bracket]. rewrite P.
    unfold pass, total, gt, lo, mid, hi. cbv zeta.
    replace (b * (3 / 2) ^ 0) with b in Hf by (cbn; field). replace (b * (3 / 2) ^ 1) with (b * (3 / 2)) in Hf by (cbn; field).
    destruct (Rlt_dec (f b) (f (b * (3 / 2)))); [|lra]. destruct (Rlt_dec (f b) (f m)); [reflexivity|lra].
  - destruct (IH m b (b * (3 / 2)) Inj) as (fuel & u & E).
    + split; cbn; lra.
    + exact N.
    + destruct j as [|j].
      * left. replace (b * (3 / 2) ^ 0) with b in Hf by (cbn; field). replace (b * (3 / 2) ^ 1) with (b * (3 / 2)) in Hf by (cbn; field). lra.
      * right. exists j. split; [lia|]. replace (b * (3 / 2) * (3 / 2) ^ j) with (b * (3 / 2) ^ S j) by (cbn; ring).
        replace (b * (3 / 2) * (3 / 2) ^ S j) with (b * (3 / 2) ^ S (S j)) by (cbn; ring). exact Hf.
    + exists (S fuel), u. cbn [bracket]. rewrite P. exact E.
Qed.
Theorem C51_no_ties_partial : forall f t, ordered t -> (forall x y, 0 < x -> 0 < y -> f x = f y -> x = y) ->
  (exists j, f (lo t / 2 ^ j) < f (lo t / 2 ^ S j)) -> (exists j, f (hi t * (3 / 2) ^ j) < f (hi t * (3 / 2) ^ S j)) ->
  exists fuel u, bracket fuel (total f) t = Bracketed u.
Proof.
  intros f [a m b] O Inj (i & I) (j & J). pose proof O as (O1 & O2 & O3). cbn in O1, O2, O3. cbn [lo hi] in I, J.
  assert (NE : forall x y, 0 < x -> x < y -> f x < f y \/ f y < f x).
  { intros x y A B. destruct (Rtotal_order (f x) (f y)) as [X|[X|X]]; auto. apply Inj in X; lra. }
  destruct (NE a m) as [AM|AM]; try lra.
  - destruct (NE a b) as [AB|AB]; try lra.
    + (* first move to the left *)
      destruct (left_phase f i (a / 2) a m Inj) as (fuel & u & E); [split; cbn; lra|exact AM| |].
      * destruct i as [|i]; [left; replace (a / 2 ^ 0) with a in I by (cbn; field); replace (a / 2 ^ 1) with (a / 2) in I by (cbn; field); lra|].
        right. exists i. split; [lia|]. replace (a / 2 / 2 ^ i) with (a / 2 ^ S i) by (cbn; field; apply pow_nonzero; lra).
        replace (a / 2 / 2 ^ S i) with (a / 2 ^ S (S i)) by (cbn; field; apply pow_nonzero; lra). exact I.
      * exists (S fuel), u. cbn [bracket]. replace (pass (total f) (Triple a m b)) with (Next (Triple (a / 2) a m)); [exact E|].
        unfold pass, total, gt, lo, mid, hi. cbv zeta. destruct (Rlt_dec (f m) (f a)); [lra|]. cbn [andb]. destruct (Rlt_dec (f a) (f b)); [reflexivity|lra].
    + destruct (right_phase f j m b (b * (3 / 2)) Inj) as (fuel & u & E); [split; cbn; lra|lra| |].
      * destruct j as [|j]; [left; replace (b * (3 / 2) ^ 0) with b in J by (cbn; field); replace (b * (3 / 2) ^ 1) with (b * (3 / 2)) in J by (cbn; field); lra|].
        right. exists j. split; [lia|]. replace (b * (3 / 2) * (3 / 2) ^ j) with (b * (3 / 2) ^ S j) by (cbn; ring).
        replace (b * (3 / 2) * (3 / 2) ^ S j) with (b * (3 / 2) ^ S (S j)) by (cbn; ring). exact J.
      * exists (S fuel), u. cbn [bracket]. replace (pass (total f) (Triple a m b)) with (Next (Triple m b (b * (3 / 2)))); [exact E|].
        unfold pass, total, gt, lo, mid, hi. cbv zeta. destruct (Rlt_dec (f m) (f a)); [lra|]. cbn [andb]. destruct (Rlt_dec (f a) (f b)); [lra|].
        destruct (Rlt_dec (f b) (f a)); [reflexivity|lra].
  - destruct (right_phase f j a m b Inj O AM) as (fuel & u & E); [|exists fuel, u; exact E].
    right. exists j. split; [lia|exact J].
Qed.
Print Assumptions C51_no_ties_partial.

(** the branch for equal values on the right is never taken: if the left one is not, the exception is thrown *)
Theorem C93_right_tie_unreachable : forall f t, ~ (f (mid t) < f (lo t) /\ f (mid t) < f (hi t)) -> f (lo t) = f (hi t) ->
  Rabs (f (lo t) - f (mid t)) >= / 10 ^ 10 -> pass (total f) t = Stop (Thrown t).
Proof.
  intros f t NB E D. unfold pass, total, gt, close. cbv zeta. rewrite <- E in *. set (T := / 10 ^ 10) in *. clearbody T.
  destruct (Rlt_dec (f (mid t)) (f (lo t))); [exfalso; apply NB; auto|]. cbn [andb].
  destruct (Rlt_dec (f (lo t)) (f (lo t))); [lra|]. destruct (Rlt_dec (Rabs (f (lo t) - f (mid t))) T); [lra|]. reflexivity.
Qed.
Print Assumptions C93_right_tie_unreachable.
Theorem C93_left_tie_ends : forall f t t', ordered t -> f (lo t) = f (hi t) -> pass (total f) t = Next t' -> pass (total f) t' = Stop (Bracketed t').
Proof.
  intros f t t' O E H. unfold pass, total, gt, close in *. cbv zeta in *. rewrite <- E in *. set (T := / 10 ^ 10) in *. clearbody T.
  destruct (Rlt_dec (f (mid t)) (f (lo t))) as [G|G]; [discriminate|]. cbn [andb] in H.
  destruct (Rlt_dec (f (lo t)) (f (lo t))); [lra|]. destruct (Rlt_dec (Rabs (f (lo t) - f (mid t))) T); [|discriminate].
  destruct (Rlt_dec (f ((lo t + mid t) / 2)) (f (lo t))); [|discriminate]. injection H as <-. cbn [lo mid hi].
  destruct (Rlt_dec (f ((lo t + mid t) / 2)) (f (lo t))); [|lra]. destruct (Rlt_dec (f ((lo t + mid t) / 2)) (f (mid t))); [reflexivity|lra].
Qed.
Print Assumptions C93_left_tie_ends.

(** ** non-trivial cases *)
Lemma start_ordered : ordered start. Proof. unfold ordered, start; cbn. lra. Qed.
Definition abs2 (x : R) : R := (x - 2) * (x - 2).
Lemma abs2_bracketed fuel : bracket (S fuel) (total abs2) start = Bracketed start.
Proof.
  cbn. unfold pass, total, gt, start, lo, mid, hi. cbv zeta. unfold abs2.
  repeat match goal with |- context [Rlt_dec ?x ?y] => destruct (Rlt_dec x y); try (exfalso; lra); cbn [andb] end. reflexivity.
Qed.
Example C50_ordered_hyp : ordered start /\ pass (total parabola) start = Next (Triple (1 / 2) 1 2).
Proof. split; [apply start_ordered|apply parabola_left]. Qed.
Example C50_bracketed_hyp : bracket 5 (total abs2) start = Bracketed start. Proof. apply abs2_bracketed. Qed.
Example C50_minimum_enclosed_hyp : ordered start /\ bracket 5 (total abs2) start = Bracketed start /\ forall x, lo start <= x <= hi start -> continuity_pt abs2 x.
Proof.
  split; [apply start_ordered|]. split; [apply abs2_bracketed|]. intros x _. apply derivable_continuous_pt. unfold abs2. reg.
Qed.
Example C50_gave_up_hyp : bracket 3 (total (fun _ => 7)) start = GaveUp start. Proof. apply (C50_constant_refuted 2 7 start start_ordered). Qed.
Example C50_constant_refuted_hyp : ordered start. Proof. apply start_ordered. Qed.
Example C51_parabola_refuted_hyp : ordered start /\ (forall x, parabola (3 / 2) <= parabola x) /\ continuity parabola.
Proof.
  split; [apply start_ordered|]. split; [|apply derivable_continuous; unfold parabola; reg].
  intros x. unfold parabola. replace (3 / 2 - 3 / 2) with 0 by ring. pose proof (Rle_0_sqr (x - 3 / 2)). unfold Rsqr in *. lra.
Qed.
Example C51_cycle_refuted_hyp : parabola 1 = parabola 2 /\ parabola 1 < parabola (1 / 2) /\ parabola 2 < parabola (2 * (3 / 2)).
Proof. unfold parabola. lra. Qed.
(** falls before 1, jumps below 0 and rises afterwards: no value occurs twice *)
Definition fall_rise (x : R) : R := if Rlt_dec x 1 then 1 - x else - / x.
Example C51_no_ties_partial_hyp : exists f, ordered start /\ (forall x y, 0 < x -> 0 < y -> f x = f y -> x = y) /\
  (exists j, f (lo start / 2 ^ j) < f (lo start / 2 ^ S j)) /\ (exists j, f (hi start * (3 / 2) ^ j) < f (hi start * (3 / 2) ^ S j)).
Proof.
  exists fall_rise. split; [apply start_ordered|]. unfold fall_rise. split.
  - intros x y X Y H. destruct (Rlt_dec x 1), (Rlt_dec y 1); try lra.
    + exfalso. pose proof (Rinv_0_lt_compat y Y). lra.
    + exfalso. pose proof (Rinv_0_lt_compat x X). lra.
    + assert (/ x = / y) by lra. rewrite <- (Rinv_inv x), <- (Rinv_inv y). rewrite H0. reflexivity.
  - split; exists 0%nat; unfold start, lo, hi; cbn.
    + destruct (Rlt_dec (1 / 1) 1); [lra|]. destruct (Rlt_dec (1 / (2 * 1)) 1); lra.
    + destruct (Rlt_dec (3 * 1) 1); [lra|]. destruct (Rlt_dec (3 * (3 / 2 * 1)) 1); lra.
Qed.
Example C93_right_tie_unreachable_hyp : let f x := if Req_EM_T x 2 then 5 else 0 in f (lo start) = f (hi start) /\ Rabs (f (lo start) - f (mid start)) >= / 10 ^ 10 /\ 5 = f (mid start).
Proof.
  cbv zeta. unfold start, lo, mid, hi. destruct (Req_EM_T 1 2); [lra|]. destruct (Req_EM_T 3 2); [lra|]. destruct (Req_EM_T 2 2); [|lra].
  split; [reflexivity|]. split; [|reflexivity]. replace (0 - 5) with (- (5)) by ring. rewrite Rabs_Ropp, Rabs_right by lra.
  assert (/ 10 ^ 10 < 1) by (rewrite <- Rinv_1; apply Rinv_lt_contravar; lra). lra.
Qed.
Example C93_left_tie_ends_hyp : let f x := if Req_EM_T x (3 / 2) then -1 else 0 in ordered start /\ f (lo start) = f (hi start) /\ pass (total f) start = Next (Triple 1 ((1 + 2) / 2) 2).
Proof.
  cbv zeta. split; [apply start_ordered|]. split; unfold start, lo, mid, hi.
  - destruct (Req_EM_T 1 (3 / 2)); [lra|]. destruct (Req_EM_T 3 (3 / 2)); [lra|]. reflexivity.
  - unfold pass, total, gt, close, lo, mid, hi. cbv zeta. destruct (Req_EM_T 1 (3 / 2)); [lra|]. destruct (Req_EM_T 3 (3 / 2)); [lra|]. destruct (Req_EM_T 2 (3 / 2)); [lra|].
    destruct (Req_EM_T ((1 + 2) / 2) (3 / 2)); [|lra]. destruct (Rlt_dec 0 0); [lra|]. cbn [andb].
    replace (0 - 0) with 0 by ring. rewrite Rabs_R0. destruct (Rlt_dec 0 (/ 10 ^ 10)) as [H|H].
    + destruct (Rlt_dec (-1) 0); [reflexivity|lra].
    + exfalso. apply H. apply Rinv_0_lt_compat. apply pow_lt. lra.
Qed.
