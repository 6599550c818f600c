(** Proofs about the adaptive Simpson rule. *)
From Coq Require Import QArith Qfield Lqa Setoid Morphisms.
From Verif Require Import Prelude Cplx Osi_Model Osi_Spec Osi_Proofs.
Open Scope Z_scope.
Local Arguments inject_Z : simpl never.
Local Arguments Cscale : simpl never.
Local Opaque simpson_rule_3 abs_quot_lt.

Section F.
Variable f : Q -> cplx.
Hypothesis fm : respects f.
Variable width : Q.

Lemma rule_m v0 v0' v1 v1' v2 v2' h h' :
  (v0 == v0')%C -> (v1 == v1')%C -> (v2 == v2')%C -> (h == h')%Q ->
  (simpson_rule_3 v0 v1 v2 h == simpson_rule_3 v0' v1' v2' h')%C.
Proof. intros A B C D. Local Transparent simpson_rule_3. unfold simpson_rule_3. rewrite A, B, C, D. reflexivity. Qed.
Lemma rule_panel p0 p1 p2 h : (p1 == p0 + h)%Q -> (p2 == p0 + 2 * h)%Q ->
  (simpson_rule_3 (f p0) (f p1) (f p2) h == panel f p0 p2)%C.
Proof.
  intros E1 E2. unfold simpson_rule_3, panel.
  rewrite (fm ((p0 + p2) / 2)%Q p1) by (rewrite E1, E2; field).
  assert (W : ((p2 - p0) / 6 == h / 3)%Q) by (rewrite E2; field).
  rewrite W. reflexivity.
Qed.
Local Opaque simpson_rule_3.

(** the sub-intervals: equal halves, values of the integrand, Simpson's result; those that are
    split in iteration [it] have the half width [dx]; all are dyadic *)
Fixpoint tiles (it : Z) (dx p0 : Q) (v0 : cplx) (points : list Q) (values result : list cplx)
    (conv : list bool) {struct result} : Prop :=
  match result, points, values, conv with
  | [], [], [], [] => (v0 == f p0)%C
  | r :: result', p1 :: p2 :: points', v1 :: v2 :: values', c :: conv' =>
      (v0 == f p0)%C /\
      (exists h, (p1 == p0 + h)%Q /\ (p2 == p0 + 2 * h)%Q /\ (v1 == f p1)%C
         /\ (r == simpson_rule_3 (f p0) (f p1) (f p2) h)%C
         /\ (c && (3 <? it) = false -> (h == dx)%Q)
         /\ exists k : nat, (2 * h == width / inject_Z (2 ^ Z.of_nat k))%Q)
      /\ tiles it dx p2 v2 points' values' result' conv'
  | _, _, _, _ => False
  end.

(** every second point *)
Fixpoint breaks (points : list Q) : list Q :=
  match points with
  | _ :: p2 :: r => p2 :: breaks r
  | _ => []
  end.

Lemma pow2_pos k : ~ (inject_Z (2 ^ Z.of_nat k) == 0)%Q.
Proof. apply inject_pos. apply Z.pow_pos_nonneg; lia. Qed.
Lemma half_width w k : (w / inject_Z (2 ^ Z.of_nat k) / 2 == w / inject_Z (2 ^ Z.of_nat (S k)))%Q.
Proof.
  replace (2 ^ Z.of_nat (S k)) with (2 ^ Z.of_nat k * 2).
  - rewrite inject_Z_mult. change (inject_Z 2) with 2%Q. field. apply pow2_pos.
  - replace (Z.of_nat (S k)) with (Z.of_nat k + 1) by lia. rewrite Z.pow_add_r by lia. reflexivity.
Qed.

Lemma tiles_lengths it dx : forall result p0 v0 points values conv,
  tiles it dx p0 v0 points values result conv ->
  length points = (2 * length result)%nat /\ length conv = length result.
Proof.
  induction result as [|r result IH]; intros p0 v0 points values conv T.
  - destruct points, values, conv; cbn in T; try contradiction. split; reflexivity.
  - destruct points as [|p1 [|p2 points]]; try contradiction.
    destruct values as [|v1 [|v2 values]]; try contradiction.
    destruct conv as [|c conv]; try contradiction.
    cbn [tiles] in T. destruct T as [_ [_ T]]. apply IH in T. cbn [length]. lia.
Qed.

Lemma split_ok it dx : forall result p0 v0 points values conv,
  tiles it dx p0 v0 points values result conv ->
  exists next ev, split_loop f it (dx / 2) p0 v0 points values result conv = Some (next, ev)
  /\ tiles (it + 1) (dx / 2) p0 v0 (l_points next) (l_values next) (l_result next) (l_conv next)
  /\ Z.of_nat (length (l_points next)) = Z.of_nat (length points) + ev
  /\ 0 <= ev <= Z.of_nat (length points)
  /\ (forallb (fun c => c) conv = false -> 2 <= ev).
Proof.
  induction result as [|r result IH]; intros p0 v0 points values conv T.
  - destruct points, values, conv; cbn in T; try contradiction.
    exists (mkLists [] [] [] []), 0. cbn [split_loop l_points l_values l_result l_conv tiles length forallb].
    split; [reflexivity|]. split; [exact T|]. split; [reflexivity|]. split; [lia|]. discriminate.
  - destruct points as [|p1 [|p2 points]]; try contradiction.
    destruct values as [|v1 [|v2 values]]; try contradiction.
    destruct conv as [|c conv]; try contradiction.
    cbn [tiles] in T. destruct T as [V0 [[h [E1 [E2 [V1 [R [D [k K]]]]]]] T]].
    assert (V2 : (v2 == f p2)%C).
    { clear - T. destruct result, points as [|? [|? ?]], values as [|? [|? ?]], conv; cbn in T; try contradiction; tauto. }
    destruct (IH _ _ _ _ _ T) as [next [ev [E [TN [LP [EV NC]]]]]].
    cbn [split_loop]. rewrite E. cbn [obind].
    destruct (c && (3 <? it)) eqn:F.
    + eexists _, ev. split; [reflexivity|].
      unfold push4. cbn [l_points l_values l_result l_conv app tiles length forallb].
      apply andb_true_iff in F. destruct F as [-> F]. apply Z.ltb_lt in F.
      split; [|split; [lia|split; [lia|]]].
      * split; [exact V0|]. split; [|exact TN].
        exists h. repeat (split; [assumption|]). split; [|exists k; exact K].
        intros X. apply andb_false_iff in X. destruct X as [X|X]; [discriminate|].
        apply Z.ltb_ge in X. lia.
      * cbn [andb]. exact NC.
    + specialize (D eq_refl).
      eexists _, (ev + 2). split; [reflexivity|].
      unfold push4. cbn [l_points l_values l_result l_conv app tiles length forallb].
      set (ok := abs_quot_lt _ _ _).
      split; [|split; [lia|split; [lia|intros; lia]]].
      assert (EA : (p0 + dx / 2 == p0 + h / 2)%Q) by (rewrite D; reflexivity).
      assert (EB : (p1 + dx / 2 == p1 + h / 2)%Q) by (rewrite D; reflexivity).
      assert (KK : exists k0 : nat, (2 * (h / 2) == width / inject_Z (2 ^ Z.of_nat k0))%Q).
      { exists (S k). rewrite <- half_width, <- K. field. }
      assert (HD : (h / 2 == dx / 2)%Q) by (rewrite D; reflexivity).
      split; [exact V0|]. split; [|split; [exact V1|split; [|exact TN]]].
      * exists (h / 2)%Q. split; [exact EA|]. split; [rewrite E1; field|].
        split; [reflexivity|]. split; [|split; [intros _; exact HD|exact KK]].
        apply rule_m; [exact V0|reflexivity|exact V1|symmetry; exact HD].
      * exists (h / 2)%Q. split; [exact EB|]. split; [rewrite E2, E1; field|].
        split; [reflexivity|]. split; [|split; [intros _; exact HD|exact KK]].
        apply rule_m; [exact V1|reflexivity|exact V2|symmetry; exact HD].
Qed.

Lemma fold_Cadd l : forall c, (fold_left Cadd l c == c + fold_left Cadd l C0)%C.
Proof.
  induction l as [|x l IH]; intros c; cbn [fold_left]; [ring|].
  rewrite IH, (IH (C0 + x)%C). ring.
Qed.
Lemma tiles_composite it dx b : forall result p0 v0 points values conv,
  tiles it dx p0 v0 points values result conv -> (last (p0 :: points) p0 == b)%Q ->
  (accumulate result == composite f p0 (breaks points))%C /\ dyadic_chain width p0 b (breaks points).
Proof.
  unfold accumulate.
  induction result as [|r result IH]; intros p0 v0 points values conv T L.
  - destruct points, values, conv; cbn in T; try contradiction. cbn in *. split; [reflexivity|exact L].
  - destruct points as [|p1 [|p2 points]]; try contradiction.
    destruct values as [|v1 [|v2 values]]; try contradiction.
    destruct conv as [|c conv]; try contradiction.
    cbn [tiles] in T. destruct T as [V0 [[h [E1 [E2 [V1 [R [D [k K]]]]]]] T]].
    cbn [breaks composite dyadic_chain fold_left].
    change (last (p0 :: p1 :: p2 :: points) p0) with (last (p2 :: points) p0) in L.
    rewrite (last_cons_ind points p2 p0 p2) in L.
    destruct (IH _ _ _ _ _ T L) as [A B].
    split.
    + rewrite fold_Cadd, A, R, (rule_panel p0 p1 p2 h E1 E2). ring.
    + split; [|exact B]. exists k. rewrite <- K, E2. ring.
Qed.

(** the end point is kept *)
Lemma tiles_last it dx it' dx' b : forall result p0 v0 points values conv next ev,
  split_loop f it (dx / 2) p0 v0 points values result conv = Some (next, ev) ->
  tiles it' dx' p0 v0 points values result conv ->
  (last (p0 :: points) p0 == b)%Q -> (last (p0 :: l_points next) p0 == b)%Q.
Proof.
  induction result as [|r result IH]; intros p0 v0 points values conv next ev E T L.
  - destruct points, values, conv; cbn in T; try contradiction.
    cbn [split_loop] in E. injection E as <- <-. exact L.
  - destruct points as [|p1 [|p2 points]]; try contradiction.
    destruct values as [|v1 [|v2 values]]; try contradiction.
    destruct conv as [|c conv]; try contradiction.
    cbn [tiles] in T. destruct T as [_ [_ T]].
    change (last (p0 :: p1 :: p2 :: points) p0) with (last (p2 :: points) p0) in L.
    rewrite (last_cons_ind points p2 p0 p2) in L.
    cbn [split_loop] in E.
    destruct (split_loop f it (dx / 2) p2 v2 points values result conv) as [[nx e]|] eqn:EQ; [|discriminate].
    cbn [obind] in E. specialize (IH _ _ _ _ _ _ _ EQ T L).
    destruct (c && (3 <? it)); injection E as <- _; unfold push4; cbn [l_points app].
    + change (last (p0 :: p1 :: p2 :: l_points nx) p0) with (last (p2 :: l_points nx) p0).
      rewrite (last_cons_ind _ p2 p0 p2). exact IH.
    + change (last (p0 :: (p0 + dx / 2)%Q :: p1 :: (p1 + dx / 2)%Q :: p2 :: l_points nx) p0) with (last (p2 :: l_points nx) p0).
      rewrite (last_cons_ind _ p2 p0 p2). exact IH.
Qed.

Definition good (a b : Q) (Nmax : Z) (o : outcome) : Prop :=
  o_evals o = Z.of_nat (length (l_points (o_lists o)))
  /\ o_evals o <= 2 * Z.max 3 Nmax - 1
  /\ exists xs, dyadic_chain width a b xs /\ (o_res o == composite f a xs)%C.

Lemma loop_good a b Nmax : forall fuel it dx res ps v0 vs rs cs,
  tiles it dx a v0 ps vs rs cs -> (last (a :: ps) a == b)%Q ->
  forallb (fun c => c) cs = false ->
  1 + Z.of_nat (length ps) <= Z.max 3 Nmax ->
  (1 <= fuel)%nat -> Nmax < 1 + Z.of_nat (length ps) + 2 * Z.of_nat fuel ->
  exists o, adaptive_loop f fuel Nmax it dx res (mkLists (a :: ps) (v0 :: vs) rs cs) (1 + Z.of_nat (length ps)) = Some (Some o)
  /\ good a b Nmax o.
Proof.
  induction fuel as [|fuel IH]; intros it dx res ps v0 vs rs cs T L NC LM F1 F2; [lia|].
  cbn [adaptive_loop l_points l_values l_result l_conv].
  destruct (split_ok it dx _ _ _ _ _ _ T) as [next [ev [E [TN [LP [EV N2]]]]]].
  rewrite E. cbn [obind]. specialize (N2 NC).
  pose proof (tiles_last it dx it dx b _ _ _ _ _ _ _ _ E T L) as LN.
  destruct (tiles_composite _ _ b _ _ _ _ _ _ TN LN) as [AC DY].
  set (nx := push4 next [a] [v0] [] []).
  assert (GD : forall st, good a b Nmax (mkOutcome (accumulate (l_result nx)) nx (it + 1) (1 + Z.of_nat (length ps) + ev) st)).
  { intros st. unfold good, nx, push4. cbn [o_evals o_lists o_res l_points l_result app length].
    split; [lia|]. split; [lia|]. exists (breaks (l_points next)). split; [exact DY|exact AC]. }
  destruct (abs_quot_lt (Csub res (accumulate (l_result nx))) res total_accuracy).
  { eexists. split; [reflexivity|apply GD]. }
  destruct (forallb (fun c => c) (l_conv nx)) eqn:ALL.
  { eexists. split; [reflexivity|apply GD]. }
  destruct (Z.ltb_spec Nmax (Z.of_nat (length (l_points nx)))) as [X|X].
  { eexists. split; [reflexivity|apply GD]. }
  unfold nx, push4 in *. cbn [l_points l_values l_result l_conv app length] in *.
  replace (1 + Z.of_nat (length ps) + ev) with (1 + Z.of_nat (length (l_points next))) by lia.
  apply IH; try assumption; lia.
Qed.
End F.

Lemma adaptive_good f a b Nmax fuel : respects f -> (1 <= fuel)%nat -> Nmax < 3 + 2 * Z.of_nat fuel ->
  exists o, adaptive_simpson f fuel a b Nmax = Some (Some o)
  /\ o_evals o = Z.of_nat (length (l_points (o_lists o)))
  /\ o_evals o <= 2 * Z.max 3 Nmax - 1
  /\ exists xs, dyadic_chain (b - a) a b xs /\ (o_res o == composite f a xs)%C.
Proof.
  intros fm F1 F2. unfold adaptive_simpson.
  set (dx := ((b - a) / 2)%Q). cbv zeta. cbn [map].
  set (r := simpson_rule_3 _ _ _ _).
  destruct (loop_good f fm (b - a) (a + 0 * dx)%Q b Nmax fuel 0 dx r
    [(a + 1 * dx)%Q; (a + 2 * dx)%Q] (f (a + 0 * dx)%Q) [f (a + 1 * dx)%Q; f (a + 2 * dx)%Q] [r] [false])
    as [o [E [G1 [G2 [xs [G3 G4]]]]]].
  - cbn [tiles]. split; [reflexivity|]. split; [|reflexivity].
    exists dx. split; [ring|]. split; [ring|]. split; [reflexivity|]. split; [reflexivity|].
    split; [intros; reflexivity|]. exists 0%nat. change (inject_Z (2 ^ Z.of_nat 0)) with 1%Q. unfold dx. field.
  - cbn [last]. unfold dx. field.
  - reflexivity.
  - cbn [length]. lia.
  - exact F1.
  - cbn [length]. lia.
  - cbn [length] in E. exists o. split; [exact E|]. split; [exact G1|]. split; [exact G2|].
    assert (EA : (a + 0 * dx == a)%Q) by ring.
    exists xs. split.
    + clear - G3 EA. destruct xs as [|x xs]; cbn [dyadic_chain] in *.
      * rewrite <- EA. exact G3.
      * destruct G3 as [[k K] G3]. split; [|exact G3]. exists k. rewrite <- K, EA. reflexivity.
    + rewrite G4. apply composite_m; assumption.
Qed.

Lemma dyadic_last w b xs : forall l, dyadic_chain w l b xs -> (last xs l == b)%Q.
Proof.
  induction xs as [|r xs IH]; intros l D; cbn [dyadic_chain] in D; [exact D|].
  rewrite last_cons. apply IH. apply D.
Qed.
