From Coq Require Import Reals Lra.
From Verif Require Import Prelude Dom_Model Dom_Spec Dom_Proofs.
Open Scope R_scope.

(** ** C57: splitting at feature frequencies *)
(** the result is the integral between the smallest and the largest of all six points; with tails, over the whole line *)
Theorem C57_hull F peaks tails lower upper Fm Fp a b w1 w2 D mn mx : exact_on F peaks -> exact_on F tails -> exact_tails F Fm Fp lower upper ->
  is_min mn [a; w1 - D; w1 + D; w2 - D; w2 + D; b] -> is_max mx [a; w1 - D; w1 + D; w2 - D; w2 + D; b] ->
  integrator_features peaks tails lower upper a b w1 w2 D false = Some (F mx - F mn) /\
  integrator_features peaks tails lower upper a b w1 w2 D true = Some (Fp - Fm).
Proof.
  intros E1 E2 E3 Mn Mx. destruct (features_hull F peaks tails lower upper Fm Fp a b w1 w2 D E1 E2 E3) as (mn' & mx' & A & B & C & D').
  rewrite (min_unique _ _ _ Mn A), (max_unique _ _ _ Mx B). auto.
Qed.
Print Assumptions C57_hull.
Theorem C57_inside_partial F peaks tails lower upper a b w1 w2 D : exact_on F peaks -> exact_on F tails ->
  0 <= D -> a <= w1 - D -> w1 + D <= b -> a <= w2 - D -> w2 + D <= b ->
  integrator_features peaks tails lower upper a b w1 w2 D false = Some (F b - F a).
Proof.
  intros E1 E2 HD A1 A2 A3 A4. assert (X : exact_tails F 0 0 (fun x => F x - 0) (fun x => 0 - F x)) by (split; reflexivity).
  destruct (C57_hull F peaks tails _ _ 0 0 a b w1 w2 D a b E1 E2 X) as (H & _).
  - split; [left; reflexivity|]. intros x [<-|[<-|[<-|[<-|[<-|[<-|[]]]]]]]; lra.
  - split; [do 5 right; left; reflexivity|]. intros x [<-|[<-|[<-|[<-|[<-|[<-|[]]]]]]]; lra.
  - rewrite <- H. unfold integrator_features. destruct (sort _) as [|? [|? [|? [|? [|? [|? [|]]]]]]]; reflexivity.
Qed.
Print Assumptions C57_inside_partial.
Example C57_inside_hyp : exact_on (fun x => x) (fun a b => if Rlt_dec a b then b - a else 0) /\ 0 <= 1/4 /\ 0 <= 1/2 - 1/4 /\ 1/2 + 1/4 <= 1.
Proof. repeat split; try lra. Qed.
(** whatever sticks out is integrated as well: for every increasing primitive the result is too large *)
Theorem C57_outside_refuted F peaks tails lower upper a b w1 w2 D : exact_on F peaks -> exact_on F tails -> (forall x y, x < y -> F x < F y) ->
  a <= b -> (w1 - D < a \/ b < w1 + D \/ w2 - D < a \/ b < w2 + D) ->
  exists r, integrator_features peaks tails lower upper a b w1 w2 D false = Some r /\ F b - F a < r.
Proof.
  intros E1 E2 In Hab Out. assert (X : exact_tails F 0 0 (fun x => F x - 0) (fun x => 0 - F x)) by (split; reflexivity).
  destruct (features_hull F peaks tails _ _ 0 0 a b w1 w2 D E1 E2 X) as (mn & mx & (A1 & A2) & (B1 & B2) & C & _). exists (F mx - F mn). split.
  - rewrite <- C. unfold integrator_features. destruct (sort _) as [|? [|? [|? [|? [|? [|? [|]]]]]]]; reflexivity.
  - pose proof (A2 a ltac:(left; reflexivity)). pose proof (A2 (w1 - D) ltac:(right; left; reflexivity)). pose proof (A2 (w2 - D) ltac:(do 3 right; left; reflexivity)).
    pose proof (B2 b ltac:(do 5 right; left; reflexivity)). pose proof (B2 (w1 + D) ltac:(do 2 right; left; reflexivity)). pose proof (B2 (w2 + D) ltac:(do 4 right; left; reflexivity)).
    assert (M : mn < a \/ b < mx) by lra. assert (Le : forall x y, x <= y -> F x <= F y) by (intros x y [L| ->]; [pose proof (In x y L); lra|lra]).
    pose proof (Le mn a ltac:(lra)). pose proof (Le b mx ltac:(lra)). destruct M as [M|M]; apply In in M; lra.
Qed.
Print Assumptions C57_outside_refuted.
Example C57_outside_hyp : let I := fun a b => if Rlt_dec a b then b - a else 0 in exact_on (fun x => x) I /\ 0 <= 1 /\ 1 < 1 + 1/2 /\
  integrator_features I I (fun _ => 0) (fun _ => 0) 0 1 1 1 (1/2) false = Some (3/2).
Proof.
  cbv zeta. split; [intros a b; reflexivity|]. split; [lra|]. split; [lra|].
  destruct (C57_hull (fun x => x) (fun a b => if Rlt_dec a b then b - a else 0) (fun a b => if Rlt_dec a b then b - a else 0) (fun x => x - 0) (fun x => 0 - x) 0 0 0 1 1 1 (1/2) 0 (3/2)) as (H & _).
  - intros a b; reflexivity.
  - intros a b; reflexivity.
  - split; reflexivity.
  - split; [left; reflexivity|]. intros x [<-|[<-|[<-|[<-|[<-|[<-|[]]]]]]]; lra.
  - split; [right; right; left; lra|]. intros x [<-|[<-|[<-|[<-|[<-|[<-|[]]]]]]]; lra.
  - replace (3 / 2) with (3 / 2 - 0) by lra. rewrite <- H. unfold integrator_features. destruct (sort _) as [|? [|? [|? [|? [|? [|? [|]]]]]]]; reflexivity.
Qed.
(** the list version without any interval accesses memory before its vectors *)
Theorem C57_no_intervals_refuted peaks lower upper : integrator_list peaks lower upper [] true = None /\ integrator_list peaks lower upper [] false = Some 0.
Proof. split; reflexivity. Qed.
Print Assumptions C57_no_intervals_refuted.
(** the version for zero temperature fails when all split points coincide *)
Theorem C57_T0_degenerate_refuted peaks lower upper isinf n : integrator_Matsubara_T0 peaks lower upper 0 0 0 (repeat 0 n) isinf = None.
Proof.
  unfold integrator_Matsubara_T0. destruct (T0_closed 0 0 0 (repeat 0 n)) as (p & l & E & H). cbv zeta in H. rewrite H.
  set (wp := split_points 0 0 0 (repeat 0 n)) in *.
  assert (Z : forall x, In x (snd wp) -> x = 0).
  { unfold wp, split_points. cbn [snd]. intros x Hx. apply in_app_or in Hx. destruct Hx as [Hx|Hx].
    - destruct (Rlt_dec 0 tol); cbn [snd] in Hx; repeat (destruct Hx as [<-|Hx]; [ring|]); destruct Hx.
    - apply in_flat_map in Hx. destruct Hx as (f & F & Hx). apply repeat_spec in F. subst f. destruct Hx as [<-|[<-|[]]]; ring. }
  assert (Z' : forall x, In x (p :: l) -> x = 0).
  { intros x Hx. apply Z. rewrite <- E in Hx. apply (Permutation.Permutation_in _ (sort_perm (snd wp))). exact Hx. }
  assert (C : forall l p, (forall x, In x (p :: l) -> x = 0) -> closed (fst wp) p l = []).
  { clear. induction l as [|q l IH]; intros p H; [reflexivity|]. cbn [closed]. destruct (Req_EM_T p q) as [_|N]; [apply IH; intros x X; apply H; right; exact X|].
    exfalso. apply N. rewrite (H p), (H q) by (cbn; auto). reflexivity. }
  rewrite (C l p Z'). reflexivity.
Qed.
Print Assumptions C57_T0_degenerate_refuted.

(** ** C98: intervals for the Matsubara formalism at zero temperature *)
Section T0.
  Variable vmin vmax w_half : R.
  Variable freqs : list R.
  Let w := fst (split_points vmin vmax w_half freqs).
  Let pts := snd (split_points vmin vmax w_half freqs).
  (** which points split the line *)
  Theorem C98_points : forall x, In x pts <-> x = vmin \/ x = vmax \/ (exists f, In f freqs /\ (x = f \/ x = - f)) \/ (w_half < tol /\ x = 0) \/ (tol <= w_half /\ (x = w_half \/ x = - w_half)).
  Proof.
    intros x. unfold pts, split_points. cbn [snd]. rewrite in_app_iff, in_flat_map. split.
    - intros [H|(f & F & H)].
      + destruct (Rlt_dec w_half tol) as [L|L]; cbn [snd In] in H.
        * destruct H as [<-|[<-|[<-|[]]]]; [|tauto|tauto]. right. right. right. left. auto.
        * destruct H as [<-|[<-|[<-|[<-|[]]]]]; [| |tauto|tauto]; right; right; right; right; (split; [lra|auto]).
      + right. right. left. exists f. split; [exact F|]. destruct H as [<-|[<-|[]]]; [right; ring|left; ring].
    - intros [->|[->|[(f & F & [->| ->])|[(L & ->)|(L & [->| ->])]]]].
      + left. destruct (Rlt_dec w_half tol); cbn [snd In]; tauto.
      + left. destruct (Rlt_dec w_half tol); cbn [snd In]; tauto.
      + right. exists f. split; [exact F|]. right. left. ring.
      + right. exists f. split; [exact F|]. left. ring.
      + left. destruct (Rlt_dec w_half tol); [cbn [snd In]; tauto|lra].
      + left. destruct (Rlt_dec w_half tol); [lra|cbn [snd In]; tauto].
      + left. destruct (Rlt_dec w_half tol); [lra|cbn [snd In]; tauto].
  Qed.
  (** defined as soon as two points differ *)
  Theorem C98_defined x y : In x pts -> In y pts -> x <> y -> exists c, intervals_T0 vmin vmax w_half freqs = Some c.
  Proof.
    intros X Y N. destruct (T0_closed vmin vmax w_half freqs) as (p & l & E & H). cbv zeta in E, H. fold pts in E. fold w in H. rewrite H.
    pose proof (sort_sorted pts) as S. rewrite E in S. destruct (closed w p l) eqn:C; [|eexists; reflexivity].
    apply closed_empty in C; [|exact S]. destruct (sort_min _ _ _ E) as (_ & Mn). destruct (sort_max _ _ _ E) as (_ & Mx). exfalso. apply N.
    pose proof (Mn x X). pose proof (Mn y Y). pose proof (Mx x X). pose proof (Mx y Y). lra.
  Qed.
  Section Result.
    Variable c : list (R * R).
    Hypothesis C : intervals_T0 vmin vmax w_half freqs = Some c.
    Lemma T0_some : exists p l, sort pts = p :: l /\ c = closed w p l /\ c <> [] /\ sorted_from p l.
    Proof.
      destruct (T0_closed vmin vmax w_half freqs) as (p & l & E & H). cbv zeta in E, H. fold pts in E. fold w in H. rewrite C in H. exists p, l. split; [exact E|].
      pose proof (sort_sorted pts) as S. rewrite E in S. destruct (closed w p l) eqn:Cl; [discriminate|]. injection H as ->. repeat split; [discriminate|exact S].
    Qed.
    (** each interval goes from one point to the next, without the surroundings of +-w *)
    Theorem C98_neighbours lo hi : In (lo, hi) c -> exists x y, In x pts /\ In y pts /\ x < y /\ (forall z, In z pts -> z <= x \/ y <= z) /\
      lo = x + (if Rlt_dec (Rabs (Rabs x - w)) tol then tol else 0) /\ hi = y - (if Rlt_dec (Rabs (Rabs y - w)) tol then tol else 0).
    Proof.
      intros H. destruct T0_some as (p & l & E & -> & _ & S). destruct (closed_in w l p lo hi S H) as (x & y & X & Y & L & A & B & D).
      assert (P : forall z, In z (p :: l) <-> In z pts) by (intros z; rewrite <- E; split; apply Permutation.Permutation_in; [|apply Permutation.Permutation_sym]; apply sort_perm).
      exists x, y. split; [apply P; exact X|]. split; [apply P; exact Y|]. split; [exact L|]. split; [intros z Z; apply D; apply P; exact Z|].
      rewrite A, B. unfold delta, near. split; [destruct (Rlt_dec (Rabs (Rabs x - w)) tol); reflexivity|destruct (Rlt_dec (Rabs (Rabs y - w)) tol); reflexivity].
    Qed.
    (** in increasing order without overlap *)
    Theorem C98_ordered x : is_min x pts -> ordered_from x c.
    Proof.
      intros Mn. destruct T0_some as (p & l & E & -> & _ & S). apply closed_ordered; [exact S|]. rewrite (min_unique _ _ _ Mn (sort_min _ _ _ E)). lra.
    Qed.
    (** nothing is left out except the surroundings of +-w *)
    Theorem C98_covers mn mx x : is_min mn pts -> is_max mx pts -> mn <= x <= mx -> (forall y, In y pts -> Rabs (Rabs y - w) < tol -> tol < Rabs (x - y)) ->
      exists lo hi, In (lo, hi) c /\ lo <= x <= hi.
    Proof.
      intros Mn Mx X G. destruct T0_some as (p & l & E & Cl & Ne & S).
      rewrite (min_unique _ _ _ Mn (sort_min _ _ _ E)), (max_unique _ _ _ Mx (sort_max _ _ _ E)) in X. rewrite Cl. apply closed_covers; [exact S| |exact X|].
      - destruct (Rlt_dec p (last l p)) as [|N]; [assumption|]. exfalso. apply Ne. rewrite Cl. clear - N S. revert p S N. induction l as [|q l IH]; intros p S N; [reflexivity|].
        cbn [closed]. destruct S as (S1 & S2). rewrite last_cons in N. pose proof (sorted_last l q q S2 (or_introl eq_refl)). destruct (Req_EM_T p q) as [->|D]; [apply IH; assumption|lra].
      - intros y Y Nr. apply G; [rewrite <- E in Y; apply (Permutation.Permutation_in _ (sort_perm pts)); exact Y|]. unfold near in Nr. destruct (Rlt_dec _ _); [assumption|discriminate].
    Qed.
  End Result.
  (** error of the integral *)
  Theorem C98_integral F peaks lower upper Fm Fp M mn mx x y : exact_on F peaks -> exact_tails F Fm Fp lower upper -> lipschitz_with F M -> 0 <= M ->
    is_min mn pts -> is_max mx pts -> In x pts -> In y pts -> x <> y ->
    let k := INR (3 + 2 * length freqs) in
    (exists r, integrator_Matsubara_T0 peaks lower upper vmin vmax w_half freqs false = Some r /\ Rabs (r - (F mx - F mn)) <= 2 * tol * M * k) /\
    (exists r, integrator_Matsubara_T0 peaks lower upper vmin vmax w_half freqs true = Some r /\ Rabs (r - (Fp - Fm)) <= 2 * tol * M * (k + 1)).
  Proof.
    intros E (T1 & T2) Lp HM Mn Mx X Y Nxy k. destruct (C98_defined x y X Y Nxy) as (c & C). destruct (T0_some c C) as (p & l & Es & Cl & Ne & S).
    rewrite (min_unique _ _ _ Mn (sort_min _ _ _ Es)), (max_unique _ _ _ Mx (sort_max _ _ _ Es)).
    pose proof (closed_error F peaks M w E Lp HM l p S) as Er. destruct (closed_ends w l p c S (eq_sym Cl) Ne) as ((hi & r1 & H1) & lo & r2 & H2).
    assert (Len : (length (closed w p l) <= 3 + 2 * length freqs)%nat).
    { eapply Nat.le_trans; [apply closed_length|]. pose proof (Permutation.Permutation_length (sort_perm pts)) as L. rewrite Es in L. unfold pts, split_points in L. cbn [snd length] in L.
      rewrite app_length in L. assert (FL : length (flat_map (fun f => [-1 * f; 1 * f]) freqs) = (2 * length freqs)%nat) by (clear; induction freqs as [|f r IH]; cbn in *; lia).
      rewrite FL in L. destruct (Rlt_dec w_half tol); cbn in L; lia. }
    apply le_INR in Len. fold k in Len. rewrite <- Cl in Er, Len. pose proof tol_pos as TP.
    assert (TM : 0 <= 2 * tol * M) by (apply Rmult_le_pos; lra). assert (B : 2 * tol * M * INR (length c) <= 2 * tol * M * k) by (apply Rmult_le_compat_l; assumption).
    unfold integrator_Matsubara_T0. rewrite C. cbn [obind]. split.
    - exists (fold_right Rplus 0 (map (part peaks) c)). split; [reflexivity|]. lra.
    - destruct c as [|c0 c]; [contradiction|]. unfold integrator_list. cbn [map]. rewrite H2. injection H1 as H1 H3. rewrite H1. cbn [fst snd]. eexists. split; [reflexivity|]. cbn [fold_right].
      rewrite T1, T2. set (z := last l p) in *. pose proof (delta_range w p). pose proof (delta_range w z).
      pose proof (Lp (p + delta w p) p) as A. pose proof (Lp z (z - delta w z)) as D.
      replace (p + delta w p - p) with (delta w p) in A by ring. replace (z - (z - delta w z)) with (delta w z) in D by ring.
      rewrite (Rabs_right (delta w p)) in A by lra. rewrite (Rabs_right (delta w z)) in D by lra.
      assert (M * delta w p <= M * tol) by (apply Rmult_le_compat_l; lra). assert (M * delta w z <= M * tol) by (apply Rmult_le_compat_l; lra).
      rewrite H1 in B. cbn [map fold_right] in Er. rewrite H1 in Er. change (if Rlt_dec (p + delta w p) hi then peaks (p + delta w p) hi else 0) with (part peaks (p + delta w p, hi)).
      set (s := fold_right Rplus 0 (map (part peaks) c)) in *.
      change (fun p0 : R * R => if Rlt_dec (fst p0) (snd p0) then peaks (fst p0) (snd p0) else 0) with (part peaks). fold s.
      set (h := part peaks (p + delta w p, hi)) in *.
      replace (h + (F (p + delta w p) - Fm) + (Fp - F (z - delta w z)) + s - (Fp - Fm)) with
        ((h + s - (F z - F p)) + ((F (p + delta w p) - F p) + (F z - F (z - delta w z)))) by ring.
      eapply Rle_trans; [apply Rabs_triang|]. assert (G := Rabs_triang (F (p + delta w p) - F p) (F z - F (z - delta w z))). lra.
  Qed.
End T0.
Print Assumptions C98_points.
Print Assumptions C98_defined.
Print Assumptions C98_neighbours.
Print Assumptions C98_ordered.
Print Assumptions C98_covers.
Print Assumptions C98_integral.
Example C98_hyp : let pts := snd (split_points (-1) 1 0 []) in is_min (-1) pts /\ is_max 1 pts /\ In (-1) pts /\ In 1 pts /\ -1 <> 1 /\ lipschitz_with (fun x => 3 * x) 3 /\
  intervals_T0 (-1) 1 0 [] = Some [(-1, 0 - tol); (0 + tol, 1)].
Proof.
  cbv zeta. unfold split_points. destruct (Rlt_dec 0 tol) as [_|N]; [|pose proof tol_pos; contradiction]. cbn [fst snd flat_map app].
  assert (T : tol < 1) by (unfold tol; rewrite <- Rinv_1; apply Rinv_lt_contravar; [rewrite Rmult_1_l; apply pow_lt; lra|apply Rlt_pow_R1; [lra|lia]]).
  split; [split; [cbn; tauto|intros x [<-|[<-|[<-|[]]]]; lra]|]. split; [split; [cbn; tauto|intros x [<-|[<-|[<-|[]]]]; lra]|]. split; [cbn; tauto|]. split; [cbn; tauto|]. split; [lra|]. split.
  { intros x y. replace (3 * x - 3 * y) with (3 * (x - y)) by ring. rewrite Rabs_mult, (Rabs_right 3) by lra. lra. }
  unfold intervals_T0, split_points. destruct (Rlt_dec 0 tol) as [_|N]; [|pose proof tol_pos; contradiction]. cbn [fst snd flat_map app sort fold_right insert].
  destruct (Rle_dec (-1) 1) as [_|N]; [|lra]. cbn [insert]. destruct (Rle_dec 0 (-1)) as [N|_]; [lra|]. cbn [insert]. destruct (Rle_dec 0 1) as [_|N]; [|lra].
  unfold intervals_from, add_interval, near. destruct (Req_EM_T (-1) 0) as [N|_]; [lra|]. destruct (Req_EM_T 0 1) as [N|_]; [lra|].
  destruct (Rlt_dec (Rabs (Rabs (-1) - 0)) tol) as [N|_]; [rewrite (Rabs_left (-1)) in N by lra; rewrite Rabs_right in N by lra; lra|].
  destruct (Rlt_dec (Rabs (Rabs 0 - 0)) tol) as [_|N]; [|exfalso; apply N; rewrite Rabs_R0, Rminus_0_r, Rabs_R0; apply tol_pos].
  destruct (Rlt_dec (Rabs (Rabs 1 - 0)) tol) as [N|_]; [rewrite (Rabs_right 1) in N by lra; rewrite Rabs_right in N by lra; lra|]. reflexivity.
Qed.

(** ** C99: sums over Matsubara frequencies *)
Theorem C99_sum f Nmin Nmax : (Nmin - 1 <= Nmax)%Z -> matsubarasum f Nmin Nmax = Some (sum_to (fun n => f (2 * n + 1)%Z) Nmin (Z.to_nat (Nmax - Nmin + 1))).
Proof.
  intros H. unfold matsubarasum. destruct (Z.ltb_spec (Nmax - Nmin + 1) 0); [lia|]. rewrite sum_fold. cbn [Z.of_nat]. rewrite Z.add_0_r, Rplus_0_l. f_equal.
  generalize (Z.to_nat (Nmax - Nmin + 1)) as n. intros n. rewrite !sum_to_below. apply sum_below_ext. intros k _. f_equal. lia.
Qed.
Print Assumptions C99_sum.
Theorem C99_additive f Nmin N Nmax a b : (Nmin - 1 <= N)%Z -> (N <= Nmax)%Z -> matsubarasum f Nmin N = Some a -> matsubarasum f (N + 1) Nmax = Some b ->
  matsubarasum f Nmin Nmax = Some (a + b).
Proof.
  intros H1 H2 A B. rewrite C99_sum in A, B by lia. injection A as <-. injection B as <-. rewrite C99_sum by lia. f_equal.
  replace (Z.to_nat (Nmax - Nmin + 1)) with (Z.to_nat (N - Nmin + 1) + Z.to_nat (Nmax - (N + 1) + 1))%nat by lia. rewrite sum_to_app. do 2 f_equal. lia.
Qed.
Print Assumptions C99_additive.
Theorem C99_negative_count f Nmin Nmax : (Nmax < Nmin - 1)%Z -> matsubarasum f Nmin Nmax = None.
Proof. intros H. unfold matsubarasum. destruct (Z.ltb_spec (Nmax - Nmin + 1) 0); [reflexivity|lia]. Qed.
Print Assumptions C99_negative_count.
Theorem C99_vectorised ns Pi left right Nv Mv Nmin Nmax Np Mp i j : (i < Z.to_nat (Mv - Nv + 1))%nat -> (j < Z.to_nat (Mp - Np + 1))%nat ->
  matsubarasum_vectorized ns Pi left right Nv Mv Nmin Nmax Np Mp i j =
  Some (sum_to (fun n => sum_below (fun s => left (2 * (Nv + Z.of_nat i) + 1)%Z (2 * n + 1)%Z s * Pi (2 * n + 1)%Z s * right (2 * n + 1)%Z (2 * (Np + Z.of_nat j) + 1)%Z s) ns) Nmin (Z.to_nat (Nmax - Nmin + 1))).
Proof.
  intros Hi Hj. unfold matsubarasum_vectorized. cbv zeta. set (K := Z.to_nat (Nmax - Nmin + 1)).
  set (g := fun n s => left ((Nv + Z.of_nat i) * 2 + 1)%Z ((Nmin + Z.of_nat n) * 2 + 1)%Z s * Pi ((Nmin + Z.of_nat n) * 2 + 1)%Z s * right ((Nmin + Z.of_nat n) * 2 + 1)%Z ((Np + Z.of_nat j) * 2 + 1)%Z s).
  rewrite (osequence_some _ (fun k => g (k / ns)%nat (k mod ns)%nat)).
  - cbn [obind]. f_equal. rewrite sum_seq, sum_blocks, sum_to_below. apply sum_below_ext. intros n _. apply sum_below_ext. intros s _. unfold g.
    replace ((Nv + Z.of_nat i) * 2 + 1)%Z with (2 * (Nv + Z.of_nat i) + 1)%Z by lia. replace ((Nmin + Z.of_nat n) * 2 + 1)%Z with (2 * (Nmin + Z.of_nat n) + 1)%Z by lia.
    replace ((Np + Z.of_nat j) * 2 + 1)%Z with (2 * (Np + Z.of_nat j) + 1)%Z by lia. reflexivity.
  - intros k Hk. apply in_seq in Hk. rewrite left_at, Pi_at, right_at by (fold K; lia). apply Nat.ltb_lt in Hi, Hj. rewrite Hi, Hj. reflexivity.
Qed.
Print Assumptions C99_vectorised.
(** the vectorised result is the scalar sum over the same integrand *)
Theorem C99_agree ns Pi left right Nv Mv Nmin Nmax Np Mp i j : (Nmin - 1 <= Nmax)%Z -> (i < Z.to_nat (Mv - Nv + 1))%nat -> (j < Z.to_nat (Mp - Np + 1))%nat ->
  matsubarasum_vectorized ns Pi left right Nv Mv Nmin Nmax Np Mp i j =
  matsubarasum (fun v => sum_below (fun s => left (2 * (Nv + Z.of_nat i) + 1)%Z v s * Pi v s * right v (2 * (Np + Z.of_nat j) + 1)%Z s) ns) Nmin Nmax.
Proof. intros H Hi Hj. rewrite C99_vectorised, C99_sum by assumption. reflexivity. Qed.
Print Assumptions C99_agree.
Example C99_hyp : (-2 - 1 <= 1)%Z /\ matsubarasum IZR (-2) 1 = Some 0 /\ matsubarasum IZR 0 2 = Some 9 /\ (1 < Z.to_nat (1 - -2 + 1))%nat.
Proof. split; [lia|]. split; [|split; [|lia]]; (unfold matsubarasum; cbv - [IZR Rplus]; f_equal; lra). Qed.
