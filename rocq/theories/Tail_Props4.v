(** C113, C114: tails in the Keldysh formalism. *)
From Coq Require Import Reals Lra Lia.
From Verif Require Import Prelude Gf_Model Gf_Spec Tail_Model Tail_Spec Tail_Proofs Tail_Proofs2 Tail_Proofs3 Tail_Props Tail_Props2 Tail_Props3.
Open Scope R_scope.

(** Spec: retarded ([s] = 1) and advanced ([s] = -1) propagator of a level at [eps], and their products in the bubbles *)
Definition gfree (s eps Delta v : R) : comp := cinv (v - eps, s * Delta).
Definition kbubble_at (s1 s2 eps Delta w v : R) : comp := cmul (gfree s1 eps Delta (v - w / 2)) (gfree s2 eps Delta (v + w / 2)).
Definition kbubble_p (s1 s2 eps Delta w v : R) : comp := cmul (gfree s1 eps Delta (w / 2 + v)) (gfree s2 eps Delta (w / 2 - v)).

Lemma cinv_prod (x y : comp) : fst x <> 0 -> fst y <> 0 -> cmul (cinv x) (cinv y) = cinv (cmul x y).
Proof.
  intros Hx Hy. pose proof (Rsqr_pos_lt _ Hx) as A. pose proof (Rsqr_pos_lt _ Hy) as B. unfold Rsqr in A, B.
  apply ceq; unfold cinv; rewrite norm_mul; unfold cmul; cbn [fst snd]; unfold norm; field; split; nra.
Qed.
Lemma cinv_prod_opp (x y : comp) : fst x <> 0 -> fst y <> 0 -> cmul (cinv (copp x)) (cinv (copp y)) = cinv (cmul x y).
Proof.
  intros Hx Hy. rewrite cinv_prod; [|unfold copp; cbn [fst]; lra|unfold copp; cbn [fst]; lra]. f_equal. apply ceq; unfold cmul, copp; cbn [fst snd]; ring.
Qed.
Lemma cinv_prod_half (x y : comp) : fst x <> 0 -> fst y <> 0 -> cmul (cinv x) (cinv (copp y)) = copp (cinv (cmul x y)).
Proof.
  intros Hx Hy. rewrite cinv_prod; [|assumption|unfold copp; cbn [fst]; lra]. pose proof (Rsqr_pos_lt _ Hx) as A. pose proof (Rsqr_pos_lt _ Hy) as B. unfold Rsqr in A, B.
  apply ceq; unfold cinv; rewrite !norm_mul; unfold cmul, copp; cbn [fst snd]; unfold norm; cbn [fst snd]; field; split; nra.
Qed.
Lemma abs_bounds e : - Rabs e <= e <= Rabs e.
Proof. unfold Rabs. destruct (Rcase_abs e); lra. Qed.

(** both logarithms of a bubble as one *)
Lemma pair_log (k za zb zc zd : comp) : 0 < fst za -> 0 < fst zb -> 0 < fst zc -> 0 < fst zd -> - PI < carg za + carg zb - (carg zc + carg zd) <= PI ->
  cmul (cdiv (rc 1) k) (clog (cdiv (cmul za zb) (cmul zc zd))) = cadd (cdiv (csub (clog za) (clog zc)) k) (cdiv (csub (clog zb) (clog zd)) k).
Proof.
  intros A B C D H. rewrite clog_quot4 by assumption. unfold cdiv. set (i := cinv k). apply ceq; unfold cmul, cadd, csub, rc; cbn [fst snd]; ring.
Qed.
Lemma ctail_two a b V (f : R -> comp) : norm (csub a b) <> 0 -> 0 < V + fst a -> 0 < V + fst b ->
  (forall x, V <= x -> f x = cinv (cmul (cadd (rc x) a) (cadd (rc x) b))) ->
  ctail_above f V (cdiv (csub (clog (cadd (rc V) a)) (clog (cadd (rc V) b))) (csub a b)).
Proof. intros N0 A B H. eapply ctail_ext; [|apply (ctail_pair a b V N0 A B)]. intros x Hx. cbv beta. rewrite (H x Hx). reflexivity. Qed.

(** the range of the argument: four factors of which two belong to +Delta or -Delta each *)
Definition small_delta (w vmin vmax eps Delta : R) : Prop := Delta < vmax - Rabs w / 2 - Rabs eps /\ Delta < - vmin - Rabs w / 2 - Rabs eps.
Lemma range_small p1 p2 p3 p4 d1 d2 d3 d4 Delta : Rabs d1 <= Delta -> Rabs d2 <= Delta -> Rabs d3 <= Delta -> Rabs d4 <= Delta ->
  Delta < p1 -> Delta < p2 -> Delta < p3 -> Delta < p4 -> - PI < carg (p1, d1) + carg (p2, d2) - (carg (p3, d3) + carg (p4, d4)) <= PI.
Proof.
  intros. pose proof (arg_small d1 p1 ltac:(lra)). pose proof (arg_small d2 p2 ltac:(lra)). pose proof (arg_small d3 p3 ltac:(lra)). pose proof (arg_small d4 p4 ltac:(lra)). lra.
Qed.
Lemma range_same p1 p2 p3 p4 d : 0 < p1 -> 0 < p2 -> 0 < p3 -> 0 < p4 -> - PI < carg (p1, d) + carg (p2, - d) - (carg (p3, d) + carg (p4, - d)) <= PI.
Proof.
  intros H1 H2 H3 H4. destruct (arg_sign d p1 H1) as [A1 B1]. destruct (arg_sign (- d) p2 H2) as [A2 B2]. destruct (arg_sign d p3 H3) as [A3 B3]. destruct (arg_sign (- d) p4 H4) as [A4 B4].
  destruct (Rle_dec 0 d) as [G|G].
  - specialize (A1 G). specialize (B2 ltac:(lra)). specialize (A3 G). specialize (B4 ltac:(lra)). lra.
  - specialize (B1 ltac:(lra)). specialize (A2 ltac:(lra)). specialize (B3 ltac:(lra)). specialize (A4 ltac:(lra)). lra.
Qed.
Lemma signed_abs s Delta : s = 1 \/ s = -1 -> 0 <= Delta -> Rabs (s * Delta) <= Delta /\ Rabs (- (s * Delta)) <= Delta.
Proof. intros [->| ->] H; split; unfold Rabs; destruct (Rcase_abs _); lra. Qed.

Definition at_tail (s1 s2 eps Delta w vmin vmax : R) : comp :=
  cadd (cdiv (csub (clog (vmax - w / 2 - eps, s1 * Delta)) (clog (vmax + w / 2 - eps, s2 * Delta))) (- w, (s1 - s2) * Delta))
       (cdiv (csub (clog (- vmin - w / 2 + eps, - (s2 * Delta))) (clog (- vmin + w / 2 + eps, - (s1 * Delta)))) (- w, (s1 - s2) * Delta)).
Lemma at_tail_ok s1 s2 eps Delta w vmin vmax : Rabs w / 2 + Rabs eps < vmax -> Rabs w / 2 + Rabs eps < - vmin -> w <> 0 \/ (s1 - s2) * Delta <> 0 ->
  ctails (kbubble_at s1 s2 eps Delta w) vmin vmax (at_tail s1 s2 eps Delta w vmin vmax).
Proof.
  intros H1 H2 Ne. pose proof (abs_bounds w). pose proof (abs_bounds eps).
  assert (NN : norm (- w, (s1 - s2) * Delta) <> 0). { unfold norm. cbn [fst snd]. set (d := (s1 - s2) * Delta) in *. intros Z0. destruct Ne as [P0|P0]; apply Rsqr_pos_lt in P0; unfold Rsqr in P0; nra. }
  unfold at_tail. apply ctails_of.
  - pose proof (ctail_two (- w / 2 - eps, s1 * Delta) (w / 2 - eps, s2 * Delta) vmax (kbubble_at s1 s2 eps Delta w)) as T.
    replace (csub (- w / 2 - eps, s1 * Delta) (w / 2 - eps, s2 * Delta)) with (- w, (s1 - s2) * Delta) in T by (apply ceq; unfold csub; cbn [fst snd]; lra).
    replace (cadd (rc vmax) (- w / 2 - eps, s1 * Delta)) with (vmax - w / 2 - eps, s1 * Delta) in T by (apply ceq; unfold cadd, rc; cbn [fst snd]; lra).
    replace (cadd (rc vmax) (w / 2 - eps, s2 * Delta)) with (vmax + w / 2 - eps, s2 * Delta) in T by (apply ceq; unfold cadd, rc; cbn [fst snd]; lra).
    apply T; [exact NN|cbn [fst]; lra|cbn [fst]; lra|]. intros x Hx. unfold kbubble_at, gfree. rewrite cinv_prod by (cbn [fst]; lra). f_equal. f_equal; apply ceq; unfold cadd, rc; cbn [fst snd]; lra.
  - pose proof (ctail_two (- w / 2 + eps, - (s2 * Delta)) (w / 2 + eps, - (s1 * Delta)) (- vmin) (fun x => kbubble_at s1 s2 eps Delta w (- x))) as T.
    replace (csub (- w / 2 + eps, - (s2 * Delta)) (w / 2 + eps, - (s1 * Delta))) with (- w, (s1 - s2) * Delta) in T by (apply ceq; unfold csub; cbn [fst snd]; lra).
    replace (cadd (rc (- vmin)) (- w / 2 + eps, - (s2 * Delta))) with (- vmin - w / 2 + eps, - (s2 * Delta)) in T by (apply ceq; unfold cadd, rc; cbn [fst snd]; lra).
    replace (cadd (rc (- vmin)) (w / 2 + eps, - (s1 * Delta))) with (- vmin + w / 2 + eps, - (s1 * Delta)) in T by (apply ceq; unfold cadd, rc; cbn [fst snd]; lra).
    apply T; [exact NN|cbn [fst]; lra|cbn [fst]; lra|]. intros x Hx. unfold kbubble_at, gfree.
    replace (- x - w / 2 - eps, s1 * Delta) with (copp (cadd (rc x) (w / 2 + eps, - (s1 * Delta)))) by (apply ceq; unfold copp, cadd, rc; cbn [fst snd]; lra).
    replace (- x + w / 2 - eps, s2 * Delta) with (copp (cadd (rc x) (- w / 2 + eps, - (s2 * Delta)))) by (apply ceq; unfold copp, cadd, rc; cbn [fst snd]; lra).
    rewrite cinv_prod_opp by (unfold cadd, rc; cbn [fst]; lra). f_equal. apply ceq; unfold cmul, cadd, rc; cbn [fst snd]; ring.
Qed.
Lemma at_keldysh_form s1 s2 eps Delta w vmin vmax : vmin < 0 -> w <> 0 \/ s1 <> s2 ->
  AT_REG2_Keldysh w vmin vmax (rc eps) Delta s1 s2 false =
  cmul (cdiv (rc 1) (- w, (s1 - s2) * Delta))
       (clog (cdiv (cmul (vmax - w / 2 - eps, s1 * Delta) (- vmin - w / 2 + eps, - (s2 * Delta))) (cmul (vmax + w / 2 - eps, s2 * Delta) (- vmin + w / 2 + eps, - (s1 * Delta))))).
Proof.
  intros Hv Ne. unfold AT_REG2_Keldysh. rewrite (Rabs_left vmin Hv).
  replace (rc (- w) + rc ((s1 - s2) * Delta) * ci)%C with (- w, (s1 - s2) * Delta) by (apply ceq; unfold cadd, cmul, rc, ci; cbn [fst snd]; ring).
  replace (rc (vmax - w / 2) - rc eps + rc (s1 * Delta) * ci)%C with (vmax - w / 2 - eps, s1 * Delta) by (apply ceq; unfold cadd, csub, cmul, rc, ci; cbn [fst snd]; ring).
  replace (rc (- vmin - w / 2) + rc eps - rc (s2 * Delta) * ci)%C with (- vmin - w / 2 + eps, - (s2 * Delta)) by (apply ceq; unfold cadd, csub, cmul, rc, ci; cbn [fst snd]; ring).
  replace (rc (vmax + w / 2) - rc eps + rc (s2 * Delta) * ci)%C with (vmax + w / 2 - eps, s2 * Delta) by (apply ceq; unfold cadd, csub, cmul, rc, ci; cbn [fst snd]; ring).
  replace (rc (- vmin + w / 2) + rc eps - rc (s1 * Delta) * ci)%C with (- vmin + w / 2 + eps, - (s1 * Delta)) by (apply ceq; unfold cadd, csub, cmul, rc, ci; cbn [fst snd]; ring).
  destruct (Req_EM_T w 0) as [E|E]; [|reflexivity]. destruct (Req_EM_T s1 s2) as [E'|E']; [|reflexivity]. exfalso. destruct Ne; contradiction.
Qed.

(** ** C113 *)
Theorem C113_keldysh_partial : forall s1 s2 eps Delta w vmin vmax, s1 = 1 \/ s1 = -1 -> s2 = 1 \/ s2 = -1 -> 0 < Delta ->
  Rabs w / 2 + Rabs eps < vmax -> Rabs w / 2 + Rabs eps < - vmin -> s1 = s2 \/ small_delta w vmin vmax eps Delta ->
  ctails (kbubble_at s1 s2 eps Delta w) vmin vmax (AT_REG2_Keldysh w vmin vmax (rc eps) Delta s1 s2 false).
Proof.
  intros s1 s2 eps Delta w vmin vmax S1 S2 HD H1 H2 Sm. pose proof (abs_bounds w) as Bw. pose proof (abs_bounds eps) as Be. pose proof (Rabs_pos w). pose proof (Rabs_pos eps).
  destruct (Req_EM_T w 0) as [Ew|Nw]; [destruct (Req_EM_T s1 s2) as [Es|Ns]|].
  - (* equal propagators at w = 0 *)
    subst w s2. unfold AT_REG2_Keldysh. destruct (Req_EM_T 0 0); [|contradiction]. destruct (Req_EM_T s1 s1); [|contradiction]. rewrite (Rabs_left vmin) by lra. unfold cdiv.
    replace (rc vmax - rc eps + rc (s1 * Delta) * ci)%C with (cadd (rc vmax) (- eps, s1 * Delta)) by (apply ceq; unfold cadd, csub, cmul, rc, ci; cbn [fst snd]; ring).
    replace (rc (- vmin) + rc eps - rc (s1 * Delta) * ci)%C with (cadd (rc (- vmin)) (eps, - (s1 * Delta))) by (apply ceq; unfold cadd, csub, cmul, rc, ci; cbn [fst snd]; ring).
    match goal with |- ctails _ _ _ (?a + ?b)%C => replace a with (cinv (cadd (rc vmax) (- eps, s1 * Delta))) by (set (z := cinv _); apply ceq; unfold cmul, rc; cbn [fst snd]; ring);
      replace b with (cinv (cadd (rc (- vmin)) (eps, - (s1 * Delta)))) by (set (z := cinv _); apply ceq; unfold cmul, rc; cbn [fst snd]; ring) end.
    apply ctails_of; (eapply ctail_ext; [|apply ctail_square; cbn [fst]; lra]); intros x Hx; cbv beta; unfold kbubble_at, gfree.
    + replace (x - 0 / 2 - eps, s1 * Delta) with (cadd (rc x) (- eps, s1 * Delta)) by (apply ceq; unfold cadd, rc; cbn [fst snd]; lra).
      replace (x + 0 / 2 - eps, s1 * Delta) with (cadd (rc x) (- eps, s1 * Delta)) by (apply ceq; unfold cadd, rc; cbn [fst snd]; lra).
      symmetry. apply cinv_prod; unfold cadd, rc; cbn [fst]; lra.
    + replace (- x - 0 / 2 - eps, s1 * Delta) with (copp (cadd (rc x) (eps, - (s1 * Delta)))) by (apply ceq; unfold copp, cadd, rc; cbn [fst snd]; lra).
      replace (- x + 0 / 2 - eps, s1 * Delta) with (copp (cadd (rc x) (eps, - (s1 * Delta)))) by (apply ceq; unfold copp, cadd, rc; cbn [fst snd]; lra).
      symmetry. apply cinv_prod_opp; unfold cadd, rc; cbn [fst]; lra.
  - rewrite at_keldysh_form by (try lra; right; assumption). destruct Sm as [Sm|[M1 M2]]; [contradiction|].
    destruct (signed_abs s1 Delta S1 ltac:(lra)) as [A1 A2]. destruct (signed_abs s2 Delta S2 ltac:(lra)) as [A3 A4].
    rewrite pair_log; [|cbn [fst]; lra|cbn [fst]; lra|cbn [fst]; lra|cbn [fst]; lra|apply (range_small _ _ _ _ _ _ _ _ Delta); lra].
    apply at_tail_ok; [assumption|assumption|]. right. destruct S1 as [->| ->]; destruct S2 as [->| ->]; lra.
  - rewrite at_keldysh_form by (try lra; left; assumption).
    rewrite pair_log; [apply at_tail_ok; [assumption|assumption|left; assumption]|cbn [fst]; lra|cbn [fst]; lra|cbn [fst]; lra|cbn [fst]; lra|].
    destruct Sm as [<-|[M1 M2]].
    + apply range_same; lra.
    + destruct (signed_abs s1 Delta S1 ltac:(lra)) as [A1 A2]. destruct (signed_abs s2 Delta S2 ltac:(lra)) as [A3 A4]. apply (range_small _ _ _ _ _ _ _ _ Delta); lra.
Qed.
Print Assumptions C113_keldysh_partial.

(** the p channel *)
Definition p_tail (s1 s2 eps Delta w vmin vmax : R) : comp :=
  copp (cadd (cdiv (csub (clog (vmax + w / 2 - eps, s1 * Delta)) (clog (vmax - w / 2 + eps, - (s2 * Delta)))) (w - 2 * eps, (s1 + s2) * Delta))
             (cdiv (csub (clog (- vmin + w / 2 - eps, s2 * Delta)) (clog (- vmin - w / 2 + eps, - (s1 * Delta)))) (w - 2 * eps, (s1 + s2) * Delta))).
Lemma kbubble_p_above s1 s2 eps Delta w x : Rabs w / 2 + Rabs eps < x ->
  kbubble_p s1 s2 eps Delta w x = copp (cinv (cmul (x + w / 2 - eps, s1 * Delta) (x - w / 2 + eps, - (s2 * Delta)))).
Proof.
  intros H. pose proof (abs_bounds w). pose proof (abs_bounds eps). unfold kbubble_p, gfree.
  replace (w / 2 - x - eps, s2 * Delta) with (copp (x - w / 2 + eps, - (s2 * Delta))) by (apply ceq; unfold copp; cbn [fst snd]; lra).
  replace (w / 2 + x - eps, s1 * Delta) with (x + w / 2 - eps, s1 * Delta) by (apply ceq; cbn [fst snd]; lra). apply cinv_prod_half; cbn [fst]; lra.
Qed.
Lemma kbubble_p_below s1 s2 eps Delta w x : kbubble_p s1 s2 eps Delta w (- x) = kbubble_p s2 s1 eps Delta w x.
Proof.
  unfold kbubble_p. replace (w / 2 - - x) with (w / 2 + x) by lra. replace (w / 2 + - x) with (w / 2 - x) by lra. set (a := gfree _ _ _ _). set (b := gfree s2 _ _ _). apply ceq; unfold cmul; cbn [fst snd]; ring.
Qed.
Lemma p_half s1 s2 eps Delta w V : Rabs w / 2 + Rabs eps < V -> w - 2 * eps <> 0 \/ (s1 + s2) * Delta <> 0 ->
  ctail_above (kbubble_p s1 s2 eps Delta w) V (copp (cdiv (csub (clog (V + w / 2 - eps, s1 * Delta)) (clog (V - w / 2 + eps, - (s2 * Delta)))) (w - 2 * eps, (s1 + s2) * Delta))).
Proof.
  intros H1 Ne. pose proof (abs_bounds w). pose proof (abs_bounds eps).
  assert (NN : norm (w - 2 * eps, (s1 + s2) * Delta) <> 0).
  { unfold norm. cbn [fst snd]. set (d := (s1 + s2) * Delta) in *. set (u := w - 2 * eps) in *. intros Z0. destruct Ne as [P0|P0]; apply Rsqr_pos_lt in P0; unfold Rsqr in P0; nra. }
  apply (ctail_ext (fun x => copp (copp (kbubble_p s1 s2 eps Delta w x)))); [intros; apply ceq; unfold copp; cbn [fst snd]; ring|]. apply ctail_opp.
  pose proof (ctail_two (w / 2 - eps, s1 * Delta) (- w / 2 + eps, - (s2 * Delta)) V (fun x => copp (kbubble_p s1 s2 eps Delta w x))) as T.
  replace (csub (w / 2 - eps, s1 * Delta) (- w / 2 + eps, - (s2 * Delta))) with (w - 2 * eps, (s1 + s2) * Delta) in T by (apply ceq; unfold csub; cbn [fst snd]; lra).
  replace (cadd (rc V) (w / 2 - eps, s1 * Delta)) with (V + w / 2 - eps, s1 * Delta) in T by (apply ceq; unfold cadd, rc; cbn [fst snd]; lra).
  replace (cadd (rc V) (- w / 2 + eps, - (s2 * Delta))) with (V - w / 2 + eps, - (s2 * Delta)) in T by (apply ceq; unfold cadd, rc; cbn [fst snd]; lra).
  apply T; [exact NN|cbn [fst]; lra|cbn [fst]; lra|]. intros x Hx. rewrite kbubble_p_above by lra.
  replace (cadd (rc x) (w / 2 - eps, s1 * Delta)) with (x + w / 2 - eps, s1 * Delta) by (apply ceq; unfold cadd, rc; cbn [fst snd]; lra).
  replace (cadd (rc x) (- w / 2 + eps, - (s2 * Delta))) with (x - w / 2 + eps, - (s2 * Delta)) by (apply ceq; unfold cadd, rc; cbn [fst snd]; lra).
  set (z := cinv _). apply ceq; unfold copp; cbn [fst snd]; ring.
Qed.
Lemma p_tail_ok s1 s2 eps Delta w vmin vmax : Rabs w / 2 + Rabs eps < vmax -> Rabs w / 2 + Rabs eps < - vmin -> w - 2 * eps <> 0 \/ (s1 + s2) * Delta <> 0 ->
  ctails (kbubble_p s1 s2 eps Delta w) vmin vmax (p_tail s1 s2 eps Delta w vmin vmax).
Proof.
  intros H1 H2 Ne. unfold p_tail. match goal with |- ctails _ _ _ (copp (cadd ?a ?b)) => replace (copp (cadd a b)) with (cadd (copp a) (copp b)) by (apply ceq; unfold copp, cadd; cbn [fst snd]; ring) end.
  apply ctails_of; [apply p_half; assumption|]. eapply ctail_ext; [intros x Hx; symmetry; apply kbubble_p_below|]. rewrite (Rplus_comm s1 s2) in *. apply p_half; assumption.
Qed.
Lemma p_keldysh_form s1 s2 eps Delta w vmin vmax : vmin < 0 -> w <> 2 * eps \/ s1 <> - s2 ->
  P_REG2_Keldysh w vmin vmax (rc eps) Delta s1 s2 false =
  copp (cmul (cdiv (rc 1) (w - 2 * eps, (s1 + s2) * Delta))
       (clog (cdiv (cmul (vmax + w / 2 - eps, s1 * Delta) (- vmin + w / 2 - eps, s2 * Delta)) (cmul (vmax - w / 2 + eps, - (s2 * Delta)) (- vmin - w / 2 + eps, - (s1 * Delta)))))).
Proof.
  intros Hv Ne. unfold P_REG2_Keldysh. rewrite (Rabs_left vmin Hv).
  replace (rc w - rc 2 * rc eps + rc ((s1 + s2) * Delta) * ci)%C with (w - 2 * eps, (s1 + s2) * Delta) by (apply ceq; unfold cadd, csub, cmul, rc, ci; cbn [fst snd]; ring).
  replace (rc (vmax + w / 2) - rc eps + rc (s1 * Delta) * ci)%C with (vmax + w / 2 - eps, s1 * Delta) by (apply ceq; unfold cadd, csub, cmul, rc, ci; cbn [fst snd]; ring).
  replace (rc (- vmin + w / 2) - rc eps + rc (s2 * Delta) * ci)%C with (- vmin + w / 2 - eps, s2 * Delta) by (apply ceq; unfold cadd, csub, cmul, rc, ci; cbn [fst snd]; ring).
  replace (rc (vmax - w / 2) + rc eps - rc (s2 * Delta) * ci)%C with (vmax - w / 2 + eps, - (s2 * Delta)) by (apply ceq; unfold cadd, csub, cmul, rc, ci; cbn [fst snd]; ring).
  replace (rc (- vmin - w / 2) + rc eps - rc (s1 * Delta) * ci)%C with (- vmin - w / 2 + eps, - (s1 * Delta)) by (apply ceq; unfold cadd, csub, cmul, rc, ci; cbn [fst snd]; ring).
  set (L := clog _). cbn [fst snd rc]. destruct (Req_EM_T 0 0); [|contradiction].
  assert (E : cmul (cdiv (rc (- 1)) (w - 2 * eps, (s1 + s2) * Delta)) L = copp (cmul (cdiv (rc 1) (w - 2 * eps, (s1 + s2) * Delta)) L)).
  { unfold cdiv. set (i := cinv _). apply ceq; unfold cmul, copp, rc; cbn [fst snd]; ring. }
  destruct (Req_EM_T w (2 * eps)) as [E1|E1]; [|exact E]. destruct (Req_EM_T s1 (- s2)) as [E2|E2]; [|exact E]. exfalso. destruct Ne; contradiction.
Qed.
Theorem C113_keldysh_p_partial : forall s1 s2 eps Delta w vmin vmax, s1 = 1 \/ s1 = -1 -> s2 = 1 \/ s2 = -1 -> 0 < Delta ->
  Rabs w / 2 + Rabs eps < vmax -> Rabs w / 2 + Rabs eps < - vmin -> s1 = - s2 \/ small_delta w vmin vmax eps Delta ->
  ctails (kbubble_p s1 s2 eps Delta w) vmin vmax (P_REG2_Keldysh w vmin vmax (rc eps) Delta s1 s2 false).
Proof.
  intros s1 s2 eps Delta w vmin vmax S1 S2 HD H1 H2 Sm. pose proof (abs_bounds w) as Bw. pose proof (abs_bounds eps) as Be. pose proof (Rabs_pos w). pose proof (Rabs_pos eps).
  assert (Rg : - PI < carg (vmax + w / 2 - eps, s1 * Delta) + carg (- vmin + w / 2 - eps, s2 * Delta) - (carg (vmax - w / 2 + eps, - (s2 * Delta)) + carg (- vmin - w / 2 + eps, - (s1 * Delta))) <= PI).
  { destruct Sm as [E|[M1 M2]].
    - replace (s2 * Delta) with (- (s1 * Delta)) by (subst s1; ring). rewrite Ropp_involutive. apply range_same; lra.
    - destruct (signed_abs s1 Delta S1 ltac:(lra)) as [A1 A2]. destruct (signed_abs s2 Delta S2 ltac:(lra)) as [A3 A4]. apply (range_small _ _ _ _ _ _ _ _ Delta); lra. }
  destruct (Req_EM_T w (2 * eps)) as [Ew|Nw]; [destruct (Req_EM_T s1 (- s2)) as [Es|Ns]|].
  - unfold P_REG2_Keldysh. cbn [fst snd rc]. destruct (Req_EM_T 0 0); [|contradiction]. destruct (Req_EM_T w (2 * eps)); [|contradiction]. destruct (Req_EM_T s1 (- s2)); [|contradiction].
    rewrite (Rabs_left vmin) by lra. unfold cdiv.
    replace (rc vmax + rc (s1 * Delta) * ci)%C with (cadd (rc vmax) (0, s1 * Delta)) by (apply ceq; unfold cadd, cmul, rc, ci; cbn [fst snd]; ring).
    replace (rc (- vmin) - rc (s1 * Delta) * ci)%C with (cadd (rc (- vmin)) (0, s2 * Delta)) by (apply ceq; unfold cadd, csub, cmul, rc, ci; cbn [fst snd]; subst s1; ring).
    match goal with |- ctails _ _ _ ?e => replace e with (cadd (copp (cinv (cadd (rc vmax) (0, s1 * Delta)))) (copp (cinv (cadd (rc (- vmin)) (0, s2 * Delta))))) end.
    2:{ set (a := cinv _). set (b := cinv _). apply ceq; unfold cadd, csub, copp, cmul, rc; cbn [fst snd]; ring. }
    assert (K : forall t1 t2 V, t1 = - t2 -> Rabs w / 2 + Rabs eps < V -> ctail_above (kbubble_p t1 t2 eps Delta w) V (copp (cinv (cadd (rc V) (0, t1 * Delta))))).
    { intros t1 t2 V Et HV. eapply ctail_ext; [|apply ctail_opp; apply (ctail_square (0, t1 * Delta)); cbn [fst]; lra]. intros x Hx. cbv beta. rewrite kbubble_p_above by lra. do 2 f_equal.
      f_equal; apply ceq; unfold cadd, rc; cbn [fst snd]; try lra. subst t1. ring. }
    apply ctails_of; [apply K; assumption|]. eapply ctail_ext; [intros x Hx; symmetry; apply kbubble_p_below|]. apply K; [lra|assumption].
  - rewrite p_keldysh_form by (try lra; right; assumption). rewrite pair_log; [|cbn [fst]; lra|cbn [fst]; lra|cbn [fst]; lra|cbn [fst]; lra|exact Rg].
    apply p_tail_ok; [assumption|assumption|]. right. destruct S1 as [->| ->]; destruct S2 as [->| ->]; lra.
  - rewrite p_keldysh_form by (try lra; left; assumption). rewrite pair_log; [|cbn [fst]; lra|cbn [fst]; lra|cbn [fst]; lra|cbn [fst]; lra|exact Rg].
    apply p_tail_ok; [assumption|assumption|left; lra].
Qed.
Print Assumptions C113_keldysh_p_partial.

(** the products above are those of the code's propagators where the self-energy is a real constant *)
Theorem C113_propagator_keldysh : forall c p v e, reg c = 2%Z -> sigma p 0 v = rc e -> 0 < Gamma p + Lambda p ->
  GR c p v = Some (gfree 1 (epsilon p + e) ((Gamma p + Lambda p) / 2) v).
Proof.
  intros c p v e Hr Hs HG. unfold GR. rewrite Hr. cbn [Z.eqb Pos.eqb]. unfold GR_REG2, G0R_inv. rewrite Hs. unfold gfree.
  match goal with |- cquot _ ?d = _ => replace d with (v - (epsilon p + e), 1 * ((Gamma p + Lambda p) / 2)) end.
  2:{ apply ceq; unfold cadd, csub, cmul, rc, ci; cbn [fst snd]; field. }
  unfold cquot. destruct (Req_EM_T _ 0) as [E|E].
  - exfalso. unfold norm in E. cbn [fst snd] in E. set (x := v - _) in E. assert (0 < (Gamma p + Lambda p) / 2) by lra. set (d := (Gamma p + Lambda p) / 2) in *. nra.
  - f_equal. set (z := cinv _). apply ceq; unfold cmul, rc; cbn [fst snd]; ring.
Qed.
Print Assumptions C113_propagator_keldysh.

(** for a larger hybridisation the one logarithm of the product is not the sum of the two: retarded with advanced propagator in the a and t, equal propagators in the p channel *)
Lemma arg_big V Delta : 0 < V -> V < Delta -> PI / 4 < carg (V, Delta).
Proof.
  intros HV H. unfold carg. cbn [fst snd]. destruct (Rlt_dec 0 V); [|lra]. rewrite <- atan_1. apply atan_increasing.
  assert (0 < / V) by (apply Rinv_0_lt_compat; lra). assert (V * / V = 1) by (field; lra). unfold Rdiv. nra.
Qed.
Lemma arg_conj V Delta : 0 < V -> carg (V, - Delta) = - carg (V, Delta).
Proof. intros HV. unfold carg. cbn [fst snd]. destruct (Rlt_dec 0 V); [|lra]. unfold Rdiv. rewrite Ropp_mult_distr_l_reverse. apply atan_opp. Qed.
Lemma im_quot z d : d <> 0 -> fst (cdiv z (0, d)) = snd z / d.
Proof. intros H. unfold cdiv, cinv, norm, cmul. cbn [fst snd]. field. nra. Qed.
Lemma im_prod z d : d <> 0 -> fst (cmul (cdiv (rc 1) (0, d)) z) = snd z / d.
Proof. intros H. unfold cdiv, cinv, norm, cmul, rc. cbn [fst snd]. field. nra. Qed.
Lemma branch_gap V Delta q : 0 < V -> V < Delta -> q <= PI -> q / (2 * Delta) < (carg (V, Delta) - carg (V, - Delta)) / (2 * Delta) + (carg (V, Delta) - carg (V, - Delta)) / (2 * Delta).
Proof.
  intros HV H Hq. pose proof (arg_big V Delta HV H) as G. rewrite (arg_conj V Delta HV). set (a := carg (V, Delta)) in *.
  assert (0 < / (2 * Delta)) by (apply Rinv_0_lt_compat; lra). set (k := / (2 * Delta)) in *. unfold Rdiv. fold k. nra.
Qed.
Theorem C113_keldysh_branch_refuted : forall V Delta, 0 < V -> V < Delta ->
  (exists I, ctails (kbubble_at 1 (-1) 0 Delta 0) (- V) V I /\ fst (AT_REG2_Keldysh 0 (- V) V (rc 0) Delta 1 (-1) false) < fst I) /\
  (exists I, ctails (kbubble_p 1 1 0 Delta 0) (- V) V I /\ fst I < fst (P_REG2_Keldysh 0 (- V) V (rc 0) Delta 1 1 false)).
Proof.
  intros V Delta HV HD. assert (H0 : Rabs 0 / 2 + Rabs 0 < V) by (rewrite Rabs_R0; lra). assert (H1 : Rabs 0 / 2 + Rabs 0 < - - V) by lra. split.
  - eexists. split; [apply at_tail_ok; [exact H0|exact H1|right; lra]|]. rewrite at_keldysh_form by (try lra; right; lra). unfold at_tail.
    set (Q := cdiv (cmul _ _) _). replace (- 0, (1 - -1) * Delta) with (0, 2 * Delta) by (apply ceq; cbn [fst snd]; ring). rewrite im_prod by lra. unfold cadd. cbn [fst]. rewrite !im_quot by lra.
    unfold csub, clog. cbn [fst snd].
    replace (V - 0 / 2 - 0, 1 * Delta) with (V, Delta) by (apply ceq; cbn [fst snd]; lra). replace (V + 0 / 2 - 0, -1 * Delta) with (V, - Delta) by (apply ceq; cbn [fst snd]; lra).
    replace (- - V - 0 / 2 + 0, - (-1 * Delta)) with (V, Delta) by (apply ceq; cbn [fst snd]; lra). replace (- - V + 0 / 2 + 0, - (1 * Delta)) with (V, - Delta) by (apply ceq; cbn [fst snd]; lra).
    apply branch_gap; [assumption|assumption|apply carg_le_PI].
  - eexists. split; [apply p_tail_ok; [exact H0|exact H1|right; lra]|]. rewrite p_keldysh_form by (try lra; right; lra). unfold p_tail.
    set (Q := cdiv (cmul _ _) _). replace (0 - 2 * 0, (1 + 1) * Delta) with (0, 2 * Delta) by (apply ceq; cbn [fst snd]; ring). unfold copp at 1 2. cbn [fst]. rewrite im_prod by lra. unfold cadd. cbn [fst]. rewrite !im_quot by lra.
    unfold csub, clog. cbn [fst snd].
    replace (V + 0 / 2 - 0, 1 * Delta) with (V, Delta) by (apply ceq; cbn [fst snd]; lra). replace (V - 0 / 2 + 0, - (1 * Delta)) with (V, - Delta) by (apply ceq; cbn [fst snd]; lra).
    replace (- - V + 0 / 2 - 0, 1 * Delta) with (V, Delta) by (apply ceq; cbn [fst snd]; lra). replace (- - V - 0 / 2 + 0, - (1 * Delta)) with (V, - Delta) by (apply ceq; cbn [fst snd]; lra).
    apply Ropp_lt_contravar. apply branch_gap; [assumption|assumption|apply carg_le_PI].
Qed.
Print Assumptions C113_keldysh_branch_refuted.

(** ** C114 *)
(** the full propagator decays like 1/v: limits of integration going to plus and minus infinity together *)
Definition cprincipal (f : R -> comp) (vmin vmax : R) (I : comp) : Prop :=
  principal_tails (fun v => fst (f v)) vmin vmax (fst I) /\ principal_tails (fun v => snd (f v)) vmin vmax (snd I).
Lemma full_tail s eps Delta vmin vmax : 0 < vmax - eps -> 0 < - vmin + eps ->
  cprincipal (gfree s eps Delta) vmin vmax (csub (clog (- vmin + eps, - (s * Delta))) (clog (vmax - eps, s * Delta))).
Proof.
  intros H1 H2.
  assert (E : forall x, cadd (rc x) (- eps, s * Delta) = (x - eps, s * Delta)) by (intros; apply ceq; unfold cadd, rc; cbn [fst snd]; lra).
  assert (E' : forall x, cadd (rc x) (eps, - (s * Delta)) = (x + eps, - (s * Delta))) by (intros; apply ceq; unfold cadd, rc; cbn [fst snd]; lra).
  assert (Op : forall x, - vmin <= x -> gfree s eps Delta (- x) = copp (cinv (cadd (rc x) (eps, - (s * Delta))))).
  { intros x Hx. unfold gfree. rewrite E'. assert (0 < (x + eps) * (x + eps)) by nra. pose proof (Rle_0_sqr (s * Delta)) as Q. unfold Rsqr in Q.
    apply ceq; unfold cinv, copp, norm; cbn [fst snd]; field; nra. }
  split.
  - exists (fun x => fst (clog (cadd (rc x) (- eps, s * Delta)))), (fun x => - fst (clog (cadd (rc x) (eps, - (s * Delta))))). split; [|split].
    + intros x Hx. unfold gfree. rewrite <- E. apply clog_re_deriv. cbn [fst]. lra.
    + intros x Hx. rewrite (Op x Hx). unfold copp. cbn [fst]. apply dlim_opp. apply clog_re_deriv. cbn [fst]. lra.
    + pose proof (clog_re_tends (- eps, s * Delta) (eps, - (s * Delta))) as T.
      rewrite E, E'. set (a := fst (clog (vmax - eps, s * Delta))). set (b := fst (clog (- vmin + eps, - (s * Delta)))).
      unfold csub. cbn [fst]. fold a b. replace (b - a) with (0 + (b - a)) by ring.
      eapply (tends_ext _ _ _ 0); [|apply tends_plus; [exact T|apply tends_const]]. intros x _. cbv beta. ring.
  - exists (fun x => snd (clog (cadd (rc x) (- eps, s * Delta)))), (fun x => - snd (clog (cadd (rc x) (eps, - (s * Delta))))). split; [|split].
    + intros x Hx. unfold gfree. rewrite <- E. apply clog_im_deriv. cbn [fst]. lra.
    + intros x Hx. rewrite (Op x Hx). unfold copp. cbn [snd]. apply dlim_opp. apply clog_im_deriv. cbn [fst]. lra.
    + pose proof (clog_im_tends (- eps, s * Delta)) as T. pose proof (clog_im_tends (eps, - (s * Delta))) as T'.
      rewrite E, E'. set (a := snd (clog (vmax - eps, s * Delta))). set (b := snd (clog (- vmin + eps, - (s * Delta)))).
      unfold csub. cbn [snd]. fold a b. replace (b - a) with (0 - 0 + (b - a)) by ring.
      eapply (tends_ext _ _ _ 0); [|apply tends_plus; [apply tends_minus; [exact T|exact T']|apply tends_const]]. intros x _. cbv beta. ring.
Qed.
Theorem C114_full_partial : forall vmin vmax eps Delta, Rabs eps < vmax -> Rabs eps < - vmin ->
  cprincipal (gfree 1 eps Delta) vmin vmax (SE_Keldysh 0 vmin vmax eps Delta false) /\
  cprincipal (gfree (-1) eps Delta) vmin vmax (SE_Keldysh 1 vmin vmax eps Delta false).
Proof.
  intros vmin vmax eps Delta H1 H2. pose proof (abs_bounds eps). pose proof (Rabs_pos eps). unfold SE_Keldysh. rewrite (Rabs_left vmin) by lra. split.
  - replace (rc (- vmin + eps) - ci * rc Delta)%C with (- vmin + eps, - (1 * Delta)) by (apply ceq; unfold csub, cmul, rc, ci; cbn [fst snd]; ring).
    replace (rc (vmax - eps) + ci * rc Delta)%C with (vmax - eps, 1 * Delta) by (apply ceq; unfold cadd, cmul, rc, ci; cbn [fst snd]; ring).
    rewrite clog_div by (cbn [fst]; lra). apply full_tail; lra.
  - replace (rc (- vmin + eps) + ci * rc Delta)%C with (- vmin + eps, - (-1 * Delta)) by (apply ceq; unfold cadd, cmul, rc, ci; cbn [fst snd]; ring).
    replace (rc (vmax - eps) - ci * rc Delta)%C with (vmax - eps, -1 * Delta) by (apply ceq; unfold csub, cmul, rc, ci; cbn [fst snd]; ring).
    rewrite clog_div by (cbn [fst]; lra). apply full_tail; lra.
Qed.
Print Assumptions C114_full_partial.

Example C113_keldysh_hyp : small_delta 4 (-10) 12 (-3) 2 /\ Rabs 4 / 2 + Rabs (-3) < 12 /\ Rabs 4 / 2 + Rabs (-3) < - -10 /\ AT_REG2_Keldysh 0 (-1) 1 (rc 0) 1 1 1 false = rc 1.
Proof.
  unfold small_delta. rewrite (Rabs_right 4), (Rabs_left (-3)) by lra. split; [lra|]. split; [lra|]. split; [lra|].
  unfold AT_REG2_Keldysh. destruct (Req_EM_T 0 0); [|contradiction]. destruct (Req_EM_T 1 1); [|contradiction]. rewrite (Rabs_left (-1)) by lra.
  apply ceq; unfold cdiv, cinv, norm, cadd, csub, cmul, rc, ci; cbn [fst snd]; field.
Qed.
Example C114_full_hyp : Rabs (1 / 2) < 3 /\ Rabs (1 / 2) < - -4.
Proof. rewrite Rabs_right by lra. lra. Qed.
