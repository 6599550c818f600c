(** C113, away from particle-hole symmetry. *)
From Coq Require Import Reals Lra.
From Verif Require Import Prelude Gf_Model Tail_Model Tail_Spec Tail_Proofs Tail_Proofs2 Tail_Props.
Open Scope R_scope.

Lemma ctail_ext f g v I : (forall x, v <= x -> f x = g x) -> ctail_above f v I -> ctail_above g v I.
Proof. intros E [A B]. split; (eapply tail_ext; [|eassumption]); intros x Hx; cbv beta; rewrite (E x Hx); reflexivity. Qed.
Lemma ctail_opp f v I : ctail_above f v I -> ctail_above (fun x => copp (f x)) v (copp I).
Proof.
  intros [A B]. split; unfold copp; cbn [fst snd].
  - replace (- fst I) with (-1 * fst I) by ring. eapply tail_ext; [|apply tail_scal; exact A]. intros; cbv beta; ring.
  - replace (- snd I) with (-1 * snd I) by ring. eapply tail_ext; [|apply tail_scal; exact B]. intros; cbv beta; ring.
Qed.
Lemma ctails_of f vmin vmax I J : ctail_above f vmax I -> ctail_above (fun x => f (- x)) (- vmin) J -> ctails f vmin vmax (I + J)%C.
Proof.
  intros [A B] [A' B']. split.
  - exists (fst I), (fst J). split; [exact A|]. split; [exact A'|]. reflexivity.
  - exists (snd I), (snd J). split; [exact B|]. split; [exact B'|]. reflexivity.
Qed.
Lemma ceq (x y : comp) : fst x = fst y -> snd x = snd y -> x = y.
Proof. destruct x, y. cbn. intros -> ->. reflexivity. Qed.
Lemma cdecayed_pos Delta e x : 0 < x -> cdecayed Delta e x = cinv (- e, x + Delta).
Proof. intros H. unfold cdecayed. rewrite (sign_pos x H). f_equal. unfold csub, cmul, ci, rc. cbn [fst snd]. f_equal; ring. Qed.
Lemma cdecayed_neg Delta e x : x < 0 -> cdecayed Delta e x = cinv (- e, - (- x + Delta)).
Proof. intros H. unfold cdecayed. rewrite (sign_neg x H). f_equal. unfold csub, cmul, ci, rc. cbn [fst snd]. f_equal; ring. Qed.
Lemma prod_above e p q : 0 < p -> 0 < q -> cmul (cinv (- e, p)) (cinv (- e, q)) = copp (cinv (cmul (p, e) (q, e))).
Proof. intros Hp Hq. apply ceq; unfold cinv; rewrite ?norm_mul; unfold norm, cmul, copp; cbn [fst snd]; field; nra. Qed.
Lemma prod_below e p q : 0 < p -> 0 < q -> cmul (cinv (- e, - p)) (cinv (- e, - q)) = copp (cinv (cmul (p, - e) (q, - e))).
Proof. intros Hp Hq. apply ceq; unfold cinv; rewrite ?norm_mul; unfold norm, cmul, copp; cbn [fst snd]; field; nra. Qed.
Lemma prod_pair e p q : 0 < p -> 0 < q -> cmul (cinv (- e, p)) (cinv (- e, - q)) = cinv (cmul (p, e) (q, - e)).
Proof. intros Hp Hq. apply ceq; unfold cinv; rewrite ?norm_mul; unfold norm, cmul, copp; cbn [fst snd]; field; nra. Qed.
Definition cat_tail (w v Delta e : R) : comp :=
  if Req_EM_T w 0 then copp (cinv (v + Delta, e)) else (rc (/ w) * (clog ((v - w / 2 + Delta)%R, e) - clog ((v + w / 2 + Delta)%R, e)))%C.
Lemma cat_aux w v Delta e (f : R -> comp) : 0 <= Delta -> Rabs w / 2 < v ->
  (forall x, v <= x -> f x = copp (cinv (cmul (x - w / 2 + Delta, e) (x + w / 2 + Delta, e)))) -> ctail_above f v (cat_tail w v Delta e).
Proof.
  intros HD Hw Hf. destruct (half_bounds w v Hw) as (Hv & Hb). unfold cat_tail. destruct (Req_EM_T w 0) as [->|Ne].
  - eapply ctail_ext; [|apply ctail_opp; pose proof (ctail_square (Delta, e) v ltac:(cbn [fst]; lra)) as Q;
      replace (rc v + (Delta, e))%C with (v + Delta, e) in Q by (unfold cadd, rc; cbn [fst snd]; f_equal; ring); exact Q].
    intros x Hx. cbv beta. rewrite (Hf x Hx). unfold cadd, rc. cbn [fst snd]. rewrite Rplus_0_l. do 3 f_equal; f_equal; lra.
  - pose proof (ctail_pair ((- w / 2 + Delta), e) ((w / 2 + Delta), e) v) as Q. unfold cadd, rc in Q. cbn [fst snd] in Q. rewrite !Rplus_0_l in Q.
    specialize (Q ltac:(unfold norm, csub; cbn [fst snd]; nra) ltac:(lra) ltac:(lra)). apply ctail_opp in Q.
    replace (rc (/ w) * (clog ((v - w / 2 + Delta)%R, e) - clog ((v + w / 2 + Delta)%R, e)))%C
      with (copp (cdiv (clog ((v + (- w / 2 + Delta))%R, e) - clog ((v + (w / 2 + Delta))%R, e))%C (((- w / 2 + Delta)%R, e) - ((w / 2 + Delta)%R, e))%C)).
    + eapply ctail_ext; [|exact Q]. intros x Hx. cbv beta. rewrite (Hf x Hx). do 3 f_equal; f_equal; lra.
    + replace (v + (- w / 2 + Delta)) with (v - w / 2 + Delta) by lra. replace (v + (w / 2 + Delta)) with (v + w / 2 + Delta) by lra.
      set (X := clog _). set (Y := clog _). apply ceq; unfold cdiv, cinv, norm, copp, cmul, csub, rc; cbn [fst snd]; field; nra.
Qed.
Lemma arg_sign e p : 0 < p -> (0 <= e -> 0 <= carg (p, e) < PI / 2) /\ (e <= 0 -> - (PI / 2) < carg (p, e) <= 0).
Proof.
  intros Hp. pose proof (carg_range (p, e) Hp) as R0. unfold carg in *. cbn [fst snd] in *. destruct (Rlt_dec 0 p); [|contradiction].
  assert (0 < / p) by (apply Rinv_0_lt_compat; assumption). split; intros He; (split; try lra).
  - destruct (Req_EM_T e 0) as [->|Ne]; [unfold Rdiv; rewrite Rmult_0_l, atan_0; lra|]. rewrite <- atan_0. left. apply atan_increasing. unfold Rdiv. nra.
  - destruct (Req_EM_T e 0) as [->|Ne]; [unfold Rdiv; rewrite Rmult_0_l, atan_0; lra|]. rewrite <- atan_0. left. apply atan_increasing. unfold Rdiv. nra.
Qed.
Lemma at_nophs w vmin vmax Delta e : 0 <= Delta -> Rabs w / 2 < vmax -> Rabs w / 2 < - vmin ->
  AT_REG2_NoPHS w vmin vmax (rc e) Delta false = (cat_tail w vmax Delta e + cat_tail w (- vmin) Delta (- e))%C.
Proof.
  intros HD H1 H2. destruct (half_bounds w _ H1) as (Hv & Hb). destruct (half_bounds w _ H2) as (Hv2 & Hb2). unfold AT_REG2_NoPHS, cat_tail. destruct (Req_EM_T w 0) as [->|Ne].
  - apply ceq; unfold cdiv, cinv, norm, copp, cmul, cadd, csub, rc, ci; cbn [fst snd]; field; split; nra.
  - set (z1 := (- vmin - w / 2 + Delta, - e)). set (z2 := (vmax - w / 2 + Delta, e)). set (z3 := (- vmin + w / 2 + Delta, - e)). set (z4 := (vmax + w / 2 + Delta, e)).
    replace (rc (- vmin - w / 2) - ci * rc e + rc Delta)%C with z1 by (apply ceq; unfold z1, cadd, csub, cmul, rc, ci; cbn [fst snd]; ring).
    replace (rc (vmax - w / 2) + ci * rc e + rc Delta)%C with z2 by (apply ceq; unfold z2, cadd, csub, cmul, rc, ci; cbn [fst snd]; ring).
    replace (rc (- vmin + w / 2) - ci * rc e + rc Delta)%C with z3 by (apply ceq; unfold z3, cadd, csub, cmul, rc, ci; cbn [fst snd]; ring).
    replace (rc (vmax + w / 2) + ci * rc e + rc Delta)%C with z4 by (apply ceq; unfold z4, cadd, csub, cmul, rc, ci; cbn [fst snd]; ring).
    rewrite clog_quot4.
    + set (L1 := clog z1). set (L2 := clog z2). set (L3 := clog z3). set (L4 := clog z4). apply ceq; unfold cmul, cadd, csub, rc; cbn [fst snd]; unfold Rdiv; ring.
    + unfold z1. cbn [fst]. lra.
    + unfold z2. cbn [fst]. lra.
    + unfold z3. cbn [fst]. lra.
    + unfold z4. cbn [fst]. lra.
    + destruct (arg_sign (- e) (- vmin - w / 2 + Delta) ltac:(lra)) as [P1 M1]. destruct (arg_sign e (vmax - w / 2 + Delta) ltac:(lra)) as [P2 M2].
      destruct (arg_sign (- e) (- vmin + w / 2 + Delta) ltac:(lra)) as [P3 M3]. destruct (arg_sign e (vmax + w / 2 + Delta) ltac:(lra)) as [P4 M4].
      fold z1 in P1, M1. fold z2 in P2, M2. fold z3 in P3, M3. fold z4 in P4, M4. pose proof PI_RGT_0.
      destruct (Rle_dec 0 e) as [He|He].
      * specialize (P2 He). specialize (P4 He). specialize (M1 ltac:(lra)). specialize (M3 ltac:(lra)). lra.
      * specialize (M2 ltac:(lra)). specialize (M4 ltac:(lra)). specialize (P1 ltac:(lra)). specialize (P3 ltac:(lra)). lra.
Qed.

(** ** C113 *)
Theorem C113_propagator_complex : forall c p v e, phs c = false -> keldysh c = false -> reg c = 2%Z -> sigma p 0 v = rc e -> v <> 0 -> 0 <= Gamma p -> 0 <= Lambda p -> 0 < Temp p ->
  GM c p v = Some (cdecayed ((Gamma p + Lambda p) / 2) (epsilon p + e) (scaled c p v)).
Proof.
  intros c p v e Hp Hk Hr Hs Hv HG HL HT. set (u := scaled c p v).
  assert (Hu : (0 < v -> 0 < u) /\ (v < 0 -> u < 0)).
  { unfold u, scaled. rewrite Hk. assert (F : 0 < (if negb false && negb (zero_t c) then PI * Temp p else 1)).
    { destruct (zero_t c); cbn; [lra|]. apply Rmult_lt_0_compat; [apply PI_RGT_0|exact HT]. }
    split; intros H; nra. }
  assert (Hd : sign v = sign u /\ u + (Gamma p + Lambda p) / 2 * sign u <> 0).
  { destruct (Rtotal_order v 0) as [H|[H|H]]; [|contradiction|].
    - pose proof (proj2 Hu H) as A. rewrite (sign_neg v H), (sign_neg u A). split; lra.
    - pose proof (proj1 Hu H) as A. rewrite (sign_pos v H), (sign_pos u A). split; lra. }
  destruct Hd as [Es Nz]. unfold GM. rewrite Hr. cbn [Z.eqb Pos.eqb]. unfold GM_REG2, G0M_inv. rewrite Hp, Hs. fold u. rewrite Es.
  match goal with |- cquot (rc 1) ?d = _ => replace d with (ci * rc (u + (Gamma p + Lambda p) / 2 * sign u)%R - rc (epsilon p + e)%R)%C end.
  2:{ apply ceq; unfold cadd, csub, cmul, rc, ci; cbn [fst snd]; field. }
  unfold cquot. destruct (Req_EM_T _ 0) as [E|E].
  - exfalso. unfold norm, csub, cmul, ci, rc in E. cbn [fst snd] in E. pose proof (Rsqr_pos_lt _ Nz) as Q. unfold Rsqr in Q. set (X := u + _) in *. set (Y := epsilon p + e) in *. nra.
  - f_equal. unfold cdecayed. set (z := cinv _). apply ceq; unfold cmul, rc; cbn [fst snd]; ring.
Qed.
Print Assumptions C113_propagator_complex.

Theorem C113_complex_partial : forall w vmin vmax Delta e, 0 <= Delta -> Rabs w / 2 < vmax -> Rabs w / 2 < - vmin ->
  ctails (cbubble_at (cdecayed Delta e) w) vmin vmax (AT_REG2_NoPHS w vmin vmax (rc e) Delta false).
Proof.
  intros w vmin vmax Delta e HD H1 H2. destruct (half_bounds w _ H1) as (Hv & Hb). destruct (half_bounds w _ H2) as (Hv2 & Hb2).
  rewrite at_nophs by assumption. apply ctails_of.
  - apply cat_aux; try assumption. intros x Hx. unfold cbubble_at. rewrite !cdecayed_pos by lra. apply prod_above; lra.
  - apply cat_aux; try assumption. intros x Hx. unfold cbubble_at. rewrite !cdecayed_neg by lra.
    replace (- (- x - w / 2) + Delta) with (x + w / 2 + Delta) by lra. replace (- (- x + w / 2) + Delta) with (x - w / 2 + Delta) by lra.
    rewrite prod_below by lra. do 2 f_equal. apply ceq; unfold cmul; cbn [fst snd]; ring.
Qed.
Print Assumptions C113_complex_partial.

Definition cp_tail (w v Delta e : R) : comp := cdiv (clog ((v + w / 2 + Delta)%R, e) - clog ((v - w / 2 + Delta)%R, - e)%R)%C (w, 2 * e).
Lemma cp_aux w v Delta e (f : R -> comp) : 0 <= Delta -> Rabs w / 2 < v -> (w <> 0 \/ e <> 0) ->
  (forall x, v <= x -> f x = cinv (cmul (x + w / 2 + Delta, e) (x - w / 2 + Delta, - e))) -> ctail_above f v (cp_tail w v Delta e).
Proof.
  intros HD Hw Ne Hf. destruct (half_bounds w v Hw) as (Hv & Hb). unfold cp_tail.
  pose proof (ctail_pair ((w / 2 + Delta), e) ((- w / 2 + Delta), - e) v) as Q. unfold cadd, rc in Q. cbn [fst snd] in Q. rewrite !Rplus_0_l in Q.
  specialize (Q ltac:(unfold norm, csub; cbn [fst snd]; intros Z0; destruct Ne as [P0|P0]; apply Rsqr_pos_lt in P0; unfold Rsqr in P0; nra) ltac:(lra) ltac:(lra)).
  replace (w, 2 * e) with (((w / 2 + Delta)%R, e) - ((- w / 2 + Delta)%R, (- e)%R))%C by (apply ceq; unfold csub; cbn [fst snd]; lra).
  replace (v + w / 2 + Delta) with (v + (w / 2 + Delta)) by lra. replace (v - w / 2 + Delta) with (v + (- w / 2 + Delta)) by lra.
  eapply ctail_ext; [|exact Q]. intros x Hx. cbv beta. rewrite (Hf x Hx).
  replace (x + w / 2 + Delta) with (x + (w / 2 + Delta)) by lra. replace (x - w / 2 + Delta) with (x + (- w / 2 + Delta)) by lra. reflexivity.
Qed.
Lemma cbubble_p_above w v Delta e x : 0 <= Delta -> Rabs w / 2 < v -> v <= x ->
  cbubble_p (cdecayed Delta e) w x = cinv (cmul (x + w / 2 + Delta, e) (x - w / 2 + Delta, - e)) /\
  cbubble_p (cdecayed Delta e) w (- x) = cinv (cmul (x + w / 2 + Delta, e) (x - w / 2 + Delta, - e)).
Proof.
  intros HD Hw Hx. destruct (half_bounds w v Hw) as (Hv & Hb). unfold cbubble_p. split.
  - rewrite cdecayed_pos, cdecayed_neg by lra. rewrite prod_pair by lra. replace (w / 2 + x + Delta) with (x + w / 2 + Delta) by lra. replace (- (w / 2 - x) + Delta) with (x - w / 2 + Delta) by lra. reflexivity.
  - replace (w / 2 - - x) with (w / 2 + x) by lra. replace (w / 2 + - x) with (w / 2 - x) by lra.
    replace (cmul (cdecayed Delta e (w / 2 - x)) (cdecayed Delta e (w / 2 + x))) with (cmul (cdecayed Delta e (w / 2 + x)) (cdecayed Delta e (w / 2 - x)))
      by (apply ceq; unfold cmul; cbn [fst snd]; ring).
    rewrite cdecayed_pos, cdecayed_neg by lra. rewrite prod_pair by lra. replace (w / 2 + x + Delta) with (x + w / 2 + Delta) by lra. replace (- (w / 2 - x) + Delta) with (x - w / 2 + Delta) by lra. reflexivity.
Qed.
Lemma p_nophs w vmin vmax Delta e : 0 <= Delta -> Rabs w / 2 < vmax -> Rabs w / 2 < - vmin -> (w <> 0 \/ e <> 0) ->
  - PI < carg (- vmin + w / 2 + Delta, e) + carg (vmax + w / 2 + Delta, e) - (carg (- vmin - w / 2 + Delta, - e) + carg (vmax - w / 2 + Delta, - e)) <= PI ->
  P_REG2_NoPHS w vmin vmax (rc e) Delta false = (cp_tail w vmax Delta e + cp_tail w (- vmin) Delta e)%C.
Proof.
  intros HD H1 H2 Ne Hr. destruct (half_bounds w _ H1) as (Hv & Hb). destruct (half_bounds w _ H2) as (Hv2 & Hb2). unfold P_REG2_NoPHS. cbv zeta.
  replace (if Req_EM_T (fst (rc e)) 0 then if Req_EM_T (snd (rc e)) 0 then if Req_EM_T w 0 then true else false else false else false) with false.
  2:{ cbn [fst snd rc]. destruct (Req_EM_T e 0) as [->|]; [|reflexivity]. destruct (Req_EM_T 0 0); [|reflexivity]. destruct (Req_EM_T w 0) as [->|]; [|reflexivity]. destruct Ne; contradiction. }
  set (z1 := (- vmin + w / 2 + Delta, e)) in *. set (z2 := (vmax + w / 2 + Delta, e)) in *. set (z3 := (- vmin - w / 2 + Delta, - e)) in *. set (z4 := (vmax - w / 2 + Delta, - e)) in *.
  replace (rc (- vmin + Delta) + (rc (w / 2) + ci * rc e))%C with z1 by (apply ceq; unfold z1, cadd, csub, cmul, rc, ci; cbn [fst snd]; ring).
  replace (rc (vmax + Delta) + (rc (w / 2) + ci * rc e))%C with z2 by (apply ceq; unfold z2, cadd, csub, cmul, rc, ci; cbn [fst snd]; ring).
  replace (rc (- vmin + Delta) - (rc (w / 2) + ci * rc e))%C with z3 by (apply ceq; unfold z3, cadd, csub, cmul, rc, ci; cbn [fst snd]; ring).
  replace (rc (vmax + Delta) - (rc (w / 2) + ci * rc e))%C with z4 by (apply ceq; unfold z4, cadd, csub, cmul, rc, ci; cbn [fst snd]; ring).
  rewrite clog_quot4; [|unfold z1; cbn [fst]; lra|unfold z2; cbn [fst]; lra|unfold z3; cbn [fst]; lra|unfold z4; cbn [fst]; lra|exact Hr].
  unfold cp_tail. fold z1 z2 z3 z4. set (L1 := clog z1). set (L2 := clog z2). set (L3 := clog z3). set (L4 := clog z4).
  replace (rc w + rc 2 * ci * rc e)%C with (w, 2 * e) by (apply ceq; unfold cadd, csub, cmul, rc, ci; cbn [fst snd]; ring).
  unfold cdiv. set (k := cinv _). apply ceq; unfold cmul, cadd, csub, rc; cbn [fst snd]; ring.
Qed.
Lemma arg_small e p : Rabs e < p -> - (PI / 4) < carg (p, e) < PI / 4.
Proof.
  intros H. assert (Hp : 0 < p) by (pose proof (Rabs_pos e); lra). apply Rabs_def2 in H. unfold carg. cbn [fst snd]. destruct (Rlt_dec 0 p); [|contradiction].
  rewrite <- atan_1. rewrite <- atan_opp. assert (0 < / p) by (apply Rinv_0_lt_compat; assumption). assert (p * / p = 1) by (field; lra). split; apply atan_increasing; unfold Rdiv; nra.
Qed.
(** in the p channel the logarithm is the right one as long as |eps| is below the propagators' smallest denominators *)
Theorem C113_complex_p_partial : forall w vmin vmax Delta e, 0 <= Delta -> Rabs w / 2 < vmax -> Rabs w / 2 < - vmin ->
  Rabs e < vmax - Rabs w / 2 + Delta -> Rabs e < - vmin - Rabs w / 2 + Delta ->
  ctails (cbubble_p (cdecayed Delta e) w) vmin vmax (P_REG2_NoPHS w vmin vmax (rc e) Delta false).
Proof.
  intros w vmin vmax Delta e HD H1 H2 He1 He2. destruct (half_bounds w _ H1) as (Hv & Hb). destruct (half_bounds w _ H2) as (Hv2 & Hb2).
  destruct (Req_EM_T w 0) as [E|Ne]; [destruct (Req_EM_T e 0) as [E'|Ne]|].
  - subst w e.
    assert (X : forall v, 0 < v -> ctail_above (fun x => cinv ((rc x + (Delta, 0)) * (rc x + (Delta, 0)))%C) v (cinv (rc v + (Delta, 0))%C)) by (intros v Hv3; apply ctail_square; cbn [fst]; lra).
    replace (P_REG2_NoPHS 0 vmin vmax (rc 0) Delta false) with (cinv (rc vmax + (Delta, 0)%R)%C + cinv (rc (- vmin) + (Delta, 0)%R)%C)%C.
    + apply ctails_of; (eapply ctail_ext; [|apply X; lra]); intros x Hx; cbv beta.
      * rewrite (proj1 (cbubble_p_above 0 vmax Delta 0 x HD H1 Hx)). f_equal. apply ceq; unfold cmul, cadd, rc; cbn [fst snd]; lra.
      * rewrite (proj2 (cbubble_p_above 0 (- vmin) Delta 0 x HD H2 Hx)). f_equal. apply ceq; unfold cmul, cadd, rc; cbn [fst snd]; lra.
    + unfold P_REG2_NoPHS. cbn [fst snd rc]. destruct (Req_EM_T 0 0); [|contradiction]. apply ceq; unfold cinv, norm, cadd, rc; cbn [fst snd]; field; split; nra.
  - rewrite p_nophs; [|assumption|assumption|assumption|right; assumption|].
    + apply ctails_of; (apply cp_aux; [assumption|assumption|right; assumption|]); intros x Hx; [apply (proj1 (cbubble_p_above w vmax Delta e x HD H1 Hx))|apply (proj2 (cbubble_p_above w (- vmin) Delta e x HD H2 Hx))].
    + pose proof (arg_small e (- vmin + w / 2 + Delta) ltac:(rewrite E, Rabs_R0 in *; lra)). pose proof (arg_small e (vmax + w / 2 + Delta) ltac:(rewrite E, Rabs_R0 in *; lra)).
      pose proof (arg_small (- e) (- vmin - w / 2 + Delta) ltac:(rewrite Rabs_Ropp; rewrite E, Rabs_R0 in *; lra)).
      pose proof (arg_small (- e) (vmax - w / 2 + Delta) ltac:(rewrite Rabs_Ropp; rewrite E, Rabs_R0 in *; lra)). lra.
  - rewrite p_nophs; [|assumption|assumption|assumption|left; assumption|].
    + apply ctails_of; (apply cp_aux; [assumption|assumption|left; assumption|]); intros x Hx; [apply (proj1 (cbubble_p_above w vmax Delta e x HD H1 Hx))|apply (proj2 (cbubble_p_above w (- vmin) Delta e x HD H2 Hx))].
    + assert (A : - Rabs w <= w <= Rabs w) by (pose proof (Rle_abs w); pose proof (Rle_abs (- w)); rewrite Rabs_Ropp in *; lra).
      pose proof (arg_small e (- vmin + w / 2 + Delta) ltac:(lra)). pose proof (arg_small e (vmax + w / 2 + Delta) ltac:(lra)).
      pose proof (arg_small (- e) (- vmin - w / 2 + Delta) ltac:(rewrite Rabs_Ropp; lra)). pose proof (arg_small (- e) (vmax - w / 2 + Delta) ltac:(rewrite Rabs_Ropp; lra)). lra.
Qed.
Print Assumptions C113_complex_p_partial.

(** beyond that range the logarithm of the product is on the wrong branch *)
Lemma carg_le_PI z : carg z <= PI.
Proof.
  pose proof PI_RGT_0. unfold carg. pose proof (atan_bound (snd z / fst z)) as B.
  destruct (Rlt_dec 0 (fst z)); [lra|]. destruct (Rlt_dec (fst z) 0) as [L|L].
  - destruct (Rle_dec 0 (snd z)) as [G|G]; [|lra]. assert (snd z / fst z <= 0). { assert (/ fst z < 0) by (apply Rinv_lt_0_compat; exact L). unfold Rdiv. nra. }
    assert (atan (snd z / fst z) <= 0); [|lra]. destruct (Req_EM_T (snd z / fst z) 0) as [->|N0]; [rewrite atan_0; lra|]. rewrite <- atan_0. left. apply atan_increasing. lra.
  - destruct (Rlt_dec 0 (snd z)); [lra|]. destruct (Rlt_dec (snd z) 0); lra.
Qed.
Theorem C113_branch_refuted : forall V Delta e, 0 < V -> 0 <= Delta -> V + Delta < e ->
  (exists I, ctails (cbubble_p (cdecayed Delta e) 0) (- V) V I) /\
  ~ ctails (cbubble_p (cdecayed Delta e) 0) (- V) V (P_REG2_NoPHS 0 (- V) V (rc e) Delta false).
Proof.
  intros V Delta e HV HD He. assert (H1 : Rabs 0 / 2 < V) by (rewrite Rabs_R0; lra).
  assert (T : ctails (cbubble_p (cdecayed Delta e) 0) (- V) V (cp_tail 0 V Delta e + cp_tail 0 (- - V) Delta e)%C).
  { rewrite Ropp_involutive. apply ctails_of; rewrite ?Ropp_involutive; (apply cp_aux; [assumption|assumption|right; lra|]); intros x Hx; [apply (proj1 (cbubble_p_above 0 V Delta e x HD H1 Hx))|apply (proj2 (cbubble_p_above 0 V Delta e x HD H1 Hx))]. }
  split; [eexists; exact T|]. intros [A _]. destruct T as [B _]. pose proof (tails_unique _ _ _ _ _ A B) as E. clear A B. rewrite Ropp_involutive in E.
  unfold P_REG2_NoPHS in E. cbn [fst snd rc] in E. destruct (Req_EM_T e 0); [lra|].
  match type of E with fst (cdiv _ ?d * clog ?q)%C = _ => set (Q := q) in E; replace d with (0, 2 * e) in E by (apply ceq; unfold cadd, cmul, rc, ci; cbn [fst snd]; ring) end.
  pose proof (carg_le_PI Q) as UB. unfold clog at 1 in E. unfold cp_tail, cdiv, cinv, norm, cmul, cadd, csub, rc, clog in E. cbn [fst snd] in E.
  assert (K : forall s, carg (V + s + Delta, - e) = - carg (V - s + Delta, e) \/ s <> 0).
  { intros s. destruct (Req_EM_T s 0) as [->|]; [left|right; assumption]. unfold carg. cbn [fst snd]. replace (V - 0) with (V + 0) by ring. destruct (Rlt_dec 0 (V + 0 + Delta)); [|lra].
    unfold Rdiv. rewrite Ropp_mult_distr_l_reverse. apply atan_opp. }
  assert (G : PI / 4 < carg (V + Delta, e)).
  { unfold carg. cbn [fst snd]. destruct (Rlt_dec 0 (V + Delta)); [|lra]. rewrite <- atan_1. apply atan_increasing.
    assert (0 < / (V + Delta)) by (apply Rinv_0_lt_compat; lra). assert ((V + Delta) * / (V + Delta) = 1) by (field; lra). unfold Rdiv. nra. }
  replace (V + 0 / 2 + Delta) with (V + Delta) in E by lra. replace (V - 0 / 2 + Delta) with (V + Delta) in E by lra.
  assert (K0 : carg (V + Delta, - e) = - carg (V + Delta, e)).
  { destruct (K 0) as [K0|K0]; [|lra]. replace (V + 0 + Delta) with (V + Delta) in K0 by lra. replace (V - 0 + Delta) with (V + Delta) in K0 by lra. exact K0. }
  rewrite K0 in E. set (a := carg (V + Delta, e)) in *. set (q := carg Q) in *.
  set (l1 := ln _) in E. set (l2 := ln _) in E. set (l3 := ln _) in E.
  assert (F : forall x y l l', (1 * (0 / (0 * 0 + 2 * e * (2 * e))) - 0 * (- (2 * e) / (0 * 0 + 2 * e * (2 * e)))) * l - (1 * (- (2 * e) / (0 * 0 + 2 * e * (2 * e))) + 0 * (0 / (0 * 0 + 2 * e * (2 * e)))) * x =
     l' * (0 / (0 * 0 + 2 * e * (2 * e))) - (y - - y) * (- (2 * e) / (0 * 0 + 2 * e * (2 * e))) + (l' * (0 / (0 * 0 + 2 * e * (2 * e))) - (y - - y) * (- (2 * e) / (0 * 0 + 2 * e * (2 * e)))) -> x = 4 * y).
  { intros x y l l' H0. replace (- (2 * e) / (0 * 0 + 2 * e * (2 * e))) with (- / (2 * e)) in H0 by (field; lra). replace (0 / (0 * 0 + 2 * e * (2 * e))) with 0 in H0 by (field; lra).
    assert (H3 : / (2 * e) * x = / (2 * e) * (4 * y)) by lra. apply (Rmult_eq_reg_l (/ (2 * e))); [exact H3|]. apply Rinv_neq_0_compat. lra. }
  apply F in E. lra.
Qed.
Print Assumptions C113_branch_refuted.

(** the derivatives with respect to the flow parameter *)
Lemma dhalf Gamma Lambda F l : derivable_pt_lim F ((Gamma + Lambda) / 2) l -> derivable_pt_lim (fun L => F ((Gamma + L) / 2)) Lambda (l * (1 / 2)).
Proof.
  intros H. apply (derivable_pt_lim_comp (fun L => (Gamma + L) / 2) F Lambda (1 / 2) l); [|exact H].
  apply (dlim_ext (fun L => / 2 * (L + Gamma)) _ _ _ 1); [lra|intros; field|]. apply (dlim_eq _ _ (/ 2 * 1)); [field|]. apply dlim_scal, dlim_shift.
Qed.
Lemma dlog_half Gamma Lambda p e : 0 < p + (Gamma + Lambda) / 2 ->
  derivable_pt_lim (fun L => fst (clog (p + (Gamma + L) / 2, e))) Lambda (fst (cinv (p + (Gamma + Lambda) / 2, e)) * (1 / 2)) /\
  derivable_pt_lim (fun L => snd (clog (p + (Gamma + L) / 2, e))) Lambda (snd (cinv (p + (Gamma + Lambda) / 2, e)) * (1 / 2)).
Proof.
  intros H. assert (E : forall y, (rc y + (p, e))%C = (p + y, e)) by (intros y; apply ceq; unfold cadd, rc; cbn [fst snd]; ring). split.
  - apply (dhalf Gamma Lambda (fun y => fst (clog (p + y, e)))). rewrite <- E. apply (dlim_ext (fun y => fst (clog (rc y + (p, e))%C)) _ _ _ 1); [lra|intros y _; rewrite E; reflexivity|]. apply clog_re_deriv. cbn [fst]. lra.
  - apply (dhalf Gamma Lambda (fun y => snd (clog (p + y, e)))). rewrite <- E. apply (dlim_ext (fun y => snd (clog (rc y + (p, e))%C)) _ _ _ 1); [lra|intros y _; rewrite E; reflexivity|]. apply clog_im_deriv. cbn [fst]. lra.
Qed.
Definition cderivable (f : R -> comp) (x : R) (l : comp) : Prop := derivable_pt_lim (fun y => fst (f y)) x (fst l) /\ derivable_pt_lim (fun y => snd (f y)) x (snd l).
Lemma cderivable_ext f g x l d : 0 < d -> (forall y, Rabs (y - x) < d -> f y = g y) -> cderivable f x l -> cderivable g x l.
Proof. intros Hd E [A B]. split; (eapply dlim_ext; [exact Hd| |eassumption]); intros y Hy; cbv beta; rewrite (E y Hy); reflexivity. Qed.
Lemma cderivable_plus f g x l m : cderivable f x l -> cderivable g x m -> cderivable (fun y => f y + g y)%C x (l + m)%C.
Proof. intros [A B] [A' B']. split; unfold cadd; cbn [fst snd]; apply dlim_plus; assumption. Qed.
Lemma cderivable_log_diff Gamma Lambda p q e d k : 0 < p + (Gamma + Lambda) / 2 -> 0 < q + (Gamma + Lambda) / 2 ->
  cderivable (fun L => (clog ((p + (Gamma + L) / 2)%R, e) - clog ((q + (Gamma + L) / 2)%R, d)) * k)%C Lambda
    (rc (1 / 2) * ((cinv ((p + (Gamma + Lambda) / 2)%R, e) - cinv ((q + (Gamma + Lambda) / 2)%R, d)) * k))%C.
Proof.
  intros Hp Hq. destruct (dlog_half Gamma Lambda p e Hp) as [A B]. destruct (dlog_half Gamma Lambda q d Hq) as [A' B']. split; unfold cmul, csub, rc; cbn [fst snd].
  - apply (dlim_ext (fun L => fst k * (fst (clog (p + (Gamma + L) / 2, e)) - fst (clog (q + (Gamma + L) / 2, d))) + - snd k * (snd (clog (p + (Gamma + L) / 2, e)) - snd (clog (q + (Gamma + L) / 2, d)))) _ _ _ 1); [lra|intros; ring|].
    eapply dlim_eq; [|apply dlim_plus; apply dlim_scal, dlim_minus; eassumption]. ring.
  - apply (dlim_ext (fun L => snd k * (fst (clog (p + (Gamma + L) / 2, e)) - fst (clog (q + (Gamma + L) / 2, d))) + fst k * (snd (clog (p + (Gamma + L) / 2, e)) - snd (clog (q + (Gamma + L) / 2, d)))) _ _ _ 1); [lra|intros; ring|].
    eapply dlim_eq; [|apply dlim_plus; apply dlim_scal, dlim_minus; eassumption]. ring.
Qed.
Theorem C113_complex_derivative_partial : forall w vmin vmax Gamma Lambda e, 0 <= Gamma -> 0 < Lambda -> Rabs w / 2 < vmax -> Rabs w / 2 < - vmin -> w <> 0 ->
  cderivable (fun L => AT_REG2_NoPHS w vmin vmax (rc e) ((Gamma + L) / 2) false) Lambda (AT_REG2_NoPHS w vmin vmax (rc e) ((Gamma + Lambda) / 2) true).
Proof.
  intros w vmin vmax Gamma Lambda e HG HL H1 H2 Ne. destruct (half_bounds w _ H1) as (Hv & Hb). destruct (half_bounds w _ H2) as (Hv2 & Hb2). set (D := (Gamma + Lambda) / 2).
  assert (X : forall v u, Rabs w / 2 < v -> cderivable (fun L => cat_tail w v ((Gamma + L) / 2) u) Lambda (rc (1 / 2) * cdiv (rc 1) (cpow2 (rc v + ci * rc u + rc D) - rc ((w / 2) ^ 2)))%C).
  { intros v u Hw. destruct (half_bounds w _ Hw) as (Hv3 & Hb3). assert (HD : 0 < D) by (unfold D; lra).
    assert (E : (rc (1 / 2) * cdiv (rc 1) (cpow2 (rc v + ci * rc u + rc D) - rc ((w / 2) ^ 2)))%C
      = (rc (1 / 2) * ((cinv ((v - w / 2 + D)%R, u) - cinv ((v + w / 2 + D)%R, u)) * rc (/ w)))%C).
    { f_equal. replace (cpow2 (rc v + ci * rc u + rc D) - rc ((w / 2) ^ 2))%C with (cmul (v - w / 2 + D, u) (v + w / 2 + D, u)).
      2:{ apply ceq; unfold cpow2, cmul, csub, cadd, rc, ci; cbn [fst snd]; field. }
      unfold cdiv. rewrite inv_pair.
      - set (P := cinv _). set (Q := cinv (_, _)). apply ceq; unfold cdiv, cinv, norm, copp, cmul, csub, rc; cbn [fst snd]; field; nra.
      - apply Rgt_not_eq, norm_pos. cbn [fst]. lra.
      - apply Rgt_not_eq, norm_pos. cbn [fst]. lra.
      - unfold norm, csub. cbn [fst snd]. pose proof (Rsqr_pos_lt w Ne) as P. unfold Rsqr in P. nra. }
    rewrite E. unfold D. eapply (cderivable_ext _ _ _ _ 1); [lra| |apply cderivable_log_diff; fold D; lra].
    intros L _. cbv beta. unfold cat_tail. destruct (Req_EM_T w 0); [contradiction|]. apply ceq; unfold cmul, rc; cbn [fst snd]; ring. }
  apply (cderivable_ext (fun L => cat_tail w vmax ((Gamma + L) / 2) e + cat_tail w (- vmin) ((Gamma + L) / 2) (- e))%C _ _ _ Lambda); [exact HL| |].
  - intros L HL2. apply Rabs_def2 in HL2. symmetry. apply at_nophs; try assumption. lra.
  - replace (AT_REG2_NoPHS w vmin vmax (rc e) D true) with
      (rc (1 / 2) * cdiv (rc 1) (cpow2 (rc vmax + ci * rc e + rc D) - rc ((w / 2) ^ 2)) + rc (1 / 2) * cdiv (rc 1) (cpow2 (rc (- vmin)%R + ci * rc (- e)%R + rc D) - rc ((w / 2) ^ 2)))%C.
    + apply cderivable_plus; apply X; assumption.
    + unfold AT_REG2_NoPHS. replace (rc (- vmin) + ci * rc (- e)%R + rc D)%C with (rc (- vmin) - ci * rc e + rc D)%C by (apply ceq; unfold cadd, csub, cmul, rc, ci; cbn [fst snd]; ring).
      set (P := cdiv _ _). set (Q := cdiv _ _). apply ceq; unfold cmul, cadd, rc; cbn [fst snd]; ring.
Qed.
Print Assumptions C113_complex_derivative_partial.

(** p channel: what the code returns for the differentiated bubble is minus the derivative *)
Theorem C113_complex_p_sign_refuted : forall w vmin vmax Gamma Lambda e, 0 <= Gamma -> 0 < Lambda -> Rabs w / 2 < vmax -> Rabs w / 2 < - vmin -> w <> 0 \/ e <> 0 ->
  Rabs e < vmax - Rabs w / 2 + Gamma / 2 -> Rabs e < - vmin - Rabs w / 2 + Gamma / 2 ->
  cderivable (fun L => P_REG2_NoPHS w vmin vmax (rc e) ((Gamma + L) / 2) false) Lambda (copp (P_REG2_NoPHS w vmin vmax (rc e) ((Gamma + Lambda) / 2) true)) /\
  ~ cderivable (fun L => P_REG2_NoPHS w vmin vmax (rc e) ((Gamma + L) / 2) false) Lambda (P_REG2_NoPHS w vmin vmax (rc e) ((Gamma + Lambda) / 2) true).
Proof.
  intros w vmin vmax Gamma Lambda e HG HL H1 H2 Ne He1 He2. destruct (half_bounds w _ H1) as (Hv & Hb). destruct (half_bounds w _ H2) as (Hv2 & Hb2). set (D := (Gamma + Lambda) / 2).
  assert (HD : 0 < D) by (unfold D; lra).
  assert (X : forall v, Rabs w / 2 < v -> cderivable (fun L => cp_tail w v ((Gamma + L) / 2) e) Lambda (copp (rc (1 / 2) * cdiv (rc 1) (rc ((v + D) ^ 2) - cpow2 (rc (w / 2) + ci * rc e))))%C).
  { intros v Hw. destruct (half_bounds w _ Hw) as (Hv3 & Hb3).
    assert (E : (copp (rc (1 / 2) * cdiv (rc 1) (rc ((v + D) ^ 2) - cpow2 (rc (w / 2) + ci * rc e))))%C
      = (rc (1 / 2) * ((cinv ((v + w / 2 + D)%R, e) - cinv ((v - w / 2 + D)%R, (- e)%R)) * cinv (w, (2 * e)%R)))%C).
    { replace (rc ((v + D) ^ 2) - cpow2 (rc (w / 2) + ci * rc e))%C with (cmul (v + w / 2 + D, e) (v - w / 2 + D, - e)).
      2:{ apply ceq; unfold cpow2, cmul, csub, cadd, rc, ci; cbn [fst snd]; field. }
      unfold cdiv. rewrite inv_pair.
      - unfold cdiv. replace (csub (v + w / 2 + D, e) (v - w / 2 + D, - e)) with (w, 2 * e) by (apply ceq; unfold csub; cbn [fst snd]; lra).
        set (P := cinv _). set (Q := cinv (_, - e)). set (k := cinv (w, _)). apply ceq; unfold copp, cmul, csub, rc; cbn [fst snd]; ring.
      - apply Rgt_not_eq, norm_pos. cbn [fst]. lra.
      - apply Rgt_not_eq, norm_pos. cbn [fst]. lra.
      - unfold norm, csub. cbn [fst snd]. intros Z0; destruct Ne as [P0|P0]; apply Rsqr_pos_lt in P0; unfold Rsqr in P0; nra. }
    rewrite E. unfold D. eapply (cderivable_ext _ _ _ _ 1); [lra| |apply cderivable_log_diff; fold D; lra].
    intros L _. cbv beta. reflexivity. }
  assert (T : cderivable (fun L => P_REG2_NoPHS w vmin vmax (rc e) ((Gamma + L) / 2) false) Lambda (copp (P_REG2_NoPHS w vmin vmax (rc e) D true))).
  { apply (cderivable_ext (fun L => cp_tail w vmax ((Gamma + L) / 2) e + cp_tail w (- vmin) ((Gamma + L) / 2) e)%C _ _ _ Lambda); [exact HL| |].
    - intros L HL2. apply Rabs_def2 in HL2. symmetry. apply p_nophs; try assumption; [lra|].
      assert (A : - Rabs w <= w <= Rabs w) by (pose proof (Rle_abs w); pose proof (Rle_abs (- w)); rewrite Rabs_Ropp in *; lra).
      pose proof (arg_small e (- vmin + w / 2 + (Gamma + L) / 2) ltac:(lra)). pose proof (arg_small e (vmax + w / 2 + (Gamma + L) / 2) ltac:(lra)).
      pose proof (arg_small (- e) (- vmin - w / 2 + (Gamma + L) / 2) ltac:(rewrite Rabs_Ropp; lra)). pose proof (arg_small (- e) (vmax - w / 2 + (Gamma + L) / 2) ltac:(rewrite Rabs_Ropp; lra)). lra.
    - match goal with |- cderivable _ _ ?x => replace x with
        (copp (rc (1 / 2) * cdiv (rc 1) (rc ((vmax + D) ^ 2) - cpow2 (rc (w / 2) + ci * rc e))) + copp (rc (1 / 2) * cdiv (rc 1) (rc ((- vmin + D) ^ 2)%R - cpow2 (rc (w / 2) + ci * rc e))))%C end.
      + apply cderivable_plus; apply X; assumption.
      + unfold P_REG2_NoPHS. cbv zeta. set (P := cdiv _ _). set (Q := cdiv _ _). apply ceq; unfold copp, cmul, cadd, rc; cbn [fst snd]; ring. }
  split; [exact T|]. intros [U _]. destruct T as [T _]. pose proof (uniqueness_limite _ _ _ _ T U) as E. clear T U X.
  (* the real part of each term has the sign of (v + D)^2 - (w/2)^2 + e^2 *)
  assert (P : forall v, Rabs w / 2 < v -> 0 < fst (cdiv (rc 1) (rc ((v + D) ^ 2) - cpow2 (rc (w / 2) + ci * rc e))%C)).
  { intros v Hw. destruct (half_bounds w _ Hw) as (Hv3 & Hb3). assert (0 < (v + w / 2 + D) * (v - w / 2 + D)) by (apply Rmult_lt_0_compat; lra). unfold cdiv, cinv.
    match goal with |- context[norm ?z] => assert (Hz : 0 < fst z) end.
    { unfold csub, cpow2, cmul, cadd, rc, ci. cbn [fst snd]. nra. }
    pose proof (norm_pos _ Hz) as Hn. assert (0 < / norm (rc ((v + D) ^ 2) - cpow2 (rc (w / 2) + ci * rc e))%C) by (apply Rinv_0_lt_compat; exact Hn).
    match goal with |- context[norm ?z] => set (Z := z) in * end. unfold cmul, rc, Rdiv. cbn [fst snd]. nra. }
  pose proof (P _ H1) as P1. pose proof (P _ H2) as P2. unfold P_REG2_NoPHS in E. cbv zeta in E. unfold copp in E. cbn [fst snd] in E.
  clear P. match type of P1 with 0 < fst ?z => set (A := z) in * end. match type of P2 with 0 < fst ?z => set (B := z) in * end.
  unfold cmul, cadd, rc in E. cbn [fst snd] in E. lra.
Qed.
Print Assumptions C113_complex_p_sign_refuted.
