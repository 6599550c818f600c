(** C113: analytic tails of the bubble integrals. *)
From Coq Require Import Reals Lra.
From Verif Require Import Prelude Gf_Model Tail_Model Tail_Spec Tail_Proofs.
Open Scope R_scope.

Lemma sign_pos x : 0 < x -> sign x = 1.
Proof. intros H. unfold sign. destruct (Rlt_dec 0 x); [|lra]. destruct (Rlt_dec x 0); lra. Qed.
Lemma sign_neg x : x < 0 -> sign x = -1.
Proof. intros H. unfold sign. destruct (Rlt_dec 0 x); [lra|]. destruct (Rlt_dec x 0); lra. Qed.
Lemma half_bounds w v : Rabs w / 2 < v -> 0 < v /\ - v < w / 2 < v.
Proof. intros H. pose proof (Rabs_pos w). pose proof (Rle_abs w). pose proof (Rle_abs (- w)). rewrite Rabs_Ropp in *. lra. Qed.
Lemma decayed_pos Delta x : 0 < x -> decayed Delta x = / (x + Delta).
Proof. intros H. unfold decayed. rewrite (sign_pos x H). f_equal. ring. Qed.
Lemma decayed_neg Delta x : x < 0 -> decayed Delta x = - / (- x + Delta).
Proof. intros H. unfold decayed. rewrite (sign_neg x H). rewrite <- Rinv_opp. f_equal. ring. Qed.
(** the integral above (or below, it is the same) *)
Definition half_tail (w v Delta : R) : R := if Req_EM_T w 0 then - / (v + Delta) else / w * ln ((v - w / 2 + Delta) / (v + w / 2 + Delta)).
Lemma half_above w v Delta : 0 <= Delta -> Rabs w / 2 < v -> tail_above (bubble_at (decayed Delta) w) v (half_tail w v Delta).
Proof.
  intros HD Hw. destruct (half_bounds w v Hw) as (Hv & Hw2). unfold half_tail.
  destruct (Req_EM_T w 0) as [->|Ne].
  - apply (tail_ext (fun x => -1 * / ((x + Delta) * (x + Delta)))).
    + intros x Hx. unfold bubble_at. rewrite !decayed_pos by lra. rewrite Rinv_mult. replace (x - 0 / 2) with x by lra. replace (x + 0 / 2) with x by lra. ring.
    + replace (- / (v + Delta)) with (-1 * / (v + Delta)) by ring. apply tail_scal, tail_square. lra.
  - apply (tail_ext (fun x => -1 * / ((x + (- w / 2 + Delta)) * (x + (w / 2 + Delta))))).
    + intros x Hx. unfold bubble_at. rewrite !decayed_pos by lra. rewrite Rinv_mult. replace (x + (- w / 2 + Delta)) with (x - w / 2 + Delta) by lra.
      replace (x + (w / 2 + Delta)) with (x + w / 2 + Delta) by lra. ring.
    + replace (/ w * ln ((v - w / 2 + Delta) / (v + w / 2 + Delta)))
        with (-1 * (/ ((- w / 2 + Delta) - (w / 2 + Delta)) * ln ((v + (- w / 2 + Delta)) / (v + (w / 2 + Delta))))).
      * apply tail_scal, tail_pair; lra.
      * replace (v + (- w / 2 + Delta)) with (v - w / 2 + Delta) by lra. replace (v + (w / 2 + Delta)) with (v + w / 2 + Delta) by lra. field. lra.
Qed.
Lemma bubble_at_even Delta w v x : Rabs w / 2 < v -> v <= x -> bubble_at (decayed Delta) w (- x) = bubble_at (decayed Delta) w x.
Proof.
  intros Hw Hx. destruct (half_bounds w v Hw) as (Hv & Hw2). unfold bubble_at. rewrite (decayed_pos _ (x - w / 2)), (decayed_pos _ (x + w / 2)) by lra.
  rewrite (decayed_neg _ (- x - w / 2)), (decayed_neg _ (- x + w / 2)) by lra.
  replace (- (- x - w / 2)) with (x + w / 2) by lra. replace (- (- x + w / 2)) with (x - w / 2) by lra. ring.
Qed.
Lemma half_both w vmin vmax Delta : 0 <= Delta -> Rabs w / 2 < vmax -> Rabs w / 2 < - vmin ->
  tails (bubble_at (decayed Delta) w) vmin vmax (half_tail w vmax Delta + half_tail w (- vmin) Delta).
Proof.
  intros HD H1 H2. exists (half_tail w vmax Delta), (half_tail w (- vmin) Delta). split; [apply half_above; assumption|]. split; [|reflexivity].
  unfold tail_below. eapply tail_ext; [|apply half_above; [exact HD|exact H2]]. intros x Hx. symmetry. apply (bubble_at_even Delta w (- vmin)); assumption.
Qed.
Lemma at_half w vmin vmax Delta : 0 <= Delta -> Rabs w / 2 < vmax -> Rabs w / 2 < - vmin ->
  AT_REG2_PHS w vmin vmax Delta false = half_tail w vmax Delta + half_tail w (- vmin) Delta.
Proof.
  intros HD H1 H2. destruct (half_bounds w _ H1) as (Hv & Hw). destruct (half_bounds w _ H2) as (Hv2 & Hw2). unfold AT_REG2_PHS, half_tail.
  destruct (Req_EM_T w 0); [field; lra|].
  assert (P1 : 0 < (vmax - w / 2 + Delta) / (vmax + w / 2 + Delta)) by (apply Rdiv_lt_0_compat; lra).
  assert (P2 : 0 < (- vmin - w / 2 + Delta) / (- vmin + w / 2 + Delta)) by (apply Rdiv_lt_0_compat; lra).
  rewrite <- Rmult_plus_distr_l, <- ln_mult by assumption. unfold Rdiv at 1. rewrite Rmult_1_l. f_equal. f_equal. field. lra.
Qed.
Lemma bubble_p_at Delta w v : w / 2 - v <> 0 -> bubble_p (decayed Delta) w v = - bubble_at (decayed Delta) w v.
Proof.
  intros Ne. unfold bubble_p, bubble_at. rewrite (Rplus_comm (w / 2) v). destruct (Rlt_dec (w / 2 - v) 0).
  - rewrite (decayed_neg _ (w / 2 - v)), (decayed_pos _ (v - w / 2)) by lra. replace (- (w / 2 - v)) with (v - w / 2) by ring. ring.
  - rewrite (decayed_pos _ (w / 2 - v)), (decayed_neg _ (v - w / 2)) by lra. replace (- (v - w / 2)) with (w / 2 - v) by ring. ring.
Qed.
Lemma tails_p Delta w vmin vmax I : Rabs w / 2 < vmax -> Rabs w / 2 < - vmin -> tails (bubble_at (decayed Delta) w) vmin vmax I ->
  tails (bubble_p (decayed Delta) w) vmin vmax (- I).
Proof.
  intros H1 H2 (J & K & A & B & ->). destruct (half_bounds w _ H1) as (Hv & Hw). destruct (half_bounds w _ H2) as (Hv2 & Hw2).
  exists (-1 * J), (-1 * K). split; [|split; [|ring]].
  - eapply tail_ext; [|apply tail_scal; exact A]. intros x Hx. cbv beta. rewrite bubble_p_at by lra. ring.
  - unfold tail_below in *. eapply tail_ext; [|apply tail_scal; exact B]. intros x Hx. cbv beta. rewrite bubble_p_at by lra. ring.
Qed.

(** ** C113 *)
(** the propagators of the Matsubara formalism at particle-hole symmetry, once the self-energy has decayed *)
Theorem C113_propagator : forall c p v, phs c = true -> keldysh c = false -> sigma p 0 v = rc 0 -> v <> 0 -> 0 <= Gamma p -> 0 <= Lambda p -> 0 < Temp p ->
  let u := scaled c p v in
  (reg c = 2%Z -> GM c p v = Some (rc (decayed ((Gamma p + Lambda p) / 2) u))) /\
  (reg c = 4%Z -> GM c p v = Some (rc (Lambda p * decayed (Gamma p / 2) u))).
Proof.
  intros c p v Hp Hk Hs Hv HG HL HT u.
  assert (Hu : (0 < v -> 0 < u /\ sign u = 1) /\ (v < 0 -> u < 0 /\ sign u = -1)).
  { unfold u, scaled. rewrite Hk. assert (F : 0 < (if negb false && negb (zero_t c) then PI * Temp p else 1)).
    { destruct (zero_t c); cbn; [lra|]. apply Rmult_lt_0_compat; [apply PI_RGT_0|exact HT]. }
    split; intros H.
    - assert (0 < v * (if negb false && negb (zero_t c) then PI * Temp p else 1)) by (apply Rmult_lt_0_compat; assumption). split; [assumption|]. apply sign_pos. assumption.
    - assert (v * (if negb false && negb (zero_t c) then PI * Temp p else 1) < 0) by nra. split; [assumption|]. apply sign_neg. assumption. }
  assert (Hd : forall D, 0 <= D -> u + D * sign u <> 0 /\ sign v = sign u).
  { intros D HD. destruct (Rtotal_order v 0) as [H|[H|H]]; [|contradiction|].
    - destruct (proj2 Hu H) as [A B]. rewrite B, (sign_neg v H). split; lra.
    - destruct (proj1 Hu H) as [A B]. rewrite B, (sign_pos v H). split; lra. }
  assert (Q : forall a x : R, x <> 0 -> cquot (rc a) (rc x) = Some (rc (a * / x))).
  { intros a x Hx. unfold cquot. destruct (Req_EM_T (norm (rc x)) 0) as [E|E]; [exfalso; unfold norm, rc in E; cbn in E; nra|].
    f_equal. unfold cmul, cinv, rc, norm. cbn. f_equal; field; intros H0; apply Hx; nra. }
  split; intros Hr; unfold GM; rewrite Hr; cbn [Z.eqb Pos.eqb].
  - unfold GM_REG2, G0M_inv. rewrite Hp, Hs. fold u. destruct (Hd ((Gamma p + Lambda p) / 2) ltac:(lra)) as [Ne ->].
    replace (rc (u + Gamma p * (1 / 2) * sign u) + rc (Lambda p * (1 / 2) * sign u) - rc 0)%C with (rc (u + (Gamma p + Lambda p) / 2 * sign u)).
    + rewrite Q by exact Ne. unfold decayed. do 2 f_equal. ring.
    + unfold cadd, csub, rc. cbn. f_equal; field.
  - unfold GM_REG4, G0M_inv. rewrite Hp, Hs. fold u. destruct (Hd (Gamma p / 2) ltac:(lra)) as [Ne ->].
    replace (rc (u + Gamma p * (1 / 2) * sign u) - rc (Lambda p) * rc 0)%C with (rc (u + Gamma p / 2 * sign u)).
    + rewrite Q by exact Ne. reflexivity.
    + unfold cadd, csub, cmul, rc. cbn. f_equal; field.
Qed.
Print Assumptions C113_propagator.

(** hybridisation and interaction regulators: the corrections are the integrals over the bubbles outside of the limits *)
Theorem C113_tails_partial : forall w vmin vmax Delta, 0 <= Delta -> Rabs w / 2 < vmax -> Rabs w / 2 < - vmin ->
  tails (bubble_at (decayed Delta) w) vmin vmax (AT_REG2_PHS w vmin vmax Delta false) /\
  tails (bubble_p (decayed Delta) w) vmin vmax (P_REG2_PHS w vmin vmax Delta false).
Proof.
  intros w vmin vmax Delta HD H1 H2. assert (A : tails (bubble_at (decayed Delta) w) vmin vmax (AT_REG2_PHS w vmin vmax Delta false)).
  { rewrite at_half by assumption. apply half_both; assumption. }
  split; [exact A|]. apply tails_p; assumption.
Qed.
Print Assumptions C113_tails_partial.

Lemma tails_scal c f vmin vmax I : tails f vmin vmax I -> tails (fun v => c * f v) vmin vmax (c * I).
Proof. intros (J & K & A & B & ->). exists (c * J), (c * K). split; [apply tail_scal; exact A|]. split; [unfold tail_below in *; apply (tail_scal c (fun x => f (- x))); exact B|ring]. Qed.
Lemma B_REG4_same w vmin vmax Delta : 0 <= Delta -> Rabs w / 2 < vmax -> Rabs w / 2 < - vmin -> w = 0 \/ tiny <= Rabs w ->
  B_REG4_PHS w vmin vmax Delta = AT_REG2_PHS w vmin vmax Delta false.
Proof.
  intros HD H1 H2 Hw. destruct (half_bounds w _ H1) as (Hv & Hb). destruct (half_bounds w _ H2) as (Hv2 & Hb2). unfold B_REG4_PHS, AT_REG2_PHS.
  assert (T0 : 0 < tiny) by (unfold tiny; apply Rinv_0_lt_compat, pow_lt; lra).
  destruct Hw as [->|Hw].
  - destruct (Rlt_dec (Rabs 0) tiny) as [_|N0]; [|rewrite Rabs_R0 in N0; lra]. destruct (Req_EM_T 0 0); [reflexivity|contradiction].
  - destruct (Rlt_dec (Rabs w) tiny); [lra|]. destruct (Req_EM_T w 0) as [E|E]; [rewrite E, Rabs_R0 in Hw; lra|].
    assert (P : forall x, 0 < x -> - ln x / w = 1 / w * ln (/ x)) by (intros x Hx; rewrite ln_Rinv by exact Hx; field; exact E).
    rewrite P.
    + do 2 f_equal. field. lra.
    + replace ((vmax + w * (1 / 2) + Delta) * (vmin - w * (1 / 2) - Delta) / ((vmax - w * (1 / 2) + Delta) * (vmin + w * (1 / 2) - Delta)))
        with (((vmax + w / 2 + Delta) * (- vmin + w / 2 + Delta)) / ((vmax - w / 2 + Delta) * (- vmin - w / 2 + Delta))) by (field; lra).
      apply Rdiv_lt_0_compat; apply Rmult_lt_0_compat; lra.
Qed.
Theorem C113_interaction_partial : forall w vmin vmax Delta Lambda, 0 <= Delta -> Rabs w / 2 < vmax -> Rabs w / 2 < - vmin -> w = 0 \/ tiny <= Rabs w ->
  tails (bubble_at (fun v => Lambda * decayed Delta v) w) vmin vmax (AT_REG4_PHS w vmin vmax Delta Lambda false) /\
  tails (bubble_p (fun v => Lambda * decayed Delta v) w) vmin vmax (P_REG4_PHS w vmin vmax Delta Lambda false) /\
  (forall diff, P_REG4_PHS w vmin vmax Delta Lambda diff = - AT_REG4_PHS w vmin vmax Delta Lambda diff).
Proof.
  intros w vmin vmax Delta Lambda HD H1 H2 Hw. destruct (C113_tails_partial w vmin vmax Delta HD H1 H2) as [A B].
  assert (X : forall f g I J, (forall v, f v = g v) -> I = J -> tails f vmin vmax I -> tails g vmin vmax J).
  { intros f g I J E -> (U & V & P & Q & ->). exists U, V. split; [eapply tail_ext; [|exact P]; intros; apply E|].
    split; [unfold tail_below in *; eapply tail_ext; [|exact Q]; intros; cbv beta; apply E|reflexivity]. }
  split; [|split].
  - eapply X; [| |apply (tails_scal (Lambda * Lambda)); exact A]; [intros v; unfold bubble_at; ring|]. unfold AT_REG4_PHS. rewrite B_REG4_same by assumption. ring.
  - eapply X; [| |apply (tails_scal (Lambda * Lambda)); exact B]; [intros v; unfold bubble_p; ring|]. unfold P_REG4_PHS, P_REG2_PHS. rewrite B_REG4_same by assumption. ring.
  - intros [|]; unfold P_REG4_PHS, AT_REG4_PHS; ring.
Qed.
Print Assumptions C113_interaction_partial.

(** the corrections for the differentiated bubble are the derivatives with respect to the flow parameter *)
Theorem C113_derivative_partial : forall w vmin vmax Gamma Lambda, 0 <= Gamma -> 0 < Lambda -> Rabs w / 2 < vmax -> Rabs w / 2 < - vmin ->
  derivable_pt_lim (fun L => AT_REG2_PHS w vmin vmax ((Gamma + L) / 2) false) Lambda (AT_REG2_PHS w vmin vmax ((Gamma + Lambda) / 2) true) /\
  derivable_pt_lim (fun L => P_REG2_PHS w vmin vmax ((Gamma + L) / 2) false) Lambda (P_REG2_PHS w vmin vmax ((Gamma + Lambda) / 2) true) /\
  derivable_pt_lim (fun L => AT_REG4_PHS w vmin vmax (Gamma / 2) L false) Lambda (AT_REG4_PHS w vmin vmax (Gamma / 2) Lambda true).
Proof.
  intros w vmin vmax Gamma Lambda HG HL H1 H2. destruct (half_bounds w _ H1) as (Hv & Hb). destruct (half_bounds w _ H2) as (Hv2 & Hb2).
  assert (DD : forall a, derivable_pt_lim (fun L => a + (Gamma + L) / 2) Lambda (1 / 2)).
  { intros a. apply (dlim_ext (fun L => / 2 * (L + (2 * a + Gamma))) _ _ _ 1); [lra|intros; field|]. apply (dlim_eq _ _ (/ 2 * 1)); [field|]. apply dlim_scal, dlim_shift. }
  assert (HF : forall v, Rabs w / 2 < v -> derivable_pt_lim (fun L => half_tail w v ((Gamma + L) / 2)) Lambda (1 / 2 * (1 / ((v + (Gamma + Lambda) / 2) ^ 2 - (w / 2) ^ 2)))).
  { intros v Hw. destruct (half_bounds w _ Hw) as (Hv3 & Hb3). unfold half_tail. destruct (Req_EM_T w 0) as [->|Ne].
    - apply (dlim_eq _ _ (- (- (1 / 2) / ((v + (Gamma + Lambda) / 2) * (v + (Gamma + Lambda) / 2))))); [field; lra|].
      apply dlim_opp, (dlim_inv (fun L => v + (Gamma + L) / 2)); [lra|apply DD].
    - set (A := v - w / 2 + (Gamma + Lambda) / 2). set (B := v + w / 2 + (Gamma + Lambda) / 2). assert (0 < A) by (unfold A; lra). assert (0 < B) by (unfold B; lra).
      apply (dlim_eq _ _ (/ w * (((1 / 2 * B - 1 / 2 * A) / (B * B)) / (A / B)))).
      { replace ((v + (Gamma + Lambda) / 2) ^ 2 - (w / 2) ^ 2) with (A * B) by (unfold A, B; field). replace w with (B - A) at 1 by (unfold A, B; lra).
        assert (B - A <> 0) by (unfold A, B; lra). field. repeat split; lra. }
      apply dlim_scal, (dlim_ln (fun L => (v - w / 2 + (Gamma + L) / 2) / (v + w / 2 + (Gamma + L) / 2))); [apply Rdiv_lt_0_compat; assumption|].
      apply (dlim_div (fun L => v - w / 2 + (Gamma + L) / 2) (fun L => v + w / 2 + (Gamma + L) / 2)); [fold B; lra|apply DD|apply DD]. }
  assert (A2 : derivable_pt_lim (fun L => AT_REG2_PHS w vmin vmax ((Gamma + L) / 2) false) Lambda (AT_REG2_PHS w vmin vmax ((Gamma + Lambda) / 2) true)).
  { apply (dlim_ext (fun L => half_tail w vmax ((Gamma + L) / 2) + half_tail w (- vmin) ((Gamma + L) / 2)) _ _ _ Lambda); [lra| |].
    - intros L HL2. apply Rabs_def2 in HL2. symmetry. apply at_half; try assumption. lra.
    - unfold AT_REG2_PHS. eapply dlim_eq; [|apply dlim_plus; [apply HF; exact H1|apply HF; exact H2]]. ring. }
  split; [exact A2|]. split; [apply dlim_opp; exact A2|].
  unfold AT_REG4_PHS. apply (dlim_eq _ _ ((1 * Lambda + Lambda * 1) * B_REG4_PHS w vmin vmax (Gamma / 2) + Lambda * Lambda * 0)); [ring|].
  apply (dlim_mult (fun L => L * L) (fun _ => B_REG4_PHS w vmin vmax (Gamma / 2))); [apply (dlim_mult (fun L => L) (fun L => L)); apply dlim_id|apply dlim_const].
Qed.
Print Assumptions C113_derivative_partial.
