(** C113: limits of the Matsubara sums, frequency cutoff, configurations. *)
From Coq Require Import Reals Lra ZArith Lia Ascii.
From Verif Require Import Prelude Gf_Model Tail_Model Tail_Spec Tail_Proofs Tail_Proofs2 Tail_Proofs3 Tail_Props Tail_Props2.
Open Scope R_scope.

(** the limits passed by the bubble function are outside of the poles for every bosonic frequency 2 W *)
Theorem C113_limits_partial : forall pos W corr T, (2 <= pos)%Z -> (corr = 0 \/ corr = -1)%Z -> 0 < T ->
  Rabs (IZR (2 * W) * (PI * T)) / 2 < IZR (vmax_temp pos W) * (PI * T) /\ Rabs (IZR (2 * W) * (PI * T)) / 2 < - (IZR (vmin_temp pos W corr) * (PI * T)).
Proof.
  intros pos W corr T Hp Hc HT. pose proof PI_RGT_0 as HP. assert (F : 0 < PI * T) by (apply Rmult_lt_0_compat; assumption).
  rewrite Rabs_mult, (Rabs_right (PI * T)) by lra. rewrite <- abs_IZR, Z.abs_mul, mult_IZR. change (IZR (Z.abs 2)) with 2.
  assert (A : (Z.abs W < vmax_temp pos W)%Z /\ (Z.abs W < - vmin_temp pos W corr)%Z).
  { unfold vmax_temp, vmin_temp, Nmax_sum, Nmin_sum. pose proof (Z.quot_rem' W 2). pose proof (Z.rem_bound_abs W 2 ltac:(lia)). lia. }
  destruct A as [A B]. apply IZR_lt in A, B. rewrite opp_IZR in B. split; nra.
Qed.
Print Assumptions C113_limits_partial.
Example C113_limits_hyp : vmax_temp 64 (-5) = 131%Z /\ vmin_temp 64 (-5) (-1) = (-133)%Z.
Proof. split; reflexivity. Qed.

(** the tail starts at the last frequency of the sum, although the cell of that frequency reaches half a spacing further:
    sum and tail together exceed (in absolute value) the sum over all frequencies by about the last summand *)
Lemma over_app {A} (l m : list A) f : over (l ++ m) f = over l f + over m f.
Proof. unfold over, sumR. rewrite map_app. induction (map f l) as [|a r IH]; cbn [app fold_right]; [ring|]. rewrite IH. ring. Qed.
Lemma over_cons {A} (a : A) l f : over (a :: l) f = f a + over l f.
Proof. reflexivity. Qed.
Lemma over_symmetric (f : Z -> R) n : over (map (fun i => - Z.of_nat n + Z.of_nat i)%Z (seq 0 (2 * n))) (fun m => f (2 * m + 1)%Z) = symmetric_sum f n.
Proof.
  induction n as [|n IH]; [reflexivity|]. cbn [symmetric_sum]. rewrite <- IH. replace (2 * Datatypes.S n)%nat with (Datatypes.S (Datatypes.S (2 * n))) by lia.
  rewrite seq_S, map_app, over_app. change (seq 0 (Datatypes.S (2 * n))) with (0%nat :: seq 1 (2 * n)). rewrite <- seq_shift. cbn [map]. rewrite map_map, !over_cons.
  assert (E : map (fun x => (- Z.of_nat (Datatypes.S n) + Z.of_nat (Datatypes.S x))%Z) (seq 0 (2 * n)) = map (fun i => (- Z.of_nat n + Z.of_nat i)%Z) (seq 0 (2 * n))) by (apply map_ext; intros; lia).
  rewrite E. replace (2 * (- Z.of_nat (Datatypes.S n) + Z.of_nat 0) + 1)%Z with (-2 * Z.of_nat n - 1)%Z by lia.
  replace (2 * (- Z.of_nat (Datatypes.S n) + Z.of_nat (0 + Datatypes.S (2 * n))) + 1)%Z with (2 * Z.of_nat n + 1)%Z by lia. change (over nil (fun m => f (2 * m + 1)%Z)) with 0. ring.
Qed.
Theorem C113_overlap_refuted : forall T Delta (pos : nat), 0 < T -> 0 <= Delta -> (1 <= pos)%nat ->
  let f n := bubble_at (decayed Delta) 0 (IZR n * (PI * T)) in
  let last := (2 * INR pos - 1) * (PI * T) + Delta in
  exists l, Un_cv (fun P => 2 * PI * T * symmetric_sum f P) l /\
  sum_with_tails T f (fun vmin vmax => AT_REG2_PHS 0 vmin vmax Delta false) (Z.of_nat pos) 0 0 <= l - 2 * PI * T / (last * (last + PI * T)).
Proof.
  intros T Delta pos HT HD Hp f last. pose proof PI_RGT_0 as HP. assert (F : 0 < PI * T) by (apply Rmult_lt_0_compat; assumption). set (h := PI * T) in *.
  assert (Hpos : 1 <= INR pos) by (change 1 with (INR 1); apply le_INR; exact Hp).
  assert (HL : 0 < last) by (unfold last; nra).
  assert (Fv : forall m, f (2 * Z.of_nat m + 1)%Z + f (- 2 * Z.of_nat m - 1)%Z = - 2 * / (((2 * INR m + 1) * h + Delta) * ((2 * INR m + 1) * h + Delta))).
  { intros m. assert (0 <= INR m) by apply pos_INR. assert (0 < (2 * INR m + 1) * h) by nra.
    assert (E : IZR (2 * Z.of_nat m + 1) = 2 * INR m + 1) by (rewrite plus_IZR, mult_IZR, <- INR_IZR_INZ; reflexivity).
    assert (E' : IZR (- 2 * Z.of_nat m - 1) = - (2 * INR m + 1)) by (rewrite minus_IZR, mult_IZR, <- INR_IZR_INZ; lra).
    unfold f, bubble_at. rewrite E, E'. replace (0 / 2) with 0 by field. rewrite !Rminus_0_r, !Rplus_0_r.
    rewrite decayed_pos by assumption. rewrite decayed_neg by lra. replace (- (- (2 * INR m + 1) * h)) with ((2 * INR m + 1) * h) by ring.
    rewrite Rinv_mult. ring. }
  set (q := fun m => / (2 * INR m * h + Delta)).
  assert (Step : forall m, (1 <= m)%nat -> 2 * h * (f (2 * Z.of_nat m + 1)%Z + f (- 2 * Z.of_nat m - 1)%Z) >= - 2 * (q m - q (Datatypes.S m))).
  { intros m Hm. rewrite Fv. unfold q. assert (1 <= INR m) by (change 1 with (INR 1); apply le_INR; exact Hm). rewrite S_INR.
    set (a := (2 * INR m + 1) * h + Delta). replace (2 * INR m * h + Delta) with (a - h) by (unfold a; ring). replace (2 * (INR m + 1) * h + Delta) with (a + h) by (unfold a; ring).
    assert (h < a) by (unfold a; nra). replace (/ (a - h) - / (a + h)) with (2 * h * / ((a - h) * (a + h))) by (field; lra).
    assert (0 < (a - h) * (a + h)) by (apply Rmult_lt_0_compat; lra). assert ((a - h) * (a + h) <= a * a) by nra.
    assert (I1 : / (a * a) <= / ((a - h) * (a + h))) by (apply Rinv_le_contravar; assumption). nra. }
  assert (Lower : forall k, 2 * h * symmetric_sum f (pos + k) >= 2 * h * symmetric_sum f pos - 2 * (q pos - q (pos + k)%nat)).
  { induction k as [|k IH]; [rewrite Nat.add_0_r; lra|]. rewrite Nat.add_succ_r. cbn [symmetric_sum]. pose proof (Step (pos + k)%nat ltac:(lia)). lra. }
  assert (Qp : forall m, (1 <= m)%nat -> 0 < q m).
  { intros m Hm. unfold q. apply Rinv_0_lt_compat. assert (1 <= INR m) by (change 1 with (INR 1); apply le_INR; exact Hm). nra. }
  assert (Ex : exists l, Un_cv (fun P => 2 * PI * T * symmetric_sum f P) l).
  { assert (Dec : Un_decreasing (fun P => 2 * PI * T * symmetric_sum f P)).
    { intros n. cbn [symmetric_sum]. rewrite Fv. assert (0 <= INR n) by apply pos_INR. assert (0 < (2 * INR n + 1) * h + Delta) by nra.
      assert (0 < / (((2 * INR n + 1) * h + Delta) * ((2 * INR n + 1) * h + Delta))) by (apply Rinv_0_lt_compat, Rmult_lt_0_compat; assumption).
      replace (2 * PI * T) with (2 * h) by (unfold h; ring). nra. }
    destruct (decreasing_cv _ Dec) as [l Hl]; [|exists l; exact Hl].
    exists (- (2 * h * symmetric_sum f pos - 2 * q pos)). intros x [n ->]. unfold opp_seq.
    assert (G : 2 * h * symmetric_sum f (pos + n) <= 2 * PI * T * symmetric_sum f n).
    { replace (2 * h) with (2 * PI * T) by (unfold h; ring). clear -Dec. rewrite Nat.add_comm. induction pos as [|k IH]; [rewrite Nat.add_0_r; lra|].
      rewrite Nat.add_succ_r. pose proof (Dec (n + k)%nat) as G. cbv beta in G. lra. }
    pose proof (Lower n). pose proof (Qp (pos + n)%nat ltac:(lia)). lra. }
  destruct Ex as [l Hl]. exists l. split; [exact Hl|].
  assert (LL : 2 * h * symmetric_sum f pos - 2 * q pos <= l).
  { destruct (Rle_dec (2 * h * symmetric_sum f pos - 2 * q pos) l) as [|G]; [assumption|exfalso].
    destruct (Hl (2 * h * symmetric_sum f pos - 2 * q pos - l) ltac:(lra)) as [N0 HN]. specialize (HN (pos + N0)%nat ltac:(lia)). unfold R_dist in HN. apply Rabs_def2 in HN.
    pose proof (Lower N0). pose proof (Qp (pos + N0)%nat ltac:(lia)). replace (2 * PI * T * symmetric_sum f (pos + N0)) with (2 * h * symmetric_sum f (pos + N0)) in HN by (unfold h; ring). lra. }
  unfold sum_with_tails. replace (Nmin_sum (Z.of_nat pos) 0 0) with (- Z.of_nat pos)%Z by (unfold Nmin_sum; cbn; lia).
  replace (Nmax_sum (Z.of_nat pos) 0) with (Z.of_nat pos - 1)%Z by (unfold Nmax_sum; cbn; lia). replace (Z.to_nat (Z.of_nat pos - 1 - - Z.of_nat pos + 1)) with (2 * pos)%nat by lia.
  rewrite over_symmetric. replace (vmin_temp (Z.of_nat pos) 0 0) with (- (2 * Z.of_nat pos - 1))%Z by (unfold vmin_temp, Nmin_sum; change (Z.abs (Z.quot 0 2)) with 0%Z; lia).
  replace (vmax_temp (Z.of_nat pos) 0) with (2 * Z.of_nat pos - 1)%Z by (unfold vmax_temp, Nmax_sum; change (Z.abs (Z.quot 0 2)) with 0%Z; lia).
  rewrite opp_IZR, minus_IZR, mult_IZR, <- INR_IZR_INZ. fold h. unfold AT_REG2_PHS. destruct (Req_EM_T 0 0); [|contradiction].
  assert (Q1 : q pos = / (last + h)) by (unfold q, last; f_equal; ring). rewrite Q1 in LL.
  replace (- 1 / ((2 * INR pos - 1) * h + Delta) + 1 / (- (2 * INR pos - 1) * h - Delta)) with (- 2 * / last) by (unfold last in HL |- *; field; repeat split; lra).
  replace (2 * PI * T) with (2 * h) by (unfold h; ring). replace (2 * h / (last * (last + h))) with (2 * / last - 2 * / (last + h)) by (field; lra). lra.
Qed.
Print Assumptions C113_overlap_refuted.

(** ** Frequency cutoff *)
Lemma tails_even f g vmin vmax I J : (forall x, vmax <= x -> f x = g x) -> (forall x, - vmin <= x -> f (- x) = f x) -> tail_above f vmax I -> tail_above f (- vmin) J -> tails f vmin vmax (I + J).
Proof. intros _ E A B. exists I, J. split; [exact A|]. split; [|reflexivity]. unfold tail_below. eapply tail_ext; [|exact B]. intros x Hx. symmetry. apply E. exact Hx. Qed.
(** without hybridisation the corrections are the integrals over the bubble *)
Theorem C113_cutoff_partial : forall w vmin vmax Lambda, 0 < Lambda -> Rabs w / 2 < vmax -> Rabs w / 2 < - vmin ->
  (/ 10 ^ 10 <= Rabs w \/ w = 0 /\ / 10 ^ 2 <= Lambda / vmax /\ / 10 ^ 2 <= Lambda / - vmin) ->
  tails (bubble_at (cut Lambda 0) w) vmin vmax (AT_REG3_PHS w vmin vmax 0 Lambda false) /\
  tails (bubble_p (cut Lambda 0) w) vmin vmax (P_REG3_PHS w vmin vmax 0 Lambda false).
Proof.
  intros w vmin vmax Lambda HL H1 H2 Hw. destruct (half_bounds w _ H1) as (Hv & Hb). destruct (half_bounds w _ H2) as (Hv2 & Hb2).
  assert (A : tail_above (bubble_at (cut Lambda 0) w) vmax (REG3_nondiff w vmax Lambda 0) /\ tail_above (bubble_at (cut Lambda 0) w) (- vmin) (REG3_nondiff w (- vmin) Lambda 0)).
  { destruct Hw as [Hw|(-> & Hw1 & Hw2)].
    - assert (w <> 0). { intros ->. rewrite Rabs_R0 in Hw. assert (0 < / 10 ^ 10) by (apply Rinv_0_lt_compat, pow_lt; lra). lra. }
      rewrite !reg3_cut by assumption. split; apply tail_cut; assumption.
    - rewrite !reg3_cut0 by assumption. split; apply tail_cut0; assumption. }
  destruct A as [A B]. assert (T : tails (bubble_at (cut Lambda 0) w) vmin vmax (AT_REG3_PHS w vmin vmax 0 Lambda false)).
  { unfold AT_REG3_PHS. apply (tails_even _ (bubble_at (cut Lambda 0) w)); [reflexivity| |exact A|exact B]. intros x Hx. apply (cut_even Lambda 0 w (- vmin)); assumption. }
  split; [exact T|]. destruct T as (J & K & P & Q & E). unfold P_REG3_PHS. rewrite E. exists (-1 * J), (-1 * K). split; [|split; [|ring]].
  - eapply tail_ext; [|apply tail_scal; exact P]. intros x Hx. cbv beta. rewrite cut_bubble_p by lra. ring.
  - unfold tail_below in *. eapply tail_ext; [|apply tail_scal; exact Q]. intros x Hx. cbv beta. rewrite cut_bubble_p by lra. ring.
Qed.
Print Assumptions C113_cutoff_partial.

(** ... and those for the differentiated bubble their derivatives *)
Lemma dlog_imag p L : 0 < p -> derivable_pt_lim (fun y => fst (clog (p, y))) L (L / (p * p + L * L)) /\ derivable_pt_lim (fun y => snd (clog (p, y))) L (p / (p * p + L * L)).
Proof.
  intros Hp. split.
  - apply (dlim_ext (fun y => / 2 * ln (p * p + y * y)) _ _ _ 1); [lra|intros; unfold clog, norm; cbn [fst snd]; field|].
    eapply dlim_eq; [|apply dlim_scal, (dlim_ln (fun y => p * p + y * y)); [nra|apply (dlim_plus (fun _ => p * p) (fun y => y * y)); [apply dlim_const|apply (dlim_mult (fun y => y) (fun y => y)); apply dlim_id]]]. field. nra.
  - apply (dlim_ext (fun y => atan (/ p * y)) _ _ _ 1); [lra| |].
    + intros y _. unfold clog, carg. cbn [fst snd]. destruct (Rlt_dec 0 p); [|contradiction]. f_equal. unfold Rdiv. ring.
    + eapply dlim_eq; [|apply (dlim_atan (fun y => / p * y)), dlim_scal, dlim_id]. field. split; [nra|lra].
Qed.
Lemma cut_derivative w V Lambda : w <> 0 -> Rabs w / 2 < V -> 0 < Lambda -> / 10 ^ 10 <= Rabs w -> derivable_pt_lim (fun L => cut_tail w V L) Lambda (REG3_diff w V Lambda 0).
Proof.
  intros Ne HV HL Hw. destruct (half_bounds w _ HV) as (HV0 & Hb). assert (W2 : 0 < w * w) by (apply Rsqr_pos_lt; exact Ne).
  destruct (dlog_imag (V + w / 2) Lambda ltac:(lra)) as [A1 B1]. destruct (dlog_imag (V - w / 2) Lambda ltac:(lra)) as [A2 B2].
  unfold cut_tail. cbv zeta.
  apply (dlim_ext (fun L => - (1 / 4) * (2 * / w * (fst (clog (V + w / 2, L)) - fst (clog (V - w / 2, L))) +
     2 * ((w * (fst (clog (V + w / 2, L)) - fst (clog (V - w / 2, L))) + 2 * (L * (snd (clog (V + w / 2, L)) + snd (clog (V - w / 2, L))))) * / (w * w + 4 * (L * L))))) _ _ _ 1);
    [lra|intros L _; field; split; [nra|exact Ne]|].
  eapply dlim_eq.
  2:{ apply dlim_scal, dlim_plus; [apply dlim_scal, dlim_minus; eassumption|]. apply dlim_scal.
      apply (dlim_mult (fun L => w * (fst (clog (V + w / 2, L)) - fst (clog (V - w / 2, L))) + 2 * (L * (snd (clog (V + w / 2, L)) + snd (clog (V - w / 2, L))))) (fun L => / (w * w + 4 * (L * L)))).
      - apply dlim_plus; [apply dlim_scal, dlim_minus; eassumption|]. apply dlim_scal, (dlim_mult (fun L => L) (fun L => snd (clog (V + w / 2, L)) + snd (clog (V - w / 2, L)))); [apply dlim_id|apply dlim_plus; eassumption].
      - apply (dlim_inv (fun L => w * w + 4 * (L * L))); [nra|]. apply (dlim_plus (fun _ => w * w) (fun L => 4 * (L * L))); [apply dlim_const|]. apply dlim_scal, (dlim_mult (fun L => L) (fun L => L)); apply dlim_id. }
  unfold REG3_diff. destruct (Rlt_dec (Rabs w) (/ 10 ^ 10)); [lra|].
  set (z1 := (V + w / 2, Lambda)). set (z2 := (V - w / 2, Lambda)).
  replace (rc (V + w * (1 / 2)) + ci * rc Lambda)%C with z1 by (unfold z1, cadd, cmul, rc, ci; cbn [fst snd]; f_equal; field).
  replace (rc (V - w * (1 / 2)) - ci * rc Lambda)%C with (Gf_Model.conj z2) by (unfold z2, Gf_Model.conj, csub, cmul, rc, ci; cbn [fst snd]; f_equal; field).
  rewrite clog_div by (unfold z1, z2, Gf_Model.conj; cbn [fst]; lra).
  assert (E2 : clog (Gf_Model.conj z2) = Gf_Model.conj (clog z2)).
  { unfold clog, Gf_Model.conj at 3. cbn [fst snd]. rewrite carg_conj by (unfold z2; cbn [fst]; lra). f_equal. f_equal. unfold norm, Gf_Model.conj. cbn [fst snd]. f_equal. ring. }
  rewrite E2. generalize (clog z1) (clog z2). intros [l1 t1] [l2 t2]. unfold cdiv, cinv, norm, cpow2, cmul, csub, cadd, Gf_Model.conj, rc, ci. cbn [fst snd].
  set (m := V - w / 2). replace (V + w / 2) with (m + w) by (unfold m; field). replace V with (m + w / 2) by (unfold m; field). assert (0 < m) by (unfold m; lra). assert (0 < m + w) by (unfold m; lra).
  field. repeat split; try lra; nra.
Qed.
Lemma div_ge a b c : 0 < b -> c <= a / b -> c * b <= a.
Proof. intros Hb H. apply (Rmult_le_compat_r b) in H; [|lra]. replace (a / b * b) with a in H by (field; lra). exact H. Qed.
Lemma cut0_derivative V Lambda : 0 < V -> 0 < Lambda -> / 10 ^ 5 <= Lambda / V -> derivable_pt_lim (fun L => cut_tail0 V L) Lambda (REG3_diff 0 V Lambda 0).
Proof.
  intros HV HL Hr. unfold cut_tail0.
  apply (dlim_ext (fun L => - (1 / 2) * (V * / (V * V + L * L) + atan (/ V * L) * / L)) _ _ _ 1); [lra|intros L _; unfold Rdiv; rewrite (Rmult_comm L (/ V)); reflexivity|].
  eapply dlim_eq.
  2:{ apply dlim_scal, dlim_plus; [apply dlim_scal, (dlim_inv (fun L => V * V + L * L)); [nra|apply (dlim_plus (fun _ => V * V) (fun L => L * L)); [apply dlim_const|apply (dlim_mult (fun L => L) (fun L => L)); apply dlim_id]]|].
      apply (dlim_mult (fun L => atan (/ V * L)) (fun L => / L)); [apply (dlim_atan (fun L => / V * L)), dlim_scal, dlim_id|apply (dlim_inv (fun L => L)); [lra|apply dlim_id]]. }
  unfold REG3_diff. destruct (Rlt_dec (Rabs 0) (/ 10 ^ 10)) as [_|N0]; [|exfalso; apply N0; rewrite Rabs_R0; apply Rinv_0_lt_compat, pow_lt; lra].
  destruct (Rlt_dec (Lambda / V) (/ 10 ^ 5)); [lra|]. replace (/ V * Lambda) with (Lambda / V) by (unfold Rdiv; ring).
  assert (Lambda / V * (Lambda / V) >= 0) by nra. set (t := atan _). field. repeat split; try lra; nra.
Qed.
Theorem C113_cutoff_derivative_partial : forall w vmin vmax Lambda, 0 < Lambda -> Rabs w / 2 < vmax -> Rabs w / 2 < - vmin ->
  (/ 10 ^ 10 <= Rabs w \/ w = 0 /\ / 10 ^ 2 < Lambda / vmax /\ / 10 ^ 2 < Lambda / - vmin) ->
  derivable_pt_lim (fun L => AT_REG3_PHS w vmin vmax 0 L false) Lambda (AT_REG3_PHS w vmin vmax 0 Lambda true).
Proof.
  intros w vmin vmax Lambda HL H1 H2 Hw. destruct (half_bounds w _ H1) as (Hv & Hb). destruct (half_bounds w _ H2) as (Hv2 & Hb2). unfold AT_REG3_PHS.
  assert (X : forall V, Rabs w / 2 < V -> (/ 10 ^ 10 <= Rabs w \/ w = 0 /\ / 10 ^ 2 < Lambda / V) -> derivable_pt_lim (fun L => REG3_nondiff w V L 0) Lambda (REG3_diff w V Lambda 0)).
  { intros V HV [Q|[-> Q]].
    - assert (w <> 0). { intros ->. rewrite Rabs_R0 in Q. assert (0 < / 10 ^ 10) by (apply Rinv_0_lt_compat, pow_lt; lra). lra. }
      apply (dlim_ext (fun L => cut_tail w V L) _ _ _ Lambda); [exact HL| |apply cut_derivative; assumption].
      intros L HL2. apply Rabs_def2 in HL2. symmetry. apply reg3_cut; try assumption. lra.
    - rewrite Rabs_R0 in HV. assert (V0 : 0 < V) by lra.
      assert (Q' : / 10 ^ 2 * V < Lambda). { apply (Rmult_lt_compat_r V) in Q; [|exact V0]. replace (Lambda / V * V) with Lambda in Q by (field; lra). exact Q. }
      apply (dlim_ext (fun L => cut_tail0 V L) _ _ _ (Lambda - / 10 ^ 2 * V)); [lra| |].
      + intros L HL2. apply Rabs_def2 in HL2. symmetry. apply reg3_cut0; [exact V0|]. apply (Rmult_le_reg_r V); [exact V0|]. replace (L / V * V) with L by (field; lra). lra.
      + apply cut0_derivative; [exact V0|exact HL|]. assert (/ 10 ^ 5 <= / 10 ^ 2) by (apply Rinv_le_contravar; [apply pow_lt; lra|]; lra). lra. }
  apply dlim_plus; apply X; try assumption; destruct Hw as [Q|(Q & Q1 & Q2)]; [left; exact Q|right; split; assumption|left; exact Q|right; split; assumption].
Qed.
Print Assumptions C113_cutoff_derivative_partial.

(** far outside of the cutoff (Lambda / vmax < 1/100, no transferred frequency) the first terms of the arctangent's series are used *)
Lemma atan_series x : 0 <= x -> 0 <= atan x - (x - x ^ 3 / 3) <= x ^ 5 / 5.
Proof.
  intros Hx.
  assert (D0 : forall y, derivable_pt_lim (fun y => atan y + (-1 * y + / 3 * (y * y * y))) y (1 / (1 + y * y) + (-1 * 1 + / 3 * ((1 * y + y * 1) * y + y * y * 1)))).
  { intros y. apply dlim_plus; [apply (dlim_atan (fun y => y)), dlim_id|]. apply dlim_plus; [apply dlim_scal, dlim_id|].
    apply dlim_scal, (dlim_mult (fun y => y * y) (fun y => y)); [apply (dlim_mult (fun y => y) (fun y => y)); apply dlim_id|apply dlim_id]. }
  assert (D1 : forall y, derivable_pt_lim (fun y => / 5 * (y * y * y * y * y)) y (y * y * y * y)).
  { intros y. eapply dlim_eq; [|apply dlim_scal, (dlim_mult (fun y => y * y * y * y) (fun y => y)); [apply (dlim_mult (fun y => y * y * y) (fun y => y)); [apply (dlim_mult (fun y => y * y) (fun y => y)); [apply (dlim_mult (fun y => y) (fun y => y))|]|]|]; apply dlim_id]. field. }
  assert (E : forall y, 1 / (1 + y * y) + (-1 * 1 + / 3 * ((1 * y + y * 1) * y + y * y * 1)) = (y * y) * (y * y) * / (1 + y * y)) by (intros y; field; nra).
  assert (Pq : forall y, 0 < / (1 + y * y)) by (intros y; apply Rinv_0_lt_compat; nra).
  assert (Pi1 : forall y, (1 + y * y) * / (1 + y * y) = 1) by (intros y; field; nra). split.
  - assert (M : forall u v, 0 <= u -> u <= v -> atan u + (-1 * u + / 3 * (u * u * u)) <= atan v + (-1 * v + / 3 * (v * v * v))).
    { apply (increasing_from (fun y => atan y + (-1 * y + / 3 * (y * y * y))) (fun y => 1 / (1 + y * y) + (-1 * 1 + / 3 * ((1 * y + y * 1) * y + y * y * 1))) 0); [intros y _; apply D0|]. intros y _. rewrite E. pose proof (Pq y). apply Rmult_le_pos; [nra|lra]. }
    specialize (M 0 x (Rle_refl 0) Hx). rewrite atan_0 in M. lra.
  - assert (M : forall u v, 0 <= u -> u <= v -> / 5 * (u * u * u * u * u) - (atan u + (-1 * u + / 3 * (u * u * u))) <= / 5 * (v * v * v * v * v) - (atan v + (-1 * v + / 3 * (v * v * v)))).
    { apply (increasing_from (fun y => / 5 * (y * y * y * y * y) - (atan y + (-1 * y + / 3 * (y * y * y))))
        (fun y => y * y * y * y - (1 / (1 + y * y) + (-1 * 1 + / 3 * ((1 * y + y * 1) * y + y * y * 1)))) 0); [intros y _; apply dlim_minus; [apply D1|apply D0]|].
      intros y _. cbv beta. rewrite E. pose proof (Pq y) as P1. pose proof (Pi1 y) as P2. replace (y * y * y * y - y * y * (y * y) * / (1 + y * y)) with (y * y * (y * y) * (1 - / (1 + y * y))) by ring.
      apply Rmult_le_pos; nra. }
    specialize (M 0 x (Rle_refl 0) Hx). rewrite atan_0 in M. lra.
Qed.
Theorem C113_cutoff_series_partial : forall V Lambda, 0 < V -> 0 < Lambda -> Lambda / V < / 10 ^ 2 ->
  exists I, tail_above (bubble_at (cut Lambda 0) 0) V I /\ 0 <= REG3_nondiff 0 V Lambda 0 - I <= Lambda ^ 4 / (10 * V ^ 5).
Proof.
  intros V Lambda HV HL Hr. exists (cut_tail0 V Lambda). split; [apply tail_cut0; assumption|].
  unfold REG3_nondiff. destruct (Rlt_dec (Rabs 0) (/ 10 ^ 10)) as [_|N0]; [|exfalso; apply N0; rewrite Rabs_R0; apply Rinv_0_lt_compat, pow_lt; lra].
  destruct (Rlt_dec (Lambda / V) (/ 10 ^ 2)); [|contradiction]. unfold cut_tail0. destruct (atan_series (Lambda / V)) as [A B]; [apply Rmult_le_pos; [lra|left; apply Rinv_0_lt_compat; exact HV]|].
  set (t := atan (Lambda / V)) in *. assert (I0 : 0 < / Lambda) by (apply Rinv_0_lt_compat; exact HL).
  replace (- (1 / 2) * (V / (V * V + Lambda * Lambda) + 1 / V - Lambda * Lambda / (3 * V * V * V)) - - (1 / 2) * (V / (V * V + Lambda * Lambda) + t / Lambda))
    with (/ 2 * (/ Lambda * (t - (Lambda / V - (Lambda / V) ^ 3 / 3)))) by (field; repeat split; try lra; nra).
  replace (Lambda ^ 4 / (10 * V ^ 5)) with (/ 2 * (/ Lambda * ((Lambda / V) ^ 5 / 5))) by (field; lra). split.
  - apply Rmult_le_pos; [lra|]. apply Rmult_le_pos; lra.
  - apply Rmult_le_compat_l; [lra|]. apply Rmult_le_compat_l; lra.
Qed.
Print Assumptions C113_cutoff_series_partial.

(** ** Frequency cutoff with hybridisation *)
Definition dcut_bubble (Lambda Delta x : R) : R := 4 * Lambda * (x * x * (x * x)) * / ((x * x + Lambda * Lambda) * (x * x + Lambda * Lambda) * (x * x + Lambda * Lambda)) * (/ (x + Delta) * / (x + Delta)).
Lemma cut_bubble0 Lambda Delta x : 0 < x -> 0 <= Delta -> bubble_at (cut Lambda Delta) 0 x = - (x * x * (x * x) * / ((x * x + Lambda * Lambda) * (x * x + Lambda * Lambda)) * (/ (x + Delta) * / (x + Delta))).
Proof.
  intros Hx HD. unfold bubble_at. replace (0 / 2) with 0 by field. rewrite Rminus_0_r, Rplus_0_r. rewrite cut_pos by exact Hx. assert (0 < x * x) by nra. field. split; nra.
Qed.
Lemma dcut_is_derivative Lambda Delta x : 0 < x -> 0 <= Delta -> derivable_pt_lim (fun L => bubble_at (cut L Delta) 0 x) Lambda (dcut_bubble Lambda Delta x).
Proof.
  intros Hx HD. assert (0 < x * x) by nra. set (c := - (x * x * (x * x) * (/ (x + Delta) * / (x + Delta)))).
  apply (dlim_ext (fun L => c * / ((x * x + L * L) * (x * x + L * L))) _ _ _ 1); [lra|intros L _; rewrite cut_bubble0 by assumption; unfold c; ring|].
  assert (DL : derivable_pt_lim (fun L => x * x + L * L) Lambda (0 + (1 * Lambda + Lambda * 1))) by (apply (dlim_plus (fun _ => x * x) (fun L => L * L)); [apply dlim_const|apply (dlim_mult (fun L => L) (fun L => L)); apply dlim_id]).
  eapply dlim_eq; [|apply dlim_scal, (dlim_inv (fun L => (x * x + L * L) * (x * x + L * L))); [nra|apply (dlim_mult (fun L => x * x + L * L) (fun L => x * x + L * L)); exact DL]].
  unfold c, dcut_bubble. field. split; nra.
Qed.
Lemma inv_lt a b : 0 < a -> a < b -> / b < / a.
Proof. intros Ha Hb. apply Rinv_lt_contravar; [nra|exact Hb]. Qed.
Lemma inv_sq_lt x D1 D2 : 0 < x -> 0 <= D1 -> D1 < D2 -> / (x + D2) * / (x + D2) < / (x + D1) * / (x + D1) /\ 0 < / (x + D2) * / (x + D2).
Proof.
  intros Hx H1 H2. assert (A : / (x + D2) < / (x + D1)) by (apply inv_lt; lra). assert (0 < / (x + D2)) by (apply Rinv_0_lt_compat; lra). split; nra.
Qed.
Lemma cont_dlim f x l : derivable_pt_lim f x l -> continuity_pt f x.
Proof. intros H. apply derivable_continuous_pt. exists l. exact H. Qed.
Lemma dlim_sq x : derivable_pt_lim (fun y => y * y) x (1 * x + x * 1).
Proof. apply (dlim_mult (fun y => y) (fun y => y)); apply dlim_id. Qed.
Lemma cont_dcut Lambda Delta x : 0 < x -> 0 <= Delta -> 0 < Lambda -> continuity_pt (dcut_bubble Lambda Delta) x.
Proof.
  intros Hx HD HL. assert (0 < x * x) by nra. assert (S1 := dlim_sq x).
  assert (S2 : derivable_pt_lim (fun y => y * y + Lambda * Lambda) x (1 * x + x * 1 + 0)) by (apply (dlim_plus (fun y => y * y) (fun _ => Lambda * Lambda)); [exact S1|apply dlim_const]).
  assert (S3 : derivable_pt_lim (fun y => / (y + Delta)) x (- 1 / ((x + Delta) * (x + Delta)))) by (apply (dlim_inv (fun y => y + Delta)); [lra|apply dlim_shift]).
  eapply cont_dlim. unfold dcut_bubble.
  apply (dlim_mult (fun y => 4 * Lambda * (y * y * (y * y)) * / ((y * y + Lambda * Lambda) * (y * y + Lambda * Lambda) * (y * y + Lambda * Lambda))) (fun y => / (y + Delta) * / (y + Delta))).
  - apply (dlim_mult (fun y => 4 * Lambda * (y * y * (y * y))) (fun y => / ((y * y + Lambda * Lambda) * (y * y + Lambda * Lambda) * (y * y + Lambda * Lambda)))).
    + apply dlim_scal, (dlim_mult (fun y => y * y) (fun y => y * y)); exact S1.
    + apply (dlim_inv (fun y => (y * y + Lambda * Lambda) * (y * y + Lambda * Lambda) * (y * y + Lambda * Lambda))).
      * apply Rgt_not_eq. apply Rmult_lt_0_compat; [apply Rmult_lt_0_compat|]; nra.
      * apply (dlim_mult (fun y => (y * y + Lambda * Lambda) * (y * y + Lambda * Lambda)) (fun y => y * y + Lambda * Lambda)); [|exact S2]. apply (dlim_mult (fun y => y * y + Lambda * Lambda) (fun y => y * y + Lambda * Lambda)); exact S2.
  - apply (dlim_mult (fun y => / (y + Delta)) (fun y => / (y + Delta))); exact S3.
Qed.
Lemma dcut_lt Lambda D1 D2 x : 0 < x -> 0 < Lambda -> 0 <= D1 -> D1 < D2 -> dcut_bubble Lambda D2 x < dcut_bubble Lambda D1 x /\ 0 <= dcut_bubble Lambda D2 x.
Proof.
  intros Hx HL H1 H2. destruct (inv_sq_lt x D1 D2 Hx H1 H2) as [A B]. unfold dcut_bubble. assert (0 < x * x) by nra.
  assert (C : 0 < / ((x * x + Lambda * Lambda) * (x * x + Lambda * Lambda) * (x * x + Lambda * Lambda))) by (apply Rinv_0_lt_compat, Rmult_lt_0_compat; [apply Rmult_lt_0_compat|]; nra).
  assert (E : 0 < 4 * Lambda * (x * x * (x * x)) * / ((x * x + Lambda * Lambda) * (x * x + Lambda * Lambda) * (x * x + Lambda * Lambda))) by (apply Rmult_lt_0_compat; [apply Rmult_lt_0_compat; [lra|apply Rmult_lt_0_compat; assumption]|exact C]).
  split; [apply Rmult_lt_compat_l; assumption|apply Rmult_le_pos; lra].
Qed.
Lemma tail_dcut0 V Lambda : 0 < V -> 0 < Lambda -> / 10 ^ 5 <= Lambda / V -> tail_above (dcut_bubble Lambda 0) V (REG3_diff 0 V Lambda 0).
Proof.
  intros HV HL Hr.
  exists (fun x => (1 / 2) * (-2 * Lambda * (x / (x * x + Lambda * Lambda) * / (x * x + Lambda * Lambda)) + (- / (Lambda * Lambda) * atan (Lambda / x) + / Lambda * (x / (x * x + Lambda * Lambda))))),
    ((1 / 2) * (-2 * Lambda * 0 + (- / (Lambda * Lambda) * 0 + / Lambda * 0))). split; [|split].
  - intros x Hx. assert (0 < x * x) by nra.
    eapply dlim_eq.
    2:{ apply dlim_scal, dlim_plus; [apply dlim_scal, (dlim_mult (fun x => x / (x * x + Lambda * Lambda)) (fun x => / (x * x + Lambda * Lambda)))|apply dlim_plus; apply dlim_scal; [apply dlim_atan_inv|apply dlim_lorentz]].
        - apply dlim_lorentz. nra.
        - apply (dlim_inv (fun x => x * x + Lambda * Lambda)); [nra|]. apply (dlim_plus (fun y => y * y) (fun _ => Lambda * Lambda)); [apply dlim_sq|apply dlim_const].
        - lra.
        - nra. }
    unfold dcut_bubble. field. repeat split; try lra; nra.
  - apply tends_scal, tends_plus; [apply tends_scal|apply tends_plus; apply tends_scal; [|apply tends_lorentz]].
    + pose proof (tends_lorentz Lambda) as T1. replace 0 with ((fun y => y * y) 0) by ring.
      assert (T2 : tends (fun x => / (x * x + Lambda * Lambda)) 0).
      { intros e He. destruct (tends_inv 0 e He) as [M HM]. exists (Rmax 1 M). intros x Hx. pose proof (Rmax_l 1 M). pose proof (Rmax_r 1 M). specialize (HM x ltac:(lra)). rewrite Rplus_0_r, Rminus_0_r in HM.
        rewrite Rminus_0_r. assert (P1 : 0 < / x) by (apply Rinv_0_lt_compat; lra). assert (P2 : 0 < / (x * x + Lambda * Lambda)) by (apply Rinv_0_lt_compat; nra).
        rewrite Rabs_right in HM |- * by lra. assert (/ (x * x + Lambda * Lambda) <= / x) by (apply Rinv_le_contravar; nra). lra. }
      intros e He. destruct (T1 1 ltac:(lra)) as [M1 H1]. destruct (T2 e He) as [M2 H2]. exists (Rmax M1 M2). intros x Hx. pose proof (Rmax_l M1 M2). pose proof (Rmax_r M1 M2).
      specialize (H1 x ltac:(lra)). specialize (H2 x ltac:(lra)). rewrite Rminus_0_r in H1, H2. replace ((fun y => y * y) 0) with 0 by ring. rewrite Rminus_0_r, Rabs_mult.
      pose proof (Rabs_pos (x / (x * x + Lambda * Lambda))). pose proof (Rabs_pos (/ (x * x + Lambda * Lambda))). nra.
    + eapply (tends_ext _ _ _ 1); [|apply (tends_atan_ratio 0 Lambda)]. intros x Hx. cbv beta. rewrite Rplus_0_r. reflexivity.
  - unfold REG3_diff. destruct (Rlt_dec (Rabs 0) (/ 10 ^ 10)) as [_|N0]; [|exfalso; apply N0; rewrite Rabs_R0; apply Rinv_0_lt_compat, pow_lt; lra].
    destruct (Rlt_dec (Lambda / V) (/ 10 ^ 5)); [lra|]. set (t := atan _). assert (0 < V * V) by nra. field. repeat split; try lra; nra.
Qed.
(** differentiated bubble: the formula does not contain the hybridisation and is too large for every positive one *)
Theorem C113_cutoff_diff_refuted : forall V Lambda Delta, 0 < V -> 0 < Lambda -> 0 < Delta -> / 10 ^ 5 <= Lambda / V ->
  exists f I, (forall x, V <= x -> derivable_pt_lim (fun L => bubble_at (cut L Delta) 0 x) Lambda (f x)) /\ tail_above f V I /\ I < REG3_diff 0 V Lambda Delta.
Proof.
  intros V Lambda Delta HV HL HD Hr. exists (dcut_bubble Lambda Delta). pose proof (tail_dcut0 V Lambda HV HL Hr) as T0.
  destruct (tail_exists (dcut_bubble Lambda Delta) (dcut_bubble Lambda 0) V (V / 2) _ ltac:(lra)
     ltac:(intros x Hx; apply cont_dcut; lra) ltac:(intros x Hx; destruct (dcut_lt Lambda 0 Delta x ltac:(lra) HL (Rle_refl 0) HD); lra) T0) as [I HI].
  exists I. split; [intros x Hx; apply dcut_is_derivative; lra|]. split; [exact HI|]. change (REG3_diff 0 V Lambda Delta) with (REG3_diff 0 V Lambda 0).
  apply (tail_lt _ _ _ _ _ HI T0). intros x Hx. destruct (dcut_lt Lambda 0 Delta x ltac:(lra) HL (Rle_refl 0) HD). assumption.
Qed.
Print Assumptions C113_cutoff_diff_refuted.

(** far outside of the cutoff the value does not contain the hybridisation either, unlike the integral *)
Lemma cut_tail_exists V Lambda Delta : 0 < V -> 0 < Lambda -> 0 <= Delta -> exists I, tail_above (bubble_at (cut Lambda Delta) 0) V I.
Proof.
  intros HV HL HD. set (f := fun x => x * x * (x * x) * / ((x * x + Lambda * Lambda) * (x * x + Lambda * Lambda)) * (/ (x + Delta) * / (x + Delta))).
  destruct (tail_exists f (fun x => / ((x + Delta) * (x + Delta))) V (V / 2) (/ (V + Delta))) as [I HI].
  - lra.
  - intros x Hx. assert (0 < x) by lra. assert (0 < x * x) by nra. assert (S1 := dlim_sq x).
    assert (S2 : derivable_pt_lim (fun y => y * y + Lambda * Lambda) x (1 * x + x * 1 + 0)) by (apply (dlim_plus (fun y => y * y) (fun _ => Lambda * Lambda)); [exact S1|apply dlim_const]).
    assert (S3 : derivable_pt_lim (fun y => / (y + Delta)) x (- 1 / ((x + Delta) * (x + Delta)))) by (apply (dlim_inv (fun y => y + Delta)); [lra|apply dlim_shift]).
    eapply cont_dlim. unfold f. apply (dlim_mult (fun y => y * y * (y * y) * / ((y * y + Lambda * Lambda) * (y * y + Lambda * Lambda))) (fun y => / (y + Delta) * / (y + Delta))).
    + apply (dlim_mult (fun y => y * y * (y * y)) (fun y => / ((y * y + Lambda * Lambda) * (y * y + Lambda * Lambda)))); [apply (dlim_mult (fun y => y * y) (fun y => y * y)); exact S1|].
      apply (dlim_inv (fun y => (y * y + Lambda * Lambda) * (y * y + Lambda * Lambda))); [nra|]. apply (dlim_mult (fun y => y * y + Lambda * Lambda) (fun y => y * y + Lambda * Lambda)); exact S2.
    + apply (dlim_mult (fun y => / (y + Delta)) (fun y => / (y + Delta))); exact S3.
  - intros x Hx. assert (0 < x * x) by nra. unfold f. rewrite <- Rinv_mult. assert (P : 0 < / ((x + Delta) * (x + Delta))) by (apply Rinv_0_lt_compat; nra).
    assert (Q : 0 < / ((x * x + Lambda * Lambda) * (x * x + Lambda * Lambda))) by (apply Rinv_0_lt_compat; nra).
    assert (U : x * x * (x * x) * / ((x * x + Lambda * Lambda) * (x * x + Lambda * Lambda)) <= 1).
    { apply (Rmult_le_reg_r ((x * x + Lambda * Lambda) * (x * x + Lambda * Lambda))); [nra|]. rewrite Rmult_assoc, Rinv_l by nra. nra. }
    assert (U0 : 0 <= x * x * (x * x) * / ((x * x + Lambda * Lambda) * (x * x + Lambda * Lambda))) by (apply Rmult_le_pos; nra).
    set (r := x * x * (x * x) * _) in *. split; [apply Rmult_le_pos; lra|nra].
  - apply tail_square. lra.
  - exists (-1 * I). eapply tail_ext; [|apply tail_scal; exact HI]. intros x Hx. cbv beta. rewrite cut_bubble0 by lra. unfold f. ring.
Qed.
Lemma cut_bubble_lt Lambda D1 D2 x : 0 < x -> 0 < Lambda -> 0 <= D1 -> D1 < D2 -> bubble_at (cut Lambda D1) 0 x < bubble_at (cut Lambda D2) 0 x.
Proof.
  intros Hx HL H1 H2. rewrite !cut_bubble0 by lra. destruct (inv_sq_lt x D1 D2 Hx H1 H2) as [A B]. assert (0 < x * x) by nra.
  assert (Q : 0 < x * x * (x * x) * / ((x * x + Lambda * Lambda) * (x * x + Lambda * Lambda))) by (apply Rmult_lt_0_compat; [nra|apply Rinv_0_lt_compat; nra]). nra.
Qed.
Theorem C113_cutoff_far_refuted : forall V Lambda D1 D2, 0 < V -> 0 < Lambda -> 0 <= D1 -> D1 < D2 -> Lambda / V < / 10 ^ 2 ->
  exists I1 I2, tail_above (bubble_at (cut Lambda D1) 0) V I1 /\ tail_above (bubble_at (cut Lambda D2) 0) V I2 /\ I1 < I2 /\
    REG3_nondiff 0 V Lambda D1 = REG3_nondiff 0 V Lambda D2.
Proof.
  intros V Lambda D1 D2 HV HL H1 H2 Hr. destruct (cut_tail_exists V Lambda D1 HV HL H1) as [I1 T1]. destruct (cut_tail_exists V Lambda D2 HV HL ltac:(lra)) as [I2 T2].
  exists I1, I2. split; [exact T1|]. split; [exact T2|]. split.
  - apply (tail_lt _ _ _ _ _ T1 T2). intros x Hx. apply cut_bubble_lt; lra.
  - unfold REG3_nondiff. destruct (Rlt_dec (Rabs 0) (/ 10 ^ 10)) as [_|N0]; [|exfalso; apply N0; rewrite Rabs_R0; apply Rinv_0_lt_compat, pow_lt; lra].
    destruct (Rlt_dec (Lambda / V) (/ 10 ^ 2)); [reflexivity|contradiction].
Qed.
Print Assumptions C113_cutoff_far_refuted.

(** closer to the cutoff the hybridisation enters, but not as in the integral: for Lambda = Delta = 1 the value is that for
    another integrand, x^4 - 3 x^2 in place of x^4 *)
Lemma near_value V : 0 < V -> V <= 100 -> REG3_nondiff 0 V 1 1 = - (1 / 2) * (-2 / (V * V + 1) + 2 * atan (1 / V) - 1 / (1 + V) + ln (1 + V) - ln (V * V + 1) / 2).
Proof.
  intros HV HV2. unfold REG3_nondiff. destruct (Rlt_dec (Rabs 0) (/ 10 ^ 10)) as [_|N0]; [|exfalso; apply N0; rewrite Rabs_R0; apply Rinv_0_lt_compat, pow_lt; lra].
  destruct (Rlt_dec (1 / V) (/ 10 ^ 2)) as [Q|_].
  { exfalso. apply (Rmult_lt_compat_r V) in Q; [|exact HV]. replace (1 / V * V) with 1 in Q by (field; lra). replace (/ 10 ^ 2) with (1 / 100) in Q by (simpl; field). lra. }
  unfold REG3_addition_w0. cbv zeta.
  set (l := ln (V * V + 1) / 2). set (t := atan (1 / V)).
  assert (Em : clog (rc V - ci * rc 1)%C = (l, - t)).
  { unfold clog, carg, norm, csub, cmul, ci, rc. cbn [fst snd]. destruct (Rlt_dec 0 (V - (0 * 1 - 1 * 0))) as [_|K]; [|exfalso; apply K; lra]. unfold l, t. f_equal.
    - f_equal. f_equal. ring.
    - rewrite <- atan_opp. f_equal. field. lra. }
  assert (Ep : clog (rc V + ci * rc 1)%C = (l, t)).
  { unfold clog, carg, norm, cadd, cmul, ci, rc. cbn [fst snd]. destruct (Rlt_dec 0 (V + (0 * 1 - 1 * 0))) as [_|K]; [|exfalso; apply K; lra]. unfold l, t. f_equal.
    - f_equal. f_equal. ring.
    - f_equal. field. lra. }
  rewrite Em, Ep. replace (1 + V) with (V + 1) by ring. set (n := ln (V + 1)). unfold cdiv, cinv, norm, cpow2, cpow3, csub, cadd, cmul, rc, ci. cbn [fst snd].
  field. repeat split; try lra; nra.
Qed.
Theorem C113_cutoff_near_refuted : forall V, 0 < V -> V <= 100 -> exists I, tail_above (bubble_at (cut 1 1) 0) V I /\ I < REG3_nondiff 0 V 1 1.
Proof.
  intros V HV HV2. destruct (cut_tail_exists V 1 1 HV ltac:(lra) ltac:(lra)) as [I T]. exists I. split; [exact T|]. rewrite near_value by assumption.
  set (g := fun x => - ((x * x * (x * x) - 3 * (x * x)) * / ((x * x + 1) * (x * x + 1)) * (/ (x + 1) * / (x + 1)))).
  assert (G : tail_above g V (- (1 / 2) * (-2 / (V * V + 1) + 2 * atan (1 / V) - 1 / (1 + V) + ln (1 + V) - ln (V * V + 1) / 2))).
  { exists (fun x => (1 / 2) * (-2 * / (x * x + 1) + (2 * atan (1 / x) + (-1 * / (x + 1) + (fst (clog (rc x + (1, 0))%C) - fst (clog (rc x + (0, 1))%C)))))), ((1 / 2) * (-2 * 0 + (2 * 0 + (-1 * 0 + 0)))). split; [|split].
    - intros x Hx. assert (0 < x) by lra. assert (0 < x * x) by nra. eapply dlim_eq.
      2:{ apply dlim_scal, dlim_plus; [apply dlim_scal, (dlim_inv (fun x => x * x + 1)); [nra|apply (dlim_plus (fun y => y * y) (fun _ => 1)); [apply dlim_sq|apply dlim_const]]|].
          apply dlim_plus; [apply dlim_scal, dlim_atan_inv; lra|]. apply dlim_plus; [apply dlim_scal, (dlim_inv (fun x => x + 1)); [lra|apply dlim_shift]|].
          apply dlim_minus; apply clog_re_deriv; cbn [fst]; lra. }
      rewrite !rc_shift. unfold g, cinv, norm. cbn [fst snd]. field. repeat split; try lra; nra.
    - apply tends_scal, tends_plus; [apply tends_scal|apply tends_plus; [apply tends_scal|apply tends_plus; [apply tends_scal|apply clog_re_tends]]].
      + intros e He. destruct (tends_inv 0 e He) as [M HM]. exists (Rmax 1 M). intros x Hx. pose proof (Rmax_l 1 M). pose proof (Rmax_r 1 M). specialize (HM x ltac:(lra)). rewrite Rplus_0_r, Rminus_0_r in HM.
        rewrite Rminus_0_r. assert (P1 : 0 < / x) by (apply Rinv_0_lt_compat; lra). assert (P2 : 0 < / (x * x + 1)) by (apply Rinv_0_lt_compat; nra).
        rewrite Rabs_right in HM |- * by lra. assert (/ (x * x + 1) <= / x) by (apply Rinv_le_contravar; nra). lra.
      + eapply (tends_ext _ _ _ 1); [|apply (tends_atan_ratio 0 1)]. intros x Hx. cbv beta. rewrite Rplus_0_r. reflexivity.
      + apply tends_inv.
    - rewrite !rc_shift. unfold clog. cbn [fst snd]. unfold norm. cbn [fst snd].
      replace ((V + 1) * (V + 1) + 0 * 0) with ((1 + V) * (1 + V)) by ring. replace ((V + 0) * (V + 0) + 1 * 1) with (V * V + 1) by ring.
      rewrite ln_mult by lra. assert (0 < V * V) by nra. set (t := atan _). set (l := ln _). set (m := ln _). field. split; nra. }
  apply (tail_lt _ _ _ _ _ T G). intros x Hx. assert (0 < x) by lra. rewrite cut_bubble0 by lra. unfold g. rewrite Rmult_1_r. assert (0 < x * x) by nra.
  assert (P : 0 < / ((x * x + 1) * (x * x + 1)) * (/ (x + 1) * / (x + 1))).
  { apply Rmult_lt_0_compat; [apply Rinv_0_lt_compat; nra|]. assert (0 < / (x + 1)) by (apply Rinv_0_lt_compat; lra). nra. }
  set (p := / ((x * x + 1) * (x * x + 1))) in *. set (q := / (x + 1) * / (x + 1)) in *. nra.
Qed.
Print Assumptions C113_cutoff_near_refuted.

(** finite temperature: the regulator of the propagator contains the frequency in units of pi T, that of the tails the frequency itself *)
Theorem C113_propagator_cutoff : forall c p v, phs c = true -> keldysh c = false -> reg c = 3%Z -> sigma p 0 v = rc 0 -> v <> 0 -> 0 <= Gamma p -> 0 <= Lambda p -> 0 < Temp p ->
  GM c p v = Some (rc (v * v / (v * v + Lambda p * Lambda p) * decayed (Gamma p / 2) (scaled c p v))).
Proof.
  intros c p v Hp Hk Hr Hs Hv HG HL HT. set (u := scaled c p v).
  assert (Hu : (0 < v -> 0 < u) /\ (v < 0 -> u < 0)).
  { unfold u, scaled. rewrite Hk. assert (F : 0 < (if negb false && negb (zero_t c) then PI * Temp p else 1)).
    { destruct (zero_t c); cbn; [lra|]. apply Rmult_lt_0_compat; [apply PI_RGT_0|exact HT]. }
    split; intros H; nra. }
  assert (Hd : sign v = sign u /\ u + Gamma p / 2 * sign u <> 0).
  { destruct (Rtotal_order v 0) as [H|[H|H]]; [|contradiction|].
    - pose proof (proj2 Hu H) as A. rewrite (sign_neg v H), (sign_neg u A). split; lra.
    - pose proof (proj1 Hu H) as A. rewrite (sign_pos v H), (sign_pos u A). split; lra. }
  destruct Hd as [Es Nz]. assert (V2 : 0 < v * v) by (apply Rsqr_pos_lt; exact Hv).
  assert (Q : forall a x : R, x <> 0 -> cquot (rc a) (rc x) = Some (rc (a * / x))).
  { intros a x Hx. unfold cquot. destruct (Req_EM_T (norm (rc x)) 0) as [E|E]; [exfalso; unfold norm, rc in E; cbn in E; nra|].
    f_equal. unfold cmul, cinv, rc, norm. cbn. f_equal; field; intros H0; apply Hx; nra. }
  unfold GM. rewrite Hr. cbn [Z.eqb Pos.eqb]. unfold GM_REG3. rewrite Q by nra. cbn [obind]. unfold G0M_inv. rewrite Hp. fold u. rewrite Es.
  assert (D0 : v * v * / (v * v + Lambda p * Lambda p) <> 0) by (apply Rmult_integral_contrapositive_currified; [lra|apply Rinv_neq_0_compat; nra]).
  rewrite Q by exact D0. cbn [obind]. rewrite Hs.
  replace (rc ((u + Gamma p * (1 / 2) * sign u) * / (v * v * / (v * v + Lambda p * Lambda p))) - rc 0)%C with (rc ((u + Gamma p / 2 * sign u) * / (v * v * / (v * v + Lambda p * Lambda p)))).
  2:{ unfold csub, rc. cbn [fst snd]. f_equal; [|ring]. rewrite Rminus_0_r. f_equal. field. }
  rewrite Q.
  - unfold decayed. do 2 f_equal. field. repeat split; try assumption; nra.
  - apply Rmult_integral_contrapositive_currified; [exact Nz|apply Rinv_neq_0_compat; exact D0].
Qed.
Print Assumptions C113_propagator_cutoff.
Theorem C113_cutoff_units_refuted : forall V Lambda t, 0 < V -> 0 < Lambda -> 1 < t -> / 10 ^ 2 <= Lambda / V ->
  exists I, tail_above (bubble_at (fun u => u / t * (u / t) / (u / t * (u / t) + Lambda * Lambda) * decayed 0 u) 0) V I /\ REG3_nondiff 0 V Lambda 0 < I.
Proof.
  intros V Lambda t HV HL Ht Hr. assert (HtL : 0 < t * Lambda) by (apply Rmult_lt_0_compat; lra). exists (cut_tail0 V (t * Lambda)).
  assert (T : tail_above (bubble_at (cut (t * Lambda) 0) 0) V (cut_tail0 V (t * Lambda))) by (apply tail_cut0; assumption). split.
  - eapply tail_ext; [|exact T]. intros x Hx. unfold bubble_at, cut. replace (0 / 2) with 0 by field. rewrite Rminus_0_r, Rplus_0_r. assert (0 < x * x) by nra. assert (0 < t * t) by nra.
    assert (E : x / t * (x / t) / (x / t * (x / t) + Lambda * Lambda) = x * x / (x * x + t * Lambda * (t * Lambda))) by (field; repeat split; try lra; nra). rewrite E. reflexivity.
  - rewrite reg3_cut0 by assumption. apply (tail_lt _ _ _ _ _ (tail_cut0 V Lambda HV HL) T). intros x Hx. rewrite !cut_bubble0 by lra. assert (0 < x * x) by nra.
    assert (0 < / (x + 0)) by (apply Rinv_0_lt_compat; lra). assert (L2 : 0 < Lambda * Lambda) by nra. assert (LT : Lambda < t * Lambda) by nra. assert (LL : Lambda * Lambda < t * Lambda * (t * Lambda)) by (apply Rmult_le_0_lt_compat; lra).
    assert (J : / ((x * x + t * Lambda * (t * Lambda)) * (x * x + t * Lambda * (t * Lambda))) < / ((x * x + Lambda * Lambda) * (x * x + Lambda * Lambda))) by (apply inv_lt; nra).
    set (j := / ((x * x + t * Lambda * (t * Lambda)) * _)) in *. set (k := / ((x * x + Lambda * Lambda) * _)) in *.
    assert (0 < x * x * (x * x)) by nra. assert (0 < / (x + 0) * / (x + 0)) by nra. set (s := / (x + 0) * / (x + 0)) in *. set (y := x * x * (x * x)) in *. assert (y * j < y * k) by nra. nra.
Qed.
Print Assumptions C113_cutoff_units_refuted.

(** ** Configurations *)
Theorem C113_configurations_refuted : forall keldysh p_channel w vmin vmax eps Delta Lambda eta1 eta2 diff,
  (forall reg, reg = 3%Z \/ reg = 4%Z -> correction_bubble keldysh false reg p_channel w vmin vmax eps Delta Lambda eta1 eta2 diff = None) /\
  (forall reg phs, (reg < 2 \/ 4 < reg)%Z -> correction_bubble keldysh phs reg p_channel w vmin vmax eps Delta Lambda eta1 eta2 diff = Some (rc 0)) /\
  (forall phs, correction_bubble true phs 2 p_channel w vmin vmax eps Delta Lambda eta1 eta2 true = Some (rc 0)).
Proof.
  intros k p w vmin vmax eps D L e1 e2 diff. split; [|split].
  - intros reg [-> | ->]; reflexivity.
  - intros reg phs H. unfold correction_bubble. destruct (Z.eqb_spec reg 2); [lia|]. destruct (Z.eqb_spec reg 3); [lia|]. destruct (Z.eqb_spec reg 4); [lia|]. reflexivity.
  - intros phs. unfold correction_bubble. cbn [Z.eqb Pos.eqb]. destruct p; reflexivity.
Qed.
Print Assumptions C113_configurations_refuted.
(** selection for particle-hole symmetry in the Matsubara formalism *)
Theorem C113_selection_partial : forall p_channel w vmin vmax eps Delta Lambda eta1 eta2 diff,
  correction_bubble false true 2 p_channel w vmin vmax eps Delta Lambda eta1 eta2 diff = Some (rc ((if p_channel then P_REG2_PHS else AT_REG2_PHS) w vmin vmax Delta diff)) /\
  correction_bubble false false 2 p_channel w vmin vmax eps Delta Lambda eta1 eta2 diff = Some ((if p_channel then P_REG2_NoPHS else AT_REG2_NoPHS) w vmin vmax eps Delta diff) /\
  correction_bubble false true 3 p_channel w vmin vmax eps Delta Lambda eta1 eta2 diff = Some (rc ((if p_channel then P_REG3_PHS else AT_REG3_PHS) w vmin vmax Delta Lambda diff)) /\
  correction_bubble false true 4 p_channel w vmin vmax eps Delta Lambda eta1 eta2 diff = Some (rc ((if p_channel then P_REG4_PHS else AT_REG4_PHS) w vmin vmax Delta Lambda diff)).
Proof. intros. repeat split. Qed.
Print Assumptions C113_selection_partial.
(** the vertices are multiplied as in the integrand: [VL], [VR] for the spins of the internal lines, 0: as outside, 1: the other one *)
Theorem C113_spin_sum_partial : forall lV lVh rV rVh Pi : comp,
  let term (l r : Z) := ((if (l =? 0)%Z then lV else lVh) * Pi * (if (r =? 0)%Z then rV else rVh))%C in
  let total := (term 0%Z 0%Z + term 0%Z 0%Z + term 0%Z 1%Z + term 1%Z 0%Z)%C in
  spin_sum "t" 0 lV lVh rV rVh Pi = total /\ spin_sum "a" 1 lV lVh rV rVh Pi = total /\
  spin_sum "a" 0 lV lVh rV rVh Pi = term 0%Z 0%Z /\ spin_sum "t" 1 lV lVh rV rVh Pi = term 0%Z 0%Z /\
  spin_sum "p" 0 lV lVh rV rVh Pi = term 0%Z 0%Z /\ spin_sum "p" 1 lV lVh rV rVh Pi = term 0%Z 1%Z.
Proof.
  intros lV lVh rV rVh Pi term total. unfold total, term, spin_sum. cbn [Ascii.eqb Bool.eqb Z.eqb Pos.eqb].
  repeat split; apply ceq; unfold cadd, cmul; cbn [fst snd]; ring.
Qed.
Print Assumptions C113_spin_sum_partial.

(** ** Cases that meet the hypotheses *)
Example C113_tails_hyp : 0 <= 1 / 2 /\ Rabs 4 / 2 < 10 /\ Rabs 4 / 2 < - -12 /\ tails (bubble_at (decayed (1 / 2)) 4) (-12) 10 (1 / 4 * ln ((- -12 - 4 / 2 + 1 / 2) * (10 - 4 / 2 + 1 / 2) / ((- -12 + 4 / 2 + 1 / 2) * (10 + 4 / 2 + 1 / 2)))).
Proof.
  assert (A : Rabs 4 / 2 < 10) by (rewrite Rabs_right; lra). assert (B : Rabs 4 / 2 < - -12) by (rewrite Rabs_right; lra).
  split; [lra|]. split; [exact A|]. split; [exact B|]. pose proof (proj1 (C113_tails_partial 4 (-12) 10 (1 / 2) ltac:(lra) A B)) as T. unfold AT_REG2_PHS in T. destruct (Req_EM_T 4 0); [lra|]. exact T.
Qed.
Example C113_interaction_hyp : tiny <= Rabs 4 /\ AT_REG4_PHS 0 (-12) 10 (1 / 2) 3 false = 9 * (- 1 / (10 + 1 / 2) + 1 / (-12 - 1 / 2)) /\ AT_REG4_PHS 0 (-12) 10 (1 / 2) 3 true = 6 * (- 1 / (10 + 1 / 2) + 1 / (-12 - 1 / 2)).
Proof.
  assert (T0 : 0 < tiny) by (unfold tiny; apply Rinv_0_lt_compat, pow_lt; lra). split.
  - rewrite Rabs_right by lra. unfold tiny. apply (Rmult_le_reg_r (10 ^ 20)); [apply pow_lt; lra|]. rewrite Rinv_l by (apply pow_nonzero; lra). assert (1 <= 10 ^ 20) by (apply pow_R1_Rle; lra). lra.
  - unfold AT_REG4_PHS, B_REG4_PHS. rewrite Rabs_R0. destruct (Rlt_dec 0 tiny); [|contradiction]. split; ring.
Qed.
Example C113_derivative_hyp : AT_REG2_PHS 4 (-12) 10 ((1 + 1) / 2) true = 1 / 2 * (1 / 165 + 1 / 117).
Proof. unfold AT_REG2_PHS. f_equal. f_equal; field. Qed.
Definition ex_cfg (p : bool) (r : Z) : cfg := {| keldysh := false; contour := false; zero_t := false; phs := p; reg := r; equilibrium := true; fdt_katanin := false; mu := 0; bias := 0 |}.
Definition ex_prop (e : R) : propagator := {| Lambda := 3; epsilon := 2; Gamma := 1; Temp := 1 / 2; sigma := fun _ _ => rc e; dsigma := fun _ _ => rc 0; asymp := rc e |}.
Example C113_propagator_hyp : scaled (ex_cfg true 2) (ex_prop 0) (-7) = -7 * (PI * (1 / 2)) /\ GM (ex_cfg true 2) (ex_prop 0) (-7) = Some (rc (decayed ((1 + 3) / 2) (-7 * (PI * (1 / 2))))).
Proof. split; [reflexivity|]. apply (proj1 (C113_propagator (ex_cfg true 2) (ex_prop 0) (-7) eq_refl eq_refl eq_refl ltac:(lra) ltac:(cbn; lra) ltac:(cbn; lra) ltac:(cbn; lra))). reflexivity. Qed.
Example C113_propagator_complex_hyp : GM (ex_cfg false 2) (ex_prop 5) 3 = Some (cdecayed ((1 + 3) / 2) (2 + 5) (3 * (PI * (1 / 2)))).
Proof. apply (C113_propagator_complex (ex_cfg false 2) (ex_prop 5) 3 5); try reflexivity; cbn; lra. Qed.
Example C113_propagator_cutoff_hyp : GM (ex_cfg true 3) (ex_prop 0) (-1) = Some (rc (-1 * -1 / (-1 * -1 + 3 * 3) * decayed (1 / 2) (-1 * (PI * (1 / 2))))).
Proof. apply (C113_propagator_cutoff (ex_cfg true 3) (ex_prop 0) (-1)); try reflexivity; cbn; lra. Qed.
Example C113_complex_hyp : Rabs (-3) < 10 - Rabs 4 / 2 + 1 / 2 /\ Rabs (-3) < - -12 - Rabs 4 / 2 + 1 / 2.
Proof. rewrite (Rabs_left (-3)), (Rabs_right 4) by lra. lra. Qed.
Example C113_branch_hyp : 3 + 1 / 2 < 5.
Proof. lra. Qed.
Example C113_complex_p_sign_hyp : Rabs (-3) < 10 - Rabs 4 / 2 + 1 / 2 /\ P_REG2_NoPHS 4 (-10) 10 (rc 0) 1 true = rc (1 / 117).
Proof.
  split; [rewrite (Rabs_left (-3)), (Rabs_right 4) by lra; lra|].
  unfold P_REG2_NoPHS, cdiv, cinv, norm, cpow2, cmul, cadd, csub, rc, ci. cbn [fst snd]. f_equal; field.
Qed.
Example C113_overlap_hyp : symmetric_sum (fun n => bubble_at (decayed 1) 0 (IZR n)) 2 = - (5 / 8).
Proof.
  cbn [symmetric_sum]. unfold bubble_at. replace (0 / 2) with 0 by field. rewrite !Rminus_0_r, !Rplus_0_r.
  change (2 * Z.of_nat 0 + 1)%Z with 1%Z. change (-2 * Z.of_nat 0 - 1)%Z with (-1)%Z. change (2 * Z.of_nat 1 + 1)%Z with 3%Z. change (-2 * Z.of_nat 1 - 1)%Z with (-3)%Z.
  rewrite (decayed_pos 1 1), (decayed_pos 1 3), (decayed_neg 1 (-1)), (decayed_neg 1 (-3)) by lra. field.
Qed.
Example C113_cutoff_hyp : / 10 ^ 10 <= Rabs 4 /\ Rabs 4 / 2 < 10 /\ / 10 ^ 2 <= 3 / 10 /\ REG3_nondiff 0 1 1 0 = - (1 / 2) * (1 / 2 + PI / 4).
Proof.
  rewrite (Rabs_right 4) by lra. split; [|split; [lra|split; [simpl; lra|]]].
  - apply (Rmult_le_reg_r (10 ^ 10)); [apply pow_lt; lra|]. rewrite Rinv_l by (apply pow_nonzero; lra). assert (1 <= 10 ^ 10) by (apply pow_R1_Rle; lra). lra.
  - rewrite reg3_cut0 by (simpl; lra). unfold cut_tail0. replace (1 / 1) with 1 by field. rewrite atan_1. field.
Qed.
Example C113_cutoff_series_hyp : 1 / 1000 < / 10 ^ 2 /\ / 10 ^ 5 <= 1 / 1000.
Proof. simpl. lra. Qed.
Example C113_spin_sum_hyp : spin_sum "t" 0 (rc 2) (rc 3) (rc 5) (rc 7) (rc 1) = rc 49 /\ spin_sum "p" 1 (rc 2) (rc 3) (rc 5) (rc 7) (rc 1) = rc 14.
Proof. split; unfold spin_sum; cbn [Ascii.eqb Bool.eqb Z.eqb Pos.eqb]; apply ceq; unfold cmul, cadd, rc; cbn [fst snd]; ring. Qed.

(** ** C114: tails of the loop integral (asymp_corrections_loop) *)
Lemma ctail_scal_c k f v I : ctail_above f v I -> ctail_above (fun x => cmul k (f x)) v (cmul k I).
Proof.
  intros [A B]. split; unfold cmul; cbn [fst snd].
  - replace (fst k * fst I - snd k * snd I) with (fst k * fst I + - snd k * snd I) by ring. eapply tail_ext; [|apply tail_plus; apply tail_scal; [exact A|exact B]]. intros; cbv beta; ring.
  - replace (fst k * snd I + snd k * fst I) with (fst k * snd I + snd k * fst I) by ring. eapply tail_ext; [|apply tail_plus; apply tail_scal; [exact B|exact A]]. intros; cbv beta; ring.
Qed.
Lemma ctail_sub f g v I J : ctail_above f v I -> ctail_above g v J -> ctail_above (fun x => csub (f x) (g x)) v (csub I J).
Proof.
  intros [A B] [A' B']. split; unfold csub; cbn [fst snd].
  - replace (fst I - fst J) with (fst I + -1 * fst J) by ring. eapply tail_ext; [|apply tail_plus; [exact A|apply tail_scal; exact A']]. intros; cbv beta; ring.
  - replace (snd I - snd J) with (snd I + -1 * snd J) by ring. eapply tail_ext; [|apply tail_plus; [exact B|apply tail_scal; exact B']]. intros; cbv beta; ring.
Qed.
(** retarded single-scale propagator d/dLambda 1 / (v - eps + i Delta), Delta = (Gamma + Lambda) / 2; [s] = 1 retarded, -1 advanced *)
Definition single_scale (s eps Delta v : R) : comp := cmul (0, - s / 2) (cinv (cmul (v - eps, s * Delta) (v - eps, s * Delta))).
Lemma single_above s eps Delta V : eps < V -> ctail_above (single_scale s eps Delta) V (cmul (0, - s / 2) (cinv (V - eps, s * Delta))).
Proof.
  intros H. unfold single_scale. apply ctail_scal_c. pose proof (ctail_square (- eps, s * Delta) V ltac:(cbn [fst]; lra)) as T. rewrite rc_shift in T.
  eapply ctail_ext; [|exact T]. intros x Hx. cbv beta. rewrite rc_shift. reflexivity.
Qed.
Lemma single_below s eps Delta V : - eps < V -> ctail_above (fun x => single_scale s eps Delta (- x)) V (cmul (0, - s / 2) (cinv (V + eps, - (s * Delta)))).
Proof.
  intros H. unfold single_scale. apply ctail_scal_c. pose proof (ctail_square (eps, - (s * Delta)) V ltac:(cbn [fst]; lra)) as T. rewrite rc_shift in T.
  eapply ctail_ext; [|exact T]. intros x Hx. cbv beta. rewrite rc_shift. f_equal. apply ceq; unfold cmul; cbn [fst snd]; ring.
Qed.
Theorem C114_single_scale_partial : forall vmin vmax eps Delta, 0 < Delta -> eps < vmax -> vmin < eps ->
  ctails (single_scale 1 eps Delta) vmin vmax (SE_Keldysh 0 vmin vmax eps Delta true) /\
  ctails (single_scale (-1) eps Delta) vmin vmax (SE_Keldysh 1 vmin vmax eps Delta true) /\
  (* zero temperature, limits on both sides of the chemical potential 0 *)
  (vmin < 0 < vmax -> ctails (fun v => cmul (rc (sign v)) (csub (single_scale 1 eps Delta v) (single_scale (-1) eps Delta v))) vmin vmax (SE_Keldysh 2 vmin vmax eps Delta true)).
Proof.
  intros vmin vmax eps Delta HD H1 H2. assert (P : 0 < (vmax - eps) * (vmax - eps)) by nra. assert (P2 : 0 < (vmin - eps) * (vmin - eps)) by nra.
  assert (A := fun s => single_above s eps Delta vmax H1). assert (B := fun s => single_below s eps Delta (- vmin) ltac:(lra)). split; [|split].
  - replace (SE_Keldysh 0 vmin vmax eps Delta true) with (cadd (cmul (0, - (1) / 2) (cinv (vmax - eps, 1 * Delta))) (cmul (0, - (1) / 2) (cinv (- vmin + eps, - (1 * Delta))))).
    + apply ctails_of; [apply A|apply B].
    + unfold SE_Keldysh. apply ceq; unfold cdiv, cinv, norm, cmul, cadd, csub, copp, rc, ci; cbn [fst snd]; field; repeat split; nra.
  - replace (SE_Keldysh 1 vmin vmax eps Delta true) with (cadd (cmul (0, - (-1) / 2) (cinv (vmax - eps, -1 * Delta))) (cmul (0, - (-1) / 2) (cinv (- vmin + eps, - (-1 * Delta))))).
    + apply ctails_of; [apply A|apply B].
    + unfold SE_Keldysh. apply ceq; unfold cdiv, cinv, norm, cmul, cadd, csub, copp, rc, ci; cbn [fst snd]; field; repeat split; nra.
  - intros Hs. replace (SE_Keldysh 2 vmin vmax eps Delta true) with
      (cadd (csub (cmul (0, - (1) / 2) (cinv (vmax - eps, 1 * Delta))) (cmul (0, - (-1) / 2) (cinv (vmax - eps, -1 * Delta))))
            (copp (csub (cmul (0, - (1) / 2) (cinv (- vmin + eps, - (1 * Delta)))) (cmul (0, - (-1) / 2) (cinv (- vmin + eps, - (-1 * Delta))))))).
    + apply ctails_of.
      * eapply ctail_ext; [|apply ctail_sub; [apply (A 1)|apply (A (-1))]]. intros x Hx. cbv beta. rewrite (sign_pos x) by lra. apply ceq; unfold cmul, rc; cbn [fst snd]; ring.
      * eapply ctail_ext; [|apply ctail_opp, ctail_sub; [apply (B 1)|apply (B (-1))]]. intros x Hx. cbv beta. rewrite (sign_neg (- x)) by lra. apply ceq; unfold copp, cmul, rc; cbn [fst snd]; ring.
    + unfold SE_Keldysh. apply ceq; unfold cdiv, cinv, norm, cmul, cadd, csub, copp, rc, ci; cbn [fst snd]; field; repeat split; nra.
Qed.
Print Assumptions C114_single_scale_partial.
(** full propagator, Keldysh component *)
Theorem C114_keldysh_partial : forall vmin vmax eps Delta, 0 < Delta -> vmin < 0 < vmax ->
  ctails (fun v => cmul (rc (sign v)) (0, -2 * Delta / ((v - eps) * (v - eps) + Delta * Delta))) vmin vmax (SE_Keldysh 2 vmin vmax eps Delta false).
Proof.
  intros vmin vmax eps Delta HD Hs.
  assert (X : forall e V, 0 < V -> tail_above (fun x => -2 * Delta / ((x - e) * (x - e) + Delta * Delta)) V (-2 * (PI / 2 - atan ((V - e) / Delta)))).
  { intros e V HV. exists (fun x => -2 * atan (/ Delta * (x + - e))), (-2 * (PI / 2)). split; [|split].
    - intros x Hx. eapply dlim_eq; [|apply dlim_scal, (dlim_atan (fun x => / Delta * (x + - e))), dlim_scal, dlim_shift]. replace (x + - e) with (x - e) by ring. generalize (x - e). intros y. assert (0 < Delta * Delta) by nra. assert (0 <= y * y) by nra. field. repeat split; try lra; nra.
    - apply tends_scal. intros e0 He0. pose proof PI_RGT_0. destruct (Rlt_dec e0 (PI / 2)) as [Sm|Bg].
      + exists (e + Delta * tan (PI / 2 - e0 / 2)). intros x Hx. assert (T : tan (PI / 2 - e0 / 2) <= / Delta * (x + - e)).
        { apply (Rmult_le_reg_l Delta); [exact HD|]. rewrite <- Rmult_assoc, Rinv_r, Rmult_1_l by lra. lra. }
        assert (PI / 2 - e0 / 2 <= atan (/ Delta * (x + - e))).
        { rewrite <- (atan_tan (PI / 2 - e0 / 2)) at 1 by lra. destruct T as [T|T]; [left; apply atan_increasing; exact T|rewrite T; lra]. }
        pose proof (atan_bound (/ Delta * (x + - e))). apply Rabs_def1; lra.
      + exists (e + 1). intros x Hx. assert (0 < / Delta * (x + - e)) by (apply Rmult_lt_0_compat; [apply Rinv_0_lt_compat; exact HD|lra]).
        pose proof (atan_bound (/ Delta * (x + - e))). assert (0 < atan (/ Delta * (x + - e))) by (rewrite <- atan_0; apply atan_increasing; assumption). apply Rabs_def1; lra.
    - replace (/ Delta * (V + - e)) with ((V - e) / Delta) by (unfold Rdiv; ring). ring. }
  assert (Z0 : forall V, tail_above (fun _ => 0) V 0).
  { intros V. exists (fun _ => 0), 0. split; [intros; apply dlim_const|]. split; [apply tends_const|ring]. }
  replace (SE_Keldysh 2 vmin vmax eps Delta false) with (cadd (0, -2 * (PI / 2 - atan ((vmax - eps) / Delta))) (0, -1 * (-2 * (PI / 2 - atan ((- vmin - - eps) / Delta))))).
  - apply ctails_of; split; cbn [fst snd].
    + eapply tail_ext; [|apply Z0]. intros x Hx. cbv beta. unfold cmul, rc. cbn [fst snd]. ring.
    + eapply tail_ext; [|apply X; lra]. intros x Hx. cbv beta. rewrite (sign_pos x) by lra. unfold cmul, rc. cbn [fst snd]. ring.
    + eapply tail_ext; [|apply Z0]. intros x Hx. cbv beta. unfold cmul, rc. cbn [fst snd]. ring.
    + eapply tail_ext; [|apply tail_scal, X; lra]. intros x Hx. cbv beta. rewrite (sign_neg (- x)) by lra. unfold cmul, rc. cbn [fst snd].
      replace ((- x - eps) * (- x - eps)) with ((x - - eps) * (x - - eps)) by ring. ring.
  - unfold SE_Keldysh. rewrite (Rabs_left vmin) by lra. replace (- vmin - - eps) with (- vmin + eps) by ring. apply ceq; unfold cadd, cmul, rc, ci; cbn [fst snd]; ring.
Qed.
Print Assumptions C114_keldysh_partial.
(** Matsubara formalism: minus the integrals over the stored functions, for both types *)
Theorem C114_matsubara_partial : forall vmin vmax Delta, 0 <= Delta -> vmin < 0 < vmax ->
  principal_tails (fun v => - decayed Delta v) vmin vmax (SE_PHS vmin vmax Delta false) /\
  (forall Gamma Lambda, Delta = (Gamma + Lambda) / 2 -> 0 <= Gamma -> 0 < Lambda -> forall f, (forall v, v <> 0 -> derivable_pt_lim (fun L => - decayed ((Gamma + L) / 2) v) Lambda (f v)) ->
     tails f vmin vmax (SE_PHS vmin vmax Delta true)).
Proof.
  intros vmin vmax Delta HD Hs. split.
  - exists (fun x => -1 * ln (x + Delta)), (fun x => ln (x + Delta)). split; [|split].
    + intros x Hx. eapply dlim_eq; [|apply dlim_scal, (dlim_ln (fun x => x + Delta)); [lra|apply dlim_shift]]. rewrite decayed_pos by lra. field. lra.
    + intros x Hx. eapply dlim_eq; [|apply (dlim_ln (fun x => x + Delta)); [lra|apply dlim_shift]]. rewrite decayed_neg by lra. rewrite Ropp_involutive. field. lra.
    + apply (tends_ext (fun _ => SE_PHS vmin vmax Delta false) _ _ 0); [|apply tends_const]. intros x Hx. unfold SE_PHS. rewrite (Rabs_left vmin) by lra.
      unfold Rdiv. rewrite ln_mult, ln_Rinv; [ring|lra|lra|apply Rinv_0_lt_compat; lra].
  - intros Gamma Lambda -> HG HL f Hf.
    assert (E : forall x, 0 < x -> f x = / 2 * / ((x + (Gamma + Lambda) / 2) * (x + (Gamma + Lambda) / 2)) /\ f (- x) = - / 2 * / ((x + (Gamma + Lambda) / 2) * (x + (Gamma + Lambda) / 2))).
    { intros x Hx.
      assert (D1 : derivable_pt_lim (fun L => / (x + (Gamma + L) / 2)) Lambda (- (1 * (1 / 2)) / ((x + (Gamma + Lambda) / 2) * (x + (Gamma + Lambda) / 2)))).
      { apply (dlim_inv (fun L => x + (Gamma + L) / 2)); [lra|]. apply (dhalf Gamma Lambda (fun y => x + y)). apply (dlim_ext (fun y => y + x) _ _ _ 1); [lra|intros; ring|apply dlim_shift]. }
      split.
      - apply (uniqueness_limite _ _ _ _ (Hf x ltac:(lra))). apply (dlim_ext (fun L => - / (x + (Gamma + L) / 2)) _ _ _ 1); [lra|intros L _; rewrite decayed_pos by lra; reflexivity|].
        eapply dlim_eq; [|apply dlim_opp; exact D1]. field. lra.
      - apply (uniqueness_limite _ _ _ _ (Hf (- x) ltac:(lra))). apply (dlim_ext (fun L => / (x + (Gamma + L) / 2)) _ _ _ 1); [lra|intros L _; rewrite decayed_neg by lra; rewrite !Ropp_involutive; reflexivity|].
        eapply dlim_eq; [|exact D1]. field. lra. }
    exists (/ 2 * / (vmax + (Gamma + Lambda) / 2)), (- / 2 * / (- vmin + (Gamma + Lambda) / 2)). split; [|split].
    + eapply tail_ext; [|apply tail_scal, tail_square; lra]. intros x Hx. cbv beta. rewrite (proj1 (E x ltac:(lra))). reflexivity.
    + unfold tail_below. eapply tail_ext; [|apply tail_scal, tail_square; lra]. intros x Hx. cbv beta. rewrite (proj2 (E x ltac:(lra))). reflexivity.
    + unfold SE_PHS. field. lra.
Qed.
Print Assumptions C114_matsubara_partial.
(** sum over both spins: the Matsubara branch leaves out the bare vertex of the second spin component *)
Theorem C114_factor_refuted : forall bare t ispin, bare 1%Z <> 0 -> loop_factor_Matsubara bare t ispin true <> loop_factor_Keldysh bare t ispin true.
Proof. intros bare t ispin H. unfold loop_factor_Matsubara, loop_factor_Keldysh. lra. Qed.
Print Assumptions C114_factor_refuted.
(** and the hybridisation is that of the hybridisation flow for every regulator *)
Theorem C114_hybridisation_refuted : forall reg Gamma Lambda, reg <> 2%Z -> Lambda <> 0 -> loop_Delta Gamma Lambda <> bubble_Delta reg Gamma Lambda.
Proof. intros reg Gamma Lambda Hr HL. unfold loop_Delta, bubble_Delta. destruct (Z.eqb_spec reg 2); [contradiction|]. lra. Qed.
Print Assumptions C114_hybridisation_refuted.
Example C114_hyp : 0 < 1 /\ 1 / 2 < 10 /\ -12 < 1 / 2 /\ SE_Keldysh 2 (-1) 2 0 1 true = (0, 1 / 10) /\ SE_PHS (-3) 1 1 true = 1 / 8.
Proof. split; [lra|]. split; [lra|]. split; [lra|]. split; [unfold SE_Keldysh; apply ceq; unfold copp, cmul, rc, ci; cbn [fst snd]; field|unfold SE_PHS; field]. Qed.
Example C114_factor_hyp : loop_factor_Matsubara (fun _ => 1) (fun _ => 0) 0 true = 2 /\ loop_factor_Keldysh (fun _ => 1) (fun _ => 0) 0 true = 3 /\ loop_Delta 1 3 = 2 /\ bubble_Delta 4 1 3 = 1 / 2.
Proof. unfold loop_factor_Matsubara, loop_factor_Keldysh, loop_Delta, bubble_Delta. cbn [Z.eqb Pos.eqb]. repeat split; field. Qed.
