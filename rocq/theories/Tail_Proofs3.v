(** Existence of the integrals; the frequency cutoff. *)
From Coq Require Import Reals Lra Lia.
From Verif Require Import Prelude Gf_Model Tail_Model Tail_Spec Tail_Proofs Tail_Proofs2.
Open Scope R_scope.

(** a continuous function has an antiderivative on [v, infinity) *)
Lemma antiderivative_from f v d : 0 < d -> (forall x, v - d <= x -> continuity_pt f x) -> exists F, forall x, v <= x -> derivable_pt_lim F x (f x).
Proof.
  intros Hd C. set (a := v - d).
  assert (Ig : forall x, a <= x -> Riemann_integrable f a x).
  { intros x Hx. apply continuity_implies_RiemannInt; [exact Hx|]. intros y Hy. apply C. unfold a in *. lra. }
  exists (fun x => match Rle_dec a x with left h => RiemannInt (Ig x h) | right _ => 0 end).
  intros x Hx. assert (Hab : a <= x + 1) by (unfold a; lra).
  assert (C0 : forall y, a <= y <= x + 1 -> continuity_pt f y) by (intros y Hy; apply C; unfold a in *; lra).
  pose proof (RiemannInt_P27 (f := f) (a := a) (b := x + 1) (x := x) Hab C0 ltac:(unfold a; lra)) as P.
  apply (dlim_ext (primitive Hab (FTC_P1 Hab C0)) _ _ _ (Rmin 1 d)); [apply Rmin_glb_lt; lra| |exact P].
  intros y Hy. pose proof (Rmin_l 1 d). pose proof (Rmin_r 1 d). apply Rabs_def2 in Hy. unfold primitive.
  destruct (Rle_dec a y) as [h|h]; [|exfalso; apply h; unfold a; lra]. destruct (Rle_dec y (x + 1)) as [h'|h']; [|exfalso; lra].
  apply RiemannInt_P5.
Qed.
(** ... and if it lies between 0 and a function with a tail, it has a tail *)
Lemma tail_exists f g v d J : 0 < d -> (forall x, v - d <= x -> continuity_pt f x) -> (forall x, v <= x -> 0 <= f x <= g x) -> tail_above g v J -> exists I, tail_above f v I.
Proof.
  intros Hd C B (G & m & HG & Tm & ->). destruct (antiderivative_from f v d Hd C) as [F HF].
  assert (MF : forall x y, v <= x -> x <= y -> F x <= F y) by (apply (increasing_from F f v HF); intros x Hx; apply B; exact Hx).
  assert (MG : forall x y, v <= x -> x <= y -> G x <= G y) by (apply (increasing_from G g v HG); intros x Hx; destruct (B x Hx); lra).
  assert (MD : forall x y, v <= x -> x <= y -> G x - F x <= G y - F y).
  { apply (increasing_from (fun x => G x - F x) (fun x => g x - f x) v); [intros x Hx; apply dlim_minus; [apply HG|apply HF]; exact Hx|]. intros x Hx. destruct (B x Hx). lra. }
  assert (Gm : forall x, v <= x -> G x <= m).
  { intros x Hx. destruct (Rle_dec (G x) m) as [|N0]; [assumption|exfalso]. destruct (Tm (G x - m) ltac:(lra)) as [M HM].
    specialize (HM (Rmax M x) (Rmax_l _ _)). apply Rabs_def2 in HM. pose proof (MG x (Rmax M x) Hx (Rmax_r _ _)). lra. }
  set (E := fun y => exists x, v <= x /\ y = F x).
  destruct (completeness E) as [l [Ub Lub]].
  - exists (F v + (m - G v)). intros y (x & Hx & ->). pose proof (MD v x (Rle_refl v) Hx). pose proof (Gm x Hx). lra.
  - exists (F v), v. split; [lra|reflexivity].
  - exists (l - F v), F, l. split; [exact HF|]. split; [|reflexivity].
    intros e He. destruct (Rlt_dec (l - e / 2) (F v)) as [Q|Q].
    + exists v. intros x Hx. assert (F x <= l) by (apply Ub; exists x; split; [exact Hx|reflexivity]). pose proof (MF v x (Rle_refl v) Hx). apply Rabs_def1; lra.
    + assert (Wit : exists x0, v <= x0 /\ l - e / 2 < F x0).
      { apply Classical_Prop.NNPP. intros NE. assert (l <= l - e / 2); [|lra]. apply Lub. intros y (x & Hx & ->). destruct (Rle_dec (F x) (l - e / 2)) as [|N0]; [assumption|].
        exfalso. apply NE. exists x. split; [exact Hx|lra]. }
      destruct Wit as (x0 & Hx0 & L0). exists x0. intros x Hx. assert (F x <= l) by (apply Ub; exists x; split; [lra|reflexivity]). pose proof (MF x0 x Hx0 Hx). apply Rabs_def1; lra.
Qed.

(** ** Frequency cutoff without hybridisation *)
Lemma addition_zero w V Lambda : REG3_addition w V Lambda 0 = 0.
Proof.
  unfold REG3_addition.
  match goal with |- (over signs ?f + over signs ?g) * _ = 0 => assert (A : over signs f = 0); [|assert (B : over signs g = 0)] end.
  - unfold over at 1. cbn [signs map sumR fold_right]. unfold over. cbn [signs map sumR fold_right]. rewrite ?Rmult_0_r, ?Rmult_0_l. ring.
  - unfold over at 1. cbn [signs map sumR fold_right]. unfold over. cbn [signs map sumR fold_right]. rewrite ?Rmult_0_r, ?Rmult_0_l. ring.
  - rewrite A, B. ring.
Qed.
Lemma addition_w0_zero V Lambda : REG3_addition_w0 V Lambda 0 = 0.
Proof. unfold REG3_addition_w0. cbv zeta. match goal with |- - (1 / 2) * 0 * ?x = 0 => generalize x end. intros; ring. Qed.
Lemma carg_conj z : 0 < fst z -> carg (Gf_Model.conj z) = - carg z.
Proof. intros H. unfold carg, Gf_Model.conj. cbn [fst snd]. destruct (Rlt_dec 0 (fst z)); [|contradiction]. unfold Rdiv. rewrite Ropp_mult_distr_l_reverse. apply atan_opp. Qed.

(** closed form of the code's value, [z1], [z2] the two poles *)
Definition cut_tail (w V Lambda : R) : R :=
  let z1 := clog (V + w / 2, Lambda) in let z2 := clog (V - w / 2, Lambda) in
  - (1 / 4) * (2 * (fst z1 - fst z2) / w + 2 * ((fst z1 - fst z2) * w + 2 * Lambda * (snd z1 + snd z2)) / (w * w + 4 * (Lambda * Lambda))).
Lemma reg3_cut w V Lambda : / 10 ^ 10 <= Rabs w -> Rabs w / 2 < V -> 0 < Lambda -> REG3_nondiff w V Lambda 0 = cut_tail w V Lambda.
Proof.
  intros Hw HV HL. assert (Hb : - V < w / 2 < V) by (pose proof (Rle_abs w); pose proof (Rle_abs (- w)); rewrite Rabs_Ropp in *; lra).
  assert (Ne : w <> 0). { intros ->. rewrite Rabs_R0 in Hw. assert (0 < / 10 ^ 10) by (apply Rinv_0_lt_compat, pow_lt; lra). lra. }
  unfold REG3_nondiff. destruct (Rlt_dec (Rabs w) (/ 10 ^ 10)); [lra|]. rewrite addition_zero, Rplus_0_r. unfold cut_tail. cbv zeta.
  set (z1 := (V + w / 2, Lambda)). set (z2 := (V - w / 2, Lambda)).
  replace (rc (V + w / 2) + ci * rc Lambda)%C with z1 by (unfold z1, cadd, cmul, rc, ci; cbn [fst snd]; f_equal; ring).
  replace (rc (V - w / 2) - ci * rc Lambda)%C with (Gf_Model.conj z2) by (unfold z2, Gf_Model.conj, csub, cmul, rc, ci; cbn [fst snd]; f_equal; ring).
  rewrite clog_div by (unfold z1, z2, Gf_Model.conj; cbn [fst]; lra).
  assert (E2 : clog (Gf_Model.conj z2) = Gf_Model.conj (clog z2)).
  { unfold clog, Gf_Model.conj at 3. cbn [fst snd]. rewrite carg_conj by (unfold z2; cbn [fst]; lra). f_equal. f_equal. unfold norm, Gf_Model.conj. cbn [fst snd]. f_equal. ring. }
  rewrite E2. assert (P1 : 0 < norm z1) by (apply norm_pos; unfold z1; cbn [fst]; lra). assert (P2 : 0 < norm z2) by (apply norm_pos; unfold z2; cbn [fst]; lra).
  replace (((V + w / 2) ^ 2 + Lambda * Lambda) / ((V - w / 2) ^ 2 + Lambda * Lambda)) with (norm z1 * / norm z2) by (unfold norm, z1, z2 in *; cbn [fst snd] in *; field; lra).
  rewrite ln_mult, ln_Rinv; [|exact P2|exact P1|apply Rinv_0_lt_compat; exact P2].
  assert (L1 : ln (norm z1) = 2 * fst (clog z1)) by (unfold clog; cbn [fst]; field). assert (L2 : ln (norm z2) = 2 * fst (clog z2)) by (unfold clog; cbn [fst]; field).
  rewrite L1, L2. generalize (clog z1) (clog z2). intros [l1 t1] [l2 t2]. unfold cdiv, cinv, norm, cmul, csub, cadd, Gf_Model.conj, rc, ci. cbn [fst snd].
  assert (0 < w * w) by (apply Rsqr_pos_lt; exact Ne). field. repeat split; try lra; nra.
Qed.
Lemma cut_pos Lambda Delta x : 0 < x -> cut Lambda Delta x = x * x / (x * x + Lambda * Lambda) * / (x + Delta).
Proof. intros H. unfold cut, decayed, sign. destruct (Rlt_dec 0 x); [|lra]. destruct (Rlt_dec x 0); [lra|]. do 2 f_equal. ring. Qed.
Lemma cut_neg Lambda Delta x : x < 0 -> cut Lambda Delta x = - cut Lambda Delta (- x).
Proof.
  intros H. rewrite (cut_pos Lambda Delta (- x)) by lra. unfold cut, decayed, sign. destruct (Rlt_dec 0 x); [lra|]. destruct (Rlt_dec x 0); [|lra].
  replace (x + Delta * (0 - 1)) with (- (- x + Delta)) by ring. rewrite Rinv_opp. replace (- x * - x) with (x * x) by ring. ring.
Qed.
Lemma cut_even Lambda Delta w v x : Rabs w / 2 < v -> v <= x -> bubble_at (cut Lambda Delta) w (- x) = bubble_at (cut Lambda Delta) w x.
Proof.
  intros Hw Hx. assert (Hb : - v < w / 2 < v) by (pose proof (Rle_abs w); pose proof (Rle_abs (- w)); rewrite Rabs_Ropp in *; lra).
  unfold bubble_at. rewrite (cut_neg _ _ (- x - w / 2)), (cut_neg _ _ (- x + w / 2)) by lra.
  replace (- (- x - w / 2)) with (x + w / 2) by lra. replace (- (- x + w / 2)) with (x - w / 2) by lra. ring.
Qed.
Lemma cut_bubble_p Lambda Delta w x : w / 2 - x <> 0 -> bubble_p (cut Lambda Delta) w x = - bubble_at (cut Lambda Delta) w x.
Proof.
  intros Hx. unfold bubble_p, bubble_at. replace (w / 2 + x) with (x + w / 2) by ring. destruct (Rlt_dec (w / 2 - x) 0).
  - rewrite (cut_neg _ _ (w / 2 - x)) by lra. replace (- (w / 2 - x)) with (x - w / 2) by ring. ring.
  - rewrite (cut_neg _ _ (x - w / 2)) by lra. replace (- (x - w / 2)) with (w / 2 - x) by ring. ring.
Qed.
Lemma rc_shift x a b : (rc x + (a, b))%C = (x + a, b).
Proof. unfold cadd, rc. cbn [fst snd]. f_equal. ring. Qed.
Lemma tail_cut w V Lambda : w <> 0 -> Rabs w / 2 < V -> 0 < Lambda -> tail_above (bubble_at (cut Lambda 0) w) V (cut_tail w V Lambda).
Proof.
  intros Ne HV HL. assert (Hb : - V < w / 2 < V) by (pose proof (Rle_abs w); pose proof (Rle_abs (- w)); rewrite Rabs_Ropp in *; lra).
  assert (W2 : 0 < w * w) by (apply Rsqr_pos_lt; exact Ne).
  set (a := (w / 2, Lambda)). set (b := (- w / 2, Lambda)). set (k := / (w * w + 4 * (Lambda * Lambda))).
  exists (fun x => (1 / 4) * ((2 * / w + 2 * w * k) * (fst (clog (rc x + a)%C) - fst (clog (rc x + b)%C)) + (4 * Lambda * k) * (snd (clog (rc x + a)%C) + snd (clog (rc x + b)%C)))),
    ((1 / 4) * ((2 * / w + 2 * w * k) * 0 + (4 * Lambda * k) * (0 + 0))). split; [|split].
  - intros x Hx. eapply dlim_eq; [|apply dlim_scal, dlim_plus; apply dlim_scal; [apply dlim_minus; apply clog_re_deriv|apply dlim_plus; apply clog_im_deriv]; unfold a, b; cbn [fst]; lra].
    unfold a, b. rewrite !rc_shift. unfold bubble_at. rewrite !cut_pos by lra. unfold k, cinv, norm. cbn [fst snd]. rewrite !Rplus_0_r.
    replace (x + - w / 2) with (x - w / 2) by field. set (m := x - w / 2). replace (x + w / 2) with (m + w) by (unfold m; field).
    assert (0 < m) by (unfold m; lra). assert (0 < m + w) by (unfold m; lra). field. repeat split; try lra; nra.
  - apply tends_scal, tends_plus; apply tends_scal; [apply clog_re_tends|apply tends_plus; apply clog_im_tends].
  - unfold cut_tail, a, b. rewrite !rc_shift. replace (V + - w / 2) with (V - w / 2) by field. generalize (clog (V + w / 2, Lambda)) (clog (V - w / 2, Lambda)). intros [l1 t1] [l2 t2]. cbv zeta. cbn [fst snd].
    unfold k. field. split; [|exact Ne]. nra.
Qed.
(** no transferred frequency *)
Definition cut_tail0 (V Lambda : R) : R := - (1 / 2) * (V / (V * V + Lambda * Lambda) + atan (Lambda / V) / Lambda).
Lemma tends_lorentz Lambda : tends (fun x => x / (x * x + Lambda * Lambda)) 0.
Proof.
  eapply (tends_ext _ _ _ 1); [|replace 0 with ((fun y => y * / (1 + Lambda * Lambda * (y * y))) 0) by ring; apply (tends_comp (fun y => y * / (1 + Lambda * Lambda * (y * y))) (fun x => / (x + 0))); [|apply tends_inv]].
  - intros x Hx. cbv beta. rewrite Rplus_0_r. field. split; nra.
  - apply derivable_continuous_pt. eexists. apply (dlim_mult (fun y => y) (fun y => / (1 + Lambda * Lambda * (y * y)))); [apply dlim_id|].
    apply (dlim_inv (fun y => 1 + Lambda * Lambda * (y * y))); [lra|]. apply (dlim_plus (fun _ => 1) (fun y => Lambda * Lambda * (y * y))); [apply dlim_const|]. apply dlim_scal, (dlim_mult (fun y => y) (fun y => y)); apply dlim_id.
Qed.
Lemma dlim_lorentz Lambda x : x * x + Lambda * Lambda <> 0 -> derivable_pt_lim (fun y => y / (y * y + Lambda * Lambda)) x ((Lambda * Lambda - x * x) / ((x * x + Lambda * Lambda) * (x * x + Lambda * Lambda))).
Proof.
  intros H. eapply dlim_eq; [|apply (dlim_div (fun y => y) (fun y => y * y + Lambda * Lambda)); [exact H|apply dlim_id|apply (dlim_plus (fun y => y * y) (fun _ => Lambda * Lambda)); [apply (dlim_mult (fun y => y) (fun y => y)); apply dlim_id|apply dlim_const]]].
  field. exact H.
Qed.
Lemma dlim_atan_inv c x : x <> 0 -> derivable_pt_lim (fun y => atan (c / y)) x (- c / (x * x + c * c)).
Proof.
  intros H. assert (0 < x * x) by (apply Rsqr_pos_lt; exact H). eapply dlim_eq; [|apply (dlim_atan (fun y => c / y)), (dlim_div (fun _ => c) (fun y => y)); [exact H|apply dlim_const|apply dlim_id]].
  field. repeat split; try assumption; nra.
Qed.
Lemma tail_cut0 V Lambda : 0 < V -> 0 < Lambda -> tail_above (bubble_at (cut Lambda 0) 0) V (cut_tail0 V Lambda).
Proof.
  intros HV HL. exists (fun x => (1 / 2) * (x / (x * x + Lambda * Lambda) + / Lambda * atan (Lambda / x))), ((1 / 2) * (0 + / Lambda * 0)). split; [|split].
  - intros x Hx. eapply dlim_eq; [|apply dlim_scal, dlim_plus; [apply dlim_lorentz; nra|apply dlim_scal, dlim_atan_inv; lra]].
    unfold bubble_at. replace (0 / 2) with 0 by field. rewrite Rminus_0_r, Rplus_0_r. rewrite cut_pos by lra. rewrite Rplus_0_r. field. repeat split; try lra; nra.
  - apply tends_scal, tends_plus; [apply tends_lorentz|]. apply tends_scal. eapply (tends_ext _ _ _ 1); [|apply (tends_atan_ratio 0 Lambda)]. intros x Hx. cbv beta. rewrite Rplus_0_r. reflexivity.
  - unfold cut_tail0. field. split; [lra|nra].
Qed.
Lemma reg3_cut0 V Lambda : 0 < V -> / 10 ^ 2 <= Lambda / V -> REG3_nondiff 0 V Lambda 0 = cut_tail0 V Lambda.
Proof.
  intros HV HL. unfold REG3_nondiff. destruct (Rlt_dec (Rabs 0) (/ 10 ^ 10)) as [_|N0].
  - destruct (Rlt_dec (Lambda / V) (/ 10 ^ 2)); [lra|]. rewrite addition_w0_zero. unfold cut_tail0. ring.
  - exfalso. apply N0. rewrite Rabs_R0. apply Rinv_0_lt_compat, pow_lt. lra.
Qed.
