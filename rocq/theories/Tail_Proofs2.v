(** Complex logarithm and integrals over complex bubbles. *)
From Coq Require Import Reals Lra.
From Verif Require Import Prelude Gf_Model Tail_Model Tail_Spec Tail_Proofs.
Open Scope R_scope.

Definition polar (z : comp) (t : R) : Prop := exists r, 0 < r /\ z = (r * cos t, r * sin t).
Lemma tan_shift_neg t : cos t <> 0 -> tan (t - PI) = tan t.
Proof. intros H. unfold tan. rewrite sin_minus, cos_minus, cos_PI, sin_PI. field. lra. Qed.
Lemma tan_shift_pos t : cos t <> 0 -> tan (t + PI) = tan t.
Proof. intros H. unfold tan. rewrite neg_sin, neg_cos. field. exact H. Qed.
Lemma ratio_tan r t : 0 < r -> r * sin t / (r * cos t) = tan t \/ cos t = 0.
Proof. intros Hr. destruct (Req_EM_T (cos t) 0); [right; assumption|left]. unfold tan. field. split; lra. Qed.
Lemma carg_polar z t : polar z t -> - PI < t <= PI -> carg z = t.
Proof.
  intros (r & Hr & ->) Ht. pose proof PI_RGT_0 as HP. unfold carg. cbn [fst snd].
  destruct (Rlt_dec t (- (PI / 2))) as [A|A]; [|destruct (Rle_dec t (- (PI / 2))) as [B|B]; [|destruct (Rlt_dec t (PI / 2)) as [D|D]; [|destruct (Rle_dec t (PI / 2)) as [E|E]]]].
  - assert (C : cos t < 0). { rewrite <- cos_neg. apply cos_lt_0; lra. }
    assert (Sn : sin t < 0). { rewrite <- (Ropp_involutive t), sin_neg. assert (0 < sin (- t)) by (apply sin_gt_0; lra). lra. }
    destruct (Rlt_dec 0 (r * cos t)); [nra|]. destruct (Rlt_dec (r * cos t) 0); [|nra]. destruct (Rle_dec 0 (r * sin t)); [nra|].
    destruct (ratio_tan r t Hr) as [->|?]; [|lra]. rewrite <- tan_shift_pos by lra. rewrite atan_tan by lra. ring.
  - replace t with (- (PI / 2)) by lra. rewrite cos_neg, cos_PI2, sin_neg, sin_PI2.
    destruct (Rlt_dec 0 (r * 0)); [lra|]. destruct (Rlt_dec (r * 0) 0); [lra|]. destruct (Rlt_dec 0 (r * - (1))); [lra|]. destruct (Rlt_dec (r * - (1)) 0); lra.
  - assert (C : 0 < cos t) by (apply cos_gt_0; lra). destruct (Rlt_dec 0 (r * cos t)); [|nra].
    destruct (ratio_tan r t Hr) as [->|?]; [|lra]. apply atan_tan. lra.
  - replace t with (PI / 2) by lra. rewrite cos_PI2, sin_PI2.
    destruct (Rlt_dec 0 (r * 0)); [lra|]. destruct (Rlt_dec (r * 0) 0); [lra|]. destruct (Rlt_dec 0 (r * 1)); lra.
  - assert (C : cos t < 0) by (apply cos_lt_0; lra). assert (Sn : 0 <= sin t) by (apply sin_ge_0; lra).
    destruct (Rlt_dec 0 (r * cos t)); [nra|]. destruct (Rlt_dec (r * cos t) 0); [|nra]. destruct (Rle_dec 0 (r * sin t)); [|nra].
    destruct (ratio_tan r t Hr) as [->|?]; [|lra]. rewrite <- tan_shift_neg by lra. rewrite atan_tan by lra. ring.
Qed.
Lemma norm_pos z : 0 < fst z -> 0 < norm z.
Proof. intros H. unfold norm. nra. Qed.
Lemma norm_pos' z : z <> (0, 0) -> 0 < norm z.
Proof.
  intros H. unfold norm. destruct z as [x y]. cbn [fst snd]. destruct (Req_EM_T x 0) as [->|Nx]; [|nra].
  destruct (Req_EM_T y 0) as [->|Ny]; [exfalso; apply H; reflexivity|nra].
Qed.
Lemma polar_pos z : 0 < fst z -> polar z (carg z).
Proof.
  intros H. unfold carg. destruct (Rlt_dec 0 (fst z)); [|contradiction]. set (x := snd z / fst z).
  assert (Hs : 0 < sqrt (1 + x ^ 2)) by (apply sqrt_lt_R0; nra).
  exists (fst z * sqrt (1 + x ^ 2)). split; [apply Rmult_lt_0_compat; assumption|].
  rewrite cos_atan, sin_atan. replace (x²) with (x ^ 2) by (unfold Rsqr; ring). destruct z as [p q]. unfold x in *. cbn [fst snd] in *. f_equal; field; repeat split; lra.
Qed.
Lemma polar_mul x y s t : polar x s -> polar y t -> polar (x * y)%C (s + t).
Proof.
  intros (r & Hr & ->) (q & Hq & ->). exists (r * q). split; [apply Rmult_lt_0_compat; assumption|]. unfold cmul. cbn [fst snd].
  rewrite cos_plus, sin_plus. f_equal; ring.
Qed.
Lemma polar_inv y t : polar y t -> polar (cinv y) (- t).
Proof.
  intros (q & Hq & ->). exists (/ q). split; [apply Rinv_0_lt_compat; exact Hq|]. unfold cinv, norm. cbn [fst snd].
  replace (q * cos t * (q * cos t) + q * sin t * (q * sin t)) with (q * q * ((sin t)² + (cos t)²)) by (unfold Rsqr; ring). rewrite sin2_cos2, cos_neg, sin_neg.
  f_equal; field; lra.
Qed.
Lemma polar_div x y s t : polar x s -> polar y t -> polar (cdiv x y) (s - t).
Proof. intros A B. unfold cdiv, Rminus. apply polar_mul; [exact A|apply polar_inv; exact B]. Qed.
Lemma norm_mul x y : norm (x * y)%C = norm x * norm y.
Proof. unfold norm, cmul. cbn [fst snd]. ring. Qed.
Lemma norm_inv x : norm x <> 0 -> norm (cinv x) = / norm x.
Proof. intros H. unfold cinv. set (n := norm x) in *. unfold norm at 1. cbn [fst snd]. transitivity (norm x / (n * n)); [unfold norm; field; exact H|]. fold n. field. exact H. Qed.
Lemma norm_div x y : norm y <> 0 -> norm (cdiv x y) = norm x / norm y.
Proof. intros H. unfold cdiv. rewrite norm_mul, norm_inv by exact H. reflexivity. Qed.
Lemma carg_range z : 0 < fst z -> - (PI / 2) < carg z < PI / 2.
Proof. intros H. unfold carg. destruct (Rlt_dec 0 (fst z)); [|contradiction]. pose proof (atan_bound (snd z / fst z)). lra. Qed.
Lemma clog_div x y : 0 < fst x -> 0 < fst y -> clog (cdiv x y) = (clog x - clog y)%C.
Proof.
  intros Hx Hy. pose proof (carg_range x Hx). pose proof (carg_range y Hy). unfold clog, csub. cbn [fst snd]. f_equal.
  - rewrite norm_div by (pose proof (norm_pos y Hy); lra). unfold Rdiv at 2. rewrite ln_mult, ln_Rinv; [field| | |]; try apply Rinv_0_lt_compat; apply norm_pos; assumption.
  - apply carg_polar; [apply polar_div; apply polar_pos; assumption|lra].
Qed.
Lemma clog_quot4 a b c d : 0 < fst a -> 0 < fst b -> 0 < fst c -> 0 < fst d -> - PI < carg a + carg b - (carg c + carg d) <= PI ->
  clog (cdiv (a * b)%C (c * d)%C) = ((clog a - clog c) + (clog b - clog d))%C.
Proof.
  intros Ha Hb Hc Hd Hr. unfold clog, csub, cadd. cbn [fst snd].
  pose proof (norm_pos a Ha) as Na. pose proof (norm_pos b Hb) as Nb. pose proof (norm_pos c Hc) as Nc. pose proof (norm_pos d Hd) as Nd. f_equal.
  - rewrite norm_div, !norm_mul by (rewrite norm_mul; apply Rgt_not_eq, Rmult_lt_0_compat; assumption). unfold Rdiv at 2.
    rewrite ln_mult, ln_Rinv, !ln_mult; try assumption; [field| | |]; try apply Rinv_0_lt_compat; apply Rmult_lt_0_compat; assumption.
  - rewrite (carg_polar (cdiv (a * b)%C (c * d)%C) (carg a + carg b - (carg c + carg d))).
    + ring.
    + apply polar_div; apply polar_mul; apply polar_pos; assumption.
    + exact Hr.
Qed.
Lemma cdiv_re z c : fst (cdiv z c) = fst z * fst (cinv c) - snd z * snd (cinv c).
Proof. reflexivity. Qed.
Lemma cdiv_im z c : snd (cdiv z c) = fst z * snd (cinv c) + snd z * fst (cinv c).
Proof. reflexivity. Qed.

(** d/dx log (x + a) = 1 / (x + a) *)
Lemma clog_re_deriv a x : 0 < x + fst a -> derivable_pt_lim (fun y => fst (clog (rc y + a)%C)) x (fst (cinv (rc x + a)%C)).
Proof.
  intros H. assert (Nz : 0 < norm (rc x + a)%C) by (apply norm_pos; cbn; lra).
  apply (dlim_ext (fun y => / 2 * ln ((y + fst a) * (y + fst a) + snd a * snd a)) _ _ _ 1); [lra| |].
  - intros y _. unfold clog, norm, cadd, rc. cbn [fst snd]. rewrite !Rplus_0_l. field.
  - apply (dlim_eq _ _ (/ 2 * ((1 * (x + fst a) + (x + fst a) * 1 + 0) / ((x + fst a) * (x + fst a) + snd a * snd a)))).
    + unfold cinv, norm, cadd, rc. cbn [fst snd]. rewrite !Rplus_0_l. field. nra.
    + apply dlim_scal, (dlim_ln (fun y => (y + fst a) * (y + fst a) + snd a * snd a)); [nra|].
      apply (dlim_plus (fun y => (y + fst a) * (y + fst a)) (fun _ => snd a * snd a)); [|apply dlim_const].
      apply (dlim_mult (fun y => y + fst a) (fun y => y + fst a)); apply dlim_shift.
Qed.
Lemma clog_im_deriv a x : 0 < x + fst a -> derivable_pt_lim (fun y => snd (clog (rc y + a)%C)) x (snd (cinv (rc x + a)%C)).
Proof.
  intros H.
  apply (dlim_ext (fun y => atan (snd a / (y + fst a))) _ _ _ (x + fst a)); [exact H| |].
  - intros y Hy. apply Rabs_def2 in Hy. unfold clog, carg, cadd, rc. cbn [fst snd]. destruct (Rlt_dec 0 (y + fst a)); [|lra]. rewrite Rplus_0_l. reflexivity.
  - eapply dlim_eq; [|apply (dlim_atan (fun y => snd a / (y + fst a))), (dlim_div (fun _ => snd a) (fun y => y + fst a)); [|apply dlim_const|apply dlim_shift]; lra].
    unfold cinv, norm, cadd, rc. cbn [fst snd]. rewrite !Rplus_0_l. field. split; nra.
Qed.
Lemma clog_re_tends a b : tends (fun x => fst (clog (rc x + a)%C) - fst (clog (rc x + b)%C)) 0.
Proof.
  assert (A : forall c, tends (fun x => / 2 * ln (1 + snd c * snd c * (/ (x + fst c) * / (x + fst c)))) 0).
  { intros c. replace 0 with (/ 2 * ln (1 + snd c * snd c * (0 * 0))) by (rewrite Rmult_0_l, Rmult_0_r, Rplus_0_r, ln_1; ring).
    apply tends_scal. apply (tends_comp (fun y => ln (1 + snd c * snd c * (y * y))) (fun x => / (x + fst c))); [|apply tends_inv].
    apply derivable_continuous_pt. exists (((0 + snd c * snd c * (1 * 0 + 0 * 1))) / (1 + snd c * snd c * (0 * 0))).
    apply (dlim_ln (fun y => 1 + snd c * snd c * (y * y))); [lra|]. apply (dlim_plus (fun _ => 1) (fun y => snd c * snd c * (y * y))); [apply dlim_const|].
    apply dlim_scal, (dlim_mult (fun y => y) (fun y => y)); apply dlim_id. }
  replace 0 with (0 + (0 - 0)) by ring.
  eapply (tends_ext _ _ _ (Rabs (fst a) + Rabs (fst b) + 1)); [|apply tends_plus; [apply (tends_ln_ratio (fst a) (fst b))|apply tends_minus; [apply (A a)|apply (A b)]]].
  intros x Hx. assert (Pa : 0 < x + fst a). { pose proof (Rle_abs (- fst a)). rewrite Rabs_Ropp in *. pose proof (Rabs_pos (fst b)). lra. }
  assert (Pb : 0 < x + fst b). { pose proof (Rle_abs (- fst b)). rewrite Rabs_Ropp in *. pose proof (Rabs_pos (fst a)). lra. }
  assert (E : forall c, 0 < x + fst c -> fst (clog (rc x + c)%C) = ln (x + fst c) + / 2 * ln (1 + snd c * snd c * (/ (x + fst c) * / (x + fst c)))).
  { intros c Hc. unfold clog, norm, cadd, rc. cbn [fst snd]. rewrite !Rplus_0_l.
    replace ((x + fst c) * (x + fst c) + snd c * snd c) with ((x + fst c) * (x + fst c) * (1 + snd c * snd c * (/ (x + fst c) * / (x + fst c)))) by (field; lra).
    assert (0 < / (x + fst c)) by (apply Rinv_0_lt_compat; exact Hc).
    rewrite !ln_mult; [field| | | |]; try assumption; nra. }
  rewrite (E a Pa), (E b Pb). unfold Rdiv. rewrite ln_mult, ln_Rinv; [ring| | |]; try assumption. apply Rinv_0_lt_compat. assumption.
Qed.
Lemma clog_im_tends a : tends (fun x => snd (clog (rc x + a)%C)) 0.
Proof.
  eapply (tends_ext _ _ _ (Rabs (fst a) + 1)); [|apply (tends_atan_ratio (fst a) (snd a))].
  intros x Hx. assert (Pa : 0 < x + fst a) by (pose proof (Rle_abs (- fst a)); rewrite Rabs_Ropp in *; lra).
  unfold clog, carg, cadd, rc. cbn [fst snd]. destruct (Rlt_dec 0 (x + fst a)); [|lra]. rewrite Rplus_0_l. reflexivity.
Qed.
Lemma inv_pair (x y : comp) : norm x <> 0 -> norm y <> 0 -> norm (x - y)%C <> 0 -> cinv (x * y)%C = copp (cdiv (cinv x - cinv y)%C (x - y)%C).
Proof.
  intros Hx Hy Hd. unfold cdiv. apply injective_projections; unfold cinv; rewrite !norm_mul; unfold copp, cmul, csub; cbn [fst snd]; unfold norm in *; unfold csub in *; cbn [fst snd] in *; field; repeat split; assumption.
Qed.
Lemma ctail_pair a b v : norm (a - b)%C <> 0 -> 0 < v + fst a -> 0 < v + fst b ->
  ctail_above (fun x => cinv ((rc x + a) * (rc x + b))%C) v (cdiv (clog (rc v + a) - clog (rc v + b))%C (a - b)%C).
Proof.
  intros Hd Ha Hb. set (k := cinv (a - b)%C).
  assert (E : forall x, v <= x -> cinv ((rc x + a) * (rc x + b))%C = copp ((cinv (rc x + a) - cinv (rc x + b)) * k)%C).
  { intros x Hx. unfold k. replace (a - b)%C with ((rc x + a) - (rc x + b))%C in * by (unfold csub, cadd, rc; cbn [fst snd]; f_equal; ring).
    apply inv_pair; [| |exact Hd]; apply Rgt_not_eq, norm_pos; cbn; lra. }
  assert (T1 := clog_re_tends a b). assert (T2 : tends (fun x => snd (clog (rc x + a)%C) - snd (clog (rc x + b)%C)) 0).
  { replace 0 with (0 - 0) by ring. apply tends_minus; apply clog_im_tends. }
  split.
  - exists (fun x => - fst k * (fst (clog (rc x + a)%C) - fst (clog (rc x + b)%C)) + snd k * (snd (clog (rc x + a)%C) - snd (clog (rc x + b)%C))), (- fst k * 0 + snd k * 0).
    split; [|split].
    + intros x Hx. rewrite (E x Hx). unfold copp, cmul, csub. cbn [fst snd].
      eapply dlim_eq; [|apply dlim_plus; apply dlim_scal, dlim_minus; [apply clog_re_deriv|apply clog_re_deriv|apply clog_im_deriv|apply clog_im_deriv]; lra]. ring.
    + apply tends_plus; apply tends_scal; assumption.
    + rewrite cdiv_re. fold k. unfold csub. cbn [fst snd]. ring.
  - exists (fun x => - snd k * (fst (clog (rc x + a)%C) - fst (clog (rc x + b)%C)) + - fst k * (snd (clog (rc x + a)%C) - snd (clog (rc x + b)%C))), (- snd k * 0 + - fst k * 0).
    split; [|split].
    + intros x Hx. rewrite (E x Hx). unfold copp, cmul, csub. cbn [fst snd].
      eapply dlim_eq; [|apply dlim_plus; apply dlim_scal, dlim_minus; [apply clog_re_deriv|apply clog_re_deriv|apply clog_im_deriv|apply clog_im_deriv]; lra]. ring.
    + apply tends_plus; apply tends_scal; assumption.
    + rewrite cdiv_im. fold k. unfold csub. cbn [fst snd]. ring.
Qed.
(** d/dx 1 / (x + a) = - 1 / (x + a)^2 *)
Lemma ctail_square a v : 0 < v + fst a -> ctail_above (fun x => cinv ((rc x + a) * (rc x + a))%C) v (cinv (rc v + a)%C).
Proof.
  intros Ha.
  assert (Nd : forall x, derivable_pt_lim (fun y => norm (rc y + a)%C) x (2 * (x + fst a))).
  { intros x. apply (dlim_ext (fun y => (y + fst a) * (y + fst a) + snd a * snd a) _ _ _ 1); [lra|intros; unfold norm, cadd, rc; cbn [fst snd]; ring|].
    apply (dlim_eq _ _ (1 * (x + fst a) + (x + fst a) * 1 + 0)); [ring|].
    apply (dlim_plus (fun y => (y + fst a) * (y + fst a)) (fun _ => snd a * snd a)); [|apply dlim_const]. apply (dlim_mult (fun y => y + fst a) (fun y => y + fst a)); apply dlim_shift. }
  assert (Np : forall x, v <= x -> 0 < norm (rc x + a)%C) by (intros x Hx; apply norm_pos; cbn; lra).
  assert (T : tends (fun x => / norm (rc x + a)%C) 0 /\ tends (fun x => (x + fst a) * / norm (rc x + a)%C) 0).
  { assert (Cq : forall (q : R -> R), continuity_pt q 0 -> q 0 = 0 -> tends (fun x => q (/ (x + fst a))) 0).
    { intros q Cq Eq. rewrite <- Eq. apply (tends_comp q (fun x => / (x + fst a))); [exact Cq|apply tends_inv]. }
    assert (C1 : derivable_pt_lim (fun y => / (1 + snd a * snd a * (y * y))) 0 0).
    { apply (dlim_eq _ _ (- (0 + snd a * snd a * (1 * 0 + 0 * 1)) / ((1 + snd a * snd a * (0 * 0)) * (1 + snd a * snd a * (0 * 0))))); [field; lra|].
      apply (dlim_inv (fun y => 1 + snd a * snd a * (y * y))); [lra|]. apply (dlim_plus (fun _ => 1) (fun y => snd a * snd a * (y * y))); [apply dlim_const|]. apply dlim_scal, (dlim_mult (fun y => y) (fun y => y)); apply dlim_id. }
    split.
    - eapply (tends_ext _ _ _ (Rabs (fst a) + 1)); [|apply (Cq (fun y => y * y * / (1 + snd a * snd a * (y * y)))); [|ring]].
      + intros x Hx. cbv beta. assert (0 < x + fst a) by (pose proof (Rle_abs (- fst a)); rewrite Rabs_Ropp in *; lra). unfold norm, cadd, rc. cbn [fst snd]. field. split; nra.
      + apply derivable_continuous_pt. eexists. apply (dlim_mult (fun y => y * y) (fun y => / (1 + snd a * snd a * (y * y)))); [apply (dlim_mult (fun y => y) (fun y => y)); apply dlim_id|exact C1].
    - eapply (tends_ext _ _ _ (Rabs (fst a) + 1)); [|apply (Cq (fun y => y * / (1 + snd a * snd a * (y * y)))); [|ring]].
      + intros x Hx. cbv beta. assert (0 < x + fst a) by (pose proof (Rle_abs (- fst a)); rewrite Rabs_Ropp in *; lra). unfold norm, cadd, rc. cbn [fst snd]. field. split; nra.
      + apply derivable_continuous_pt. eexists. apply (dlim_mult (fun y => y) (fun y => / (1 + snd a * snd a * (y * y)))); [apply dlim_id|exact C1]. }
  destruct T as [T1 T2]. split.
  - exists (fun x => - ((x + fst a) * / norm (rc x + a)%C)), (- 0). split; [|split].
    + intros x Hx. eapply dlim_eq; [|apply dlim_opp, (dlim_mult (fun y => y + fst a) (fun y => / norm (rc y + a)%C)); [apply dlim_shift|apply (dlim_inv (fun y => norm (rc y + a)%C)); [|apply Nd]]; apply Rgt_not_eq, Np; exact Hx].
      unfold cinv. rewrite norm_mul. cbn [fst snd]. pose proof (Np x Hx). unfold norm, cmul, cadd, rc in *. cbn [fst snd] in *. rewrite ?Rplus_0_l in *. field. nra.
    + apply tends_opp. exact T2.
    + unfold cinv, cadd, rc. cbn [fst snd]. unfold Rdiv. ring.
  - exists (fun x => snd a * / norm (rc x + a)%C), (snd a * 0). split; [|split].
    + intros x Hx. eapply dlim_eq; [|apply dlim_scal, (dlim_inv (fun y => norm (rc y + a)%C)); [|apply Nd]; apply Rgt_not_eq, Np; exact Hx].
      unfold cinv. rewrite norm_mul. cbn [fst snd]. pose proof (Np x Hx). unfold norm, cmul, cadd, rc in *. cbn [fst snd] in *. rewrite ?Rplus_0_l in *. field. nra.
    + apply tends_scal. exact T1.
    + unfold cinv, cadd, rc. cbn [fst snd]. unfold Rdiv. ring.
Qed.
