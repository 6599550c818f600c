From Coq Require Import Reals Lra.
From Verif Require Import Prelude Gf_Model Tail_Spec.
Open Scope R_scope.

(** ** limits *)
Lemma tends_const c : tends (fun _ => c) c.
Proof. intros e He. exists 0. intros x _. rewrite Rminus_diag_eq by reflexivity. rewrite Rabs_R0. exact He. Qed.
Lemma tends_plus F G l m : tends F l -> tends G m -> tends (fun x => F x + G x) (l + m).
Proof.
  intros H K e He. destruct (H (e / 2) ltac:(lra)) as [M HM]. destruct (K (e / 2) ltac:(lra)) as [N0 HN].
  exists (Rmax M N0). intros x Hx. pose proof (Rmax_l M N0). pose proof (Rmax_r M N0).
  replace (F x + G x - (l + m)) with ((F x - l) + (G x - m)) by ring. eapply Rle_lt_trans; [apply Rabs_triang|].
  specialize (HM x ltac:(lra)). specialize (HN x ltac:(lra)). lra.
Qed.
Lemma tends_opp F l : tends F l -> tends (fun x => - F x) (- l).
Proof. intros H e He. destruct (H e He) as [M HM]. exists M. intros x Hx. replace (- F x - - l) with (- (F x - l)) by ring. rewrite Rabs_Ropp. apply HM. exact Hx. Qed.
Lemma tends_minus F G l m : tends F l -> tends G m -> tends (fun x => F x - G x) (l - m).
Proof. intros H K. apply (tends_plus F (fun x => - G x)); [exact H|apply tends_opp; exact K]. Qed.
Lemma tends_scal c F l : tends F l -> tends (fun x => c * F x) (c * l).
Proof.
  intros H e He. destruct (H (e / (Rabs c + 1))) as [M HM]. { pose proof (Rabs_pos c). apply Rdiv_lt_0_compat; lra. }
  exists M. intros x Hx. rewrite <- Rmult_minus_distr_l, Rabs_mult. specialize (HM x Hx). pose proof (Rabs_pos c). pose proof (Rabs_pos (F x - l)).
  assert (Rabs c * Rabs (F x - l) <= (Rabs c + 1) * Rabs (F x - l)) by nra.
  assert ((Rabs c + 1) * Rabs (F x - l) < (Rabs c + 1) * (e / (Rabs c + 1))) by (apply Rmult_lt_compat_l; lra).
  replace ((Rabs c + 1) * (e / (Rabs c + 1))) with e in * by (field; lra). lra.
Qed.
Lemma tends_ext F G l M : (forall x, M <= x -> F x = G x) -> tends F l -> tends G l.
Proof.
  intros E H e He. destruct (H e He) as [N0 HN]. exists (Rmax M N0). intros x Hx. pose proof (Rmax_l M N0). pose proof (Rmax_r M N0).
  rewrite <- E by lra. apply HN. lra.
Qed.
(** composition with a function which is continuous at the limit *)
Lemma tends_comp h F l : continuity_pt h l -> tends F l -> tends (fun x => h (F x)) (h l).
Proof.
  intros C H e He. destruct (C e He) as (d & Hd & P). destruct (H d Hd) as [M HM]. exists M. intros x Hx. specialize (HM x Hx).
  destruct (Req_dec (F x) l) as [->|Ne]; [rewrite Rminus_diag_eq by reflexivity; rewrite Rabs_R0; exact He|].
  apply (P (F x)). split; [split; [exact I|intro Q; apply Ne; symmetry; exact Q]|exact HM].
Qed.
Lemma tends_inv a : tends (fun x => / (x + a)) 0.
Proof.
  intros e He. exists (/ e + 1 - a). intros x Hx. rewrite Rminus_0_r. assert (0 < / e) by (apply Rinv_0_lt_compat; exact He).
  rewrite Rabs_pos_eq by (left; apply Rinv_0_lt_compat; lra). rewrite <- (Rinv_inv e). apply Rinv_lt_contravar; [apply Rmult_lt_0_compat; lra|lra].
Qed.
Lemma tends_ratio a b : tends (fun x => (x + a) / (x + b)) 1.
Proof.
  apply (tends_ext (fun x => 1 + (a - b) * / (x + b)) _ _ (1 - b)); [intros x Hx; field; lra|].
  replace 1 with (1 + (a - b) * 0) at 1 by ring. apply tends_plus; [apply tends_const|]. apply tends_scal, tends_inv.
Qed.
Lemma tends_ln_ratio a b : tends (fun x => ln ((x + a) / (x + b))) 0.
Proof.
  rewrite <- ln_1. apply (tends_comp ln); [|apply tends_ratio]. apply derivable_continuous_pt. exists (/ 1). apply derivable_pt_lim_ln. lra.
Qed.
Lemma tends_atan_ratio a c : tends (fun x => atan (c / (x + a))) 0.
Proof.
  replace 0 with (atan 0) by apply atan_0. apply (tends_comp atan).
  - apply derivable_continuous_pt. exists (/ (1 + 0 ^ 2)). apply derivable_pt_lim_atan.
  - apply (tends_ext (fun x => c * / (x + a)) _ _ 0); [intros; reflexivity|]. replace 0 with (c * 0) by ring. apply tends_scal, tends_inv.
Qed.

(** ** derivatives *)
Lemma dlim_eq F x l l' : l = l' -> derivable_pt_lim F x l -> derivable_pt_lim F x l'.
Proof. intros ->. auto. Qed.
Lemma dlim_ext F G x l d : 0 < d -> (forall y, Rabs (y - x) < d -> F y = G y) -> derivable_pt_lim F x l -> derivable_pt_lim G x l.
Proof.
  intros Hd E H e He. destruct (H e He) as [d0 P].
  assert (Hm : 0 < Rmin d0 d) by (apply Rmin_pos; [apply cond_pos|exact Hd]). exists (mkposreal _ Hm). intros h Hh Hs. cbn in Hs.
  pose proof (Rmin_l d0 d). pose proof (Rmin_r d0 d). rewrite <- !E; [apply P; [exact Hh|lra]| |].
  - rewrite Rminus_diag_eq by reflexivity. rewrite Rabs_R0. exact Hd.
  - replace (x + h - x) with h by ring. lra.
Qed.
Lemma dlim_shift a x : derivable_pt_lim (fun x => x + a) x 1.
Proof. replace 1 with (1 + 0) by ring. apply (derivable_pt_lim_plus id (fct_cte a)); [apply derivable_pt_lim_id|apply derivable_pt_lim_const]. Qed.
Lemma dlim_ln F x l : 0 < F x -> derivable_pt_lim F x l -> derivable_pt_lim (fun y => ln (F y)) x (l / F x).
Proof. intros P H. apply (dlim_eq _ _ (/ F x * l)); [field; lra|]. apply (derivable_pt_lim_comp F ln); [exact H|]. apply derivable_pt_lim_ln. exact P. Qed.
Lemma dlim_atan F x l : derivable_pt_lim F x l -> derivable_pt_lim (fun y => atan (F y)) x (l / (1 + F x * F x)).
Proof.
  intros H. apply (dlim_eq _ _ (/ (1 + F x ^ 2) * l)). { unfold Rdiv. replace (F x ^ 2) with (F x * F x) by ring. ring. }
  apply (derivable_pt_lim_comp F atan); [exact H|apply derivable_pt_lim_atan].
Qed.
Lemma dlim_inv F x l : F x <> 0 -> derivable_pt_lim F x l -> derivable_pt_lim (fun y => / F y) x (- l / (F x * F x)).
Proof.
  intros Ne H. apply (dlim_ext (fct_cte 1 / F)%F _ x _ 1); [lra|intros; unfold div_fct, fct_cte, Rdiv; ring|].
  apply (dlim_eq _ _ ((0 * F x - l * fct_cte 1 x) / Rsqr (F x))). { unfold fct_cte, Rsqr. field. exact Ne. }
  apply derivable_pt_lim_div; [apply derivable_pt_lim_const|exact H|exact Ne].
Qed.
Lemma dlim_plus F G x l m : derivable_pt_lim F x l -> derivable_pt_lim G x m -> derivable_pt_lim (fun y => F y + G y) x (l + m).
Proof. apply derivable_pt_lim_plus. Qed.
Lemma dlim_minus F G x l m : derivable_pt_lim F x l -> derivable_pt_lim G x m -> derivable_pt_lim (fun y => F y - G y) x (l - m).
Proof. apply derivable_pt_lim_minus. Qed.
Lemma dlim_mult F G x l m : derivable_pt_lim F x l -> derivable_pt_lim G x m -> derivable_pt_lim (fun y => F y * G y) x (l * G x + F x * m).
Proof. apply derivable_pt_lim_mult. Qed.
Lemma dlim_div F G x l m : G x <> 0 -> derivable_pt_lim F x l -> derivable_pt_lim G x m -> derivable_pt_lim (fun y => F y / G y) x ((l * G x - m * F x) / (G x * G x)).
Proof. intros Ne H K. apply (derivable_pt_lim_div F G); assumption. Qed.
Lemma dlim_scal c F x l : derivable_pt_lim F x l -> derivable_pt_lim (fun y => c * F y) x (c * l).
Proof. apply derivable_pt_lim_scal. Qed.
Lemma dlim_opp F x l : derivable_pt_lim F x l -> derivable_pt_lim (fun y => - F y) x (- l).
Proof. apply derivable_pt_lim_opp. Qed.
Lemma dlim_const c x : derivable_pt_lim (fun _ => c) x 0.
Proof. apply derivable_pt_lim_const. Qed.
Lemma dlim_id x : derivable_pt_lim (fun y => y) x 1.
Proof. apply derivable_pt_lim_id. Qed.

(** ** tails *)
(** a function whose derivative is not negative above [v] does not decrease *)
Lemma increasing_from F f v : (forall x, v <= x -> derivable_pt_lim F x (f x)) -> (forall x, v <= x -> 0 <= f x) -> forall x y, v <= x -> x <= y -> F x <= F y.
Proof.
  intros D P x y Hx Hy. destruct (Rle_lt_or_eq_dec x y Hy) as [L|<-]; [|lra].
  destruct (MVT_cor2 F f x y L) as (c & E & Hc). { intros c Hc. apply D. lra. }
  assert (0 <= f c) by (apply P; lra). assert (0 <= f c * (y - x)) by (apply Rmult_le_pos; lra). lra.
Qed.
Lemma tail_le f g v I J : tail_above f v I -> tail_above g v J -> (forall x, v <= x -> f x <= g x) -> I <= J.
Proof.
  intros (F & l & DF & TF & ->) (G & m & DG & TG & ->) H.
  destruct (Rle_lt_dec (l - F v) (m - G v)) as [L|L]; [exact L|exfalso].
  set (e := ((l - F v) - (m - G v)) / 2). assert (He : 0 < e) by (unfold e; lra).
  destruct (tends_minus _ _ _ _ TG TF e He) as [M HM]. set (x := Rmax M v). pose proof (Rmax_l M v). pose proof (Rmax_r M v).
  specialize (HM x ltac:(unfold x; lra)).
  assert (Mo : G v - F v <= G x - F x).
  { apply (increasing_from (fun y => G y - F y) (fun y => g y - f y) v); [|intros y Hy; specialize (H y Hy); lra|lra|unfold x; lra].
    intros y Hy. apply dlim_minus; [apply DG|apply DF]; exact Hy. }
  apply Rabs_def2 in HM. unfold e in HM. lra.
Qed.
Lemma tail_unique f v I J : tail_above f v I -> tail_above f v J -> I = J.
Proof. intros H K. apply Rle_antisym; eapply tail_le; eauto; intros; lra. Qed.
Lemma tail_split f v u I : v <= u -> tail_above f v I -> exists F, (forall x, v <= x -> derivable_pt_lim F x (f x)) /\ tail_above f u (I - (F u - F v)).
Proof.
  intros Hu (F & l & D & T & ->). exists F. split; [exact D|]. exists F, l. split; [intros x Hx; apply D; lra|]. split; [exact T|ring].
Qed.
Lemma tails_unique f vmin vmax I J : tails f vmin vmax I -> tails f vmin vmax J -> I = J.
Proof. intros (I1 & I2 & A & B & ->) (J1 & J2 & C & D & ->). rewrite (tail_unique _ _ _ _ A C), (tail_unique _ _ _ _ B D). reflexivity. Qed.
Lemma tail_ext f g v I : (forall x, v <= x -> f x = g x) -> tail_above f v I -> tail_above g v I.
Proof. intros E (F & l & D & T & ->). exists F, l. split; [|split; [exact T|reflexivity]]. intros x Hx. rewrite <- E by exact Hx. apply D. exact Hx. Qed.
Lemma tail_scal c f v I : tail_above f v I -> tail_above (fun x => c * f x) v (c * I).
Proof. intros (F & l & D & T & ->). exists (fun x => c * F x), (c * l). split; [intros x Hx; apply dlim_scal, D; exact Hx|]. split; [apply tends_scal; exact T|ring]. Qed.
Lemma tail_plus f g v I J : tail_above f v I -> tail_above g v J -> tail_above (fun x => f x + g x) v (I + J).
Proof.
  intros (F & l & D & T & ->) (G & m & E & U & ->). exists (fun x => F x + G x), (l + m). split; [intros x Hx; apply dlim_plus; [apply D|apply E]; exact Hx|].
  split; [apply tends_plus; assumption|ring].
Qed.
Lemma tail_pos f v I : tail_above f v I -> (forall x, v <= x -> 0 < f x) -> 0 < I.
Proof.
  intros T P. assert (Z0 : tail_above (fun _ => 0) (v + 1) 0).
  { exists (fun _ => 0), 0. split; [intros; apply dlim_const|]. split; [apply tends_const|ring]. }
  destruct (tail_split f v (v + 1) I ltac:(lra) T) as (F & D & U).
  assert (0 <= I - (F (v + 1) - F v)). { eapply tail_le; [exact Z0|exact U|]. intros x Hx. left. apply P. lra. }
  destruct (MVT_cor2 F f v (v + 1) ltac:(lra)) as (c & E & Hc). { intros c Hc. apply D. lra. } specialize (P c ltac:(lra)). nra.
Qed.
Lemma tail_lt f g v I J : tail_above f v I -> tail_above g v J -> (forall x, v <= x -> f x < g x) -> I < J.
Proof.
  intros H K L. assert (0 < J + -1 * I); [|lra]. eapply tail_pos; [apply (tail_plus g (fun x => -1 * f x)); [exact K|apply tail_scal; exact H]|].
  intros x Hx. specialize (L x Hx). cbn. lra.
Qed.

(** ** the basic integrals *)
Lemma tail_square a v : 0 < v + a -> tail_above (fun x => / ((x + a) * (x + a))) v (/ (v + a)).
Proof.
  intros H. exists (fun x => - / (x + a)), (- 0). split; [|split; [apply tends_opp, tends_inv|lra]].
  intros x Hx. apply (dlim_eq _ _ (- (- 1 / ((x + a) * (x + a))))); [field; lra|]. apply dlim_opp, (dlim_inv (fun y => y + a)); [lra|apply dlim_shift].
Qed.
Lemma tail_pair a b v : a <> b -> 0 < v + a -> 0 < v + b -> tail_above (fun x => / ((x + a) * (x + b))) v (/ (a - b) * ln ((v + a) / (v + b))).
Proof.
  intros Ne Ha Hb. exists (fun x => - / (a - b) * ln ((x + a) / (x + b))), (- / (a - b) * 0). split; [|split; [apply tends_scal, tends_ln_ratio|ring]].
  intros x Hx. assert (P : 0 < (x + a) / (x + b)) by (apply Rdiv_lt_0_compat; lra).
  apply (dlim_eq _ _ (- / (a - b) * (((1 * (x + b) - 1 * (x + a)) / ((x + b) * (x + b))) / ((x + a) / (x + b))))); [field; repeat split; lra|].
  apply dlim_scal, (dlim_ln (fun y => (y + a) / (y + b))); [exact P|]. apply (dlim_div (fun y => y + a) (fun y => y + b)); [lra|apply dlim_shift|apply dlim_shift].
Qed.
