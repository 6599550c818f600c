From Coq Require Import Reals Lra Field.
From Verif Require Import Prelude Gf_Model Gf_Spec.
Open Scope R_scope.

(** ** complex numbers *)
Lemma norm_pos x : 0 <= norm x. Proof. unfold norm. nra. Qed.
Lemma norm_zero x : norm x = 0 -> x = rc 0.
Proof. destruct x as [a b]. unfold norm, rc. cbn [fst snd]. intros H. f_equal; nra. Qed.
Lemma norm_nz x : x <> rc 0 -> norm x <> 0. Proof. intros H E. apply H, norm_zero, E. Qed.
Lemma nz_norm x : norm x <> 0 -> x <> rc 0. Proof. intros H ->. apply H. unfold norm, rc. cbn. ring. Qed.
Ltac cnorm := unfold cadd, csub, cmul, copp, conj, rc, ci, cinv, norm; cbn [fst snd].
Ltac cx := repeat match goal with x : comp |- _ => let a := fresh x "r" in let b := fresh x "i" in destruct x as [a b] end; cnorm; cbn [fst snd]; f_equal.
Lemma comp_ring : ring_theory (rc 0) (rc 1) cadd cmul csub copp (@eq comp).
Proof. constructor; intros; cx; ring. Qed.
Lemma comp_field : field_theory (rc 0) (rc 1) cadd cmul csub copp (fun x y => cmul x (cinv y)) cinv (@eq comp).
Proof.
  constructor; [exact comp_ring| |reflexivity|].
  - intros H. apply (f_equal fst) in H. cbn in H. lra.
  - intros p H. pose proof (norm_nz p H) as N. destruct p as [a b]. cnorm. unfold norm in N. cbn [fst snd] in N. f_equal; field; exact N.
Qed.
Add Field comp_field_inst : comp_field.
Lemma cquot_some x y : y <> rc 0 -> cquot x y = Some (cmul x (cinv y)).
Proof. intros H. unfold cquot. destruct (Req_EM_T (norm y) 0) as [E|]; [|reflexivity]. apply norm_zero in E. contradiction. Qed.
Lemma cquot_inv x y z : cquot x y = Some z -> y <> rc 0 /\ z = cmul x (cinv y).
Proof. unfold cquot. destruct (Req_EM_T (norm y) 0) as [|E]; [discriminate|]. intros H. injection H as <-. split; [apply nz_norm; exact E|reflexivity]. Qed.
Lemma conj_add x y : conj (x + y)%C = (conj x + conj y)%C. Proof. cx; ring. Qed.
Lemma conj_sub x y : conj (x - y)%C = (conj x - conj y)%C. Proof. cx; ring. Qed.
Lemma conj_mul x y : conj (x * y)%C = (conj x * conj y)%C. Proof. cx; ring. Qed.
Lemma conj_conj x : conj (conj x) = x. Proof. cx; ring. Qed.
Lemma conj_rc x : conj (rc x) = rc x. Proof. cx; ring. Qed.
Lemma conj_ci : conj ci = (- ci)%C. Proof. cx; ring. Qed.
Lemma conj_inv x : conj (cinv x) = cinv (conj x).
Proof. destruct x as [a b]. cnorm. replace (- b * - b) with (b * b) by ring. f_equal. unfold Rdiv. ring. Qed.
Lemma norm_conj x : rc (norm x) = (x * conj x)%C. Proof. cx; ring. Qed.
Lemma im_conj x e : (ci * rc (e * 2 * snd x))%C = (rc e * (x - conj x))%C. Proof. cx; ring. Qed.
Lemma rc_add x y : rc (x + y) = (rc x + rc y)%C. Proof. cx; ring. Qed.
Lemma rc_sub x y : rc (x - y) = (rc x - rc y)%C. Proof. cx; ring. Qed.
Lemma rc_mul x y : rc (x * y) = (rc x * rc y)%C. Proof. cx; ring. Qed.
Lemma rc_nz x : x <> 0 -> rc x <> rc 0. Proof. intros H E. apply H. injection E as ->. reflexivity. Qed.
Lemma ci_ci : (ci * ci)%C = (- rc 1)%C. Proof. cx; ring. Qed.

(** ** derivatives *)
Definition cder (g : R -> comp) (x : R) (d : comp) : Prop := derivable_pt_lim (fun y => fst (g y)) x (fst d) /\ derivable_pt_lim (fun y => snd (g y)) x (snd d).
Lemma dlim_ext f g x l : (forall y, f y = g y) -> derivable_pt_lim f x l -> derivable_pt_lim g x l.
Proof. intros E H eps He. destruct (H eps He) as (d & Hd). exists d. intros h A B. rewrite <- !E. apply Hd; assumption. Qed.
Lemma cder_ext f g x d : (forall y, f y = g y) -> cder f x d -> cder g x d.
Proof. intros E (A & B). split; (eapply dlim_ext; [|eassumption]); intros y; cbn; rewrite E; reflexivity. Qed.
Lemma cder_eq g x d d' : cder g x d -> d = d' -> cder g x d'. Proof. intros H <-. exact H. Qed.
Lemma dconst a x : derivable_pt_lim (fun _ => a) x 0. Proof. apply (derivable_pt_lim_const a). Qed.
Lemma cder_const a x : cder (fun _ => a) x (rc 0). Proof. split; [exact (dconst (fst a) x)|exact (dconst (snd a) x)]. Qed.
Lemma cder_rc f x l : derivable_pt_lim f x l -> cder (fun y => rc (f y)) x (rc l). Proof. intros H. split; [exact H|exact (dconst 0 x)]. Qed.
Lemma cder_add f g x d e : cder f x d -> cder g x e -> cder (fun y => f y + g y)%C x (d + e)%C.
Proof. intros (A & B) (C & D). split; [exact (derivable_pt_lim_plus _ _ _ _ _ A C)|exact (derivable_pt_lim_plus _ _ _ _ _ B D)]. Qed.
Lemma cder_sub f g x d e : cder f x d -> cder g x e -> cder (fun y => f y - g y)%C x (d - e)%C.
Proof. intros (A & B) (C & D). split; [exact (derivable_pt_lim_minus _ _ _ _ _ A C)|exact (derivable_pt_lim_minus _ _ _ _ _ B D)]. Qed.
Lemma cder_mul f g x d e : cder f x d -> cder g x e -> cder (fun y => f y * g y)%C x (d * g x + f x * e)%C.
Proof.
  intros (A & B) (C & D). pose proof (derivable_pt_lim_mult _ _ _ _ _ A C) as AC. pose proof (derivable_pt_lim_mult _ _ _ _ _ B D) as BD.
  pose proof (derivable_pt_lim_mult _ _ _ _ _ A D) as AD. pose proof (derivable_pt_lim_mult _ _ _ _ _ B C) as BC.
  pose proof (derivable_pt_lim_minus _ _ _ _ _ AC BD) as P. pose proof (derivable_pt_lim_plus _ _ _ _ _ AD BC) as Q. split.
  - match type of P with derivable_pt_lim _ _ ?l => replace (fst _) with l end; [exact P|]. cbn. ring.
  - match type of Q with derivable_pt_lim _ _ ?l => replace (snd _) with l end; [exact Q|]. cbn. ring.
Qed.
Lemma cder_conj f x d : cder f x d -> cder (fun y => conj (f y)) x (conj d).
Proof. intros (A & B). split; [exact A|exact (derivable_pt_lim_opp _ _ _ B)]. Qed.
Lemma cder_inv f x d : cder f x d -> f x <> rc 0 -> cder (fun y => cinv (f y)) x (- (d * cinv (f x) * cinv (f x)))%C.
Proof.
  intros (A & B) N. apply norm_nz in N.
  pose proof (derivable_pt_lim_plus _ _ _ _ _ (derivable_pt_lim_mult _ _ _ _ _ A A) (derivable_pt_lim_mult _ _ _ _ _ B B)) as M.
  change (norm (f x) <> 0) with (((fun y => fst (f y)) * (fun y => fst (f y)) + (fun y => snd (f y)) * (fun y => snd (f y)))%F x <> 0) in N.
  pose proof (derivable_pt_lim_div _ _ _ _ _ A M N) as P. pose proof (derivable_pt_lim_div _ _ _ _ _ (derivable_pt_lim_opp _ _ _ B) M N) as Q.
  unfold mult_fct, plus_fct in N. split.
  - match type of P with derivable_pt_lim _ _ ?l => replace (fst _) with l end; [exact P|]. unfold mult_fct, plus_fct, Rsqr. cnorm. destruct (f x) as [a b], d as [d1 d2]. cbn [fst snd] in *. field. exact N.
  - match type of Q with derivable_pt_lim _ _ ?l => replace (snd _) with l end; [exact Q|]. unfold mult_fct, plus_fct, opp_fct, Rsqr. cnorm. destruct (f x) as [a b], d as [d1 d2]. cbn [fst snd] in *. field. exact N.
Qed.
(** non-zero in a neighbourhood *)
Lemma nz_near f x d : cder f x d -> f x <> rc 0 -> exists e, 0 < e /\ forall y, Rabs (y - x) < e -> f y <> rc 0.
Proof.
  intros (A & B) N. apply norm_nz in N.
  pose proof (derivable_pt_lim_plus _ _ _ _ _ (derivable_pt_lim_mult _ _ _ _ _ A A) (derivable_pt_lim_mult _ _ _ _ _ B B)) as M.
  match type of M with derivable_pt_lim ?g _ ?l => assert (K : continuity_pt g x) by (apply derivable_continuous_pt; exists l; exact M) end.
  pose proof (norm_pos (f x)) as P. assert (P' : 0 < norm (f x)) by lra.
  destruct (K (norm (f x)) P') as (e & He & H). exists e. split; [exact He|]. intros y Hy E.
  destruct (Req_dec x y) as [<-|Nxy]; [rewrite E in N; apply N; unfold norm, rc; cbn; ring|].
  assert (Z : Rabs (norm (f y) - norm (f x)) < norm (f x)).
  { apply (H y). split; [split; [exact I|exact Nxy]|exact Hy]. }
  rewrite E in Z. replace (norm (rc 0) - norm (f x)) with (- norm (f x)) in Z by (unfold norm, rc; cbn; ring). rewrite Rabs_Ropp, Rabs_right in Z by lra. lra.
Qed.
Lemma D_total g x d : cder g x d -> derivative_at (fun y => Some (g y)) x d.
Proof. intros (A & B). exists g, 1. split; [lra|]. split; [reflexivity|]. split; assumption. Qed.
Lemma D_eq f x d d' : derivative_at f x d -> d = d' -> derivative_at f x d'. Proof. intros H <-. exact H. Qed.
Lemma D_ext f h x d : (forall y, f y = h y) -> derivative_at f x d -> derivative_at h x d.
Proof. intros E (g & e & He & H & A). exists g, e. split; [exact He|]. split; [intros y Y; rewrite <- E; apply H; exact Y|exact A]. Qed.
Lemma D_quot f g x d e : cder f x d -> cder g x e -> g x <> rc 0 -> derivative_at (fun y => cquot (f y) (g y)) x (d * cinv (g x) - f x * (e * cinv (g x) * cinv (g x)))%C.
Proof.
  intros A B N. destruct (nz_near g x e B N) as (r & Hr & H). exists (fun y => (f y * cinv (g y))%C), r. split; [exact Hr|]. split.
  - intros y Y. apply cquot_some, H, Y.
  - pose proof (cder_mul _ _ _ _ _ A (cder_inv _ _ _ B N)) as M. apply (cder_eq _ _ _ (d * cinv (g x) - f x * (e * cinv (g x) * cinv (g x)))%C) in M; [exact M|ring].
Qed.
Lemma D_bind f k x a d d' : derivative_at f x d -> f x = Some a -> (forall g, g x = a -> cder g x d -> derivative_at (fun y => k y (g y)) x d') ->
  derivative_at (fun y => r <- f y ;; k y r) x d'.
Proof.
  intros (g & e & He & H & A) Fx K. assert (Gx : g x = a) by (rewrite (H x) in Fx by (rewrite Rminus_eq_0, Rabs_R0; exact He); injection Fx as <-; reflexivity).
  destruct (K g Gx A) as (h & e' & He' & H' & A'). exists h, (Rmin e e'). split; [apply Rmin_pos; assumption|]. split; [|exact A'].
  intros y Y. rewrite (H y) by (eapply Rlt_le_trans; [exact Y|apply Rmin_l]). cbn [obind]. apply H'. eapply Rlt_le_trans; [exact Y|apply Rmin_r].
Qed.
Lemma did x : derivable_pt_lim (fun y => y) x 1. Proof. apply (derivable_pt_lim_id x). Qed.
Lemma dmulc f x l a : derivable_pt_lim f x l -> derivable_pt_lim (fun y => f y * a) x (l * a).
Proof. intros H. pose proof (derivable_pt_lim_mult _ _ _ _ _ H (dconst a x)) as M. replace (l * a) with (l * a + f x * 0) by ring. exact M. Qed.
Lemma daddc f x l a : derivable_pt_lim f x l -> derivable_pt_lim (fun y => a + f y) x l.
Proof. intros H. pose proof (derivable_pt_lim_plus _ _ _ _ _ (dconst a x) H) as M. replace l with (0 + l) by ring. exact M. Qed.
Lemma cosh_pos x : 0 < cosh x. Proof. unfold cosh. pose proof (exp_pos x). pose proof (exp_pos (- x)). lra. Qed.
Lemma cosh2 x : cosh x * cosh x - sinh x * sinh x = 1.
Proof. unfold cosh, sinh. pose proof (exp_plus x (- x)) as E. rewrite Rplus_opp_r, exp_0 in E. nra. Qed.
Lemma dtanh x : derivable_pt_lim tanh x (/ (cosh x * cosh x)).
Proof.
  pose proof (cosh_pos x) as P. pose proof (derivable_pt_lim_div _ _ _ _ _ (derivable_pt_lim_sinh x) (derivable_pt_lim_cosh x) (Rgt_not_eq _ _ P)) as M.
  match type of M with derivable_pt_lim _ _ ?l => replace (/ (cosh x * cosh x)) with l end; [exact M|]. pose proof (cosh2 x). unfold Rsqr.
  replace (cosh x * cosh x - sinh x * sinh x) with 1 by lra. field. lra.
Qed.
(** derivative of the distribution factor with respect to the temperature *)
Lemma dtanh_T v x : x <> 0 -> derivable_pt_lim (fun y => tanh (v / (2 * y))) x (- v / (2 * x * x * (cosh (v / (2 * x)) * cosh (v / (2 * x))))).
Proof.
  intros N. assert (I : derivable_pt_lim (fun y => v / (2 * y)) x (- v / (2 * x * x))).
  { assert (D2 : derivable_pt_lim (fun y => 2 * y) x 2) by (pose proof (derivable_pt_lim_mult _ _ _ _ _ (dconst 2 x) (did x)) as M; cbv beta in M; replace (0 * x + 2 * 1) with 2 in M by ring; exact M).
    assert (N2 : 2 * x <> 0) by lra. pose proof (derivable_pt_lim_div _ _ _ _ _ (dconst v x) D2 N2) as M.
    match type of M with derivable_pt_lim _ _ ?l => replace (- v / (2 * x * x)) with l end; [exact M|]. unfold Rsqr. field. exact N. }
  pose proof (derivable_pt_lim_comp _ _ _ _ _ I (dtanh (v / (2 * x)))) as M. pose proof (cosh_pos (v / (2 * x))).
  match type of M with derivable_pt_lim _ _ ?l => replace (- v / (2 * x * x * (cosh (v / (2 * x)) * cosh (v / (2 * x))))) with l end; [exact M|]. field. split; lra.
Qed.
