From Coq Require Import Reals Lra.
From Verif Require Import Prelude Quad_Model Quad_Spec.
Open Scope R_scope.

(** the primitive is one *)
Lemma poly_divided c : forall k x, (1 <= k)%nat -> derivable_pt_lim (fun y => y ^ k * poly (divided k c) y) x (x ^ pred k * poly c x).
Proof.
  induction c as [|a c IH]; intros k x K; cbn [divided poly].
  - replace (x ^ pred k * 0) with 0 by ring. apply (derivable_pt_lim_ext (fun _ => 0)); [intros; ring|]. apply derivable_pt_lim_const.
  - apply (derivable_pt_lim_ext (fun y => a / INR k * y ^ k + y ^ S k * poly (divided (S k) c) y)).
    + intros y. cbn [pow]. ring.
    + replace (x ^ pred k * (a + x * poly c x)) with (a / INR k * (INR k * x ^ pred k) + x ^ pred (S k) * poly c x).
      * apply derivable_pt_lim_plus; [|apply IH; lia]. apply derivable_pt_lim_scal. apply derivable_pt_lim_pow.
      * cbn [pred]. destruct k as [|k]; [lia|]. cbn [pred pow]. field. apply not_0_INR. lia.
Qed.
Lemma primitive_derivative c x : derivable_pt_lim (primitive c) x (poly c x).
Proof.
  unfold primitive. pose proof (poly_divided c 1 x (le_n 1)) as H. cbn [pred pow] in H. rewrite Rmult_1_l in H.
  apply (derivable_pt_lim_ext (fun y => y * 1 * poly (divided 1 c) y)); [intros; ring|exact H].
Qed.

(** shorter coefficient lists *)
Lemma poly_pad c k x : poly (c ++ repeat 0 k) x = poly c x.
Proof.
  induction c as [|u c IH]; cbn [app poly].
  - induction k as [|k IHk]; cbn [repeat poly]; [reflexivity|]. rewrite IHk. ring.
  - rewrite IH. reflexivity.
Qed.
Lemma divided_zero j : forall k, divided k (repeat 0 j) = repeat 0 j.
Proof. induction j as [|j IH]; intros k; cbn [repeat divided]; [reflexivity|]. rewrite IH. unfold Rdiv. rewrite Rmult_0_l. reflexivity. Qed.
Lemma divided_pad c j : forall k, divided k (c ++ repeat 0 j) = divided k c ++ repeat 0 j.
Proof. induction c as [|u c IH]; intros k; cbn [app divided]; [apply divided_zero|]. rewrite IH. reflexivity. Qed.
Lemma area_pad c j a b : area (c ++ repeat 0 j) a b = area c a b.
Proof. unfold area, primitive. rewrite divided_pad, !poly_pad. reflexivity. Qed.

Lemma alpha_sq : alpha * alpha = 2 / 3. Proof. unfold alpha. apply sqrt_sqrt. lra. Qed.
Lemma sqrt5_sq : sqrt 5 * sqrt 5 = 5. Proof. apply sqrt_sqrt. lra. Qed.
Lemma sqrt5_pos : 0 < sqrt 5. Proof. apply sqrt_lt_R0. lra. Qed.
Lemma beta_sq : beta * beta = 1 / 5.
Proof. unfold beta. pose proof sqrt5_sq. pose proof sqrt5_pos. replace (1 / sqrt 5 * (1 / sqrt 5)) with (1 / (sqrt 5 * sqrt 5)) by (field; lra). rewrite H. reflexivity. Qed.
Lemma alpha_bounds : 4 / 5 < alpha < 9 / 10.
Proof. unfold alpha. split; [rewrite <- (sqrt_square (4 / 5)) by lra|rewrite <- (sqrt_square (9 / 10)) by lra]; apply sqrt_lt_1; lra. Qed.
Lemma beta_bounds : 2 / 5 < beta < 1 / 2.
Proof. pose proof beta_sq. assert (0 < beta) by (unfold beta; pose proof sqrt5_pos; apply Rdiv_lt_0_compat; lra). split; apply Rnot_le_lt; intro G; nra. Qed.

(** even part of a polynomial: the sum of the values at m + s and m - s depends on s * s only *)
Definition even_part (c0 c1 c2 c3 c4 c5 c6 c7 c8 c9 m S : R) : R :=
  2 * (c0 + c1 * m + c2 * (m * m + S) + c3 * (m * (m * m + 3 * S)) + c4 * (m * m * m * m + 6 * (m * m) * S + S * S)
   + c5 * (m * (m * m * m * m + 10 * (m * m) * S + 5 * (S * S))) + c6 * (m * m * m * m * m * m + 15 * (m * m * m * m) * S + 15 * (m * m) * (S * S) + S * S * S)
   + c7 * (m * (m * m * m * m * m * m + 21 * (m * m * m * m) * S + 35 * (m * m) * (S * S) + 7 * (S * S * S)))
   + c8 * (m * m * m * m * m * m * m * m + 28 * (m * m * m * m * m * m) * S + 70 * (m * m * m * m) * (S * S) + 28 * (m * m) * (S * S * S) + S * S * S * S)
   + c9 * (m * (m * m * m * m * m * m * m * m + 36 * (m * m * m * m * m * m) * S + 126 * (m * m * m * m) * (S * S) + 84 * (m * m) * (S * S * S) + 9 * (S * S * S * S)))).
Lemma even_pair c0 c1 c2 c3 c4 c5 c6 c7 c8 c9 m s :
  poly [c0; c1; c2; c3; c4; c5; c6; c7; c8; c9] (m - s) + poly [c0; c1; c2; c3; c4; c5; c6; c7; c8; c9] (m + s) = even_part c0 c1 c2 c3 c4 c5 c6 c7 c8 c9 m (s * s).
Proof. unfold even_part. cbn [poly]. ring. Qed.

Lemma kronrod_ten c0 c1 c2 c3 c4 c5 c6 c7 c8 c9 a b : let c := [c0; c1; c2; c3; c4; c5; c6; c7; c8; c9] in kronrod7 (poly c) a b = area c a b.
Proof.
  cbv zeta. set (c := [c0; c1; c2; c3; c4; c5; c6; c7; c8; c9]).
  assert (EP : forall m s, poly c (m - s) + poly c (m + s) = even_part c0 c1 c2 c3 c4 c5 c6 c7 c8 c9 m (s * s)) by (intros; apply even_pair).
  unfold kronrod7, at_node. change (sqrt (2 / 3)) with alpha. change (1 / sqrt 5) with beta.
  set (m := (a + b) / 2). set (h := (b - a) / 2).
  replace (m + - alpha * h) with (m - alpha * h) by ring. replace (m + - beta * h) with (m - beta * h) by ring.
  rewrite (EP m (alpha * h)), (EP m (beta * h)).
  replace (alpha * h * (alpha * h)) with (2 / 3 * (h * h)) by (rewrite <- alpha_sq; ring). replace (beta * h * (beta * h)) with (1 / 5 * (h * h)) by (rewrite <- beta_sq; ring).
  replace a with (m - h) by (unfold m, h; field). replace b with (m + h) by (unfold m, h; field).
  rewrite (EP m h). unfold area, primitive, c. clearbody m h. unfold even_part. cbn [poly divided INR]. field.
Qed.
Lemma kronrod_exact c a b : (length c <= 10)%nat -> kronrod7 (poly c) a b = area c a b.
Proof.
  intros L. rewrite <- (area_pad c (10 - length c)). 
  assert (K : kronrod7 (poly c) a b = kronrod7 (poly (c ++ repeat 0 (10 - length c))) a b) by (unfold kronrod7, at_node; rewrite !poly_pad; reflexivity).
  rewrite K. assert (E : length (c ++ repeat 0 (10 - length c)) = 10%nat) by (rewrite app_length, repeat_length; lia).
  destruct (c ++ repeat 0 (10 - length c)) as [|c0 [|c1 [|c2 [|c3 [|c4 [|c5 [|c6 [|c7 [|c8 [|c9 [|]]]]]]]]]]]; try discriminate. apply kronrod_ten.
Qed.
Lemma lobatto_six c0 c1 c2 c3 c4 c5 a b : let c := [c0; c1; c2; c3; c4; c5; 0; 0; 0; 0] in lobatto4 (poly c) a b = area c a b.
Proof.
  cbv zeta. set (c := [c0; c1; c2; c3; c4; c5; 0; 0; 0; 0]).
  assert (EP : forall m s, poly c (m - s) + poly c (m + s) = even_part c0 c1 c2 c3 c4 c5 0 0 0 0 m (s * s)) by (intros; apply even_pair).
  unfold lobatto4, at_node. change (1 / sqrt 5) with beta.
  set (m := (a + b) / 2). set (h := (b - a) / 2).
  replace (m + - beta * h) with (m - beta * h) by ring.
  rewrite (EP m (beta * h)).
  replace (beta * h * (beta * h)) with (1 / 5 * (h * h)) by (rewrite <- beta_sq; ring).
  replace a with (m - h) by (unfold m, h; field). replace b with (m + h) by (unfold m, h; field).
  rewrite (EP m h). unfold area, primitive, c. clearbody m h. unfold even_part. cbn [poly divided INR]. field.
Qed.
Lemma lobatto_exact c a b : (length c <= 6)%nat -> lobatto4 (poly c) a b = area c a b.
Proof.
  intros L. rewrite <- (area_pad c (10 - length c)).
  assert (K : lobatto4 (poly c) a b = lobatto4 (poly (c ++ repeat 0 (10 - length c))) a b) by (unfold lobatto4, at_node; rewrite !poly_pad; reflexivity).
  rewrite K. destruct c as [|c0 [|c1 [|c2 [|c3 [|c4 [|c5 [|]]]]]]]; try (cbn in L; lia); cbn [length Nat.sub app repeat]; apply lobatto_six.
Qed.

(** additivity of the exact integral over a partition *)
Lemma area_split c a b d : area c a d = area c a b + area c b d. Proof. unfold area. ring. Qed.
Lemma composite_exact rule c : (forall a b, rule a b = area c a b) -> forall l a, composite rule a l = area c a (last l a).
Proof.
  intros H. induction l as [|b l IH]; intros a; [cbn; unfold area; ring|]. cbn [composite]. rewrite H, IH.
  assert (E : last (b :: l) a = last l b). { destruct l as [|x l]; [reflexivity|]. cbn. clear. revert x. induction l as [|y l IH]; intros x; [reflexivity|]. cbn. apply (IH y). }
  rewrite E. symmetry. apply area_split.
Qed.

(** ** structure of the recursion *)
Lemma last_app_cons (l1 : list R) : forall l2 a, last (l1 ++ l2) a = last l2 (last l1 a).
Proof.
  assert (LC : forall (l : list R) b a, last (b :: l) a = last l b).
  { induction l as [|x l IH]; intros b a; [reflexivity|]. cbn [last]. destruct l; [reflexivity|]. cbn [last] in IH. apply (IH b a) || reflexivity. }
  induction l1 as [|b l1 IH]; intros l2 a; [reflexivity|]. cbn [app]. rewrite !LC. apply IH.
Qed.
Lemma increasing_app l1 : forall l2 a, increasing_from a l1 -> increasing_from (last l1 a) l2 -> increasing_from a (l1 ++ l2).
Proof.
  induction l1 as [|b l1 IH]; intros l2 a H1 H2; [exact H2|]. destruct H1 as (A & B). cbn [app increasing_from]. split; [exact A|]. apply IH; [exact B|].
  change (last (b :: l1) a) with (last ([b] ++ l1) a) in H2. rewrite last_app_cons in H2. exact H2.
Qed.
Lemma composite_app rule l1 : forall l2 a, composite rule a (l1 ++ l2) = composite rule a l1 + composite rule (last l1 a) l2.
Proof.
  induction l1 as [|b l1 IH]; intros l2 a; [cbn; ring|]. cbn [app composite]. rewrite IH. change (last (b :: l1) a) with (last ([b] ++ l1) a). rewrite last_app_cons. cbn [last]. ring.
Qed.
Definition composed (f : R -> R) (a b v : R) : Prop := exists l, partitions a b l /\ v = composite (kronrod7 f) a l.
Lemma composed_join f a b c u v : composed f a b u -> composed f b c v -> composed f a c (u + v).
Proof.
  intros (l1 & (I1 & L1) & ->) (l2 & (I2 & L2) & ->). exists (l1 ++ l2). split; [split|].
  - apply increasing_app; [exact I1|]. rewrite L1. exact I2.
  - rewrite last_app_cons, L1. exact L2.
  - rewrite composite_app, L1. reflexivity.
Qed.
Lemma composed_one f a b : a < b -> composed f a b (kronrod7 f a b).
Proof. intros H. exists [b]. split; [split; [cbn; auto|reflexivity]|]. cbn. ring. Qed.
(** the rule as computed by the program *)
Lemma rule7 f a b fa fb : fa = f a -> fb = f b -> let m := 1 / 2 * (a + b) in let h := 1 / 2 * (b - a) in
  Gauss_Kronrod_7 h fa (f (m - alpha * h)) (f (m - beta * h)) (f m) (f (m + beta * h)) (f (m + alpha * h)) fb = kronrod7 f a b.
Proof.
  intros -> ->. cbv zeta. unfold Gauss_Kronrod_7, kronrod7, at_node. change (sqrt (2 / 3)) with alpha. change (1 / sqrt 5) with beta.
  replace ((a + b) / 2 + - alpha * ((b - a) / 2)) with (1 / 2 * (a + b) - alpha * (1 / 2 * (b - a))) by field.
  replace ((a + b) / 2 + alpha * ((b - a) / 2)) with (1 / 2 * (a + b) + alpha * (1 / 2 * (b - a))) by field.
  replace ((a + b) / 2 + - beta * ((b - a) / 2)) with (1 / 2 * (a + b) - beta * (1 / 2 * (b - a))) by field.
  replace ((a + b) / 2 + beta * ((b - a) / 2)) with (1 / 2 * (a + b) + beta * (1 / 2 * (b - a))) by field.
  replace ((a + b) / 2) with (1 / 2 * (a + b)) by field. field.
Qed.
Lemma rule4 f a b : let m := 1 / 2 * (a + b) in let h := 1 / 2 * (b - a) in
  Gauss_Lobatto_4 h (f a) (f (m - beta * h)) (f (m + beta * h)) (f b) = lobatto4 f a b.
Proof.
  cbv zeta. unfold Gauss_Lobatto_4, lobatto4, at_node. change (1 / sqrt 5) with beta.
  replace ((a + b) / 2 + - beta * ((b - a) / 2)) with (1 / 2 * (a + b) - beta * (1 / 2 * (b - a))) by field.
  replace ((a + b) / 2 + beta * ((b - a) / 2)) with (1 / 2 * (a + b) + beta * (1 / 2 * (b - a))) by field. field.
Qed.
(** order of the nodes and widths of the subintervals *)
Lemma nodes_order a b : a < b -> let m := 1 / 2 * (a + b) in let h := 1 / 2 * (b - a) in
  a < m - alpha * h /\ m - alpha * h < m - beta * h /\ m - beta * h < m /\ m < m + beta * h /\ m + beta * h < m + alpha * h /\ m + alpha * h < b.
Proof. intros H. cbv zeta. pose proof alpha_bounds. pose proof beta_bounds. repeat split; nra. Qed.
Lemma nodes_width a b : a < b -> let m := 1 / 2 * (a + b) in let h := 1 / 2 * (b - a) in let w := 1 / 4 * (b - a) in
  (m - alpha * h) - a <= w /\ (m - beta * h) - (m - alpha * h) <= w /\ m - (m - beta * h) <= w /\ (m + beta * h) - m <= w /\ (m + alpha * h) - (m + beta * h) <= w /\ b - (m + alpha * h) <= w.
Proof. intros H. cbv zeta. pose proof alpha_bounds. pose proof beta_bounds. repeat split; nra. Qed.

Lemma sub_composed f tol is : forall fuel a b v, a < b -> integrate_sub fuel f tol a b (f a) (f b) is = Some v -> composed f a b v.
Proof.
  induction fuel as [|k IH]; intros a b v H E; [discriminate|]. cbn [integrate_sub] in E. cbv zeta in E.
  rewrite (rule7 f a b (f a) (f b) eq_refl eq_refl) in E. rewrite (rule4 f a b) in E.
  pose proof (nodes_order a b H) as (O1 & O2 & O3 & O4 & O5 & O6). cbv zeta in *.
  set (m := 1 / 2 * (a + b)) in *. set (h := 1 / 2 * (b - a)) in *.
  match type of E with (if ?c then _ else _) = _ => destruct c end; [injection E as <-; apply composed_one; exact H|].
  destruct (Rlt_dec (m - alpha * h) a); [lra|]. destruct (Rlt_dec b (m + alpha * h)); [lra|].
  destruct (integrate_sub k f tol a _ _ _ is) as [s1|] eqn:E1; [|discriminate]. cbn [obind] in E.
  destruct (integrate_sub k f tol (m - alpha * h) _ _ _ is) as [s2|] eqn:E2; [|discriminate]. cbn [obind] in E.
  destruct (integrate_sub k f tol (m - beta * h) _ _ _ is) as [s3|] eqn:E3; [|discriminate]. cbn [obind] in E.
  destruct (integrate_sub k f tol m _ _ _ is) as [s4|] eqn:E4; [|discriminate]. cbn [obind] in E.
  destruct (integrate_sub k f tol (m + beta * h) _ _ _ is) as [s5|] eqn:E5; [|discriminate]. cbn [obind] in E.
  destruct (integrate_sub k f tol (m + alpha * h) _ _ _ is) as [s6|] eqn:E6; [|discriminate]. cbn [obind] in E. injection E as <-.
  repeat (eapply composed_join; [|eapply IH; [|eassumption]; assumption]). eapply IH; eassumption.
Qed.
Lemma Rabs_inv x M : Rabs x <= M -> - M <= x <= M.
Proof. unfold Rabs. destruct (Rcase_abs x); lra. Qed.
(** bounded integrands: the rules are bounded and the recursion ends *)
Lemma rules_close f a b M : a < b -> bounded f a b M -> Rabs (kronrod7 f a b - lobatto4 f a b) <= 2 * (b - a) * M.
Proof.
  intros H B. pose proof (nodes_order a b H) as (O1 & O2 & O3 & O4 & O5 & O6). cbv zeta in *.
  pose proof (B a ltac:(lra)) as Ba. pose proof (B b ltac:(lra)) as Bb.
  unfold kronrod7, lobatto4, at_node. change (sqrt (2 / 3)) with alpha. change (1 / sqrt 5) with beta.
  replace ((a + b) / 2 + - alpha * ((b - a) / 2)) with (1 / 2 * (a + b) - alpha * (1 / 2 * (b - a))) by field.
  replace ((a + b) / 2 + alpha * ((b - a) / 2)) with (1 / 2 * (a + b) + alpha * (1 / 2 * (b - a))) by field.
  replace ((a + b) / 2 + - beta * ((b - a) / 2)) with (1 / 2 * (a + b) - beta * (1 / 2 * (b - a))) by field.
  replace ((a + b) / 2 + beta * ((b - a) / 2)) with (1 / 2 * (a + b) + beta * (1 / 2 * (b - a))) by field.
  replace ((a + b) / 2) with (1 / 2 * (a + b)) by field.
  set (m := 1 / 2 * (a + b)) in *. set (h := 1 / 2 * (b - a)) in *.
  pose proof (B (m - alpha * h) ltac:(lra)) as B1. pose proof (B (m - beta * h) ltac:(lra)) as B2. pose proof (B m ltac:(lra)) as B3.
  pose proof (B (m + beta * h) ltac:(lra)) as B4. pose proof (B (m + alpha * h) ltac:(lra)) as B5.
  apply Rabs_inv in Ba, Bb, B1, B2, B3, B4, B5. set (f1 := f (m - alpha * h)) in *. set (f2 := f (m - beta * h)) in *. set (f3 := f m) in *. set (f4 := f (m + beta * h)) in *. set (f5 := f (m + alpha * h)) in *.
  clearbody f1 f2 f3 f4 f5. generalize dependent (f a). generalize dependent (f b). intros fb Bb fa Ba.
  match goal with |- Rabs ?e <= _ => replace e with ((b - a) * ((77 * (fa + fb) + 432 * (f1 + f5) + 625 * (f2 + f4) + 672 * f3) / 2940 - (fa + fb + 5 * (f2 + f4)) / 12)) by field end.
  rewrite Rabs_mult, (Rabs_right (b - a)) by lra. rewrite (Rmult_comm 2), Rmult_assoc. apply Rmult_le_compat_l; [lra|]. apply Rabs_le. lra.
Qed.
Lemma pow4_pos n : 0 < 4 ^ n. Proof. apply pow_lt. lra. Qed.
Lemma tol_pos : 0 < tolerance_abs. Proof. unfold tolerance_abs. apply Rinv_0_lt_compat. apply pow_lt. lra. Qed.
Lemma sub_ends f tol is M : 0 <= M -> forall fuel a b, a < b -> bounded f a b M -> 2 * (b - a) * M < tolerance_abs * 4 ^ fuel ->
  exists v, integrate_sub (S fuel) f tol a b (f a) (f b) is = Some v.
Proof.
  intros HM. induction fuel as [|k IH]; intros a b H B W.
  - cbn [pow] in W. rewrite Rmult_1_r in W. cbn [integrate_sub]. cbv zeta.
    rewrite (rule7 f a b (f a) (f b) eq_refl eq_refl), (rule4 f a b). pose proof (rules_close f a b M H B) as C.
    match goal with |- context [if ?c then _ else _] => destruct c as [|N] end; [eexists; reflexivity|]. exfalso. apply N. pose proof (Rmax_l tolerance_abs (tol * Rabs is)). lra.
  - remember (S k) as k' eqn:K. cbn [integrate_sub]. cbv zeta. rewrite (rule7 f a b (f a) (f b) eq_refl eq_refl), (rule4 f a b).
    pose proof (nodes_order a b H) as (O1 & O2 & O3 & O4 & O5 & O6). pose proof (nodes_width a b H) as (W1 & W2 & W3 & W4 & W5 & W6). cbv zeta in *.
    set (m := 1 / 2 * (a + b)) in *. set (h := 1 / 2 * (b - a)) in *.
    match goal with |- context [if ?c then _ else _] => destruct c end; [eexists; reflexivity|].
    destruct (Rlt_dec (m - alpha * h) a); [eexists; reflexivity|]. destruct (Rlt_dec b (m + alpha * h)); [eexists; reflexivity|].
    assert (G : forall u v, a <= u -> u < v -> v <= b -> v - u <= 1 / 4 * (b - a) -> exists s, integrate_sub k' f tol u v (f u) (f v) is = Some s).
    { intros u v U1 U2 U3 U4. subst k'. apply IH; [exact U2|intros x X; apply B; lra|]. subst. cbn [pow] in W. pose proof (pow4_pos k). 
      assert ((v - u) * M <= 1 / 4 * (b - a) * M) by (apply Rmult_le_compat_r; lra). lra. }
    destruct (G a (m - alpha * h)) as (s1 & E1); try lra. destruct (G (m - alpha * h) (m - beta * h)) as (s2 & E2); try lra.
    destruct (G (m - beta * h) m) as (s3 & E3); try lra. destruct (G m (m + beta * h)) as (s4 & E4); try lra.
    destruct (G (m + beta * h) (m + alpha * h)) as (s5 & E5); try lra. destruct (G (m + alpha * h) b) as (s6 & E6); try lra.
    rewrite E1. cbn [obind]. rewrite E2. cbn [obind]. rewrite E3. cbn [obind]. rewrite E4. cbn [obind]. rewrite E5. cbn [obind]. rewrite E6. cbn [obind]. eexists. reflexivity.
Qed.
