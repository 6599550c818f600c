From Coq Require Import Reals Lra.
From Verif Require Import Prelude Idx_Proofs Arr_Model Interp_Model State_Model State_Spec State_Proofs State_Props Mix_Model Mix_Spec.
Open Scope R_scope.

(** ** vectors *)
Notation vadd := (zip2 cadd).
Notation vsc b := (map (fun x => cscale x b)).
Lemma nth_vadd u v k : length u = length v -> nth k (vadd u v) (0, 0) = cadd (nth k u (0, 0)) (nth k v (0, 0)).
Proof.
  revert v k. induction u as [|x u IH]; intros [|y v] k H; try discriminate.
  - destruct k; cbn; ceq.
  - destruct k as [|k]; [reflexivity|]. cbn. apply IH. injection H as H. exact H.
Qed.
Lemma nth_vsub u v k : length u = length v -> nth k (zip2 csub u v) (0, 0) = csub (nth k u (0, 0)) (nth k v (0, 0)).
Proof.
  revert v k. induction u as [|x u IH]; intros [|y v] k H; try discriminate.
  - destruct k; cbn; ceq.
  - destruct k as [|k]; [reflexivity|]. cbn. apply IH. injection H as H. exact H.
Qed.
Lemma nth_vsc b u k : nth k (vsc b u) (0, 0) = cscale (nth k u (0, 0)) b.
Proof. revert k. induction u as [|x u IH]; intros [|k]; cbn; try apply IH; try reflexivity; ceq. Qed.
Lemma nth_zero n k : nth k (repeat (0, 0) n) (0, 0) = ((0, 0) : comp).
Proof. revert k. induction n as [|n IH]; intros [|k]; cbn; auto. Qed.
Lemma vec_ext (u v : list comp) : length u = length v -> (forall k, nth k u (0, 0) = nth k v (0, 0)) -> u = v.
Proof. intros L H. apply (nth_ext u v (0, 0) (0, 0) L). intros k _. apply H. Qed.

Definition sized (n : nat) (vs : list (list comp)) : Prop := Forall (fun v => length v = n) vs.
Lemma weighted_length n : forall beta vs, sized n vs -> length (weighted n beta vs) = n.
Proof.
  induction beta as [|b beta IH]; intros [|v vs] H; try apply repeat_length. cbn. inversion H as [|? ? A B]; subst.
  rewrite zip2_length; rewrite map_length; [reflexivity|]. symmetry. apply IH. exact B.
Qed.

(** ** inner product *)
Lemma inner_cons x u y v : inner (x :: u) (y :: v) = fst x * fst y + snd x * snd y + inner u v.
Proof. unfold inner. cbn [zip2 sumR fold_right]. unfold cmul, conj. cbn [fst snd]. unfold sumR. ring. Qed.
Lemma inner_sym : forall u v, inner u v = inner v u.
Proof. induction u as [|x u IH]; intros [|y v]; try reflexivity. rewrite !inner_cons, IH. ring. Qed.
Lemma inner_add : forall u v w, length v = length w -> inner u (vadd v w) = inner u v + inner u w.
Proof.
  induction u as [|x u IH]; intros [|y v] [|z w] H; try discriminate; try (unfold inner; cbn; ring).
  change (vadd (y :: v) (z :: w)) with (cadd y z :: vadd v w). rewrite !inner_cons, IH by (injection H; auto). cbn. ring.
Qed.
Lemma inner_sc b : forall u v, inner u (vsc b v) = b * inner u v.
Proof. induction u as [|x u IH]; intros [|y v]; try (unfold inner; cbn; ring). cbn [map]. rewrite !inner_cons, IH. cbn. ring. Qed.
Lemma inner_zero n : forall u, inner u (repeat (0, 0) n) = 0.
Proof. induction n as [|n IH]; intros [|x u]; try reflexivity. cbn [repeat]. rewrite inner_cons, IH. cbn. ring. Qed.
Lemma norm2_inner : forall v, norm2 v = inner v v.
Proof. induction v as [|x v IH]; [reflexivity|]. rewrite inner_cons. rewrite <- IH. reflexivity. Qed.
Lemma norm2_nonneg : forall v, 0 <= norm2 v.
Proof. induction v as [|x v IH]; [unfold norm2; cbn; lra|]. change (norm2 (x :: v)) with (fst x * fst x + snd x * snd x + norm2 v). pose proof (Rle_0_sqr (fst x)). pose proof (Rle_0_sqr (snd x)). unfold Rsqr in *. lra. Qed.
Lemma inner_weighted n u : forall beta vs, sized n vs -> inner u (weighted n beta vs) = sumR (zip2 Rmult (map (inner u) vs) beta).
Proof.
  induction beta as [|b beta IH]; intros [|v vs] H; try apply inner_zero. cbn. inversion H as [|? ? A B]; subst.
  rewrite inner_add by (rewrite map_length, weighted_length; auto). rewrite inner_sc, IH by exact B. unfold sumR. ring.
Qed.
Lemma norm2_add u w : length u = length w -> norm2 (vadd u w) = norm2 u + 2 * inner u w + norm2 w.
Proof.
  intros L. rewrite !norm2_inner. rewrite inner_add by exact L. rewrite (inner_sym (vadd u w) u), (inner_sym (vadd u w) w).
  rewrite !inner_add by exact L. rewrite (inner_sym w u). ring.
Qed.

(** ** the coefficients *)
Fixpoint alph (p : R) (g : list R) : list R := match g with [] => [p] | x :: g' => (p - x) :: alph x g' end.
Lemma alph_sum : forall g p, sumR (alph p g) = p.
Proof. induction g as [|x g IH]; intros p; cbn; [ring|]. unfold sumR in IH. rewrite IH. ring. Qed.
Lemma alph_length : forall g p, length (alph p g) = S (length g).
Proof. induction g as [|x g IH]; intros p; cbn; [reflexivity|]. rewrite IH. reflexivity. Qed.
Lemma alph_onto : forall beta p, beta <> [] -> sumR beta = p -> exists g, S (length g) = length beta /\ beta = alph p g.
Proof.
  induction beta as [|b beta IH]; intros p N H; [contradiction|]. destruct beta as [|c beta].
  - exists []. split; [reflexivity|]. cbn in *. replace p with b by lra. reflexivity.
  - destruct (IH (p - b)) as (g & L & E); [discriminate|cbn in *; lra|]. exists ((p - b) :: g). split; [cbn; cbn in L; lia|].
    cbn. rewrite E. f_equal. ring.
Qed.
Lemma nth_alph : forall g p i, nth_error (alph p g) i =
  if (i =? length g)%nat then Some (nth (length g) (p :: g) 0) else
  match nth_error (p :: g) i, nth_error g i with Some x, Some y => Some (x - y) | _, _ => None end.
Proof.
  induction g as [|x g IH]; intros p i.
  - destruct i as [|[|i]]; reflexivity.
  - destruct i as [|i]; [reflexivity|]. cbn [alph nth_error]. rewrite IH. cbn [length]. change (S i =? S (length g))%nat with (i =? length g)%nat.
    destruct (i =? length g)%nat; reflexivity.
Qed.
Lemma osequence_ext {A} (f : nat -> option A) : forall (l : list A) k, (forall i, (i < length l)%nat -> f (k + i)%nat = nth_error l i) ->
  osequence (map f (seq k (length l))) = Some l.
Proof.
  induction l as [|x l IH]; intros k H; [reflexivity|]. cbn. pose proof (H 0%nat ltac:(cbn; lia)) as E. rewrite Nat.add_0_r in E. rewrite E. cbn.
  rewrite IH; [reflexivity|]. intros i Hi. pose proof (H (S i) ltac:(cbn; lia)) as E'. cbn [nth_error] in E'. rewrite <- E'. f_equal. lia.
Qed.
Lemma coefficients_alph g : g <> [] -> mixing_coefficients (S (length g)) g = Some (alph 1 g).
Proof.
  intros N. unfold mixing_coefficients. rewrite <- (alph_length g 1). apply osequence_ext. intros i Hi. rewrite alph_length in Hi.
  rewrite nth_alph. rewrite alph_length. cbn [plus]. unfold mixing_coefficient. replace (S (length g) - 1)%nat with (length g) by lia.
  destruct (i =? length g)%nat eqn:E.
  - apply Nat.eqb_eq in E. subst i. destruct g as [|x g]; [contradiction|]. cbn [length]. replace (S (S (length g)) - 2)%nat with (length g) by lia.
    change (nth (S (length g)) (1 :: x :: g) 0) with (nth (length g) (x :: g) 0). apply nth_error_nth'. cbn. lia.
  - apply Nat.eqb_neq in E. destruct i as [|i].
    + destruct g as [|x g]; [contradiction|]. reflexivity.
    + cbn [Nat.eqb nth_error]. replace (S i - 1)%nat with i by lia. destruct (nth_error g i), (nth_error g (S i)); reflexivity.
Qed.

(** ** the residual of the combination *)
Lemma sized_diff n : forall e, sized n e -> sized n (colwise_difference e).
Proof.
  unfold colwise_difference. induction e as [|x e IH]; intros H; [constructor|]. destruct e as [|y e]; [constructor|]. cbn.
  inversion H as [|? ? A B]; subst. inversion B as [|? ? C D]; subst. constructor; [|apply IH; exact B]. rewrite zip2_length; auto.
Qed.
Lemma diff_cons x y e : colwise_difference (x :: y :: e) = zip2 csub y x :: colwise_difference (y :: e). Proof. reflexivity. Qed.
Lemma weighted_alph n : forall g p x e, sized n (x :: e) -> length g = length e ->
  weighted n (alph p g) (x :: e) = vadd (vsc p x) (weighted n g (colwise_difference (x :: e))).
Proof.
  induction g as [|c g IH]; intros p x e H L.
  - destruct e; [|discriminate]. reflexivity.
  - destruct e as [|y e]; [discriminate|]. rewrite diff_cons. cbn [alph]. pose proof (sized_diff _ _ H) as HD. rewrite diff_cons in HD.
    inversion H as [|? ? A B]; subst. inversion B as [|? ? C D]; subst. inversion HD as [|? ? A' B']; subst.
    cbn [weighted]. rewrite (IH c y e) by (auto; injection L; auto). cbn [length] in L.
    pose proof (weighted_length (length x) g _ B') as W. set (w := weighted (length x) g (colwise_difference (y :: e))) in *. clearbody w.
    apply vec_ext.
    + rewrite !zip2_length; rewrite ?map_length, ?zip2_length; rewrite ?map_length, ?zip2_length; try lia; rewrite ?map_length, ?zip2_length; lia.
    + intros k. rewrite !nth_vadd, !nth_vsc, ?nth_vsub; rewrite ?zip2_length; rewrite ?map_length, ?zip2_length; rewrite ?map_length; try lia.
      ceq.
Qed.
Lemma weighted_sub n : forall g h vs, sized n vs -> length g = length vs -> length h = length vs ->
  weighted n h vs = vadd (weighted n g vs) (weighted n (zip2 Rminus h g) vs).
Proof.
  induction g as [|c g IH]; intros [|d h] [|v vs] H L L'; try discriminate; cbn.
  - apply vec_ext; [rewrite zip2_length; rewrite ?repeat_length; reflexivity|]. intros k. rewrite nth_vadd by (rewrite ?repeat_length; reflexivity). rewrite nth_zero. ceq.
  - inversion H as [|? ? A B]; subst. rewrite (IH h vs) by (auto; cbn in *; lia).
    pose proof (weighted_length (length v) g vs B) as W1. pose proof (weighted_length (length v) (zip2 Rminus h g) vs B) as W2.
    set (w := weighted _ g vs) in *. set (w' := weighted _ _ vs) in *. clearbody w w'.
    apply vec_ext.
    + repeat (rewrite zip2_length || rewrite map_length); congruence || lia.
    + intros k. rewrite !nth_vadd, !nth_vsc; repeat (rewrite zip2_length || rewrite map_length); try congruence; try lia. ceq.
Qed.

(** the solution of the normal equations minimises the residual *)
Lemma normal_minimal n x vs g h : sized n vs -> length x = n -> length g = length vs -> length h = length vs ->
  mat_vec (normal_matrix vs) g = normal_rhs vs (vsc (-1) x) ->
  norm2 (vadd x (weighted n g vs)) <= norm2 (vadd x (weighted n h vs)).
Proof.
  intros S Lx Lg Lh N.
  assert (O : forall d, In d vs -> inner d (vadd x (weighted n g vs)) = 0).
  { intros d Hd. rewrite inner_add by (rewrite weighted_length; auto). rewrite inner_weighted by exact S.
    unfold mat_vec, normal_matrix, normal_rhs in N. rewrite map_map in N.
    assert (E : sumR (zip2 Rmult (map (inner d) vs) g) = inner d (vsc (-1) x)).
    { clear - N Hd. set (F := fun a => sumR (zip2 Rmult (map (inner a) vs) g)) in *. change (F d = inner d (vsc (-1) x)).
      change (map F vs = map (fun a => inner a (vsc (-1) x)) vs) in N. clearbody F. induction vs as [|v vs IH]; [contradiction|].
      injection N as N1 N2. destruct Hd as [<-|Hd]; [exact N1|apply IH; assumption]. }
    rewrite E, inner_sc. ring. }
  rewrite (weighted_sub n g h) by assumption. set (r := vadd x (weighted n g vs)) in *. set (w := weighted n (zip2 Rminus h g) vs).
  assert (Lr : length r = n) by (unfold r; rewrite zip2_length; rewrite ?weighted_length; auto).
  assert (Lw : length w = n) by (apply weighted_length; exact S).
  assert (E : vadd x (vadd (weighted n g vs) w) = vadd r w).
  { unfold r. symmetry. apply zip2_assoc. intros. ceq. }
  rewrite E, norm2_add by congruence. assert (Z : inner r w = 0).
  { unfold w. rewrite inner_weighted by exact S. assert (Q : forall d, In d vs -> inner r d = 0) by (intros d Hd; rewrite inner_sym; apply O; exact Hd).
    clear - Q. clearbody r. generalize (zip2 Rminus h g). intros c. revert c. induction vs as [|v vs IH]; intros [|b c]; cbn; try reflexivity.
    rewrite Q by (left; reflexivity). change (0 * b + sumR (zip2 Rmult (map (inner r) vs) c) = 0). rewrite IH by (intros d Hd; apply Q; right; exact Hd). ring. }
  rewrite Z. pose proof (norm2_nonneg w). lra.
Qed.
