From Coq Require Import Reals Lra.
From Verif Require Import Prelude Idx_Proofs Arr_Model Interp_Model State_Model State_Spec State_Proofs State_Props.
Open Scope R_scope.

(** ** C90: norms *)
Lemma cabs_nonneg x : 0 <= cabs x. Proof. apply sqrt_pos. Qed.
Lemma cabs_zero x : cabs x = 0 -> x = (0, 0).
Proof.
  unfold cabs. intros H. apply sqrt_eq_0 in H; [|nra]. destruct x as [a b]. cbn [fst snd] in *.
  assert (a = 0) by nra. assert (b = 0) by nra. congruence.
Qed.
Lemma cabs_scale x c : cabs (cscale x c) = Rabs c * cabs x.
Proof.
  unfold cabs, cscale. cbn [fst snd]. replace (fst x * c * (fst x * c) + snd x * c * (snd x * c)) with (Rsqr c * (fst x * fst x + snd x * snd x)) by (unfold Rsqr; ring).
  rewrite sqrt_mult; [|apply Rle_0_sqr|nra]. rewrite sqrt_Rsqr_abs. reflexivity.
Qed.
Lemma later_max x y : later_if_larger x y = Rmax x y.
Proof. unfold later_if_larger, Rmax. destruct (Rlt_dec x y), (Rle_dec x y); try reflexivity; lra. Qed.
Lemma arr_norm_nonneg a : 0 <= arr_max_norm a. Proof. apply (maxfold_ge comp cabs). Qed.
Lemma arr_norm_entry a i x : nth_error (m_elements a) i = Some x -> cabs x <= arr_max_norm a.
Proof. intros H. apply (maxfold_in comp cabs). eapply nth_error_In. exact H. Qed.
Lemma norm_class0_nonneg k v : 0 <= norm_class0 k v.
Proof. unfold norm_class0. rewrite !later_max. eapply Rle_trans; [apply (arr_norm_nonneg (b_data (k (avertex v))))|]. eapply Rle_trans; [apply Rmax_l|apply Rmax_l]. Qed.
Lemma norm_class0_entry k v c i x : nth_error (m_elements (b_data (k (in_channel c v)))) i = Some x -> cabs x <= norm_class0 k v.
Proof.
  intros H. apply arr_norm_entry in H. eapply Rle_trans; [exact H|]. unfold norm_class0. rewrite !later_max. destruct c; cbn [in_channel].
  - eapply Rle_trans; [apply Rmax_l|apply Rmax_l].
  - eapply Rle_trans; [apply Rmax_r|apply Rmax_l].
  - apply Rmax_r.
Qed.
Definition measured (m : build) (l : label) : Prop :=
  match l with LSigma _ | LAsymp => True | LIrred _ => False | LK _ C2b _ => False | LK _ k _ => class_active m k end.
(** every measured number is bounded by the norm of the state *)
Lemma st_norm_entry m s l x : measured m l -> entry s l = Some x -> cabs x <= st_norm m s.
Proof.
  intros M E. unfold st_norm. destruct l as [i| |i|c k i]; cbn [measured] in M; cbn [entry fv_entry] in E; try contradiction.
  - eapply Rle_trans; [apply (arr_norm_entry _ _ _ E)|]. unfold se_norm. eapply Rle_trans; [apply Rmax_l|apply Rmax_l].
  - injection E as <-. unfold se_norm. eapply Rle_trans; [apply Rmax_r|apply Rmax_l].
  - eapply Rle_trans; [|apply Rmax_r]. unfold sum_norm_with. cbv zeta.
    pose proof (norm_class0_nonneg K1 (half1 (vertex s))) as P1. pose proof (norm_class0_nonneg K2 (half1 (vertex s))) as P2. pose proof (norm_class0_nonneg K3 (half1 (vertex s))) as P3.
    destruct k; cbn [in_class] in E; try contradiction; cbn [class_active] in M.
    + apply (norm_class0_entry K1) in E. destruct (Z.leb_spec 0 (max_diag_class m)); [|lia]. destruct (2 <=? _)%Z, (3 <=? _)%Z; lra.
    + apply (norm_class0_entry K2) in E. destruct (Z.leb_spec 0 (max_diag_class m)); [|lia]. destruct (Z.leb_spec 2 (max_diag_class m)); [|lia]. destruct (3 <=? _)%Z; lra.
    + apply (norm_class0_entry K3) in E. destruct (Z.leb_spec 0 (max_diag_class m)); [|lia]. destruct (Z.leb_spec 2 (max_diag_class m)); [|lia].
      destruct (Z.leb_spec 3 (max_diag_class m)); [|lia]. lra.
Qed.
Lemma maxfold_scale (A : Type) (g : A -> R) r (h : A -> A) : 0 <= r -> (forall x, g (h x) = r * g x) ->
  forall v a, fold_left (fun out x => Rmax out (g x)) (map h v) (r * a) = r * fold_left (fun out x => Rmax out (g x)) v a.
Proof. intros P H. induction v as [|x v IH]; intros a; [reflexivity|]. cbn. rewrite H, RmaxRmult by exact P. apply IH. Qed.
Lemma arr_norm_scale a c : arr_max_norm (amap (fun x => cscale x c) a) = Rabs c * arr_max_norm a.
Proof.
  unfold arr_max_norm. cbn [amap m_elements]. replace 0 with (Rabs c * 0) at 1 by ring. apply (maxfold_scale comp cabs); [apply Rabs_pos|intros x; apply cabs_scale].
Qed.
Lemma class_norm_scale m k (q : cls) v c : k = in_class q -> class_active m q -> norm_class0 k (fv_map m (fun x => cscale x c) v) = Rabs c * norm_class0 k v.
Proof.
  intros -> A. unfold norm_class0. rewrite !later_max. cbn [fv_map avertex pvertex tvertex]. rewrite !rv_map_active by exact A. cbn [buf_map b_data]. rewrite !arr_norm_scale.
  rewrite <- !RmaxRmult by apply Rabs_pos. reflexivity.
Qed.
Theorem C90_max_norm_partial : forall m s c, (1 <= max_diag_class m <= 3)%Z ->
  (forall l x, measured m l -> entry s l = Some x -> cabs x <= st_norm m s) /\
  (st_norm m s = 0 -> forall l x, measured m l -> entry s l = Some x -> x = (0, 0)) /\
  st_norm m (st_scale m s c) = Rabs c * st_norm m s.
Proof.
  intros m s c Dg. split; [intros l x; apply st_norm_entry|]. split.
  - intros Z0 l x M E. apply cabs_zero. pose proof (st_norm_entry m s l x M E). pose proof (cabs_nonneg x). lra.
  - unfold st_norm, se_norm. cbn [st_scale selfenergy se_scale Sigma asymp buf_map b_data vertex gv_scale half1]. rewrite arr_norm_scale, cabs_scale.
    rewrite <- !RmaxRmult by apply Rabs_pos. f_equal. unfold sum_norm_with. cbv zeta.
    rewrite (class_norm_scale m K1 C1 (half1 (vertex s)) c) by (reflexivity || (cbn; lia)).
    destruct (Z.leb_spec 0 (max_diag_class m)); [|lia].
    destruct (Z.leb_spec 2 (max_diag_class m)); destruct (Z.leb_spec 3 (max_diag_class m)); try lia;
      rewrite ?(class_norm_scale m K2 C2 (half1 (vertex s)) c) by (reflexivity || (cbn; lia));
      rewrite ?(class_norm_scale m K3 C3 (half1 (vertex s)) c) by (reflexivity || (cbn; lia)); ring.
Qed.
Print Assumptions C90_max_norm_partial.
Example C90_max_norm_partial_hyp : (1 <= max_diag_class dflt <= 3)%Z /\ measured dflt (LK CA C2 0) /\ entry (st1 (3, 4) (0, 0)) (LK CA C2 0) = Some (3, 4).
Proof. split; [cbn; lia|]. split; [cbn; lia|reflexivity]. Qed.
(** the irreducible part and the class K2b of the debug build are not measured at all *)
Definition with_irred (s : state) (i : marray comp) : state :=
  let v := half1 (vertex s) in State (Lambda s) (Genvertex (Fullvert i (avertex v) (pvertex v) (tvertex v)) (half2 (vertex s))) (selfenergy s).
Definition with_k2b (s : state) (b : buffer) : state :=
  let v := half1 (vertex s) in let r := avertex v in
  State (Lambda s) (Genvertex (Fullvert (irred v) (Rvert (K1 r) (K2 r) b (K3 r)) (pvertex v) (tvertex v)) (half2 (vertex s))) (selfenergy s).
Theorem C90_unmeasured_refuted : forall m s i b, st_norm m (with_irred s i) = st_norm m s /\ st_norm m (with_k2b s b) = st_norm m s.
Proof. split; reflexivity. Qed.
Print Assumptions C90_unmeasured_refuted.
Lemma dflt_range : (1 <= max_diag_class dflt <= 3)%Z. Proof. cbn. lia. Qed.
Example C90_unmeasured_refuted_hyp : entry (with_irred (st1 (0, 0) (0, 0)) (Marray [1%Z] [1%Z] [(7, 0)])) (LIrred 0) = Some (7, 0) /\ st_norm dflt (st1 (0, 0) (0, 0)) = 0.
Proof.
  split; [reflexivity|]. replace (st1 (0, 0) (0, 0)) with (st_scale dflt (st1 (0, 0) (0, 0)) 0).
  - rewrite (proj2 (proj2 (C90_max_norm_partial dflt (st1 (0, 0) (0, 0)) 0 dflt_range))). rewrite Rabs_R0. ring.
  - apply st_eq; try reflexivity; cbn.
    + unfold buf_map, amap, one. cbn. unfold cscale. cbn. rewrite Rmult_0_l. reflexivity.
    + unfold cscale. cbn. rewrite Rmult_0_l. reflexivity.
    + unfold amap. cbn. unfold cscale. cbn. rewrite Rmult_0_l. reflexivity.
    + intros [| |] [| | |]; cbn; unfold buf_map, amap, one, cscale; cbn; rewrite Rmult_0_l; reflexivity.
Qed.
(** the norm used for the convergence of the parquet iteration is zero for vertices of any size: the squares of the complex
    numbers are added *)
Definition cI (z : comp) : comp := (- snd z, fst z).
Definition cancelling (z : comp) : genvertex := Genvertex (Fullvert (Marray [1%Z] [1%Z] [(0, 0)]) (rv1 z) (rv1 (cI z)) (rv1 (0, 0))) None.
Theorem C90_two_norm_refuted : forall m z, gv_norm m (cancelling z) = 0.
Proof.
  intros m z. assert (E : forall k q, k = in_class q -> norm_class2 k (half1 (cancelling z)) = 0).
  { intros k q ->. unfold norm_class2. cbn [cancelling half1 avertex pvertex tvertex].
    assert (N : forall x, m_elements (b_data (in_class q (rv1 x))) = [x]) by (intros x; destruct q; reflexivity). rewrite !N. cbn [map zip2 csum fold_left].
    replace (cadd (0, 0) (cadd (cadd (csq z) (csq (cI z))) (csq (0, 0)))) with (0, 0).
    - unfold cabs. cbn [fst snd]. replace (0 * 0 + 0 * 0) with 0 by ring. rewrite sqrt_0. apply sqrt_0.
    - apply comp_eq; unfold csum, cadd, csq, cmul, cI; cbn; ring. }
  unfold gv_norm, sum_norm_with. cbv zeta. rewrite (E K1 C1 eq_refl), (E K2 C2 eq_refl), (E K3 C3 eq_refl). cbn [cancelling half2].
  destruct (0 <=? _)%Z, (2 <=? _)%Z, (3 <=? _)%Z; ring.
Qed.
Print Assumptions C90_two_norm_refuted.
Example C90_two_norm_refuted_hyp : fv_entry (half1 (cancelling (1000, 0))) (LK CA C1 0) = Some (1000, 0). Proof. reflexivity. Qed.

(** ** C92: data on different grids *)
Theorem C92_rejected_partial : forall m f b c d u v, ndebug m = false -> buf_zip m f b c = Some d ->
  (nth_error (b_grids b) 0 = Some u /\ nth_error (b_grids c) 0 = Some v \/ nth_error (b_grids b) 1 = Some u /\ nth_error (b_grids c) 1 = Some v) -> near u v.
Proof.
  intros m f b c d u v N H G. unfold buf_zip in H. destruct (check_grids m b c) eqn:E; [|discriminate]. clear H. unfold check_grids in E. rewrite N in E.
  destruct (b_grids b) as [|u1 [|u2 gu]], (b_grids c) as [|v1 [|v2 gv]]; try discriminate.
  - destruct G as [[A B]|[A B]]; [|discriminate]. injection A as <-. injection B as <-. apply grid_check_near. destruct u0. exact E.
  - destruct (grid_check u1 v1) as [[]|] eqn:E1; [|discriminate]. cbn [obind] in E. destruct u0.
    destruct G as [[A B]|[A B]]; injection A as <-; injection B as <-; apply grid_check_near; assumption.
Qed.
Print Assumptions C92_rejected_partial.
Example C92_rejected_partial_hyp : exists d, buf_zip dflt cadd (two (1, 2) (3, 4)) (two (5, 6) (7, 8)) = Some d /\ nth_error (b_grids (two (1, 2) (3, 4))) 0 = Some gr0.
Proof. eexists. split; [apply buf_zip_ok; apply C47_evaluation_hyp|reflexivity]. Qed.
(** the third grid is not compared, and in a release build (NDEBUG) no grid is *)
Theorem C92_third_grid_refuted : forall m f b c g1 g2 u v, b_grids b = [g1; g2; u] -> b_grids c = [g1; g2; v] -> same_shape (b_data b) (b_data c) ->
  exists d, buf_zip m f b c = Some d.
Proof.
  intros m f b c g1 g2 u v B C Sh. exists (bz f b c). unfold buf_zip. assert (check_grids m b c = Some tt) as ->.
  { unfold check_grids. rewrite B, C. destruct (ndebug m); [reflexivity|]. rewrite (proj1 (grid_check_near g1 g1) (near_refl g1)). cbn [obind].
    apply grid_check_near. apply near_refl. }
  cbn [obind]. rewrite azip_ok by exact Sh. reflexivity.
Qed.
Print Assumptions C92_third_grid_refuted.
Example C92_third_grid_refuted_hyp : same_shape (b_data (one [gr0; gr0; gr0] (1, 2))) (b_data (one [gr0; gr0; gr1] (3, 4))) /\ ~ near gr0 gr1.
Proof.
  split; [split; reflexivity|]. intros H. unfold near in H. cbn [gr0 gr1 g_freqs] in H. assert (Rabs (1 - 5) <= / 10 ^ 10) as H3. { inversion H as [|? ? ? ? _ T]. inversion T. assumption. }
  replace (1 - 5) with (-4) in H3 by ring. rewrite Rabs_left in H3 by lra. assert (/ 10 ^ 10 < 1); [|lra]. rewrite <- Rinv_1. apply Rinv_lt_contravar; cbn; lra.
Qed.
Theorem C92_release_refuted : forall m f b c, ndebug m = true -> same_shape (b_data b) (b_data c) -> exists d, buf_zip m f b c = Some d.
Proof.
  intros m f b c N Sh. exists (bz f b c). unfold buf_zip, check_grids. rewrite N. cbn [obind]. rewrite azip_ok by exact Sh. reflexivity.
Qed.
Print Assumptions C92_release_refuted.
Example C92_release_refuted_hyp : same_shape (b_data (one [gr0] (1, 2))) (b_data (one [gr1] (3, 4))).
Proof. split; reflexivity. Qed.
