From Coq Require Import Reals Lra.
From Verif Require Import Prelude Idx_Model Idx_Proofs Arr_Model Interp_Model State_Model State_Spec State_Proofs State_Props Mix_Model Mix_Spec Mix_Proofs.
From Verif Require Vec_Proofs.
Open Scope R_scope.

(** ** adding states, whatever their grids *)
Lemma zip_class m f r s u k : rv_zip m f r s = Some u -> class_active m k -> buf_zip m f (in_class k r) (in_class k s) = Some (in_class k u).
Proof.
  unfold rv_zip, obind. intros H A.
  destruct (if (0 <? max_diag_class m)%Z then _ else _) as [k1|] eqn:E1; [|discriminate].
  destruct (if (1 <? max_diag_class m)%Z then _ else _) as [k2|] eqn:E2; [|discriminate].
  destruct (if debug_symmetries m && (1 <? max_diag_class m)%Z then _ else _) as [k2b|] eqn:E3; [|discriminate].
  destruct (if (2 <? max_diag_class m)%Z then _ else _) as [k3|] eqn:E4; [|discriminate].
  injection H as <-. destruct k; cbn [class_active] in A; cbn [in_class K1 K2 K2b K3].
  - replace (0 <? max_diag_class m)%Z with true in E1 by (symmetry; apply Z.ltb_lt; lia). exact E1.
  - replace (1 <? max_diag_class m)%Z with true in E2 by (symmetry; apply Z.ltb_lt; lia). exact E2.
  - destruct A as (A & B). rewrite A in E3. replace (1 <? max_diag_class m)%Z with true in E3 by (symmetry; apply Z.ltb_lt; lia). exact E3.
  - replace (2 <? max_diag_class m)%Z with true in E4 by (symmetry; apply Z.ltb_lt; lia). exact E4.
Qed.
Lemma azip_entry f a b c i : azip f a b = Some c -> nth_error (m_elements c) i = lift2 f (nth_error (m_elements a) i) (nth_error (m_elements b) i).
Proof.
  intros H. pose proof (azip_shape _ _ _ _ H) as Sh. rewrite (azip_ok f a b Sh) in H. injection H as <-. cbn. apply zip2_nth. apply Sh.
Qed.
Lemma add_entry m s t u l : st_add m s t = Some u -> active m l -> entry u l = lift2 cadd (entry s l) (entry t l).
Proof.
  unfold st_add, st_zip, obind. intros H A.
  destruct (gv_add m (vertex s) (vertex t)) as [v|] eqn:E; [|discriminate].
  destruct (se_zip m cadd (selfenergy s) (selfenergy t)) as [e|] eqn:E'; [|discriminate]. injection H as <-.
  unfold se_zip, obind in E'. destruct (buf_zip m cadd _ _) as [b|] eqn:B in E'; [|discriminate]. injection E' as <-.
  unfold gv_add, gv_zip_with, obind in E. destruct (fv_zip m cadd _ _) as [h|] eqn:F in E; [|discriminate].
  assert (Hv : half1 v = h).
  { destruct (half2 (vertex s)), (half2 (vertex t)); try discriminate; [destruct (fv_zip m cadd f f0); [|discriminate]|]; injection E as <-; reflexivity. }
  unfold fv_zip, obind in F.
  destruct (azip cadd _ _) as [i|] eqn:F1 in F; [|discriminate]. destruct (rv_zip m cadd (avertex _) _) as [a|] eqn:Fa; [|discriminate].
  destruct (rv_zip m cadd (pvertex _) _) as [p|] eqn:Fp; [|discriminate]. destruct (rv_zip m cadd (tvertex _) _) as [t'|] eqn:Ft; [|discriminate].
  injection F as <-. destruct l as [j| |j|c k j]; cbn [entry selfenergy vertex Sigma asymp].
  - apply (buf_zip_entry m cadd _ _ _ j B).
  - reflexivity.
  - rewrite Hv. cbn. apply azip_entry. exact F1.
  - rewrite Hv. cbn [fv_entry]. apply (buf_zip_entry m). cbn [active] in A.
    destruct c; cbn [in_channel avertex pvertex tvertex]; (apply zip_class; [assumption|exact A]).
Qed.

(** ** C49 *)
Theorem C49_empty_rejected : forall b inverse n zeta rhs steps, anderson_update b inverse n zeta rhs steps = Rejected <-> rhs = [].
Proof.
  intros b inverse n zeta rhs steps. split; [|intros ->; reflexivity]. destruct rhs as [|r rhs]; [reflexivity|]. unfold anderson_update.
  destruct (coefficients inverse n (r :: rhs) steps) as [a|]; [|discriminate]. unfold finish.
  destruct a; [discriminate|]. destruct steps; [discriminate|]. destruct (d <- damped b zeta r s ;; _); discriminate.
Qed.
Print Assumptions C49_empty_rejected.

Lemma mat_vec_length m x : length (mat_vec m x) = length m. Proof. apply map_length. Qed.
Lemma diff_length e : length (colwise_difference e) = (length e - 1)%nat.
Proof.
  unfold colwise_difference. induction e as [|x e IH]; [reflexivity|]. destruct e as [|y e]; [reflexivity|].
  change (length (zip2 csub y x :: colwise_difference (y :: e)) = (length (x :: y :: e) - 1)%nat). unfold colwise_difference. cbn [length]. rewrite IH. cbn. lia.
Qed.
Lemma error_matrix_length n z : forall rhs steps e, error_matrix n z rhs steps = Some e -> length e = length rhs.
Proof.
  induction rhs as [|r rhs IH]; intros [|t steps] e H; cbn in H; try discriminate; try (injection H as <-; reflexivity).
  destruct (error_column n z r t); [|discriminate]. cbn in H. destruct (error_matrix n z rhs steps) as [l'|] eqn:E; [|discriminate]. injection H as <-.
  cbn. f_equal. apply (IH _ _ E).
Qed.
(** the matrix returned by a routine that inverts an m times m matrix has m rows *)
Lemma inverts_length inverse m i : inverts inverse -> inverse m = Some i -> forall x, length x = length m -> mat_vec m (mat_vec i x) = x.
Proof. intros H E x L. apply (H m i x E L). Qed.

Definition square (inverse : list (list R) -> option (list (list R))) : Prop := forall m i, inverse m = Some i -> length i = length m.
Lemma coefficients_cases inverse n rhs steps alpha : square inverse -> coefficients inverse n rhs steps = Some alpha ->
  (exists r, rhs = [r] /\ alpha = [1]) \/
  (exists z e x e' i, error_matrix n z rhs steps = Some e /\ e = x :: e' /\ e' <> [] /\ inverse (normal_matrix (colwise_difference e)) = Some i /\
     let g := mat_vec i (normal_rhs (colwise_difference e) (map (fun y => cscale y (-1)) x)) in length g = length e' /\ alpha = alph 1 g).
Proof.
  intros Sq H. destruct rhs as [|r [|r' rhs]]; [discriminate| |].
  - left. exists r. cbn in H. injection H as <-. auto.
  - right. cbn [coefficients] in H. unfold obind in H. destruct (getFlatSize _) as [z|]; [|discriminate].
    destruct (error_matrix n (Z.to_nat z) (r :: r' :: rhs) steps) as [e|] eqn:E; [|discriminate].
    pose proof (error_matrix_length _ _ _ _ _ E) as L. destruct e as [|x [|y e]]; try discriminate. cbn [nth_error] in H.
    unfold ordinary_least_squares, obind in H. destruct (inverse _) as [i|] eqn:I; [|discriminate].
    exists (Z.to_nat z), (x :: y :: e), x, (y :: e), i. split; [exact E|]. split; [reflexivity|]. split; [discriminate|]. split; [exact I|]. cbv zeta.
    set (g := mat_vec _ _) in *. assert (Lg : length g = length (y :: e)).
    { unfold g. rewrite mat_vec_length, (Sq _ _ I). unfold normal_matrix. rewrite map_length, diff_length. cbn. lia. }
    split; [exact Lg|]. replace (length (r :: r' :: rhs)) with (S (length g)) in H by (rewrite Lg; cbn in *; lia).
    rewrite coefficients_alph in H by (intros ->; discriminate). injection H as <-. reflexivity.
Qed.
Lemma update_coefficients b inverse n zeta rhs steps alpha s : anderson_update b inverse n zeta rhs steps = Mixed alpha s ->
  coefficients inverse n rhs steps = Some alpha /\ finish b zeta rhs steps alpha = Mixed alpha s.
Proof.
  unfold anderson_update. destruct rhs; [discriminate|]. destruct (coefficients _ _ _ _) as [a|]; [|discriminate]. intros H.
  assert (a = alpha). { unfold finish in H. destruct a, steps; try discriminate. destruct (d <- _ ;; _); [|discriminate]. injection H as <- _. reflexivity. }
  subst. auto.
Qed.

Theorem C49_sum_one : forall b inverse n zeta rhs steps alpha s, square inverse ->
  anderson_update b inverse n zeta rhs steps = Mixed alpha s -> length alpha = length rhs /\ sumR alpha = 1.
Proof.
  intros b inverse n zeta rhs steps alpha s Sq H. apply update_coefficients in H. destruct H as (H & _).
  destruct (coefficients_cases _ _ _ _ _ Sq H) as [(r & -> & ->)|(z & e & x & e' & i & E & -> & _ & _ & L & ->)].
  - cbn. split; [reflexivity|ring].
  - rewrite alph_length, alph_sum. split; [|reflexivity]. pose proof (error_matrix_length _ _ _ _ _ E) as L'. cbn in L'. rewrite L. exact L'.
Qed.
Print Assumptions C49_sum_one.

Lemma damped_entry b zeta r t d l x y : damped b zeta r t = Some d -> active b l -> entry r l = Some x -> entry t l = Some y ->
  entry d l = Some (cadd (cscale x zeta) (cscale y (1 - zeta))).
Proof. intros H A X Y. rewrite (add_entry _ _ _ _ _ H A), !scale_entry by exact A. rewrite X, Y. reflexivity. Qed.
Lemma accumulate_entry b zeta l : active b l -> forall alpha rhs steps xs ys res x s,
  Forall2 (fun st v => entry st l = Some v) rhs xs -> Forall2 (fun st v => entry st l = Some v) steps ys ->
  length alpha = length rhs -> entry res l = Some x -> accumulate b zeta res alpha rhs steps = Some s ->
  entry s l = Some (cadd x (mixed_value zeta alpha xs ys)).
Proof.
  intros A. induction alpha as [|a alpha IH]; intros rhs steps xs ys res x s X Y L R H.
  - destruct rhs; [|discriminate]. cbn in H. injection H as <-. rewrite R. apply (f_equal (@Some comp)). cbn. ceq.
  - destruct rhs as [|r rhs]; [discriminate|]. destruct steps as [|t steps]; [discriminate|]. cbn in H.
    inversion X as [|? vx ? xs' X1 X2]; subst. inversion Y as [|? vy ? ys' Y1 Y2]; subst.
    destruct (damped b zeta r t) as [d|] eqn:D; [|discriminate]. cbn in H. destruct (st_add b res (st_scale b d a)) as [u|] eqn:U; [|discriminate]. cbn in H.
    rewrite (IH rhs steps xs' ys' u (cadd x (cscale (cadd (cscale vx zeta) (cscale vy (1 - zeta))) a)) s X2 Y2); [|cbn in L; lia| |exact H].
    + apply (f_equal (@Some comp)). cbn. ceq.
    + rewrite (add_entry _ _ _ _ _ U A), scale_entry by exact A. rewrite R, (damped_entry _ _ _ _ _ _ _ _ D A X1 Y1). reflexivity.
Qed.
(** every stored number of the result is the combination of the stored numbers of the history *)
Theorem C49_combination : forall b inverse n zeta rhs steps alpha s l xs ys, square inverse ->
  anderson_update b inverse n zeta rhs steps = Mixed alpha s -> active b l ->
  Forall2 (fun st v => entry st l = Some v) rhs xs -> Forall2 (fun st v => entry st l = Some v) steps ys ->
  entry s l = Some (mixed_value zeta alpha xs ys).
Proof.
  intros b inverse n zeta rhs steps alpha s l xs ys Sq H A X Y. pose proof (C49_sum_one _ _ _ _ _ _ _ _ Sq H) as (L & _).
  apply update_coefficients in H. destruct H as (_ & H). unfold finish in H.
  destruct alpha as [|a alpha]; [discriminate|]. destruct rhs as [|r rhs]; [discriminate|]. destruct steps as [|t steps]; [discriminate|].
  inversion X as [|? vx ? xs' X1 X2]; subst. inversion Y as [|? vy ? ys' Y1 Y2]; subst.
  destruct (damped b zeta r t) as [d|] eqn:D; [|discriminate]. cbn [obind] in H.
  destruct (accumulate _ _ _ _ _ _) as [u|] eqn:U in H; [|discriminate]. injection H as <-.
  rewrite (accumulate_entry b zeta l A alpha rhs steps xs' ys' (st_scale b d a) (cscale (cadd (cscale vx zeta) (cscale vy (1 - zeta))) a) u X2 Y2).
  - reflexivity.
  - cbn in L. lia.
  - rewrite scale_entry by exact A. rewrite (damped_entry _ _ _ _ _ _ _ _ D A X1 Y1). reflexivity.
  - exact U.
Qed.
Print Assumptions C49_combination.

(** whatever all states of the history agree on is kept *)
Theorem C49_agreement : forall b inverse n zeta rhs steps alpha s l x, square inverse ->
  anderson_update b inverse n zeta rhs steps = Mixed alpha s -> active b l -> length steps = length rhs ->
  (forall st, In st (rhs ++ steps) -> entry st l = Some x) -> entry s l = Some x.
Proof.
  intros b inverse n zeta rhs steps alpha s l x Sq H A Ls All. pose proof (C49_sum_one _ _ _ _ _ _ _ _ Sq H) as (L & S1).
  assert (F : forall sts, (forall st, In st sts -> entry st l = Some x) -> Forall2 (fun st v => entry st l = Some v) sts (repeat x (length sts))).
  { induction sts as [|st sts IH]; intros Q; cbn; constructor; [apply Q; left; reflexivity|apply IH; intros; apply Q; right; assumption]. }
  rewrite (C49_combination _ _ _ _ _ _ _ _ _ (repeat x (length rhs)) (repeat x (length steps)) Sq H A).
  - apply (f_equal (@Some comp)). rewrite Ls. clear - S1 L.
    assert (G : forall k alpha, length alpha = k -> mixed_value zeta alpha (repeat x k) (repeat x k) = cscale x (sumR alpha)).
    { induction k as [|k IH]; intros [|a al] Q; try discriminate; cbn; [ceq|]. rewrite IH by (injection Q; auto). unfold sumR. ceq. }
    rewrite G by exact L. rewrite S1. ceq.
  - apply F. intros st Hs. apply All. apply in_or_app. left. exact Hs.
  - apply F. intros st Hs. apply All. apply in_or_app. right. exact Hs.
Qed.
Print Assumptions C49_agreement.

(** ** the residual is minimal *)
Lemma selfenergy_vector_nth n s v : selfenergy_vector n (selfenergy s) = Some v -> forall k, nth_error v k = full_selfenergy n s k.
Proof.
  unfold selfenergy_vector, full_selfenergy. cbn [entry]. set (w := m_elements _). destruct (n <=? length w)%nat eqn:E; [|discriminate].
  intros H k. injection H as <-. apply Nat.leb_le in E. assert (Lf : length (map (fun x => cadd x (asymp (selfenergy s))) (firstn n w)) = n) by (rewrite map_length, firstn_length; lia).
  destruct (k <? n)%nat eqn:K.
  - apply Nat.ltb_lt in K. rewrite nth_error_app1 by lia. rewrite nth_error_map.
    replace (nth_error (firstn n w) k) with (nth_error w k). { destruct (nth_error w k); reflexivity. }
    rewrite <- (firstn_skipn n w) at 1. rewrite nth_error_app1; [reflexivity|]. rewrite firstn_length. lia.
  - apply Nat.ltb_ge in K. rewrite nth_error_app2 by lia. rewrite Lf.
    rewrite <- (firstn_skipn n w) at 2. rewrite nth_error_app2 by (rewrite firstn_length; lia). f_equal. rewrite firstn_length. lia.
Qed.
Lemma error_column_residual n z r t c : error_column n z r t = Some c -> is_residual n r t c /\ length c = z.
Proof.
  unfold error_column, obind. destruct (selfenergy_vector n (selfenergy r)) as [u|] eqn:U; [|discriminate].
  destruct (selfenergy_vector n (selfenergy t)) as [v|] eqn:V; [|discriminate].
  destruct (_ && _)%bool eqn:B; [|discriminate]. intros H. injection H as <-. apply andb_prop in B. destruct B as (B1 & B2).
  apply Nat.eqb_eq in B1, B2. split; [|rewrite zip2_length; congruence]. intros k. rewrite zip2_nth by exact B1.
  rewrite (selfenergy_vector_nth n r u U), (selfenergy_vector_nth n t v V). reflexivity.
Qed.
Lemma error_matrix_residual n z : forall rhs steps e, error_matrix n z rhs steps = Some e -> sized z e /\
  forall k r t c, nth_error rhs k = Some r -> nth_error steps k = Some t -> nth_error e k = Some c -> is_residual n r t c.
Proof.
  induction rhs as [|r rhs IH]; intros [|t steps] e H; cbn in H; try discriminate;
    try (injection H as <-; split; [constructor|intros [|k]; discriminate]).
  destruct (error_column n z r t) as [c|] eqn:C; [|discriminate]. cbn in H. destruct (error_matrix n z rhs steps) as [l'|] eqn:E; [|discriminate]. injection H as <-.
  destruct (error_column_residual _ _ _ _ _ C) as (A & B). destruct (IH _ _ E) as (D & F). split; [constructor; assumption|].
  intros [|k] r' t' c' R T Q; cbn in *; [injection R as <-; injection T as <-; injection Q as <-; exact A|]. apply (F k); assumption.
Qed.
(** residuals are determined by the states *)
Lemma residual_unique n r t c d : is_residual n r t c -> is_residual n r t d -> c = d.
Proof. intros A B. apply Vec_Proofs.nth_error_ext. intros k. rewrite (A k), (B k). reflexivity. Qed.

Theorem C49_minimal : forall b inverse n zeta rhs steps alpha s es, square inverse -> inverts inverse ->
  anderson_update b inverse n zeta rhs steps = Mixed alpha s ->
  length es = length rhs -> length steps = length rhs ->
  (forall k r t e, nth_error rhs k = Some r -> nth_error steps k = Some t -> nth_error es k = Some e -> is_residual n r t e) ->
  forall z, (forall e, In e es -> length e = z) ->
  forall beta, length beta = length rhs -> sumR beta = 1 -> norm2 (weighted z alpha es) <= norm2 (weighted z beta es).
Proof.
  intros b inverse n zeta rhs steps alpha s es Sq Iv H Le Ls Res z Z beta Lb Sb. apply update_coefficients in H. destruct H as (H & _).
  destruct (coefficients_cases _ _ _ _ _ Sq H) as [(r & -> & ->)|(z' & e & x & e' & i & E & Ee & Ne & I & L & ->)].
  - destruct beta as [|c [|]]; try discriminate. cbn in Sb. replace c with 1 by lra. apply Rle_refl.
  - destruct (error_matrix_residual _ _ _ _ _ E) as (Sz & Res'). pose proof (error_matrix_length _ _ _ _ _ E) as Lm.
    assert (EQ : es = e).
    { apply Vec_Proofs.nth_error_ext. intros k. destruct (nth_error es k) as [c|] eqn:C.
      - assert (Hk : (k < length es)%nat) by (apply nth_error_Some; rewrite C; discriminate).
        destruct (nth_error e k) as [d|] eqn:D; [|apply nth_error_None in D; lia].
        destruct (nth_error rhs k) as [r|] eqn:R; [|apply nth_error_None in R; lia].
        destruct (nth_error steps k) as [t|] eqn:T; [|apply nth_error_None in T; lia].
        f_equal. apply (residual_unique n r t); [apply (Res k); assumption|apply (Res' k); assumption].
      - symmetry. apply nth_error_None. apply nth_error_None in C. lia. }
    subst es e. assert (z' = z). { inversion Sz as [|? ? A B]; subst. apply Z. left. reflexivity. } subst z'.
    destruct (alph_onto beta 1) as (h & Lh & ->); [intros ->; cbn in *; lia|exact Sb|].
    set (g := mat_vec i _) in *.
    assert (Lh' : length h = length e') by (rewrite alph_length in *; cbn in Lm; lia).
    rewrite !weighted_alph by (assumption || (rewrite ?L; assumption)).
    replace (map (fun x0 : comp => cscale x0 1) x) with x by (symmetry; rewrite <- (map_id x) at 2; apply map_ext; intros; ceq).
    assert (Ld : length (colwise_difference (x :: e')) = length e') by (rewrite diff_length; cbn; lia).
    apply normal_minimal.
    + apply sized_diff. exact Sz.
    + inversion Sz; assumption.
    + congruence.
    + congruence.
    + unfold g. apply (Iv _ _ _ I). unfold normal_rhs, normal_matrix. rewrite !map_length. reflexivity.
Qed.
Print Assumptions C49_minimal.

(** ** the update is defined for compatible histories once the coefficients are *)
Lemma compatible_tl l s : compatible (s :: l) -> compatible l.
Proof. intros H a c A B. apply H; right; assumption. Qed.
Lemma damped_ok b zeta r t : matching r t -> damped b zeta r t = Some (sz b cadd (st_scale b r zeta) (st_scale b t (1 - zeta))).
Proof. intros M. apply st_add_ok. apply matching_scale_l, matching_scale_r. exact M. Qed.
Lemma damped_match_r b zeta r t u : matching u r -> matching r t -> matching u (sz b cadd (st_scale b r zeta) (st_scale b t (1 - zeta))).
Proof. intros A B. apply matching_r; [apply matching_scale_r; exact A|apply matching_scale_l, matching_scale_r; exact B]. Qed.
Lemma accumulate_ok b zeta : forall alpha rhs steps res, length alpha = length rhs -> length steps = length rhs ->
  (forall r t, In r rhs -> In t steps -> matching r t) -> (forall r, In r rhs -> matching res r) -> exists s, accumulate b zeta res alpha rhs steps = Some s.
Proof.
  induction alpha as [|a alpha IH]; intros [|r rhs] [|t steps] res La Ls M Mr; try discriminate; [exists res; reflexivity|]. cbn.
  assert (RT : matching r t) by (apply M; left; reflexivity). assert (Rr : matching res r) by (apply Mr; left; reflexivity).
  rewrite (damped_ok b zeta r t RT). cbn. set (d := sz b cadd _ _).
  assert (Md : matching res (st_scale b d a)) by (apply matching_scale_r, damped_match_r; assumption).
  rewrite (st_add_ok b res _ Md). cbn. apply IH; [cbn in *; lia|cbn in *; lia|intros; apply M; right; assumption|].
  intros r' Hr'. apply matching_l; [apply Mr; right; exact Hr'|exact Md].
Qed.
Theorem C49_defined : forall b inverse n zeta rhs steps alpha, square inverse -> length steps = length rhs -> compatible (rhs ++ steps) ->
  coefficients inverse n rhs steps = Some alpha -> exists s, anderson_update b inverse n zeta rhs steps = Mixed alpha s.
Proof.
  intros b inverse n zeta rhs steps alpha Sq Ls M H.
  assert (La : length alpha = length rhs).
  { destruct (coefficients_cases _ _ _ _ _ Sq H) as [(r & -> & ->)|(z & e & x & e' & i & E & -> & _ & _ & L & ->)]; [reflexivity|].
    rewrite alph_length, L. apply error_matrix_length in E. exact E. }
  destruct rhs as [|r rhs]; [discriminate|]. unfold anderson_update. rewrite H. destruct steps as [|t steps]; [discriminate|].
  destruct alpha as [|a alpha]; [discriminate|]. unfold finish.
  assert (Mm : forall x y, In x (r :: rhs) -> In y (t :: steps) -> matching x y) by (intros; apply M; apply in_or_app; auto).
  assert (Mrr : forall x y, In x (r :: rhs) -> In y (r :: rhs) -> matching x y) by (intros; apply M; apply in_or_app; auto).
  rewrite (damped_ok b zeta r t) by (apply Mm; left; reflexivity). cbn [obind].
  destruct (accumulate_ok b zeta alpha rhs steps (st_scale b (sz b cadd (st_scale b r zeta) (st_scale b t (1 - zeta))) a)) as (s & E).
  - cbn in La. lia.
  - cbn in Ls. lia.
  - intros; apply Mm; right; assumption.
  - intros x Hx. apply matching_scale_l. apply matching_l; [apply matching_scale_l; apply Mrr; [left; reflexivity|right; exact Hx]|].
    apply matching_scale_l, matching_scale_r. apply Mm; left; reflexivity.
  - rewrite E. exists s. reflexivity.
Qed.
Print Assumptions C49_defined.

(** ** fixed points *)
Theorem C49_single_fixed_point_partial : forall b inverse n zeta s, matching s s -> anderson_update b inverse n zeta [s] [s] = Mixed [1] s.
Proof.
  intros b inverse n zeta s M. pose proof M as (N & _). cbn. rewrite (damped_ok b zeta s s M). cbn. rewrite <- sz_sum by exact N.
  replace (zeta + (1 - zeta)) with 1 by ring. rewrite (scale_1 b s N). rewrite (scale_1 b s N). reflexivity.
Qed.
Print Assumptions C49_single_fixed_point_partial.

Lemma inner_zero_l n v : inner (repeat (0, 0) n) v = 0. Proof. rewrite inner_sym. apply inner_zero. Qed.
Lemma zero_singular inverse z D : inverts inverse -> In (repeat (0, 0) z) D -> inverse (normal_matrix D) = None.
Proof.
  intros Iv H. destruct (inverse (normal_matrix D)) as [i|] eqn:E; [|reflexivity]. exfalso.
  assert (L : length (repeat 1 (length D)) = length (normal_matrix D)) by (unfold normal_matrix; rewrite map_length, repeat_length; reflexivity).
  pose proof (Iv _ _ _ E L) as Q. set (y := mat_vec i _) in Q. clearbody y.
  assert (In 0 (repeat 1 (length D))).
  { rewrite <- Q. unfold mat_vec, normal_matrix. rewrite map_map. apply in_map_iff. exists (repeat (0, 0) z). split; [|exact H].
    clear. revert y. induction D as [|d D IH]; intros [|c y]; try reflexivity. cbn [map zip2]. rewrite inner_zero_l.
    change (0 * c + sumR (zip2 Rmult (map (inner (repeat (0, 0) z)) D) y) = 0). rewrite IH. ring. }
  apply repeat_spec in H0. lra.
Qed.
Lemma vsub_self (v : list comp) : zip2 csub v v = repeat (0, 0) (length v).
Proof. induction v as [|x v IH]; [reflexivity|]. cbn. rewrite IH. f_equal. ceq. Qed.
Lemma repeated_singular inverse : inverts inverse -> forall p x q, inverse (normal_matrix (colwise_difference (p ++ x :: x :: q))) = None.
Proof.
  intros Iv p x q. apply (zero_singular inverse (length x)); [exact Iv|]. induction p as [|a p IH].
  - cbn [app]. rewrite diff_cons, vsub_self. left. reflexivity.
  - cbn [app]. destruct (p ++ x :: x :: q) as [|b l] eqn:E; [destruct p; discriminate|]. rewrite diff_cons. right. exact IH.
Qed.
Lemma no_inverse_undefined b inverse n zeta rhs steps : (2 <= length rhs)%nat ->
  (forall z e, error_matrix n z rhs steps = Some e -> inverse (normal_matrix (colwise_difference e)) = None) ->
  anderson_update b inverse n zeta rhs steps = Undefined.
Proof.
  intros L H. destruct rhs as [|r [|r' rhs]]; cbn in L; try lia. unfold anderson_update. cbn [coefficients]. unfold obind.
  destruct (getFlatSize _) as [z|]; [|reflexivity]. destruct (error_matrix _ _ _ _) as [e|] eqn:E; [|reflexivity].
  destruct (nth_error e 0); [|reflexivity]. unfold ordinary_least_squares, obind. rewrite (H _ _ E). reflexivity.
Qed.
(** a history of two or more fixed points (right-hand side equal to the argument) gives no numbers *)
Theorem C49_fixed_points_refuted : forall b inverse n zeta rhs, inverts inverse -> (2 <= length rhs)%nat ->
  anderson_update b inverse n zeta rhs rhs = Undefined.
Proof.
  intros b inverse n zeta rhs Iv L. apply no_inverse_undefined; [exact L|]. intros z e E.
  assert (A : forall rhs e, error_matrix n z rhs rhs = Some e -> Forall (fun c => c = repeat (0, 0) z) e).
  { clear. induction rhs as [|r rhs IH]; intros e E; cbn in E; [injection E as <-; constructor|].
    destruct (error_column n z r r) as [c|] eqn:C; [|discriminate]. cbn in E. destruct (error_matrix n z rhs rhs) as [l|] eqn:F; [|discriminate]. injection E as <-.
    constructor; [|apply IH; reflexivity]. unfold error_column, obind in C. destruct (selfenergy_vector n (selfenergy r)) as [u|]; [|discriminate].
    destruct (_ && _)%bool eqn:B in C; [|discriminate]. injection C as <-. apply andb_prop in B. destruct B as (_ & B). apply Nat.eqb_eq in B. rewrite vsub_self, B. reflexivity. }
  pose proof (error_matrix_length _ _ _ _ _ E) as Le. apply A in E. destruct e as [|x [|y e]]; cbn in Le; try lia.
  inversion E as [|? ? X E']; subst. inversion E' as [|? ? Y _]; subst. apply (repeated_singular inverse Iv [] _ e).
Qed.
Print Assumptions C49_fixed_points_refuted.
(** neither does a history in which two consecutive steps are the same *)
Theorem C49_repeated_step_refuted : forall b inverse n zeta p q p' q' r t, inverts inverse -> length p = length p' ->
  anderson_update b inverse n zeta (p ++ r :: r :: q) (p' ++ t :: t :: q') = Undefined.
Proof.
  intros b inverse n zeta p q p' q' r t Iv L. apply no_inverse_undefined; [rewrite app_length; cbn; lia|]. intros z e E.
  assert (exists h x l, e = h ++ x :: x :: l) as (h & x & l & ->); [|apply repeated_singular; exact Iv].
  revert p' L e E. induction p as [|a p IH]; intros [|a' p'] L e E; try discriminate.
  - cbn in E. destruct (error_column n z r t) as [c|]; [|discriminate]. cbn in E. destruct (error_matrix n z q q') as [l|]; [|discriminate]. injection E as <-.
    exists [], c, l. reflexivity.
  - cbn in E. destruct (error_column n z a a') as [c|]; [|discriminate]. cbn in E.
    destruct (error_matrix n z (p ++ r :: r :: q) (p' ++ t :: t :: q')) as [l|] eqn:F; [|discriminate]. injection E as <-.
    destruct (IH p' ltac:(injection L; auto) l F) as (h & x & l' & ->). exists (c :: h), x, l'. reflexivity.
Qed.
Print Assumptions C49_repeated_step_refuted.

(** ** a history of two states *)
Definition inv1 (m : list (list R)) : option (list (list R)) :=
  match m with [[x]] => if Req_EM_T x 0 then None else Some [[/ x]] | _ => None end.
Lemma inv1_square : square inv1.
Proof. intros m i H. destruct m as [|[|x [|]] [|]]; try discriminate. cbn in H. destruct (Req_EM_T x 0); [discriminate|]. injection H as <-. reflexivity. Qed.
Lemma inv1_inverts : inverts inv1.
Proof.
  intros m i x H L. destruct m as [|[|y [|]] [|]]; try discriminate. cbn in H. destruct (Req_EM_T y 0); [discriminate|]. injection H as <-.
  destruct x as [|c [|]]; try discriminate. cbn. f_equal. field. assumption.
Qed.
Definition hist_rhs : list state := [st1 (1, 0) (5, 0); st1 (2, 0) (5, 0)].
Definition hist_steps : list state := [st1 (0, 0) (5, 0); st1 (5, 0) (5, 0)].
Lemma hist_ok : compatible (hist_rhs ++ hist_steps).
Proof. intros s t A B. cbn in A, B. intuition subst; apply st1_match. Qed.
Lemma hist_coefficients : coefficients inv1 1 hist_rhs hist_steps = Some [1 - 1 / 4; 1 / 4].
Proof.
  cbn [coefficients hist_rhs]. change (getFlatSize _) with (Some 1%Z). cbn [obind].
  change (Z.to_nat 1) with 1%nat.
  cbv [error_matrix hist_rhs hist_steps error_column selfenergy_vector st1 selfenergy Sigma asymp one b_data m_elements length Nat.leb firstn skipn map app obind zip2 Nat.eqb andb nth_error].
  cbv [ordinary_least_squares colwise_difference tl zip2 normal_matrix map inner sumR fold_right inv1 obind].
  match goal with |- context [Req_EM_T ?a 0] => destruct (Req_EM_T a 0) as [H|H]; [exfalso; cbn in H; lra|] end.
  match goal with |- mixing_coefficients _ ?l = _ => assert (E : l = [1 / 4]) by (cbn; f_equal; field) end.
  rewrite E. reflexivity.
Qed.
Lemma hist_mixed zeta : exists s, anderson_update dflt inv1 1 zeta hist_rhs hist_steps = Mixed [1 - 1 / 4; 1 / 4] s.
Proof. apply C49_defined; [apply inv1_square|reflexivity|apply hist_ok|apply hist_coefficients]. Qed.

Example C49_empty_rejected_hyp : anderson_update dflt inv1 1 1 [] [] = Rejected. Proof. reflexivity. Qed.
Example C49_sum_one_hyp : square inv1 /\ exists s, anderson_update dflt inv1 1 (1 / 2) hist_rhs hist_steps = Mixed [1 - 1 / 4; 1 / 4] s.
Proof. split; [apply inv1_square|apply hist_mixed]. Qed.
Example C49_combination_hyp : active dflt (LK CA C2 0) /\ Forall2 (fun st v => entry st (LK CA C2 0) = Some v) hist_rhs [(1, 0); (2, 0)] /\
  Forall2 (fun st v => entry st (LK CA C2 0) = Some v) hist_steps [(0, 0); (5, 0)] /\ mixed_value 1 [1 - 1 / 4; 1 / 4] [(1, 0); (2, 0)] [(0, 0); (5, 0)] = (5 / 4, 0).
Proof.
  split; [cbn; lia|]. split; [constructor; [reflexivity|constructor; [reflexivity|constructor]]|]. split; [constructor; [reflexivity|constructor; [reflexivity|constructor]]|].
  cbn. apply comp_eq; cbn; field.
Qed.
Example C49_agreement_hyp : active dflt (LIrred 0) /\ forall st, In st (hist_rhs ++ hist_steps) -> entry st (LIrred 0) = Some (5, 0).
Proof. split; [exact I|]. intros st H. cbn in H. intuition subst; reflexivity. Qed.
Example C49_minimal_hyp : square inv1 /\ inverts inv1 /\
  (forall k r t e, nth_error hist_rhs k = Some r -> nth_error hist_steps k = Some t -> nth_error [[(1, 0)]; [(-3, 0)]] k = Some e -> is_residual 1 r t e) /\
  norm2 (weighted 1 [1 - 1 / 4; 1 / 4] [[(1, 0)]; [(-3, 0)]]) = 0 /\ norm2 (weighted 1 [1; 0] [[(1, 0)]; [(-3, 0)]]) = 1.
Proof.
  split; [apply inv1_square|]. split; [apply inv1_inverts|]. split; [|split; cbn; field].
  intros [|[|[|k]]] r t e R T E; cbn in R, T, E; try discriminate; injection R as <-; injection T as <-; injection E as <-;
  (intros [|[|k]]; cbn; try reflexivity; apply (f_equal (@Some comp)); apply comp_eq; cbn; ring).
Qed.
Example C49_defined_hyp : length hist_steps = length hist_rhs /\ compatible (hist_rhs ++ hist_steps) /\ coefficients inv1 1 hist_rhs hist_steps = Some [1 - 1 / 4; 1 / 4].
Proof. split; [reflexivity|]. split; [apply hist_ok|apply hist_coefficients]. Qed.
Example C49_single_fixed_point_partial_hyp : matching (st1 (1, 2) (3, 4)) (st1 (1, 2) (3, 4)). Proof. apply st1_match. Qed.
Example C49_fixed_points_refuted_hyp : inverts inv1 /\ (2 <= length (repeat (st1 (1, 2)%R (3, 4)%R) 4))%nat /\ compatible (repeat (st1 (1, 2) (3, 4)) 4).
Proof. split; [apply inv1_inverts|]. split; [cbn; lia|]. intros s t A B. apply repeat_spec in A, B. subst. apply st1_match. Qed.
Example C49_repeated_step_refuted_hyp : inverts inv1 /\ entry (st1 (2, 0) (0, 0)) (LSigma 0) <> entry (st1 (1, 0) (0, 0)) (LSigma 0).
Proof. split; [apply inv1_inverts|]. cbn. intros H. injection H as H. lra. Qed.
