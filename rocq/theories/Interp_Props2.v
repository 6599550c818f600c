(** C43 (continued), C44, C46, C87, C89. *)
From Coq Require Import Reals Lra.
From Verif Require Import Prelude Idx_Spec Idx_Proofs Arr_Model Arr_Spec Arr_Proofs Grid_Model Grid_Spec Grid_Proofs Grid_Proofs2 Grid_Proofs3 Grid_Props Interp_Model Interp_Spec Interp_Proofs Interp_Proofs2 Interp_Proofs3 Interp_Props.
Open Scope R_scope.

(** examples for the theorems on C43: grid with 3 points -16/15, 0, 16/15 *)
Definition g3 : elias := {| e_form := GKeldysh; e_se := false; e_N := 3; e_upper := 16 / 15; e_lower := - (16 / 15); e_scale := 1;
                            e_center := 0; e_purely_positive := false |}.
Lemma g3_ok : grid_ok g3.
Proof. unfold grid_ok, valid, away, g3; cbn. repeat split; try lra; try lia; discriminate. Qed.
Lemma f2_at x s q : 0 < x -> s * s = x * x * (x * x) + 4 * (x * x) -> 0 <= s -> 0 <= q -> q * q = (s - x * x) / 2 -> grid_transf_v2 x 1 0 = q.
Proof.
  intros Hx Hs Ps Pq Hq. unfold grid_transf_v2. rewrite Rminus_0_r.
  replace (x * x * (x * x) + 4 * (x * x) * 1 * 1) with (s * s) by (rewrite Hs; ring). rewrite sqrt_square by exact Ps. rewrite <- Hq, sqrt_square by exact Pq.
  rewrite sgn_pos by exact Hx. field.
Qed.
Lemma g3_upper : t_upper g3 = 4 / 5.
Proof. unfold t_upper, t_from_frequency, g3. cbn [e_form e_upper e_scale e_center]. apply (f2_at (16 / 15) (544 / 225) (4 / 5)); lra. Qed.
Lemma g3_lower : t_lower g3 = - (4 / 5).
Proof.
  unfold t_lower, t_from_frequency, g3. cbn [e_form e_lower e_scale e_center]. rewrite <- g3_upper. unfold t_upper, t_from_frequency, g3. cbn [e_form e_upper e_scale e_center].
  unfold grid_transf_v2. rewrite !Rminus_0_r. replace (- (16 / 15) * - (16 / 15)) with (16 / 15 * (16 / 15)) by field.
  rewrite sgn_opp. field.
Qed.
Lemma g3_spacing : spacing g3 = 4 / 5.
Proof. unfold spacing. rewrite g3_upper, g3_lower. cbn. lra. Qed.
(** two Keldysh components, 3 x 3 frequencies, one internal index *)
Definition b33 : marray R := mk_marray_buf [2; 3; 3; 1]%Z (map INR (seq 0 18)).
Lemma b33_ok : buffer_ok b33 (map e_N [g3; g3]) [1%Z] 0 [] 1.
Proof.
  split; [apply mk_marray_buf_wf; [discriminate|inrange|vm_compute; reflexivity|vm_compute; reflexivity]|].
  exists [2%Z], 1%Z, []. split; [reflexivity|]. split; [inrange|]. split; [inrange|]. cbn. lia.
Qed.
Ltac pos_eval := unfold at_freqs; match goal with |- context [Z.to_nat ?z] => let n := eval vm_compute in (Z.to_nat z) in change (Z.to_nat z) with n end.
Example C43_between_hyp : (1 <= length [g3; g3] <= 3)%nat /\ buffer_ok b33 (map e_N [g3; g3]) [1%Z] 0 [] 1 /\
  Forall2 (fun g w => grid_ok g /\ inside g w) [g3; g3] [1 / 2; -1 / 3].
Proof.
  split; [cbn; lia|]. split; [exact b33_ok|]. constructor; [split; [exact g3_ok|split; [cbn; lra|exact I]]|].
  constructor; [split; [exact g3_ok|split; [cbn; lra|exact I]]|constructor].
Qed.
Example C43_grid_points_hyp : Forall2 (fun g j => grid_ok g /\ (S j < e_N g)%nat /\ away g (grid_point g j)) [g3; g3] [1; 0]%nat /\
  at_freqs b33 [1%Z] 0 [] 0 (map Z.of_nat [1; 0]%nat) = 12.
Proof.
  split; [|pos_eval; cbn; lra]. constructor; [split; [exact g3_ok|split; [cbn; lia|exact I]]|].
  constructor; [split; [exact g3_ok|split; [cbn; lia|exact I]]|constructor].
Qed.
(** the entries of [b33] are 9 + 3 i + j = 9 + 3 (1 + t1 / (4/5)) + 1 + t2 / (4/5) *)
Example C43_multiaffine_hyp : multiaffine 2 (fun l => 9 + 3 * (1 + nth 0 l 0 / (4 / 5)) + (1 + nth 1 l 0 / (4 / 5))) /\
  forall idx, Forall2 (fun g i => (i < e_N g)%nat) [g3; g3] idx ->
    at_freqs b33 [1%Z] 0 [] 0 (map Z.of_nat idx) =
    (fun l => 9 + 3 * (1 + nth 0 l 0 / (4 / 5)) + (1 + nth 1 l 0 / (4 / 5))) (map (fun p => aux_point (fst p) (snd p)) (combine [g3; g3] idx)).
Proof.
  split.
  - intros l x y s r L. destruct l as [|a [|b l]]; cbn in L.
    + destruct r as [|b [|]]; cbn in L; try lia. cbn. field.
    + destruct r; cbn in L; try lia. cbn. field.
    + lia.
  - intros idx H. inversion H as [|? i ? ? H1 H2]; subst. inversion H2 as [|? j ? ? H3 H4]; subst. inversion H4; subst. cbn in H1, H3.
    cbn [map combine fst snd nth]. rewrite !(aux_point_eq g3 (proj1 g3_ok)) by (cbn; lia). rewrite g3_lower, g3_spacing.
    assert (Ci : i = 0%nat \/ i = 1%nat \/ i = 2%nat) by lia. assert (Cj : j = 0%nat \/ j = 1%nat \/ j = 2%nat) by lia.
    destruct Ci as [->|[->| ->]], Cj as [->|[->| ->]]; pos_eval; cbn; lra.
Qed.
Example C43_faces_hyp : wf b33 /\ in_range ([1%Z] ++ ([0%Z] ++ 0%Z :: []) ++ 0%Z :: []) (m_length b33) /\
  in_range ([1%Z] ++ map (fun x => x + 1)%Z ([0%Z] ++ (0 + 1)%Z :: []) ++ 0%Z :: []) (m_length b33).
Proof. split; [apply b33_ok|]. split; cbn; inrange. Qed.
Example C43_templates_hyp : exists i d, locate (elias_axis g3) (1 / 2) = Some (i, d).
Proof.
  destruct (elias_located g3 (proj1 g3_ok) (1 / 2)) as (i & d & E & _); [cbn; lra|exact I|]. eauto.
Qed.
Example C43_hybrid_hyp : ordered hex /\ (2 <= h_N hex)%nat /\ h_lo hex <= 30 <= h_upper hex.
Proof. split; [exact hex_ordered|]. split; [cbn; lia|]. unfold h_lo, hex. cbn. lra. Qed.

(** the last grid point (and everything up to the tolerance above it) is inside the box, but the element behind the end
    of the frequency vector is read *)
Theorem C43_last_point_refuted : forall g pos vecsize a idx w, grid_ok g -> e_upper g <= w < e_upper g + / 100000 ->
  axis_in_box (elias_axis g) w = true /\ interpolate [elias_axis g] pos vecsize a [w] idx = None.
Proof.
  intros g pos vecsize a idx w (V & C & L) H.
  assert (B : axis_in_box (elias_axis g) w = true).
  { unfold axis_in_box. cbn [ax_center ax_upper elias_axis]. destruct (Rlt_dec _ _) as [|N]; [reflexivity|]. exfalso. apply N. rewrite C, Rminus_0_r.
    unfold inter_tol. destruct V as (_ & _ & LU & _). apply Rabs_def1; lra. }
  split; [exact B|]. unfold interpolate, in_box. cbn [combine forallb fst snd]. rewrite B. cbn [andb map osequence fst snd].
  unfold locate. cbn [ax_index elias_axis]. rewrite (get_grid_index_out g V) by apply H. reflexivity.
Qed.
Print Assumptions C43_last_point_refuted.
Example C43_last_point_hyp : grid_ok g3 /\ grid_point g3 2 = e_upper g3 /\ e_upper g3 <= grid_point g3 2 < e_upper g3 + / 100000.
Proof.
  assert (E : grid_point g3 2 = e_upper g3) by apply (elias_from_to g3 (proj1 g3_ok)).
  split; [exact g3_ok|]. split; [exact E|]. rewrite E. lra.
Qed.
(** below the lowest grid point, but in the box within the tolerance, the result is outside the range of all data *)
Theorem C43_below_lowest_refuted : forall g (a : marray R) (iK i_in dK din : Z) w lo x1,
  grid_ok g -> e_lower g = - e_upper g -> e_lower g - / 100000 < w < e_lower g -> away g w -> t_lower g - spacing g < t_from_frequency g w ->
  wf a -> m_length a = [dK; Z.of_nat (e_N g); din] -> in_range [iK; i_in] [dK; din] ->
  stored a [iK; 0%Z; i_in] = Some lo -> stored a [iK; 1%Z; i_in] = Some x1 -> lo < x1 ->
  axis_in_box (elias_axis g) w = true /\ exists x, interpolate [elias_axis g] 1 1 a [w] [iK; 0%Z; i_in] = Some [x] /\ x < lo.
Proof.
  intros g a iK i_in dK din w lo x1 (V & C & L) LU H A T W D Rg S0 S1 Lt.
  assert (B : axis_in_box (elias_axis g) w = true).
  { unfold axis_in_box. cbn [ax_center ax_upper elias_axis]. destruct (Rlt_dec _ _) as [|N]; [reflexivity|]. exfalso. apply N. rewrite C, Rminus_0_r.
    unfold inter_tol. destruct V as (_ & _ & LU' & _). apply Rabs_def1; lra. }
  split; [exact B|]. destruct (elias_below g w V (proj2 H) A T) as (d & E & Dn).
  inversion Rg as [|? ? ? ? R1 R2]; subst. inversion R2 as [|? ? ? ? R3 R4]; subst.
  pose proof (interp_elias [g] [w] a [iK] [0%Z] i_in [] 1 [(0%Z, d)]) as Q. cbn [map length app] in Q. rewrite Q.
  - eexists. split; [reflexivity|]. cbn [map multilinear seq fst snd add_tuple]. unfold at_freqs. cbn [app length repeat]. rewrite Z.add_0_l.
    change (0 + 1)%Z with 1%Z. unfold stored in S0, S1. cbn [Nat.add]. rewrite !Nat.add_0_r.
    rewrite (nth_error_nth _ _ 0 S0), (nth_error_nth _ _ 0 S1). nra.
  - lia.
  - reflexivity.
  - reflexivity.
  - split; [exact W|]. exists [dK], din, []. cbn [map app]. split; [exact D|]. split; [constructor; [exact R1|constructor]|].
    split; [constructor; [exact R3|constructor]|]. cbn [prodZ]. lia.
  - unfold in_box. cbn [combine forallb fst snd]. rewrite B. reflexivity.
  - unfold locates. cbn [combine]. constructor; [exact E|constructor].
Qed.
Print Assumptions C43_below_lowest_refuted.
Definition b3 : marray R := mk_marray_buf [2; 3; 1]%Z [0; 1; 1; 5; 6; 7].
Lemma b3_wf : wf b3.
Proof. apply mk_marray_buf_wf; [discriminate|inrange|vm_compute; reflexivity|vm_compute; reflexivity]. Qed.
Example C43_below_lowest_hyp : grid_ok g3 /\ e_lower g3 = - e_upper g3 /\ e_lower g3 - / 100000 < - (16 / 15) - / 1000000 < e_lower g3 /\
  t_lower g3 - spacing g3 < t_from_frequency g3 (- (16 / 15) - / 1000000) /\ wf b3 /\ stored b3 [0; 0; 0]%Z = Some 0 /\ stored b3 [0; 1; 0]%Z = Some 1 /\
  Forall (fun x => 0 <= x) (m_elements b3).
Proof.
  split; [exact g3_ok|]. split; [cbn; lra|]. split; [cbn; lra|]. split.
  { rewrite g3_lower, g3_spacing. assert (D : tdom g3 (t_from_frequency g3 (- (16 / 15) - / 1000000))) by (apply f_range; cbn; lra). cbn [tdom g3 e_form] in D. lra. }
  split; [exact b3_wf|]. split; [reflexivity|]. split; [reflexivity|]. repeat (apply Forall_cons || apply Forall_nil); lra.
Qed.

(** ** C44 *)
(** Keldysh formalism and zero temperature: zero as soon as one frequency is outside *)
Theorem C44_outside_zero : forall axs ws pos vecsize a idx ax w, In (ax, w) (combine axs ws) ->
  Rabs (w - ax_center ax) >= ax_upper ax + / 100000 -> interpolate axs pos vecsize a ws idx = Some (repeat 0 vecsize).
Proof.
  intros axs ws pos vecsize a idx ax w H K. unfold interpolate.
  destruct (in_box axs ws) eqn:E; [|reflexivity]. unfold in_box in E. rewrite forallb_forall in E. specialize (E _ H). unfold axis_in_box in E.
  cbn [fst snd] in E. destruct (Rlt_dec _ _) as [L|_]; [|discriminate]. unfold inter_tol in L. lra.
Qed.
Print Assumptions C44_outside_zero.
Example C44_outside_zero_hyp : In (elias_axis g3, 7) (combine [elias_axis g3; elias_axis gex] [7; 3]) /\
  Rabs (7 - ax_center (elias_axis g3)) >= ax_upper (elias_axis g3) + / 100000.
Proof. split; [left; reflexivity|]. cbn. rewrite Rminus_0_r, Rabs_pos_eq; lra. Qed.

(** finite temperature: a dense grid *)
Definition dense (g : elias) : Prop := valid g /\ e_form g = GMatsubaraT /\ e_center g = 0 /\ e_lower g = - e_upper g.
Lemma dense_box g w : dense g -> (is_in_box g w = true <-> Rabs w < e_upper g + / 100000).
Proof.
  intros (V & F & C & L). unfold is_in_box. rewrite C, Rminus_0_r. unfold inter_tol. destruct (Rlt_dec _ _); split; intro; try reflexivity; try assumption; try discriminate; lra.
Qed.
Lemma dense_away g w : dense g -> away g w.
Proof. intros (V & F & C & L). unfold away. rewrite F. exact I. Qed.
Lemma dense_inside g j : dense g -> (j < e_N g)%nat -> - e_upper g <= grid_point g j <= e_upper g.
Proof.
  intros D Hj. destruct D as (V & F & C & L). rewrite <- L. destruct (elias_from_to g V) as (E0 & EN & Mono). pose proof (VN g V). split.
  - rewrite <- E0. destruct j; [right; reflexivity|]. left. apply Mono; lia.
  - rewrite <- EN. destruct (Nat.eq_dec j (e_N g - 1)) as [->|K]; [right; reflexivity|]. left. apply Mono; lia.
Qed.
Lemma dense_upper g : dense g -> 0 < e_upper g.
Proof. intros (V & F & C & L). destruct V as (_ & _ & LU & _). lra. Qed.
Lemma dense_ends g : dense g -> grid_point g 0 = - e_upper g /\ grid_point g (e_N g - 1) = e_upper g.
Proof. intros (V & F & C & L). destruct (elias_from_to g V) as (E0 & EN & _). rewrite E0, EN, L. split; reflexivity. Qed.
(** the stored values are returned at all grid points, also the last one *)
Theorem C44_grid_points : forall g1 g2 g3 i j k v1 v2 v3, dense g1 -> dense g2 -> dense g3 -> (i < e_N g1)%nat -> (j < e_N g2)%nat -> (k < e_N g3)%nat ->
  dense_se g1 v1 (grid_point g1 i) = v1 (Z.of_nat i) /\ dense_k1 g1 v1 (grid_point g1 i) = v1 (Z.of_nat i) /\
  (grid_point g2 j <= e_upper g2 + flip (grid_point g1 i) ->
     dense_k2 g1 g2 v2 (grid_point g1 i) (grid_point g2 j) = v2 (Z.of_nat i) (Z.of_nat j)) /\
  dense_k3 g1 g2 g3 v3 (grid_point g1 i) (grid_point g2 j) (grid_point g3 k) = v3 (Z.of_nat i) (Z.of_nat j) (Z.of_nat k).
Proof.
  intros g1 g2 g3 i j k v1 v2 v3 D1 D2 D3 Hi Hj Hk.
  assert (P : forall g j, dense g -> (j < e_N g)%nat -> dense_index g (grid_point g j) = Z.of_nat j /\ is_in_box g (grid_point g j) = true /\
    Rabs (grid_point g j) < e_upper g + / 100000).
  { intros g j' D H. split; [apply dense_at_point; [apply D|exact H|apply dense_away; exact D]|].
    pose proof (dense_inside g j' D H). assert (Rabs (grid_point g j') < e_upper g + / 100000) by (apply Rabs_def1; lra).
    split; [apply dense_box; assumption|assumption]. }
  destruct (P g1 i D1 Hi) as (I1 & B1 & A1). destruct (P g2 j D2 Hj) as (I2 & B2 & A2). destruct (P g3 k D3 Hk) as (I3 & B3 & A3).
  unfold dense_se, dense_k1, dense_k2, dense_k3, dense_in_box2. rewrite B1, B2, B3, I1, I2, I3. split; [reflexivity|]. split; [reflexivity|]. split; [|reflexivity].
  intro H. unfold inter_tol. destruct (Rlt_dec (Rabs (grid_point g1 i)) _) as [_|N]; [|contradiction].
  pose proof (dense_inside g2 j D2 Hj). destruct (Rlt_dec _ (grid_point g2 j)) as [_|N]; [|lra]. destruct (Rlt_dec (grid_point g2 j) _) as [_|N]; [reflexivity|lra].
Qed.
Print Assumptions C44_grid_points.
(** dense grid with 5 points -4, -2, 0, 2, 4 *)
Definition gd : elias := {| e_form := GMatsubaraT; e_se := false; e_N := 5; e_upper := 4; e_lower := -4; e_scale := 2;
                            e_center := 0; e_purely_positive := false |}.
Lemma gd_dense : dense gd.
Proof. unfold dense, valid, away, gd; cbn. repeat split; try lra; try lia; discriminate. Qed.
Example C44_grid_points_hyp : dense gd /\ grid_point gd 3 = 2 /\ grid_point gd 3 <= e_upper gd + flip (grid_point gd 4).
Proof.
  assert (P : forall i, (i < 5)%nat -> grid_point gd i = -4 + INR i * 2).
  { intros i H. rewrite (grid_point_eq gd (proj1 gd_dense)) by exact H. unfold t_lower, spacing, t_upper, t_lower, t_from_frequency, frequency_from_t, grid_transf_inv_lin, grid_transf_lin, gd. cbn [e_form e_N e_upper e_lower e_scale e_center].
    cbn [INR]. field. }
  split; [exact gd_dense|]. rewrite !P by lia. split; [cbn; lra|]. cbn [INR e_upper gd].
  unfold flip, flip_int. replace ((-4 + (1 + 1 + 1 + 1) * 2) / 2) with 2 by field. rewrite Rabs_pos_eq by lra.
  replace (trunc 2) with 2%Z; [change (Z.rem (- (2)) 2 * 2)%Z with 0%Z; cbn; lra|]. destruct (trunc_nonneg 2 ltac:(lra)) as (n & E & B). rewrite E.
  assert (n = 2)%nat; [|subst; reflexivity]. assert (n < 3)%nat by (apply INR_lt; cbn; lra). assert (1 < n)%nat by (apply INR_lt; cbn; lra). lia.
Qed.

(** self-energy: on both sides the tail starts with the edge value and decays like 1/|w| *)
Theorem C44_se_joins_partial : forall g val w, dense g -> Rabs w >= e_upper g + / 100000 ->
  dense_se g val w = e_upper g / Rabs w * dense_se g val (if Rle_dec w 0 then - e_upper g else e_upper g).
Proof.
  intros g val w D H. destruct (dense_ends g D) as [E0 EN]. pose proof (VN g (proj1 D)) as N.
  assert (X : is_in_box g w = false) by (destruct (is_in_box g w) eqn:E; [apply dense_box in E; [lra|exact D]|reflexivity]).
  unfold dense_se at 1. rewrite X. f_equal. destruct (Rle_dec w 0).
  - rewrite <- E0. destruct (C44_grid_points g g g 0 0 0 val (fun _ _ => 0) (fun _ _ _ => 0)) as [-> _]; try assumption; try lia. reflexivity.
  - rewrite <- EN. destruct (C44_grid_points g g g (e_N g - 1) 0 0 val (fun _ _ => 0) (fun _ _ _ => 0)) as [-> _]; try assumption; try lia. f_equal. lia.
Qed.
Print Assumptions C44_se_joins_partial.
Example C44_se_joins_hyp : dense gd /\ Rabs (-8) >= e_upper gd + / 100000.
Proof. split; [exact gd_dense|]. cbn. rewrite Rabs_left; lra. Qed.
(** documented is a decay with w^-2 ("extrapolate with w^-2 tail"); doubling the frequency of the self-energy only
    halves the value *)
Theorem C44_se_power_refuted : forall g val w, dense g -> w >= e_upper g + / 100000 ->
  dense_se g val (2 * w) = dense_se g val w / 2.
Proof.
  intros g val w D H. pose proof (dense_upper g D) as U.
  rewrite (C44_se_joins_partial g val w D) by (rewrite Rabs_pos_eq; lra). rewrite (C44_se_joins_partial g val (2 * w) D) by (rewrite Rabs_pos_eq; lra).
  destruct (Rle_dec (2 * w) 0); [lra|]. destruct (Rle_dec w 0); [lra|]. rewrite !Rabs_pos_eq by lra. field. lra.
Qed.
Print Assumptions C44_se_power_refuted.
Example C44_se_power_hyp : dense gd /\ 5 >= e_upper gd + / 100000 /\ dense_se gd (fun _ => 1) 5 <> 0.
Proof.
  split; [exact gd_dense|]. split; [cbn; lra|]. rewrite C44_se_joins_partial by (exact gd_dense || (cbn; rewrite Rabs_pos_eq; lra)).
  destruct (Rle_dec 5 0); [lra|]. replace (dense_se gd (fun _ => 1) (e_upper gd)) with 1.
  - rewrite Rabs_pos_eq by lra. cbn. lra.
  - unfold dense_se. replace (is_in_box gd (e_upper gd)) with true; [reflexivity|]. symmetry. apply dense_box; [exact gd_dense|]. cbn. rewrite Rabs_pos_eq; lra.
Qed.

(** K1: w^-2 on both sides, starting from the value at the lower edge *)
Theorem C44_k1_partial : forall g val w, dense g -> Rabs w >= e_upper g + / 100000 ->
  dense_k1 g val w = e_upper g * e_upper g / (Rabs w * Rabs w) * dense_k1 g val (- e_upper g).
Proof.
  intros g val w D H. destruct (dense_ends g D) as [E0 EN]. pose proof (VN g (proj1 D)) as N.
  assert (X : is_in_box g w = false) by (destruct (is_in_box g w) eqn:E; [apply dense_box in E; [lra|exact D]|reflexivity]).
  unfold dense_k1 at 1. rewrite X. f_equal. rewrite <- E0.
  destruct (C44_grid_points g g g 0 0 0 val (fun _ _ => 0) (fun _ _ _ => 0)) as (_ & -> & _); try assumption; try lia. reflexivity.
Qed.
Print Assumptions C44_k1_partial.
Example C44_k1_hyp : dense gd /\ Rabs 8 >= e_upper gd + / 100000.
Proof. split; [exact gd_dense|]. cbn. rewrite Rabs_right; lra. Qed.
(** so it does not join at the upper edge unless both edge values agree: with 0 at the lower and 1 at the upper edge the
    value is 1 at the upper edge and 0 everywhere above *)
Theorem C44_k1_upper_edge_refuted : forall g val, dense g -> val 0%Z = 0 -> val (Z.of_nat (e_N g) - 1)%Z = 1 ->
  dense_k1 g val (e_upper g) = 1 /\ forall w, w >= e_upper g + / 100000 -> dense_k1 g val w = 0.
Proof.
  intros g val D V0 V1. destruct (dense_ends g D) as [E0 EN]. pose proof (VN g (proj1 D)) as N. split.
  - rewrite <- EN. destruct (C44_grid_points g g g (e_N g - 1) 0 0 val (fun _ _ => 0) (fun _ _ _ => 0)) as (_ & -> & _); try assumption; try lia.
    rewrite <- V1. f_equal. lia.
  - intros w H. pose proof (dense_upper g D). rewrite C44_k1_partial by (exact D || (rewrite Rabs_pos_eq; lra)). rewrite <- E0.
    destruct (C44_grid_points g g g 0 0 0 val (fun _ _ => 0) (fun _ _ _ => 0)) as (_ & -> & _); try assumption; try lia. change (Z.of_nat 0) with 0%Z. rewrite V0. ring.
Qed.
Print Assumptions C44_k1_upper_edge_refuted.
Example C44_k1_upper_edge_hyp : dense gd /\ (fun i => IZR i / 4) 0%Z = 0 /\ (fun i => IZR i / 4) (Z.of_nat (e_N gd) - 1)%Z = 1.
Proof. split; [exact gd_dense|]. change (Z.of_nat (e_N gd) - 1)%Z with 4%Z. lra. Qed.
(** K2, K3: fermionic tails decay with v^-2 from the edge value *)
Theorem C44_fermionic_partial : forall g1 g2 v2 w v, dense g1 -> dense g2 -> Rabs w <= e_upper g1 ->
  (v <= - e_upper g2 - / 100000 ->
     dense_k2 g1 g2 v2 w v = e_upper g2 * e_upper g2 / (v * v) * v2 (dense_index g1 w) 0%Z) /\
  (e_upper g2 + / 100000 <= v -> flip w <= 0 ->
     dense_k2 g1 g2 v2 w v = e_upper g2 * e_upper g2 / (v * v) * v2 (dense_index g1 w) (Z.of_nat (e_N g2) - 1 + flip_int w)%Z).
Proof.
  intros g1 g2 v2 w v D1 D2 H. pose proof (dense_upper g2 D2) as U. unfold dense_k2, dense_in_box2, inter_tol.
  destruct (Rlt_dec (Rabs w) _) as [_|N]; [|lra]. split.
  - intro K. destruct (Rlt_dec _ v) as [N|_]; [lra|]. destruct (Rlt_dec (e_upper g1) (Rabs w)) as [N|_]; [lra|]. destruct (Rle_dec v _) as [_|N]; [reflexivity|lra].
  - intros K F. destruct (Rlt_dec _ v) as [_|N]; [|lra]. destruct (Rlt_dec v _) as [N|_]; [lra|]. destruct (Rlt_dec (e_upper g1) (Rabs w)) as [N|_]; [lra|].
    destruct (Rle_dec v _) as [N|_]; [lra|reflexivity].
Qed.
Print Assumptions C44_fermionic_partial.
Example C44_fermionic_hyp : dense gd /\ Rabs 0 <= e_upper gd /\ -7 <= - e_upper gd - / 100000 /\ e_upper gd + / 100000 <= 7 /\ flip 0 <= 0.
Proof.
  split; [exact gd_dense|]. split; [cbn; rewrite Rabs_R0; lra|]. split; [cbn; lra|]. split; [cbn; lra|]. unfold flip, flip_int.
  unfold Rdiv. rewrite Rmult_0_l, Rabs_R0. destruct (trunc_nonneg 0 ltac:(lra)) as (n & E & B). rewrite E.
  destruct n as [|n]; [change (Z.rem (- Z.of_nat 0) 2 * 2)%Z with 0%Z; lra|]. rewrite S_INR in B. pose proof (pos_INR n). lra.
Qed.
(** beyond the bosonic range both drop to zero at once *)
Theorem C44_bosonic_refuted : forall g1 g2 g3 v2 v3 w v vp, dense g1 -> e_upper g1 + / 100000 <= Rabs w ->
  dense_k2 g1 g2 v2 w v = 0 /\ dense_k3 g1 g2 g3 v3 w v vp = 0.
Proof.
  intros g1 g2 g3 v2 v3 w v vp D H. unfold dense_k2, dense_k3, dense_in_box2, inter_tol.
  assert (X : is_in_box g1 w = false) by (destruct (is_in_box g1 w) eqn:E; [apply dense_box in E; [lra|exact D]|reflexivity]). rewrite X. cbn [andb].
  destruct (Rlt_dec (Rabs w) _) as [N|_]; [lra|]. destruct (Rlt_dec (e_upper g1) (Rabs w)) as [_|N]; [split; reflexivity|lra].
Qed.
Print Assumptions C44_bosonic_refuted.
(** data constant 1: the value is 1 at the edge *)
Example C44_bosonic_hyp : dense gd /\ e_upper gd + / 100000 <= Rabs 5 /\ dense_k3 gd gd gd (fun _ _ _ => 1) (grid_point gd 4) (grid_point gd 0) (grid_point gd 0) = 1.
Proof.
  split; [exact gd_dense|]. split; [cbn; rewrite Rabs_pos_eq; lra|].
  destruct (C44_grid_points gd gd gd 4 0 0 (fun _ => 0) (fun _ _ => 0) (fun _ _ _ => 1)) as (_ & _ & _ & ->); try exact gd_dense; try (cbn; lia). reflexivity.
Qed.

(** ** C46 *)
(** outside the box: the asymptotic value for the retarded, zero for the Keldysh component *)
Theorem C46_outside : forall g s v i_in, e_upper g + / 100000 < Rabs v ->
  valsmooth g s 0 v i_in = Some (s_asymp s) /\ valsmooth g s 1 v i_in = Some 0.
Proof.
  intros g s v i_in H. unfold valsmooth, inter_tol. destruct (Rlt_dec _ _) as [_|N]; [|contradiction]. split; f_equal; ring.
Qed.
Print Assumptions C46_outside.
Example C46_outside_hyp : e_upper g3 + / 100000 < Rabs 2.
Proof. cbn. rewrite Rabs_pos_eq; lra. Qed.
(** inside: the interpolated stored value plus the asymptotic value; at grid points the stored value itself *)
Theorem C46_inside : forall g s (iK i_in dK din : Z) v, grid_ok g -> inside g v ->
  wf (s_data s) -> m_length (s_data s) = [dK; Z.of_nat (e_N g); din] -> in_range [iK; i_in] [dK; din] ->
  exists x, interpolate [elias_axis g] 1 1 (s_data s) [v] [iK; 0%Z; i_in] = Some [x] /\
    valsmooth g s iK v i_in = Some (x + (1 - IZR iK) * s_asymp s) /\
    (forall j, (S j < e_N g)%nat -> v = grid_point g j -> stored (s_data s) [iK; Z.of_nat j; i_in] = Some x).
Proof.
  intros g s iK i_in dK din v G In W D Rg. inversion Rg as [|? ? ? ? R1 R2]; subst. inversion R2 as [|? ? ? ? R3 R4]; subst.
  assert (B : buffer_ok (s_data s) (map e_N [g]) [iK] i_in [] 1).
  { split; [exact W|]. exists [dK], din, []. cbn [map app]. split; [exact D|]. split; [constructor; [exact R1|constructor]|].
    split; [constructor; [exact R3|constructor]|]. cbn [prodZ]. lia. }
  assert (F : Forall2 (fun g w => grid_ok g /\ inside g w) [g] [v]) by (constructor; [split; assumption|constructor]).
  destruct (C43_between_partial [g] [v] (s_data s) [iK] [0%Z] i_in [] 1) as (cell & res & E & Lr & _); [cbn; lia|reflexivity|exact B|exact F|].
  cbn [map length app] in E. destruct res as [|x [|]]; try discriminate. exists x. split; [exact E|]. split.
  - unfold valsmooth. destruct (Rlt_dec _ _) as [K|_].
    + exfalso. destruct G as (V & C & L). destruct In as [In _]. unfold inter_tol in K.
      assert (Rabs v <= e_upper g) by (apply Rabs_le; lra). lra.
    + rewrite E. reflexivity.
  - intros j Hj ->. pose proof (C43_grid_points_partial [g] [j] (s_data s) [iK] [0%Z] i_in [] 1 ltac:(cbn; lia) eq_refl B) as Q.
    cbn [map combine length app fst snd seq] in Q. rewrite E in Q.
    assert (Q' := Q ltac:(constructor; [split; [exact G|split; [exact Hj|apply In]]|constructor])). injection Q' as ->.
    unfold at_freqs, stored. cbn [app length repeat]. rewrite Nat.add_0_r. apply nth_error_nth'.
    destruct W as [Wd Wp Wc Wl Wb]. assert (Rm : in_range [iK; Z.of_nat j; i_in] (m_length (s_data s))) by (rewrite D; repeat (constructor; [lia|]); constructor).
    pose proof (row_major_range _ _ Rm). lia.
Qed.
Print Assumptions C46_inside.
Definition s3 : selfenergy := {| s_data := b3; s_asymp := 1 / 2 |}.
Example C46_inside_hyp : grid_ok g3 /\ inside g3 (1 / 3) /\ wf (s_data s3) /\ m_length (s_data s3) = [2%Z; Z.of_nat (e_N g3); 1%Z] /\ in_range [1; 0]%Z [2; 1]%Z.
Proof. split; [exact g3_ok|]. split; [split; [cbn; lra|exact I]|]. split; [exact b3_wf|]. split; [reflexivity|inrange]. Qed.
(** evaluation commutes with sums, differences and multiples (with [None] where an access is out of bounds) *)
Theorem C46_linear : forall g s t c iK v i_in,
  m_length (s_data s) = m_length (s_data t) -> m_cumul (s_data s) = m_cumul (s_data t) ->
  length (m_elements (s_data s)) = length (m_elements (s_data t)) ->
  let both f := match valsmooth g s iK v i_in, valsmooth g t iK v i_in with Some x, Some y => Some (f x y) | _, _ => None end in
  valsmooth g (se_add s t) iK v i_in = both Rplus /\ valsmooth g (se_sub s t) iK v i_in = both Rminus /\
  valsmooth g (se_mul s c) iK v i_in = option_map (fun x => x * c) (valsmooth g s iK v i_in).
Proof.
  intros g s t c iK v i_in A B C. split; [|split].
  - apply (valsmooth_add g s t iK v i_in). repeat split; assumption.
  - apply (valsmooth_sub g s t iK v i_in). repeat split; assumption.
  - apply valsmooth_mul.
Qed.
Print Assumptions C46_linear.
Example C46_linear_hyp : length (m_elements (s_data s3)) = length (m_elements (s_data (se_mul s3 7))) /\ exists x, valsmooth g3 s3 0 (1 / 3) 0 = Some x.
Proof.
  split; [reflexivity|]. destruct (C46_inside g3 s3 0 0 2 1 (1 / 3)) as (x & _ & E & _); [exact g3_ok|split; [cbn; lra|exact I]|exact b3_wf|reflexivity|inrange|]. eauto.
Qed.

(** ** C87 *)
(** away from the first and last cell the four-point interpolation is exact for cubic polynomials of the coordinate *)
Theorem C87_interior_partial : forall ax x i c, ax_index ax x = Some i -> (1 <= i)%Z -> (i + 2 < Z.of_nat (length (ax_pts ax)))%Z ->
  (forall j p q, read (ax_pts ax) j = Some p -> read (ax_pts ax) (j + 1) = Some q -> p < q) ->
  sloppy1D ax x (fun j => option_map (cubic c) (read (ax_pts ax) j)) = Some (cubic c (ax_coord ax x)).
Proof.
  intros ax x i c Hi L U M.
  assert (Rd : forall j, (0 <= j < Z.of_nat (length (ax_pts ax)))%Z -> read (ax_pts ax) j = Some (pt ax j)).
  { intros j Hj. unfold read, pt. destruct (j <? 0)%Z eqn:E; [apply Z.ltb_lt in E; lia|]. apply nth_error_nth'. lia. }
  rewrite <- (sloppy_exact ax x i c Hi L U).
  - unfold sloppy1D, sloppy_step. rewrite Hi. cbn [obind]. rewrite !Rd by lia. reflexivity.
  - intros j J1 J2. apply (M j); apply Rd; lia.
Qed.
Print Assumptions C87_interior_partial.
Lemma gd_points i : (i < 5)%nat -> grid_point gd i = -4 + INR i * 2.
Proof.
  intro H. rewrite (grid_point_eq gd (proj1 gd_dense)) by exact H. unfold t_lower, spacing, t_upper, t_lower, t_from_frequency, frequency_from_t, grid_transf_inv_lin, grid_transf_lin, gd.
  cbn [e_form e_N e_upper e_lower e_scale e_center INR]. field.
Qed.
Example C87_interior_hyp : ax_index (elias_axis gd) 1 = Some 2%Z /\ (1 <= 2)%Z /\ (2 + 2 < Z.of_nat (length (ax_pts (elias_axis gd))))%Z.
Proof.
  split; [|split; [lia|cbn; lia]]. destruct (get_grid_index_ok gd (proj1 gd_dense) 1 ltac:(cbn; lra) I) as (i & E & B & [E1 E2] & _). cbn [ax_index elias_axis]. rewrite E.
  do 2 f_equal. change 2%Z with (Z.of_nat 2). f_equal. cbn [e_N gd] in B. rewrite gd_points in E1, E2 by lia. rewrite S_INR in E2.
  assert (i < 3)%nat by (apply INR_lt; cbn; lra). assert (1 < i)%nat by (apply INR_lt; cbn; lra). lia.
Qed.
(** in the first and in the last cell a point outside the grid is read, for all functions *)
Theorem C87_edges_refuted : forall ax ay az x y z i v1 v2 v3, ax_index ax x = Some i ->
  (i = 0)%Z \/ (i = Z.of_nat (length (ax_pts ax)) - 2)%Z ->
  sloppy1D ax x v1 = None /\ sloppy2D ax ay x y v2 = None /\ sloppy3D ax ay az x y z v3 = None.
Proof.
  intros ax ay az x y z i v1 v2 v3 Hi E.
  assert (X : forall f, sloppy_step ax x f = None).
  { intro f. unfold sloppy_step. rewrite Hi. cbn [obind]. destruct E as [-> | E].
    - reflexivity.
    - destruct (read (ax_pts ax) (i - 1)); [|reflexivity]. cbn [obind]. destruct (read (ax_pts ax) i); [|reflexivity]. cbn [obind].
      destruct (read (ax_pts ax) (i + 1)); [|reflexivity]. cbn [obind]. replace (read (ax_pts ax) (i + 2)) with (@None R); [reflexivity|].
      symmetry. unfold read. destruct (i + 2 <? 0)%Z; [reflexivity|]. apply nth_error_None. lia. }
  split; [apply X|]. split; apply X.
Qed.
Print Assumptions C87_edges_refuted.
Example C87_edges_hyp : ax_index (elias_axis gd) 3 = Some 3%Z /\ 3%Z = (Z.of_nat (length (ax_pts (elias_axis gd))) - 2)%Z.
Proof.
  split; [|reflexivity]. destruct (get_grid_index_ok gd (proj1 gd_dense) 3 ltac:(cbn; lra) I) as (i & E & B & [E1 E2] & _). cbn [ax_index elias_axis]. rewrite E.
  do 2 f_equal. change 3%Z with (Z.of_nat 3). f_equal. cbn [e_N gd] in B. rewrite gd_points in E1, E2 by lia. rewrite S_INR in E2.
  assert (i < 4)%nat by (apply INR_lt; cbn; lra). assert (2 < i)%nat by (apply INR_lt; cbn; lra). lia.
Qed.

(** ** C89 *)
(** the retarded value of initialize becomes the asymptotic value *)
Theorem C89_retarded_partial : forall g s valR valK v i_in, e_upper g + / 100000 < Rabs v ->
  valsmooth g (se_initialize s valR valK) 0 v i_in = Some valR.
Proof. intros g s valR valK v i_in H. apply C46_outside. exact H. Qed.
Print Assumptions C89_retarded_partial.
Example C89_retarded_hyp : e_upper g3 + / 100000 < Rabs (-2).
Proof. cbn. rewrite Rabs_left; lra. Qed.
(** ... but the Keldysh value has no effect at all, and the stored frequency dependence stays *)
Theorem C89_keldysh_refuted : forall g s valR valK iK v i_in,
  valsmooth g (se_initialize s valR valK) 1 v i_in = valsmooth g s 1 v i_in /\
  (forall x, valsmooth g s iK v i_in = Some x -> valsmooth g (se_initialize s valR valK) iK v i_in = Some (x + (1 - IZR iK) * (valR - s_asymp s))).
Proof.
  assert (G : forall g s valR valK iK v i_in, valsmooth g (se_initialize s valR valK) iK v i_in =
    option_map (fun x => x + (1 - IZR iK) * (valR - s_asymp s)) (valsmooth g s iK v i_in)).
  { intros g s valR valK iK v i_in. rewrite !valsmooth_eval. cbn [se_initialize s_data s_asymp]. destruct (Rlt_dec _ _); [cbn; f_equal; ring|].
    destruct (eval1 _ _ _ _ _ _); cbn; [f_equal; ring|reflexivity]. }
  intros g s valR valK iK v i_in. split.
  - rewrite G. destruct (valsmooth g s 1 v i_in) as [x|]; cbn; [f_equal; ring|reflexivity].
  - intros x E. rewrite G, E. reflexivity.
Qed.
Print Assumptions C89_keldysh_refuted.
(** stored Keldysh data 5 at the lowest grid point: after initialize(1, 3) the value is still 5 *)
Example C89_keldysh_hyp : valsmooth g3 (se_initialize s3 1 3) 1 (- (16 / 15)) 0 = Some 5.
Proof.
  destruct (C89_keldysh_refuted g3 s3 1 3 1 (- (16 / 15)) 0) as [-> _].
  destruct (C46_inside g3 s3 1 0 2 1 (- (16 / 15))) as (x & _ & E & P); [exact g3_ok|split; [cbn; lra|exact I]|exact b3_wf|reflexivity|inrange|].
  rewrite E. specialize (P 0%nat ltac:(cbn; lia)). destruct (elias_from_to g3 (proj1 g3_ok)) as (E0 & _). cbn [e_lower g3] in E0. specialize (P (eq_sym E0)).
  cbn in P. injection P as <-. f_equal. cbn. lra.
Qed.
(** adding a number shifts the value only inside the box *)
Theorem C89_add_number_refuted : forall g s c v i_in, e_upper g + / 100000 < Rabs v ->
  valsmooth g (se_add_number s c) 0 v i_in = valsmooth g s 0 v i_in.
Proof.
  intros g s c v i_in H. destruct (C46_outside g s v i_in H) as [-> _]. destruct (C46_outside g (se_add_number s c) v i_in H) as [-> _]. reflexivity.
Qed.
Print Assumptions C89_add_number_refuted.
Example C89_add_number_hyp : e_upper g3 + / 100000 < Rabs 3 /\ s_data (se_add_number s3 2) <> s_data s3.
Proof.
  split; [cbn; rewrite Rabs_pos_eq; lra|]. intro K. apply (f_equal (fun a => nth 0 (m_elements a) 0)) in K. cbn in K. lra.
Qed.
