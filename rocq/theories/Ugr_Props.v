(** C112: interpolation of the data to a new frequency grid. *)
From Coq Require Import Reals Lra.
From Verif Require Import Prelude Idx_Spec Idx_Proofs Arr_Model Arr_Spec Arr_Proofs Grid_Model Grid_Spec Grid_Proofs Grid_Proofs2 Grid_Proofs3 Grid_Props Interp_Model Interp_Spec Interp_Proofs Interp_Proofs2 Interp_Proofs3 Interp_Props Interp_Props2 Ugr_Model Ugr_Proofs.
Open Scope R_scope.

(** the array has its frequency axes, with the lengths of both grids, behind the dimensions [dpre] and in front of [dk] and [dpost] *)
Definition update_shape (gold gnew : list elias) (a : marray R) (dpre : list Z) (dk : Z) (dpost : list Z) : Prop :=
  wf a /\ (1 <= length gold <= 3)%nat /\ map e_N gnew = map e_N gold /\ m_length a = dpre ++ map Z.of_nat (map e_N gold) ++ dk :: dpost.
(** all points of the new grids lie in the old box *)
Definition covers (gold gnew : list elias) : Prop :=
  Forall2 (fun g g' => grid_ok g /\ grid_ok g' /\ e_lower g <= e_lower g' /\ e_upper g' < e_upper g /\
                       forall j, (j < e_N g')%nat -> away g (grid_point g' j)) gold gnew.
(** the frequencies of the new grid at a tuple of frequency indices *)
Definition new_freqs (gnew : list elias) (js : list nat) : list R := map (fun p => grid_point (fst p) (snd p)) (combine gnew js).

Lemma forall2_firstn {A B} (P : A -> B -> Prop) l1 l2 m1 m2 : length l1 = length m1 -> Forall2 P (l1 ++ l2) (m1 ++ m2) -> Forall2 P l1 m1 /\ Forall2 P l2 m2.
Proof.
  revert m1. induction l1 as [|x l1 IH]; intros [|y m1] L H; cbn in *; try discriminate; [split; [constructor|exact H]|].
  inversion H as [|? ? ? ? H1 H2]; subst. destruct (IH m1 ltac:(lia) H2) as [I1 I2]. split; [constructor; assumption|exact I2].
Qed.
Lemma app_inv_len {A} (l1 l2 m1 m2 : list A) : length l1 = length m1 -> l1 ++ l2 = m1 ++ m2 -> l1 = m1 /\ l2 = m2.
Proof.
  revert m1. induction l1 as [|x l1 IH]; intros [|y m1] L H; cbn in *; try discriminate; [split; [reflexivity|exact H]|].
  injection H as -> H. destruct (IH m1 ltac:(lia) H) as [-> ->]. split; reflexivity.
Qed.
Lemma map_of_nat_inj l m : map Z.of_nat l = map Z.of_nat m -> l = m.
Proof. revert m. induction l as [|x l IH]; intros [|y m] H; cbn in H; try discriminate; [reflexivity|]. injection H as H1 H2. f_equal; [lia|apply IH; exact H2]. Qed.
Lemma split_index idx d1 d2 : in_range idx (d1 ++ d2) -> exists i1 i2, idx = i1 ++ i2 /\ in_range i1 d1 /\ in_range i2 d2.
Proof.
  intros H. exists (firstn (length d1) idx), (skipn (length d1) idx). pose proof (Forall2_length _ _ _ H) as L. rewrite app_length in L.
  split; [symmetry; apply firstn_skipn|]. rewrite <- (firstn_skipn (length d1) idx) in H. apply forall2_firstn in H; [exact H|].
  rewrite firstn_length. lia.
Qed.
Lemma freq_index gs is : in_range is (map Z.of_nat (map e_N gs)) -> exists js, is = map Z.of_nat js /\ Forall2 (fun g j => (j < e_N g)%nat) gs js.
Proof.
  revert is. induction gs as [|g gs IH]; intros is H; cbn in H; inversion H as [|i ? is' ? H1 H2]; subst.
  - exists []. split; [reflexivity|constructor].
  - destruct (IH _ H2) as (js & -> & F). exists (Z.to_nat i :: js). cbn. split; [f_equal; lia|]. constructor; [lia|exact F].
Qed.
Lemma freqs_of_nat gs js : freqs_of gs (map Z.of_nat js) = new_freqs gs js.
Proof.
  unfold freqs_of, new_freqs. revert js. induction gs as [|g gs IH]; intros [|j js]; [reflexivity..|]. cbn. rewrite Nat2Z.id. f_equal. apply IH.
Qed.
Lemma covers_inside gold gnew js : covers gold gnew -> Forall2 (fun g j => (j < e_N g)%nat) gnew js ->
  Forall2 (fun g w => grid_ok g /\ inside g w) gold (new_freqs gnew js).
Proof.
  intros H. revert js. induction H as [|g g' gold gnew (O1 & O2 & L & U & A) H IH]; intros js F; inversion F as [|? j ? js' F1 F2]; subst; [constructor|].
  unfold new_freqs. cbn [combine map fst snd]. constructor; [|apply IH; exact F2]. split; [exact O1|]. split; [|apply A; exact F1].
  destruct O2 as (V & _ & _). destruct (elias_from_to g' V) as (E0 & EN & Mono).
  assert (e_lower g' <= grid_point g' j <= e_upper g'); [|lra]. rewrite <- EN, <- E0. split.
  - destruct j; [lra|]. left. apply Mono; lia.
  - destruct (Nat.eq_dec j (e_N g' - 1)) as [->|N]; [lra|]. left. apply Mono; lia.
Qed.
Lemma same_N gold gnew (js : list nat) : map e_N gnew = map e_N gold -> Forall2 (fun g j => (j < e_N g)%nat) gold js -> Forall2 (fun g j => (j < e_N g)%nat) gnew js.
Proof.
  revert gold js. induction gnew as [|g' gnew IH]; intros [|g gold] js E F; cbn in E; try discriminate; inversion F as [|? j ? js' F1 F2]; subst; [constructor|].
  injection E as E1 E2. constructor; [lia|]. apply (IH gold); assumption.
Qed.
Lemma shape_split gold gnew a dpre dk dpost idx : update_shape gold gnew a dpre dk dpost -> in_range idx (m_length a) ->
  exists pre js k post, idx = pre ++ map Z.of_nat js ++ k :: post /\ length pre = length dpre /\ length js = length gold /\
    Forall2 (fun g j => (j < e_N g)%nat) gold js /\ buffer_ok a (map e_N gold) pre k post 1.
Proof.
  intros (W & LG & LN & D) H. pose proof H as H0. rewrite D in H. destruct (split_index _ _ _ H) as (pre & r & -> & H1 & H2).
  destruct (split_index _ _ _ H2) as (fi & r2 & -> & H3 & H4). destruct (freq_index _ _ H3) as (js & -> & F).
  inversion H4 as [|k ? post ? K P]; subst. exists pre, js, k, post. split; [reflexivity|]. split; [apply (Forall2_length _ _ _ H1)|].
  split; [symmetry; apply (Forall2_length _ _ _ F)|]. split; [exact F|]. split; [exact W|]. exists dpre, dk, dpost.
  split; [exact D|]. split; [exact H1|]. split; [constructor; assumption|].
  assert (PD : (0 < prodZ dpost)%Z).
  { assert (Q : pos_dims (m_length a)) by apply (wf_pos a W). rewrite D in Q. unfold pos_dims in Q. rewrite !Forall_app in Q. destruct Q as (_ & _ & Q).
    inversion Q; subst. apply prodZ_pos. assumption. }
  nia.
Qed.
Lemma shape_value gold gnew a dpre dk dpost pre js k post : update_shape gold gnew a dpre dk dpost ->
  in_range (pre ++ map Z.of_nat js ++ k :: post) (m_length a) -> length pre = length dpre -> length js = length gold ->
  update_value gold gnew (length dpre) a (row_major (pre ++ map Z.of_nat js ++ k :: post) (m_length a)) =
  (r <- interpolate (map elias_axis gold) (length pre) 1 a (new_freqs gnew js) (pre ++ map Z.of_nat js ++ k :: post) ;; nth_error r 0).
Proof.
  intros (W & LG & LN & D) R Lp Lj. assert (L : length gnew = length gold) by (apply (f_equal (@length nat)) in LN; rewrite !map_length in LN; exact LN).
  rewrite (update_value_at gold gnew a dpre dk dpost W LG L D _ R). rewrite <- Lp. rewrite skipn_app, skipn_all, Nat.sub_diag. cbn [app skipn].
  rewrite firstn_app, map_length, L, Lj, Nat.sub_diag. cbn [firstn]. rewrite app_nil_r.
  rewrite firstn_all2 by (rewrite map_length; lia). rewrite freqs_of_nat. reflexivity.
Qed.

Lemma inside_value gold gnew a dpre dk dpost idx : update_shape gold gnew a dpre dk dpost -> covers gold gnew -> in_range idx (m_length a) ->
  exists v, update_value gold gnew (length dpre) a (row_major idx (m_length a)) = Some v.
Proof.
  intros Sh C R. destruct (shape_split _ _ _ _ _ _ _ Sh R) as (pre & js & k & post & -> & Lp & Lj & F & B).
  rewrite (shape_value _ _ _ _ dk dpost) by assumption. pose proof Sh as (W & LG & LN & D).
  destruct (C43_between_partial gold (new_freqs gnew js) a pre (map Z.of_nat js) k post 1) as (cell & res & E & L & _); try assumption.
  { rewrite map_length. exact Lj. } { apply covers_inside; [exact C|]. apply (same_N gold); assumption. }
  rewrite E. cbn [obind]. destruct res as [|x res]; [discriminate|]. exists x. reflexivity.
Qed.
Lemma update_inside gold gnew a dpre dk dpost : update_shape gold gnew a dpre dk dpost -> covers gold gnew ->
  exists b, update_grid gold gnew (length dpre) a = Some b /\ wf b /\ m_length b = m_length a /\
    forall idx, in_range idx (m_length a) -> stored b idx = update_value gold gnew (length dpre) a (row_major idx (m_length a)).
Proof.
  intros Sh C. pose proof Sh as (W & LG & LN & D).
  assert (L : length gnew = length gold) by (apply (f_equal (@length nat)) in LN; rewrite !map_length in LN; exact LN).
  apply (update_ok gold gnew a dpre dk dpost W LG L D). intros idx R. apply (inside_value _ _ _ _ dk dpost); assumption.
Qed.

(** ** C112 *)
(** every new value lies between the old values at the corners of the cell which encloses the new frequencies *)
Theorem C112_values_partial : forall gold gnew a dpre dk dpost, update_shape gold gnew a dpre dk dpost -> covers gold gnew ->
  exists b, update_grid gold gnew (length dpre) a = Some b /\ wf b /\ m_length b = m_length a /\
    forall pre js k post, length pre = length dpre -> length js = length gold -> in_range (pre ++ map Z.of_nat js ++ k :: post) (m_length a) ->
      exists (cell : list nat) v, stored b (pre ++ map Z.of_nat js ++ k :: post) = Some v /\
        Forall2 (fun p c => encloses (grid_point (fst p)) c (snd p)) (combine gold (new_freqs gnew js)) cell /\
        forall lo hi, (forall o, corner o (length gold) -> lo <= at_freqs a pre k post 0 (add_tuple (map Z.of_nat cell) o) <= hi) -> lo <= v <= hi.
Proof.
  intros gold gnew a dpre dk dpost Sh C. destruct (update_inside _ _ _ _ _ _ Sh C) as (b & E & Wb & Lb & P). exists b.
  split; [exact E|]. split; [exact Wb|]. split; [exact Lb|]. intros pre js k post Lp Lj R. rewrite (P _ R).
  destruct (shape_split _ _ _ _ _ _ _ Sh R) as (pre' & js' & k' & post' & Q & Lp' & Lj' & F & B).
  apply app_inv_len in Q; [|lia]. destruct Q as [-> Q]. apply app_inv_len in Q; [|rewrite !map_length; lia]. destruct Q as [Qj Q].
  injection Q as -> ->. apply map_of_nat_inj in Qj. subst js'.
  rewrite (shape_value _ _ _ _ dk dpost) by assumption. pose proof Sh as (W & LG & LN & D).
  destruct (C43_between_partial gold (new_freqs gnew js) a pre' (map Z.of_nat js) k' post' 1) as (cell & res & Ei & L & En & Bt); try assumption.
  { rewrite map_length. exact Lj. } { apply covers_inside; [exact C|]. apply (same_N gold); assumption. }
  rewrite Ei. cbn [obind]. destruct res as [|x res]; [discriminate|]. exists cell, x. split; [reflexivity|]. split; [exact En|].
  intros lo hi H. exact (Bt 0%nat lo hi ltac:(lia) H).
Qed.
Print Assumptions C112_values_partial.

(** the largest absolute value does not grow *)
Theorem C112_norm_partial : forall gold gnew a dpre dk dpost, update_shape gold gnew a dpre dk dpost -> covers gold gnew ->
  exists b, update_grid gold gnew (length dpre) a = Some b /\ forall M, Forall (fun x => Rabs x <= M) (m_elements a) -> Forall (fun x => Rabs x <= M) (m_elements b).
Proof.
  intros gold gnew a dpre dk dpost Sh C. destruct (C112_values_partial _ _ _ _ _ _ Sh C) as (b & E & Wb & Lb & P). exists b. split; [exact E|].
  intros M HM. rewrite Forall_forall in *. intros x Hx. apply In_nth_error in Hx. destruct Hx as [n Hn].
  assert (M0 : 0 <= M).
  { pose proof Sh as (W & _ & _ & _). pose proof (wf_buf a W) as Bf. pose proof (prodZ_pos _ (wf_pos a W)) as Pp. destruct (m_elements a) as [|y l]; [cbn in Bf; lia|].
    apply Rle_trans with (Rabs y); [apply Rabs_pos|]. apply HM. left. reflexivity. }
  assert (NB : (n < length (m_elements b))%nat) by (apply nth_error_Some; congruence).
  pose proof Sh as (W & LG & LN & D). assert (NA : (n < length (m_elements a))%nat).
  { pose proof (wf_buf a W). pose proof (wf_buf b Wb). rewrite Lb in *. lia. }
  assert (L : length gnew = length gold) by (apply (f_equal (@length nat)) in LN; rewrite !map_length in LN; exact LN).
  destruct (every_flat gold gnew a dpre dk dpost W LG L D n NA) as (idx & R & Ei).
  destruct (shape_split _ _ _ _ _ _ _ Sh R) as (pre & js & k & post & -> & Lp & Lj & F & B).
  destruct (P pre js k post Lp Lj R) as (cell & v & Sv & _ & Bt). unfold stored in Sv. rewrite Lb, Ei, Nat2Z.id, Hn in Sv. injection Sv as ->.
  apply Rabs_le. apply Bt. intros o _. unfold at_freqs. match goal with |- context [nth ?i ?l 0] => destruct (nth_in_or_default i l 0) as [I| ->] end; [|lra].
  specialize (HM _ I). revert HM. unfold Rabs. destruct (Rcase_abs _); lra.
Qed.
Print Assumptions C112_norm_partial.

(** data which are affine in each of the grid coordinates of the old grid are evaluated exactly *)
Theorem C112_multiaffine_partial : forall gold gnew a dpre dk dpost pre k F, update_shape gold gnew a dpre dk dpost -> covers gold gnew ->
  length pre = length dpre -> multiaffine (length gold) F ->
  (forall idx, Forall2 (fun g i => (i < e_N g)%nat) gold idx ->
     stored a (pre ++ map Z.of_nat idx ++ k :: repeat 0%Z (length dpost)) = Some (F (map (fun p => aux_point (fst p) (snd p)) (combine gold idx)))) ->
  exists b, update_grid gold gnew (length dpre) a = Some b /\
    forall js, length js = length gold -> in_range (pre ++ map Z.of_nat js ++ k :: repeat 0%Z (length dpost)) (m_length a) ->
      stored b (pre ++ map Z.of_nat js ++ k :: repeat 0%Z (length dpost)) = Some (F (map (fun p => t_from_frequency (fst p) (snd p)) (combine gold (new_freqs gnew js)))).
Proof.
  intros gold gnew a dpre dk dpost pre k F Sh C Lp M H. destruct (update_inside _ _ _ _ _ _ Sh C) as (b & E & Wb & Lb & P). exists b. split; [exact E|].
  intros js Lj R. rewrite (P _ R). destruct (shape_split _ _ _ _ _ _ _ Sh R) as (pre' & js' & k' & post' & Q & Lp' & Lj' & Fj & B).
  apply app_inv_len in Q; [|lia]. destruct Q as [-> Q]. apply app_inv_len in Q; [|rewrite !map_length; lia]. destruct Q as [Qj Q].
  injection Q as -> Qp. apply map_of_nat_inj in Qj. subst js'. rewrite (shape_value _ _ _ _ dk dpost) by assumption. pose proof Sh as (W & LG & LN & D).
  assert (Lq : length (repeat 0%Z (length dpost)) = length dpost) by apply repeat_length.
  destruct (C43_multiaffine_partial gold (new_freqs gnew js) a pre' (map Z.of_nat js) k' (repeat 0%Z (length dpost)) 1 0 F) as (res & Ei & En); try assumption.
  { rewrite map_length. exact Lj. } { rewrite Qp. exact B. } { apply covers_inside; [exact C|]. apply (same_N gold); assumption. } { lia. }
  { intros idx Hi. specialize (H idx Hi). unfold stored in H. unfold at_freqs. rewrite Nat.add_0_r, Lq. apply nth_error_nth. exact H. }
  rewrite Ei. cbn [obind]. exact En.
Qed.
Print Assumptions C112_multiaffine_partial.

(** where some new frequency is outside of the old box the data are set to zero *)
Theorem C112_outside_partial : forall gold gnew a dpre dk dpost b pre js k post g w, update_shape gold gnew a dpre dk dpost ->
  update_grid gold gnew (length dpre) a = Some b ->
  length pre = length dpre -> length js = length gold -> in_range (pre ++ map Z.of_nat js ++ k :: post) (m_length a) ->
  In (g, w) (combine gold (new_freqs gnew js)) -> Rabs (w - e_center g) >= e_upper g + / 100000 ->
  stored b (pre ++ map Z.of_nat js ++ k :: post) = Some 0.
Proof.
  intros gold gnew a dpre dk dpost b pre js k post g w Sh E Lp Lj R I Ou. pose proof Sh as (W & LG & LN & D).
  assert (L : length gnew = length gold) by (apply (f_equal (@length nat)) in LN; rewrite !map_length in LN; exact LN).
  rewrite (update_stored gold gnew a dpre dk dpost W LG L D b E _ R).
  rewrite (shape_value _ _ _ _ dk dpost) by assumption.
  rewrite (C44_outside_zero (map elias_axis gold) (new_freqs gnew js) (length pre) 1 a _ (elias_axis g) w); [reflexivity| |exact Ou].
  revert I. generalize (new_freqs gnew js). clear. induction gold as [|g' gold IH]; intros [|w' ws] I; cbn in *; try tauto.
  destruct I as [I|I]; [left; congruence|right; apply IH; exact I].
Qed.
Print Assumptions C112_outside_partial.

(** the values for all internal indices are computed from the data with internal index zero *)
Theorem C112_internal_refuted : forall gold gnew a dpre dk dpost b pre js k post, update_shape gold gnew a dpre dk dpost ->
  update_grid gold gnew (length dpre) a = Some b ->
  length pre = length dpre -> length js = length gold -> in_range (pre ++ map Z.of_nat js ++ k :: post) (m_length a) ->
  stored b (pre ++ map Z.of_nat js ++ k :: post) = stored b (pre ++ map Z.of_nat js ++ k :: repeat 0%Z (length post)).
Proof.
  intros gold gnew a dpre dk dpost b pre js k post Sh E Lp Lj R. pose proof Sh as (W & LG & LN & D).
  assert (L : length gnew = length gold) by (apply (f_equal (@length nat)) in LN; rewrite !map_length in LN; exact LN).
  destruct (shape_split _ _ _ _ _ _ _ Sh R) as (pre' & js' & k' & post' & Q & Lp' & Lj' & Fj & B).
  apply app_inv_len in Q; [|lia]. destruct Q as [-> Q]. apply app_inv_len in Q; [|rewrite !map_length; lia]. destruct Q as [Qj Q].
  injection Q as -> ->. apply map_of_nat_inj in Qj. subst js'.
  assert (B0 : buffer_ok a (map e_N gold) pre' k' (repeat 0%Z (length post')) 1).
  { destruct B as (_ & e1 & ek & e2 & De & R1 & R2 & K). split; [exact W|]. exists e1, ek, e2. split; [exact De|]. split; [exact R1|]. split; [|exact K].
    inversion R2 as [|? ? ? ? R3 R4]; subst. constructor; [exact R3|].
    clear - R4. unfold in_range in *. induction R4 as [|? ? ? ? R5 R6]; [constructor|]. cbn. constructor; [lia|assumption]. }
  assert (R0 : in_range (pre' ++ map Z.of_nat js ++ k' :: repeat 0%Z (length post')) (m_length a)).
  { destruct B0 as (_ & e1 & ek & e2 & De & R1 & R2 & _). rewrite De. apply Forall2_app; [exact R1|]. apply Forall2_app; [|exact R2].
    clear - Fj. induction Fj as [|g j gs js H F IH]; [constructor|]. cbn. constructor; [lia|exact IH]. }
  rewrite !(update_stored gold gnew a dpre dk dpost W LG L D b E) by assumption. rewrite !(shape_value _ _ _ _ dk dpost) by assumption.
  unfold interpolate. destruct (in_box _ _) eqn:Bx; [|reflexivity].
  destruct (osequence _) as [cells|] eqn:Lc; [|reflexivity].
  assert (Q : locates (map elias_axis gold) (new_freqs gnew js) cells) by (apply osequence_locates; exact Lc).
  assert (Lw : length (new_freqs gnew js) = length gold) by (unfold new_freqs; rewrite map_length, combine_length; lia).
  assert (Lf : length (map Z.of_nat js) = length gold) by (rewrite map_length; exact Lj).
  pose proof (interp_elias gold _ a pre' (map Z.of_nat js) k' post' 1 cells LG Lw Lf B Bx Q) as I1.
  pose proof (interp_elias gold _ a pre' (map Z.of_nat js) k' (repeat 0%Z (length post')) 1 cells LG Lw Lf B0 Bx Q) as I2.
  unfold interpolate in I1, I2. rewrite Bx, Lc in I1, I2. rewrite I1, I2. cbn [obind map seq nth_error]. unfold at_freqs. rewrite repeat_length. reflexivity.
Qed.
Print Assumptions C112_internal_refuted.

(** interpolation to the same grid reads behind the end of the frequency vector *)
Theorem C112_same_grid_refuted : forall gs a dpre dk dpost, update_shape gs gs a dpre dk dpost -> Forall grid_ok gs ->
  update_grid gs gs (length dpre) a = None.
Proof.
  intros gs a dpre dk dpost Sh G. pose proof Sh as (W & LG & LN & D).
  set (js := map (fun g => (e_N g - 1)%nat) gs). set (idx := repeat 0%Z (length dpre) ++ map Z.of_nat js ++ 0%Z :: repeat 0%Z (length dpost)).
  assert (Z0 : forall l, Forall (fun d => (0 < d)%Z) l -> in_range (repeat 0%Z (length l)) l).
  { intros l H. induction H; [constructor|]. cbn. constructor; [lia|assumption]. }
  assert (R : in_range idx (m_length a)).
  { pose proof (wf_pos a W) as Q. rewrite D in *. unfold pos_dims in Q. rewrite !Forall_app in Q. destruct Q as (Q1 & _ & Q2). inversion Q2; subst.
    apply Forall2_app; [apply Z0; exact Q1|]. apply Forall2_app; [|constructor; [lia|apply Z0; assumption]].
    unfold js. clear - G. induction G as [|g gs (V & _) G IH]; [constructor|]. cbn. constructor; [|exact IH]. pose proof (VN g V). lia. }
  apply (update_none gs gs a dpre dk dpost W LG eq_refl D idx R). unfold idx. rewrite (shape_value _ _ _ _ dk dpost); [|exact Sh|exact R|apply repeat_length|unfold js; apply map_length].
  assert (Hn : forall g, grid_ok g -> axis_in_box (elias_axis g) (grid_point g (e_N g - 1)) = true /\ locate (elias_axis g) (grid_point g (e_N g - 1)) = None).
  { intros g (V & Cg & Lg). destruct (elias_from_to g V) as (E0 & EN & _). rewrite EN. split.
    - apply (C43_last_point_refuted g 0 0 a [] (e_upper g)); [split; [exact V|split; assumption]|lra].
    - unfold locate. cbn [ax_index elias_axis]. rewrite (get_grid_index_out g V) by lra. reflexivity. }
  unfold interpolate. replace (in_box _ _) with true.
  - destruct gs as [|g gs]; [cbn in LG; lia|]. inversion G as [|? ? G1 G2]; subst. unfold js, new_freqs. cbn [map combine fst snd osequence].
    rewrite (proj2 (Hn g G1)). reflexivity.
  - symmetry. unfold in_box, js, new_freqs. clear - G Hn. induction G as [|g gs H G IH]; [reflexivity|]. cbn [map combine fst snd forallb].
    rewrite (proj1 (Hn g H)). exact IH.
Qed.
Print Assumptions C112_same_grid_refuted.

(** the flow with the hybridisation regulator: the grid rescaled to a smaller scale is covered by the old grid *)
Theorem C112_flow_partial : forall gs factor Gamma Lambda Lambda' a dpre dk dpost,
  Forall (fun g => (2 <= e_N g)%nat /\ e_form g = GKeldysh /\ e_center g = 0 /\ e_purely_positive g = false) gs -> 0 < factor -> - Gamma < Lambda' < Lambda ->
  let old := map (fun g => guess_elias g factor Gamma Lambda) gs in let new := map (fun g => guess_elias g factor Gamma Lambda') gs in
  update_shape old new a dpre dk dpost ->
  covers old new /\ exists b, update_grid old new (length dpre) a = Some b /\ wf b /\ m_length b = m_length a.
Proof.
  intros gs factor Gamma Lambda Lambda' a dpre dk dpost H Hf HL old new Sh.
  assert (C : covers old new).
  { assert (P1 : 0 < factor * ((Lambda' + Gamma) / 2)) by (apply Rmult_lt_0_compat; lra).
    assert (P2 : factor * ((Lambda' + Gamma) / 2) < factor * ((Lambda + Gamma) / 2)) by (apply Rmult_lt_compat_l; lra).
    unfold old, new, covers. clear - H P1 P2. induction H as [|g gs (H1 & H2 & H3 & H4) H IH]; [constructor|]. cbn [map]. constructor; [|exact IH].
    assert (Q : forall x, 0 < x -> grid_ok (set_essential_parameters g (x * 100) x)).
    { intros x Hx. unfold grid_ok, valid, away, set_essential_parameters. cbn. rewrite H2, H4. repeat split; try lra; try lia; try assumption; discriminate. }
    unfold guess_elias. split; [apply Q; lra|]. split; [apply Q; lra|]. cbn [set_essential_parameters e_lower e_upper e_N e_form]. rewrite H4.
    split; [lra|]. split; [lra|]. intros j _. unfold away. cbn. rewrite H2. exact I. }
  split; [exact C|]. destruct (update_inside _ _ _ _ _ _ Sh C) as (b & E & Wb & Lb & _). exists b. split; [exact E|]. split; assumption.
Qed.
Print Assumptions C112_flow_partial.

(** examples: the points -1/2, 0, 1/2 in place of -16/15, 0, 16/15; two Keldysh components, one index behind the frequency, two internal indices *)
Definition g3s : elias := {| e_form := GKeldysh; e_se := false; e_N := 3; e_upper := 1 / 2; e_lower := - (1 / 2); e_scale := 1;
                             e_center := 0; e_purely_positive := false |}.
Lemma g3s_ok : grid_ok g3s.
Proof. unfold grid_ok, valid, away, g3s; cbn. repeat split; try lra; try lia; discriminate. Qed.
Definition b32 : marray R := mk_marray_buf [2; 3; 1; 2]%Z (map INR (seq 0 12)).
Lemma b32_wf : wf b32.
Proof. apply mk_marray_buf_wf; [discriminate|inrange|vm_compute; reflexivity|vm_compute; reflexivity]. Qed.
Lemma b32_shape gold gnew : e_N gold = 3%nat -> e_N gnew = 3%nat -> update_shape [gold] [gnew] b32 [2%Z] 1 [2%Z].
Proof. intros H1 H2. split; [exact b32_wf|]. cbn. rewrite H1, H2. split; [lia|]. split; reflexivity. Qed.
Lemma g3s_covers : covers [g3] [g3s].
Proof. constructor; [|constructor]. split; [exact g3_ok|]. split; [exact g3s_ok|]. cbn. split; [lra|]. split; [lra|]. intros; exact I. Qed.
Example C112_values_hyp : update_shape [g3] [g3s] b32 [2%Z] 1 [2%Z] /\ covers [g3] [g3s] /\ in_range ([1%Z] ++ map Z.of_nat [2%nat] ++ 0%Z :: [1%Z]) (m_length b32) /\
  at_freqs b32 [1%Z] 0 [1%Z] 0 [1%Z] = 8.
Proof. split; [apply b32_shape; reflexivity|]. split; [exact g3s_covers|]. split; [cbn; inrange|]. pos_eval. cbn. lra. Qed.
Example C112_norm_hyp : update_shape [g3] [g3s] b32 [2%Z] 1 [2%Z] /\ covers [g3] [g3s] /\ Forall (fun x => Rabs x <= 11) (m_elements b32).
Proof.
  split; [apply b32_shape; reflexivity|]. split; [exact g3s_covers|]. change (m_elements b32) with (map INR (seq 0 12)). rewrite Forall_map. apply Forall_forall. intros n Hn.
  apply in_seq in Hn. rewrite Rabs_pos_eq by apply pos_INR. replace 11 with (INR 11) by (cbn; lra). apply le_INR. lia.
Qed.
Example C112_multiaffine_hyp : multiaffine 1 (fun l => 2 * (1 + nth 0 l 0 / (4 / 5))) /\
  forall idx, Forall2 (fun g i => (i < e_N g)%nat) [g3] idx ->
    stored b32 ([0%Z] ++ map Z.of_nat idx ++ 0%Z :: repeat 0%Z (length [2%Z])) = Some (2 * (1 + nth 0 (map (fun p => aux_point (fst p) (snd p)) (combine [g3] idx)) 0 / (4 / 5))).
Proof.
  split.
  - intros l x y s r L. destruct l as [|a l]; cbn in L; [|lia]. destruct r; cbn in L; [|lia]. cbn. field.
  - intros idx H. inversion H as [|? i ? ? H1 H2]; subst. inversion H2; subst. cbn in H1. cbn [map combine fst snd nth].
    rewrite (aux_point_eq g3 (proj1 g3_ok)) by (cbn; lia). rewrite g3_lower, g3_spacing.
    assert (Ci : i = 0%nat \/ i = 1%nat \/ i = 2%nat) by lia. destruct Ci as [->|[->| ->]]; unfold stored;
      match goal with |- context [Z.to_nat ?z] => let n := eval vm_compute in (Z.to_nat z) in change (Z.to_nat z) with n end; cbn; f_equal; lra.
Qed.
Lemma g3_middle : grid_point g3 1 = 0.
Proof. unfold grid_point. cbn [g3 e_purely_positive andb]. rewrite g3_lower, g3_spacing. unfold frequency_from_t, grid_transf_inv_v2. cbn. replace (- (4 / 5) + 1 * (4 / 5)) with 0 by lra. unfold Rdiv. ring. Qed.
(** larger grid: the values at the first and last frequency vanish *)
Example C112_outside_hyp : update_shape [g3s] [g3] b32 [2%Z] 1 [2%Z] /\ (exists b, update_grid [g3s] [g3] (length [2%Z]) b32 = Some b) /\
  In (g3s, 16 / 15) (combine [g3s] (new_freqs [g3] [2%nat])) /\ Rabs (16 / 15 - e_center g3s) >= e_upper g3s + / 100000 /\
  stored b32 ([1%Z] ++ map Z.of_nat [2%nat] ++ 0%Z :: [1%Z]) = Some 11.
Proof.
  assert (Sh : update_shape [g3s] [g3] b32 [2%Z] 1 [2%Z]) by (apply b32_shape; reflexivity). split; [exact Sh|].
  assert (E0 : grid_point g3 0 = - (16 / 15)) by apply (elias_from_to g3 (proj1 g3_ok)).
  assert (E2 : grid_point g3 2 = 16 / 15) by apply (elias_from_to g3 (proj1 g3_ok)).
  split; [|split; [|split; [|unfold stored; match goal with |- context [Z.to_nat ?z] => let n := eval vm_compute in (Z.to_nat z) in change (Z.to_nat z) with n end; cbn; f_equal; lra]]].
  - pose proof Sh as (W & LG & LN & D). destruct (update_ok [g3s] [g3] b32 [2%Z] 1%Z [2%Z] W LG eq_refl D) as (b & E & _); [|exists b; exact E].
    intros idx R. destruct (shape_split _ _ _ _ _ _ _ Sh R) as (pre & js & k & post & -> & Lp & Lj & F & B).
    rewrite (shape_value _ _ _ _ 1%Z [2%Z]) by assumption. inversion F as [|? j ? ? F1 F2]; subst. inversion F2; subst. cbn in F1.
    assert (Cj : j = 1%nat \/ Rabs (grid_point g3 j - 0) >= 1 / 2 + / 100000).
    { assert (j = 0%nat \/ j = 1%nat \/ j = 2%nat) as [->|[->| ->]] by lia; [right|left; reflexivity|right]; rewrite Rminus_0_r.
      - rewrite E0, Rabs_Ropp, Rabs_pos_eq; lra.
      - rewrite E2, Rabs_pos_eq; lra. }
    destruct Cj as [->|Cj].
    + destruct (C43_between_partial [g3s] (new_freqs [g3] [1%nat]) b32 pre (map Z.of_nat [1%nat]) k post 1) as (cell & res & Ei & Lr & _); [exact LG|reflexivity|exact B| |].
      { constructor; [|constructor]. split; [exact g3s_ok|]. split; [|exact I]. cbn [fst snd]. rewrite g3_middle. cbn. lra. }
      rewrite Ei. destruct res as [|x res]; [discriminate|]. exists x. reflexivity.
    + rewrite (C44_outside_zero (map elias_axis [g3s]) (new_freqs [g3] [j]) (length pre) 1 b32 _ (elias_axis g3s) (grid_point g3 j)); [exists 0; reflexivity|left; reflexivity|exact Cj].
  - left. unfold new_freqs. cbn [combine map fst snd]. rewrite E2. reflexivity.
  - cbn. rewrite Rminus_0_r, Rabs_pos_eq; lra.
Qed.
(** the old data differ for the two internal indices *)
Example C112_internal_hyp : update_shape [g3] [g3s] b32 [2%Z] 1 [2%Z] /\ (exists b, update_grid [g3] [g3s] (length [2%Z]) b32 = Some b) /\
  stored b32 ([1%Z] ++ map Z.of_nat [2%nat] ++ 0%Z :: [1%Z]) = Some 11 /\ stored b32 ([1%Z] ++ map Z.of_nat [2%nat] ++ 0%Z :: repeat 0%Z (length [1%Z])) = Some 10.
Proof.
  assert (Sh : update_shape [g3] [g3s] b32 [2%Z] 1 [2%Z]) by (apply b32_shape; reflexivity). split; [exact Sh|].
  split; [destruct (update_inside _ _ _ _ _ _ Sh g3s_covers) as (b & E & _); exists b; exact E|].
  unfold stored. split; match goal with |- context [Z.to_nat ?z] => let n := eval vm_compute in (Z.to_nat z) in change (Z.to_nat z) with n end; cbn; f_equal; lra.
Qed.
Example C112_same_grid_hyp : update_shape [g3] [g3] b32 [2%Z] 1 [2%Z] /\ Forall grid_ok [g3].
Proof. split; [apply b32_shape; reflexivity|]. constructor; [exact g3_ok|constructor]. Qed.
Example C112_flow_hyp : Forall (fun g => (2 <= e_N g)%nat /\ e_form g = GKeldysh /\ e_center g = 0 /\ e_purely_positive g = false) [g3] /\ - (1 / 5) < 1 < 19 /\
  update_shape (map (fun g => guess_elias g 10 (1 / 5) 19) [g3]) (map (fun g => guess_elias g 10 (1 / 5) 1) [g3]) b32 [2%Z] 1 [2%Z].
Proof. split; [constructor; [cbn; repeat split; lia|constructor]|]. split; [lra|]. apply b32_shape; reflexivity. Qed.
