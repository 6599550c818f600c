(** Lemmas on the non-linear grid (C33, C34, C79) and the derivatives of its transformations (C78). *)
From Coq Require Import Reals Lra Psatz.
From Verif Require Import Prelude Grid_Model Grid_Spec Grid_Proofs.
Open Scope R_scope.

Lemma pair1 W c : 0 < W -> inverse_pair (fun w => grid_transf_v1 w W c) (fun t => grid_transf_inv_v1 t W c) 1 c.
Proof.
  intro H.
  assert (Ef : forall w, grid_transf_v1 w W c = f1 W (w - c)) by reflexivity.
  assert (Eg : forall t, grid_transf_inv_v1 t W c = c + g1 W t) by reflexivity.
  repeat split; intros; rewrite ?Ef, ?Eg.
  - pose proof (f1_range W H (w - c)). lra.
  - pose proof (f1_range W H (w - c)). lra.
  - rewrite (g1f1 W H). lra.
  - replace (c + g1 W t - c) with (g1 W t) by ring. apply (f1g1 W H). lra.
  - apply (f1_inc W H). lra.
  - apply Rplus_lt_compat_l, (g1_inc W H); lra.
  - replace (c - x - c) with (- (c + x - c)) by ring. rewrite (f1_odd W). lra.
  - rewrite (g1_odd W). lra.
Qed.
Lemma pair2 W c : 0 < W -> inverse_pair (fun w => grid_transf_v2 w W c) (fun t => grid_transf_inv_v2 t W c) 1 c.
Proof.
  intro H.
  assert (Ef : forall w, grid_transf_v2 w W c = f2 W (w - c)) by reflexivity.
  assert (Eg : forall t, grid_transf_inv_v2 t W c = c + g2 W t) by reflexivity.
  repeat split; intros; rewrite ?Ef, ?Eg.
  - pose proof (f2_range W H (w - c)). lra.
  - pose proof (f2_range W H (w - c)). lra.
  - rewrite (g2f2 W H). lra.
  - replace (c + g2 W t - c) with (g2 W t) by ring. apply (f2g2 W H). lra.
  - apply (f2_inc W H). lra.
  - apply Rplus_lt_compat_l, (g2_inc W H); lra.
  - replace (c - x - c) with (- (c + x - c)) by ring. rewrite (f2_odd W). lra.
  - rewrite (g2_odd W). lra.
Qed.
Lemma pair4 W c : 0 < W -> inverse_pair (fun w => grid_transf_v4 w W c) (fun t => grid_transf_inv_v4 t W c) 1 c.
Proof.
  intro H.
  assert (Ef : forall w, grid_transf_v4 w W c = f4 W (w - c)) by reflexivity.
  assert (Eg : forall t, grid_transf_inv_v4 t W c = c + g4 W t) by reflexivity.
  repeat split; intros; rewrite ?Ef, ?Eg.
  - pose proof (f4_range W H (w - c)). lra.
  - pose proof (f4_range W H (w - c)). lra.
  - rewrite (g4f4 W H). lra.
  - replace (c + g4 W t - c) with (g4 W t) by ring. apply (f4g4 W H). lra.
  - apply (f4_inc W H). lra.
  - apply Rplus_lt_compat_l, (g4_inc W H); lra.
  - replace (c - x - c) with (- (c + x - c)) by ring. rewrite (f4_odd W). lra.
  - rewrite (g4_odd W). lra.
Qed.

(** version 3: zero within 1e-12 of the centre, otherwise invertible *)
Definition v3_away (d : R) : Prop := d = 0 \/ almost_zero <= Rabs d.
Lemma az : 0 < almost_zero. Proof. unfold almost_zero. lra. Qed.
Lemma v3_cases w W c : (Rabs (w - c) < almost_zero /\ grid_transf_v3 w W c = 0) \/
                       (almost_zero <= Rabs (w - c) /\ w - c <> 0 /\ grid_transf_v3 w W c = f3 W (w - c)).
Proof.
  unfold grid_transf_v3. destruct (Rlt_dec (Rabs (w - c)) almost_zero) as [L|L]; [left; auto|right].
  apply Rnot_lt_le in L. split; [exact L|]. split; [|reflexivity]. intro E. rewrite E, Rabs_R0 in L. pose proof az. lra.
Qed.
Lemma v3_range w W c : 0 < W -> -1 < grid_transf_v3 w W c < 1.
Proof. intro H. destruct (v3_cases w W c) as [(_ & ->)|(_ & N & ->)]; [lra|]. apply (f3_spec W H). exact N. Qed.
Lemma v3_inv w W c : 0 < W -> v3_away (w - c) -> grid_transf_inv_v3 (grid_transf_v3 w W c) W c = w.
Proof.
  intros H A. assert (Eg : forall t, grid_transf_inv_v3 t W c = c + g3 W t) by reflexivity. rewrite Eg.
  destruct (v3_cases w W c) as [(L & ->)|(_ & N & ->)].
  - rewrite (odd_0 _ (g3_odd W)). destruct A as [A|A]; lra.
  - rewrite (g3f3 W H) by exact N. lra.
Qed.
Lemma v3_near w W c : 0 < W -> Rabs (grid_transf_inv_v3 (grid_transf_v3 w W c) W c - w) < almost_zero.
Proof.
  intros H. assert (Eg : forall t, grid_transf_inv_v3 t W c = c + g3 W t) by reflexivity. rewrite Eg.
  destruct (v3_cases w W c) as [(L & ->)|(_ & N & ->)].
  - rewrite (odd_0 _ (g3_odd W)). replace (c + 0 - w) with (- (w - c)) by ring. rewrite Rabs_Ropp. exact L.
  - rewrite (g3f3 W H) by exact N. replace (c + (w - c) - w) with 0 by ring. rewrite Rabs_R0. apply az.
Qed.
Lemma v3_back t W c : 0 < W -> -1 < t < 1 -> v3_away (grid_transf_inv_v3 t W c - c) -> grid_transf_v3 (grid_transf_inv_v3 t W c) W c = t.
Proof.
  intros H T A. assert (Eg : forall t, grid_transf_inv_v3 t W c = c + g3 W t) by reflexivity. rewrite Eg in *.
  replace (c + g3 W t - c) with (g3 W t) in A by ring.
  destruct (v3_cases (c + g3 W t) W c) as [(L & ->)|(L & N & ->)]; replace (c + g3 W t - c) with (g3 W t) in * by ring.
  - destruct A as [A|A]; [|lra]. symmetry. destruct (Req_dec t 0) as [|N]; [assumption|]. exfalso. exact (g3_nonzero W H t T N A).
  - apply (f3g3 W H); [exact T|]. intros ->. apply N. apply (odd_0 _ (g3_odd W)).
Qed.
Lemma v3_mono w w' W c : 0 < W -> w <= w' -> grid_transf_v3 w W c <= grid_transf_v3 w' W c.
Proof.
  intros H L. pose proof (f3_sign W H (w - c)) as [S1 S2]. pose proof (f3_sign W H (w' - c)) as [S3 S4]. pose proof az as Z.
  destruct (v3_cases w W c) as [(A & ->)|(A & N & ->)]; destruct (v3_cases w' W c) as [(B & ->)|(B & N' & ->)].
  - lra.
  - apply Rlt_le, S3. destruct (Rlt_dec 0 (w' - c)); [assumption|exfalso]. rewrite Rabs_left in B by lra.
    apply Rabs_def2 in A. lra.
  - apply Rlt_le, S2. destruct (Rlt_dec (w - c) 0); [assumption|exfalso]. rewrite Rabs_pos_eq in A by lra.
    apply Rabs_def2 in B. lra.
  - destruct (Rtotal_order w w') as [K|[->|K]]; [|lra|lra]. apply Rlt_le, (f3_inc W H); lra.
Qed.
Lemma v3_strict w w' W c : 0 < W -> v3_away (w - c) -> v3_away (w' - c) -> w < w' -> grid_transf_v3 w W c < grid_transf_v3 w' W c.
Proof.
  intros H A B L. destruct (Rle_lt_or_eq_dec _ _ (v3_mono w w' W c H (Rlt_le _ _ L))) as [K|K]; [exact K|].
  pose proof (v3_inv w W c H A). pose proof (v3_inv w' W c H B). rewrite K in *. lra.
Qed.
Lemma inv3_inc t t' W c : 0 < W -> -1 < t -> t < t' -> t' < 1 -> grid_transf_inv_v3 t W c < grid_transf_inv_v3 t' W c.
Proof. intros H A B C. apply Rplus_lt_compat_l, (g3_inc W H); assumption. Qed.

(** ** the grid *)
Definition away (g : elias) (w : R) : Prop :=
  match e_form g with GMatsubaraT0 => if e_se g then v3_away (w - e_center g) else True | _ => True end.
Definition tdom (g : elias) (t : R) : Prop := match e_form g with GMatsubaraT => True | _ => -1 < t < 1 end.
Definition valid (g : elias) : Prop :=
  (2 <= e_N g)%nat /\ 0 < e_scale g /\ e_lower g < e_upper g /\ away g (e_lower g) /\ away g (e_upper g) /\
  (e_purely_positive g = true -> e_lower g = 0 /\ e_center g = 0).

Lemma f_range g w : 0 < e_scale g -> tdom g (t_from_frequency g w).
Proof.
  intro H. unfold tdom, t_from_frequency. destruct (e_form g); [| |exact I].
  - apply (pair2 (e_scale g) (e_center g) H).
  - destruct (e_se g); [apply v3_range; exact H|apply (pair4 (e_scale g) (e_center g) H)].
Qed.
Lemma gf g w : 0 < e_scale g -> away g w -> frequency_from_t g (t_from_frequency g w) = w.
Proof.
  intros H A. unfold away, frequency_from_t, t_from_frequency in *. destruct (e_form g).
  - apply (pair2 (e_scale g) (e_center g) H).
  - destruct (e_se g); [apply v3_inv; assumption|apply (pair4 (e_scale g) (e_center g) H)].
  - unfold grid_transf_inv_lin, grid_transf_lin. field. lra.
Qed.
Lemma g_mono g t t' : 0 < e_scale g -> tdom g t -> tdom g t' -> t < t' -> frequency_from_t g t < frequency_from_t g t'.
Proof.
  intros H A B L. unfold tdom, frequency_from_t in *. destruct (e_form g).
  - apply (pair2 (e_scale g) (e_center g) H); lra.
  - destruct (e_se g); [apply inv3_inc; lra|apply (pair4 (e_scale g) (e_center g) H); lra].
  - unfold grid_transf_inv_lin. nra.
Qed.
Lemma f_mono g w w' : 0 < e_scale g -> w <= w' -> t_from_frequency g w <= t_from_frequency g w'.
Proof.
  intros H L. unfold t_from_frequency. destruct (e_form g).
  - destruct (Rle_lt_or_eq_dec _ _ L) as [K| ->]; [|lra]. apply Rlt_le, (pair2 (e_scale g) (e_center g) H). exact K.
  - destruct (e_se g); [apply v3_mono; assumption|].
    destruct (Rle_lt_or_eq_dec _ _ L) as [K| ->]; [|lra]. apply Rlt_le, (pair4 (e_scale g) (e_center g) H). exact K.
  - unfold grid_transf_lin, Rdiv. apply Rmult_le_compat_r; [|exact L]. apply Rlt_le, Rinv_0_lt_compat, H.
Qed.
Lemma f_strict g w w' : 0 < e_scale g -> away g w -> away g w' -> w < w' -> t_from_frequency g w < t_from_frequency g w'.
Proof.
  intros H A B L. destruct (Rle_lt_or_eq_dec _ _ (f_mono g w w' H (Rlt_le _ _ L))) as [K|K]; [exact K|].
  pose proof (gf g w H A). pose proof (gf g w' H B). rewrite K in *. lra.
Qed.
Lemma tdom_between g t t' s : tdom g t -> tdom g t' -> t <= s <= t' -> tdom g s.
Proof. unfold tdom. destruct (e_form g); intros; try exact I; lra. Qed.

Section Valid.
Variable g : elias.
Hypothesis V : valid g.
Lemma Vs : 0 < e_scale g. Proof. apply V. Qed.
Lemma VN : (2 <= e_N g)%nat. Proof. apply V. Qed.
Lemma INR_N : 1 <= INR (e_N g) - 1.
Proof. pose proof VN as H. apply le_INR in H. cbn in H. lra. Qed.
Lemma tlu : t_lower g < t_upper g.
Proof. destruct V as (_ & S & L & A & B & _). apply f_strict; assumption. Qed.
Lemma spacing_pos : 0 < spacing g.
Proof. unfold spacing. pose proof tlu. pose proof INR_N. apply Rdiv_lt_0_compat; lra. Qed.
Lemma spacing_N : (INR (e_N g) - 1) * spacing g = t_upper g - t_lower g.
Proof. unfold spacing. pose proof INR_N. field. lra. Qed.
Lemma point_dom i : (i < e_N g)%nat -> t_lower g <= t_lower g + INR i * spacing g <= t_upper g.
Proof.
  intro H. pose proof spacing_pos as P. pose proof spacing_N as E. pose proof (pos_INR i) as I.
  assert (INR i <= INR (e_N g) - 1). { assert (H' : (S i <= e_N g)%nat) by lia. apply le_INR in H'. rewrite S_INR in H'. lra. }
  split; nra.
Qed.
Lemma grid_point_eq i : (i < e_N g)%nat -> grid_point g i = frequency_from_t g (t_lower g + INR i * spacing g).
Proof.
  intro H. unfold grid_point. destruct (e_purely_positive g) eqn:E; [|reflexivity]. destruct i as [|i]; [|reflexivity]. cbn [andb Nat.eqb INR].
  destruct V as (_ & S & _ & A & _ & P). destruct (P E) as [L C]. rewrite Rmult_0_l, Rplus_0_r. unfold t_lower. rewrite gf by assumption. lra.
Qed.
Lemma aux_point_eq i : (i < e_N g)%nat -> aux_point g i = t_lower g + INR i * spacing g.
Proof.
  intro H. unfold aux_point. destruct (e_purely_positive g) eqn:E; [|reflexivity]. destruct i as [|i]; [|reflexivity]. cbn [andb Nat.eqb INR].
  destruct V as (_ & S & _ & A & _ & P). destruct (P E) as [L C]. rewrite Rmult_0_l, Rplus_0_r. unfold t_lower, t_from_frequency.
  rewrite L, C. destruct (e_form g).
  - unfold grid_transf_v2. replace (0 - 0) with 0 by ring. rewrite sgn_0. unfold Rdiv. ring.
  - destruct (e_se g).
    + unfold grid_transf_v3. replace (0 - 0) with 0 by ring. rewrite Rabs_R0. destruct (Rlt_dec 0 almost_zero); [reflexivity|]. pose proof az. lra.
    + unfold grid_transf_v4. replace (0 - 0) with 0 by ring. rewrite sgn_0. ring.
  - unfold grid_transf_lin, Rdiv. ring.
Qed.
Lemma elias_from_to : grid_from_to (grid_point g) (e_N g) (e_lower g) (e_upper g).
Proof.
  destruct V as (_ & S & L & A & B & _). pose proof VN as N.
  assert (D : forall i, (i < e_N g)%nat -> tdom g (t_lower g + INR i * spacing g)).
  { intros i Hi. apply (tdom_between g (t_lower g) (t_upper g)); [apply f_range; exact S|apply f_range; exact S|apply point_dom; exact Hi]. }
  split; [|split].
  - rewrite grid_point_eq by lia. cbn [INR]. rewrite Rmult_0_l, Rplus_0_r. apply gf; assumption.
  - rewrite grid_point_eq by lia. rewrite minus_INR by lia. cbn [INR]. rewrite spacing_N.
    replace (t_lower g + (t_upper g - t_lower g)) with (t_upper g) by ring. apply gf; assumption.
  - intros i j H. rewrite !grid_point_eq by lia. apply g_mono; [exact S|apply D; lia|apply D; lia|].
    pose proof spacing_pos. assert (INR i < INR j) by (apply lt_INR; lia). nra.
Qed.
Lemma read_grid i : (i < e_N g)%nat -> read (all_frequencies g) (Z.of_nat i) = Some (grid_point g i).
Proof.
  intro H. unfold read, all_frequencies. replace (Z.of_nat i <? 0)%Z with false by (symmetry; apply Z.ltb_ge; lia).
  rewrite Nat2Z.id. rewrite (map_nth_error _ i (seq 0 (e_N g)) (d := i)); [reflexivity|].
  rewrite (nth_error_nth' _ 0%nat) by (rewrite seq_length; exact H). rewrite seq_nth by exact H. reflexivity.
Qed.
Lemma read_out i : (Z.of_nat (e_N g) <= i)%Z -> read (all_frequencies g) i = None.
Proof.
  intro H. unfold read, all_frequencies. replace (i <? 0)%Z with false by (symmetry; apply Z.ltb_ge; lia).
  apply nth_error_None. rewrite map_length, seq_length. lia.
Qed.
Lemma trunc_nonneg x : 0 <= x -> exists i : nat, trunc x = Z.of_nat i /\ INR i <= x < INR i + 1.
Proof.
  intro H. unfold trunc. destruct (Rle_dec 0 x) as [_|N]; [|lra]. destruct (base_Int_part x) as [A B].
  assert (P : (0 <= Int_part x)%Z). { destruct (Z_lt_le_dec (Int_part x) 0) as [L|L]; [|exact L]. exfalso.
    assert (M : (Int_part x <= -1)%Z) by lia. apply IZR_le in M. change (IZR (-1)) with (-1) in M. lra. }
  exists (Z.to_nat (Int_part x)). rewrite Z2Nat.id by exact P. split; [reflexivity|]. rewrite INR_IZR_INZ, Z2Nat.id by exact P. lra.
Qed.
Lemma rescaled_nonneg w : e_lower g <= w -> 0 <= (t_from_frequency g w - t_lower g) / spacing g.
Proof.
  intro H. pose proof (f_mono g (e_lower g) w Vs H) as M. unfold t_lower. unfold Rdiv. apply Rmult_le_pos; [lra|].
  apply Rlt_le, Rinv_0_lt_compat, spacing_pos.
Qed.
Lemma div_mul_spacing x : x / spacing g * spacing g = x.
Proof. pose proof spacing_pos. field. lra. Qed.
Lemma get_grid_index_ok w : e_lower g <= w < e_upper g -> away g w ->
  exists i, get_grid_index g w = Some (Z.of_nat i) /\ (i <= e_N g - 2)%nat /\ encloses (grid_point g) i w /\ get_grid_index_linear g w = Z.of_nat i.
Proof.
  intros H A. unfold get_grid_index, get_grid_index_linear. destruct V as (N & S & L & AL & AU & _). destruct (trunc_nonneg _ (rescaled_nonneg w (proj1 H))) as (i & Ei & Bi).
  rewrite Ei. set (x := (t_from_frequency g w - t_lower g) / spacing g) in *.
  assert (X : t_from_frequency g w = t_lower g + x * spacing g) by (unfold x; rewrite div_mul_spacing; ring).
  pose proof spacing_pos as P.
  assert (U : t_from_frequency g w < t_upper g) by (apply f_strict; try assumption; lra).
  assert (I : (Datatypes.S i < e_N g)%nat).
  { pose proof spacing_N as E. assert (x < INR (e_N g) - 1) by nra. assert (INR (Datatypes.S i) < INR (e_N g)) by (rewrite S_INR; lra). apply INR_lt. exact H1. }
  assert (D : forall j, (j < e_N g)%nat -> tdom g (t_lower g + INR j * spacing g)).
  { intros j Hj. apply (tdom_between g (t_lower g) (t_upper g)); [apply f_range; exact S|apply f_range; exact S|apply point_dom; exact Hj]. }
  assert (Hlow : grid_point g i <= w).
  { rewrite grid_point_eq by lia. rewrite <- (gf g w S A) at 1. destruct (Rle_lt_or_eq_dec (INR i) x ltac:(lra)) as [K|K].
    - apply Rlt_le, g_mono; [exact S|apply D; lia|apply f_range; exact S|rewrite X; nra].
    - rewrite X, K. lra. }
  assert (Hhi : w < grid_point g (Datatypes.S i)).
  { rewrite grid_point_eq by lia. rewrite <- (gf g w S A) at 1. apply g_mono; [exact S|apply f_range; exact S|apply D; lia|].
    rewrite X, S_INR. nra. }
  exists i. split; [|split; [lia|split; [split; assumption|]]].
  2:{ rewrite Z.max_r by lia. apply Z.min_r. lia. }
  unfold correct_index. replace (Z.of_nat i + 1)%Z with (Z.of_nat (Datatypes.S i)) by lia.
  rewrite read_grid by lia. cbn [obind]. destruct (Rlt_dec (grid_point g (Datatypes.S i)) w) as [K|_]; [lra|].
  rewrite read_grid by lia. cbn [obind]. destruct (Rlt_dec w (grid_point g i)) as [K|_]; [lra|].
  f_equal. rewrite Z.max_r by lia. apply Z.min_r. lia.
Qed.
Lemma get_grid_index_out w : e_upper g <= w -> get_grid_index g w = None.
Proof.
  intros H. unfold get_grid_index. destruct V as (N & S & L & AL & AU & _).
  assert (R0 : e_lower g <= w) by lra. destruct (trunc_nonneg _ (rescaled_nonneg w R0)) as (i & Ei & Bi).
  rewrite Ei. set (x := (t_from_frequency g w - t_lower g) / spacing g) in *.
  assert (X : t_from_frequency g w = t_lower g + x * spacing g) by (unfold x; rewrite div_mul_spacing; ring).
  pose proof spacing_pos as P. pose proof (f_mono g _ _ S H) as U. fold (t_upper g) in U. pose proof spacing_N as E.
  assert (INR (e_N g) - 1 <= x) by nra.
  assert (I : (e_N g <= Datatypes.S i)%nat). { assert (INR (e_N g) < INR (i + 2)) by (rewrite plus_INR; cbn; lra). apply INR_lt in H1. lia. }
  unfold correct_index. replace (Z.of_nat i + 1)%Z with (Z.of_nat (Datatypes.S i)) by lia. rewrite read_out by lia. reflexivity.
Qed.
End Valid.

(** the correction step tolerates an index that is off by one *)
Lemma correct_index_robust : forall (grid : list R) (w : R) (i index : nat),
  (forall j k x y, (j < k)%nat -> nth_error grid j = Some x -> nth_error grid k = Some y -> x < y) ->
  (S index < length grid)%nat -> (S i < length grid)%nat ->
  (i <= S index)%nat -> (index <= S i)%nat ->
  (exists a b, nth_error grid i = Some a /\ nth_error grid (S i) = Some b /\ a <= w < b) ->
  (w <> nth (S index) grid 0) ->
  correct_index grid (Z.of_nat (length grid)) (Z.of_nat index) w = Some (Z.of_nat i).
Proof.
  intros grid w i index M B1 B2 I1 I2 (a & b & Ea & Eb & Hw) Nq. unfold correct_index, read.
  replace (Z.of_nat index + 1)%Z with (Z.of_nat (S index)) by lia.
  replace (Z.of_nat (S index) <? 0)%Z with false by (symmetry; apply Z.ltb_ge; lia). rewrite Nat2Z.id.
  destruct (nth_error grid (S index)) as [next|] eqn:En; [|apply nth_error_None in En; lia]. cbn [obind].
  rewrite (nth_error_nth _ _ 0 En) in Nq.
  assert (Cases : i = S index \/ i = index \/ S i = index) by lia.
  destruct Cases as [->|[->|C]].
  - rewrite Ea in En. injection En as <-. destruct (Rlt_dec a w) as [_|K]; [|lra].
    replace (Z.of_nat index <? Z.of_nat (length grid) - 1)%Z with true by (symmetry; apply Z.ltb_lt; lia).
    replace (Z.of_nat (S index) <? 0)%Z with false by (symmetry; apply Z.ltb_ge; lia). rewrite Nat2Z.id, Ea. cbn [obind].
    destruct (Rlt_dec w a) as [K|_]; [lra|]. f_equal. lia.
  - rewrite En in Eb. injection Eb as ->. destruct (Rlt_dec b w) as [K|_]; [lra|].
    replace (Z.of_nat index <? 0)%Z with false by (symmetry; apply Z.ltb_ge; lia). rewrite Nat2Z.id, Ea. cbn [obind].
    destruct (Rlt_dec w a) as [K|_]; [lra|]. f_equal. lia.
  - subst index. assert (b < next) by (apply (M (S i) (S (S i)) b next); [lia|assumption|assumption]).
    destruct (Rlt_dec next w) as [K|_]; [lra|].
    replace (Z.of_nat (S i) <? 0)%Z with false by (symmetry; apply Z.ltb_ge; lia). rewrite Nat2Z.id, Eb. cbn [obind].
    destruct (Rlt_dec w b) as [_|K]; [|lra].
    replace (0 <? Z.of_nat (S i))%Z with true by (symmetry; apply Z.ltb_lt; lia). f_equal. lia.
Qed.
