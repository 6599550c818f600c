(** Hybrid grids, templates, cubic interpolation, tails, self-energy. *)
From Coq Require Import Reals Lra.
From Verif Require Import Prelude Idx_Spec Idx_Proofs Arr_Model Arr_Spec Arr_Proofs Grid_Model Grid_Spec Grid_Proofs Grid_Proofs2 Grid_Proofs3 Interp_Model Interp_Spec Interp_Proofs Interp_Proofs2.
Open Scope R_scope.

(** ** hybrid grids *)
Section Hybrid.
Variable g : hybrid.
Hypotheses (H1 : 0 < h_w1 g) (H12 : h_w1 g < h_w2 g) (H2u : h_w2 g < h_upper g) (HT : 0 < h_t_upper g) (HN : (2 <= h_N g)%nat).
Lemma haux_nth i : (i < h_N g)%nat -> read (ax_pts (hybrid_axis g)) (Z.of_nat i) = Some (h_aux_point g i).
Proof.
  intro H. unfold read. cbn [ax_pts hybrid_axis]. destruct (Z.of_nat i <? 0)%Z eqn:E; [apply Z.ltb_lt in E; lia|]. rewrite Nat2Z.id.
  apply map_nth_error. rewrite nth_error_nth' with (d := 0%nat) by (rewrite seq_length; exact H). rewrite seq_nth by exact H. reflexivity.
Qed.
Lemma hybrid_located w : h_lo g <= w <= h_upper g ->
  exists i d, locate (hybrid_axis g) w = Some (Z.of_nat i, d) /\ (i <= h_N g - 2)%nat /\ - almost_zero <= d <= 1 /\
    h_t_from_frequency g w = (1 - d) * h_aux_point g i + d * h_aux_point g (S i).
Proof.
  intro H. destruct (h_index_ok g H1 H12 H2u HT HN w H) as (i & E1 & E2 & E3 & E4 & _).
  assert (St : h_aux_point g (S i) - h_aux_point g i = 1) by (rewrite !h_aux_eq by exact HN; rewrite S_INR; ring).
  exists i. eexists. split; [|split; [exact E2|]].
  - apply locate_intro; [cbn [ax_index hybrid_axis]; rewrite E1; reflexivity|apply haux_nth; lia|].
    replace (Z.of_nat i + 1)%Z with (Z.of_nat (S i)) by lia. apply haux_nth. lia.
  - rewrite St. cbn [ax_coord hybrid_axis]. unfold Rdiv. rewrite Rinv_1, Rmult_1_r. split; [lra|].
    replace (h_aux_point g (S i)) with (h_aux_point g i + 1) by lra. ring.
Qed.
(** every grid point: at the last one the cell is the last cell and the relative position 1 *)
Lemma hybrid_at_point j : (j < h_N g)%nat ->
  locate (hybrid_axis g) (h_grid_point g j) = Some (if (j =? h_N g - 1)%nat then (Z.of_nat (h_N g - 2), 1) else (Z.of_nat j, 0)).
Proof.
  intro Hj. assert (E : h_t_from_frequency g (h_grid_point g j) = h_t_lower g + INR j) by (rewrite h_grid_eq by exact HN; apply hfg; auto; apply h_dom; assumption).
  assert (I : h_get_grid_index g (h_grid_point g j) = Z.of_nat (Nat.min (h_N g - 2) j)).
  { unfold h_get_grid_index. rewrite E. replace (h_t_lower g + INR j - h_t_lower g + almost_zero) with (INR j + almost_zero) by ring.
    pose proof az as Az. assert (Az1 : almost_zero < 1) by (unfold almost_zero; lra).
    destruct (trunc_nonneg (INR j + almost_zero)) as (n & En & Bn); [pose proof (pos_INR j); lra|]. rewrite En.
    assert (n = j). { assert (n < S j)%nat by (apply INR_lt; rewrite S_INR; lra). assert (j < S n)%nat by (apply INR_lt; rewrite S_INR; lra). lia. }
    subst n. rewrite Nat2Z.inj_min, Nat2Z.inj_sub by exact HN. lia. }
  assert (LI : forall i, (S i < h_N g)%nat -> h_get_grid_index g (h_grid_point g j) = Z.of_nat i ->
    locate (hybrid_axis g) (h_grid_point g j) = Some (Z.of_nat i, INR j - INR i)).
  { intros i Hi Ei. rewrite (locate_intro (hybrid_axis g) (h_grid_point g j) (Z.of_nat i) (h_aux_point g i) (h_aux_point g (S i))).
    - cbn [ax_coord hybrid_axis]. rewrite E. f_equal. f_equal. rewrite !h_aux_eq by exact HN. rewrite S_INR. field. lra.
    - cbn [ax_index hybrid_axis]. rewrite Ei. reflexivity.
    - apply haux_nth. lia.
    - replace (Z.of_nat i + 1)%Z with (Z.of_nat (S i)) by lia. apply haux_nth. lia. }
  destruct (j =? h_N g - 1)%nat eqn:Q.
  - apply Nat.eqb_eq in Q. rewrite (LI (h_N g - 2)%nat); [| lia |rewrite I; f_equal; lia].
    f_equal. f_equal. rewrite Q, !minus_INR by lia. change (INR 2) with (1 + 1). cbn [INR]. ring.
  - apply Nat.eqb_neq in Q. rewrite (LI j); [| lia |rewrite I; f_equal; lia]. f_equal. f_equal. ring.
Qed.
End Hybrid.

(** ** the templates *)
Lemma lin1D_value ax x i d val f0 f1 : locate ax x = Some (i, d) -> val i = Some f0 -> val (i + 1)%Z = Some f1 ->
  lin1D ax x val = Some (multilinear [d] (fun o => match o with [0%Z] => f0 | _ => f1 end)).
Proof. intros L E0 E1. unfold lin1D. rewrite L. cbn [obind]. rewrite E0. cbn [obind]. rewrite E1. cbn [obind]. f_equal. Qed.
Lemma lin1D_val ax x i d (val : Z -> R) : locate ax x = Some (i, d) ->
  lin1D ax x (fun i => Some (val i)) = Some (multilinear [d] (fun o => val (i + nth 0 o 0)%Z)).
Proof. intro L. unfold lin1D. rewrite L. cbn. f_equal. rewrite Z.add_0_r. reflexivity. Qed.
Lemma lin2D_val ax ay x y i d j e (val : Z -> Z -> R) : locate ax x = Some (i, d) -> locate ay y = Some (j, e) ->
  lin2D ax ay x y (fun i j => Some (val i j)) = Some (multilinear [d; e] (fun o => val (i + nth 0 o 0)%Z (j + nth 1 o 0)%Z)).
Proof.
  intros L M. unfold lin2D. rewrite L. cbn [obind]. rewrite !(lin1D_val ay y j e) by exact M. cbn. f_equal. rewrite !Z.add_0_r. reflexivity.
Qed.
Lemma lin3D_val ax ay az x y z i d j e k f (val : Z -> Z -> Z -> R) : locate ax x = Some (i, d) -> locate ay y = Some (j, e) -> locate az z = Some (k, f) ->
  lin3D ax ay az x y z (fun i j k => Some (val i j k)) =
  Some (multilinear [d; e; f] (fun o => val (i + nth 0 o 0)%Z (j + nth 1 o 0)%Z (k + nth 2 o 0)%Z)).
Proof.
  intros L M N. unfold lin3D. rewrite L. cbn [obind]. rewrite !(lin2D_val ay az y z j e k f) by assumption. cbn. f_equal. rewrite !Z.add_0_r. reflexivity.
Qed.

(** ** cubic interpolation through four neighbours *)
Lemma lagrange4_cubic c t x0 x1 x2 x3 : x0 < x1 -> x1 < x2 -> x2 < x3 ->
  lagrange4 t x0 x1 x2 x3 (cubic c x0) (cubic c x1) (cubic c x2) (cubic c x3) = cubic c t.
Proof. intros A B C. destruct c as (((c0 & c1) & c2) & c3). unfold lagrange4, cubic. field. repeat split; lra. Qed.
Lemma sloppy_exact ax x i c : ax_index ax x = Some i -> (1 <= i)%Z -> (i + 2 < Z.of_nat (length (ax_pts ax)))%Z ->
  (forall j, (0 <= j)%Z -> (j + 1 < Z.of_nat (length (ax_pts ax)))%Z -> pt ax j < pt ax (j + 1)) ->
  sloppy1D ax x (fun j => Some (cubic c (pt ax j))) = Some (cubic c (ax_coord ax x)).
Proof.
  intros Hi L U M. assert (Rd : forall j, (0 <= j < Z.of_nat (length (ax_pts ax)))%Z -> read (ax_pts ax) j = Some (pt ax j)).
  { intros j Hj. unfold read, pt. destruct (j <? 0)%Z eqn:E; [apply Z.ltb_lt in E; lia|]. apply nth_error_nth'. lia. }
  unfold sloppy1D, sloppy_step. rewrite Hi. cbn [obind]. rewrite !Rd by lia. cbn [obind]. f_equal.
  pose proof (M (i - 1)%Z ltac:(lia) ltac:(lia)) as A. pose proof (M i ltac:(lia) ltac:(lia)) as B. pose proof (M (i + 1)%Z ltac:(lia) ltac:(lia)) as C.
  replace (i - 1 + 1)%Z with i in A by lia. replace (i + 1 + 1)%Z with (i + 2)%Z in C by lia. apply lagrange4_cubic; assumption.
Qed.

(** ** dense grids *)
Lemma dense_at_point g j : valid g -> (j < e_N g)%nat -> away g (grid_point g j) -> dense_index g (grid_point g j) = Z.of_nat j.
Proof.
  intros V Hj A. unfold dense_index. rewrite (grid_point_eq g V) in * by exact Hj.
  rewrite (fg g V) by (exact A || (apply tdom_between with (t_lower g) (t_upper g); try (apply f_range; apply V); apply (point_dom g V); exact Hj)).
  pose proof (spacing_pos g V). replace ((t_lower g + INR j * spacing g - t_lower g) / spacing g + 1 / 10) with (INR j + 1 / 10) by (field; lra).
  destruct (trunc_nonneg (INR j + 1 / 10)) as (n & En & Bn); [pose proof (pos_INR j); lra|]. rewrite En. f_equal.
  assert (n < S j)%nat by (apply INR_lt; rewrite S_INR; lra). assert (j < S n)%nat by (apply INR_lt; rewrite S_INR; lra). lia.
Qed.

(** ** self-energy *)
Lemma at1 (a : marray R) z : at_vectorized 1 a z = option_map (fun x => [x]) (nth_error (m_elements a) (Z.to_nat z)).
Proof.
  unfold at_vectorized. generalize (Z.to_nat z) as n. induction (m_elements a) as [|x l IH]; intro n; [destruct n; reflexivity|].
  destruct n as [|n]; [reflexivity|]. cbn [skipn nth_error]. apply IH.
Qed.
Definition lift2 (f : R -> R -> R) (x y : option R) : option R := match x, y with Some a, Some b => Some (f a b) | _, _ => None end.
Lemma nth_zip f : forall x y n, length x = length y -> nth_error (zip f x y) n = lift2 f (nth_error x n) (nth_error y n).
Proof.
  induction x as [|a x IH]; intros [|b y] n H; try discriminate; [destruct n; reflexivity|].
  destruct n as [|n]; [reflexivity|]. cbn. apply IH. cbn in H. lia.
Qed.
(** value at one frequency: a combination of two elements at positions which do not depend on the elements *)
Definition eval1 (ax : axis) (len cumul : list Z) (elems : list R) (w : R) (idx : list Z) : option R :=
  if in_box [ax] [w] then
    p <- locate ax w ;;
    ini <- get_flatindex_ini 2 (firstn 1 idx ++ [fst p] ++ skipn 2 idx) cumul ;;
    c0 <- nth_error cumul 1 ;;
    x0 <- nth_error elems (Z.to_nat (uadd ini (umul c0 0))) ;; x1 <- nth_error elems (Z.to_nat (uadd ini (umul c0 1))) ;;
    Some (x0 * (1 - snd p) + x1 * snd p)
  else Some 0.
Lemma eval1_ok ax a w idx : (r <- interpolate [ax] 1 1 a [w] idx ;; nth_error r 0) = eval1 ax (m_length a) (m_cumul a) (m_elements a) w idx.
Proof.
  unfold interpolate, eval1. destruct (in_box [ax] [w]); [|reflexivity]. cbn [combine map osequence fst snd].
  destruct (locate ax w) as [[i d]|]; [|reflexivity]. cbn [obind map fst snd]. unfold interpolate_cell. cbn [length get_weights obind Nat.add].
  unfold get_values. cbn [Nat.add]. destruct (get_flatindex_ini 2 (firstn 1 idx ++ [i] ++ skipn 2 idx) (m_cumul a)) as [ini|]; [|reflexivity].
  cbn [obind]. destruct (nth_error (m_cumul a) 1) as [c0|]; [|reflexivity]. cbn [obind seq map osequence]. rewrite !at1.
  change (Z.of_nat 0) with 0%Z. change (Z.of_nat 1) with 1%Z.
  destruct (nth_error (m_elements a) (Z.to_nat (uadd ini (umul c0 0)))) as [x0|]; [|reflexivity]. cbn [option_map obind].
  destruct (nth_error (m_elements a) (Z.to_nat (uadd ini (umul c0 1)))) as [x1|]; [|reflexivity]. cbn. f_equal. ring.
Qed.
Lemma eval1_zip (f : R -> R -> R) ax len cumul x y w idx : length x = length y -> f 0 0 = 0 ->
  (forall a b c e d, f a b * (1 - d) + f c e * d = f (a * (1 - d) + c * d) (b * (1 - d) + e * d)) ->
  eval1 ax len cumul (zip f x y) w idx = lift2 f (eval1 ax len cumul x w idx) (eval1 ax len cumul y w idx).
Proof.
  intros L F0 F. unfold eval1. destruct (in_box [ax] [w]); [|cbn; rewrite F0; reflexivity].
  destruct (locate ax w) as [[i d]|]; [|reflexivity]. cbn [obind fst snd].
  destruct (get_flatindex_ini 2 (firstn 1 idx ++ [i] ++ skipn 2 idx) cumul) as [ini|]; [|reflexivity]. cbn [obind].
  destruct (nth_error cumul 1) as [c0|]; [|reflexivity]. cbn [obind]. rewrite !nth_zip by exact L.
  assert (N : forall k, nth_error x k = None <-> nth_error y k = None) by (intro k; rewrite !nth_error_None, L; reflexivity).
  set (k0 := Z.to_nat (uadd ini (umul c0 0))). set (k1 := Z.to_nat (uadd ini (umul c0 1))). pose proof (N k0) as N0. pose proof (N k1) as N1.
  destruct (nth_error x k0) as [a|], (nth_error y k0) as [b|]; cbn [lift2 obind];
    try reflexivity; try (destruct N0 as [A B]; exfalso; first [specialize (A eq_refl); discriminate|specialize (B eq_refl); discriminate]).
  destruct (nth_error x k1) as [c|], (nth_error y k1) as [e|]; cbn [lift2 obind];
    try reflexivity; try (destruct N1 as [A B]; exfalso; first [specialize (A eq_refl); discriminate|specialize (B eq_refl); discriminate]).
  rewrite F. reflexivity.
Qed.
Lemma eval1_map (f : R -> R) ax len cumul x w idx : f 0 = 0 ->
  (forall a c d, f a * (1 - d) + f c * d = f (a * (1 - d) + c * d)) ->
  eval1 ax len cumul (map f x) w idx = option_map f (eval1 ax len cumul x w idx).
Proof.
  intros F0 F. unfold eval1. destruct (in_box [ax] [w]); [|cbn; rewrite F0; reflexivity].
  destruct (locate ax w) as [[i d]|]; [|reflexivity]. cbn [obind fst snd].
  destruct (get_flatindex_ini 2 (firstn 1 idx ++ [i] ++ skipn 2 idx) cumul) as [ini|]; [|reflexivity]. cbn [obind].
  destruct (nth_error cumul 1) as [c0|]; [|reflexivity]. cbn [obind]. rewrite !nth_error_map.
  destruct (nth_error x _) as [a|]; cbn [option_map obind]; [|reflexivity]. destruct (nth_error x _) as [c|]; cbn [option_map obind]; [|reflexivity].
  rewrite F. reflexivity.
Qed.
Lemma valsmooth_eval g s iK v i_in : valsmooth g s iK v i_in =
  if Rlt_dec (e_upper g + inter_tol) (Rabs v) then Some ((1 - IZR iK) * s_asymp s)
  else option_map (fun x => x + (1 - IZR iK) * s_asymp s)
         (eval1 (elias_axis g) (m_length (s_data s)) (m_cumul (s_data s)) (m_elements (s_data s)) v [iK; 0%Z; i_in]).
Proof.
  unfold valsmooth. destruct (Rlt_dec _ _); [reflexivity|]. rewrite <- eval1_ok.
  destruct (interpolate [elias_axis g] 1 1 (s_data s) [v] [iK; 0%Z; i_in]) as [r|]; [|reflexivity]. cbn [obind].
  destruct (nth_error r 0); reflexivity.
Qed.
(** same array shape *)
Definition same_shape (s t : selfenergy) : Prop :=
  m_length (s_data s) = m_length (s_data t) /\ m_cumul (s_data s) = m_cumul (s_data t) /\
  length (m_elements (s_data s)) = length (m_elements (s_data t)).
Lemma valsmooth_add g s t iK v i_in : same_shape s t ->
  valsmooth g (se_add s t) iK v i_in = lift2 Rplus (valsmooth g s iK v i_in) (valsmooth g t iK v i_in).
Proof.
  intros (A & B & C). rewrite !valsmooth_eval. cbn [se_add s_data s_asymp arr_zip m_length m_cumul m_elements].
  destruct (Rlt_dec _ _); [cbn; f_equal; ring|]. rewrite eval1_zip by (exact C || ring || (intros; ring)). rewrite A, B.
  destruct (eval1 _ _ _ (m_elements (s_data s)) v _), (eval1 _ _ _ (m_elements (s_data t)) v _); cbn; try reflexivity. f_equal. ring.
Qed.
Lemma valsmooth_sub g s t iK v i_in : same_shape s t ->
  valsmooth g (se_sub s t) iK v i_in = lift2 Rminus (valsmooth g s iK v i_in) (valsmooth g t iK v i_in).
Proof.
  intros (A & B & C). rewrite !valsmooth_eval. cbn [se_sub s_data s_asymp arr_zip m_length m_cumul m_elements].
  destruct (Rlt_dec _ _); [cbn; f_equal; ring|]. rewrite eval1_zip by (exact C || ring || (intros; ring)). rewrite A, B.
  destruct (eval1 _ _ _ (m_elements (s_data s)) v _), (eval1 _ _ _ (m_elements (s_data t)) v _); cbn; try reflexivity. f_equal. ring.
Qed.
Lemma valsmooth_mul g s c iK v i_in :
  valsmooth g (se_mul s c) iK v i_in = option_map (fun x => x * c) (valsmooth g s iK v i_in).
Proof.
  rewrite !valsmooth_eval. cbn [se_mul s_data s_asymp arr_map m_length m_cumul m_elements].
  destruct (Rlt_dec _ _); [cbn; f_equal; ring|]. rewrite (eval1_map (fun x => x * c)) by (ring || (intros; ring)).
  destruct (eval1 _ _ _ (m_elements (s_data s)) v _); cbn; try reflexivity. f_equal. ring.
Qed.

(** ** frequencies just below the lower end of an elias grid *)
Lemma trunc_below x : -1 < x < 0 -> trunc x = 0%Z.
Proof.
  intros H. unfold trunc. destruct (Rle_dec 0 x) as [K|_]; [lra|]. destruct (base_Int_part (- x)) as [A B].
  assert (Int_part (- x) = 0)%Z; [|lia]. assert (-1 < Int_part (- x) < 1)%Z; [|lia]. split; apply lt_IZR; cbn; lra.
Qed.
Lemma elias_below g w : valid g -> w < e_lower g -> away g w -> t_lower g - spacing g < t_from_frequency g w ->
  exists d, locate (elias_axis g) w = Some (0%Z, d) /\ d < 0.
Proof.
  intros V H A B. pose proof (spacing_pos g V) as SP. pose proof (VN g V) as N. destruct (elias_from_to g V) as (E0 & EN & Mono).
  assert (T : t_from_frequency g w < t_lower g) by (apply f_strict; [apply V|exact A|apply V|exact H]).
  assert (X : trunc ((t_from_frequency g w - t_lower g) / spacing g) = 0%Z).
  { apply trunc_below. split.
    - apply Rmult_lt_reg_r with (spacing g); [exact SP|]. unfold Rdiv. rewrite Rmult_assoc, Rinv_l by lra. lra.
    - apply Rmult_lt_reg_r with (spacing g); [exact SP|]. unfold Rdiv. rewrite Rmult_assoc, Rinv_l by lra. lra. }
  assert (I : get_grid_index g w = Some 0%Z).
  { unfold get_grid_index. rewrite X. unfold correct_index. change (0 + 1)%Z with (Z.of_nat 1). rewrite (read_grid g) by lia. cbn [obind].
    assert (grid_point g 0 < grid_point g 1) by (apply Mono; lia).
    destruct (Rlt_dec (grid_point g 1) w) as [K|_]; [lra|]. change 0%Z with (Z.of_nat 0). rewrite (read_grid g) by lia. cbn [obind].
    destruct (Rlt_dec w (grid_point g 0)) as [_|K]; [|lra]. change (Z.of_nat 0) with 0%Z. cbn [Z.ltb Z.compare]. f_equal. lia. }
  eexists. split.
  - apply locate_intro; [exact I|change 0%Z with (Z.of_nat 0); apply (aux_nth g); lia|change (0 + 1)%Z with (Z.of_nat 1); apply (aux_nth g); lia].
  - rewrite (aux_step g V) by lia. rewrite (aux_point_eq g V) by lia. cbn [ax_coord elias_axis INR]. rewrite Rmult_0_l, Rplus_0_r.
    apply Rmult_lt_reg_r with (spacing g); [exact SP|]. unfold Rdiv. rewrite Rmult_assoc, Rinv_l by lra. lra.
Qed.
