(** C43, C44, C46, C87, C89: interpolation on frequency grids, tails, self-energy. *)
From Coq Require Import Reals Lra.
From Verif Require Import Prelude Idx_Spec Idx_Proofs Arr_Model Arr_Spec Arr_Proofs Grid_Model Grid_Spec Grid_Proofs Grid_Proofs2 Grid_Proofs3 Grid_Props Interp_Model Interp_Spec Interp_Proofs Interp_Proofs2 Interp_Proofs3.
Open Scope R_scope.

(** ** C43 *)
Theorem C43_weights_partial : forall ds ws, get_weights ds = Some ws ->
  length ws = (2 ^ length ds)%nat /\ sumR ws = 1 /\ (Forall (fun d => 0 <= d <= 1) ds -> Forall (fun w => 0 <= w) ws).
Proof.
  intros ds ws H. split; [|split; [exact (weights_sum ds ws H)|intro F; exact (weights_nonneg ds ws F H)]].
  destruct ds as [|x [|y [|z [|u l]]]]; cbn in H; try discriminate; injection H as <-; reflexivity.
Qed.
Print Assumptions C43_weights_partial.
Example C43_weights_hyp : get_weights [1 / 4; 1 / 2; 1] =
  Some [(1 - 1 / 4) * (1 - 1 / 2) * (1 - 1); (1 - 1 / 4) * (1 - 1 / 2) * 1; (1 - 1 / 4) * (1 / 2) * (1 - 1); (1 - 1 / 4) * (1 / 2) * 1;
        (1 / 4) * (1 - 1 / 2) * (1 - 1); (1 / 4) * (1 - 1 / 2) * 1; (1 / 4) * (1 / 2) * (1 - 1); (1 / 4) * (1 / 2) * 1] /\
  Forall (fun d => 0 <= d <= 1) [1 / 4; 1 / 2; 1].
Proof. split; [reflexivity|]. repeat (apply Forall_cons || apply Forall_nil); lra. Qed.

(** the array [a] holds the frequency axes at position [length pre], and [vecsize] consecutive elements from the
    index tuple [pre, frequencies, k, 0...] on stay in its trailing dimensions *)
Definition buffer_ok (a : marray R) (ns : list nat) (pre : list Z) (k : Z) (post : list Z) (vecsize : nat) : Prop :=
  wf a /\ exists dpre dk dpost, m_length a = dpre ++ map Z.of_nat ns ++ dk :: dpost /\ in_range pre dpre /\
    in_range (k :: post) (dk :: dpost) /\ (k * prodZ dpost + Z.of_nat vecsize <= dk * prodZ dpost)%Z.
(** element [r] of the vector stored at a tuple of frequency indices *)
Definition at_freqs (a : marray R) (pre : list Z) (k : Z) (post : list Z) (r : nat) (idx : list Z) : R :=
  nth (Z.to_nat (row_major (pre ++ idx ++ k :: repeat 0%Z (length post)) (m_length a)) + r) (m_elements a) 0.
(** a grid around 0 with at least two points *)
Definition grid_ok (g : elias) : Prop := valid g /\ e_center g = 0 /\ - e_upper g <= e_lower g.
Definition inside (g : elias) (w : R) : Prop := e_lower g <= w < e_upper g /\ away g w.

Lemma elias_dims gs : dims (map elias_axis gs) = map Z.of_nat (map e_N gs).
Proof. unfold dims. rewrite !map_map. apply map_ext. intro g. cbn. unfold auxiliary_grid. rewrite map_length, seq_length. reflexivity. Qed.
Lemma inside_box gs ws : Forall2 (fun g w => grid_ok g /\ inside g w) gs ws -> in_box (map elias_axis gs) ws = true.
Proof.
  intro H. unfold in_box. induction H as [|g w gs ws [(V & C & L) [B _]] H IH]; [reflexivity|]. cbn [map combine forallb fst snd].
  rewrite IH. rewrite Bool.andb_true_r. unfold axis_in_box. cbn [ax_center ax_upper elias_axis]. destruct (Rlt_dec _ _) as [|N]; [reflexivity|].
  exfalso. apply N. rewrite C, Rminus_0_r. unfold inter_tol. apply Rabs_def1; lra.
Qed.
Lemma located_all gs ws : Forall2 (fun g w => grid_ok g /\ inside g w) gs ws ->
  exists cells : list (nat * R), locates (map elias_axis gs) ws (map (fun c => (Z.of_nat (fst c), snd c)) cells) /\
    Forall2 (fun p c => (fst c <= e_N (fst p) - 2)%nat /\ encloses (grid_point (fst p)) (fst c) (snd p) /\ 0 <= snd c <= 1 /\
       t_from_frequency (fst p) (snd p) = (1 - snd c) * aux_point (fst p) (fst c) + snd c * aux_point (fst p) (S (fst c))) (combine gs ws) cells.
Proof.
  intro H. induction H as [|g w gs ws [(V & C & L) [B A]] H (cells & IH1 & IH2)]; [exists []; split; [apply Forall2_nil|apply Forall2_nil]|].
  destruct (elias_located g V w B A) as (i & d & E1 & E2 & E3 & E4 & E5). exists ((i, d) :: cells). split.
  - unfold locates. cbn [map combine fst snd]. apply Forall2_cons; [exact E1|exact IH1].
  - cbn [combine]. apply Forall2_cons; [cbn [fst snd]; exact (conj E2 (conj E3 (conj E4 E5)))|exact IH2].
Qed.
Lemma interp_elias gs ws a pre f0 k post vecsize (cells : list (Z * R)) : (1 <= length gs <= 3)%nat -> length ws = length gs -> length f0 = length gs ->
  buffer_ok a (map e_N gs) pre k post vecsize -> in_box (map elias_axis gs) ws = true -> locates (map elias_axis gs) ws cells ->
  interpolate (map elias_axis gs) (length pre) vecsize a ws (pre ++ f0 ++ k :: post) =
  Some (map (fun r => multilinear (map snd cells) (fun o => at_freqs a pre k post r (add_tuple (map fst cells) o))) (seq 0 vecsize)).
Proof.
  intros N Lw L0 (W & dpre & dk & dpost & Dm & R1 & R2 & K) B L.
  apply (interp_value (map elias_axis gs) ws cells a pre f0 post dpre dpost k dk vecsize); rewrite ?map_length; try assumption.
  rewrite elias_dims. exact Dm.
Qed.

(** inside the box the result is between the smallest and the largest value at the corners of the cell of grid points
    which enclose the frequencies *)
Theorem C43_between_partial : forall gs ws a pre f0 k post vecsize, (1 <= length gs <= 3)%nat -> length f0 = length gs ->
  buffer_ok a (map e_N gs) pre k post vecsize -> Forall2 (fun g w => grid_ok g /\ inside g w) gs ws ->
  exists (cell : list nat) res, interpolate (map elias_axis gs) (length pre) vecsize a ws (pre ++ f0 ++ k :: post) = Some res /\
    length res = vecsize /\ Forall2 (fun p c => encloses (grid_point (fst p)) c (snd p)) (combine gs ws) cell /\
    forall r lo hi, (r < vecsize)%nat -> (forall o, corner o (length gs) -> lo <= at_freqs a pre k post r (add_tuple (map Z.of_nat cell) o) <= hi) ->
      lo <= nth r res 0 <= hi.
Proof.
  intros gs ws a pre f0 k post vecsize N L0 B F. assert (Lw : length ws = length gs) by (symmetry; eapply Forall2_length; exact F).
  destruct (located_all gs ws F) as (cells & C1 & C2). exists (map fst cells). eexists.
  split; [apply interp_elias; [exact N|exact Lw|exact L0|exact B|apply inside_box; exact F|exact C1]|].
  split; [rewrite map_length, seq_length; reflexivity|]. split.
  { clear - C2. induction C2 as [|p c l cs H1 H2 IH]; [constructor|]. cbn [map]. constructor; [apply H1|exact IH]. }
  intros r lo hi Hr Hb. rewrite nth_indep with (d' := multilinear (map snd (map (fun c => (Z.of_nat (fst c), snd c)) cells)) (fun o => at_freqs a pre k post 0 (add_tuple (map fst (map (fun c => (Z.of_nat (fst c), snd c)) cells)) o))) by (rewrite map_length, seq_length; exact Hr).
  rewrite (map_nth (fun r => multilinear (map snd (map (fun c => (Z.of_nat (fst c), snd c)) cells)) (fun o => at_freqs a pre k post r (add_tuple (map fst (map (fun c => (Z.of_nat (fst c), snd c)) cells)) o)))).
  rewrite seq_nth by exact Hr. cbn [Nat.add].
  assert (Lc : length cells = length gs) by (pose proof (Forall2_length _ _ _ C2) as Q; rewrite combine_length in Q; lia).
  apply mult_between.
  - rewrite map_map. cbn [snd]. clear - C2. induction C2 as [|p c l cs H1 H2 IH]; [constructor|]. cbn [map]. constructor; [apply H1|exact IH].
  - rewrite !map_length, Lc. intros o Ho. rewrite map_map. cbn [fst]. specialize (Hb o Ho). rewrite map_map in Hb. exact Hb.
Qed.
Print Assumptions C43_between_partial.

(** exact at every grid point except those with the last index of a dimension *)
Theorem C43_grid_points_partial : forall gs js a pre f0 k post vecsize, (1 <= length gs <= 3)%nat -> length f0 = length gs ->
  buffer_ok a (map e_N gs) pre k post vecsize ->
  Forall2 (fun g j => grid_ok g /\ (S j < e_N g)%nat /\ away g (grid_point g j)) gs js ->
  interpolate (map elias_axis gs) (length pre) vecsize a (map (fun p => grid_point (fst p) (snd p)) (combine gs js)) (pre ++ f0 ++ k :: post) =
  Some (map (fun r => at_freqs a pre k post r (map Z.of_nat js)) (seq 0 vecsize)).
Proof.
  intros gs js a pre f0 k post vecsize N L0 B F. assert (Lj : length js = length gs) by (symmetry; eapply Forall2_length; exact F).
  assert (F2 : Forall2 (fun g w => grid_ok g /\ inside g w) gs (map (fun p => grid_point (fst p) (snd p)) (combine gs js))).
  { clear - F. induction F as [|g j gs js (G & J & A) F IH]; [constructor|]. cbn [combine map fst snd]. constructor; [|exact IH].
    split; [exact G|]. split; [|exact A]. destruct G as (V & _ & _). destruct (elias_from_to g V) as (E0 & EN & Mono). pose proof (VN g V).
    split.
    - destruct j as [|j]; [rewrite E0; lra|]. rewrite <- E0. left. apply Mono; lia.
    - rewrite <- EN. apply Mono; lia. }
  assert (LL : locates (map elias_axis gs) (map (fun p => grid_point (fst p) (snd p)) (combine gs js)) (map (fun j => (Z.of_nat j, 0)) js)).
  { clear - F. unfold locates. induction F as [|g j gs js (G & J & A) F IH]; [constructor|]. cbn [combine map fst snd]. constructor; [|exact IH].
    cbn [fst snd]. apply elias_at_point; [apply G|exact J|exact A]. }
  rewrite (interp_elias gs _ a pre f0 k post vecsize (map (fun j => (Z.of_nat j, 0)) js)); try assumption.
  - f_equal. apply map_ext. intro r. rewrite !map_map. cbn [fst snd]. replace (map (fun _ : nat => 0) js) with (repeat 0 (length js)).
    + rewrite mult_zeros. f_equal. clear. induction js as [|j js IH]; [reflexivity|]. cbn. f_equal; [apply Z.add_0_r|exact IH].
    + clear. induction js as [|j js IH]; [reflexivity|]. cbn. f_equal. exact IH.
  - rewrite map_length, combine_length. lia.
  - apply inside_box. exact F2.
Qed.
Print Assumptions C43_grid_points_partial.

(** exact for functions which are affine in each coordinate t(w) *)
Theorem C43_multiaffine_partial : forall gs ws a pre f0 k post vecsize r F, (1 <= length gs <= 3)%nat -> length f0 = length gs ->
  buffer_ok a (map e_N gs) pre k post vecsize -> Forall2 (fun g w => grid_ok g /\ inside g w) gs ws -> (r < vecsize)%nat ->
  multiaffine (length gs) F ->
  (forall idx, Forall2 (fun g i => (i < e_N g)%nat) gs idx ->
     at_freqs a pre k post r (map Z.of_nat idx) = F (map (fun p => aux_point (fst p) (snd p)) (combine gs idx))) ->
  exists res, interpolate (map elias_axis gs) (length pre) vecsize a ws (pre ++ f0 ++ k :: post) = Some res /\
    nth_error res r = Some (F (map (fun p => t_from_frequency (fst p) (snd p)) (combine gs ws))).
Proof.
  intros gs ws a pre f0 k post vecsize r F N L0 B G Hr M D. assert (Lw : length ws = length gs) by (symmetry; eapply Forall2_length; exact G).
  destruct (located_all gs ws G) as (cells & C1 & C2). eexists.
  split; [apply interp_elias; [exact N|exact Lw|exact L0|exact B|apply inside_box; exact G|exact C1]|].
  rewrite nth_error_map, (nth_error_nth' (seq 0 vecsize) 0%nat) by (rewrite seq_length; exact Hr). rewrite seq_nth by exact Hr. cbn [option_map Nat.add].
  f_equal. rewrite !map_map. cbn [fst snd].
  assert (Lc : length cells = length gs) by (pose proof (Forall2_length _ _ _ C2) as Q; rewrite combine_length in Q; lia).
  set (xs := map (fun p => aux_point (fst p) (snd p)) (combine gs (map fst cells))).
  set (ys := map (fun p => aux_point (fst p) (S (snd p))) (combine gs (map fst cells))).
  assert (Lx : length xs = length gs) by (unfold xs; rewrite map_length, combine_length, map_length; lia).
  assert (Ly : length ys = length gs) by (unfold ys; rewrite map_length, combine_length, map_length; lia).
  rewrite (mult_ext _ _ (fun o => F ([] ++ pick o xs ys))).
  - rewrite (mult_affine F (length gs) M) by (rewrite ?map_length; cbn; lia). cbn [app]. f_equal.
    unfold xs, ys. clear - C2 Lw Lc. revert ws cells C2 Lw Lc. induction gs as [|g gs IH]; intros ws cells C2 Lw Lc; [destruct cells; [reflexivity|discriminate]|].
    destruct ws as [|w ws]; [discriminate|]. destruct cells as [|c cells]; [discriminate|]. cbn [combine] in C2. inversion C2 as [|? ? ? ? H1 H2]; subst.
    cbn [map combine fst snd mix]. f_equal; [symmetry; apply H1|]. apply IH; [exact H2|cbn in Lw; lia|cbn in Lc; lia].
  - rewrite map_length, Lc. intros o [Lo Fo]. cbn [app].
    assert (Q : exists idx, add_tuple (map (fun x => Z.of_nat (fst x)) cells) o = map Z.of_nat idx /\ Forall2 (fun g i => (i < e_N g)%nat) gs idx /\
      map (fun p => aux_point (fst p) (snd p)) (combine gs idx) = pick o xs ys).
    { unfold xs, ys. assert (VN2 : Forall (fun g => (2 <= e_N g)%nat) gs).
      { clear - G. induction G as [|g w gs ws [(V & _) _] G IH]; constructor; [apply V|exact IH]. }
      clear - C2 Lw Lc Lo Fo VN2. revert ws cells o C2 Lw Lc Lo Fo. induction gs as [|g gs IH]; intros ws cells o C2 Lw Lc Lo Fo.
      - destruct cells; [|discriminate]. destruct o; [|discriminate]. exists []. repeat split; constructor.
      - destruct ws as [|w ws]; [discriminate|]. destruct cells as [|c cells]; [discriminate|]. destruct o as [|z o]; [discriminate|].
        cbn [combine] in C2. inversion C2 as [|? ? ? ? H1 H2]; subst. inversion Fo as [|? ? Hz Fo']; subst. inversion VN2 as [|? ? Hn VN3]; subst.
        destruct (IH VN3 ws cells o H2) as (idx & I1 & I2 & I3); try (cbn in *; lia); [exact Fo'|]. cbn [fst snd] in H1. destruct H1 as (H1 & _).
        exists ((fst c + Z.to_nat z)%nat :: idx). cbn [map combine fst snd add_tuple pick]. split; [|split].
        + f_equal; [|exact I1]. destruct Hz; subst z; lia.
        + constructor; [|exact I2]. destruct Hz; subst z; lia.
        + f_equal; [|exact I3]. destruct Hz; subst z; cbn; [rewrite Nat.add_0_r; reflexivity|]. f_equal. lia. }
    destruct Q as (idx & I1 & I2 & I3). rewrite I1. rewrite D by exact I2. f_equal. exact I3.
Qed.
Print Assumptions C43_multiaffine_partial.

(** neighbouring cells agree on their common face: relative position 1 in dimension [length l] of a cell gives the same
    as relative position 0 in the next cell *)
Theorem C43_faces : forall (a : marray R) (pre f0 lc rc post : list Z) (c k : Z) (l r : list R) (vecsize : nat),
  wf a -> (1 <= length (lc ++ c :: rc) <= 3)%nat -> length f0 = length (lc ++ c :: rc) -> length l = length lc -> length r = length rc ->
  in_range (pre ++ (lc ++ c :: rc) ++ k :: post) (m_length a) ->
  in_range (pre ++ map (fun x => x + 1)%Z (lc ++ (c + 1)%Z :: rc) ++ k :: post) (m_length a) ->
  (k * prodZ (skipn (S (length pre + length (lc ++ c :: rc))) (m_length a)) + Z.of_nat vecsize <= prodZ (skipn (length pre + length (lc ++ c :: rc)) (m_length a)))%Z ->
  exists res, interpolate_cell (length pre) vecsize a (pre ++ f0 ++ k :: post) (lc ++ c :: rc) (l ++ 1 :: r) = Some res /\
              interpolate_cell (length pre) vecsize a (pre ++ f0 ++ k :: post) (lc ++ (c + 1)%Z :: rc) (l ++ 0 :: r) = Some res.
Proof.
  intros a pre f0 lc rc post c k l r vecsize W N L0 Ll Lr R1 R2 K.
  assert (Mid : forall n, (0 <= n <= 1)%Z -> in_range (pre ++ (lc ++ (c + n)%Z :: rc) ++ k :: post) (m_length a) /\
    in_range (pre ++ map (fun x => x + 1)%Z (lc ++ (c + n)%Z :: rc) ++ k :: post) (m_length a)).
  { intros n Hn. unfold in_range in *. revert R1 R2. rewrite !map_app. cbn [map]. generalize (m_length a) as ds. clear - Hn. induction pre as [|p pre IH]; intros ds R1 R2.
    - revert ds R1 R2. cbn [app]. induction lc as [|x lc IHl]; intros ds R1 R2; cbn [app map] in *.
      + inversion R1; subst. inversion R2; subst. split; (constructor; [lia|]); [assumption|assumption].
      + inversion R1; subst. inversion R2; subst. destruct (IHl _ H3 H6). split; (constructor; [lia|assumption]).
    - cbn [app] in *. inversion R1; subst. inversion R2; subst. destruct (IH _ H3 H6). split; (constructor; [lia|assumption]). }
  assert (L1 : length (lc ++ (c + 1)%Z :: rc) = length (lc ++ c :: rc)) by (rewrite !app_length; reflexivity).
  eexists. split.
  - apply cell_value; try assumption; [rewrite !app_length; cbn; lia|]. destruct (Mid 0%Z ltac:(lia)) as [_ M]. rewrite Z.add_0_r in M. exact M.
  - rewrite cell_value; try assumption.
    + f_equal. apply map_ext. intro s. rewrite mult_face. apply mult_ext. intros o _. f_equal. f_equal. f_equal.
      rewrite add_bump. f_equal. clear - Ll. revert l Ll. induction lc as [|x lc IH]; intros [|y l] Ll; try discriminate; [reflexivity|]. cbn. f_equal. apply IH. cbn in Ll. lia.
    + rewrite L1. exact N.
    + rewrite L1. exact L0.
    + rewrite !app_length. cbn. lia.
    + apply (Mid 1%Z). lia.
    + rewrite L1. exact K.
Qed.
Print Assumptions C43_faces.

(** the same frequencies given one index further in the buffer: the templates for functions of grid indices *)
Theorem C43_templates : forall ax ay az x y z i d j e k f (val : Z -> Z -> Z -> R),
  locate ax x = Some (i, d) -> locate ay y = Some (j, e) -> locate az z = Some (k, f) ->
  lin1D ax x (fun i => Some (val i 0%Z 0%Z)) = Some (multilinear [d] (fun o => val (i + nth 0 o 0)%Z 0%Z 0%Z)) /\
  lin2D ax ay x y (fun i j => Some (val i j 0%Z)) = Some (multilinear [d; e] (fun o => val (i + nth 0 o 0)%Z (j + nth 1 o 0)%Z 0%Z)) /\
  lin3D ax ay az x y z (fun i j k => Some (val i j k)) =
    Some (multilinear [d; e; f] (fun o => val (i + nth 0 o 0)%Z (j + nth 1 o 0)%Z (k + nth 2 o 0)%Z)).
Proof.
  intros ax ay az x y z i d j e k f val L M N. split; [|split].
  - apply (lin1D_val ax x i d (fun i => val i 0%Z 0%Z) L).
  - apply (lin2D_val ax ay x y i d j e (fun i j => val i j 0%Z) L M).
  - apply lin3D_val; assumption.
Qed.
Print Assumptions C43_templates.

(** hybrid grids: all grid points, also the last one; positions inside are never extrapolated by more than 1e-12 cells *)
Theorem C43_hybrid : forall g val, ordered g -> (2 <= h_N g)%nat ->
  (forall j, (j < h_N g)%nat -> lin1D (hybrid_axis g) (h_grid_point g j) (fun i => Some (val i)) = Some (val (Z.of_nat j))) /\
  (forall w, h_lo g <= w <= h_upper g -> exists i d, (0 <= i <= Z.of_nat (h_N g) - 2)%Z /\ - (1 / 1000000000000) <= d <= 1 /\
     lin1D (hybrid_axis g) w (fun i => Some (val i)) = Some ((1 - d) * val i + d * val (i + 1)%Z)).
Proof.
  intros g val (H1 & H12 & H2u & HT) HN. split.
  - intros j Hj. pose proof (hybrid_at_point g H1 H12 H2u HT HN j Hj) as E. unfold lin1D. rewrite E.
    destruct (j =? h_N g - 1)%nat eqn:Q; cbn [obind].
    + apply Nat.eqb_eq in Q. f_equal. replace (Z.of_nat (h_N g - 2) + 1)%Z with (Z.of_nat j) by lia. ring.
    + f_equal. ring.
  - intros w Hw. destruct (hybrid_located g H1 H12 H2u HT HN w Hw) as (i & d & E & B & D & _). exists (Z.of_nat i), d.
    split; [lia|]. split; [unfold almost_zero in D; lra|]. unfold lin1D. rewrite E. reflexivity.
Qed.
Print Assumptions C43_hybrid.
