From Coq Require Import Reals Lra.
From Verif Require Import Prelude Idx_Proofs Arr_Model Interp_Model State_Model State_Spec State_Proofs.
Open Scope R_scope.

(** ** C47: vector space *)
Theorem C47_componentwise : forall m s t c, matching s t ->
  exists u d, st_add m s t = Some u /\ st_sub m s t = Some d /\
    (forall l, active m l -> entry u l = lift2 cadd (entry s l) (entry t l) /\ entry d l = lift2 csub (entry s l) (entry t l) /\
                             entry (st_scale m s c) l = option_map (fun x => cscale x c) (entry s l)) /\
    (forall l, ~ active m l -> entry u l = entry s l /\ entry d l = entry s l /\ entry (st_scale m s c) l = entry s l) /\
    grids_of u = grids_of s /\ grids_of d = grids_of s /\ grids_of (st_scale m s c) = grids_of s /\
    Lambda u = Lambda s /\ Lambda d = Lambda s /\ Lambda (st_scale m s c) = Lambda s.
Proof.
  intros m s t c H. exists (sz m cadd s t), (sz m csub s t). split; [apply st_add_ok; exact H|]. split; [apply st_sub_ok; exact H|].
  split; [intros l A; split; [apply sz_entry; assumption|split; [apply sz_entry; assumption|apply scale_entry; exact A]]|].
  split; [intros l A; split; [apply sz_entry_inactive; exact A|split; [apply sz_entry_inactive; exact A|apply scale_entry_inactive; exact A]]|].
  split; [apply sz_grids|]. split; [apply sz_grids|]. split; [apply scale_grids|]. repeat split.
Qed.
Print Assumptions C47_componentwise.

(** the laws, for states which can be combined pairwise (the tolerance on the grids is not transitive) *)
Theorem C47_laws : forall m s t u x y, matching s s -> matching s t -> matching t u -> matching s u ->
  (exists st tu r, st_add m s t = Some st /\ st_add m t u = Some tu /\ st_add m st u = Some r /\ st_add m s tu = Some r) /\
  (exists st, st_add m s t = Some st /\ st_add m (st_scale m s x) (st_scale m t x) = Some (st_scale m st x)) /\
  st_add m (st_scale m s x) (st_scale m s y) = Some (st_scale m s (x + y)) /\
  st_scale m (st_scale m s x) y = st_scale m s (x * y) /\
  st_scale m s 1 = s /\
  st_add m s (st_scale m t 0) = Some s /\
  st_sub m s t = st_add m s (st_scale m t (-1)) /\
  st_sub m s s = Some (st_scale m s 0).
Proof.
  intros m s t u x y SS ST TU SU. pose proof SS as (N & _). pose proof TU as (Nt & _).
  split. { exists (sz m cadd s t), (sz m cadd t u), (sz m cadd (sz m cadd s t) u). split; [apply st_add_ok; exact ST|]. split; [apply st_add_ok; exact TU|].
    split; [apply st_add_ok; apply matching_l; assumption|]. rewrite sz_assoc. apply st_add_ok. apply matching_r; assumption. }
  split. { exists (sz m cadd s t). split; [apply st_add_ok; exact ST|]. rewrite sz_scale by exact N. apply st_add_ok. apply matching_scale_l, matching_scale_r; exact ST. }
  split. { rewrite sz_sum by exact N. apply st_add_ok. apply matching_scale_l, matching_scale_r; exact SS. }
  split; [apply scale_scale; exact N|]. split; [apply scale_1; exact N|].
  split. { rewrite st_add_ok by (apply matching_scale_r; exact ST). rewrite sz_0 by exact ST. reflexivity. }
  split. { rewrite st_sub_ok by exact ST. rewrite st_add_ok by (apply matching_scale_r; exact ST). rewrite sz_sub by exact Nt. reflexivity. }
  rewrite st_sub_ok by exact SS. rewrite sz_sub by exact N. f_equal.
  replace (st_scale m s 0) with (st_scale m s (1 + -1)) by (f_equal; ring). rewrite sz_sum by exact N. rewrite scale_1 by exact N. reflexivity.
Qed.
Print Assumptions C47_laws.

(** the sum does not depend on the order, apart from the grids, the flow parameter and the inactive classes of the left operand *)
Theorem C47_commutative : forall m s t, matching s t -> matching t s ->
  exists u v, st_add m s t = Some u /\ st_add m t s = Some v /\ forall l, active m l -> entry u l = entry v l.
Proof.
  intros m s t A B. exists (sz m cadd s t), (sz m cadd t s). split; [apply st_add_ok; exact A|]. split; [apply st_add_ok; exact B|].
  intros l Al. rewrite !sz_entry by assumption. destruct (entry s l), (entry t l); cbn; try reflexivity. f_equal. ceq.
Qed.
Print Assumptions C47_commutative.

(** evaluating a buffer at arbitrary frequencies is linear, for buffers on the same grids *)
Theorem C47_evaluation : forall m b c pos vecsize ws idx x, buf_match b c -> b_grids b = b_grids c -> m_cumul (b_data b) = m_cumul (b_data c) ->
  (exists s, buf_zip m cadd b c = Some s /\ buf_eval pos vecsize s ws idx = lift2 (zip2 cadd) (buf_eval pos vecsize b ws idx) (buf_eval pos vecsize c ws idx)) /\
  (exists d, buf_zip m csub b c = Some d /\ buf_eval pos vecsize d ws idx = lift2 (zip2 csub) (buf_eval pos vecsize b ws idx) (buf_eval pos vecsize c ws idx)) /\
  buf_eval pos vecsize (buf_map (fun z => cscale z x) b) ws idx = option_map (map (fun z => cscale z x)) (buf_eval pos vecsize b ws idx).
Proof.
  intros m b c pos vs ws idx x M G CU. pose proof M as (Sh & _). assert (A : map g_axis (b_grids b) = map g_axis (b_grids c)) by (rewrite G; reflexivity).
  assert (L : forall f u v, (forall p q, f p q = clin u v p q) -> exists s, buf_zip m f b c = Some s /\
    buf_eval pos vs s ws idx = lift2 (zip2 f) (buf_eval pos vs b ws idx) (buf_eval pos vs c ws idx)).
  { intros f u v F. exists (bz f b c). split; [apply buf_zip_ok; exact M|]. rewrite (bz_ext f (clin u v) b c F), eval_bz by assumption.
    destruct (buf_eval pos vs b ws idx) as [p|], (buf_eval pos vs c ws idx) as [q|]; cbn; try reflexivity. f_equal. apply zip2_ext. intros; symmetry; apply F. }
  split; [apply (L cadd 1 1 clin_add)|]. split; [apply (L csub 1 (-1) clin_sub)|].
  rewrite buf_map_bz, (bz_ext _ (clin x 0)). 2:{ intros p q. rewrite clin_scale. unfold clin. apply comp_eq; cbn; ring. }
  rewrite eval_bz by (try split; reflexivity). destruct (buf_eval pos vs b ws idx) as [p|]; [|reflexivity]. cbn. rewrite zip2_diag. f_equal. apply map_ext. intros z. symmetry. apply clin_scale.
Qed.
Print Assumptions C47_evaluation.

(** a state with one number per buffer *)
Definition ax0 : axis := {| ax_index := fun _ => Some 0%Z; ax_coord := fun w => w; ax_pts := [0; 1]; ax_center := 0; ax_upper := 1 |}.
Definition gr0 : grid := {| g_freqs := [0; 1]; g_axis := ax0 |}.
Definition gr1 : grid := {| g_freqs := [0; 5]; g_axis := ax0 |}.
Definition one (gs : list grid) (x : comp) : buffer := Buffer gs (Marray [1%Z] [1%Z] [x]).
Definition rv1 (x : comp) : rvert := Rvert (one [gr0] x) (one [gr0; gr0] x) (one [gr0; gr0] x) (one [gr0; gr0; gr0] x).
Definition fv1 (x y : comp) : fullvert := Fullvert (Marray [1%Z] [1%Z] [y]) (rv1 x) (rv1 x) (rv1 x).
Definition st1 (x y : comp) : state := State 0 (Genvertex (fv1 x y) None) (Selfen (one [gr0] x) y).
Definition dflt : build := {| ndebug := false; max_diag_class := 3; debug_symmetries := true |}.
Lemma near_refl g : near g g.
Proof.
  unfold near. pose proof tol_pos as T. induction (g_freqs g) as [|x l IH]; [constructor|]. constructor; [|exact IH].
  replace (x - x) with 0 by ring. rewrite Rabs_R0. lra.
Qed.
Lemma st1_match x y x' y' : matching (st1 x y) (st1 x' y').
Proof.
  assert (B : forall gs z z', gs <> [] -> buf_match (one gs z) (one gs z')).
  { intros gs z z' N. split; [split; reflexivity|]. split; [exact N|]. cbn. induction gs as [|g gs IH]; [constructor|].
    clear N. constructor; [apply near_refl|]. destruct gs; [constructor|apply IH; discriminate]. }
  split; [reflexivity|]. split; [reflexivity|]. split; [apply B; discriminate|]. split; [split; reflexivity|].
  intros [| |] [| | |]; apply B; discriminate.
Qed.
Example C47_componentwise_hyp : matching (st1 (1, 2) (3, 4)) (st1 (5, 6) (7, 8)) /\ active dflt (LK CP C2b 0) /\ entry (st1 (1, 2) (3, 4)) (LK CP C2b 0) = Some (1, 2).
Proof. split; [apply st1_match|]. split; [split; [reflexivity|cbn; lia]|reflexivity]. Qed.
Example C47_laws_hyp : matching (st1 (1, 2) (3, 4)) (st1 (1, 2) (3, 4)) /\ matching (st1 (1, 2) (3, 4)) (st1 (5, 6) (7, 8)) /\
  matching (st1 (5, 6) (7, 8)) (st1 (0, 9) (1, 0)) /\ matching (st1 (1, 2) (3, 4)) (st1 (0, 9) (1, 0)).
Proof. split; [apply st1_match|]. split; [apply st1_match|]. split; apply st1_match. Qed.
Example C47_commutative_hyp : matching (st1 (1, 2) (3, 4)) (st1 (5, 6) (7, 8)) /\ matching (st1 (5, 6) (7, 8)) (st1 (1, 2) (3, 4)).
Proof. split; apply st1_match. Qed.
Definition two (x y : comp) : buffer := Buffer [gr0] (Marray [1; 2; 1]%Z [2; 1; 1]%Z [x; y]).
Example C47_evaluation_hyp : buf_match (two (1, 2) (3, 4)) (two (5, 6) (7, 8)) /\
  buf_eval 1 1 (two (1, 2) (3, 4)) [1 / 2] [0; 0; 0]%Z = Some [(2, 3)].
Proof.
  split. { split; [split; reflexivity|]. split; [discriminate|]. constructor; [apply near_refl|constructor]. }
  unfold buf_eval. cbn [two b_grids b_data map g_axis gr0 amap m_elements m_length m_cumul fst snd]. unfold interpolate, in_box. cbn [combine forallb fst snd].
  assert (axis_in_box ax0 (1 / 2) = true) as ->.
  { unfold axis_in_box, Grid_Model.inter_tol. cbn [ax0 ax_center ax_upper]. destruct (Rlt_dec _ _) as [|K]; [reflexivity|exfalso; apply K].
    replace (1 / 2 - 0) with (1 / 2) by lra. rewrite Rabs_pos_eq by lra. lra. }
  cbn [andb map osequence locate fst snd ax0 ax_index ax_pts ax_coord obind]. unfold locate. cbn [ax0 ax_index ax_pts ax_coord obind].
  assert (Grid_Model.read [0; 1] 0 = Some 0) as -> by reflexivity. change (0 + 1)%Z with 1%Z. assert (Grid_Model.read [0; 1] 1 = Some 1) as -> by reflexivity.
  cbn [obind osequence map fst snd]. unfold interpolate_cell. cbn [length get_weights obind].
  assert (E : forall p q : R, get_values 1 1 1 2 (Marray [1; 2; 1]%Z [2; 1; 1]%Z [p; q]) (firstn 1 [0; 0; 0]%Z ++ [0%Z] ++ skipn (1 + 1) [0; 0; 0]%Z) = Some [[p]; [q]]) by reflexivity.
  unfold amap. cbn [m_elements m_length m_cumul map fst snd]. rewrite !E. cbn [obind map seq dot nth combine]. f_equal. f_equal. apply comp_eq; cbn [fst snd]; field.
Qed.

(** ** C48: absolute value *)
Theorem C48_selfenergy_partial : forall m s l, (exists i, l = LSigma i) -> entry (st_abs m s) l = option_map (fun x => (cabs x, 0)) (entry s l).
Proof. intros m s l [i ->]. cbn. apply nth_error_map. Qed.
Print Assumptions C48_selfenergy_partial.
Example C48_selfenergy_partial_hyp : entry (st_abs dflt (st1 (3, 4) (0, 0))) (LSigma 0) = Some (5, 0).
Proof.
  rewrite C48_selfenergy_partial by (exists 0%nat; reflexivity). cbn. f_equal. apply comp_eq; cbn; [|reflexivity]. unfold cabs. cbn [fst snd].
  replace (3 * 3 + 4 * 4) with (5 * 5) by ring. apply sqrt_square. lra.
Qed.
(** everything else keeps its value, whatever it is: no state with another entry than a non-negative real number is treated correctly *)
Theorem C48_vertex_refuted : forall m s l, (forall i, l <> LSigma i) -> entry (st_abs m s) l = entry s l.
Proof.
  intros m s l N. destruct l as [i| |i|c k i]; [exfalso; apply (N i); reflexivity|reflexivity|reflexivity|].
  cbn [entry fv_entry st_abs vertex half1]. assert (in_channel c (fv_abs m (half1 (vertex s))) = in_channel c (half1 (vertex s))) as E.
  { unfold fv_abs. destruct c; cbn [in_channel avertex pvertex tvertex]; unfold rv_map, by_value; cbv zeta;
    repeat match goal with |- context [if ?b then _ else _] => destruct b end; (destruct (avertex (half1 (vertex s))), (pvertex (half1 (vertex s))), (tvertex (half1 (vertex s)))); reflexivity. }
  rewrite E. reflexivity.
Qed.
Print Assumptions C48_vertex_refuted.
Example C48_vertex_refuted_hyp : entry (st_abs dflt (st1 (-1, 0) (-2, 0))) (LK CA C1 0) = Some (-1, 0) /\ entry (st_abs dflt (st1 (-1, 0) (-2, 0))) LAsymp = Some (-2, 0) /\
  cabs (-1, 0) = 1.
Proof.
  split; [apply (C48_vertex_refuted dflt (st1 (-1, 0) (-2, 0)) (LK CA C1 0)); discriminate|]. split; [reflexivity|].
  unfold cabs. cbn [fst snd]. replace (-1 * -1 + 0 * 0) with 1 by ring. apply sqrt_1.
Qed.

(** ** C88: scaling of vertices stored with two halves *)
Definition gv_entries (v : genvertex) (l : label) : option comp * option comp := (fv_entry (half1 v) l, match half2 v with Some h => fv_entry h l | None => None end).
Definition is_vertex_label (l : label) : Prop := match l with LSigma _ | LAsymp => False | _ => True end.
Lemma fv_map_entry m f v l : is_vertex_label l -> active m l -> fv_entry (fv_map m f v) l = option_map f (fv_entry v l).
Proof.
  intros V A. destruct l as [i| |i|c k i]; try contradiction; cbn [fv_entry]; [apply nth_error_map|]. rewrite fv_map_channel, rv_map_active by exact A. apply nth_error_map.
Qed.
Theorem C88_first_half_partial : forall m v c l, is_vertex_label l -> active m l ->
  fst (gv_entries (gv_scale m v c) l) = option_map (fun x => cscale x c) (fst (gv_entries v l)).
Proof. intros m v c l V A. cbn [gv_entries fst gv_scale half1]. apply fv_map_entry; assumption. Qed.
Print Assumptions C88_first_half_partial.
(** the second half is shifted instead: multiplication by 0 and by 1 are both wrong *)
Theorem C88_second_half_refuted : forall m v c l, is_vertex_label l -> active m l ->
  snd (gv_entries (gv_scale m v c) l) = option_map (fun x => (fst x + c, snd x)) (snd (gv_entries v l)).
Proof.
  intros m v c l V A. cbn [gv_entries snd gv_scale half2]. destruct (half2 v) as [h|]; [|reflexivity]. cbn [option_map]. rewrite fv_map_entry by assumption. reflexivity.
Qed.
Print Assumptions C88_second_half_refuted.
Definition ns : genvertex := Genvertex (fv1 (1, 2) (3, 4)) (Some (fv1 (5, 6) (7, 8))).
Example C88_first_half_partial_hyp : is_vertex_label (LK CT C3 0) /\ active dflt (LK CT C3 0) /\ fst (gv_entries ns (LK CT C3 0)) = Some (1, 2).
Proof. split; [exact I|]. split; [cbn; lia|reflexivity]. Qed.
Example C88_second_half_refuted_hyp : exists x, snd (gv_entries (gv_scale dflt ns 0) (LK CT C3 0)) = Some x /\ snd (gv_entries ns (LK CT C3 0)) = Some x /\ x <> (0, 0).
Proof.
  exists (5, 6). split; [|split; [reflexivity|intros H; injection H; lra]].
  rewrite C88_second_half_refuted by (cbn; lia || exact I). cbn. apply (f_equal (@Some comp)). apply comp_eq; cbn; ring.
Qed.

(** ** C91: adding a number and element-wise division *)
Theorem C91_shift_partial : forall m s c l, half2 (vertex s) = None -> active m l -> l <> LAsymp ->
  entry (st_shift m s c) l = option_map (fun x => (fst x + c, snd x)) (entry s l).
Proof.
  intros m s c l N A L. destruct l as [i| |i|ch k i]; [apply nth_error_map|congruence| |];
    cbn [entry st_shift vertex gv_shift half1]; apply fv_map_entry; (exact I || exact A).
Qed.
Print Assumptions C91_shift_partial.
Theorem C91_shift_refuted : forall m s c, entry (st_shift m s c) LAsymp = entry s LAsymp.
Proof. reflexivity. Qed.
Print Assumptions C91_shift_refuted.
Lemma rv_div_class m r s u k : rv_zip m cdiv r s = Some u -> class_active m k -> buf_zip m cdiv (in_class k r) (in_class k s) = Some (in_class k u).
Proof.
  unfold rv_zip. cbv zeta. intros H A.
  assert (B : forall q, k = q -> match q with C1 => (0 <? max_diag_class m)%Z = true | C2 => (1 <? max_diag_class m)%Z = true
     | C2b => debug_symmetries m && (1 <? max_diag_class m)%Z = true | C3 => (2 <? max_diag_class m)%Z = true end).
  { intros q <-. destruct k; cbn in A; try (apply Z.ltb_lt; lia). destruct A as [-> A]. apply Z.ltb_lt; lia. }
  specialize (B k eq_refl).
  destruct k; rewrite B in H; cbv iota in H; cbn [in_class];
  repeat match type of H with (obind ?x _) = _ => let E := fresh in destruct x eqn:E; [cbn [obind] in H|discriminate H] end;
  injection H as <-; cbn [K1 K2 K2b K3]; (assumption || reflexivity).
Qed.
Lemma buf_zip_entry m f b c d i : buf_zip m f b c = Some d -> nth_error (m_elements (b_data d)) i = lift2 f (nth_error (m_elements (b_data b)) i) (nth_error (m_elements (b_data c)) i).
Proof.
  unfold buf_zip. destruct (check_grids m b c); [|discriminate]. cbn [obind]. destruct (azip f (b_data b) (b_data c)) as [a|] eqn:E; [|discriminate].
  cbn [obind]. intros H. injection H as <-. cbn [b_data]. pose proof (azip_shape _ _ _ _ E) as Sh. rewrite azip_ok in E by exact Sh. injection E as <-. cbn [az m_elements].
  apply zip2_nth. apply Sh.
Qed.
Theorem C91_division : forall m s t u c k i, st_div m s t = Some u -> class_active m k ->
  entry u (LK c k i) = lift2 cdiv (entry s (LK c k i)) (entry t (LK c k i)) /\
  entry u (LSigma i) = lift2 cdiv (entry s (LSigma i)) (entry t (LSigma i)) /\
  entry u LAsymp = lift2 cdiv (entry s LAsymp) (entry t LAsymp).
Proof.
  intros m s t u c k i H A. unfold st_div, st_zip, gv_div, gv_zip_with in H.
  destruct (fv_div m (half1 (vertex s)) (half1 (vertex t))) as [h|] eqn:E; [|discriminate]. cbn [obind] in H.
  set (v2 := match half2 (vertex s) with Some x => _ | None => _ end) in H. destruct v2 as [g|] eqn:Ev; [|discriminate]. cbn [obind] in H.
  unfold se_zip in H. destruct (buf_zip m cdiv (Sigma (selfenergy s)) (Sigma (selfenergy t))) as [b|] eqn:Eb; [|discriminate]. cbn [obind] in H. injection H as <-.
  assert (half1 g = h) as G. { subst v2. destruct (half2 (vertex s)) as [x|], (half2 (vertex t)) as [y|]; try discriminate; [|injection Ev as <-; reflexivity].
    destruct (fv_div m x y); [|discriminate]. cbn in Ev. injection Ev as <-. reflexivity. }
  cbn [entry fv_entry vertex selfenergy Sigma asymp]. split; [|split; [apply (buf_zip_entry m); exact Eb|reflexivity]].
  rewrite G. unfold fv_div in E.
  destruct (rv_zip m cdiv (avertex (half1 (vertex s))) (avertex (half1 (vertex t)))) as [a|] eqn:Ea; [|discriminate]. cbn [obind] in E.
  destruct (rv_zip m cdiv (pvertex (half1 (vertex s))) (pvertex (half1 (vertex t)))) as [p|] eqn:Ep; [|discriminate]. cbn [obind] in E.
  destruct (rv_zip m cdiv (tvertex (half1 (vertex s))) (tvertex (half1 (vertex t)))) as [q|] eqn:Eq; [|discriminate]. cbn [obind] in E. injection E as <-.
  apply (buf_zip_entry m). destruct c; cbn [in_channel avertex pvertex tvertex]; apply rv_div_class; assumption.
Qed.
Print Assumptions C91_division.
Theorem C91_division_refuted : forall m s t u i, st_div m s t = Some u -> entry u (LIrred i) = entry s (LIrred i).
Proof.
  intros m s t u i H. unfold st_div, st_zip, gv_div, gv_zip_with in H.
  destruct (fv_div m (half1 (vertex s)) (half1 (vertex t))) as [h|] eqn:E; [|discriminate]. cbn [obind] in H.
  set (v2 := match half2 (vertex s) with Some x => _ | None => _ end) in H. destruct v2 as [g|] eqn:Ev; [|discriminate]. cbn [obind] in H.
  unfold se_zip in H. destruct (buf_zip m cdiv (Sigma (selfenergy s)) (Sigma (selfenergy t))) as [b|] eqn:Eb; [|discriminate]. cbn [obind] in H. injection H as <-.
  assert (half1 g = h) as G. { subst v2. destruct (half2 (vertex s)) as [x|], (half2 (vertex t)) as [y|]; try discriminate; [|injection Ev as <-; reflexivity].
    destruct (fv_div m x y); [|discriminate]. cbn in Ev. injection Ev as <-. reflexivity. }
  cbn [entry fv_entry vertex]. rewrite G. unfold fv_div in E.
  destruct (rv_zip m cdiv (avertex (half1 (vertex s))) _) as [a|]; [|discriminate]. cbn [obind] in E.
  destruct (rv_zip m cdiv (pvertex (half1 (vertex s))) _) as [p|]; [|discriminate]. cbn [obind] in E.
  destruct (rv_zip m cdiv (tvertex (half1 (vertex s))) _) as [q|]; [|discriminate]. cbn [obind] in E. injection E as <-. reflexivity.
Qed.
Print Assumptions C91_division_refuted.
Lemma st1_div x y x' y' : exists u, st_div dflt (st1 x y) (st1 x' y') = Some u.
Proof.
  pose proof (st1_match x y x' y') as (N1 & N2 & S0 & I & H). unfold st_div, st_zip, gv_div, gv_zip_with, fv_div.
  pose proof (rv_zip_ok dflt cdiv _ _ (H CA)) as Ea. pose proof (rv_zip_ok dflt cdiv _ _ (H CP)) as Ep. pose proof (rv_zip_ok dflt cdiv _ _ (H CT)) as Et.
  cbn [in_channel] in Ea, Ep, Et. rewrite Ea, Ep, Et. cbn [obind st1 vertex half2].
  unfold se_zip. rewrite buf_zip_ok by exact S0. eexists. reflexivity.
Qed.
Example C91_shift_partial_hyp : half2 (vertex (st1 (1, 2) (3, 4))) = None /\ active dflt (LIrred 0) /\ entry (st1 (1, 2) (3, 4)) (LIrred 0) = Some (3, 4).
Proof. repeat split. Qed.
Example C91_shift_refuted_hyp : entry (st_shift dflt (st1 (1, 2) (3, 4)) 1) LAsymp = Some (3, 4) /\ (3, 4) <> (3 + 1, 4).
Proof. split; [reflexivity|]. intros H. injection H. lra. Qed.
Example C91_division_hyp : (exists u, st_div dflt (st1 (1, 2) (3, 4)) (st1 (5, 6) (7, 8)) = Some u) /\ class_active dflt C3.
Proof. split; [apply st1_div|cbn; lia]. Qed.
Example C91_division_refuted_hyp : exists u, st_div dflt (st1 (1, 2) (3, 0)) (st1 (5, 6) (3, 0)) = Some u /\ entry u (LIrred 0) = Some (3, 0).
Proof. destruct (st1_div (1, 2) (3, 0) (5, 6) (3, 0)) as [u E]. exists u. split; [exact E|]. rewrite (C91_division_refuted dflt _ _ _ 0 E). reflexivity. Qed.
