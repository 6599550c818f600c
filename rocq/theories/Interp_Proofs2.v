(** Interpolation on grids: cells, values, exactness. *)
From Coq Require Import Reals Lra.
From Verif Require Import Prelude Idx_Spec Idx_Proofs Arr_Model Arr_Spec Arr_Proofs Grid_Model Grid_Spec Grid_Proofs Grid_Proofs2 Grid_Proofs3 Interp_Model Interp_Spec Interp_Proofs.
Open Scope R_scope.

Lemma obind_some {A B} (o : option A) (f : A -> option B) b : obind o f = Some b -> exists a, o = Some a /\ f a = Some b.
Proof. destruct o; cbn; [eauto|discriminate]. Qed.
Lemma read_some l i x : read l i = Some x -> (0 <= i < Z.of_nat (length l))%Z /\ nth (Z.to_nat i) l 0 = x.
Proof.
  unfold read. destruct (i <? 0)%Z eqn:E; [discriminate|]. apply Z.ltb_ge in E. intro H. split.
  - assert (Z.to_nat i < length l)%nat by (apply nth_error_Some; congruence). lia.
  - apply nth_error_nth. exact H.
Qed.
Definition pt (ax : axis) (i : Z) : R := nth (Z.to_nat i) (ax_pts ax) 0.
Definition dims (axs : list axis) : list Z := map (fun ax => Z.of_nat (length (ax_pts ax))) axs.

Lemma locate_some ax w i d : locate ax w = Some (i, d) ->
  (0 <= i)%Z /\ (i + 1 < Z.of_nat (length (ax_pts ax)))%Z /\ ax_index ax w = Some i /\
  d = (ax_coord ax w - pt ax i) / (pt ax (i + 1) - pt ax i).
Proof.
  unfold locate. intro H. apply obind_some in H as (j & Hj & H). apply obind_some in H as (lo & Hl & H). apply obind_some in H as (hi & Hh & H).
  injection H as <- <-. apply read_some in Hl as [Bl El]. apply read_some in Hh as [Bh Eh]. unfold pt. rewrite El, Eh.
  repeat split; try lia; try exact Hj.
Qed.
Lemma locate_intro ax w i lo hi : ax_index ax w = Some i -> read (ax_pts ax) i = Some lo -> read (ax_pts ax) (i + 1) = Some hi ->
  locate ax w = Some (i, (ax_coord ax w - lo) / (hi - lo)).
Proof. intros H1 H2 H3. unfold locate. rewrite H1. cbn [obind]. rewrite H2. cbn [obind]. rewrite H3. reflexivity. Qed.

Definition locates (axs : list axis) (ws : list R) (cells : list (Z * R)) : Prop :=
  Forall2 (fun p c => locate (fst p) (snd p) = Some c) (combine axs ws) cells.
Lemma osequence_locates axs ws cells : locates axs ws cells ->
  osequence (map (fun p => locate (fst p) (snd p)) (combine axs ws)) = Some cells.
Proof.
  unfold locates. intro H. remember (combine axs ws) as l. clear Heql. induction H as [|p c l cs H1 H2 IH]; [reflexivity|].
  cbn [map osequence]. rewrite H1. cbn [obind]. rewrite IH. reflexivity.
Qed.
Lemma locates_range axs : forall ws cells, locates axs ws cells -> length ws = length axs ->
  length cells = length axs /\ in_range (map fst cells) (dims axs) /\ in_range (map (fun x => x + 1)%Z (map fst cells)) (dims axs).
Proof.
  unfold locates. induction axs as [|ax axs IH]; intros ws cells H L.
  - cbn in H. inversion H; subst. repeat split; constructor.
  - destruct ws as [|w ws]; [discriminate|]. cbn [combine] in H. inversion H as [|? c ? cs H1 H2 E1 E2]; subst.
    destruct (IH ws cs H2 ltac:(cbn in L; lia)) as (A & B & C). destruct c as [i d]. cbn [fst snd] in H1.
    destruct (locate_some _ _ _ _ H1) as (P1 & P2 & _).
    cbn [map dims fst]. split; [cbn; lia|]. split; constructor; try assumption; lia.
Qed.

Lemma skipn_len {A} n (l m : list A) : n = length l -> skipn n (l ++ m) = m.
Proof. intros ->. rewrite skipn_app, skipn_all, Nat.sub_diag. reflexivity. Qed.
Lemma interp_value (axs : list axis) (ws : list R) (cells : list (Z * R)) (a : marray R) (pre f0 post dpre dpost : list Z) (k dk : Z) (vecsize : nat) :
  wf a -> (1 <= length axs <= 3)%nat -> length ws = length axs -> length f0 = length axs ->
  m_length a = dpre ++ dims axs ++ dk :: dpost -> in_range pre dpre -> in_range (k :: post) (dk :: dpost) ->
  (k * prodZ dpost + Z.of_nat vecsize <= dk * prodZ dpost)%Z ->
  in_box axs ws = true -> locates axs ws cells ->
  interpolate axs (length pre) vecsize a ws (pre ++ f0 ++ k :: post) =
  Some (map (fun r => multilinear (map snd cells) (fun o => entry a r (pre ++ add_tuple (map fst cells) o ++ k :: repeat 0%Z (length post)))) (seq 0 vecsize)).
Proof.
  intros W N Lw L0 Dm Rp Rk K B Lc. destruct (locates_range _ _ _ Lc Lw) as (Lcells & R1 & R2).
  unfold interpolate. rewrite B. rewrite (osequence_locates _ _ _ Lc). cbn [obind].
  assert (Lpre : length pre = length dpre) by (eapply Forall2_length; exact Rp).
  assert (Ld : length (dims axs) = length axs) by (unfold dims; apply map_length).
  apply cell_value; rewrite ?map_length; try lia; try assumption.
  - rewrite Dm. apply in_range_app; [exact Lpre|]. split; [exact Rp|]. apply in_range_app; [rewrite map_length, Ld; exact Lcells|]. split; assumption.
  - rewrite Dm. apply in_range_app; [exact Lpre|]. split; [exact Rp|]. apply in_range_app; [rewrite !map_length, Ld; exact Lcells|]. split; assumption.
  - rewrite Lcells. replace (m_length a) with ((dpre ++ dims axs) ++ dk :: dpost) by (rewrite Dm, <- app_assoc; reflexivity).
    rewrite (skipn_len (length pre + length axs) (dpre ++ dims axs)) by (rewrite app_length; lia).
    replace ((dpre ++ dims axs) ++ dk :: dpost) with (((dpre ++ dims axs) ++ [dk]) ++ dpost) by (rewrite <- app_assoc; reflexivity).
    rewrite skipn_len by (rewrite !app_length; cbn; lia). exact K.
Qed.

(** samples of a multiaffine function *)
Lemma pick_pts axs : forall (cells : list (Z * R)) o, length cells = length axs -> corner o (length axs) ->
  pick o (map (fun p => pt (fst p) (snd p)) (combine axs (map fst cells))) (map (fun p => pt (fst p) (snd p + 1)%Z) (combine axs (map fst cells)))
  = map (fun p => pt (fst p) (snd p)) (combine axs (add_tuple (map fst cells) o)).
Proof.
  induction axs as [|ax axs IH]; intros cells o L [Lo Fo]; [destruct o; [|discriminate]; destruct cells; reflexivity|].
  destruct cells as [|c cells]; [discriminate|]. destruct o as [|z o]; [discriminate|]. cbn [map combine fst snd pick add_tuple].
  inversion Fo as [|? ? Hz Fo']; subst. f_equal.
  - destruct Hz as [-> | ->]; cbn; f_equal; lia.
  - apply IH; [cbn in L; lia|]. split; [cbn in Lo; lia|exact Fo'].
Qed.
Lemma mix_pts axs : forall ws cells, length ws = length axs -> locates axs ws cells ->
  (forall p c, In (p, c) (combine (combine axs ws) cells) -> pt (fst p) (fst c) <> pt (fst p) (fst c + 1)) ->
  mix (map snd cells) (map (fun p => pt (fst p) (snd p)) (combine axs (map fst cells))) (map (fun p => pt (fst p) (snd p + 1)%Z) (combine axs (map fst cells)))
  = map (fun p => ax_coord (fst p) (snd p)) (combine axs ws).
Proof.
  unfold locates. induction axs as [|ax axs IH]; intros ws cells L H D; [cbn in H; inversion H; reflexivity|].
  destruct ws as [|w ws]; [discriminate|]. cbn [combine] in H. inversion H as [|? c ? cs H1 H2 E1 E2]; subst.
  destruct c as [i d]. cbn [fst snd] in H1. destruct (locate_some _ _ _ _ H1) as (_ & _ & _ & Ed).
  cbn [map combine fst snd mix]. f_equal.
  - specialize (D (ax, w) (i, d) (or_introl eq_refl)). cbn [fst] in D. rewrite Ed. field. lra.
  - apply IH; [cbn in L; lia|exact H2|]. intros p c Hp. apply D. right. exact Hp.
Qed.

(** ** elias grids *)
Section Elias.
Variable g : elias.
Hypothesis V : valid g.
Lemma aux_nth i : (i < e_N g)%nat -> read (auxiliary_grid g) (Z.of_nat i) = Some (aux_point g i).
Proof.
  intro H. unfold read, auxiliary_grid. destruct (Z.of_nat i <? 0)%Z eqn:E; [apply Z.ltb_lt in E; lia|]. rewrite Nat2Z.id.
  apply map_nth_error. rewrite nth_error_nth' with (d := 0%nat) by (rewrite seq_length; exact H). rewrite seq_nth by exact H. reflexivity.
Qed.
Lemma aux_step i : (S i < e_N g)%nat -> aux_point g (S i) - aux_point g i = spacing g.
Proof. intro H. rewrite !(aux_point_eq g V) by lia. rewrite S_INR. ring. Qed.
Lemma elias_located w : e_lower g <= w < e_upper g -> away g w ->
  exists i d, locate (elias_axis g) w = Some (Z.of_nat i, d) /\ (i <= e_N g - 2)%nat /\ encloses (grid_point g) i w /\ 0 <= d <= 1 /\
    t_from_frequency g w = (1 - d) * aux_point g i + d * aux_point g (S i).
Proof.
  intros H A. destruct (get_grid_index_ok g V w H A) as (i & Hi & Bi & En & _). pose proof (VN g V). pose proof (spacing_pos g V) as SP.
  exists i. eexists. split; [|split; [exact Bi|split; [exact En|]]].
  - apply locate_intro; [exact Hi|apply aux_nth; lia|]. replace (Z.of_nat i + 1)%Z with (Z.of_nat (S i)) by lia. apply aux_nth. lia.
  - rewrite aux_step by lia. cbn [ax_coord elias_axis]. destruct En as [E1 E2].
    assert (T1 : aux_point g i <= t_from_frequency g w).
    { rewrite (aux_point_eq g V) by lia. rewrite (grid_point_eq g V) in E1 by lia. apply Rnot_lt_le. intro K.
      assert (tdom g (t_lower g + INR i * spacing g)).
      { apply tdom_between with (t_lower g) (t_upper g); try (apply f_range; apply V). apply (point_dom g V). lia. }
      apply (g_mono g) in K; [|apply V|apply f_range; apply V|assumption]. rewrite gf in K by (apply V || exact A). lra. }
    assert (T2 : t_from_frequency g w <= aux_point g (S i)).
    { rewrite (aux_point_eq g V) by lia. rewrite (grid_point_eq g V) in E2 by lia. apply Rnot_lt_le. intro K.
      assert (tdom g (t_lower g + INR (S i) * spacing g)).
      { apply tdom_between with (t_lower g) (t_upper g); try (apply f_range; apply V). apply (point_dom g V). lia. }
      apply (g_mono g) in K; [|apply V|assumption|apply f_range; apply V]. rewrite gf in K by (apply V || exact A). lra. }
    pose proof (aux_step i ltac:(lia)) as St. split; [split|].
    + apply Rmult_le_pos; [lra|]. apply Rlt_le, Rinv_0_lt_compat, SP.
    + apply Rmult_le_reg_r with (spacing g); [exact SP|]. unfold Rdiv. rewrite Rmult_assoc, Rinv_l by lra. lra.
    + replace (aux_point g (S i)) with (aux_point g i + spacing g) by lra. field. lra.
Qed.
Lemma fg t : tdom g t -> away g (frequency_from_t g t) -> t_from_frequency g (frequency_from_t g t) = t.
Proof.
  pose proof (Vs g V) as H. unfold tdom, away, frequency_from_t, t_from_frequency. destruct (e_form g); intros D A.
  - apply (pair2 (e_scale g) (e_center g) H). exact D.
  - destruct (e_se g); [apply v3_back; assumption|apply (pair4 (e_scale g) (e_center g) H); exact D].
  - unfold grid_transf_inv_lin, grid_transf_lin. field. lra.
Qed.
(** a grid point other than the last *)
Lemma elias_at_point j : (S j < e_N g)%nat -> away g (grid_point g j) ->
  locate (elias_axis g) (grid_point g j) = Some (Z.of_nat j, 0).
Proof.
  intros H A. destruct (elias_from_to g V) as (E0 & EN & Mono). pose proof (VN g V).
  assert (B : e_lower g <= grid_point g j < e_upper g).
  { split.
    - destruct j as [|j]; [rewrite E0; lra|]. rewrite <- E0. apply Rlt_le, Mono. lia.
    - rewrite <- EN. apply Mono. lia. }
  destruct (elias_located _ B A) as (i & d & Hl & Bi & En & _ & Et).
  assert (i = j).
  { destruct En as [E1 E2]. destruct (Nat.lt_trichotomy i j) as [K|[K|K]]; [|exact K|].
    - destruct (Nat.eq_dec (S i) j) as [Q|Q]; [subst j; lra|]. assert (grid_point g (S i) < grid_point g j) by (apply Mono; lia). lra.
    - assert (grid_point g j < grid_point g i) by (apply Mono; lia). lra. }
  subst i. rewrite Hl. f_equal. f_equal.
  assert (T : t_from_frequency g (grid_point g j) = aux_point g j).
  { rewrite (aux_point_eq g V) by lia. rewrite (grid_point_eq g V) by lia. rewrite (grid_point_eq g V) in A by lia. apply fg; [|exact A].
    apply tdom_between with (t_lower g) (t_upper g); try (apply f_range; apply V). apply (point_dom g V). lia. }
  rewrite T in Et. pose proof (aux_step j H). pose proof (spacing_pos g V). nra.
Qed.
End Elias.
