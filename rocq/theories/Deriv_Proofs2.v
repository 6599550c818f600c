From Coq Require Import Permutation QArith Qfield.
From Verif Require Import Prelude Idx_Model Idx_Spec Idx_Proofs Arr_Proofs Arr_Proofs2 Deriv_Model Deriv_Spec Deriv_Proofs.
Open Scope Z_scope.

Lemma in_zrange a b x : In x (zrange a b) <-> a <= x < b.
Proof.
  unfold zrange. rewrite in_map_iff. split.
  - intros (k & <- & Hk). apply in_seq in Hk. lia.
  - intros H. exists (Z.to_nat (x - a)). split; [lia|]. apply in_seq. lia.
Qed.

Lemma NoDup_zrange a b : NoDup (zrange a b).
Proof.
  unfold zrange. apply map_NoDup_in; [|apply seq_NoDup]. intros; lia.
Qed.

Lemma NoDup_prod {A B} (l : list A) (m : list B) : NoDup l -> NoDup m -> NoDup (list_prod l m).
Proof.
  intros Hl Hm. induction Hl as [|a l Ha Hl IH]; simpl; [constructor|].
  assert (Hm' : NoDup (map (fun y => (a, y)) m)) by (apply map_NoDup_in; [intros; congruence|auto]).
  assert (D : forall q, In q (map (fun y => (a, y)) m) -> ~ In q (list_prod l m)).
  { intros q Hq Hq'. apply in_map_iff in Hq. destruct Hq as (y & <- & _). apply in_prod_iff in Hq'. tauto. }
  revert D Hm'. generalize (map (fun y => (a, y)) m). induction l0 as [|q l0 IHq]; intros D N; [exact IH|].
  inversion N; subst. simpl. constructor; [|apply IHq; auto; intros; apply D; simpl; auto].
  intro Hq. apply in_app_iff in Hq. destruct Hq as [Hq|Hq]; [auto|]. apply (D q); simpl; auto.
Qed.

Lemma pair_inj d a b a' b' : 0 <= b < d -> 0 <= b' < d -> a * d + b = a' * d + b' -> a = a' /\ b = b'.
Proof.
  intros H1 H2 E. assert (a = a').
  { assert (Ha : (a * d + b) / d = a) by (rewrite Z.div_add_l, Z.div_small; lia).
    assert (Ha' : (a' * d + b') / d = a') by (rewrite Z.div_add_l, Z.div_small; lia). congruence. }
  subst. lia.
Qed.

Lemma scatter_gen {A B} (f : B -> option A) (g : B -> option Z) l : forall res,
  NoDup l ->
  (forall b, In b l -> exists v k, f b = Some v /\ g b = Some k /\ 0 <= k < Z.of_nat (length res)) ->
  (forall b b' k, In b l -> In b' l -> g b = Some k -> g b' = Some k -> b = b') ->
  exists out, fold_left (fun acc b => r <- acc ;; v <- f b ;; k <- g b ;; oupd r (Z.to_nat k) v) l (Some res) = Some out /\
    length out = length res /\
    (forall b v k, In b l -> f b = Some v -> g b = Some k -> nth_error out (Z.to_nat k) = Some v) /\
    (forall j, 0 <= j -> (forall b, In b l -> g b <> Some j) -> nth_error out (Z.to_nat j) = nth_error res (Z.to_nat j)).
Proof.
  induction l as [|b l IH]; intros res Hd Hs Hi.
  - exists res. simpl. repeat split; auto. intros ? ? ? [].
  - inversion Hd as [|? ? Hb Hd']; subst.
    destruct (Hs b) as (v & k & Ef & Eg & Hk); [simpl; auto|].
    destruct (oupd_some res (Z.to_nat k) v) as (r1 & E1 & L1); [lia|].
    destruct (IH r1 Hd') as (out & E & L & H1 & H2).
    { intros b' Hb'. rewrite L1. apply Hs; simpl; auto. }
    { intros; eapply Hi; simpl; eauto. }
    exists out. cbn [fold_left]. rewrite Ef, Eg. cbn [obind]. rewrite E1. split; [exact E|]. split; [lia|]. split.
    + intros b' v' k' [<-|Hin] Ef' Eg'; [|eapply H1; eauto].
      assert (k' = k) by congruence. assert (v' = v) by congruence. subst.
      rewrite H2; [eapply oupd_nth_error_same; eauto|lia|].
      intros b' Hin' Eg2. apply Hb. rewrite (Hi b b' k); simpl; auto.
    + intros j Hj Hne. rewrite H2; [|auto|intros; apply Hne; simpl; auto].
      eapply oupd_nth_error_other; eauto. intro Ejk. apply (Hne b); simpl; auto. rewrite Eg. f_equal. lia.
Qed.

Lemma fd_stencil_spec n jt : 5 <= n -> 0 <= jt < n -> exists k, In k [0;1;2;3;4] /\ 0 <= jt - k /\ jt + 4 - k < n /\
  fd_stencil n jt = (filter (fun j => negb (j =? 0)) (zrange (-k) (4 - k + 1)), -k, 4 - k).
Proof.
  intros Hn Hj. unfold fd_stencil.
  destruct (Z.eqb_spec jt 0); [exists 0|].
  { split; [simpl; tauto|]. split; [lia|]. split; [lia|reflexivity]. }
  destruct (Z.eqb_spec jt 1); [exists 1|].
  { split; [simpl; tauto|]. split; [lia|]. split; [lia|reflexivity]. }
  destruct (Z.eqb_spec jt (n - 2)); [exists 3|].
  { split; [simpl; tauto|]. split; [lia|]. split; [lia|reflexivity]. }
  destruct (Z.eqb_spec jt (n - 1)); [exists 4|exists 2].
  { split; [simpl; tauto|]. split; [lia|]. split; [lia|reflexivity]. }
  split; [simpl; tauto|]. split; [lia|]. split; [lia|reflexivity].
Qed.

Lemma oprod_some f l : (forall j, In j l -> exists q, f j = Some q) -> forall a, exists q, oprod f l a = Some q.
Proof.
  induction l as [|j l IH]; intros H a; cbn [oprod]; [eauto|].
  destruct (H j) as (q & ->); [simpl; auto|]. cbn [obind]. apply IH. intros; apply H; simpl; auto.
Qed.

Lemma fd_helper_some getx getd no_i lower upper : lower <= 0 <= upper ->
  (forall j, lower <= j <= upper -> exists q, getx j = Some q) ->
  (forall j, lower <= j <= upper -> exists q, getd j = Some q) ->
  (forall i, In i no_i -> lower <= i <= upper) -> exists q, fd_helper getx getd no_i lower upper = Some q.
Proof.
  intros H0 Hx Hd Hno. unfold fd_helper. generalize 0%Q at 1 as r. generalize 0%Q as s.
  assert (G : forall is, (forall i, In i is -> lower <= i <= upper) -> forall s r, exists q, fd_sum getx getd no_i lower upper is r s = Some q).
  { induction is as [|i is IH]; intros Hin s r; cbn [fd_sum].
    - destruct (Hd 0) as (q & ->); [lia|]. cbn [obind]. eauto.
    - assert (Hi : lower <= i <= upper) by (apply Hin; simpl; auto).
      unfold fd_term. destruct (Hx i Hi) as (xi & ->). destruct (Hx 0 H0) as (x0 & ->). cbn [obind].
      destruct (oprod_some (fun j => xj <- getx j;; Some (xi - xj)%Q) (zrange lower i)) with (a := 1%Q) as (q1 & ->).
      { intros j Hj. apply in_zrange in Hj. destruct (Hx j) as (q & ->); [lia|]. cbn [obind]; eauto. }
      cbn [obind].
      destruct (oprod_some (fun j => xj <- getx j;; Some (xi - xj)%Q) (zrange (i + 1) (upper + 1))) with (a := q1) as (q2 & ->).
      { intros j Hj. apply in_zrange in Hj. destruct (Hx j) as (q & ->); [lia|]. cbn [obind]; eauto. }
      cbn [obind].
      destruct (oprod_some (fun j => xj <- getx j;; Some (x0 - xj)%Q) no_i) with (a := 1%Q) as (q3 & ->).
      { intros j Hj. destruct (Hx j) as (q & ->); [auto|]. cbn [obind]; eauto. }
      cbn [obind]. destruct (Hd i Hi) as (q4 & ->). cbn [obind]. apply IH. intros; apply Hin; simpl; auto. }
  intros. apply G. exact Hno.
Qed.

Lemma four_of_k k : In k [0;1;2;3;4] -> exists i1 i2 i3 i4,
  filter (fun j => negb (j =? 0)) (zrange (-k) (4 - k + 1)) = [i1;i2;i3;i4] /\
  Forall (fun i => - k <= i <= 4 - k /\ i <> 0) [i1;i2;i3;i4].
Proof.
  intros H. simpl in H. destruct H as [<-|[<-|[<-|[<-|[<-|[]]]]]]; do 4 eexists; (split; [reflexivity|]);
    repeat (apply Forall_cons; [lia|]); apply Forall_nil.
Qed.

Lemma increasing_neq xs i j a b : increasing xs -> i <> j -> zget xs i = Some a -> zget xs j = Some b -> ~ (a == b)%Q.
Proof.
  intros Hi Hn Ha Hb E. unfold zget in *. destruct (Z.ltb_spec i 0); [congruence|]. destruct (Z.ltb_spec j 0); [congruence|].
  destruct (Z.lt_trichotomy i j) as [H1|[H1|H1]]; [|lia|].
  - assert (L : (a < b)%Q) by (eapply (Hi (Z.to_nat i) (Z.to_nat j)); eauto; lia). rewrite E in L. apply (Qlt_irrefl _ L).
  - assert (L : (b < a)%Q) by (eapply (Hi (Z.to_nat j) (Z.to_nat i)); eauto; lia). rewrite E in L. apply (Qlt_irrefl _ L).
Qed.

Section Array.
  Context (data xs : list Q) (pre post : list Z) (d : Z).
  Notation dims := (pre ++ d :: post).
  Notation idim := (length pre).
  Hypothesis Hpos : pos_dims dims.
  Hypothesis Hw : prodZ dims < w64.
  Hypothesis Hlen : Z.of_nat (length data) = prodZ dims.
  Hypothesis Hxs : Z.of_nat (length xs) = d.
  Hypothesis H5 : 5 <= d.
  Hypothesis Hinc : increasing xs.

  Lemma rank_dims : length dims = (length pre + 1 + length post)%nat.
  Proof. rewrite app_length. simpl. lia. Qed.

  Lemma rot_dims {A} (a b : list A) x : length a = idim -> rot_last idim (a ++ x :: b) = b ++ a ++ [x].
  Proof.
    intros E. unfold rot_last. rewrite <- E. 
    replace (a ++ x :: b) with ((a ++ [x]) ++ b) by (rewrite <- app_assoc; reflexivity).
    replace (S (length a)) with (length (a ++ [x])) by (rewrite app_length; simpl; lia).
    rewrite firstn_app, skipn_app, Nat.sub_diag, firstn_all, skipn_all. simpl. rewrite app_nil_r. reflexivity.
  Qed.

  Notation perm := (map (fun i => (i + length dims - idim - 1)%nat) (seq 0 (idim + 1))
                  ++ map (fun i => (i - idim - 1)%nat) (seq (idim + 1) (length dims - idim - 1))).

  Lemma rot_as_index k : rotateFlatIndexPerm k (rot_last idim dims) perm = rotateFlatIndex k dims idim.
  Proof.
    assert (Hl : (idim < length dims)%nat) by (rewrite rank_dims; lia).
    rewrite rotateFlatIndex_unfold by exact Hl. f_equal. f_equal.
    - rewrite <- (map_shift_seq (fun i => i + length dims - idim - 1)%nat 0 (length dims - 1 - idim)); [reflexivity|]. intros; lia.
    - rewrite <- (map_shift_seq (fun i => i - idim - 1)%nat (idim + 1) 0); [reflexivity|]. intros; lia.
  Qed.

  Definition codim := prodZ (post ++ pre).

  Lemma prod_codim : prodZ dims = codim * d.
  Proof. unfold codim. rewrite !prodZ_app. simpl. ring. Qed.

  Lemma codim_pos : 0 < codim.
  Proof.
    pose proof Hpos as P. unfold pos_dims in P. apply Forall_app in P. destruct P as [P1 P2]. inversion P2 as [|? ? _ P3]; subst.
    unfold codim. assert (P : pos_dims (post ++ pre)) by (apply Forall_app; auto). clear -P. induction P; simpl; nia.
  Qed.

  Definition getd (it jt i : Z) : option Q := k <- rotateFlatIndexPerm (it * d + jt + i) (rot_last idim dims) perm ;; zget data k.

  Lemma fibre_in it jt : 0 <= it < codim -> 0 <= jt < d -> 0 <= it * d + jt < prodZ dims.
  Proof. intros. rewrite prod_codim. nia. Qed.

  Lemma index_some k : 0 <= k < prodZ dims -> exists m, rotateFlatIndex k dims idim = Some m /\ 0 <= m < prodZ dims.
  Proof. apply rotateFlatIndex_bijection; auto. rewrite rank_dims; lia. Qed.

  Lemma fd_value_some it jt : 0 <= it < codim -> 0 <= jt < d ->
    exists q, fd_value data xs (rot_last idim dims) perm d (it, jt) = Some q.
  Proof.
    intros Hi Hj. destruct (fd_stencil_spec d jt H5 Hj) as (k & Hk & B1 & B2 & E). unfold fd_value. rewrite E.
    assert (K : 0 <= k <= 4) by (simpl in Hk; lia).
    apply fd_helper_some.
    - lia.
    - intros j Hjj. apply zget_some. lia.
    - intros j Hjj. rewrite rot_as_index. destruct (index_some (it * d + jt + j)) as (m & -> & Hm).
      { rewrite <- Z.add_assoc. apply fibre_in; lia. }
      cbn [obind]. apply zget_some. lia.
    - intros i Hin. apply filter_In in Hin. destruct Hin as [Hin _]. apply in_zrange in Hin. lia.
  Qed.

  Lemma index_tuple u w y : length u = idim -> in_range (u ++ y :: w) dims ->
    rotateFlatIndex (row_major (w ++ u) (post ++ pre) * d + y) dims idim = Some (row_major (u ++ y :: w) dims).
  Proof.
    intros Lu Hr. pose proof (in_range_length _ _ Hr) as HL. rewrite !app_length in HL. simpl in HL.
    rewrite <- (rotateFlatIndex_spec (u ++ y :: w) dims idim); auto; [|rewrite rank_dims; lia].
    f_equal. rewrite (rot_dims u w y Lu), (rot_dims pre post d eq_refl).
    rewrite !app_assoc, (row_major_app (w ++ u) (post ++ pre)) by (rewrite !app_length; lia). simpl. ring.
  Qed.

  Lemma in_range_split u w y : length u = idim -> in_range (u ++ y :: w) dims ->
    in_range (w ++ u) (post ++ pre) /\ 0 <= y < d.
  Proof.
    intros Lu Hr. apply Forall2_app_inv_len in Hr; [|exact Lu]. destruct Hr as [H1 H2]. inversion H2; subst.
    split; [|auto]. apply Forall2_app; auto.
  Qed.

  Lemma in_range_join u w y : length u = idim -> in_range (w ++ u) (post ++ pre) -> 0 <= y < d -> in_range (u ++ y :: w) dims.
  Proof.
    intros Lu Hr Hy. assert (Lw : length w = length post).
    { apply in_range_length in Hr. rewrite !app_length in Hr. lia. }
    apply Forall2_app_inv_len in Hr; [|exact Lw]. destruct Hr as [H1 H2]. apply Forall2_app; auto.
  Qed.

  Lemma partial_deriv_vec_spec : exists res, partial_deriv_vec data xs dims idim = Some res /\ length res = length data /\
    forall u x w p, length u = idim -> in_range (u ++ x :: w) dims ->
      (forall y, 0 <= y < d -> exists xv, zget xs y = Some xv /\ oeq (elt data dims (u ++ y :: w)) (peval p xv)) ->
      exists xv, zget xs x = Some xv /\ oeq (elt res dims (u ++ x :: w)) (pderiv p xv).
  Proof.
    unfold partial_deriv_vec. rewrite rank_dims. destruct (Nat.leb_spec (length pre + 1 + length post) (length pre)); [lia|].
    rewrite <- rank_dims. rewrite permuteCyclic_spec by (rewrite rank_dims; lia). cbn [obind].
    replace (length dims - (length dims - length pre - 1))%nat with (S (length pre)) by (rewrite rank_dims; lia).
    fold (rot_last idim dims). unfold get_finite_differences_v2.
    assert (Ed : nth_error (rot_last idim dims) (length (rot_last idim dims) - 1) = Some d).
    { rewrite (rot_dims pre post d eq_refl). rewrite app_assoc. rewrite nth_error_app2 by (rewrite !app_length; simpl; lia).
      rewrite (app_length (post ++ pre)). replace (_ - _)%nat with O by (simpl; lia). reflexivity. }
    rewrite Ed. cbn [obind].
    rewrite Hxs, Z.eqb_refl. cbn [negb]. destruct (Z.ltb_spec d 5); [lia|]. rewrite Hlen.
    replace (prodZ dims / d) with codim by (rewrite prod_codim, Z.div_mul; lia).
    destruct (scatter_gen (fd_value data xs (rot_last idim dims) perm d)
                (fun p => rotateFlatIndexPerm (fst p * d + snd p) (rot_last idim dims) perm)
                (list_prod (zrange 0 codim) (zrange 0 d)) (repeat 0%Q (length data))) as (out & E & L & H1 & _).
    - apply NoDup_prod; apply NoDup_zrange.
    - intros [it jt] Hin. apply in_prod_iff in Hin. rewrite !in_zrange in Hin. destruct Hin as [Hi Hj].
      destruct (fd_value_some it jt) as (q & Eq); auto.
      destruct (index_some (it * d + jt)) as (m & Em & Hm); [apply fibre_in; auto|].
      exists q, m. cbn [fst snd]. rewrite rot_as_index, repeat_length. repeat split; auto; lia.
    - intros [it jt] [it' jt'] k Hin Hin' E1 E2. cbn [fst snd] in *. rewrite rot_as_index in *.
      apply in_prod_iff in Hin, Hin'. rewrite !in_zrange in Hin, Hin'.
      destruct (rotateFlatIndex_bijection dims idim) as (_ & Hinj & _); auto; [rewrite rank_dims; lia|].
      assert (Ek : it * d + jt = it' * d + jt').
      { eapply Hinj; [| |exact E1|exact E2]; apply fibre_in; lia. }
      destruct (pair_inj d it jt it' jt') as [-> ->]; auto; lia.
    - rewrite repeat_length in L. exists out. split; [exact E|]. split; [exact L|].
      intros u x w p Lu Hr Hf. destruct (in_range_split u w x Lu Hr) as [Hwu Hx].
      pose proof (row_major_range _ _ Hwu) as Hit. fold codim in Hit. set (it := row_major (w ++ u) (post ++ pre)) in *.
      destruct (Hf x Hx) as (xv & Exv & _). exists xv. split; [exact Exv|].
      destruct (fd_value_some it x Hit Hx) as (q & Eq).
      exists q. split.
      { unfold elt. apply (H1 (it, x) q (row_major (u ++ x :: w) dims)); [|exact Eq|].
        - apply in_prod_iff. rewrite !in_zrange. lia.
        - cbn [fst snd]. rewrite rot_as_index. apply index_tuple; auto. }
      unfold fd_value in Eq. destruct (fd_stencil_spec d x H5 Hx) as (k & Hk & B1 & B2 & Es). rewrite Es in Eq.
      assert (K : 0 <= k <= 4) by (simpl in Hk; lia).
      destruct (four_of_k k Hk) as (i1 & i2 & i3 & i4 & Ef & Hin). rewrite Ef in Eq.
      set (X := fun j => match zget xs (x + j) with Some v => v | None => 0%Q end).
      assert (HX : forall j, - k <= j <= 4 - k -> zget xs (x + j) = Some (X j)).
      { intros j Hj. unfold X. destruct (zget_some xs (x + j)) as (v & ->); [lia|reflexivity]. }
      assert (Hok : forall j, - k <= j <= 4 - k -> okp (fun i => zget xs (x + i))
        (fun i => k0 <- rotateFlatIndexPerm (it * d + x + i) (rot_last idim dims) perm;; zget data k0) X p j).
      { intros j Hj. split; [apply HX; auto|]. destruct (Hf (x + j)) as (xj & Ex & v & Ev & Hv); [lia|].
        exists v. split.
        - rewrite rot_as_index. rewrite <- Z.add_assoc. unfold it. rewrite (index_tuple u w (x + j) Lu).
          + cbn [obind]. unfold elt in Ev. unfold zget. destruct (Z.ltb_spec (row_major (u ++ (x + j) :: w) dims) 0); [|exact Ev].
            assert (Rg : in_range (u ++ (x + j) :: w) dims) by (apply in_range_join; auto; lia).
            apply row_major_range in Rg. lia.
          + apply in_range_join; auto; lia.
        - rewrite HX in Ex by lia. inversion Ex; subst. exact Hv. }
      assert (Hall : Forall (fun i => - k <= i <= 4 - k) [0; i1; i2; i3; i4]).
      { constructor; [lia|]. eapply Forall_impl; [|exact Hin]. cbn beta. tauto. }
      inversion Hall as [|? ? A0 Hall1]; subst. inversion Hall1 as [|? ? A1 Hall2]; subst. inversion Hall2 as [|? ? A2 Hall3]; subst.
      inversion Hall3 as [|? ? A3 Hall4]; subst. inversion Hall4 as [|? ? A4 _]; subst.
      destruct (stencil_exact _ _ X p i1 i2 i3 i4 (- k) (4 - k)
         (ex_intro _ k (conj Hk (conj eq_refl (conj eq_refl (eq_sym Ef)))))
         (Hok 0 A0) (Hok i1 A1) (Hok i2 A2) (Hok i3 A3) (Hok i4 A4)) as (v & Ev & Hv).
      { intros a b Ha Hb Hab. rewrite Forall_forall in Hall. eapply increasing_neq; [exact Hinc| |apply HX, Hall, Ha|apply HX, Hall, Hb]. lia. }
      assert (q = v) by congruence. subst q. rewrite Hv. assert (Ex0 : X 0 = xv).
      { unfold X. rewrite Z.add_0_r, Exv. reflexivity. }
      rewrite Ex0. reflexivity.
  Qed.
End Array.
