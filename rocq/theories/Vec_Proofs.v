From Coq Require Import QArith Qabs Qminmax.
From Verif Require Import Prelude Cplx Idx_Proofs Arr_Proofs Arr_Proofs2 Vec_Model Vec_Spec.

(** a loop over the positions of a vector which overwrites position i with a value computed from the
    present element i *)
Lemma loop_spec {A} (F : list A -> nat -> A -> option A) (G : nat -> A -> A) n : forall k (v : list A),
  (k + n <= length v)%nat ->
  (forall w i a, (k <= i < k + n)%nat -> length w = length v -> nth_error w i = Some a -> nth_error w i = nth_error v i ->
     (forall j, (i <= j)%nat -> nth_error w j = nth_error v j) -> F w i a = Some (G i a)) ->
  exists out, fold_left (fun acc i => v <- acc ;; a <- nth_error v i ;; x <- F v i a ;; oupd v i x) (seq k n) (Some v) = Some out /\
    length out = length v /\
    (forall i a, (k <= i < k + n)%nat -> nth_error v i = Some a -> nth_error out i = Some (G i a)) /\
    (forall i, ~ (k <= i < k + n)%nat -> nth_error out i = nth_error v i).
Proof.
  induction n as [|n IH]; intros k v Hk HF.
  - exists v. simpl. repeat split; auto. intros; lia.
  - cbn [seq fold_left obind].
    destruct (nth_error v k) as [a|] eqn:Ea; [|apply nth_error_None in Ea; lia]. cbn [obind].
    rewrite (HF v k a) by (auto; lia). cbn [obind].
    destruct (oupd_some v k (G k a)) as (v1 & E1 & L1); [lia|]. rewrite E1.
    destruct (IH (S k) v1) as (out & E & L & H1 & H2).
    + lia.
    + intros w i b Hi Lw Eb Ew Hlater. apply HF; auto; try lia.
      * rewrite Ew. eapply oupd_nth_error_other; eauto. lia.
      * intros j Hj. rewrite Hlater by lia. eapply oupd_nth_error_other; eauto. lia.
    + exists out. split; [exact E|]. split; [lia|]. split.
      * intros i b Hi Eb. destruct (Nat.eq_dec i k) as [->|Hn].
        -- rewrite H2 by lia. rewrite Ea in Eb. inversion Eb; subst. eapply oupd_nth_error_same; eauto.
        -- apply H1; [lia|]. rewrite <- Eb. eapply oupd_nth_error_other; eauto.
      * intros i Hi. rewrite H2 by lia. eapply oupd_nth_error_other; eauto. lia.
Qed.

Lemma fill_spec {B} (d : B) n f g : (forall i, (i < n)%nat -> f i = Some (g i)) ->
  exists out, fill d n f = Vok out /\ length out = n /\ forall i, (i < n)%nat -> nth_error out i = Some (g i).
Proof.
  intros H. destruct (loop_spec (fun _ i _ => f i) (fun i _ => g i) n 0 (repeat d n)) as (out & E & L & H1 & _).
  - rewrite repeat_length. lia.
  - intros. apply H. lia.
  - rewrite repeat_length in L. exists out. split; [|split; auto].
    + unfold fill. 
      assert (Ef : fold_left (fun acc i => v <- acc ;; x <- f i ;; oupd v i x) (seq 0 n) (Some (repeat d n)) = Some out); [|rewrite Ef; auto].
      rewrite <- E. clear E H1 L out.
      assert (Gn : forall k v, length v = n -> (k <= n)%nat ->
        fold_left (fun acc i => v <- acc ;; x <- f i ;; oupd v i x) (seq (n - k) k) (Some v) =
        fold_left (fun acc i => v <- acc ;; a <- nth_error v i ;; x <- f i ;; oupd v i x) (seq (n - k) k) (Some v)).
      { induction k as [|k IHk]; intros v Lv Hk; [reflexivity|]. cbn [seq fold_left obind].
        destruct (nth_error v (n - S k)) eqn:E; [|apply nth_error_None in E; lia]. cbn [obind].
        rewrite (H (n - S k)%nat) by lia. cbn [obind].
        destruct (oupd_some v (n - S k) (g (n - S k)%nat)) as (v1 & -> & L1); [lia|].
        replace (S (n - S k)) with (n - k)%nat by lia. apply IHk; lia. }
      specialize (Gn n (repeat d n)). rewrite Nat.sub_diag in Gn. apply Gn; [apply repeat_length|lia].
    + intros i Hi. apply (H1 i d); [lia|]. apply nth_error_repeat. auto.
Qed.

Lemma scalar_map_ok {A R B} (d : B) (op : A -> R -> B) lhs rhs :
  exists out, scalar_map d op lhs rhs = Vok out /\ pointwise (fun l => op l rhs) lhs out.
Proof.
  unfold scalar_map. destruct lhs as [|a0 l0].
  { exists []. split; [reflexivity|]. split; auto. intros [|i]; discriminate. }
  set (lhs := a0 :: l0). destruct (fill_spec d (length lhs) (fun i => l <- nth_error lhs i;; Some (op l rhs)) (fun i => op (nth i lhs a0) rhs)) as (out & E & L & H).
  - intros i Hi. rewrite (nth_error_nth' lhs a0) by auto. reflexivity.
  - exists out. split; [exact E|]. split; auto. intros i a Ea. rewrite H.
    + erewrite nth_error_nth by eauto. auto.
    + apply nth_error_Some. congruence.
Qed.

Lemma transform_vec_ok {A B} (d : B) (op : A -> B) v : exists out, transform_vec d op v = Vok out /\ pointwise op v out.
Proof.
  destruct (scalar_map_ok d (fun a (_ : unit) => op a) v tt) as (out & E & P). exists out. split; auto.
Qed.

Lemma elementwise_ok {A R B} (d : B) (op : A -> R -> B) lhs rhs : length lhs = length rhs ->
  exists out, elementwise d op lhs rhs = Vok out /\ pointwise2 op lhs rhs out.
Proof.
  intros Len. unfold elementwise. rewrite Len, Nat.eqb_refl. cbn [negb].
  destruct lhs as [|a0 l0], rhs as [|b0 r0]; try discriminate.
  { exists []. split; [reflexivity|]. split; auto. intros [|i]; discriminate. }
  set (lhs := a0 :: l0) in *. set (rhs := b0 :: r0) in *.
  destruct (fill_spec d (length rhs) (fun i => l <- nth_error lhs i;; r <- nth_error rhs i ;; Some (op l r))
     (fun i => op (nth i lhs a0) (nth i rhs b0))) as (out & E & L & H).
  - intros i Hi. rewrite (nth_error_nth' lhs a0) by lia. rewrite (nth_error_nth' rhs b0) by lia. reflexivity.
  - exists out. split; [exact E|]. split; [congruence|]. intros i a b Ea Eb. rewrite H.
    + erewrite (nth_error_nth lhs) by eauto. erewrite (nth_error_nth rhs) by eauto. auto.
    + apply nth_error_Some. congruence.
Qed.

Lemma elementwise_mismatch {A R B} (d : B) (op : A -> R -> B) lhs rhs : length lhs <> length rhs ->
  elementwise d op lhs rhs = Vlength_error.
Proof. intros H. unfold elementwise. apply Nat.eqb_neq in H. rewrite H. reflexivity. Qed.

Lemma map_assign_ok {A B} (op : A -> B -> A) lhs rhs : length lhs = length rhs ->
  exists out, elementwise_map_assign op lhs rhs = Vok out /\ pointwise2 op lhs rhs out.
Proof.
  intros Len. unfold elementwise_map_assign. rewrite Len, Nat.eqb_refl. cbn [negb].
  destruct lhs as [|a0 l0], rhs as [|b0 r0]; try discriminate.
  { exists []. split; [reflexivity|]. split; auto. intros [|i]; discriminate. }
  set (lhs := a0 :: l0) in *. set (rhs := b0 :: r0) in *.
  destruct (loop_spec (fun v i a => r <- nth_error rhs i ;; Some (op a r)) (fun i a => op a (nth i rhs b0)) (length rhs) 0 lhs) as (out & E & L & H & _).
  - lia.
  - intros w i a Hi _ _ _ _. rewrite (nth_error_nth' rhs b0) by lia. reflexivity.
  - exists out. split.
    + assert (Ef : fold_left (fun acc i => v <- acc ;; l <- nth_error v i ;; r <- nth_error rhs i ;; oupd v i (op l r))
                  (seq 0 (length rhs)) (Some lhs) = Some out); [|rewrite Ef; auto].
      rewrite <- E. apply fold_left_ext. intros [v|] i _; [|reflexivity]. cbn [obind].
      destruct (nth_error v i); [|reflexivity]. cbn [obind]. destruct (nth_error rhs i); reflexivity.
    + split; auto. intros i a b Ea Eb. rewrite (H i a); auto.
      * erewrite (nth_error_nth rhs) by eauto. auto.
      * assert ((i < length rhs)%nat) by (apply nth_error_Some; congruence). lia.
Qed.

Lemma map_assign_mismatch {A B} (op : A -> B -> A) lhs rhs : length lhs <> length rhs ->
  elementwise_map_assign op lhs rhs = Vlength_error.
Proof. intros H. unfold elementwise_map_assign. assert (H' : length rhs <> length lhs) by auto. apply Nat.eqb_neq in H'. rewrite H'. reflexivity. Qed.

Lemma map_assign_self_ok {A} (op : A -> A -> A) lhs :
  exists out, elementwise_map_assign_self op lhs = Vok out /\ pointwise (fun a => op a a) lhs out.
Proof.
  unfold elementwise_map_assign_self.
  destruct (loop_spec (fun v i a => r <- nth_error v i ;; Some (op a r)) (fun i a => op a a) (length lhs) 0 lhs) as (out & E & L & H & _).
  - lia.
  - intros w i a Hi _ Ea _ _. rewrite Ea. reflexivity.
  - exists out. split.
    + assert (Ef : fold_left (fun acc i => v <- acc ;; l <- nth_error v i ;; r <- nth_error v i ;; oupd v i (op l r))
                  (seq 0 (length lhs)) (Some lhs) = Some out); [|rewrite Ef; auto].
      rewrite <- E. apply fold_left_ext. intros [v|] i _; [|reflexivity]. cbn [obind].
      destruct (nth_error v i); reflexivity.
    + split; auto. intros i a Ea. apply H; auto. assert ((i < length lhs)%nat) by (apply nth_error_Some; congruence). lia.
Qed.

Lemma scalar_assign_ok {A} (op : A -> A -> A) lhs r :
  exists out, scalar_map_assign op lhs (Separate r) = Vok out /\ pointwise (fun a => op a r) lhs out.
Proof.
  unfold scalar_map_assign.
  destruct (loop_spec (fun v i a => Some (op a r)) (fun i a => op a r) (length lhs) 0 lhs) as (out & E & L & H & _).
  - lia.
  - reflexivity.
  - exists out. split.
    + assert (Ef : fold_left (fun acc i => v <- acc ;; l <- nth_error v i ;; r <- Some r ;; oupd v i (op l r))
                  (seq 0 (length lhs)) (Some lhs) = Some out); [|rewrite Ef; auto].
      rewrite <- E. apply fold_left_ext. intros [v|] i _; [|reflexivity]. cbn [obind].
      destruct (nth_error v i); reflexivity.
    + split; auto. intros i a Ea. apply H; auto. assert ((i < length lhs)%nat) by (apply nth_error_Some; congruence). lia.
Qed.

(** if the scalar is the last element of the vector, every element is combined with its old value *)
Lemma scalar_assign_last_ok {A} (op : A -> A -> A) l r :
  exists out, scalar_map_assign op (l ++ [r]) (OwnElement (length l)) = Vok out /\ pointwise (fun a => op a r) (l ++ [r]) out.
Proof.
  unfold scalar_map_assign. set (lhs := l ++ [r]).
  destruct (loop_spec (fun v i a => r <- nth_error v (length l) ;; Some (op a r)) (fun i a => op a r) (length lhs) 0 lhs) as (out & E & L & H & _).
  - lia.
  - intros w i a Hi Lw Ea Ev Hl. unfold lhs in Hi. rewrite app_length in Hi. simpl in Hi.
    rewrite Hl by lia. unfold lhs. rewrite nth_error_app2, Nat.sub_diag by lia. reflexivity.
  - exists out. split.
    + assert (Ef : fold_left (fun acc i => v <- acc ;; l0 <- nth_error v i ;; r <- nth_error v (length l) ;; oupd v i (op l0 r))
                  (seq 0 (length lhs)) (Some lhs) = Some out); [|rewrite Ef; auto].
      rewrite <- E. apply fold_left_ext. intros [v|] i _; [|reflexivity]. cbn [obind].
      destruct (nth_error v i); [|reflexivity]. cbn [obind]. destruct (nth_error v (length l)); reflexivity.
    + split; auto. intros i a Ea. apply H; auto. assert ((i < length lhs)%nat) by (apply nth_error_Some; congruence). lia.
Qed.

Lemma nth_error_ext {A} (l : list A) : forall m, (forall i, nth_error l i = nth_error m i) -> l = m.
Proof.
  induction l as [|a l IH]; intros [|b m] H; auto; try (specialize (H O); discriminate).
  pose proof (H O) as H0. inversion H0; subst. f_equal. apply IH. intros i. exact (H (S i)).
Qed.
Lemma nth_error_firstn_lt {A} (l : list A) n k : (k < n)%nat -> nth_error (firstn n l) k = nth_error l k.
Proof. revert n k; induction l; intros [|n] [|k] H; simpl; try lia; auto. apply IHl. lia. Qed.
Lemma nth_error_skipn_add {A} (l : list A) n k : nth_error (skipn n l) k = nth_error l (n + k).
Proof. revert n; induction l; intros [|n]; simpl; auto. destruct k; auto. Qed.

Lemma subvector_ok {A} (v : list A) i1 i2 :
  let n := Z.of_nat (length v) in let a := from_end n i1 in let b := from_end n i2 in
  0 <= a <= b + 1 -> b < n ->
  exists out, subvector v i1 i2 = Vok out /\ Z.of_nat (length out) = b - a + 1 /\
    forall k, 0 <= k < b - a + 1 -> nth_error out (Z.to_nat k) = nth_error v (Z.to_nat (a + k)).
Proof.
  cbn zeta. intros Ha Hb. unfold subvector, iter_range.
  assert (E1 : (if i1 >=? 0 then 0 else Z.of_nat (length v)) + i1 = from_end (Z.of_nat (length v)) i1).
  { unfold from_end. destruct (Z.geb_spec i1 0), (Z.ltb_spec i1 0); lia. }
  assert (E2 : (if i2 >=? 0 then 0 else Z.of_nat (length v)) + i2 = from_end (Z.of_nat (length v)) i2).
  { unfold from_end. destruct (Z.geb_spec i2 0), (Z.ltb_spec i2 0); lia. }
  rewrite E1, E2. set (a := from_end _ i1) in *. set (b := from_end _ i2) in *.
  destruct (Z.leb_spec 0 a); [|lia]. destruct (Z.leb_spec a (b + 1)); [|lia]. destruct (Z.leb_spec (b + 1) (Z.of_nat (length v))); [|lia].
  cbn [andb]. eexists; split; [reflexivity|]. split.
  - rewrite firstn_length, skipn_length. lia.
  - intros k Hk. rewrite nth_error_firstn_lt by lia. rewrite nth_error_skipn_add. f_equal. lia.
Qed.

Lemma subvector_ub {A} (v : list A) i1 i2 :
  let n := Z.of_nat (length v) in let a := from_end n i1 in let b := from_end n i2 in
  ~ (0 <= a <= b + 1 /\ b < n) -> subvector v i1 i2 = Vub.
Proof.
  cbn zeta. intros H. unfold subvector, iter_range.
  assert (E1 : (if i1 >=? 0 then 0 else Z.of_nat (length v)) + i1 = from_end (Z.of_nat (length v)) i1).
  { unfold from_end. destruct (Z.geb_spec i1 0), (Z.ltb_spec i1 0); lia. }
  assert (E2 : (if i2 >=? 0 then 0 else Z.of_nat (length v)) + i2 = from_end (Z.of_nat (length v)) i2).
  { unfold from_end. destruct (Z.geb_spec i2 0), (Z.ltb_spec i2 0); lia. }
  rewrite E1, E2. set (a := from_end _ i1) in *. set (b := from_end _ i2) in *.
  destruct (Z.leb_spec 0 a); [|reflexivity]. destruct (Z.leb_spec a (b + 1)); [|reflexivity].
  destruct (Z.leb_spec (b + 1) (Z.of_nat (length v))); [|reflexivity]. exfalso. apply H. lia.
Qed.

Lemma diff_ok (v : list Q) : v <> [] -> exists out, diff v = Vok out /\ S (length out) = length v /\
  forall i x y, nth_error v i = Some x -> nth_error v (S i) = Some y -> nth_error out i = Some (y - x)%Q.
Proof.
  intros Hv. unfold diff, iter_range.
  assert (L : (1 <= length v)%nat) by (destruct v; [congruence|simpl; lia]).
  destruct (Z.leb_spec 0 1); [|lia]. destruct (Z.leb_spec 1 (Z.of_nat (length v))); [|lia].
  destruct (Z.leb_spec (Z.of_nat (length v)) (Z.of_nat (length v))); [|lia].
  destruct (Z.leb_spec 0 0); [|lia]. destruct (Z.leb_spec 0 (Z.of_nat (length v) - 1)); [|lia].
  destruct (Z.leb_spec (Z.of_nat (length v) - 1) (Z.of_nat (length v))); [|lia]. cbn [andb].
  set (xp := firstn _ _). set (xm := firstn (Z.to_nat (Z.of_nat (length v) - 1 - 0)) _).
  destruct (elementwise_ok 0%Q Qminus xp xm) as (out & E & L1 & H').
  - unfold xp, xm. rewrite !firstn_length, !skipn_length. lia.
  - exists out. split; [exact E|]. assert (Lx : length xp = (length v - 1)%nat).
    { unfold xp. rewrite firstn_length, skipn_length. lia. }
    split; [lia|]. intros i x y Ex Ey. assert ((S i < length v)%nat) by (apply nth_error_Some; congruence).
    apply H'.
    + unfold xp. rewrite nth_error_firstn_lt by lia. rewrite nth_error_skipn_add. exact Ey.
    + unfold xm. rewrite nth_error_firstn_lt by lia. rewrite nth_error_skipn_add. exact Ex.
Qed.

Lemma sum_app_acc l : forall a, (fold_left Qplus l a == a + fold_left Qplus l 0)%Q.
Proof.
  induction l as [|x l IH]; intros a; cbn [fold_left]; [ring|]. rewrite IH. rewrite (IH (0 + x)%Q). ring.
Qed.
(** telescoping: the differences add up to the distance of the end points *)
Lemma diff_sum (v : list Q) x0 out : diff (x0 :: v) = Vok out -> (sum out == last (x0 :: v) x0 - x0)%Q.
Proof.
  revert x0 out; induction v as [|x v IH]; intros x0 out H.
  - vm_compute in H. inversion H. unfold sum. simpl. ring.
  - destruct (diff_ok (x0 :: x :: v)) as (o & Eo & Lo & Ho); [discriminate|]. rewrite Eo in H. inversion H; subst o.
    destruct (diff_ok (x :: v)) as (o & Eo' & Lo' & Ho'); [discriminate|].
    assert (E : out = (x - x0)%Q :: o).
    { destruct out as [|d out]; [simpl in Lo; lia|]. f_equal.
      - specialize (Ho O x0 x eq_refl eq_refl). simpl in Ho. congruence.
      - apply nth_error_ext. intros i. destruct (nth_error (x :: v) i) as [a|] eqn:Ea.
        + destruct (nth_error (x :: v) (S i)) as [b|] eqn:Eb.
          * rewrite (Ho' i a b Ea Eb). exact (Ho (S i) a b Ea Eb).
          * apply nth_error_None in Eb. assert (nth_error out i = None) as -> by (apply nth_error_None; simpl in *; lia).
            symmetry. apply nth_error_None. simpl in *; lia.
        + apply nth_error_None in Ea. assert (nth_error out i = None) as -> by (apply nth_error_None; simpl in *; lia).
          symmetry. apply nth_error_None. simpl in *; lia. }
    rewrite E. unfold sum. cbn [fold_left]. rewrite sum_app_acc. fold (sum o). rewrite (IH x o Eo').
    replace (last (x0 :: x :: v) x0) with (last (x :: v) x).
    + ring.
    + clear. revert x x0. induction v as [|y v IH]; intros x x0; [reflexivity|].
      change (last (x :: y :: v) x) with (last (y :: v) x). change (last (x0 :: x :: y :: v) x0) with (last (x :: y :: v) x0).
      change (last (x :: y :: v) x0) with (last (y :: v) x0). clear IH. revert y. induction v as [|z v IH]; intros y; [reflexivity|]. apply (IH z).
Qed.

(** maximum norm *)
Lemma std_max_fin a b : exists m, std_max (Fin a) (Fin b) = Fin m /\ (a <= m)%Q /\ (b <= m)%Q /\ (m = a \/ m = b).
Proof.
  unfold std_max, flt. destruct (Qle_bool b a) eqn:E; cbn [negb].
  - apply Qle_bool_iff in E. exists a. repeat split; auto. apply Qle_refl.
  - exists b. assert (H : (a <= b)%Q). { destruct (Qlt_le_dec a b) as [L|L]; [apply Qlt_le_weak; auto|]. apply Qle_bool_iff in L. congruence. }
    repeat split; auto. apply Qle_refl.
Qed.

Lemma max_fold l : forall q0, (0 <= q0)%Q -> exists m, fold_left (fun out x => std_max out (flabs x)) (map Fin l) (Fin q0) = Fin m /\
  (q0 <= m)%Q /\ (forall x, In x l -> Qabs x <= m)%Q /\ (m = q0 \/ exists x, In x l /\ m = Qabs x).
Proof.
  induction l as [|x l IH]; intros q0 H0; cbn [map fold_left].
  - exists q0. repeat split; auto; [apply Qle_refl|intros ? []].
  - cbn [flabs]. destruct (std_max_fin q0 (Qabs x)) as (m1 & -> & A & B & D).
    destruct (IH m1) as (m & E & A1 & B1 & D1); [eapply Qle_trans; eauto|].
    exists m. split; [exact E|]. split; [eapply Qle_trans; eauto|]. split.
    + intros y [<-|Hy]; [eapply Qle_trans; eauto|auto].
    + destruct D1 as [->|(y & Hy & ->)].
      * destruct D as [->| ->]; [auto|right; exists x; simpl; auto].
      * right. exists y. simpl; auto.
Qed.

Lemma max_norm_ok l : exists m, max_norm (map Fin l) = Fin m /\ (0 <= m)%Q /\ (forall x, In x l -> Qabs x <= m)%Q /\
  ((m == 0)%Q /\ (forall x, In x l -> x == 0)%Q \/ exists x, In x l /\ (m == Qabs x)%Q).
Proof.
  unfold max_norm. destruct (max_fold l 0%Q (Qle_refl 0)) as (m & E & H0 & H1 & H2).
  exists m. split; [exact E|]. split; [exact H0|]. split; [exact H1|]. destruct H2 as [->|(x & Hx & ->)].
  - left. split; [reflexivity|]. intros x Hx. specialize (H1 x Hx).
    assert (A : (Qabs x == 0)%Q) by (apply Qle_antisym; auto; apply Qabs_nonneg).
    apply Qle_antisym.
    + rewrite <- A. apply Qle_Qabs.
    + rewrite <- (Qopp_involutive x). change 0%Q with (- 0)%Q. apply Qopp_le_compat.
      rewrite <- A, <- Qabs_opp. apply Qle_Qabs.
  - right. exists x. split; auto. reflexivity.
Qed.

(** NaN elements never enter the norm *)
Lemma max_norm_drops_nan l : max_norm l = max_norm (filter (fun x => match x with NaN => false | Fin _ => true end) l).
Proof.
  unfold max_norm. generalize (Fin 0%Q). induction l as [|[|q] l IH]; intros a; cbn [fold_left filter flabs]; auto.
  assert (E : std_max a NaN = a) by (destruct a; reflexivity). rewrite E. apply IH.
Qed.

(** vec * comp *)
Lemma mul_vec_comp_zero lhs z : exists out, mul_vec_comp lhs z = Vok out /\ length out = length lhs /\
  forall i a, nth_error out i = Some a -> (a == C0)%C.
Proof.
  unfold mul_vec_comp. destruct lhs as [|a0 l0].
  { exists []. repeat split; auto; intros; destruct i; discriminate. }
  set (lhs := a0 :: l0) in *.
  destruct (loop_spec (fun v i a => l <- nth_error lhs i ;; Some (Cmul a (Cmul (as_comp l) z)))
     (fun i a => Cmul a (Cmul (as_comp (nth i lhs a0)) z)) (length lhs) 0 (repeat C0 (length lhs))) as (out & E & L & H & _).
  - rewrite repeat_length. lia.
  - intros w i a Hi _ _ _ _. rewrite (nth_error_nth' lhs a0) by lia. reflexivity.
  - rewrite repeat_length in L. exists out. split; [|split; auto].
    + assert (Ef : fold_left (fun acc i => v <- acc ;; old <- nth_error v i ;; l <- nth_error lhs i ;;
                     oupd v i (Cmul old (Cmul (as_comp l) z))) (seq 0 (length lhs)) (Some (repeat C0 (length lhs))) = Some out);
       [|rewrite Ef; auto].
      rewrite <- E. apply fold_left_ext. intros [v|] i _; [|reflexivity]. cbn [obind].
      destruct (nth_error v i); [|reflexivity]. cbn [obind]. destruct (nth_error lhs i); reflexivity.
    + intros i a Ea. assert (Hi : (i < length lhs)%nat) by (rewrite <- L; apply nth_error_Some; congruence).
      rewrite (H i C0) in Ea; [|lia|apply nth_error_repeat; auto]. inversion Ea; subst. ring.
Qed.

Lemma complex_parts v :
  (exists out, vreal v = Vok out /\ pointwise (fun s => re (as_comp s)) v out) /\
  (exists out, vconj v = Vok out /\ length out = length v /\
     forall i s, nth_error v i = Some s -> exists t, nth_error out i = Some t /\ (as_comp t == Cconj (as_comp s))%C) /\
  (Forall (fun s => exists z, s = Comp z) v -> exists out, vimag v = Vok out /\ pointwise (fun s => im (as_comp s)) v out).
Proof.
  split; [|split].
  - destruct (transform_vec_ok 0%Q myreal v) as (out & E & L & H). exists out. split; [exact E|]. split; auto.
    intros i a Ea. rewrite (H i a Ea). destruct a; reflexivity.
  - destruct (transform_vec_ok (Real 0%Q) myconj v) as (out & E & L & H). exists out. split; [exact E|]. split; auto.
    intros i a Ea. exists (myconj a). split; auto. destruct a; split; simpl; reflexivity.
  - intros F. destruct (transform_vec_ok 0%Q myimag v) as (out & E & L & H). exists out. split; [exact E|]. split; auto.
    intros i a Ea. rewrite (H i a Ea). rewrite Forall_forall in F. destruct (F a) as (z & ->); [eapply nth_error_In; eauto|]. reflexivity.
Qed.
