From Coq Require Import Permutation QArith Qabs Qminmax.
From Verif Require Import Prelude Idx_Model Idx_Spec Idx_Proofs Arr_Model Arr_Spec.
Open Scope Z_scope.

(** ** construction *)
Lemma strides_cons d ds : strides (d :: ds) = prodZ ds :: strides ds.
Proof.
  unfold strides. cbn [length seq map]. f_equal. rewrite <- seq_shift, map_map. apply map_ext. reflexivity.
Qed.

Lemma cumul_strides ds : pos_dims ds -> prodZ ds < w64 -> get_cumul_length ds = strides ds.
Proof.
  induction ds as [|d ds IH]; intros Hp Hb; [reflexivity|].
  inversion Hp as [|? ? Hd Hp']; subst. cbn [prodZ] in Hb. pose proof (prodZ_pos _ Hp').
  rewrite strides_cons. cbn [get_cumul_length]. destruct ds as [|d1 ds']; [reflexivity|].
  rewrite IH by (auto; nia). rewrite strides_cons.
  inversion Hp' as [|? ? Hd1 Hp'']; subst. cbn [prodZ] in *.
  pose proof (prodZ_pos _ Hp'').
  rewrite umul_small by nia. f_equal. ring.
Qed.

Lemma flat_size_prod ds : pos_dims ds -> prodZ ds < w64 -> flat_size ds = prodZ ds.
Proof. intros. unfold flat_size. rewrite fold_umul; auto; lia. Qed.

Lemma mk_marray_wf {A} ds (v : A) : ds <> [] -> pos_dims ds -> prodZ ds < w64 -> wf (mk_marray ds v).
Proof.
  intros Hn Hp Hb. pose proof (prodZ_pos _ Hp). constructor; simpl; auto.
  - rewrite repeat_length, flat_size_prod by auto. lia.
  - apply cumul_strides; auto.
Qed.

Lemma mk_marray_buf_wf {A} ds (buf : list A) : ds <> [] -> pos_dims ds -> prodZ ds < w64 ->
  Z.of_nat (length buf) = prodZ ds -> wf (mk_marray_buf ds buf).
Proof. intros Hn Hp Hb Hl. constructor; simpl; auto. apply cumul_strides; auto. Qed.

(** ** element access *)
Lemma flat_index_row_major is ds : ds <> [] -> in_range is ds -> prodZ ds < w64 ->
  flat_index ds is = Some (row_major is ds).
Proof.
  intros Hn Hi Hb. inversion Hi as [|i d is' ds' H1 H2]; subst; [congruence|].
  unfold flat_index. assert (0 < prodZ ds') by (apply prodZ_pos; eapply in_range_pos; eauto).
  simpl in Hb. rewrite horner_fold; auto; try lia. nia.
Qed.

Lemma check_bounds_in ndebug is ds : in_range is ds -> check_bounds ndebug ds is = true.
Proof.
  intros H; unfold check_bounds. destruct ndebug; auto.
  induction H; simpl; auto. rewrite IHForall2. rewrite andb_true_r. apply Z.ltb_lt; lia.
Qed.

Lemma check_bounds_out is ds : out_of_range is ds -> check_bounds false ds is = false.
Proof.
  intros (Hl & Hp & Hn). unfold check_bounds. destruct (forallb _ _) eqn:E; auto.
  exfalso; apply Hn. clear Hn. revert ds Hl E. induction Hp; intros [|d ds] Hl E; simpl in *; try lia; constructor.
  - apply andb_true_iff in E. destruct E as [E _]. simpl in E. apply Z.ltb_lt in E. lia.
  - apply IHHp; [lia|]. apply andb_true_iff in E; tauto.
Qed.

Lemma row_major_lt_buf {A} (a : marray A) t : wf a -> in_range t (m_length a) ->
  (Z.to_nat (row_major t (m_length a)) < length (m_elements a))%nat.
Proof. intros W H. pose proof (row_major_range _ _ H). destruct W. lia. Qed.

Lemma at_in_range {A} ndebug (a : marray A) t : wf a -> in_range t (m_length a) ->
  exists e, stored a t = Some e /\ at_ ndebug a t = Elem e.
Proof.
  intros W H. pose proof (row_major_lt_buf _ _ W H) as Hlt. unfold at_, stored.
  rewrite check_bounds_in by auto. destruct W. rewrite flat_index_row_major by auto.
  destruct (nth_error (m_elements a) _) eqn:E; eauto.
  apply nth_error_None in E. lia.
Qed.

Lemma at_out_of_range {A} (a : marray A) t : out_of_range t (m_length a) -> at_ false a t = AssertFail.
Proof. intros H. unfold at_. rewrite check_bounds_out; auto. Qed.

Lemma oupd_nth_error_same {A} (l : list A) i x l' : oupd l i x = Some l' -> nth_error l' i = Some x.
Proof.
  revert i l'; induction l; intros i l' H; simpl in *; [congruence|].
  destruct i; [inversion H; auto|]. destruct (oupd l i x) eqn:E; simpl in H; [|congruence]. inversion H; subst. simpl. eauto.
Qed.
Lemma oupd_nth_error_other {A} (l : list A) i j x l' : oupd l i x = Some l' -> i <> j -> nth_error l' j = nth_error l j.
Proof.
  revert i j l'; induction l; intros i j l' H Hn; simpl in *; [congruence|].
  destruct i; [inversion H; subst; destruct j; [lia|auto]|].
  destruct (oupd l i x) eqn:E; simpl in H; [|congruence]. inversion H; subst.
  destruct j; auto. simpl. eapply IHl; eauto.
Qed.

Lemma set_at_in_range {A} ndebug (a : marray A) t v : wf a -> in_range t (m_length a) ->
  exists a', set_at ndebug a t v = Elem a' /\ wf a' /\ m_length a' = m_length a /\ stored a' t = Some v /\
    (forall u, in_range u (m_length a) -> u <> t -> stored a' u = stored a u).
Proof.
  intros W H. pose proof (row_major_lt_buf _ _ W H) as Hlt. unfold set_at.
  rewrite check_bounds_in by auto. destruct W as [Wn Wp Ws Wb Wc]. rewrite flat_index_row_major by auto.
  destruct (oupd_some (m_elements a) _ v Hlt) as (l' & E & L). rewrite E.
  eexists; split; [reflexivity|]. split; [|split; [|split]]; auto.
  - constructor; simpl; auto. lia.
  - unfold stored; simpl. eapply oupd_nth_error_same; eauto.
  - intros u Hu Hne. unfold stored; simpl. eapply oupd_nth_error_other; eauto.
    pose proof (row_major_range _ _ Hu). pose proof (row_major_range _ _ H).
    intro Ee. apply Hne. eapply row_major_inj; eauto. lia.
Qed.

Lemma set_at_out_of_range {A} (a : marray A) t v : out_of_range t (m_length a) -> set_at false a t v = AssertFail.
Proof. intros H. unfold set_at. rewrite check_bounds_out; auto. Qed.

Lemma run_writes_spec {A} ndebug ws : forall (a : marray A) d0,
  wf a -> Forall (fun w => in_range (fst w) (m_length a)) ws ->
  (forall t, in_range t (m_length a) -> stored a t = Some (d0 t)) ->
  exists a', run_writes ndebug a ws = Elem a' /\ wf a' /\ m_length a' = m_length a /\
    forall t, in_range t (m_length a) -> at_ ndebug a' t = Elem (last_write (d0 t) ws t).
Proof.
  induction ws as [|[u v] ws IH]; intros a d0 W Hf Hs.
  - exists a. simpl. split; [auto|split; [auto|split; [auto|]]]. intros t Ht.
    destruct (at_in_range ndebug a t W Ht) as (e & E1 & E2). rewrite E2. rewrite Hs in E1 by auto. congruence.
  - inversion Hf as [|? ? Hu Hf']; subst. simpl in Hu.
    destruct (set_at_in_range ndebug a u v W Hu) as (a1 & E & W1 & L1 & S1 & F1).
    simpl. rewrite E. destruct (IH a1 (fun t => if list_eq_dec Z.eq_dec u t then v else d0 t) W1) as (a' & E' & W' & L' & R).
    { rewrite L1; auto. }
    { intros t Ht. rewrite L1 in Ht. destruct (list_eq_dec Z.eq_dec u t); [subst; auto|].
      rewrite F1; auto. }
    exists a'. split; auto. split; auto. split; [congruence|].
    intros t Ht. rewrite R by (rewrite L1; auto). reflexivity.
Qed.

Lemma nth_error_repeat_lt {A} (v : A) n k : (k < n)%nat -> nth_error (repeat v n) k = Some v.
Proof. revert k; induction n; intros k H; [lia|]. destruct k; simpl; auto. apply IHn; lia. Qed.

Lemma stored_mk {A} ds (v : A) t : ds <> [] -> pos_dims ds -> prodZ ds < w64 -> in_range t ds ->
  stored (mk_marray ds v) t = Some v.
Proof.
  intros Hn Hp Hb Ht. unfold stored; simpl. apply nth_error_repeat_lt.
  rewrite flat_size_prod by auto. pose proof (row_major_range _ _ Ht). lia.
Qed.

Lemma access_history {A} ndebug ds (v : A) ws : ds <> [] -> pos_dims ds -> prodZ ds < w64 ->
  Forall (fun w => in_range (fst w) ds) ws ->
  exists a, run_writes ndebug (mk_marray ds v) ws = Elem a /\
    forall t, in_range t ds -> at_ ndebug a t = Elem (last_write v ws t).
Proof.
  intros Hn Hp Hb Hf.
  destruct (run_writes_spec ndebug ws (mk_marray ds v) (fun _ => v)) as (a & E & W & L & R); auto.
  - apply mk_marray_wf; auto.
  - intros t Ht. apply stored_mk; auto.
  - exists a; split; auto.
Qed.

(** ** strides *)
Lemma row_major_bump a x y b ds : length (a ++ x :: b) = length ds ->
  row_major (a ++ (x + y) :: b) ds = row_major (a ++ x :: b) ds + y * prodZ (skipn (S (length a)) ds).
Proof.
  revert ds; induction a as [|z a IH]; intros [|d ds] H; simpl in H; try lia.
  - simpl. ring.
  - cbn [app row_major]. rewrite IH by lia. cbn [length]. rewrite (skipn_cons (S (length a))). ring.
Qed.

Lemma strides_nth ds i : (i < length ds)%nat -> nth_error (strides ds) i = Some (prodZ (skipn (S i) ds)).
Proof.
  intros H. unfold strides.
  rewrite (map_nth_error _ i (seq 0 (length ds)) (d := i)); auto.
  rewrite (nth_error_nth' _ O) by (rewrite seq_length; auto). rewrite seq_nth by auto. auto.
Qed.

Lemma in_range_prefix_zeros n t ds : in_range t ds -> (n <= length ds)%nat ->
  in_range (firstn n t ++ repeat 0 (length ds - n)) ds.
Proof.
  intros H; revert n; induction H as [|i d t ds Hi H IH]; intros n Hn; simpl in *.
  - rewrite firstn_nil. assert (n = O) by lia. subst. constructor.
  - destruct n; simpl.
    + constructor; [lia|]. specialize (IH O). simpl in IH. rewrite Nat.sub_0_r in IH. apply IH; lia.
    + constructor; auto. apply IH; lia.
Qed.

Lemma firstn_succ_nth {A} (d : A) l n : (n < length l)%nat -> firstn (S n) l = firstn n l ++ [nth n l d].
Proof. revert n; induction l; intros [|n] H; simpl in *; try lia; auto. f_equal. apply IHl; lia. Qed.

Lemma flatindex_ini_spec n t ds : (S n <= length ds)%nat -> in_range t ds -> prodZ ds < w64 ->
  get_flatindex_ini n t (strides ds) = Some (row_major (firstn (S n) t ++ repeat 0 (length ds - S n)) ds).
Proof.
  intros Hn Hi Hb. unfold get_flatindex_ini. pose proof (in_range_length _ _ Hi) as HL.
  assert (G : forall k, (k <= length ds)%nat ->
    fold_left (fun acc i => r <- acc ;; x <- nth_error t i ;; c <- nth_error (strides ds) i ;; Some (uadd r (umul x c)))
            (seq 0 k) (Some 0) = Some (row_major (firstn k t ++ repeat 0 (length ds - k)) ds)).
  { induction k; intros Hk.
    - simpl. f_equal. rewrite Nat.sub_0_r. clear. induction ds; simpl; auto.
    - rewrite seq_S, fold_left_app, IHk by lia. cbn [fold_left obind Nat.add].
      rewrite (nth_error_nth' t 0) by lia. rewrite strides_nth by lia. cbn [obind]. f_equal.
      pose proof (in_range_prefix_zeros k t ds Hi ltac:(lia)) as R1.
      pose proof (in_range_prefix_zeros (S k) t ds Hi ltac:(lia)) as R2.
      apply row_major_range in R1, R2.
      assert (E : row_major (firstn (S k) t ++ repeat 0 (length ds - S k)) ds =
        row_major (firstn k t ++ repeat 0 (length ds - k)) ds + nth k t 0 * prodZ (skipn (S k) ds)).
      { replace (length ds - k)%nat with (S (length ds - S k)) by lia. cbn [repeat].
        rewrite (firstn_succ_nth 0) by lia. rewrite <- app_assoc. cbn [app].
        pose proof (row_major_bump (firstn k t) 0 (nth k t 0) (repeat 0 (length ds - S k)) ds) as B.
        rewrite Z.add_0_l in B. rewrite B.
        - rewrite firstn_length. replace (Nat.min k (length t)) with k by lia. auto.
        - rewrite app_length, firstn_length. cbn [length]. rewrite repeat_length. lia. }
      assert (0 <= nth k t 0 * prodZ (skipn (S k) ds)).
      { apply Z.mul_nonneg_nonneg.
        - clear - Hi HL Hk. revert k Hk. induction Hi; intros k Hk; simpl in *; [lia|].
          destruct k; [lia|]. apply IHHi; simpl in *; lia.
        - pose proof (in_range_pos _ _ Hi) as Hp. rewrite <- (firstn_skipn (S k) ds) in Hp.
          apply Forall_app in Hp. destruct Hp as [_ Hp]. apply prodZ_pos in Hp. lia. }
      rewrite umul_small by lia. rewrite uadd_small by lia. lia. }
  apply G. auto.
Qed.

Lemma at_vectorized_spec {A} n (a : marray A) t : wf a -> in_range t (m_length a) ->
  row_major t (m_length a) + Z.of_nat n <= prodZ (m_length a) ->
  at_vectorized n a (row_major t (m_length a)) = Some (window a n t) /\ length (window a n t) = n.
Proof.
  intros W Ht Hn. pose proof (row_major_range _ _ Ht). destruct W as [_ _ _ Wb _].
  assert (L : length (window a n t) = n).
  { unfold window. rewrite firstn_length, skipn_length. lia. }
  split; auto. unfold at_vectorized. fold (window a n t). rewrite L, Nat.eqb_refl. auto.
Qed.

Lemma add_tuple_length a : forall b, length a = length b -> length (add_tuple a b) = length a.
Proof. induction a; intros [|y b] H; simpl in *; try lia. f_equal; auto. Qed.

Lemma osequence_some {A B} (f : A -> option B) (g : A -> B) l : (forall x, In x l -> f x = Some (g x)) ->
  osequence (map f l) = Some (map g l).
Proof.
  induction l; intros H; simpl; auto. rewrite H by (simpl; auto). simpl. rewrite IHl; auto. intros; apply H; simpl; auto.
Qed.

Lemma Forall2_app_inv_len {A B} (P : A -> B -> Prop) a b c d : length a = length c ->
  Forall2 P (a ++ b) (c ++ d) -> Forall2 P a c /\ Forall2 P b d.
Proof.
  revert c; induction a; intros [|y c] Hl H; simpl in *; try lia; auto.
  inversion H; subst. destruct (IHa c); auto.
Qed.

Section GetValues.
  Context {A : Type} (a : marray A) (pre f post : list Z) (k : Z) (sample vecsize : nat).
  Context (W : wf a).
  Context (Hr : in_range (pre ++ f ++ k :: post) (m_length a)).
  (** the sampled neighbourhood stays inside the array *)
  Context (Hf : in_range (pre ++ map (fun x => x + (Z.of_nat sample - 1)) f ++ k :: post) (m_length a)).
  (** the vector read at each sample stays inside the last dimensions *)
  Context (Hv : k * prodZ (skipn (S (length pre + length f)) (m_length a)) + Z.of_nat vecsize
                <= prodZ (skipn (length pre + length f) (m_length a))).
  Context (Hs : (1 <= sample)%nat).

  Let ds := m_length a.
  Let zeros := repeat 0 (length post).
  Definition corner (o : list Z) : list Z := pre ++ add_tuple f o ++ k :: zeros.

  Lemma corner_in_range o : length o = length f -> Forall (fun x => 0 <= x < Z.of_nat sample) o -> in_range (corner o) ds.
  Proof.
    intros Ho Hb. unfold corner.
    pose proof (in_range_length _ _ Hr) as HL.
    rewrite <- (firstn_skipn (length pre) ds) in *.
    assert (L1 : length pre = length (firstn (length pre) ds)).
    { rewrite firstn_length. fold ds in HL. rewrite !app_length in HL. lia. }
    assert (Hr' := Hr). assert (Hf' := Hf). fold ds in Hr', Hf'.
    rewrite <- (firstn_skipn (length pre) ds) in Hr', Hf'.
    apply Forall2_app_inv_len in Hr'; auto. apply Forall2_app_inv_len in Hf'; auto.
    destruct Hr' as [R1 R2], Hf' as [_ F2]. apply Forall2_app; auto.
    clear - R2 F2 Ho Hb Hs. revert o Ho Hb R2 F2. generalize (skipn (length pre) ds). clear -Hs.
    induction f as [|x f' IH]; intros d [|y o] Ho Hb R2 F2; simpl in *; try lia.
    - inversion R2 as [|? ? ? ? H1 H2]; subst. constructor; auto. unfold zeros.
      clear - H2. induction H2; simpl; constructor; auto; lia.
    - inversion R2; subst. inversion F2; subst. inversion Hb; subst.
      constructor; [lia|]. apply IH; auto.
  Qed.

  Lemma corner_window o : length o = length f -> Forall (fun x => 0 <= x < Z.of_nat sample) o ->
    at_vectorized vecsize a (row_major (corner o) ds) = Some (window a vecsize (corner o)).
  Proof.
    intros Ho Hb. apply at_vectorized_spec; auto. { apply corner_in_range; auto. }
    pose proof (corner_in_range o Ho Hb) as Hc. fold ds.
    unfold corner in *.
    set (n := (length pre + length f)%nat) in *.
    assert (Lp : length (pre ++ add_tuple f o) = n) by (rewrite app_length, add_tuple_length; auto).
    rewrite app_assoc in *. set (p := pre ++ add_tuple f o) in *.
    pose proof (in_range_length _ _ Hc) as HL. rewrite app_length in HL. cbn [length] in HL.
    assert (Hlen : (n < length ds)%nat) by lia.
    rewrite <- (firstn_skipn n ds) in Hc. apply Forall2_app_inv_len in Hc; [|rewrite firstn_length; lia].
    destruct Hc as [Hc1 Hc2].
    assert (E : row_major (p ++ k :: zeros) ds = row_major p (firstn n ds) * prodZ (skipn n ds) + k * prodZ (skipn (S n) ds)).
    { assert (Ed : ds = firstn n ds ++ skipn n ds) by (symmetry; apply firstn_skipn).
      rewrite Ed at 1. clear - Hc1 Hlen.
      assert (G : forall u d1 r d2, length u = length d1 ->
        row_major (u ++ r) (d1 ++ d2) = row_major u d1 * prodZ d2 + row_major r d2).
      { induction u; intros [|e d1] r d2 H; simpl in *; try lia. rewrite IHu by lia. rewrite prodZ_app. ring. }
      rewrite G by (apply (in_range_length _ _ Hc1)). f_equal.
      destruct (skipn n ds) eqn:Es.
      - apply (f_equal (@length Z)) in Es. rewrite skipn_length in Es. simpl in Es. lia.
      - cbn [row_major]. replace (skipn (S n) ds) with l.
        + unfold zeros. assert (forall m d, row_major (repeat 0 m) d = 0) by (induction m; intros [|? d]; simpl; auto; rewrite IHm; lia).
          rewrite H. ring.
        + clear - Es. clearbody n. revert Es. generalize ds as e. induction n; intros [|x e] Es; simpl in *; try congruence.
          apply (IHn _ Es). }
    rewrite E.
    pose proof (row_major_range _ _ Hc1) as R1.
    assert (HP : prodZ ds = prodZ (firstn n ds) * prodZ (skipn n ds)) by (rewrite <- prodZ_app, firstn_skipn; auto).
    rewrite HP. fold ds in Hv.
    assert (0 < prodZ (skipn n ds)) by (apply prodZ_pos; eapply in_range_pos; eauto). nia.
  Qed.

  Lemma ini_corner : get_flatindex_ini (length pre + length f) (pre ++ f ++ k :: post) (m_cumul a) =
    Some (row_major (corner (repeat 0 (length f))) ds).
  Proof.
    destruct W as [_ _ Ws _ Wc]. rewrite Wc. pose proof (in_range_length _ _ Hr) as HL.
    rewrite !app_length in HL. cbn [length] in HL.
    rewrite flatindex_ini_spec; auto; [|lia]. f_equal. fold ds. f_equal. unfold corner.
    replace (add_tuple f (repeat 0 (length f))) with f.
    2:{ clear. induction f; simpl; auto. rewrite <- IHl. f_equal; lia. }
    assert (E : firstn (S (length pre + length f)) (pre ++ f ++ k :: post) = pre ++ f ++ [k]).
    { replace (pre ++ f ++ k :: post) with ((pre ++ f ++ [k]) ++ post) by (rewrite <- !app_assoc; auto).
      replace (S (length pre + length f)) with (length (pre ++ f ++ [k])) by (rewrite !app_length; simpl; lia).
      rewrite firstn_app, Nat.sub_diag, firstn_all. cbn [firstn]. apply app_nil_r. }
    rewrite E. rewrite <- !app_assoc. cbn [app]. do 3 f_equal. unfold zeros. f_equal.
    fold ds in HL. lia.
  Qed.

  Lemma corner_bump u x v i : f = u ++ x :: v -> forall ou ov, length ou = length u -> length ov = length v -> forall y,
    row_major (corner (ou ++ (y + i) :: ov)) ds = row_major (corner (ou ++ y :: ov)) ds + i * prodZ (skipn (S (length pre + length u)) ds).
  Proof.
    intros Ef ou ov Hu Hov y. unfold corner. pose proof (in_range_length _ _ Hr) as HL. fold ds in HL.
    assert (E : forall z, pre ++ add_tuple f (ou ++ z :: ov) ++ k :: zeros
      = (pre ++ add_tuple u ou) ++ (x + z) :: (add_tuple v ov ++ k :: zeros)).
    { intros z. rewrite Ef. rewrite <- app_assoc. f_equal.
      assert (G : add_tuple (u ++ x :: v) (ou ++ z :: ov) = add_tuple u ou ++ (x + z) :: add_tuple v ov).
      { clear - Hu. revert ou Hu. induction u; intros [|o ou] H; simpl in *; try lia; auto. rewrite IHu by lia; auto. }
      rewrite G. rewrite <- app_assoc. reflexivity. }
    rewrite !E. rewrite Z.add_assoc. rewrite row_major_bump.
    - rewrite app_length, add_tuple_length by auto. auto.
    - rewrite Ef in HL. rewrite !app_length in *. cbn [length] in *. rewrite !app_length in *. cbn [length] in *.
      rewrite !add_tuple_length by auto. unfold zeros. rewrite repeat_length. lia.
  Qed.
End GetValues.

Lemma Forall_offset_cons s i o : (i < s)%nat -> Forall (fun x => 0 <= x < Z.of_nat s) o ->
  Forall (fun x => 0 <= x < Z.of_nat s) (Z.of_nat i :: o).
Proof. intros; constructor; auto; lia. Qed.

Lemma osequence_flat_map {A B} (f : A -> list (option B)) (g : A -> list B) l :
  (forall x, In x l -> osequence (f x) = Some (g x)) -> osequence (flat_map f l) = Some (flat_map g l).
Proof.
  induction l; intros H; simpl; auto.
  assert (G : forall (u v : list (option B)) x y, osequence u = Some x -> osequence v = Some y -> osequence (u ++ v) = Some (x ++ y)).
  { clear. induction u; intros v x y Hu Hv; simpl in *; [inversion Hu; auto|].
    destruct a; simpl in *; [|congruence]. destruct (osequence u) eqn:E; simpl in *; [|congruence]. inversion Hu; subst.
    rewrite (IHu v l y); auto. }
  apply G; [apply H; simpl; auto|apply IHl; intros; apply H; simpl; auto].
Qed.

Lemma flat_map_map {A B C} (f : B -> list C) (g : A -> B) l : flat_map f (map g l) = flat_map (fun x => f (g x)) l.
Proof. induction l; simpl; auto. rewrite IHl; auto. Qed.
Lemma map_flat_map {A B C} (f : B -> C) (g : A -> list B) l : map f (flat_map g l) = flat_map (fun x => map f (g x)) l.
Proof. induction l; simpl; auto. rewrite map_app, IHl; auto. Qed.
Lemma flat_map_ext_in {A B} (f g : A -> list B) l : (forall x, In x l -> f x = g x) -> flat_map f l = flat_map g l.
Proof. induction l; intros H; simpl; auto. rewrite H by (simpl; auto). f_equal. apply IHl; intros; apply H; simpl; auto. Qed.

Lemma umul_swap x y : 0 <= y * x < w64 -> umul x y = y * x.
Proof. intros. rewrite umul_small; lia. Qed.

Lemma get_values_spec {A} (a : marray A) (pre f post : list Z) (k : Z) (sample vecsize : nat) :
  wf a -> (1 <= length f <= 3)%nat -> (1 <= sample)%nat ->
  in_range (pre ++ f ++ k :: post) (m_length a) ->
  in_range (pre ++ map (fun x => x + (Z.of_nat sample - 1)) f ++ k :: post) (m_length a) ->
  k * prodZ (skipn (S (length pre + length f)) (m_length a)) + Z.of_nat vecsize
                <= prodZ (skipn (length pre + length f) (m_length a)) ->
  get_values (length f) (length pre) vecsize sample a (pre ++ f ++ k :: post) =
  Some (map (fun o => window a vecsize (pre ++ add_tuple f o ++ k :: repeat 0 (length post)))
            (all_offsets (length f) sample)).
Proof.
  intros W Hn Hs Hr Hf Hv.
  pose proof (ini_corner a pre f post k sample vecsize W Hr Hs) as Hini.
  pose proof (corner_window a pre f post k sample vecsize W Hr Hf Hv Hs) as Hcw.
  pose proof (corner_in_range a pre f post k sample vecsize Hr Hf Hs) as Hcr.
  pose proof (corner_bump a pre f post k sample vecsize Hr Hs) as Hcb.
  set (c := corner pre f post k) in *.
  change (fun o => window a vecsize (pre ++ add_tuple f o ++ k :: repeat 0 (length post)))
    with (fun o => window a vecsize (c o)).
  unfold get_values. rewrite Hini. cbn [obind].
  pose proof (in_range_length _ _ Hr) as HL. rewrite !app_length in HL. cbn [length] in HL.
  destruct W as [Wn Wp Ws Wb Wc]. rewrite Wc.
  set (ds := m_length a) in *.
  assert (Hpos : forall n, 0 < prodZ (skipn n ds)).
  { intros n. apply prodZ_pos. rewrite <- (firstn_skipn n ds) in Wp. apply Forall_app in Wp; tauto. }
  assert (Hstep : forall o1 o2 s, length o1 = length f -> length o2 = length f ->
     Forall (fun x => 0 <= x < Z.of_nat sample) o1 -> Forall (fun x => 0 <= x < Z.of_nat sample) o2 ->
     0 <= s -> row_major (c o2) ds = row_major (c o1) ds + s ->
     0 <= s < w64 /\ uadd (row_major (c o1) ds) s = row_major (c o2) ds).
  { intros o1 o2 s L1 L2 F1 F2 Hs0 E. pose proof (row_major_range _ _ (Hcr o1 L1 F1)). pose proof (row_major_range _ _ (Hcr o2 L2 F2)).
    split; [lia|]. rewrite uadd_small by lia. lia. }
  destruct f as [|f0 [|f1 [|f2 [|f3 f']]]]; simpl in Hn; try lia; cbn [length] in *.
  - (* one frequency *)
    rewrite strides_nth by (fold ds; lia). cbn [obind]. cbn [all_offsets].
    rewrite !map_map. rewrite (osequence_some _ (fun i => window a vecsize (c [Z.of_nat i]))).
    { f_equal. induction (seq 0 sample); simpl; auto. f_equal; auto. }
    intros i Hi. apply in_seq in Hi.
    pose proof (Hcb [] f0 [] (Z.of_nat i) eq_refl [] [] eq_refl eq_refl 0) as B.
    cbn [length app] in B. rewrite Nat.add_0_r, Z.add_0_l in B.
    cbn [repeat length].
    destruct (Hstep [0] [Z.of_nat i] (Z.of_nat i * prodZ (skipn (S (length pre)) ds))) as [S1 S2]; auto.
    { repeat constructor; lia. } { repeat constructor; lia. }
    { pose proof (Hpos (S (length pre))). nia. }
    rewrite umul_small by lia. rewrite Z.mul_comm. rewrite S2. apply Hcw; auto. repeat constructor; lia.
  - (* two frequencies *)
    repeat (rewrite strides_nth by (fold ds; lia); cbn [obind]). cbn [all_offsets].
    rewrite flat_map_map. rewrite map_flat_map.
    apply osequence_flat_map. intros i Hi. apply in_seq in Hi.
    rewrite !map_map. rewrite (osequence_some _ (fun j => window a vecsize (c [Z.of_nat i; Z.of_nat j]))).
    { f_equal. rewrite map_flat_map. cbn [map].
      induction (seq 0 sample); simpl; auto; f_equal; auto. }
    intros j Hj. apply in_seq in Hj.
    pose proof (Hcb [] f0 [f1] (Z.of_nat i) eq_refl [] [0] eq_refl eq_refl 0) as B0.
    pose proof (Hcb [f0] f1 [] (Z.of_nat j) eq_refl [Z.of_nat i] [] eq_refl eq_refl 0) as B1.
    cbn [length app] in B0, B1. rewrite Nat.add_0_r in B0. rewrite Z.add_0_l in B0, B1.
    cbn [repeat length].
    destruct (Hstep [0;0] [Z.of_nat i; 0] (Z.of_nat i * prodZ (skipn (S (length pre)) ds))) as [S1 S2]; auto;
      try (repeat constructor; lia); [pose proof (Hpos (S (length pre))); nia|].
    destruct (Hstep [Z.of_nat i; 0] [Z.of_nat i; Z.of_nat j] (Z.of_nat j * prodZ (skipn (S (length pre + 1)) ds))) as [S3 S4]; auto;
      try (repeat constructor; lia); [pose proof (Hpos (S (length pre + 1))); nia|].
    rewrite !umul_swap by lia. rewrite S2, S4. apply Hcw; auto. repeat constructor; lia.
  - (* three frequencies *)
    repeat (rewrite strides_nth by (fold ds; lia); cbn [obind]). cbn [all_offsets].
    rewrite flat_map_map. rewrite map_flat_map.
    apply osequence_flat_map. intros i Hi. apply in_seq in Hi.
    rewrite flat_map_map. rewrite map_map, map_flat_map.
    apply osequence_flat_map. intros j Hj. apply in_seq in Hj.
    rewrite !map_map. rewrite (osequence_some _ (fun l => window a vecsize (c [Z.of_nat i; Z.of_nat j; Z.of_nat l]))).
    { f_equal. rewrite map_flat_map. cbn [map].
      induction (seq 0 sample); simpl; auto; f_equal; auto. }
    intros l Hl. apply in_seq in Hl.
    pose proof (Hcb [] f0 [f1;f2] (Z.of_nat i) eq_refl [] [0;0] eq_refl eq_refl 0) as B0.
    pose proof (Hcb [f0] f1 [f2] (Z.of_nat j) eq_refl [Z.of_nat i] [0] eq_refl eq_refl 0) as B1.
    pose proof (Hcb [f0;f1] f2 [] (Z.of_nat l) eq_refl [Z.of_nat i; Z.of_nat j] [] eq_refl eq_refl 0) as B2.
    cbn [length app] in B0, B1, B2. rewrite Nat.add_0_r in B0. rewrite Z.add_0_l in B0, B1, B2.
    cbn [repeat length].
    destruct (Hstep [0;0;0] [Z.of_nat i; 0; 0] (Z.of_nat i * prodZ (skipn (S (length pre)) ds))) as [S1 S2]; auto;
      try (repeat constructor; lia); [pose proof (Hpos (S (length pre))); nia|].
    destruct (Hstep [Z.of_nat i; 0; 0] [Z.of_nat i; Z.of_nat j; 0] (Z.of_nat j * prodZ (skipn (S (length pre + 1)) ds))) as [S3 S4]; auto;
      try (repeat constructor; lia); [pose proof (Hpos (S (length pre + 1))); nia|].
    destruct (Hstep [Z.of_nat i; Z.of_nat j; 0] [Z.of_nat i; Z.of_nat j; Z.of_nat l] (Z.of_nat l * prodZ (skipn (S (length pre + 2)) ds))) as [S5 S6]; auto;
      try (repeat constructor; lia); [pose proof (Hpos (S (length pre + 2))); nia|].
    rewrite !umul_swap by lia. rewrite S2, S4, S6.
    apply Hcw; auto. repeat constructor; lia.
Qed.
