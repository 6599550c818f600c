(** block views, swap, collapse, maxabs, partial_deriv *)
From Coq Require Import Permutation QArith Qabs Qminmax.
From Verif Require Import Prelude Idx_Model Idx_Spec Idx_Proofs Arr_Model Arr_Spec Arr_Proofs.
Open Scope Z_scope.

(** ** block views *)
Lemma mk_blockview_ok {A} (a : marray A) start len : block_inside start len (m_length a) ->
  mk_blockview a start len = Some (Blockview a start len (m_length a)).
Proof.
  intros (L1 & L2 & _ & H). unfold mk_blockview.
  assert (E : forallb (fun t => fst (fst t) + snd (fst t) <=? snd t) (combine (combine start len) (m_length a)) = true).
  { revert L1 L2 H. generalize (m_length a) as ds. clear. revert len.
    induction start as [|s start IH]; intros [|l len] [|d ds] L1 L2 H; simpl in *; try lia; auto.
    inversion H; subst. rewrite IH by (auto; lia). rewrite andb_true_r. apply Z.leb_le; auto. }
  rewrite E; auto.
Qed.

Lemma add_tuple_in_range start len t ds : block_inside start len ds -> in_range t len -> in_range (add_tuple start t) ds.
Proof.
  intros (L1 & L2 & P & H) Ht. revert len ds t L1 L2 H Ht.
  induction P as [|s start Hs P IH]; intros [|l len] [|d ds] t L1 L2 H Ht; simpl in *; try lia.
  - constructor.
  - inversion Ht as [|x ? t' ? Hx Ht']; subst. inversion H; subst. constructor; [lia|].
    apply (IH len ds); auto; lia.
Qed.

Lemma block_fold ds : forall ss ts r, in_range (add_tuple ss ts) ds -> length ss = length ts -> prodZ ds < w64 ->
  fold_left (fun r t => uadd (umul r (fst t)) (uadd (fst (snd t)) (snd (snd t)))) (combine ds (combine ss ts)) r
  = fold_left horner_step (combine ds (add_tuple ss ts)) r.
Proof.
  induction ds as [|d ds IH]; intros ss ts r H L Hb; [reflexivity|].
  destruct ss as [|s ss], ts as [|t ts]; simpl in *; try lia; auto.
  inversion H; subst. assert (0 < prodZ ds) by (apply prodZ_pos; eapply in_range_pos; eauto).
  rewrite IH; auto; [|nia]. f_equal. unfold horner_step. cbn [fst snd]. f_equal. apply uadd_small. nia.
Qed.

Lemma block_at_spec {A} ndebug (a : marray A) start len t : wf a -> block_inside start len (m_length a) -> in_range t len ->
  exists e, stored a (add_tuple start t) = Some e /\
            block_at ndebug (Blockview a start len (m_length a)) t = Elem e.
Proof.
  intros W B Ht. pose proof (add_tuple_in_range _ _ _ _ B Ht) as Hr.
  destruct (at_in_range ndebug a _ W Hr) as (e & E1 & E2). exists e; split; auto.
  unfold block_at. cbn [b_length b_data]. rewrite check_bounds_in by auto.
  assert (E : block_flat_index (Blockview a start len (m_length a)) t = Some (row_major (add_tuple start t) (m_length a))).
  { destruct W as [Wn Wp Ws _ _]. unfold block_flat_index. cbn [b_start b_stride].
    destruct B as (L1 & L2 & P & H). pose proof (in_range_length _ _ Ht) as Lt.
    destruct (m_length a) as [|d ds]; [congruence|]. destruct start as [|s ss]; [simpl in L1; lia|].
    destruct t as [|x t]; [simpl in *; lia|]. simpl in L1, L2, Lt.
    simpl in Hr. inversion Hr as [|? ? ? ? Hx Hr']; subst. cbn [prodZ] in Ws.
    assert (0 < prodZ ds) by (apply prodZ_pos; eapply in_range_pos; eauto).
    rewrite block_fold; auto; try lia; try nia. rewrite uadd_small by nia.
    rewrite horner_fold; auto; try nia. }
  rewrite E. unfold stored in E1. rewrite E1. auto.
Qed.

Lemma nth_error_map_seq {A} (f : nat -> A) n i : (i < n)%nat -> nth_error (map f (seq 0 n)) i = Some (f i).
Proof.
  intros H. erewrite map_nth_error; [reflexivity|]. rewrite (nth_error_nth' _ O) by (rewrite seq_length; auto).
  rewrite seq_nth by auto. auto.
Qed.

Lemma osequence_ex {A B} (f : A -> option B) l : (forall x, In x l -> exists y, f x = Some y) ->
  exists ys, osequence (map f l) = Some ys /\ Forall2 (fun x y => f x = Some y) l ys.
Proof.
  induction l; intros H; simpl.
  - exists []; split; auto.
  - destruct (H a) as (y & Hy); [simpl; auto|]. destruct IHl as (ys & E & F); [intros; apply H; simpl; auto|].
    exists (y :: ys). rewrite Hy. simpl. rewrite E. split; auto.
Qed.

Lemma Forall2_nth_l {A B} (P : A -> B -> Prop) l m i x : Forall2 P l m -> nth_error l i = Some x ->
  exists y, nth_error m i = Some y /\ P x y.
Proof.
  intros H; revert i; induction H; intros [|i] E; simpl in *; try congruence; eauto.
  inversion E; subst; eauto.
Qed.

Lemma block_get_vec_spec {A} ndebug (a : marray A) start len : wf a -> block_inside start len (m_length a) -> pos_dims len ->
  exists v, block_get_vec ndebug (Blockview a start len (m_length a)) = Some v /\
    Z.of_nat (length v) = prodZ len /\
    forall t, in_range t len -> nth_error v (Z.to_nat (row_major t len)) = stored a (add_tuple start t).
Proof.
  intros W B Hp. unfold block_get_vec. cbn [b_length].
  assert (Hne : len <> []). { destruct W as [Wn _ _ _ _], B as (_ & L2 & _). destruct (m_length a); [congruence|]. destruct len; simpl in *; [lia|congruence]. }
  assert (Hb : prodZ len < w64).
  { destruct W as [_ Wp Ws _ _], B as (L1 & L2 & P & H). revert L1 L2 P H Wp Ws. generalize (m_length a) as ds. clear -Hp.
    assert (G : forall start len ds, pos_dims len -> length start = length ds -> length len = length ds ->
      Forall (fun s => 0 <= s) start -> Forall2 (fun sl d => sl <= d) (add_tuple start len) ds -> prodZ len <= prodZ ds).
    { induction start0 as [|s ss IH]; intros [|l ls] [|d ds] Hl L1 L2 P H; simpl in *; try lia.
      inversion P as [|? ? P1 P2]; subst. inversion H as [|? ? ? ? H1 H2]; subst. inversion Hl as [|? ? Q1 Q2]; subst.
      assert (prodZ ls <= prodZ ds) by (apply IH; auto; lia). pose proof (prodZ_pos ls Q2). nia. }
    intros ds L1 L2 P H Wp Ws. pose proof (G start len ds Hp L1 L2 P H). lia. }
  rewrite getFlatSize_prod by auto. cbn [obind].
  pose proof (prodZ_pos _ Hp) as HP.
  assert (K : forall i, (i < Z.to_nat (prodZ len))%nat -> exists t e, getMultIndex (Z.of_nat i) len = Some t /\ in_range t len /\
       row_major t len = Z.of_nat i /\ stored a (add_tuple start t) = Some e /\ block_at ndebug (Blockview a start len (m_length a)) t = Elem e).
  { intros i Hi. destruct (getMultIndex_spec len (Z.of_nat i)) as (t & E & R & F); auto; [lia|].
    destruct (block_at_spec ndebug a start len t W B R) as (e & E1 & E2). exists t, e; repeat split; auto. }
  destruct (osequence_ex (fun i => idx <- getMultIndex (Z.of_nat i) len ;;
       match block_at ndebug (Blockview a start len (m_length a)) idx with Elem e => Some e | _ => None end)
       (seq 0 (Z.to_nat (prodZ len)))) as (v & E & F).
  { intros i Hi. apply in_seq in Hi. destruct (K i) as (t & e & E1 & _ & _ & _ & E2); [lia|]. exists e. rewrite E1. cbn [obind]. rewrite E2. auto. }
  exists v. split; auto. split.
  - rewrite <- (Forall2_length _ _ _ F), seq_length. lia.
  - intros t Ht. pose proof (row_major_range _ _ Ht) as R.
    assert (Hi : nth_error (seq 0 (Z.to_nat (prodZ len))) (Z.to_nat (row_major t len)) = Some (Z.to_nat (row_major t len))).
    { rewrite (nth_error_nth' _ O) by (rewrite seq_length; lia). rewrite seq_nth by lia. auto. }
    destruct (Forall2_nth_l _ _ _ _ _ F Hi) as (y & Ey & Ef). rewrite Ey.
    destruct (K (Z.to_nat (row_major t len))) as (t' & e & E1 & R' & F' & S' & E2); [lia|].
    rewrite E1 in Ef. cbn [obind] in Ef. rewrite E2 in Ef. inversion Ef; subst.
    assert (t' = t) by (eapply row_major_inj; eauto; lia). subst. auto.
Qed.

(** ** swap *)
Lemma swap_at {A} ndebug (a b : marray A) t :
  at_ ndebug (fst (swap a b)) t = at_ ndebug b t /\ at_ ndebug (snd (swap a b)) t = at_ ndebug a t.
Proof. split; reflexivity. Qed.

Lemma swap_same_shape {A} (a b : marray A) : wf a -> wf b -> m_length a = m_length b -> swap a b = (b, a).
Proof.
  intros Wa Wb E. destruct Wa as [_ _ _ _ Ca], Wb as [_ _ _ _ Cb]. unfold swap.
  assert (m_cumul a = m_cumul b) by congruence. rewrite H at 1. rewrite <- H. destruct a, b; simpl in *; subst; auto.
Qed.

(** ** collapse *)
Lemma last_match_some i ks : forall j x, last_match i ks j = Some x -> (j <= x < j + length ks)%nat /\ nth (x - j) ks O = i.
Proof.
  induction ks as [|k ks IH]; intros j x H; simpl in *; [congruence|].
  destruct (last_match i ks (S j)) eqn:E.
  - inversion H; subst. apply IH in E. destruct E as [E1 E2]. split; [lia|].
    replace (x - j)%nat with (S (x - S j)) by lia. auto.
  - destruct (Nat.eqb_spec i k); [|congruence]. inversion H; subst. split; [lia|]. rewrite Nat.sub_diag. auto.
Qed.
Lemma last_match_none i ks : forall j, last_match i ks j = None -> ~ In i ks.
Proof.
  induction ks as [|k ks IH]; intros j H; simpl in *; auto.
  destruct (last_match i ks (S j)) eqn:E; [congruence|]. destruct (Nat.eqb_spec i k); [congruence|].
  intros [Hk|Hk]; [congruence|]. eapply IH; eauto.
Qed.
Lemma last_match_in ks i j : In i ks -> exists x, last_match i ks j = Some x.
Proof.
  intros H. destruct (last_match i ks j) eqn:E; eauto. exfalso. eapply last_match_none; eauto.
Qed.

Section CollapsePerm.
  Context (rank : nat) (ks : list nat).
  Context (Hnd : NoDup ks) (Hb : Forall (fun k => (k < rank)%nat) ks).

  Definition is_other (i : nat) : bool := match last_match i ks 0 with Some _ => false | None => true end.
  Definition others (n : nat) : nat := length (filter is_other (seq 0 n)).
  Definition gpos (i : nat) : nat :=
    match last_match i ks 0 with Some j => j | None => (rank - others i - 1)%nat end.

  Lemma others_S n : others (S n) = (others n + if is_other n then 1 else 0)%nat.
  Proof. unfold others. rewrite seq_S, filter_app, app_length. simpl. destruct (is_other n); auto. Qed.

  Lemma is_other_in i : is_other i = false <-> In i ks.
  Proof.
    unfold is_other. split.
    - destruct (last_match i ks 0) eqn:E; [|congruence]. intros _. apply last_match_some in E.
      destruct E as [E1 E2]. rewrite <- E2. apply nth_In. lia.
    - intros H. destruct (last_match_in ks i 0 H) as (x & Ex). rewrite Ex. auto.
  Qed.

  Lemma others_total : (others rank + length ks = rank)%nat.
  Proof.
    assert (P : Permutation ks (filter (fun i => negb (is_other i)) (seq 0 rank))).
    { apply NoDup_Permutation; auto. { apply NoDup_filter, seq_NoDup. }
      intros x. rewrite filter_In, in_seq, negb_true_iff, is_other_in. rewrite Forall_forall in Hb. split; [|tauto].
      intros H; split; auto. pose proof (Hb x H). lia. }
    apply Permutation_length in P. rewrite P. unfold others.
    transitivity (length (seq 0 rank)); [|apply seq_length].
    clear P. induction (seq 0 rank); simpl; auto. destruct (is_other a); simpl; lia.
  Qed.

  Lemma others_mono i j : (i <= j)%nat -> (others i <= others j)%nat.
  Proof. induction 1; auto. rewrite others_S. lia. Qed.

  Lemma others_lt i : (i < rank)%nat -> is_other i = true -> (others i < rank - length ks)%nat.
  Proof.
    intros H Ho. pose proof others_total. pose proof (others_mono (S i) rank ltac:(lia)). rewrite others_S, Ho in H1. lia.
  Qed.

  Lemma gpos_bound i : (i < rank)%nat -> (gpos i < rank)%nat.
  Proof.
    intros H. unfold gpos. pose proof others_total. destruct (last_match i ks 0) eqn:E.
    - apply last_match_some in E. lia.
    - pose proof (others_lt i H). unfold is_other in H1. rewrite E in H1. specialize (H1 eq_refl). lia.
  Qed.

  Lemma gpos_inj i j : (i < rank)%nat -> (j < rank)%nat -> gpos i = gpos j -> i = j.
  Proof.
    intros Hi Hj. unfold gpos. pose proof others_total as T.
    pose proof (others_lt i Hi) as Oi. pose proof (others_lt j Hj) as Oj. unfold is_other in Oi, Oj.
    destruct (last_match i ks 0) as [x|] eqn:Ei, (last_match j ks 0) as [y|] eqn:Ej; intros E.
    - apply last_match_some in Ei, Ej. subst. destruct Ei as [_ <-], Ej as [_ <-]. auto.
    - apply last_match_some in Ei. specialize (Oj eq_refl). lia.
    - apply last_match_some in Ej. specialize (Oi eq_refl). lia.
    - specialize (Oi eq_refl). specialize (Oj eq_refl).
      assert (others i = others j) by lia.
      destruct (Nat.lt_trichotomy i j) as [L|[L|L]]; auto; exfalso.
      + pose proof (others_mono (S i) j L). rewrite others_S in H0. unfold is_other in H0. rewrite Ei in H0. lia.
      + pose proof (others_mono (S j) i L). rewrite others_S in H0. unfold is_other in H0. rewrite Ej in H0. lia.
  Qed.

  Lemma gpos_kept j : (j < length ks)%nat -> gpos (nth j ks O) = j.
  Proof.
    intros H. assert (Hin : In (nth j ks O) ks) by (apply nth_In; auto).
    destruct (last_match_in ks _ 0 Hin) as (x & Ex). unfold gpos. rewrite Ex. apply last_match_some in Ex.
    destruct Ex as [E1 E2]. rewrite Nat.sub_0_r in E2. symmetry.
    eapply (proj1 (NoDup_nth ks O) Hnd); auto; lia.
  Qed.

  Lemma collapse_fold n res : (n <= rank)%nat -> length res = rank ->
    exists out, fold_left (fun acc i => r <- acc ;; oupd r (gpos i) i) (seq 0 n) (Some res) = Some out /\ length out = rank /\
      fold_left (collapse_perm_step rank ks) (seq 0 n) (Some (res, O)) = Some (out, others n).
  Proof.
    intros Hn HL. induction n.
    - exists res. simpl. auto.
    - destruct IHn as (out & E1 & L & E2); [lia|].
      rewrite !seq_S, !fold_left_app, E1, E2. cbn [fold_left Nat.add obind].
      assert (Hg : (gpos n < length out)%nat) by (rewrite L; apply gpos_bound; lia).
      destruct (oupd_some out (gpos n) n Hg) as (o' & Eo & Lo). exists o'. split; auto. split; [lia|].
      unfold collapse_perm_step. cbn [obind fst snd].
      pose proof (others_lt n ltac:(lia)) as Ol. unfold gpos in Eo. rewrite others_S.
      unfold is_other in *. destruct (last_match n ks 0) as [x|] eqn:E.
      + rewrite Eo. cbn [obind]. do 2 f_equal. lia.
      + specialize (Ol eq_refl). destruct (Nat.leb_spec rank (others n)); [lia|]. rewrite Eo. cbn [obind]. do 2 f_equal. lia.
  Qed.

  Lemma collapse_perm_spec : exists perm, collapse_perm rank ks = Some perm /\ length perm = rank /\
    Permutation perm (seq 0 rank) /\ firstn (length ks) perm = ks.
  Proof.
    destruct (collapse_fold rank (repeat O rank)) as (out & E1 & L & E2); auto; [apply repeat_length|].
    exists out. unfold collapse_perm. rewrite E2. cbn [obind fst]. split; auto. split; auto.
    destruct (scatter_spec O (fun i => i) gpos (seq 0 rank) (repeat O rank)) as (out' & E' & _ & S1 & _).
    { apply map_NoDup_in; [|apply seq_NoDup]. intros x y Hx Hy. apply in_seq in Hx, Hy. apply gpos_inj; lia. }
    { apply Forall_forall. intros i Hi. apply in_seq in Hi. rewrite repeat_length. apply gpos_bound; lia. }
    rewrite E1 in E'. inversion E'; subst out'. clear E'.
    assert (K : forall i, (i < rank)%nat -> nth (gpos i) out O = i) by (intros; apply S1, in_seq; lia).
    split.
    - apply Permutation_sym. apply NoDup_Permutation_bis; [apply seq_NoDup|rewrite seq_length; lia|].
      intros x Hx. apply in_seq in Hx. rewrite <- (K x) by lia. apply nth_In. rewrite L. apply gpos_bound. lia.
    - pose proof others_total. apply nth_ext with (d := O) (d' := O); [rewrite firstn_length; lia|].
      intros n Hn. rewrite firstn_length in Hn.
      assert (nth n (firstn (length ks) out) O = nth n out O).
      { rewrite <- (firstn_skipn (length ks) out) at 2. rewrite app_nth1; auto. rewrite firstn_length. lia. }
      rewrite H0. rewrite <- (gpos_kept n) at 1 by lia. apply K.
      rewrite Forall_forall in Hb. apply Hb, nth_In. lia.
  Qed.
End CollapsePerm.

Lemma gather_gather_inv {A} (d : A) l p q n : length l = n -> length q = n ->
  (forall j, (j < n)%nat -> (nth j q O < length p)%nat /\ nth (nth j q O) p O = j) -> gather d (gather d l p) q = l.
Proof.
  intros Hl Hq H. apply nth_ext with (d := d) (d' := d); [rewrite gather_length; lia|].
  intros j Hj. rewrite gather_length in Hj. unfold gather.
  rewrite (nth_indep _ d (nth O (map (fun p0 => nth p0 l d) p) d)) by (rewrite map_length; lia).
  rewrite (map_nth (fun x => nth x (map (fun p0 => nth p0 l d) p) d)).
  destruct (H j ltac:(lia)) as [H1 H2].
  rewrite (nth_indep _ d (nth O l d)) by (rewrite map_length; lia).
  rewrite (map_nth (fun x => nth x l d)). rewrite H2. auto.
Qed.

Lemma row_major_app u : forall d1 r d2, length u = length d1 ->
  row_major (u ++ r) (d1 ++ d2) = row_major u d1 * prodZ d2 + row_major r d2.
Proof.
  induction u; intros [|e d1] r d2 H; simpl in *; try lia. rewrite IHu by lia. rewrite prodZ_app. ring.
Qed.

Lemma ofold {A B} (g : B -> option A) (val : B -> A) (op : A -> A -> A) l : (forall x, In x l -> g x = Some (val x)) ->
  forall r, fold_left (fun acc j => r <- acc ;; x <- g j ;; Some (op r x)) l (Some r) = Some (fold_left op (map val l) r).
Proof.
  induction l; intros H r; simpl; auto. rewrite H by (simpl; auto). simpl. apply IHl. intros; apply H; simpl; auto.
Qed.

Lemma collapse_spec {A} (data : list A) (op : A -> A -> A) dims ks :
  dims <> [] -> pos_dims dims -> prodZ dims < w64 -> Z.of_nat (length data) = prodZ dims ->
  NoDup ks -> Forall (fun k => (k < length dims)%nat) ks ->
  exists res, collapse data op dims ks = Some res /\ Z.of_nat (length res) = prodZ (gather 0 dims ks) /\
    forall t, in_range t (gather 0 dims ks) ->
      exists L x0 xs, NoDup L /\ (forall u, In u L <-> fibre dims ks t u) /\
        map (fun u => nth_error data (Z.to_nat (row_major u dims))) L = map Some (x0 :: xs) /\
        nth_error res (Z.to_nat (row_major t (gather 0 dims ks))) = Some (fold_left op xs x0).
Proof.
  intros Hn Hp Hb Hd Hnd Hk.
  destruct (collapse_perm_spec (length dims) ks Hnd Hk) as (perm & EP & LP & PP & FP).
  assert (PP' : Permutation perm (seq 0 (length perm))) by (rewrite LP; auto).
  destruct (get_inverse_permutation_spec perm PP') as (inv & EI & LI & I1 & I2).
  pose proof (get_inverse_permutation_perm perm inv PP' EI) as PI.
  assert (Bp := perm_bound _ _ PP). assert (Bi := perm_bound _ _ PI). rewrite LP in *.
  set (rest := skipn (length ks) perm).
  assert (Eperm : perm = ks ++ rest) by (rewrite <- FP at 1; symmetry; apply firstn_skipn).
  set (drot := gather 0 dims perm). set (dk := gather 0 dims ks) in *. set (dr := gather 0 dims rest).
  assert (Edrot : drot = dk ++ dr) by (unfold drot; rewrite Eperm, gather_app; auto).
  assert (Pdrot : prodZ drot = prodZ dims) by (apply prodZ_permutation, gather_permutation; auto).
  assert (Hgp : forall p, Forall (fun k => (k < length dims)%nat) p -> pos_dims (gather 0 dims p)).
  { intros p F. apply Forall_forall. intros x Hx. apply in_map_iff in Hx. destruct Hx as (k & <- & Hkk).
    rewrite Forall_forall in F. apply F in Hkk. unfold pos_dims in Hp. rewrite Forall_forall in Hp. apply Hp, nth_In; auto. }
  assert (Hpk : pos_dims dk) by (apply Hgp; auto).
  assert (Hprot : pos_dims drot) by (apply Hgp; auto).
  assert (Hpr : pos_dims dr).
  { rewrite Edrot in Hprot. apply Forall_app in Hprot. tauto. }
  assert (Epr : prodZ dims = prodZ dk * prodZ dr) by (rewrite <- Pdrot, Edrot, prodZ_app; auto).
  pose proof (prodZ_pos _ Hpk) as Kpos. pose proof (prodZ_pos _ Hpr) as Rpos.
  assert (Hne : drot <> []). { intro E. apply (f_equal (@length Z)) in E. unfold drot in E. rewrite gather_length, LP in E. destruct dims; simpl in *; congruence. }
  assert (Ldr : length drot = length dims) by (unfold drot; rewrite gather_length; auto).
  assert (G1 : forall l : list Z, length l = length dims -> gather 0 (gather 0 l perm) inv = l).
  { intros l Hl. apply gather_gather_inv with (n := length dims); auto; try congruence. intros j Hj. split; [|apply I2; lia].
    rewrite LP. rewrite Forall_forall in Bi. apply Bi, nth_In. lia. }
  assert (G2 : forall l : list Z, length l = length dims -> gather 0 (gather 0 l inv) perm = l).
  { intros l Hl. apply gather_gather_inv with (n := length dims); auto. intros j Hj. split; [|apply I1; lia].
    rewrite LI. rewrite Forall_forall in Bp. apply Bp, nth_In. lia. }
  set (mi := fun k => match getMultIndex k drot with Some m => m | None => [] end).
  assert (Hmi : forall k, 0 <= k < prodZ dims -> getMultIndex k drot = Some (mi k) /\ in_range (mi k) drot /\ row_major (mi k) drot = k).
  { intros k Hkk. destruct (getMultIndex_spec drot k) as (m & E & R & F); auto; try lia. unfold mi. rewrite E. auto. }
  set (tup := fun k => gather 0 (mi k) inv).
  assert (Htup : forall k, 0 <= k < prodZ dims -> in_range (tup k) dims /\ rotateFlatIndexPerm k drot inv = Some (row_major (tup k) dims)).
  { intros k Hkk. destruct (Hmi k Hkk) as (E & R & F). unfold rotateFlatIndexPerm. rewrite E. cbn [obind].
    assert (Edi : gather 0 drot inv = dims) by (apply G1; auto).
    split.
    - unfold tup. rewrite <- Edi. apply gather_in_range; auto. rewrite Ldr; auto.
    - rewrite getFlatIndexPerm_spec by (auto; try (rewrite Ldr; auto); lia). rewrite Edi. auto. }
  set (dflt := match data with x :: _ => Some x | [] => None end).
  assert (Hdata : forall u, in_range u dims -> exists x, nth_error data (Z.to_nat (row_major u dims)) = Some x).
  { intros u Hu. pose proof (row_major_range _ _ Hu). destruct (nth_error data _) eqn:E; eauto. apply nth_error_None in E. lia. }
  assert (Hget : forall k, 0 <= k < prodZ dims -> exists x, (k' <- rotateFlatIndexPerm k drot inv ;; nth_error data (Z.to_nat k')) = Some x /\ nth_error data (Z.to_nat (row_major (tup k) dims)) = Some x).
  { intros k Hkk. destruct (Htup k Hkk) as (R & E). rewrite E. cbn [obind]. destruct (Hdata _ R) as (x & Ex). exists x; auto. }
  assert (Hd0 : exists d0 : A, True).
  { pose proof (prodZ_pos _ Hp). destruct (Hget 0) as (x & _); [lia|]. exists x; auto. }
  destruct Hd0 as (d0 & _). clear dflt.
  set (val := fun k => match nth_error data (Z.to_nat (row_major (tup k) dims)) with Some x => x | None => d0 end).
  assert (Hval : forall k, 0 <= k < prodZ dims -> (k' <- rotateFlatIndexPerm k drot inv ;; nth_error data (Z.to_nat k')) = Some (val k) /\ nth_error data (Z.to_nat (row_major (tup k) dims)) = Some (val k)).
  { intros k Hkk. destruct (Hget k Hkk) as (x & E1 & E2). unfold val. rewrite E2. auto. }
  set (C := prodZ dr) in *.
  (* evaluation *)
  unfold collapse.
  replace (osequence (map (nth_error dims) ks)) with (Some dk) by (symmetry; apply (osequence_map_nth 0); auto).
  cbn [obind].
  assert (F1 : fold_left umul dk 1 = prodZ dk) by (rewrite fold_umul; auto; try lia; nia).
  assert (F2 : fold_left umul dims 1 = prodZ dims) by (rewrite fold_umul; auto; lia).
  rewrite F1, F2.
  assert (EU : udiv (prodZ dims) (prodZ dk) = Some C).
  { unfold udiv. destruct (Z.eqb_spec (prodZ dk) 0); [lia|]. rewrite Epr, Z.mul_comm, Z.div_mul by lia. auto. }
  rewrite EU. cbn [obind]. rewrite EP. cbn [obind].
  replace (osequence (map (nth_error dims) perm)) with (Some drot) by (symmetry; apply (osequence_map_nth 0); auto).
  cbn [obind]. rewrite EI. cbn [obind].
  set (get := fun i j => k <- rotateFlatIndexPerm (uadd (umul i C) j) drot inv ;; nth_error data (Z.to_nat k)).
  assert (Hidx : forall i j, 0 <= i < prodZ dk -> 0 <= j < C -> 0 <= i * C + j < prodZ dims) by (intros; nia).
  assert (HG : forall i j, 0 <= i < prodZ dk -> 0 <= j < C -> get i j = Some (val (i * C + j))).
  { intros i j Hi Hj. unfold get. pose proof (Hidx i j Hi Hj). rewrite umul_small by nia. rewrite uadd_small by nia. apply Hval; auto. }
  change (exists res, osequence (map (fun i => r0 <- get (Z.of_nat i) 0 ;;
      fold_left (fun acc j => r <- acc ;; x <- get (Z.of_nat i) (Z.of_nat j) ;; Some (op r x))
                (seq 1 (Z.to_nat C - 1)) (Some r0)) (seq 0 (Z.to_nat (prodZ dk)))) = Some res /\
     Z.of_nat (length res) = prodZ dk /\
    forall t, in_range t dk ->
      exists L x0 xs, NoDup L /\ (forall u, In u L <-> fibre dims ks t u) /\
        map (fun u => nth_error data (Z.to_nat (row_major u dims))) L = map Some (x0 :: xs) /\
        nth_error res (Z.to_nat (row_major t dk)) = Some (fold_left op xs x0)).
  rewrite (osequence_some _ (fun i => fold_left op (map (fun j => val (Z.of_nat i * C + Z.of_nat j)) (seq 1 (Z.to_nat C - 1))) (val (Z.of_nat i * C + 0)))).
  2:{ intros i Hi. apply in_seq in Hi. rewrite HG by lia. cbn [obind].
      apply (ofold (fun j => get (Z.of_nat i) (Z.of_nat j)) (fun j => val (Z.of_nat i * C + Z.of_nat j))).
      intros j Hj. apply in_seq in Hj. apply HG; lia. }
  eexists; split; [reflexivity|]. split; [rewrite map_length, seq_length; lia|].
  intros t Ht. pose proof (row_major_range _ _ Ht) as Rt. set (i := row_major t dk) in *.
  exists (map (fun j => tup (i * C + Z.of_nat j)) (seq 0 (Z.to_nat C))), (val (i * C + 0)),
         (map (fun j => val (i * C + Z.of_nat j)) (seq 1 (Z.to_nat C - 1))).
  assert (Htm : forall k, 0 <= k < prodZ dims -> gather 0 (tup k) perm = mi k).
  { intros k Hkk. unfold tup. apply G2. destruct (Hmi k Hkk) as (_ & R & _). apply in_range_length in R. lia. }
  split; [|split; [|split]].
  - apply map_NoDup_in; [|apply seq_NoDup]. intros x y Hx Hy E. apply in_seq in Hx, Hy.
    assert (E2 : mi (i * C + Z.of_nat x) = mi (i * C + Z.of_nat y)).
    { rewrite <- !Htm by (apply Hidx; lia). congruence. }
    destruct (Hmi (i * C + Z.of_nat x) ltac:(apply Hidx; lia)) as (_ & _ & M1).
    destruct (Hmi (i * C + Z.of_nat y) ltac:(apply Hidx; lia)) as (_ & _ & M2). rewrite E2 in M1. lia.
  - intros u. rewrite in_map_iff. split.
    + intros (j & <- & Hj). apply in_seq in Hj.
      assert (Hx : 0 <= i * C + Z.of_nat j < prodZ dims) by (apply Hidx; lia).
      split; [apply Htup; auto|].
      destruct (Hmi _ Hx) as (_ & R & M). pose proof (Htm _ Hx) as T. rewrite Eperm, gather_app in T.
      rewrite <- T, Edrot in R. apply Forall2_app_inv_len in R; [|unfold dk; rewrite !gather_length; auto].
      destruct R as [R1 R2]. rewrite <- T, Edrot in M. rewrite row_major_app in M by (apply (in_range_length _ _ R1)).
      pose proof (row_major_range _ _ R2) as B2. pose proof (row_major_range _ _ R1) as B1. fold C in M, B2.
      apply row_major_inj with (ds := dk); auto. fold i. nia.
    + intros [R E]. pose proof (gather_in_range u dims perm R Bp) as Rm. fold drot in Rm.
      rewrite Eperm, gather_app, E, Edrot in Rm.
      apply Forall2_app_inv_len in Rm; [|apply (in_range_length _ _ Ht)]. destruct Rm as [R1 R2].
      pose proof (row_major_range _ _ R2) as B2. fold C in B2.
      exists (Z.to_nat (row_major (gather 0 u rest) dr)). split.
      * rewrite Z2Nat.id by lia.
        assert (Hx : 0 <= i * C + row_major (gather 0 u rest) dr < prodZ dims) by (apply Hidx; lia).
        destruct (Hmi _ Hx) as (_ & Rm & M).
        assert (Em : mi (i * C + row_major (gather 0 u rest) dr) = gather 0 u perm).
        { apply row_major_inj with (ds := drot); auto. { apply gather_in_range; auto. }
          rewrite M. rewrite Eperm, gather_app, E, Edrot. rewrite row_major_app by (apply (in_range_length _ _ R1)). auto. }
        unfold tup. rewrite Em. apply G1. apply (in_range_length _ _ R).
      * apply in_seq. lia.
  - replace (seq 0 (Z.to_nat C)) with (0%nat :: seq 1 (Z.to_nat C - 1)).
    2:{ destruct (Z.to_nat C) eqn:E; [lia|]. simpl. rewrite Nat.sub_0_r. auto. }
    cbn [map]. f_equal.
    + apply Hval, Hidx; lia.
    + rewrite !map_map. apply map_ext_in. intros j Hj. apply in_seq in Hj. apply Hval, Hidx; lia.
  - rewrite nth_error_map_seq by lia. rewrite Z2Nat.id by lia. auto.
Qed.

(** ** maxabs *)
Lemma fold_maxabs xs : forall x0,
  let r := Qabs (fold_left (fun l r => Qmax (Qabs l) (Qabs r)) xs x0) in
  (forall x, In x (x0 :: xs) -> Qabs x <= r)%Q /\ exists x, In x (x0 :: xs) /\ (Qabs x == r)%Q.
Proof.
  induction xs as [|y xs IH]; intros x0; cbn [fold_left].
  - simpl. split; [intros x [<-|[]]; apply Qle_refl|exists x0; split; auto; reflexivity].
  - destruct (IH (Qmax (Qabs x0) (Qabs y))) as [H1 (x & Hx & Ex)].
    set (m := Qmax (Qabs x0) (Qabs y)) in *.
    assert (Hm : (Qabs m == m)%Q).
    { apply Qabs_pos. apply Qle_trans with (Qabs x0); [apply Qabs_nonneg|apply Q.le_max_l]. }
    assert (Hm1 : (Qabs x0 <= m)%Q) by apply Q.le_max_l. assert (Hm2 : (Qabs y <= m)%Q) by apply Q.le_max_r.
    cbn zeta. split.
    + assert (Hmr := H1 m (or_introl eq_refl)). rewrite Hm in Hmr.
      intros z [<-|[<-|Hz]]; [eapply Qle_trans; eauto|eapply Qle_trans; eauto|]. apply H1; simpl; auto.
    + destruct Hx as [<-|Hx]; [|exists x; simpl; auto].
      rewrite Hm in Ex. destruct (Q.max_spec (Qabs x0) (Qabs y)) as [[_ E]|[_ E]]; fold m in E.
      * exists y. simpl; split; auto. rewrite <- E; auto.
      * exists x0. simpl; split; auto. rewrite <- E; auto.
Qed.

Lemma row_major_ones u : forall ds, in_range u ds -> prodZ ds = 1 -> row_major u ds = 0.
Proof. intros ds H E. apply row_major_range in H. lia. Qed.

Lemma row_major_single u dims i d : in_range u dims -> nth_error dims i = Some d -> prodZ dims = d -> row_major u dims = nth i u 0.
Proof.
  intros H E P. apply nth_error_split in E. destruct E as (a & b & -> & La). subst i.
  apply Forall2_app_inv_r in H. destruct H as (ua & ub & Ha & Hb & ->).
  inversion Hb as [|x ? b' ? Hx Hb']; subst.
  rewrite prodZ_app in P. cbn [prodZ] in P.
  assert (0 < prodZ a) by (apply prodZ_pos; eapply in_range_pos; eauto).
  assert (0 < prodZ b) by (apply prodZ_pos; eapply in_range_pos; eauto).
  assert (Ep : prodZ a * prodZ b = 1) by nia.
  assert (prodZ a = 1) by nia. assert (prodZ b = 1) by nia.
  rewrite row_major_app by (apply (in_range_length _ _ Ha)). cbn [row_major prodZ].
  rewrite (row_major_ones ua a), (row_major_ones b' b) by auto.
  rewrite <- (in_range_length _ _ Ha). rewrite app_nth2, Nat.sub_diag by lia. cbn [nth]. nia.
Qed.

Lemma maxabs_spec data dims i d :
  pos_dims dims -> prodZ dims < w64 -> Z.of_nat (length data) = prodZ dims -> nth_error dims i = Some d ->
  exists res, maxabs data dims i = Some res /\ Z.of_nat (length res) = d /\
    forall x, 0 <= x < d -> exists r, nth_error res (Z.to_nat x) = Some r /\
      (forall u q, in_range u dims -> nth i u 0 = x -> nth_error data (Z.to_nat (row_major u dims)) = Some q -> (Qabs q <= r)%Q) /\
      (exists u q, in_range u dims /\ nth i u 0 = x /\ nth_error data (Z.to_nat (row_major u dims)) = Some q /\ (Qabs q == r)%Q).
Proof.
  intros Hp Hb Hd Hi.
  assert (Hil : (i < length dims)%nat) by (apply nth_error_Some; congruence).
  assert (Hn : dims <> []) by (destruct dims; simpl in *; [lia|congruence]).
  assert (Ed : nth i dims 0 = d) by (apply nth_error_nth; auto).
  unfold maxabs. rewrite Hi. cbn [obind]. destruct (Z.eqb_spec (Z.of_nat (length data)) d) as [El|El].
  - exists (map Qabs data). split; auto. split; [rewrite map_length; lia|].
    intros x Hx. destruct (nth_error data (Z.to_nat x)) as [q|] eqn:Eq.
    2:{ apply nth_error_None in Eq. lia. }
    exists (Qabs q). split; [apply map_nth_error; auto|]. split.
    + intros u q' Hu Ex E. rewrite (row_major_single u dims i d) in E by (auto; lia). rewrite Ex in E.
      assert (q = q') by congruence. subst. apply Qle_refl.
    + assert (Hx' : 0 <= x < prodZ dims) by lia. destruct (getMultIndex_spec dims x) as (u & _ & R & F); auto.
      exists u, q. split; auto. rewrite F. rewrite (row_major_single u dims i d) in F by (auto; lia).
      split; auto. split; auto. reflexivity.
  - destruct (collapse_spec data (fun l r => Qmax (Qabs l) (Qabs r)) dims [i]) as (res & E & L & S); auto.
    { repeat constructor; simpl; tauto. }
    rewrite E. cbn [obind]. exists (map Qabs res). split; auto.
    simpl in L. rewrite Ed in L. split; [rewrite map_length; lia|].
    intros x Hx. destruct (S [x]) as (Ls & x0 & xs & ND & Fb & M & Er).
    { simpl. rewrite Ed. repeat constructor; lia. }
    simpl in Er. replace (x * 1 + 0) with x in Er by lia.
    eexists. split; [apply map_nth_error; eauto|].
    destruct (fold_maxabs xs x0) as [B1 B2]. split.
    + intros u q Hu Eu Eq. apply B1.
      assert (Hin : In u Ls). { apply Fb. split; auto. simpl. congruence. }
      apply (in_map (fun u => nth_error data (Z.to_nat (row_major u dims)))) in Hin. rewrite M, Eq in Hin.
      apply in_map_iff in Hin. destruct Hin as (z & Ez & Hz). inversion Ez; subst; auto.
    + destruct B2 as (q & Hq & Eq). apply (in_map Some) in Hq. rewrite <- M in Hq. apply in_map_iff in Hq.
      destruct Hq as (u & Eu & Hu). apply Fb in Hu. destruct Hu as [Hu1 Hu2]. simpl in Hu2.
      exists u, q. split; auto. split; [congruence|]. auto.
Qed.

(** ** partial_deriv *)
Lemma column_spec m dimsL c : ((c + 1) * dimsL <= length m)%nat -> exists s, column m dimsL c = Some s /\ length s = dimsL /\
  forall r, (r < dimsL)%nat -> nth_error s r = nth_error m (c * dimsL + r).
Proof.
  intros H. unfold column. set (s := firstn dimsL (skipn (c * dimsL) m)).
  assert (L : length s = dimsL) by (unfold s; rewrite firstn_length, skipn_length; lia).
  rewrite L, Nat.eqb_refl. exists s; split; auto. split; auto. intros r Hr.
  unfold s. clear -Hr. assert (G : forall (l : list Q) n, (r < n)%nat -> nth_error (firstn n l) r = nth_error l r).
  { clear. revert r. induction r; intros [|x l] [|n] H; simpl; try lia; auto. apply IHr; lia. }
  rewrite G by auto. clear. revert m. induction (c * dimsL)%nat; intros m; simpl; auto. destruct m; [destruct r; auto|]. apply IHn.
Qed.

Lemma lincomb2_nth a b x : forall y r p q, nth_error x r = Some p -> nth_error y r = Some q ->
  nth_error (lincomb2 a b x y) r = Some (p * a + q * b)%Q.
Proof. induction x as [|x0 x IH]; intros [|y0 y] [|r] p q Hp Hq; simpl in *; try congruence. eauto. Qed.
Lemma lincomb3_nth a b c x : forall y z r p q s, nth_error x r = Some p -> nth_error y r = Some q -> nth_error z r = Some s ->
  nth_error (lincomb3 a b c x y z) r = Some (p * a + q * b + s * c)%Q.
Proof. induction x as [|x0 x IH]; intros [|y0 y] [|z0 z] [|r] p q s Hp Hq Hs; simpl in *; try congruence. eauto. Qed.
Lemma lincomb2_length a b x : forall y, length x = length y -> length (lincomb2 a b x y) = length x.
Proof. induction x; intros [|] H; simpl in *; try lia. f_equal; auto. Qed.
Lemma lincomb3_length a b c x : forall y z, length x = length y -> length x = length z -> length (lincomb3 a b c x y z) = length x.
Proof. induction x; intros [|] [|] H H'; simpl in *; try lia. f_equal; auto. Qed.

Lemma nth_error_concat {A} (cols : list (list A)) n : Forall (fun c => length c = n) cols -> forall c s r,
  nth_error cols c = Some s -> (r < n)%nat -> nth_error (concat cols) (c * n + r) = nth_error s r.
Proof.
  induction 1 as [|x cols Hx HF IH]; intros c s r Hc Hr; [destruct c; simpl in Hc; congruence|].
  destruct c; simpl in *.
  - inversion Hc; subst. rewrite nth_error_app1 by lia. auto.
  - rewrite nth_error_app2 by lia. replace (n + c * n + r - length x)%nat with (c * n + r)%nat by lia. eauto.
Qed.

Lemma partial_deriv_correct (a : marray Q) i d : wf a -> nth_error (m_length a) i = Some d -> 3 <= d ->
  prodZ (firstn i (m_length a)) = 1 ->
  exists res, partial_deriv a i = Some res /\ length res = length (m_elements a) /\
    forall pre x post, length pre = i -> in_range (pre ++ x :: post) (m_length a) ->
      exists q, nth_error res (Z.to_nat (row_major (pre ++ x :: post) (m_length a))) = Some q /\
        (q == fd_unit d (fun y => elemQ a (pre ++ y :: post)) x)%Q.
Proof.
  intros W Hi Hd H1. assert (W' := W). destruct W' as [Wn Wp Ws Wb Wc].
  assert (Hil : (i < length (m_length a))%nat) by (apply nth_error_Some; congruence).
  pose proof Hi as Hsp. apply nth_error_split in Hsp. destruct Hsp as (da & db & Eds & La).
  assert (F1 : firstn i (m_length a) = da).
  { rewrite Eds, <- La, firstn_app, Nat.sub_diag, firstn_all. simpl. apply app_nil_r. }
  assert (S1 : skipn (S i) (m_length a) = db).
  { rewrite Eds, <- La. replace (S (length da)) with (length (da ++ [d])) by (rewrite app_length; simpl; lia).
    replace (da ++ d :: db) with ((da ++ [d]) ++ db) by (rewrite <- app_assoc; auto).
    rewrite skipn_app, Nat.sub_diag, skipn_all. auto. }
  rewrite F1 in H1.
  assert (Hpdb : pos_dims db). { rewrite Eds in Wp. apply Forall_app in Wp. destruct Wp as [_ Wp]. inversion Wp; auto. }
  pose proof (prodZ_pos _ Hpdb) as Pdb.
  assert (Ep : prodZ (m_length a) = d * prodZ db) by (rewrite Eds, prodZ_app; cbn [prodZ]; rewrite H1; ring).
  unfold partial_deriv. rewrite Hi. cbn [obind]. destruct (Z.leb_spec d 2); [lia|].
  rewrite getFlatSize_prod by auto. cbn [obind]. rewrite Wc, strides_nth, S1 by auto. cbn [obind].
  assert (EU : udiv (prodZ (m_length a)) (prodZ db) = Some d).
  { unfold udiv. destruct (Z.eqb_spec (prodZ db) 0); [lia|]. rewrite Ep, Z.div_mul by lia. auto. }
  rewrite EU. cbn [obind]. cbv zeta.
  set (nL := Z.to_nat (prodZ db)). set (nR := Z.to_nat d). set (m := m_elements a) in *.
  assert (Lm : length m = (nR * nL)%nat) by (unfold nR, nL; nia).
  assert (HnR : (3 <= nR)%nat) by (unfold nR; lia).
  assert (HC : forall c, (c < nR)%nat -> exists s, column m nL c = Some s /\ length s = nL /\
     forall r, (r < nL)%nat -> nth_error s r = nth_error m (c * nL + r)).
  { intros c Hc. apply column_spec. rewrite Lm. nia. }
  set (val := fun c r => match nth_error m (c * nL + r) with Some q => q | None => 0%Q end).
  assert (HV : forall c s r, (c < nR)%nat -> column m nL c = Some s -> (r < nL)%nat -> nth_error s r = Some (val c r)).
  { intros c s r Hc E Hr. destruct (HC c Hc) as (s' & E' & _ & N). assert (s = s') by congruence; subst. rewrite N by auto.
    unfold val. destruct (nth_error m (c * nL + r)) eqn:En; auto. apply nth_error_None in En. nia. }
  match goal with |- context [osequence (map ?f (seq 0 nR))] => set (F := f) end.
  assert (HF : forall c, (c < nR)%nat -> exists s, F c = Some s /\ length s = nL /\
    forall r, (r < nL)%nat -> nth_error s r = Some
      (if (c =? 0)%nat then val 0%nat r * (-(3#2)) + val 1%nat r * (2#1) + val 2%nat r * (-(1#2))
       else if (c =? nR - 1)%nat then val (nR - 3)%nat r * (1#2) + val (nR - 2)%nat r * (-(2#1)) + val (nR - 1)%nat r * (3#2)
       else val (c - 1)%nat r * (-(1#2)) + val (c + 1)%nat r * (1#2))%Q).
  { intros c Hc. unfold F. destruct (Nat.eqb_spec c 0); [|destruct (Nat.eqb_spec c (nR - 1))].
    - destruct (HC 0%nat) as (x & Ex & Lx & _); [lia|]. destruct (HC 1%nat) as (y & Ey & Ly & _); [lia|]. destruct (HC 2%nat) as (z & Ez & Lz & _); [lia|].
      rewrite Ex, Ey, Ez. cbn [obind]. eexists; split; [reflexivity|]. split; [rewrite lincomb3_length; lia|].
      intros r Hr. apply lincomb3_nth; apply HV; auto; lia.
    - destruct (HC (nR - 3)%nat) as (x & Ex & Lx & _); [lia|]. destruct (HC (nR - 2)%nat) as (y & Ey & Ly & _); [lia|]. destruct (HC (nR - 1)%nat) as (z & Ez & Lz & _); [lia|].
      rewrite Ex, Ey, Ez. cbn [obind]. eexists; split; [reflexivity|]. split; [rewrite lincomb3_length; lia|].
      intros r Hr. apply lincomb3_nth; apply HV; auto; lia.
    - destruct (HC (c - 1)%nat) as (x & Ex & Lx & _); [lia|]. destruct (HC (c + 1)%nat) as (y & Ey & Ly & _); [lia|].
      rewrite Ex, Ey. cbn [obind]. eexists; split; [reflexivity|]. split; [rewrite lincomb2_length; lia|].
      intros r Hr. apply lincomb2_nth; apply HV; auto; lia. }
  destruct (osequence_ex F (seq 0 nR)) as (cols & Ec & Fc).
  { intros c Hc. apply in_seq in Hc. destruct (HF c ltac:(lia)) as (s & Es & _); eauto. }
  rewrite Ec. cbn [obind].
  assert (Hlen : Forall (fun c => length c = nL) cols).
  { apply Forall_forall. intros s Hs. apply In_nth_error in Hs. destruct Hs as (c & Hc).
    assert (Hcl : (c < length cols)%nat) by (apply nth_error_Some; congruence).
    rewrite <- (Forall2_length _ _ _ Fc), seq_length in Hcl.
    assert (Hsq : nth_error (seq 0 nR) c = Some c) by (rewrite (nth_error_nth' _ O), seq_nth by (rewrite ?seq_length; lia); auto).
    destruct (Forall2_nth_l _ _ _ _ _ Fc Hsq) as (y & Ey & EF). destruct (HF c Hcl) as (s' & Es' & L' & _). congruence. }
  eexists; split; [reflexivity|]. split.
  { rewrite Lm. assert (Lc := Forall2_length _ _ _ Fc). rewrite seq_length in Lc. rewrite Lc. clear -Hlen.
    induction Hlen; simpl; auto. rewrite app_length. lia. }
  intros pre x post Lpre Hr.
  assert (Hr' := Hr). rewrite Eds in Hr'. apply Forall2_app_inv_len in Hr'; [|lia]. destruct Hr' as [R1 R2].
  assert (R23 : 0 <= x < d /\ in_range post db) by (inversion R2; auto). destruct R23 as [Rx R3].
  pose proof (row_major_range _ _ R3) as Rp.
  assert (ER : forall y, 0 <= y < d -> row_major (pre ++ y :: post) (m_length a) = y * prodZ db + row_major post db).
  { intros y Hy. rewrite Eds. rewrite row_major_app by lia. cbn [row_major]. rewrite (row_major_ones pre da) by auto. ring. }
  set (r := Z.to_nat (row_major post db)).
  assert (Hrl : (r < nL)%nat) by (unfold r, nL; lia).
  assert (EI : forall y, 0 <= y < d -> Z.to_nat (row_major (pre ++ y :: post) (m_length a)) = (Z.to_nat y * nL + r)%nat).
  { intros y Hy. rewrite ER by auto. unfold nL, r. nia. }
  assert (EV : forall y, 0 <= y < d -> elemQ a (pre ++ y :: post) = val (Z.to_nat y) r).
  { intros y Hy. unfold elemQ, stored, val. rewrite EI by auto. auto. }
  set (c := Z.to_nat x). assert (Hc : (c < nR)%nat) by (unfold c, nR; lia).
  destruct (HF c Hc) as (s & Es & Ls & Ns).
  assert (Hsq : nth_error (seq 0 nR) c = Some c) by (rewrite (nth_error_nth' _ O), seq_nth by (rewrite ?seq_length; lia); auto).
  destruct (Forall2_nth_l _ _ _ _ _ Fc Hsq) as (s' & Es' & EF). assert (s' = s) by congruence. subst s'.
  rewrite EI by lia. fold c. rewrite (nth_error_concat cols nL Hlen c s r) by auto. rewrite Ns by auto.
  eexists; split; [reflexivity|]. unfold fd_unit, c, nR.
  destruct (Z.eqb_spec x 0) as [->|Hx0].
  - rewrite !EV by lia. simpl. change (Pos.to_nat 1) with 1%nat. change (Pos.to_nat 2) with 2%nat. ring.
  - destruct (Nat.eqb_spec (Z.to_nat x) 0); [lia|].
    destruct (Z.eqb_spec x (d - 1)) as [->|Hx1].
    + destruct (Nat.eqb_spec (Z.to_nat (d - 1)) (Z.to_nat d - 1)); [|lia].
      rewrite !EV by lia. rewrite !Z2Nat.inj_sub by lia.
      change (Z.to_nat 1) with 1%nat. change (Z.to_nat 2) with 2%nat. change (Z.to_nat 3) with 3%nat. ring.
    + destruct (Nat.eqb_spec (Z.to_nat x) (Z.to_nat d - 1)); [lia|].
      rewrite !EV by lia. rewrite Z2Nat.inj_sub, Z2Nat.inj_add by lia.
      change (Z.to_nat 1) with 1%nat. ring.
Qed.

(** ** collapse_all *)
Lemma run_race_serial {A} (op : A -> A -> A) data : forall js shared regs,
  Forall (fun j => (j < length data)%nat) js ->
  exists xs, map (nth_error data) js = map Some xs /\
    run_race op data shared regs (flat_map (fun j => [Rd j; Wr j]) js) = Some (fold_left op xs shared).
Proof.
  induction js as [|j js IH]; intros shared regs H.
  - exists []. auto.
  - inversion H as [|? ? Hj Hf]; subst. destruct (nth_error data j) as [x|] eqn:E; [|apply nth_error_None in E; lia].
    destruct (IH (op shared x) ((j, shared) :: regs) Hf) as (xs & E1 & E2).
    exists (x :: xs). cbn [map flat_map app run_race find fst snd option_map]. rewrite Nat.eqb_refl. cbn [option_map obind].
    rewrite E. cbn [obind snd]. split; [f_equal; auto|]. exact E2.
Qed.

Lemma filter_serial_rd n j : (1 <= j < n)%nat -> length (filter (event_eqb (Rd j)) (serial_schedule n)) = 1%nat.
Proof.
  intros H. unfold serial_schedule.
  assert (G : forall a k, length (filter (event_eqb (Rd j)) (flat_map (fun j => [Rd j; Wr j]) (seq a k))) = (if (a <=? j) && (j <? a + k) then 1 else 0)%nat).
  { intros a k; revert a; induction k; intros a; simpl.
    - destruct (Nat.leb_spec a j), (Nat.ltb_spec j (a + 0)); simpl; auto; lia.
    - destruct (Nat.eqb_spec j a); simpl; rewrite IHk;
        destruct (Nat.leb_spec (S a) j), (Nat.ltb_spec j (S a + k)), (Nat.leb_spec a j), (Nat.ltb_spec j (a + S k)); simpl; auto; lia. }
  rewrite G. destruct (Nat.leb_spec 1 j), (Nat.ltb_spec j (1 + (n - 1))); simpl; auto; lia.
Qed.
Lemma filter_serial_wr n j : (1 <= j < n)%nat -> length (filter (event_eqb (Wr j)) (serial_schedule n)) = 1%nat.
Proof.
  intros H. unfold serial_schedule.
  assert (G : forall a k, length (filter (event_eqb (Wr j)) (flat_map (fun j => [Rd j; Wr j]) (seq a k))) = (if (a <=? j) && (j <? a + k) then 1 else 0)%nat).
  { intros a k; revert a; induction k; intros a; simpl.
    - destruct (Nat.leb_spec a j), (Nat.ltb_spec j (a + 0)); simpl; auto; lia.
    - destruct (Nat.eqb_spec j a); simpl; rewrite IHk;
        destruct (Nat.leb_spec (S a) j), (Nat.ltb_spec j (S a + k)), (Nat.leb_spec a j), (Nat.ltb_spec j (a + S k)); simpl; auto; lia. }
  rewrite G. destruct (Nat.leb_spec 1 j), (Nat.ltb_spec j (1 + (n - 1))); simpl; auto; lia.
Qed.

Lemma serial_complete n : complete_schedule n (serial_schedule n) = true.
Proof.
  unfold complete_schedule. apply andb_true_intro; split; [apply andb_true_intro; split|].
  - apply forallb_forall. intros j Hj. apply in_seq in Hj.
    rewrite filter_serial_rd, filter_serial_wr by lia. auto.
  - apply Nat.eqb_eq. unfold serial_schedule. generalize 1%nat at 1. induction (n - 1)%nat; intros; simpl; auto.
    rewrite IHn0. lia.
  - unfold serial_schedule. generalize (@nil nat). induction (seq 1 (n - 1)); intros l0; simpl; auto.
    rewrite Nat.eqb_refl. simpl. auto.
Qed.

Lemma nth_error_seq_map {A} (x : A) xs : map (nth_error (x :: xs)) (seq 1 (length xs)) = map Some xs.
Proof.
  rewrite <- seq_shift, map_map. cbn [nth_error].
  induction xs as [|y xs IH]; auto. cbn [length seq map]. f_equal. rewrite <- seq_shift, map_map. cbn [nth_error].
  exact IH.
Qed.

Lemma map_Some_inj {A} (l m : list A) : map Some l = map Some m -> l = m.
Proof. revert m; induction l; intros [|b m] H; simpl in *; inversion H; auto. f_equal; auto. Qed.

Lemma collapse_all_serial {A} (op : A -> A -> A) x y xs :
  collapse_all op (x :: y :: xs) (serial_schedule (length (x :: y :: xs))) = Some (fold_left op (y :: xs) x).
Proof.
  unfold collapse_all. rewrite serial_complete.
  destruct (run_race_serial op (x :: y :: xs) (seq 1 (length (x :: y :: xs) - 1)) x []) as (zs & E1 & E2).
  { apply Forall_forall. intros j Hj. apply in_seq in Hj. simpl in *. lia. }
  unfold serial_schedule. rewrite E2.
  replace (length (x :: y :: xs) - 1)%nat with (length (y :: xs)) in E1 by (simpl; lia).
  rewrite nth_error_seq_map in E1. apply map_Some_inj in E1. subst. auto.
Qed.
