(** Proofs about the resolution measures *)
From Coq Require Import QArith Lqa.
From Verif Require Import Prelude Idx_Model Idx_Spec Idx_Proofs Arr_Model Arr_Spec Arr_Proofs Vec_Model Crv_Model Crv_Spec.
From Verif Require Arr_Proofs2.
Open Scope Z_scope.

Lemma pd_flat dims buf i d : good dims buf -> nth_error dims i = Some d -> 3 <= d ->
  exists res, partial_deriv (mk_marray_buf dims buf) i = Some res /\ length res = length buf /\
    forall k, (k < length buf)%nat -> e_ res k = fdiff (stride dims i) (length buf) (e_ buf) k.
Proof.
  intros (G1 & G2 & G3 & G4) Hi Hd. assert (W := mk_marray_buf_wf dims buf G1 G2 G3 G4).
  set (a := mk_marray_buf dims buf) in *. destruct W as [Wn Wp Ws Wb Wc].
  change (m_length a) with dims in *. change (m_elements a) with buf in *.
  assert (Hil : (i < length dims)%nat) by (apply nth_error_Some; congruence).
  pose proof Hi as Hsp. apply nth_error_split in Hsp. destruct Hsp as (da & db & Eds & La).
  assert (S1 : skipn (S i) dims = db).
  { rewrite Eds, <- La. replace (S (length da)) with (length (da ++ [d])) by (rewrite app_length; simpl; lia).
    replace (da ++ d :: db) with ((da ++ [d]) ++ db) by (rewrite <- app_assoc; auto).
    rewrite skipn_app, Nat.sub_diag, skipn_all. auto. }
  assert (Hpd : pos_dims da /\ pos_dims db). { rewrite Eds in Wp. apply Forall_app in Wp. destruct Wp as [Wa Wp']. inversion Wp'; auto. }
  pose proof (prodZ_pos _ (proj1 Hpd)) as Pda. pose proof (prodZ_pos _ (proj2 Hpd)) as Pdb.
  set (dR := prodZ da * d).
  assert (Ep : prodZ dims = dR * prodZ db) by (rewrite Eds, prodZ_app; cbn [prodZ]; unfold dR; ring).
  unfold partial_deriv. change (m_length a) with dims. change (m_elements a) with buf.
  rewrite Hi. cbn [obind]. destruct (Z.leb_spec d 2); [lia|].
  rewrite getFlatSize_prod by auto. cbn [obind]. rewrite Wc, strides_nth, S1 by auto. cbn [obind].
  assert (EU : udiv (prodZ dims) (prodZ db) = Some dR).
  { unfold udiv. destruct (Z.eqb_spec (prodZ db) 0); [lia|]. rewrite Ep, Z.div_mul by lia. auto. }
  rewrite EU. cbn [obind]. cbv zeta. unfold stride. rewrite S1.
  set (nL := Z.to_nat (prodZ db)). set (nR := Z.to_nat dR). set (m := buf) in *.
  assert (HdR : 3 <= dR) by (unfold dR; nia).
  assert (Lm : length m = (nR * nL)%nat) by (unfold nR, nL; nia).
  assert (HnR : (3 <= nR)%nat) by (unfold nR; lia).
  assert (HnL : (1 <= nL)%nat) by (unfold nL; lia).
  assert (HC : forall c, (c < nR)%nat -> exists s, column m nL c = Some s /\ length s = nL /\
     forall r, (r < nL)%nat -> nth_error s r = nth_error m (c * nL + r)).
  { intros c Hc. apply Arr_Proofs2.column_spec. rewrite Lm. nia. }
  set (val := fun c r => e_ m (c * nL + r)).
  assert (HV : forall c s r, (c < nR)%nat -> column m nL c = Some s -> (r < nL)%nat -> nth_error s r = Some (val c r)).
  { intros c s r Hc E Hr. destruct (HC c Hc) as (s' & E' & _ & Nn). assert (s = s') by congruence; subst. rewrite Nn by auto.
    unfold val, e_. apply nth_error_nth'. nia. }
  match goal with |- context [osequence (map ?f (seq 0 nR))] => set (F := f) end.
  assert (HF : forall c, (c < nR)%nat -> exists s, F c = Some s /\ length s = nL /\
    forall r, (r < nL)%nat -> nth_error s r = Some
      (if (c =? 0)%nat then val 0%nat r * (-(3#2)) + val 1%nat r * (2#1) + val 2%nat r * (-(1#2))
       else if (c =? nR - 1)%nat then val (nR - 3)%nat r * (1#2) + val (nR - 2)%nat r * (-(2#1)) + val (nR - 1)%nat r * (3#2)
       else val (c - 1)%nat r * (-(1#2)) + val (c + 1)%nat r * (1#2))%Q).
  { intros c Hc. unfold F. destruct (Nat.eqb_spec c 0); [|destruct (Nat.eqb_spec c (nR - 1))].
    - destruct (HC 0%nat) as (x & Ex & Lx & _); [lia|]. destruct (HC 1%nat) as (y & Ey & Ly & _); [lia|]. destruct (HC 2%nat) as (z & Ez & Lz & _); [lia|].
      rewrite Ex, Ey, Ez. cbn [obind]. eexists; split; [reflexivity|]. split; [rewrite Arr_Proofs2.lincomb3_length; lia|].
      intros r Hr. apply Arr_Proofs2.lincomb3_nth; apply HV; auto; lia.
    - destruct (HC (nR - 3)%nat) as (x & Ex & Lx & _); [lia|]. destruct (HC (nR - 2)%nat) as (y & Ey & Ly & _); [lia|]. destruct (HC (nR - 1)%nat) as (z & Ez & Lz & _); [lia|].
      rewrite Ex, Ey, Ez. cbn [obind]. eexists; split; [reflexivity|]. split; [rewrite Arr_Proofs2.lincomb3_length; lia|].
      intros r Hr. apply Arr_Proofs2.lincomb3_nth; apply HV; auto; lia.
    - destruct (HC (c - 1)%nat) as (x & Ex & Lx & _); [lia|]. destruct (HC (c + 1)%nat) as (y & Ey & Ly & _); [lia|].
      rewrite Ex, Ey. cbn [obind]. eexists; split; [reflexivity|]. split; [rewrite Arr_Proofs2.lincomb2_length; lia|].
      intros r Hr. apply Arr_Proofs2.lincomb2_nth; apply HV; auto; lia. }
  destruct (Arr_Proofs2.osequence_ex F (seq 0 nR)) as (cols & Ec & Fc).
  { intros c Hc. apply in_seq in Hc. destruct (HF c ltac:(lia)) as (s & Es & _); eauto. }
  rewrite Ec. cbn [obind].
  assert (Hlen : Forall (fun c => length c = nL) cols).
  { apply Forall_forall. intros s Hs. apply In_nth_error in Hs. destruct Hs as (c & Hc).
    assert (Hcl : (c < length cols)%nat) by (apply nth_error_Some; congruence).
    rewrite <- (Forall2_length _ _ _ Fc), seq_length in Hcl.
    assert (Hsq : nth_error (seq 0 nR) c = Some c) by (rewrite (nth_error_nth' _ O), seq_nth by (rewrite ?seq_length; lia); auto).
    destruct (Arr_Proofs2.Forall2_nth_l _ _ _ _ _ Fc Hsq) as (y & Ey & EF). destruct (HF c Hcl) as (s' & Es' & L' & _). congruence. }
  eexists; split; [reflexivity|]. split.
  { rewrite Lm. assert (Lc := Forall2_length _ _ _ Fc). rewrite seq_length in Lc. rewrite Lc. clear -Hlen.
    induction Hlen; simpl; auto. rewrite app_length. lia. }
  intros k Hk. set (c := (k / nL)%nat). set (r := (k mod nL)%nat).
  assert (Ek : k = (c * nL + r)%nat) by (unfold c, r; rewrite Nat.mul_comm; apply Nat.div_mod; lia).
  assert (Hrl : (r < nL)%nat) by (apply Nat.mod_upper_bound; lia).
  assert (Hc : (c < nR)%nat) by (apply Nat.div_lt_upper_bound; nia).
  destruct (HF c Hc) as (s & Es & Ls & Ns).
  assert (Hsq : nth_error (seq 0 nR) c = Some c) by (rewrite (nth_error_nth' _ O), seq_nth by (rewrite ?seq_length; lia); auto).
  destruct (Arr_Proofs2.Forall2_nth_l _ _ _ _ _ Fc Hsq) as (s' & Es' & EF). assert (s' = s) by congruence. subst s'.
  unfold e_ at 1. rewrite Ek at 1. erewrite nth_error_nth; [|rewrite (Arr_Proofs2.nth_error_concat cols nL Hlen c s r) by auto; apply Ns; auto].
  unfold fdiff, val. rewrite Lm.
  destruct (Nat.eqb_spec c 0) as [C0|C0].
  - rewrite C0 in *. destruct (Nat.ltb_spec k nL); [|nia]. rewrite Ek.
    replace (1 * nL + r)%nat with (0 * nL + r + nL)%nat by lia.
    replace (2 * nL + r)%nat with (0 * nL + r + 2 * nL)%nat by lia. reflexivity.
  - destruct (Nat.ltb_spec k nL); [nia|].
    destruct (Nat.eqb_spec c (nR - 1)) as [C1|C1].
    + destruct (Nat.leb_spec (nR * nL - nL) k); [|nia].
      assert (K : k = ((nR - 1) * nL + r)%nat) by (rewrite Ek at 1; rewrite C1; reflexivity).
      destruct nR as [|[|[|q]]]; try lia. clear - K.
      replace (S (S (S q)) - 1)%nat with (S (S q)) in * by lia.
      replace (S (S (S q)) - 2)%nat with (S q) by lia. replace (S (S (S q)) - 3)%nat with q by lia.
      cbn [Nat.mul] in K.
      replace (q * nL + r)%nat with (k - 2 * nL)%nat by lia.
      replace (S q * nL + r)%nat with (k - nL)%nat by (cbn [Nat.mul]; lia).
      replace (S (S q) * nL + r)%nat with k by (cbn [Nat.mul]; lia). reflexivity.
    + destruct (Nat.leb_spec (nR * nL - nL) k); [nia|].
      destruct c as [|q]; [lia|]. clear - Ek. replace (S q - 1)%nat with q by lia. cbn [Nat.mul] in Ek.
      replace (q * nL + r)%nat with (k - nL)%nat by lia.
      replace ((S q + 1) * nL + r)%nat with (k + nL)%nat by (rewrite Nat.add_1_r; cbn [Nat.mul]; lia). reflexivity.
Qed.

(** ** interior differences in terms of index tuples *)
Lemma nth_error_of_nth (l : list Z) p : (p < length l)%nat -> nth_error l p = Some (nth p l 0).
Proof. intros H. apply nth_error_nth'. exact H. Qed.
Lemma in_range_length idx dims : in_range idx dims -> length idx = length dims.
Proof. intros H. exact (Forall2_length _ _ _ H). Qed.
Lemma shift_split idx dims p : in_range idx dims -> (p < length dims)%nat ->
  exists a x b da d db, idx = a ++ x :: b /\ dims = da ++ d :: db /\ length a = p /\ length da = p /\ nth p idx 0 = x /\
    nth p dims 0 = d /\ in_range a da /\ in_range b db /\ 0 <= x < d /\ forall t, shift idx p t = a ++ (x + t) :: b.
Proof.
  intros R Hp. pose proof (in_range_length _ _ R) as L.
  pose proof (nth_error_of_nth idx p ltac:(lia)) as H1. apply nth_error_split in H1. destruct H1 as (a & b & E1 & La).
  pose proof (nth_error_of_nth dims p Hp) as H2. apply nth_error_split in H2. destruct H2 as (da & db & E2 & Ld).
  remember (nth p idx 0) as x eqn:Ex. remember (nth p dims 0) as d eqn:Edd.
  exists a, x, b, da, d, db. rewrite E1, E2 in R. apply Forall2_app_inv_len in R; [|lia]. destruct R as (Ra & Rb).
  assert (Rx : 0 <= x < d /\ in_range b db) by (inversion Rb; auto). destruct Rx as [Rx Rb'].
  split; [exact E1|]. split; [exact E2|]. split; [exact La|]. split; [exact Ld|].
  split; [first [reflexivity|symmetry; exact Ex]|]. split; [first [reflexivity|symmetry; exact Edd]|]. split; [exact Ra|]. split; [exact Rb'|]. split; [exact Rx|].
  intros t. unfold shift. rewrite <- Ex. rewrite E1, <- La.
  rewrite firstn_app, Nat.sub_diag, firstn_all. cbn [firstn]. rewrite app_nil_r.
  f_equal. f_equal.
  replace (S (length a)) with (length (a ++ [x])) by (rewrite app_length; simpl; lia).
  replace (a ++ x :: b) with ((a ++ [x]) ++ b) by (rewrite <- app_assoc; auto).
  rewrite skipn_app, Nat.sub_diag, skipn_all. auto.
Qed.
Lemma shift_ok idx dims p t : in_range idx dims -> (p < length dims)%nat -> 0 <= nth p idx 0 + t < nth p dims 0 ->
  in_range (shift idx p t) dims /\ row_major (shift idx p t) dims = row_major idx dims + t * prodZ (skipn (S p) dims)
  /\ nth p (shift idx p t) 0 = nth p idx 0 + t /\ (forall q, q <> p -> nth q (shift idx p t) 0 = nth q idx 0).
Proof.
  intros R Hp B. destruct (shift_split idx dims p R Hp) as (a & x & b & da & d & db & E1 & E2 & L1 & L2 & E3 & E4 & Ra & Rb & Rx & E).
  rewrite E. rewrite E3, E4 in B.
  assert (S1 : skipn (S p) dims = db).
  { rewrite E2, <- L2. replace (S (length da)) with (length (da ++ [d])) by (rewrite app_length; simpl; lia).
    replace (da ++ d :: db) with ((da ++ [d]) ++ db) by (rewrite <- app_assoc; auto).
    rewrite skipn_app, Nat.sub_diag, skipn_all. auto. }
  rewrite S1. split; [|split; [|split]].
  - rewrite E2. apply Forall2_app; [exact Ra|]. constructor; [lia|exact Rb].
  - rewrite E2, E1. rewrite !Arr_Proofs2.row_major_app by lia. cbn [row_major]. ring.
  - rewrite E3. rewrite <- L1. rewrite app_nth2, Nat.sub_diag by lia. reflexivity.
  - intros q Hq. rewrite E1. destruct (Nat.lt_ge_cases q p).
    + rewrite !app_nth1 by lia. reflexivity.
    + rewrite !app_nth2 by lia. rewrite L1. destruct (q - p)%nat eqn:Eq; [lia|]. reflexivity.
Qed.

Lemma pd_interior dims buf i : good dims buf -> (i < length dims)%nat -> 3 <= nth i dims 0 ->
  exists res, partial_deriv (mk_marray_buf dims buf) i = Some res /\ good dims res /\
    forall idx, in_range idx dims -> inside dims idx i 1 -> (at_ dims res idx == diff1 (at_ dims buf) i idx)%Q.
Proof.
  intros G Hi Hd. destruct (pd_flat dims buf i _ G (nth_error_of_nth _ _ Hi) Hd) as (res & E & L & V).
  assert (G' := G). destruct G' as (G1 & G2 & G3 & G4).
  exists res. split; [exact E|]. split; [repeat split; auto; rewrite L; exact G4|].
  intros idx R In. unfold inside in In.
  pose proof (row_major_range _ _ R) as RR.
  destruct (shift_ok idx dims i 1 R Hi ltac:(lia)) as (R1 & M1 & _).
  destruct (shift_ok idx dims i (-1) R Hi ltac:(lia)) as (R2 & M2 & _).
  pose proof (row_major_range _ _ R1) as B1. pose proof (row_major_range _ _ R2) as B2.
  unfold diff1, at_. rewrite M1, M2. fold (e_ res (Z.to_nat (row_major idx dims))). rewrite V by lia.
  unfold fdiff, stride.
  assert (P : 0 < prodZ (skipn (S i) dims)).
  { apply prodZ_pos. apply Forall_forall. intros z Hz. unfold pos_dims in G2. rewrite Forall_forall in G2. apply G2.
    rewrite <- (firstn_skipn (S i) dims). apply in_or_app. right. exact Hz. }
  destruct (Nat.ltb_spec (Z.to_nat (row_major idx dims)) (Z.to_nat (prodZ (skipn (S i) dims)))); [lia|].
  destruct (Nat.leb_spec (length buf - Z.to_nat (prodZ (skipn (S i) dims))) (Z.to_nat (row_major idx dims))); [lia|].
  unfold e_. rewrite <- Z2Nat.inj_add, <- Z2Nat.inj_sub by lia.
  replace (row_major idx dims + 1 * prodZ (skipn (S i) dims)) with (row_major idx dims + prodZ (skipn (S i) dims)) by ring.
  replace (row_major idx dims + -1 * prodZ (skipn (S i) dims)) with (row_major idx dims - prodZ (skipn (S i) dims)) by ring.
  ring.
Qed.

Definition okd (x : cdat) : Prop := good (dd x) (dre x) /\ good (dd x) (dim x).
Lemma cderiv_interior x i : okd x -> (i < length (dd x))%nat -> 3 <= nth i (dd x) 0 ->
  exists y, cderiv x i = Some y /\ dd y = dd x /\ okd y /\
    forall idx, in_range idx (dd x) -> inside (dd x) idx i 1 ->
      (at_ (dd x) (dre y) idx == diff1 (at_ (dd x) (dre x)) i idx)%Q /\ (at_ (dd x) (dim y) idx == diff1 (at_ (dd x) (dim x)) i idx)%Q.
Proof.
  intros (G1 & G2) Hi Hd.
  destruct (pd_interior _ _ i G1 Hi Hd) as (r & E1 & Gr & V1). destruct (pd_interior _ _ i G2 Hi Hd) as (m & E2 & Gm & V2).
  exists (mkD (dd x) r m). unfold cderiv. rewrite E1, E2. cbn [obind]. split; [reflexivity|]. split; [reflexivity|].
  split; [split; assumption|]. intros idx R In. cbn [dre dim]. split; [apply V1|apply V2]; assumption.
Qed.
Lemma cderiv2_interior x i j : okd x -> (i < length (dd x))%nat -> (j < length (dd x))%nat -> 3 <= nth i (dd x) 0 -> 3 <= nth j (dd x) 0 ->
  exists y, cderiv2 x i j = Some y /\ dd y = dd x /\ okd y /\
    forall idx, in_range idx (dd x) -> inside (dd x) idx i 2 -> inside (dd x) idx j 2 ->
      (at_ (dd x) (dre y) idx == diff2 (at_ (dd x) (dre x)) i j idx)%Q /\ (at_ (dd x) (dim y) idx == diff2 (at_ (dd x) (dim x)) i j idx)%Q.
Proof.
  intros O Hi Hj Di Dj. destruct (cderiv_interior x i O Hi Di) as (y & E1 & Y1 & Oy & V1).
  destruct (cderiv_interior y j Oy ltac:(rewrite Y1; exact Hj) ltac:(rewrite Y1; exact Dj)) as (z & E2 & Y2 & Oz & V2).
  exists z. unfold cderiv2. rewrite E1. cbn [obind]. split; [exact E2|]. split; [congruence|]. split; [exact Oz|].
  rewrite Y1 in V2. intros idx R Ii Ij. unfold inside in *.
  destruct (V2 idx R ltac:(unfold inside; lia)) as (A & B).
  assert (H : forall t, t = 1 \/ t = -1 -> in_range (shift idx j t) (dd x) /\ inside (dd x) (shift idx j t) i 1).
  { intros t Ht. destruct (shift_ok idx (dd x) j t R Hj ltac:(lia)) as (R1 & _ & N1 & N2). split; [exact R1|].
    unfold inside. destruct (Nat.eq_dec i j) as [->|Ne]; [rewrite N1; lia|rewrite N2 by exact Ne; lia]. }
  destruct (H 1 (or_introl eq_refl)) as (R1 & I1). destruct (H (-1) (or_intror eq_refl)) as (R2 & I2).
  destruct (V1 _ R1 I1) as (C1 & D1). destruct (V1 _ R2 I2) as (C2 & D2).
  unfold diff2. split; [rewrite A; unfold diff1 at 1|rewrite B; unfold diff1 at 1]; [rewrite C1, C2|rewrite D1, D2]; reflexivity.
Qed.

(** ** sums of squares and maxima *)
Lemma abs2_length u : forall v, length u = length v -> length (abs2 u v) = length u.
Proof. induction u; intros [|] H; simpl in *; try lia. rewrite IHu; lia. Qed.
Lemma abs2_nth u : forall v k, length u = length v -> (k < length u)%nat -> nth k (abs2 u v) 0%Q = sq2 (nth k u 0%Q) (nth k v 0%Q).
Proof. induction u; intros [|] [|k] H Hk; simpl in *; try lia; try reflexivity. apply IHu; lia. Qed.
Lemma addl_length u : forall v, length u = length v -> length (addl u v) = length u.
Proof. induction u; intros [|] H; simpl in *; try lia. rewrite IHu; lia. Qed.
Lemma addl_nth u : forall v k, length u = length v -> (k < length u)%nat -> nth k (addl u v) 0%Q = (nth k u 0 + nth k v 0)%Q.
Proof. induction u; intros [|] [|k] H Hk; simpl in *; try lia; try reflexivity. apply IHu; lia. Qed.
Lemma twice_nth u k : (k < length u)%nat -> nth k (twice u) 0%Q = (nth k u 0 * 2)%Q.
Proof.
  intros H. unfold twice. rewrite (nth_indep _ 0%Q (0 * 2)%Q) by (rewrite map_length; exact H).
  exact (map_nth (fun q => q * 2)%Q u 0%Q k).
Qed.
Lemma maxq_ge_start l : forall m, (m <= fold_left (fun m q => if Qle_bool q m then m else q) l m)%Q.
Proof.
  induction l as [|q l IH]; intros m; cbn [fold_left]; [apply Qle_refl|].
  destruct (Qle_bool q m) eqn:E; [apply IH|]. eapply Qle_trans; [|apply IH].
  destruct (Qlt_le_dec m q); [apply Qlt_le_weak; assumption|]. apply Qle_bool_iff in q0. congruence.
Qed.
Lemma maxq_ge l q : In q l -> (q <= maxq l)%Q.
Proof.
  unfold maxq. generalize 0%Q. induction l as [|a l IH]; intros m H; [destruct H|]. cbn [fold_left].
  destruct H as [-> |H].
  - destruct (Qle_bool q m) eqn:E; [|apply maxq_ge_start]. apply Qle_bool_iff in E. eapply Qle_trans; [exact E|apply maxq_ge_start].
  - destruct (Qle_bool a m); apply IH; exact H.
Qed.
Lemma maxq_attained l : (forall q, In q l -> 0 <= q)%Q -> maxq l = 0%Q \/ In (maxq l) l.
Proof.
  intros _. unfold maxq. generalize 0%Q. induction l as [|a l IH]; intros m; cbn [fold_left]; [left; reflexivity|].
  destruct (Qle_bool a m).
  - destruct (IH m) as [E|E]; [left; exact E|right; right; exact E].
  - destruct (IH a) as [E|E]; [right; left; symmetry; exact E|right; right; exact E].
Qed.
Lemma power2_length x : okd x -> length (power2 x) = Z.to_nat (prodZ (dd x)).
Proof. intros ((_ & _ & _ & A) & (_ & _ & _ & B)). unfold power2. rewrite abs2_length; lia. Qed.
Lemma power2_at x idx : okd x -> in_range idx (dd x) ->
  nth (Z.to_nat (row_major idx (dd x))) (power2 x) 0%Q = sq2 (at_ (dd x) (dre x) idx) (at_ (dd x) (dim x) idx).
Proof.
  intros ((_ & _ & _ & A) & (_ & _ & _ & B)) R. pose proof (row_major_range _ _ R).
  unfold power2, at_. apply abs2_nth; lia.
Qed.
Lemma maxq_nth l k : (k < length l)%nat -> (nth k l 0 <= maxq l)%Q.
Proof. intros H. apply maxq_ge. apply nth_In. exact H. Qed.
Lemma sq2_eq a b a' b' : (a == a')%Q -> (b == b')%Q -> (sq2 a b == sq2 a' b')%Q.
Proof. intros A B. unfold sq2. rewrite A, B. reflexivity. Qed.

Lemma div_le a b k : (0 < k)%Q -> (a <= b)%Q -> (a / k <= b / k)%Q.
Proof. intros Hk H. unfold Qdiv. apply Qmult_le_compat_r; [exact H|]. apply Qlt_le_weak, Qinv_lt_0_compat, Hk. Qed.
Lemma Kmax2_nonneg x : (0 <= Kmax2 x)%Q.
Proof. unfold Kmax2, maxq. apply maxq_ge_start. Qed.
Lemma Kmax2_pos x : Qeq_bool (Kmax2 x) 0 = false -> (0 < Kmax2 x)%Q.
Proof.
  intros H. destruct (Qlt_le_dec 0 (Kmax2 x)) as [L|L]; [exact L|]. exfalso.
  assert (E : (Kmax2 x == 0)%Q) by (apply Qle_antisym; [exact L|apply Kmax2_nonneg]).
  apply Qeq_bool_iff in E. congruence.
Qed.
