From Coq Require Import Permutation.
From Verif Require Import Prelude Idx_Model Idx_Spec.

Lemma prodZ_pos ds : pos_dims ds -> 0 < prodZ ds.
Proof. induction 1; simpl; nia. Qed.

Lemma prodZ_app a b : prodZ (a ++ b) = prodZ a * prodZ b.
Proof. induction a; simpl; [lia|]. rewrite IHa; ring. Qed.

Lemma in_range_pos is ds : in_range is ds -> pos_dims ds.
Proof. induction 1; constructor; auto; lia. Qed.

Lemma in_range_length is ds : in_range is ds -> length is = length ds.
Proof. induction 1; simpl; auto. Qed.

Lemma row_major_range is ds : in_range is ds -> 0 <= row_major is ds < prodZ ds.
Proof.
  induction 1 as [|i d is ds Hi H IH]; simpl; [lia|].
  assert (0 < prodZ ds) by (apply prodZ_pos; eapply in_range_pos; eauto). nia.
Qed.

Lemma row_major_inj is : forall js ds, in_range is ds -> in_range js ds ->
  row_major is ds = row_major js ds -> is = js.
Proof.
  induction is as [|i is IH]; intros js ds Hi Hj E.
  - inversion Hi; subst; inversion Hj; auto.
  - inversion Hi as [|? d ? ds' H1 H2]; subst. inversion Hj as [|j ? js' ? H3 H4]; subst. simpl in E.
    pose proof (row_major_range _ _ H2). pose proof (row_major_range _ _ H4).
    assert (i = j) by nia. subst. f_equal. eapply IH; eauto. lia.
Qed.

Lemma umul_small a b : 0 <= a * b < w64 -> umul a b = a * b.
Proof. intros; unfold umul; apply Z.mod_small; auto. Qed.
Lemma uadd_small a b : 0 <= a + b < w64 -> uadd a b = a + b.
Proof. intros; unfold uadd; apply Z.mod_small; auto. Qed.
Lemma usub_small a b : 0 <= a - b < w64 -> usub a b = a - b.
Proof. intros; unfold usub; apply Z.mod_small; auto. Qed.

Lemma fold_umul ds : forall a, pos_dims ds -> 0 <= a -> a * prodZ ds < w64 ->
  fold_left umul ds a = a * prodZ ds.
Proof.
  induction ds as [|d ds IH]; intros a Hp Ha Hb; simpl in *; [lia|].
  inversion Hp; subst. pose proof (prodZ_pos _ H2).
  rewrite umul_small by nia. rewrite IH; auto; nia.
Qed.

Lemma getFlatSize_prod ds : ds <> [] -> pos_dims ds -> prodZ ds < w64 -> getFlatSize ds = Some (prodZ ds).
Proof.
  destruct ds as [|d ds]; [congruence|]; intros _ Hp Hb. unfold getFlatSize.
  inversion Hp; subst. rewrite fold_umul; auto; simpl in *; try lia.
Qed.

Lemma horner_fold ds : forall is r, in_range is ds -> 0 <= r -> (r + 1) * prodZ ds <= w64 ->
  fold_left horner_step (combine ds is) r = r * prodZ ds + row_major is ds.
Proof.
  induction ds as [|d ds IH]; intros is r Hi Hr Hb; inversion Hi as [|i ? is' ? H1 H2]; subst; simpl in *; [lia|].
  assert (0 < prodZ ds) by (apply prodZ_pos; eapply in_range_pos; eauto).
  unfold horner_step at 2; cbn [fst snd].
  assert (0 <= (r * d + d) * (prodZ ds - 1)) by (apply Z.mul_nonneg_nonneg; nia).
  assert (r * d + d <= w64) by lia.
  rewrite umul_small by nia. rewrite uadd_small by nia.
  rewrite IH; auto; try nia.
Qed.

Lemma getFlatIndex_row_major is ds : (2 <= length ds)%nat -> in_range is ds -> prodZ ds < w64 ->
  getFlatIndex is ds = Some (row_major is ds).
Proof.
  intros Hl Hi Hb. inversion Hi as [|i d is' ds' H1 H2]; subst; simpl in Hl; [lia|].
  assert (E : getFlatIndex (i :: is') (d :: ds') = Some (fold_left horner_step (combine ds' is') i)).
  { destruct ds' as [|d' ds']; simpl in Hl; [lia|]. inversion H2; subst. reflexivity. }
  rewrite E. assert (0 < prodZ ds') by (apply prodZ_pos; eapply in_range_pos; eauto).
  rewrite horner_fold; auto; try lia. simpl in Hb. nia.
Qed.

Lemma getMultIndex_loop_spec ds : forall temp, pos_dims ds -> 0 <= temp < prodZ ds -> prodZ ds <= w64 ->
  exists r, getMultIndex_loop ds (prodZ ds) temp = Some r /\ in_range r ds /\ row_major r ds = temp.
Proof.
  induction ds as [|d ds IH]; intros temp Hp Ht Hb.
  - simpl in *. exists []. split; [auto|split; [constructor|simpl; lia]].
  - inversion Hp as [|? ? Hd Hp']; subst. pose proof (prodZ_pos _ Hp') as HP.
    cbn [getMultIndex_loop prodZ]. unfold udiv at 1. cbn [prodZ] in *.
    destruct (d =? 0) eqn:E; [apply Z.eqb_eq in E; lia|].
    rewrite (Z.mul_comm d), Z.div_mul by lia. cbn [obind].
    unfold udiv. destruct (prodZ ds =? 0) eqn:E2; [apply Z.eqb_eq in E2; lia|]. cbn [obind].
    set (q := temp / prodZ ds).
    assert (Hq : 0 <= q < d). { unfold q; split; [apply Z.div_pos; lia|]. apply Z.div_lt_upper_bound; nia. }
    pose proof (Z.div_mod temp (prodZ ds) ltac:(lia)) as Hdm. fold q in Hdm.
    pose proof (Z.mod_pos_bound temp (prodZ ds) HP) as Hm.
    rewrite umul_small by nia. rewrite usub_small by nia.
    replace (temp - q * prodZ ds) with (temp mod prodZ ds) by lia.
    destruct (IH (temp mod prodZ ds)) as (r & E3 & Hr & Hf); auto; [nia|].
    rewrite E3. cbn [obind]. exists (q :: r). split; [auto|split; [constructor; auto|]].
    cbn [row_major]. nia.
Qed.

Lemma getMultIndex_spec ds k : ds <> [] -> pos_dims ds -> prodZ ds < w64 -> 0 <= k < prodZ ds ->
  exists r, getMultIndex k ds = Some r /\ in_range r ds /\ row_major r ds = k.
Proof.
  intros Hn Hp Hb Hk. destruct ds as [|d [|d' ds']]; [congruence| |].
  - simpl in *. exists [k]. split; [auto|split; [repeat constructor; lia|simpl; lia]].
  - inversion Hp as [|? ? Hd Hp']; subst. unfold getMultIndex.
    set (ds := d' :: ds') in *. pose proof (prodZ_pos _ Hp') as HP. cbn [prodZ] in Hb, Hk. fold ds in Hb, Hk.
    rewrite fold_umul by (auto; nia). rewrite Z.mul_1_l.
    unfold udiv. destruct (prodZ ds =? 0) eqn:E2; [apply Z.eqb_eq in E2; lia|]. cbn [obind].
    set (q := k / prodZ ds).
    assert (Hq : 0 <= q < d). { unfold q; split; [apply Z.div_pos; lia|]. apply Z.div_lt_upper_bound; nia. }
    pose proof (Z.div_mod k (prodZ ds) ltac:(lia)) as Hdm. fold q in Hdm.
    pose proof (Z.mod_pos_bound k (prodZ ds) HP) as Hm.
    rewrite umul_small by nia. rewrite usub_small by nia.
    replace (k - q * prodZ ds) with (k mod prodZ ds) by lia.
    destruct (getMultIndex_loop_spec ds (k mod prodZ ds)) as (r & E3 & Hr & Hf); auto; [nia|].
    rewrite E3. cbn [obind]. exists (q :: r). split; [auto|split; [constructor; auto|]].
    cbn [row_major]. nia.
Qed.

Lemma getMultIndex_row_major is ds : ds <> [] -> in_range is ds -> prodZ ds < w64 ->
  getMultIndex (row_major is ds) ds = Some is.
Proof.
  intros Hn Hi Hb. pose proof (in_range_pos _ _ Hi).
  destruct (getMultIndex_spec ds (row_major is ds)) as (r & E & Hr & Hf); auto.
  { apply row_major_range; auto. }
  rewrite E. f_equal. eapply row_major_inj; eauto.
Qed.

(** ** permutations *)

Lemma gather_length {A} (d : A) l p : length (gather d l p) = length p.
Proof. apply map_length. Qed.

Lemma fold_perm_horner indx dims ps : forall r,
  Forall (fun p => (p < length indx)%nat) ps -> length indx = length dims ->
  fold_left (fun acc p => r <- acc ;; d <- nth_error dims p ;; i <- nth_error indx p ;;
                              Some (horner_step r (d, i))) ps (Some r)
  = Some (fold_left horner_step (combine (gather 0 dims ps) (gather 0 indx ps)) r).
Proof.
  induction ps as [|p ps IH]; intros r Hf Hl; [reflexivity|].
  inversion Hf; subst. cbn [fold_left obind].
  rewrite (nth_error_nth' dims 0) by lia. rewrite (nth_error_nth' indx 0) by lia. cbn [obind].
  rewrite IH by auto. reflexivity.
Qed.

Lemma getFlatIndexPerm_gather indx dims perm :
  perm <> [] -> Forall (fun p => (p < length indx)%nat) perm -> length indx = length dims ->
  in_range (gather 0 indx perm) (gather 0 dims perm) -> prodZ (gather 0 dims perm) < w64 ->
  getFlatIndexPerm indx dims perm = Some (row_major (gather 0 indx perm) (gather 0 dims perm)).
Proof.
  intros Hn Hf Hl Hi Hb. destruct perm as [|p ps]; [congruence|].
  inversion Hf; subst. unfold getFlatIndexPerm.
  rewrite (nth_error_nth' indx 0) by lia. cbn [obind].
  rewrite fold_perm_horner by auto.
  unfold gather in Hi; cbn [map] in Hi. inversion Hi as [|? ? ? ? Hr0 Hr1]; subst.
  fold (gather 0 indx ps) in *. fold (gather 0 dims ps) in *.
  assert (0 < prodZ (gather 0 dims ps)) by (apply prodZ_pos; eapply in_range_pos; eauto).
  rewrite horner_fold; auto; [lia|].
  unfold gather in Hb; cbn [map prodZ] in Hb. fold (gather 0 dims ps) in Hb. nia.
Qed.

Lemma gather_in_range is ds perm : in_range is ds -> Forall (fun p => (p < length ds)%nat) perm ->
  in_range (gather 0 is perm) (gather 0 ds perm).
Proof.
  intros Hi Hp. induction Hp; [constructor|].
  constructor; auto. clear IHHp Hp. pose proof (in_range_length _ _ Hi).
  revert x H. induction Hi; intros p Hp; simpl in *; [lia|].
  destruct p; auto. apply IHHi; lia.
Qed.

Lemma prodZ_permutation a b : Permutation a b -> prodZ a = prodZ b.
Proof. induction 1; simpl; try nia; congruence. Qed.

Lemma gather_seq {A} (d : A) l : gather d l (seq 0 (length l)) = l.
Proof.
  apply nth_ext with (d := d) (d' := d); unfold gather.
  - rewrite map_length, seq_length; auto.
  - intros n Hn. rewrite map_length, seq_length in Hn.
    rewrite (nth_indep _ d (nth O l d)) by (rewrite map_length, seq_length; lia).
    rewrite (map_nth (fun p => nth p l d)). rewrite seq_nth by lia. auto.
Qed.

Lemma gather_permutation {A} (d : A) l perm : Permutation perm (seq 0 (length l)) ->
  Permutation (gather d l perm) l.
Proof.
  intros H. rewrite <- (gather_seq d l) at 2. apply Permutation_map; auto.
Qed.

Lemma perm_bound perm n : Permutation perm (seq 0 n) -> Forall (fun p => (p < n)%nat) perm.
Proof.
  intros H. apply Forall_forall. intros x Hx.
  apply (Permutation_in _ H) in Hx. apply in_seq in Hx. lia.
Qed.

Lemma getFlatIndexPerm_spec is ds perm :
  ds <> [] -> in_range is ds -> Permutation perm (seq 0 (length ds)) -> prodZ ds < w64 ->
  getFlatIndexPerm is ds perm = Some (row_major (gather 0 is perm) (gather 0 ds perm)).
Proof.
  intros Hn Hi Hp Hb. pose proof (in_range_length _ _ Hi) as Hl. pose proof (perm_bound _ _ Hp) as Hf.
  apply getFlatIndexPerm_gather; auto.
  - intro E; subst. apply Permutation_nil in Hp. destruct ds; simpl in *; congruence.
  - rewrite Hl; auto.
  - apply gather_in_range; auto.
  - rewrite (prodZ_permutation _ ds); auto. apply gather_permutation; auto.
Qed.

(** get_inverse_permutation *)
Lemma oupd_some {A} (l : list A) i x : (i < length l)%nat -> exists l', oupd l i x = Some l' /\ length l' = length l.
Proof.
  revert i; induction l; intros i H; simpl in *; [lia|].
  destruct i; [eauto|]. destruct (IHl i) as (l' & E & El); [lia|]. rewrite E. simpl. eexists; split; eauto. simpl; lia.
Qed.

Lemma oupd_nth_same {A} (l : list A) i x d l' : oupd l i x = Some l' -> nth i l' d = x.
Proof.
  revert i l'; induction l; intros i l' H; simpl in *; [congruence|].
  destruct i; [inversion H; auto|]. destruct (oupd l i x) eqn:E; simpl in H; [|congruence]. inversion H; subst. simpl. eauto.
Qed.

Lemma oupd_nth_other {A} (l : list A) i j x d l' : oupd l i x = Some l' -> i <> j -> nth j l' d = nth j l d.
Proof.
  revert i j l'; induction l; intros i j l' H Hn; simpl in *; [congruence|].
  destruct i; [inversion H; subst; destruct j; [lia|auto]|].
  destruct (oupd l i x) eqn:E; simpl in H; [|congruence]. inversion H; subst.
  destruct j; auto. simpl. eapply IHl; eauto.
Qed.

Lemma oupd_length {A} (l : list A) i x l' : oupd l i x = Some l' -> length l' = length l.
Proof.
  revert i l'; induction l; intros i l' H; simpl in *; [congruence|].
  destruct i; [inversion H; auto|]. destruct (oupd l i x) eqn:E; simpl in H; [|congruence]. inversion H; subst. simpl. f_equal; eauto.
Qed.

Lemma oupd_none {A} (l : list A) i x : (length l <= i)%nat -> oupd l i x = None.
Proof. revert i; induction l; intros i H; simpl in *; auto. destruct i; [lia|]. rewrite IHl by lia; auto. Qed.

(** writing [f i] at position [g i] for i in [is], with [g] injective on [is] *)
Lemma scatter_spec {A} (d : A) (f : nat -> A) (g : nat -> nat) is : forall res,
  NoDup (map g is) -> Forall (fun i => (g i < length res)%nat) is ->
  exists out, fold_left (fun acc i => r <- acc ;; oupd r (g i) (f i)) is (Some res) = Some out /\
    length out = length res /\
    (forall i, In i is -> nth (g i) out d = f i) /\
    (forall j, ~ In j (map g is) -> nth j out d = nth j res d).
Proof.
  induction is as [|i is IH]; intros res Hd Hb.
  - exists res. simpl. repeat split; auto. intros ? [].
  - inversion Hd as [|? ? Hni Hd']; subst. inversion Hb as [|? ? Hb1 Hb2]; subst.
    destruct (oupd_some res (g i) (f i) Hb1) as (r1 & E1 & L1).
    destruct (IH r1 Hd') as (out & E & L & Hs & Hf).
    { rewrite L1; auto. }
    exists out. cbn [fold_left obind]. rewrite E1. split; [exact E|]. split; [lia|]. split.
    + intros j [->|Hj]; [|apply Hs; auto].
      rewrite Hf by auto. eapply oupd_nth_same; eauto.
    + intros j Hj. simpl in Hj. rewrite Hf by tauto. eapply oupd_nth_other; eauto.
Qed.

Lemma map_NoDup_in {A B} (f : A -> B) l :
  (forall x y, In x l -> In y l -> f x = f y -> x = y) -> NoDup l -> NoDup (map f l).
Proof.
  intros Hf H; induction H; simpl; constructor.
  - intro Hin. apply in_map_iff in Hin. destruct Hin as (y & Ey & Hy).
    assert (y = x) by (apply Hf; simpl; auto). subst; auto.
  - apply IHNoDup. intros; apply Hf; simpl; auto.
Qed.

Lemma fold_left_ext {A B} (f g : A -> B -> A) l : (forall a b, In b l -> f a b = g a b) ->
  forall a, fold_left f l a = fold_left g l a.
Proof.
  induction l; intros H a0; simpl; auto. rewrite H by (simpl; auto). apply IHl. intros; apply H; simpl; auto.
Qed.

Lemma get_inverse_permutation_spec perm : Permutation perm (seq 0 (length perm)) ->
  exists inv, get_inverse_permutation perm = Some inv /\ length inv = length perm /\
    (forall i, (i < length perm)%nat -> nth (nth i perm O) inv O = i) /\
    (forall j, (j < length perm)%nat -> nth (nth j inv O) perm O = j).
Proof.
  intros Hp. pose proof (perm_bound _ _ Hp) as Hf.
  assert (Hnd : NoDup perm) by (eapply Permutation_NoDup; [apply Permutation_sym; eauto|apply seq_NoDup]).
  destruct (scatter_spec O (fun i => i) (fun i => nth i perm O) (seq 0 (length perm)) (repeat O (length perm)))
    as (out & E & L & Hs & _).
  { change (map (fun i => nth i perm 0%nat) (seq 0 (length perm))) with (gather O perm (seq 0 (length perm))).
    rewrite gather_seq; auto. }
  { apply Forall_forall; intros i Hi. apply in_seq in Hi. rewrite repeat_length.
    rewrite Forall_forall in Hf. apply Hf. apply nth_In; lia. }
  rewrite repeat_length in L.
  exists out. split; [|split; [auto|]].
  - unfold get_inverse_permutation. rewrite <- E. apply fold_left_ext.
    intros a b Hb. apply in_seq in Hb. destruct a; auto. cbn [obind].
    rewrite (nth_error_nth' perm O) by lia. reflexivity.
  - assert (H1 : forall i, (i < length perm)%nat -> nth (nth i perm O) out O = i).
    { intros i Hi. apply Hs. apply in_seq; lia. }
    split; auto. intros j Hj.
    assert (In j perm). { eapply Permutation_in; [apply Permutation_sym; eauto|]. apply in_seq; lia. }
    destruct (In_nth perm j O H) as (i & Hi & Ei). rewrite <- Ei at 1. rewrite H1 by auto. auto.
Qed.

Lemma inverse_is_perm perm inv n :
  length perm = n -> length inv = n ->
  (forall i, (i < n)%nat -> nth (nth i perm O) inv O = i) ->
  (forall j, (j < n)%nat -> nth (nth j inv O) perm O = j) ->
  Permutation perm (seq 0 n) -> Permutation inv (seq 0 n).
Proof.
  intros L1 L2 H1 H2 Hp. pose proof (perm_bound _ _ Hp) as Hf. rewrite Forall_forall in Hf.
  apply Permutation_sym. apply NoDup_Permutation_bis.
  - apply seq_NoDup.
  - rewrite seq_length; lia.
  - intros i Hi. apply in_seq in Hi. rewrite <- (H1 i) by lia. apply nth_In. rewrite L2. apply Hf. apply nth_In; lia.
Qed.

Lemma get_inverse_permutation_perm perm inv : Permutation perm (seq 0 (length perm)) ->
  get_inverse_permutation perm = Some inv -> Permutation inv (seq 0 (length perm)).
Proof.
  intros Hp E. destruct (get_inverse_permutation_spec perm Hp) as (inv' & E' & L & H1 & H2).
  rewrite E in E'; inversion E'; subst. eapply inverse_is_perm with (perm := perm); eauto.
Qed.

Lemma get_inverse_permutation_involutive perm inv : Permutation perm (seq 0 (length perm)) ->
  get_inverse_permutation perm = Some inv -> get_inverse_permutation inv = Some perm.
Proof.
  intros Hp E. destruct (get_inverse_permutation_spec perm Hp) as (inv' & E' & L & H1 & H2).
  rewrite E in E'; inversion E'; subst inv'.
  assert (Hi : Permutation inv (seq 0 (length inv))).
  { rewrite L. eapply get_inverse_permutation_perm; eauto. }
  destruct (get_inverse_permutation_spec inv Hi) as (p2 & E2 & L2 & H3 & H4).
  rewrite E2. f_equal. apply nth_ext with (d := O) (d' := O); [lia|].
  intros n Hn. rewrite L2, L in Hn.
  rewrite <- (H1 n) at 1 by lia. rewrite H3; auto.
  pose proof (perm_bound _ _ Hp) as Hf. rewrite Forall_forall in Hf. rewrite L. apply Hf, nth_In; lia.
Qed.

(** permuteCyclic *)
Lemma permuteCyclic_spec arr n : (n < length arr)%nat ->
  permuteCyclic arr n = Some (skipn (length arr - n) arr ++ firstn (length arr - n) arr).
Proof.
  intros Hn. unfold permuteCyclic. destruct (length arr <=? n)%nat eqn:E; [apply Nat.leb_le in E; lia|].
  set (rank := length arr) in *.
  set (g := fun i => if (i <? rank - n)%nat then (i + n)%nat else (i + n - rank)%nat).
  destruct (scatter_spec 0 (fun i => nth i arr 0) g (seq 0 rank) (repeat 0 rank)) as (out & Eo & L & Hs & _).
  { apply map_NoDup_in; [|apply seq_NoDup].
    intros x y Hx Hy. apply in_seq in Hx, Hy. unfold g.
    destruct (Nat.ltb_spec x (rank - n)), (Nat.ltb_spec y (rank - n)); lia. }
  { apply Forall_forall; intros i Hi. apply in_seq in Hi. rewrite repeat_length. unfold g.
    destruct (Nat.ltb_spec i (rank - n)); lia. }
  rewrite repeat_length in L.
  transitivity (Some out).
  - rewrite <- Eo. apply fold_left_ext. intros a b Hb. apply in_seq in Hb. destruct a; auto. cbn [obind].
    rewrite (nth_error_nth' arr 0) by (unfold rank in *; lia). reflexivity.
  - f_equal. apply nth_ext with (d := 0) (d' := 0).
    + rewrite app_length, skipn_length, firstn_length. fold rank. lia.
    + intros j Hj. rewrite L in Hj.
      assert (Hsl : length (skipn (rank - n) arr) = n) by (rewrite skipn_length; fold rank; lia).
      destruct (Nat.lt_ge_cases j n).
      * rewrite app_nth1 by lia.
        assert (Ej : g (rank - n + j)%nat = j). { unfold g. destruct (Nat.ltb_spec (rank - n + j) (rank - n)); lia. }
        rewrite <- Ej at 1. rewrite Hs by (apply in_seq; lia). 
        rewrite <- (firstn_skipn (rank - n) arr) at 1.
        rewrite app_nth2; rewrite firstn_length; fold rank; [|lia]. f_equal. lia.
      * rewrite app_nth2 by lia. rewrite Hsl.
        assert (Ej : g (j - n)%nat = j). { unfold g. destruct (Nat.ltb_spec (j - n) (rank - n)); lia. }
        rewrite <- Ej at 1. rewrite Hs by (apply in_seq; lia).
        rewrite <- (firstn_skipn (rank - n) arr) at 1.
        rewrite app_nth1; auto. rewrite firstn_length; fold rank; lia.
Qed.

(** rotateFlatIndex *)
Lemma osequence_map_nth {A} (d : A) (l : list A) ps : Forall (fun p => (p < length l)%nat) ps ->
  osequence (map (fun p => nth_error l p) ps) = Some (gather d l ps).
Proof.
  induction 1; simpl; auto. rewrite (nth_error_nth' l d) by auto. simpl. rewrite IHForall. reflexivity.
Qed.

Lemma gather_app {A} (d : A) l p q : gather d l (p ++ q) = gather d l p ++ gather d l q.
Proof. apply map_app. Qed.

Lemma gather_seq_sub {A} (d : A) l a n : (a + n <= length l)%nat -> gather d l (seq a n) = firstn n (skipn a l).
Proof.
  intros H. apply nth_ext with (d := d) (d' := d).
  - rewrite gather_length, seq_length, firstn_length, skipn_length. lia.
  - intros i Hi. rewrite gather_length, seq_length in Hi.
    unfold gather. rewrite (nth_indep _ d (nth O l d)) by (rewrite map_length, seq_length; lia).
    rewrite (map_nth (fun p => nth p l d)). rewrite seq_nth by lia.
    assert (E : nth (a + i) l d = nth i (skipn a l) d).
    { rewrite <- (firstn_skipn a l) at 1. rewrite app_nth2; rewrite firstn_length; [f_equal|]; lia. }
    rewrite E. rewrite <- (firstn_skipn n (skipn a l)) at 1. rewrite app_nth1; auto.
    rewrite firstn_length, skipn_length; lia.
Qed.

Lemma map_shift_seq (f : nat -> nat) a b n : (forall i, (i < n)%nat -> f (a + i)%nat = (b + i)%nat) ->
  map f (seq a n) = seq b n.
Proof.
  revert a b; induction n; intros a b H; simpl; auto. f_equal.
  - rewrite <- (Nat.add_0_r a) at 1. rewrite H by lia. lia.
  - apply IHn. intros i Hi. replace (S a + i)%nat with (a + S i)%nat by lia. rewrite H by lia. lia.
Qed.

Lemma rotateFlatIndex_unfold iflat dims i_dim : (i_dim < length dims)%nat ->
  rotateFlatIndex iflat dims i_dim =
  rotateFlatIndexPerm iflat (rot_last i_dim dims)
     (seq (length dims - 1 - i_dim) (i_dim + 1) ++ seq 0 (length dims - i_dim - 1)).
Proof.
  intros H. unfold rotateFlatIndex.
  destruct (length dims <=? i_dim)%nat eqn:E; [apply Nat.leb_le in E; lia|].
  set (rank := length dims) in *.
  assert (E1 : map (fun i => nth_error dims (i + 1 + i_dim)) (seq 0 (rank - i_dim - 1))
      = map (fun p => nth_error dims p) (seq (i_dim + 1) (rank - i_dim - 1))).
  { rewrite <- (map_shift_seq (fun i => i + 1 + i_dim)%nat 0 (i_dim + 1)) by (intros; lia). rewrite map_map; auto. }
  assert (E2 : map (fun i => nth_error dims (i + 1 + i_dim - rank)) (seq (rank - i_dim - 1) (i_dim + 1))
      = map (fun p => nth_error dims p) (seq 0 (i_dim + 1))).
  { rewrite <- (map_shift_seq (fun i => i + 1 + i_dim - rank)%nat (rank - i_dim - 1) 0) by (intros; lia). rewrite map_map; auto. }
  rewrite E1, E2, <- map_app.
  rewrite (osequence_map_nth 0).
  2:{ apply Forall_forall; intros x Hx. apply in_app_or in Hx. destruct Hx as [Hx|Hx]; apply in_seq in Hx; unfold rank in *; lia. }
  cbn [obind]. f_equal.
  - rewrite gather_app, !gather_seq_sub by (unfold rank in *; lia). unfold rot_last. f_equal.
    + rewrite Nat.add_1_r. apply firstn_all2. rewrite skipn_length. unfold rank; lia.
    + rewrite Nat.add_1_r. reflexivity.
  - f_equal; apply map_shift_seq; intros; lia.
Qed.

Lemma rot_perm n i : (i < n)%nat -> Permutation (seq (n - 1 - i) (i + 1) ++ seq 0 (n - i - 1)) (seq 0 n).
Proof.
  intros H. rewrite Permutation_app_comm. replace (n - 1 - i)%nat with (0 + (n - i - 1))%nat by lia.
  rewrite <- seq_app. replace (n - i - 1 + (i + 1))%nat with n by lia. reflexivity.
Qed.

Lemma rot_last_length {A} i (l : list A) : length (rot_last i l) = length l.
Proof. unfold rot_last. rewrite app_length, skipn_length, firstn_length. lia. Qed.

Lemma gather_rot {A} (d : A) l i : (i < length l)%nat ->
  gather d (rot_last i l) (seq (length l - 1 - i) (i + 1) ++ seq 0 (length l - i - 1)) = l.
Proof.
  intros H. rewrite gather_app. rewrite !gather_seq_sub by (rewrite rot_last_length; lia).
  unfold rot_last.
  assert (E1 : skipn (length l - 1 - i) (skipn (S i) l ++ firstn (S i) l) = firstn (S i) l).
  { rewrite skipn_app. rewrite skipn_all2 by (rewrite skipn_length; lia).
    rewrite skipn_length. replace (length l - 1 - i - (length l - S i))%nat with O by lia. reflexivity. }
  assert (E2 : firstn (length l - i - 1) (skipn (S i) l ++ firstn (S i) l) = skipn (S i) l).
  { rewrite firstn_app, skipn_length.
    replace (length l - i - 1 - (length l - S i))%nat with O by lia.
    rewrite firstn_all2 by (rewrite skipn_length; lia). rewrite firstn_O. apply app_nil_r. }
  rewrite E1. rewrite skipn_O. rewrite E2.
  rewrite (firstn_all2 (firstn (S i) l)) by (rewrite firstn_length; lia).
  apply firstn_skipn.
Qed.

Lemma Forall2_length {A B} (P : A -> B -> Prop) l m : Forall2 P l m -> length l = length m.
Proof. induction 1; simpl; auto. Qed.
Lemma Forall2_skipn {A B} (P : A -> B -> Prop) n l m : Forall2 P l m -> Forall2 P (skipn n l) (skipn n m).
Proof. intros H; revert n; induction H; intros [|n]; simpl; auto. Qed.
Lemma Forall2_firstn {A B} (P : A -> B -> Prop) n l m : Forall2 P l m -> Forall2 P (firstn n l) (firstn n m).
Proof. intros H; revert n; induction H; intros [|n]; simpl; auto. Qed.

Lemma rot_in_range i is ds : in_range is ds -> in_range (rot_last i is) (rot_last i ds).
Proof. intros H. apply Forall2_app; [apply Forall2_skipn|apply Forall2_firstn]; auto. Qed.

Lemma prodZ_rot i ds : prodZ (rot_last i ds) = prodZ ds.
Proof.
  unfold rot_last. rewrite prodZ_app, Z.mul_comm, <- prodZ_app, firstn_skipn. auto.
Qed.

Lemma rotateFlatIndex_spec is ds i : (i < length ds)%nat -> in_range is ds -> prodZ ds < w64 ->
  rotateFlatIndex (row_major (rot_last i is) (rot_last i ds)) ds i = Some (row_major is ds).
Proof.
  intros Hl Hi Hb. rewrite rotateFlatIndex_unfold by auto. unfold rotateFlatIndexPerm.
  pose proof (in_range_length _ _ Hi) as HL.
  assert (Hne : rot_last i ds <> []). { intro E. apply (f_equal (@length Z)) in E. rewrite rot_last_length in E. simpl in E; lia. }
  rewrite getMultIndex_row_major; auto; [|apply rot_in_range; auto|rewrite prodZ_rot; auto].
  cbn [obind]. rewrite getFlatIndexPerm_spec; auto.
  - rewrite gather_rot by lia. rewrite <- HL. rewrite gather_rot by lia. auto.
  - apply rot_in_range; auto.
  - rewrite rot_last_length. apply rot_perm; auto.
  - rewrite prodZ_rot; auto.
Qed.

Lemma rot_surj {A} i (l : list A) : (i < length l)%nat -> exists m, length m = length l /\ rot_last i m = l.
Proof.
  intros H. exists (skipn (length l - S i) l ++ firstn (length l - S i) l).
  split; [rewrite app_length, skipn_length, firstn_length; lia|].
  unfold rot_last. rewrite skipn_app, firstn_app, !skipn_length.
  replace (S i - (length l - (length l - S i)))%nat with O by lia.
  rewrite skipn_all2 by (rewrite skipn_length; lia).
  rewrite (firstn_all2 (n:=S i) (skipn _ l)) by (rewrite skipn_length; lia).
  change (firstn 0 (firstn (length l - S i) l)) with (@nil A).
  change (skipn 0 (firstn (length l - S i) l)) with (firstn (length l - S i) l).
  cbn [app]. rewrite app_nil_r. apply firstn_skipn.
Qed.

Lemma rot_last_back {A B} (P : A -> B -> Prop) i l m : (i < length l)%nat -> length l = length m ->
  Forall2 P (rot_last i l) (rot_last i m) -> Forall2 P l m.
Proof.
  intros H1 HL H. unfold rot_last in H.
  apply Forall2_app_inv_l in H. destruct H as (a & b & Ha & Hb & E).
  assert (length a = length (skipn (S i) m)).
  { rewrite <- (Forall2_length _ _ _ Ha), !skipn_length. lia. }
  assert (a = skipn (S i) m /\ b = firstn (S i) m).
  { clear - E H. revert E H. generalize (skipn (S i) m) (firstn (S i) m). intros u v. revert a.
    induction u; intros [|x a']; simpl; intros; try lia; auto. inversion E; subst.
    destruct (IHu a') as [-> ->]; auto. }
  destruct H0 as [-> ->]. rewrite <- (firstn_skipn (S i) l), <- (firstn_skipn (S i) m).
  apply Forall2_app; auto.
Qed.

Lemma rotateFlatIndex_bijection ds i : (i < length ds)%nat -> pos_dims ds -> prodZ ds < w64 ->
  (forall k, 0 <= k < prodZ ds -> exists m, rotateFlatIndex k ds i = Some m /\ 0 <= m < prodZ ds) /\
  (forall k k' m, 0 <= k < prodZ ds -> 0 <= k' < prodZ ds ->
      rotateFlatIndex k ds i = Some m -> rotateFlatIndex k' ds i = Some m -> k = k') /\
  (forall m, 0 <= m < prodZ ds -> exists k, 0 <= k < prodZ ds /\ rotateFlatIndex k ds i = Some m).
Proof.
  intros Hl Hp Hb.
  assert (Hne : ds <> []) by (intro; subst; simpl in *; lia).
  assert (Hner : rot_last i ds <> []). { intro E. apply (f_equal (@length Z)) in E. rewrite rot_last_length in E. simpl in E; lia. }
  assert (Hpr : pos_dims (rot_last i ds)).
  { unfold pos_dims, rot_last in *. apply Forall_app; split.
    - rewrite <- (firstn_skipn (S i) ds) in Hp. apply Forall_app in Hp; tauto.
    - rewrite <- (firstn_skipn (S i) ds) in Hp. apply Forall_app in Hp; tauto. }
  assert (Hdec : forall k, 0 <= k < prodZ ds -> exists t, in_range t ds /\ k = row_major (rot_last i t) (rot_last i ds)).
  { intros k Hk. destruct (getMultIndex_spec (rot_last i ds) k) as (r & _ & Hr & Hf); auto; try (rewrite prodZ_rot; auto).
    pose proof (in_range_length _ _ Hr) as HL. rewrite rot_last_length in HL.
    destruct (rot_surj i r) as (t & Lt & Et); [lia|]. exists t. subst r. split; auto.
    rewrite rot_last_length in HL. eapply rot_last_back; eauto; try lia. }
  split; [|split].
  - intros k Hk. destruct (Hdec k Hk) as (t & Ht & ->). exists (row_major t ds).
    rewrite rotateFlatIndex_spec; auto. split; auto. apply row_major_range; auto.
  - intros k k' m Hk Hk' E E'. destruct (Hdec k Hk) as (t & Ht & ->). destruct (Hdec k' Hk') as (t' & Ht' & ->).
    rewrite rotateFlatIndex_spec in E, E'; auto. inversion E; inversion E'; subst.
    assert (t = t') by (eapply row_major_inj; eauto; congruence). congruence.
  - intros m Hm. destruct (getMultIndex_spec ds m) as (t & _ & Ht & Hf); auto.
    exists (row_major (rot_last i t) (rot_last i ds)). split.
    + rewrite <- (prodZ_rot i ds). apply row_major_range. apply rot_in_range; auto.
    + rewrite rotateFlatIndex_spec; auto. congruence.
Qed.

(** getMultIndexSkippingOneDimension: enumerates the tuples whose idim-th entry is 0 *)
Lemma skip_spec idim ds k : (idim < length ds)%nat -> pos_dims ds -> prodZ ds < w64 ->
  0 <= k < prodZ (firstn idim ds ++ skipn (S idim) ds) ->
  exists a b, getMultIndexSkippingOneDimension idim k ds = Some (a ++ 0 :: b) /\
    length a = idim /\ in_range (a ++ b) (firstn idim ds ++ skipn (S idim) ds) /\
    row_major (a ++ b) (firstn idim ds ++ skipn (S idim) ds) = k.
Proof.
  intros Hl Hp Hb Hk. unfold getMultIndexSkippingOneDimension.
  destruct (length ds <=? idim)%nat eqn:E; [apply Nat.leb_le in E; lia|].
  destruct ds as [|d ds]; [simpl in Hl; lia|]. inversion Hp as [|? ? Hd Hp']; subst.
  destruct idim as [|j].
  - cbn [firstn skipn app] in *. cbn [prodZ] in Hb. pose proof (prodZ_pos _ Hp').
    rewrite fold_umul by (auto; nia). rewrite Z.mul_1_l.
    destruct (getMultIndex_loop_spec ds k) as (r & E3 & Hr & Hf); auto; [nia|].
    rewrite E3. cbn [obind]. exists [], r. auto.
  - cbn [firstn skipn app] in *. cbn [prodZ] in Hk, Hb.
    change (match ds with [] => [] | _ :: l => skipn j l end) with (skipn (S j) ds) in *.
    set (rest := firstn j ds ++ skipn (S j) ds) in *.
    assert (Hpr : pos_dims rest).
    { unfold pos_dims, rest in *. apply Forall_app; split.
      - rewrite <- (firstn_skipn j ds) in Hp'. apply Forall_app in Hp'; tauto.
      - rewrite <- (firstn_skipn (S j) ds) in Hp'. apply Forall_app in Hp'; tauto. }
    pose proof (prodZ_pos _ Hpr) as HP.
    assert (Hle : prodZ rest <= prodZ ds).
    { unfold rest. rewrite prodZ_app. simpl in Hl.
      destruct (nth_split ds 0 (n := j)) as (l1 & l2 & Es & Ls); [lia|].
      assert (F1 : firstn j ds = l1). { rewrite Es. rewrite firstn_app, Ls, Nat.sub_diag. simpl. rewrite app_nil_r. apply firstn_all2; lia. }
      assert (F2 : skipn (S j) ds = l2). { rewrite Es. rewrite skipn_app. rewrite skipn_all2 by lia. replace (S j - length l1)%nat with 1%nat by lia. reflexivity. }
      rewrite F1, F2. rewrite Es at 1. rewrite prodZ_app. cbn [prodZ].
      assert (Hp1 : pos_dims (l1 ++ nth j ds 0 :: l2)) by (rewrite <- Es; auto).
      apply Forall_app in Hp1. destruct Hp1 as [P1 P2]. inversion P2; subst.
      pose proof (prodZ_pos _ P1). pose proof (prodZ_pos _ H2). nia. }
    rewrite fold_umul by (auto; nia). rewrite Z.mul_1_l.
    unfold udiv. destruct (prodZ rest =? 0) eqn:E2; [apply Z.eqb_eq in E2; lia|]. cbn [obind].
    set (q := k / prodZ rest).
    assert (Hq : 0 <= q < d). { unfold q; split; [apply Z.div_pos; lia|]. apply Z.div_lt_upper_bound; nia. }
    pose proof (Z.div_mod k (prodZ rest) ltac:(lia)) as Hdm. fold q in Hdm.
    pose proof (Z.mod_pos_bound k (prodZ rest) HP) as Hm.
    rewrite umul_small by nia. rewrite usub_small by nia.
    replace (k - q * prodZ rest) with (k mod prodZ rest) by lia.
    destruct (getMultIndex_loop_spec rest (k mod prodZ rest)) as (r & E3 & Hr & Hf); auto; [nia|].
    rewrite E3. cbn [obind]. exists (q :: firstn j r), (skipn j r).
    pose proof (in_range_length _ _ Hr) as HL. simpl in Hl.
    assert (length rest = length ds - 1)%nat.
    { unfold rest. rewrite app_length, firstn_length, skipn_length. lia. }
    split; [reflexivity|]. split; [|split].
    + cbn [length]. rewrite firstn_length. lia.
    + cbn [app]. rewrite firstn_skipn. constructor; auto.
    + cbn [app row_major]. rewrite firstn_skipn. nia.
Qed.

(** ** forms used in Idx_Props.v *)
Lemma flat_then_multi is ds : (2 <= length ds)%nat -> in_range is ds -> prodZ ds < w64 ->
  exists k, getFlatIndex is ds = Some k /\ 0 <= k < prodZ ds /\ k = row_major is ds /\ getMultIndex k ds = Some is.
Proof.
  intros Hl Hi Hb. exists (row_major is ds). split; [apply getFlatIndex_row_major; auto|].
  split; [apply row_major_range; auto|]. split; auto. apply getMultIndex_row_major; auto.
  destruct ds; simpl in *; [lia|congruence].
Qed.

Lemma multi_then_flat k ds : (2 <= length ds)%nat -> pos_dims ds -> prodZ ds < w64 -> 0 <= k < prodZ ds ->
  exists is, getMultIndex k ds = Some is /\ in_range is ds /\ getFlatIndex is ds = Some k.
Proof.
  intros Hl Hp Hb Hk. destruct (getMultIndex_spec ds k) as (r & E & R & F); auto.
  { destruct ds; simpl in *; [lia|congruence]. }
  exists r. split; auto. split; auto. rewrite getFlatIndex_row_major; auto. congruence.
Qed.

Lemma rank1_flat_index_wrong d i : 0 <= i < d -> getFlatIndex [i] [d] <> Some i.
Proof. simpl. intros H E. inversion E. lia. Qed.

Lemma permuted_flat_index is ds perm :
  (2 <= length ds)%nat -> in_range is ds -> Permutation perm (seq 0 (length ds)) -> prodZ ds < w64 ->
  getFlatIndexPerm is ds perm = getFlatIndex (gather 0 is perm) (gather 0 ds perm) /\
  getFlatIndexPerm is ds perm = Some (row_major (gather 0 is perm) (gather 0 ds perm)).
Proof.
  intros Hl Hi Hp Hb.
  assert (E : getFlatIndexPerm is ds perm = Some (row_major (gather 0 is perm) (gather 0 ds perm))).
  { apply getFlatIndexPerm_spec; auto. destruct ds; simpl in *; [lia|congruence]. }
  split; auto. rewrite E. symmetry. apply getFlatIndex_row_major.
  - rewrite gather_length, (Permutation_length Hp), seq_length. auto.
  - apply gather_in_range; auto. apply perm_bound; auto.
  - rewrite (prodZ_permutation (gather 0 ds perm) ds); auto. apply gather_permutation; auto.
Qed.

Lemma inverse_permutation perm : Permutation perm (seq 0 (length perm)) ->
  exists inv, get_inverse_permutation perm = Some inv /\ length inv = length perm /\
    (forall i, (i < length perm)%nat -> nth (nth i perm O) inv O = i) /\
    (forall j, (j < length perm)%nat -> nth (nth j inv O) perm O = j) /\
    get_inverse_permutation inv = Some perm.
Proof.
  intros H. destruct (get_inverse_permutation_spec perm H) as (inv & E & L & H1 & H2).
  exists inv. split; auto. split; auto. split; auto. split; auto. eapply get_inverse_permutation_involutive; eauto.
Qed.

Lemma cyclic_permutation arr n : (n < length arr)%nat ->
  exists r, permuteCyclic arr n = Some r /\ length r = length arr /\
    forall i, (i < length arr)%nat -> nth ((i + n) mod length arr) r 0 = nth i arr 0.
Proof.
  intros H. rewrite permuteCyclic_spec by auto. eexists; split; [reflexivity|].
  split; [rewrite app_length, skipn_length, firstn_length; lia|].
  intros i Hi. set (L := length arr) in *.
  assert (Hs : nth i arr 0 = nth i (firstn (L - n) arr ++ skipn (L - n) arr) 0) by (rewrite firstn_skipn; auto).
  rewrite Hs. destruct (Nat.lt_ge_cases i (L - n)).
  - rewrite Nat.mod_small by lia.
    rewrite (app_nth1 (firstn (L - n) arr)) by (rewrite firstn_length; lia).
    rewrite app_nth2 by (rewrite skipn_length; fold L; lia). rewrite skipn_length. fold L. f_equal. lia.
  - replace ((i + n) mod L)%nat with (i + n - L)%nat.
    + rewrite app_nth1 by (rewrite skipn_length; fold L; lia).
      rewrite app_nth2 by (rewrite firstn_length; lia). rewrite firstn_length. f_equal. fold L. lia.
    + apply Nat.mod_unique with (q := 1%nat); lia.
Qed.
