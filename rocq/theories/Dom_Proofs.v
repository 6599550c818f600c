From Coq Require Import Reals Lra Permutation Sorted.
From Verif Require Import Prelude Dom_Model Dom_Spec.
Open Scope R_scope.

(** ** sorting *)
Lemma last_cons (l : list R) : forall y x, last (y :: l) x = last l y.
Proof. induction l as [|u l IHl]; intros y x; [reflexivity|]. change (last (y :: u :: l) x) with (last (u :: l) x). rewrite !IHl. reflexivity. Qed.
Lemma insert_perm x l : Permutation (insert x l) (x :: l).
Proof. induction l as [|y r IH]; [reflexivity|]. cbn. destruct (Rle_dec x y); [reflexivity|]. rewrite IH. apply perm_swap. Qed.
Lemma sort_perm l : Permutation (sort l) l.
Proof. induction l as [|x l IH]; [reflexivity|]. cbn. rewrite insert_perm, IH. reflexivity. Qed.
Fixpoint sorted_from (x : R) (l : list R) : Prop := match l with [] => True | y :: r => x <= y /\ sorted_from y r end.
Definition sorted (l : list R) : Prop := match l with [] => True | x :: r => sorted_from x r end.
Lemma insert_from x : forall l a, a <= x -> sorted_from a l -> sorted_from a (insert x l).
Proof.
  induction l as [|y r IH]; intros a A S; [cbn; auto|]. destruct S as (S1 & S2). cbn. destruct (Rle_dec x y) as [L|L]; cbn; [auto|].
  split; [exact S1|]. apply IH; [lra|exact S2].
Qed.
Lemma sort_sorted l : sorted (sort l).
Proof.
  induction l as [|x l IH]; [exact I|]. change (sort (x :: l)) with (insert x (sort l)). destruct (sort l) as [|y r]; [exact I|]. cbn in *. destruct (Rle_dec x y) as [L|L]; [cbn; auto|].
  cbn. apply insert_from; [lra|exact IH].
Qed.
Lemma sorted_min : forall l x y, sorted_from x l -> In y l -> x <= y.
Proof. induction l as [|z l IH]; intros x y S H; [destruct H|]. destruct S as (S1 & S2). destruct H as [->|H]; [exact S1|]. specialize (IH z y S2 H). lra. Qed.
Lemma sorted_last : forall l x y, sorted_from x l -> In y (x :: l) -> y <= last l x.
Proof.
  induction l as [|z l IH]; intros x y S H; [destruct H as [->|[]]; cbn; lra|]. destruct S as (S1 & S2).
  rewrite last_cons. destruct H as [<-|H]; [|apply IH; assumption]. pose proof (IH z z S2 (or_introl eq_refl)). lra.
Qed.
Lemma sort_min l x r : sort l = x :: r -> is_min x l.
Proof.
  intros E. pose proof (sort_sorted l) as S. rewrite E in S. split.
  - apply (Permutation_in _ (sort_perm l)). rewrite E. left. reflexivity.
  - intros y H. apply (Permutation_in _ (Permutation_sym (sort_perm l))) in H. rewrite E in H. destruct H as [->|H]; [lra|]. apply (sorted_min r x y S H).
Qed.
Lemma sort_max l x r : sort l = x :: r -> is_max (last r x) l.
Proof.
  intros E. pose proof (sort_sorted l) as S. rewrite E in S. split.
  - apply (Permutation_in _ (sort_perm l)). rewrite E. clear. revert x. induction r as [|y r IH]; intros x; [left; reflexivity|].
    rewrite last_cons. right. apply IH.
  - intros y H. apply (Permutation_in _ (Permutation_sym (sort_perm l))) in H. rewrite E in H. apply sorted_last; assumption.
Qed.
Lemma min_unique l x y : is_min x l -> is_min y l -> x = y.
Proof. intros (A & B) (C & D). apply Rle_antisym; [apply B; exact C|apply D; exact A]. Qed.
Lemma max_unique l x y : is_max x l -> is_max y l -> x = y.
Proof. intros (A & B) (C & D). apply Rle_antisym; [apply D; exact A|apply B; exact C]. Qed.

(** ** splitting at features *)
Lemma exact_le F I a b : exact_on F I -> a <= b -> I a b = F b - F a.
Proof. intros E H. rewrite E. destruct (Rlt_dec a b); [reflexivity|]. assert (a = b) by lra. subst. ring. Qed.
Lemma features_hull F peaks tails lower upper Fm Fp a b w1 w2 D : exact_on F peaks -> exact_on F tails -> exact_tails F Fm Fp lower upper ->
  exists mn mx, is_min mn [a; w1 - D; w1 + D; w2 - D; w2 + D; b] /\ is_max mx [a; w1 - D; w1 + D; w2 - D; w2 + D; b] /\
    integrator_features peaks tails lower upper a b w1 w2 D false = Some (F mx - F mn) /\
    integrator_features peaks tails lower upper a b w1 w2 D true = Some (Fp - Fm).
Proof.
  intros E1 E2 (E3 & E4). unfold integrator_features. set (pts := [a; w1 - D; w1 + D; w2 - D; w2 + D; b]).
  pose proof (Permutation_length (sort_perm pts)) as L. pose proof (sort_sorted pts) as S. pose proof (sort_min pts) as Mn. pose proof (sort_max pts) as Mx.
  destruct (sort pts) as [|i0 [|i1 [|i2 [|i3 [|i4 [|i5 [|]]]]]]]; try discriminate. cbn [sorted sorted_from] in S. destruct S as (S1 & S2 & S3 & S4 & S5 & _).
  specialize (Mn i0 _ eq_refl). specialize (Mx i0 _ eq_refl). cbn [last] in Mx. exists i0, i5. split; [exact Mn|]. split; [exact Mx|].
  rewrite !(exact_le F peaks), !(exact_le F tails), E3, E4 by assumption. split; f_equal; ring.
Qed.

(** ** intervals for the Matsubara formalism at zero temperature *)
Definition delta (w x : R) : R := if near w x then tol else 0.
Fixpoint closed (w p : R) (l : list R) : list (R * R) :=
  match l with [] => [] | q :: r => if Req_EM_T p q then closed w q r else (p + delta w p, q - delta w q) :: closed w q r end.
Definition finish (w : R) (l : list (R * R)) : option (list (R * R)) :=
  match l with [] => None | (lo, hi) :: r => Some (rev ((lo, if near w hi then hi - tol else hi) :: r)) end.
Lemma delta_minus w x : (if near w x then x - tol else x) = x - delta w x. Proof. unfold delta. destruct (near w x); ring. Qed.
Lemma delta_plus w x : (if near w x then x + tol else x) = x + delta w x. Proof. unfold delta. destruct (near w x); ring. Qed.
Lemma intervals_acc w : forall l p lo r, finish w (intervals_from w ((lo, p) :: r) p l) = Some (rev r ++ (lo, p - delta w p) :: closed w p l).
Proof.
  induction l as [|q l IH]; intros p lo r.
  - cbn [intervals_from finish closed]. rewrite delta_minus. reflexivity.
  - cbn [intervals_from closed]. unfold add_interval. destruct (Req_EM_T p q) as [<-|N]; [apply IH|].
    pose proof (delta_minus w p) as M. pose proof (delta_plus w p) as P. destruct (near w p).
    + rewrite IH. cbn [rev]. rewrite <- app_assoc. cbn [app]. rewrite M, P. reflexivity.
    + rewrite IH. cbn [rev]. rewrite <- app_assoc. cbn [app]. rewrite <- M, <- P. reflexivity.
Qed.
Lemma intervals_closed w : forall l p, finish w (intervals_from w [] p l) = match closed w p l with [] => None | c => Some c end.
Proof.
  induction l as [|q l IH]; intros p; [reflexivity|]. cbn [intervals_from closed]. unfold add_interval. destruct (Req_EM_T p q) as [<-|N]; [apply IH|].
  pose proof (delta_plus w p) as P. destruct (near w p); rewrite intervals_acc; cbn [rev app]; rewrite <- P; reflexivity.
Qed.
Lemma T0_closed vmin vmax w_half freqs : let wp := split_points vmin vmax w_half freqs in exists p l, sort (snd wp) = p :: l /\
  intervals_T0 vmin vmax w_half freqs = match closed (fst wp) p l with [] => None | c => Some c end.
Proof.
  cbv zeta. unfold intervals_T0. set (wp := split_points vmin vmax w_half freqs).
  destruct (sort (snd wp)) as [|p l] eqn:E.
  - exfalso. pose proof (Permutation_length (sort_perm (snd wp))) as L. rewrite E in L. unfold wp, split_points in L. cbn [snd] in L. rewrite app_length in L.
    destruct (Rlt_dec w_half tol); cbn in L; lia.
  - exists p, l. split; [reflexivity|]. rewrite <- intervals_closed. reflexivity.
Qed.
Lemma tol_pos : 0 < tol. Proof. unfold tol. apply Rinv_0_lt_compat. apply pow_lt. lra. Qed.
Lemma delta_range w x : 0 <= delta w x <= tol. Proof. unfold delta. pose proof tol_pos. destruct (near w x); lra. Qed.

(** every interval lies between two neighbouring points *)
Lemma closed_in w : forall l p lo hi, sorted_from p l -> In (lo, hi) (closed w p l) -> exists x y, In x (p :: l) /\ In y (p :: l) /\ x < y /\ lo = x + delta w x /\ hi = y - delta w y /\
  forall z, In z (p :: l) -> z <= x \/ y <= z.
Proof.
  induction l as [|q l IH]; intros p lo hi S H; [destruct H|]. destruct S as (S1 & S2). cbn [closed] in H. destruct (Req_EM_T p q) as [E|N].
  - destruct (IH q lo hi S2 H) as (x & y & X & Y & A & B & C & D). exists x, y. split; [right; exact X|]. split; [right; exact Y|]. repeat split; try assumption.
    intros z [<-|Z]; [rewrite E; apply D; left; reflexivity|apply D; exact Z].
  - destruct H as [H|H].
    + injection H as <- <-. exists p, q. split; [left; reflexivity|]. split; [right; left; reflexivity|]. split; [lra|]. split; [reflexivity|]. split; [reflexivity|].
      intros z [<-|[<-|Z]]; [left; lra|right; lra|right; apply (sorted_min l q z S2 Z)].
    + destruct (IH q lo hi S2 H) as (x & y & X & Y & A & B & C & D). exists x, y. split; [right; exact X|]. split; [right; exact Y|]. repeat split; try assumption.
      intros z [<-|Z]; [|apply D; exact Z]. left. destruct X as [<-|X]; [lra|]. pose proof (sorted_min l q x S2 X). lra.
Qed.
Lemma closed_ordered w : forall l p x, sorted_from p l -> x <= p -> ordered_from x (closed w p l).
Proof.
  induction l as [|q l IH]; intros p x S H; [exact I|]. destruct S as (S1 & S2). cbn [closed]. destruct (Req_EM_T p q) as [E|N]; [apply IH; [exact S2|lra]|].
  cbn [ordered_from]. pose proof (delta_range w p). pose proof (delta_range w q). split; [intros _; lra|]. apply IH; [exact S2|]. destruct (Rlt_dec _ _); lra.
Qed.
Lemma closed_covers w : forall l p x, sorted_from p l -> p < last l p -> p <= x <= last l p -> (forall y, In y (p :: l) -> near w y = true -> tol < Rabs (x - y)) ->
  exists lo hi, In (lo, hi) (closed w p l) /\ lo <= x <= hi.
Proof.
  induction l as [|q l IH]; intros p x S P X G; [cbn in P; lra|]. destruct S as (S1 & S2). rewrite last_cons in *. cbn [closed]. destruct (Req_EM_T p q) as [E|N].
  - rewrite E in *. apply IH; [exact S2|exact P|exact X|]. intros y Y. apply G. right. exact Y.
  - destruct (Rle_dec x q) as [L|L].
    + exists (p + delta w p), (q - delta w q). split; [left; reflexivity|]. pose proof (G p (or_introl eq_refl)) as Gp. pose proof (G q (or_intror (or_introl eq_refl))) as Gq.
      unfold delta. split.
      * destruct (near w p); [|lra]. specialize (Gp eq_refl). rewrite Rabs_right in Gp by lra. lra.
      * destruct (near w q); [|lra]. specialize (Gq eq_refl). rewrite Rabs_left1 in Gq by lra. lra.
    + destruct (IH q x S2) as (lo & hi & H & B); [lra|lra|intros y Y; apply G; right; exact Y|]. exists lo, hi. split; [right; exact H|exact B].
Qed.
Lemma closed_empty w : forall l p, sorted_from p l -> closed w p l = [] -> last l p = p.
Proof.
  induction l as [|q l IH]; intros p S H; [reflexivity|]. destruct S as (S1 & S2). rewrite last_cons. cbn [closed] in H. destruct (Req_EM_T p q) as [->|]; [apply IH; assumption|discriminate].
Qed.
Lemma closed_length w : forall l p, (length (closed w p l) <= length l)%nat.
Proof. induction l as [|q l IH]; intros p; [cbn; lia|]. cbn [closed]. specialize (IH q). destruct (Req_EM_T p q); cbn [length]; lia. Qed.
(** error of the sum *)
Definition part (I : R -> R -> R) (p : R * R) : R := if Rlt_dec (fst p) (snd p) then I (fst p) (snd p) else 0.
Lemma part_error F I M w p q : exact_on F I -> lipschitz_with F M -> 0 <= M -> p < q -> Rabs (part I (p + delta w p, q - delta w q) - (F q - F p)) <= 2 * tol * M.
Proof.
  intros E Lp HM H. unfold part. cbn [fst snd]. pose proof (delta_range w p). pose proof (delta_range w q). destruct (Rlt_dec (p + delta w p) (q - delta w q)) as [G|G].
  - rewrite (exact_le F I) by (assumption || lra). pose proof (Lp (q - delta w q) q) as A. pose proof (Lp p (p + delta w p)) as B.
    replace (q - delta w q - q) with (- delta w q) in A by ring. replace (p - (p + delta w p)) with (- delta w p) in B by ring. rewrite Rabs_Ropp, (Rabs_right (delta w q)) in A by lra. rewrite Rabs_Ropp, (Rabs_right (delta w p)) in B by lra.
    replace (F (q - delta w q) - F (p + delta w p) - (F q - F p)) with ((F (q - delta w q) - F q) + (F p - F (p + delta w p))) by ring.
    eapply Rle_trans; [apply Rabs_triang|]. assert (M * delta w q <= M * tol) by (apply Rmult_le_compat_l; lra). assert (M * delta w p <= M * tol) by (apply Rmult_le_compat_l; lra). lra.
  - replace (0 - (F q - F p)) with (- (F q - F p)) by ring. rewrite Rabs_Ropp. pose proof (Lp q p) as A. rewrite (Rabs_right (q - p)) in A by lra.
    assert (M * (q - p) <= M * (2 * tol)) by (apply Rmult_le_compat_l; lra). lra.
Qed.
Lemma closed_error F I M w : exact_on F I -> lipschitz_with F M -> 0 <= M -> forall l p, sorted_from p l ->
  Rabs (fold_right Rplus 0 (map (part I) (closed w p l)) - (F (last l p) - F p)) <= 2 * tol * M * INR (length (closed w p l)).
Proof.
  intros E Lp HM. induction l as [|q l IH]; intros p S.
  - cbn [closed map fold_right length INR last]. rewrite Rmult_0_r. replace (0 - (F p - F p)) with 0 by ring. rewrite Rabs_R0. lra.
  - destruct S as (S1 & S2). rewrite last_cons. cbn [closed]. destruct (Req_EM_T p q) as [->|N]; [apply IH; exact S2|].
    cbn [map fold_right length]. rewrite S_INR. specialize (IH q S2). pose proof (part_error F I M w p q E Lp HM ltac:(lra)) as A.
    set (s := fold_right Rplus 0 (map (part I) (closed w q l))) in *.
    replace (part I (p + delta w p, q - delta w q) + s - (F (last l q) - F p)) with ((part I (p + delta w p, q - delta w q) - (F q - F p)) + (s - (F (last l q) - F q))) by ring.
    eapply Rle_trans; [apply Rabs_triang|]. lra.
Qed.
Lemma closed_ends w : forall l p c, sorted_from p l -> closed w p l = c -> c <> [] -> (exists hi r, c = (p + delta w p, hi) :: r) /\ exists lo r, rev c = (lo, last l p - delta w (last l p)) :: r.
Proof.
  induction l as [|q l IH]; intros p c S E N; [cbn in E; subst; contradiction|]. destruct S as (S1 & S2). rewrite last_cons. cbn [closed] in E.
  destruct (Req_EM_T p q) as [->|Ne]; [apply IH; assumption|]. subst c. split; [do 2 eexists; reflexivity|]. cbn [rev].
  destruct (closed w q l) as [|c0 c] eqn:C.
  - rewrite (closed_empty w l q S2 C). do 2 eexists. reflexivity.
  - destruct (IH q (c0 :: c) S2 C) as (_ & lo & r & R); [discriminate|]. rewrite R. do 2 eexists. reflexivity.
Qed.

(** ** sums over Matsubara frequencies *)
Lemma sum_fold (f : Z -> R) : forall n Nmin a k, fold_left (fun result i => result + f ((Nmin + Z.of_nat i) * 2 + 1)%Z) (seq k n) a = a + sum_to (fun i => f (i * 2 + 1)%Z) (Nmin + Z.of_nat k) n.
Proof.
  induction n as [|n IH]; intros Nmin a k; [cbn; ring|]. cbn [seq fold_left sum_to]. rewrite IH. replace (Nmin + Z.of_nat (S k))%Z with (Nmin + Z.of_nat k + 1)%Z by lia. ring.
Qed.
Lemma sum_to_app f : forall m lo n, sum_to f lo (m + n) = sum_to f lo m + sum_to f (lo + Z.of_nat m) n.
Proof.
  induction m as [|m IH]; intros lo n; [cbn; rewrite Z.add_0_r; ring|]. cbn [Nat.add sum_to]. rewrite IH. replace (lo + 1 + Z.of_nat m)%Z with (lo + Z.of_nat (S m))%Z by lia. ring.
Qed.

(** ** vectorised sums *)
Lemma seq_last n : seq 0 (S n) = seq 0 n ++ [n]. Proof. rewrite seq_S. reflexivity. Qed.
Lemma set_row_at ns m i j x : forall i' j', set_row ns m i j x i' j' = if (i' =? i)%nat && (j <=? j')%nat && (j' <? j + ns)%nat then Some (x (j' - j)%nat) else m i' j'.
Proof.
  unfold set_row. induction ns as [|n IH]; intros i' j'.
  - cbn [seq fold_left]. destruct (Nat.eqb_spec i' i), (Nat.leb_spec j j'), (Nat.ltb_spec j' (j + 0)); try lia; reflexivity.
  - rewrite seq_last, fold_left_app. cbn [fold_left]. unfold set at 1. rewrite IH.
    destruct (Nat.eqb_spec i' i); cbn [andb]; [|reflexivity]. destruct (Nat.eqb_spec j' (j + n)).
    + subst j'. destruct (Nat.leb_spec j (j + n)), (Nat.ltb_spec (j + n) (j + S n)); try lia. cbn [andb]. do 2 f_equal. lia.
    + destruct (Nat.leb_spec j j'), (Nat.ltb_spec j' (j + n)), (Nat.ltb_spec j' (j + S n)); try lia; reflexivity.
Qed.
Lemma set_col_at ns m i j x : forall i' j', set_col ns m i j x i' j' = if (j' =? j)%nat && (i <=? i')%nat && (i' <? i + ns)%nat then Some (x (i' - i)%nat) else m i' j'.
Proof.
  unfold set_col. induction ns as [|n IH]; intros i' j'.
  - cbn [seq fold_left]. destruct (Nat.eqb_spec j' j), (Nat.leb_spec i i'), (Nat.ltb_spec i' (i + 0)); try lia; reflexivity.
  - rewrite seq_last, fold_left_app. cbn [fold_left]. unfold set at 1. rewrite IH.
    destruct (Nat.eqb_spec j' j); [|rewrite andb_false_r; reflexivity]. rewrite andb_true_r. cbn [andb]. destruct (Nat.eqb_spec i' (i + n)).
    + subst i'. destruct (Nat.leb_spec i (i + n)), (Nat.ltb_spec (i + n) (i + S n)); try lia. cbn [andb]. do 2 f_equal. lia.
    + destruct (Nat.leb_spec i i'), (Nat.ltb_spec i' (i + n)), (Nat.ltb_spec i' (i + S n)); try lia; reflexivity.
Qed.
Lemma fold_map {A B C} (f : A -> B -> A) (g : C -> B) : forall l a, fold_left f (map g l) a = fold_left (fun a c => f a (g c)) l a.
Proof. induction l as [|c l IH]; intros a; [reflexivity|]. cbn. apply IH. Qed.
Lemma fold_ext {A B} (f g : A -> B -> A) : (forall a b, f a b = g a b) -> forall l a, fold_left f l a = fold_left g l a.
Proof. intros H. induction l as [|b l IH]; intros a; [reflexivity|]. cbn. rewrite H. apply IH. Qed.
Lemma offset a k : Z.to_nat (- a + (a + Z.of_nat k)) = k. Proof. lia. Qed.
Section Fill.
  Variable ns : nat.
  (** blocks next to each other *)
  Lemma block_mod k s : (s < ns)%nat -> ((k * ns + s) / ns)%nat = k /\ ((k * ns + s) mod ns)%nat = s.
  Proof.
    intros H. split.
    - rewrite Nat.div_add_l by lia. rewrite Nat.div_small by lia. lia.
    - rewrite Nat.add_comm, Nat.mod_add by lia. apply Nat.mod_small. exact H.
  Qed.
  Lemma in_block k j : (k * ns <= j < k * ns + ns)%nat -> (j / ns = k)%nat /\ (j mod ns = j - k * ns)%nat.
  Proof. intros H. destruct (block_mod k (j - k * ns)) as (A & B); [lia|]. replace (k * ns + (j - k * ns))%nat with j in A, B by lia. auto. Qed.
  Lemma row_fill m i (f : nat -> nat -> R) : forall K i' j', fold_left (fun m k => set_row ns m i (k * ns) (f k)) (seq 0 K) m i' j' =
    if (i' =? i)%nat && (j' <? K * ns)%nat then Some (f (j' / ns)%nat (j' mod ns)%nat) else m i' j'.
  Proof.
    induction K as [|K IH]; intros i' j'; [cbn [seq fold_left]; destruct (Nat.ltb_spec j' (0 * ns)); [lia|]; rewrite andb_false_r; reflexivity|].
    rewrite seq_last, fold_left_app. cbn [fold_left]. rewrite set_row_at, IH. destruct (Nat.eqb_spec i' i); [|reflexivity]. cbn [andb].
    destruct (Nat.leb_spec (K * ns) j'), (Nat.ltb_spec j' (K * ns + ns)), (Nat.ltb_spec j' (S K * ns)), (Nat.ltb_spec j' (K * ns)); cbn [andb Nat.mul] in *; try lia; try reflexivity.
    destruct (in_block K j') as (A & B); [lia|]. rewrite A, B. reflexivity.
  Qed.
  Lemma col_fill m j (f : nat -> nat -> R) : forall K i' j', fold_left (fun m k => set_col ns m (k * ns) j (f k)) (seq 0 K) m i' j' =
    if (j' =? j)%nat && (i' <? K * ns)%nat then Some (f (i' / ns)%nat (i' mod ns)%nat) else m i' j'.
  Proof.
    induction K as [|K IH]; intros i' j'; [cbn [seq fold_left]; destruct (Nat.ltb_spec i' (0 * ns)); [lia|]; rewrite andb_false_r; reflexivity|].
    rewrite seq_last, fold_left_app. cbn [fold_left]. rewrite set_col_at, IH. destruct (Nat.eqb_spec j' j); [|reflexivity]. cbn [andb].
    destruct (Nat.leb_spec (K * ns) i'), (Nat.ltb_spec i' (K * ns + ns)), (Nat.ltb_spec i' (S K * ns)), (Nat.ltb_spec i' (K * ns)); cbn [andb Nat.mul] in *; try lia; try reflexivity.
    destruct (in_block K i') as (A & B); [lia|]. rewrite A, B. reflexivity.
  Qed.
  (** several columns of one block row *)
  Lemma cols_block m k (f : nat -> nat -> R) : forall J i' j', fold_left (fun m j => set_col ns m (k * ns) j (f j)) (seq 0 J) m i' j' =
    if (j' <? J)%nat && (k * ns <=? i')%nat && (i' <? k * ns + ns)%nat then Some (f j' (i' mod ns)%nat) else m i' j'.
  Proof.
    induction J as [|J IH]; intros i' j'; [cbn [seq fold_left]; destruct (Nat.ltb_spec j' 0); [lia|]; reflexivity|].
    rewrite seq_last, fold_left_app. cbn [fold_left]. rewrite set_col_at, IH.
    destruct (Nat.leb_spec (k * ns) i'), (Nat.ltb_spec i' (k * ns + ns)); rewrite ?andb_false_r; try reflexivity. rewrite !andb_true_r.
    destruct (in_block k i') as (A & B); [lia|].
    destruct (Nat.eqb_spec j' J), (Nat.ltb_spec j' J), (Nat.ltb_spec j' (S J)); try lia; try reflexivity. subst j'. rewrite B. reflexivity.
  Qed.
End Fill.
Lemma range_fold {A} (f : A -> Z -> A) Nmin Nmax a : fold_left f (range Nmin Nmax) a = fold_left (fun a k => f a (Nmin + Z.of_nat k)%Z) (seq 0 (Z.to_nat (Nmax - Nmin + 1))) a.
Proof. unfold range. apply fold_map. Qed.
Lemma Pi_at ns Pi Nmin Nmax k : (k < Z.to_nat (Nmax - Nmin + 1) * ns)%nat -> Pi_values ns Pi Nmin Nmax k 0%nat = Some (Pi ((Nmin + Z.of_nat (k / ns)) * 2 + 1)%Z (k mod ns)%nat).
Proof.
  intros H. unfold Pi_values. rewrite range_fold.
  rewrite (fold_ext _ (fun m i => set_col ns m (i * ns) 0 (Pi ((Nmin + Z.of_nat i) * 2 + 1)%Z))) by (intros; rewrite offset; reflexivity).
  rewrite (col_fill ns unset 0 (fun i => Pi ((Nmin + Z.of_nat i) * 2 + 1)%Z)). rewrite Nat.eqb_refl. apply Nat.ltb_lt in H. rewrite H. reflexivity.
Qed.
Lemma left_at ns left Nv Mv Nmin Nmax i k : (k < Z.to_nat (Nmax - Nmin + 1) * ns)%nat -> values_left ns left Nv Mv Nmin Nmax i k =
  if (i <? Z.to_nat (Mv - Nv + 1))%nat then Some (left ((Nv + Z.of_nat i) * 2 + 1)%Z ((Nmin + Z.of_nat (k / ns)) * 2 + 1)%Z (k mod ns)%nat) else None.
Proof.
  intros H. unfold values_left. rewrite range_fold.
  assert (G : forall I, fold_left (fun m r => fold_left (fun m j => set_row ns m (Z.to_nat (- Nv + (Nv + Z.of_nat r))) (Z.to_nat (- Nmin + j) * ns) (left ((Nv + Z.of_nat r) * 2 + 1)%Z (j * 2 + 1)%Z)) (range Nmin Nmax) m) (seq 0 I) unset i k =
    if (i <? I)%nat then Some (left ((Nv + Z.of_nat i) * 2 + 1)%Z ((Nmin + Z.of_nat (k / ns)) * 2 + 1)%Z (k mod ns)%nat) else None); [|apply G].
  induction I as [|I IH]; [cbn [seq fold_left]; destruct (Nat.ltb_spec i 0); [lia|reflexivity]|].
  rewrite seq_last, fold_left_app. cbn [fold_left]. rewrite range_fold, offset.
  rewrite (fold_ext _ (fun m c => set_row ns m I (c * ns) (left ((Nv + Z.of_nat I) * 2 + 1)%Z ((Nmin + Z.of_nat c) * 2 + 1)%Z))) by (intros; rewrite offset; reflexivity).
  rewrite (row_fill ns _ I (fun c => left ((Nv + Z.of_nat I) * 2 + 1)%Z ((Nmin + Z.of_nat c) * 2 + 1)%Z)). rewrite IH. apply Nat.ltb_lt in H. rewrite H, andb_true_r.
  destruct (Nat.eqb_spec i I), (Nat.ltb_spec i I), (Nat.ltb_spec i (S I)); try lia; try reflexivity. subst. reflexivity.
Qed.
Lemma right_at ns right Nmin Nmax Np Mp k j : (k < Z.to_nat (Nmax - Nmin + 1) * ns)%nat -> values_right ns right Nmin Nmax Np Mp k j =
  if (j <? Z.to_nat (Mp - Np + 1))%nat then Some (right ((Nmin + Z.of_nat (k / ns)) * 2 + 1)%Z ((Np + Z.of_nat j) * 2 + 1)%Z (k mod ns)%nat) else None.
Proof.
  intros H. unfold values_right. rewrite range_fold.
  assert (G : forall I, fold_left (fun m r => fold_left (fun m c => set_col ns m (Z.to_nat (- Nmin + (Nmin + Z.of_nat r)) * ns) (Z.to_nat (- Np + c)) (right ((Nmin + Z.of_nat r) * 2 + 1)%Z (c * 2 + 1)%Z)) (range Np Mp) m) (seq 0 I) unset k j =
    if (k <? I * ns)%nat && (j <? Z.to_nat (Mp - Np + 1))%nat then Some (right ((Nmin + Z.of_nat (k / ns)) * 2 + 1)%Z ((Np + Z.of_nat j) * 2 + 1)%Z (k mod ns)%nat) else None);
    [|rewrite G; apply Nat.ltb_lt in H; rewrite H; reflexivity].
  induction I as [|I IH]; [cbn [seq fold_left]; destruct (Nat.ltb_spec k (0 * ns)); [lia|reflexivity]|].
  rewrite seq_last, fold_left_app. cbn [fold_left]. rewrite range_fold, offset.
  rewrite (fold_ext _ (fun m c => set_col ns m (I * ns) c (right ((Nmin + Z.of_nat I) * 2 + 1)%Z ((Np + Z.of_nat c) * 2 + 1)%Z))) by (intros; rewrite offset; reflexivity).
  rewrite (cols_block ns _ I (fun c => right ((Nmin + Z.of_nat I) * 2 + 1)%Z ((Np + Z.of_nat c) * 2 + 1)%Z)). rewrite IH.
  destruct (j <? Z.to_nat (Mp - Np + 1))%nat; [|rewrite !andb_false_r; reflexivity]. rewrite !andb_true_r. cbn [andb].
  destruct (Nat.leb_spec (I * ns) k), (Nat.ltb_spec k (I * ns + ns)), (Nat.ltb_spec k (S I * ns)), (Nat.ltb_spec k (I * ns)); cbn [andb Nat.mul] in *; try lia; try reflexivity.
  destruct (in_block ns I k) as (A & B); [lia|]. rewrite A. reflexivity.
Qed.
Lemma osequence_some {A B} (f : A -> option B) (g : A -> B) l : (forall a, In a l -> f a = Some (g a)) -> osequence (map f l) = Some (map g l).
Proof.
  induction l as [|a l IH]; intros H; [reflexivity|]. cbn. rewrite (H a (or_introl eq_refl)). rewrite IH by (intros b Hb; apply H; right; exact Hb). reflexivity.
Qed.
Lemma sum_seq (f : nat -> R) n : fold_right Rplus 0 (map f (seq 0 n)) = sum_below f n.
Proof.
  induction n as [|n IH]; [reflexivity|]. rewrite seq_last, map_app. cbn [map sum_below]. rewrite <- IH. generalize (map f (seq 0 n)) as l. clear.
  induction l as [|x l IH]; cbn in *; [ring|]. rewrite IH. ring.
Qed.
Lemma sum_below_ext (f g : nat -> R) n : (forall k, (k < n)%nat -> f k = g k) -> sum_below f n = sum_below g n.
Proof. induction n as [|n IH]; intros H; [reflexivity|]. cbn. rewrite IH by (intros; apply H; lia). rewrite H by lia. reflexivity. Qed.
Lemma sum_below_add (f : nat -> R) m n : sum_below f (m + n) = sum_below f m + sum_below (fun k => f (m + k)%nat) n.
Proof. induction n as [|n IH]; [rewrite Nat.add_0_r; cbn; ring|]. rewrite Nat.add_succ_r. cbn [sum_below]. rewrite IH. ring. Qed.
Lemma sum_blocks (f : nat -> nat -> R) ns : forall K, sum_below (fun k => f (k / ns)%nat (k mod ns)%nat) (K * ns) = sum_below (fun n => sum_below (f n) ns) K.
Proof.
  induction K as [|K IH]; [reflexivity|]. cbn [sum_below]. rewrite <- IH. replace (S K * ns)%nat with (K * ns + ns)%nat by (cbn; lia). rewrite sum_below_add. f_equal.
  apply sum_below_ext. intros s H. destruct (block_mod ns K s H) as (A & B). rewrite A, B. reflexivity.
Qed.
Lemma sum_to_below f lo n : sum_to f lo n = sum_below (fun k => f (lo + Z.of_nat k)%Z) n.
Proof.
  induction n as [|n IH]; [reflexivity|]. cbn [sum_below]. rewrite <- IH. replace (S n) with (n + 1)%nat by lia. rewrite sum_to_app. cbn. ring.
Qed.
