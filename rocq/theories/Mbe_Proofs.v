From Coq Require Import Reals ZArith List Lia Lra Bool.
From Verif Require Import Prelude Dom_Model Dom_Spec Dom_Proofs Dom_Props Mbe_Model Mbe_Spec.
Import ListNotations.
Open Scope Z_scope.

Lemma fold_nested {A B D} (F : D -> A -> B -> D) : forall (l1 : list A) (l2 : list B) acc,
  fold_left (fun a i => fold_left (fun a j => F a i j) l2 a) l1 acc = fold_left (fun a p => F a (fst p) (snd p)) (list_prod l1 l2) acc.
Proof.
  induction l1 as [|x l1 IH]; intros l2 acc; [reflexivity|]. cbn [fold_left list_prod]. rewrite fold_left_app, <- IH. f_equal.
  generalize acc. induction l2 as [|y l2 IH2]; intros a; [reflexivity|]. cbn [fold_left map fst snd]. apply IH2.
Qed.
Lemma oupd_spec {A} : forall (l : list A) i x, (i < length l)%nat -> exists l', oupd l i x = Some l' /\ length l' = length l /\ nth_error l' i = Some x /\
  forall j, j <> i -> nth_error l' j = nth_error l j.
Proof.
  induction l as [|a l IH]; intros i x H; [cbn in H; lia|]. destruct i as [|i].
  - exists (x :: l). repeat split. intros [|j] Hj; [congruence|reflexivity].
  - cbn [length] in H. destruct (IH i x ltac:(lia)) as (l' & E & L & N1 & O). exists (a :: l'). cbn [oupd]. rewrite E. cbn [obind length nth_error]. repeat split; [lia|exact N1|].
    intros [|j] Hj; [reflexivity|]. apply O. lia.
Qed.
Lemma writes {A P} (f : P -> option A) (g : P -> A) (at_ : P -> nat) : forall (ps : list P) (l : list A),
  (forall p, In p ps -> f p = Some (g p)) -> (forall p, In p ps -> (at_ p < length l)%nat) -> NoDup (map at_ ps) ->
  exists l', fold_left (fun acc p => m <- acc ;; x <- f p ;; oupd m (at_ p) x) ps (Some l) = Some l' /\ length l' = length l /\
    (forall p, In p ps -> nth_error l' (at_ p) = Some (g p)) /\ (forall q, ~ In q (map at_ ps) -> nth_error l' q = nth_error l q).
Proof.
  induction ps as [|p ps IH]; intros l F B Nd; [exists l; repeat split; intros ? []|]. cbn [map] in Nd. apply NoDup_cons_iff in Nd. destruct Nd as [N1 N2].
  cbn [fold_left obind]. rewrite (F p (or_introl eq_refl)). cbn [obind]. destruct (oupd_spec l (at_ p) (g p) (B p (or_introl eq_refl))) as (l1 & E & L & X & O). rewrite E.
  destruct (IH l1) as (l' & E' & L' & X' & O'); [intros q Hq; apply F; right; exact Hq| |exact N2|].
  { intros q Hq. rewrite L. apply B. right. exact Hq. }
  exists l'. split; [exact E'|]. split; [lia|]. split.
  - intros q [<-|Hq]; [rewrite O' by exact N1; exact X|apply X'; exact Hq].
  - intros q Hq. cbn [map] in Hq. rewrite O' by (intros K; apply Hq; right; exact K). apply O. intros ->. apply Hq. left. reflexivity.
Qed.
Lemma in_range a b x : In x (range a b) <-> a <= x <= b.
Proof.
  unfold range. rewrite in_map_iff. split.
  - intros (k & <- & K). apply in_seq in K. lia.
  - intros H. exists (Z.to_nat (x - a)). split; [lia|]. apply in_seq. lia.
Qed.
Lemma nodup_range a b : NoDup (range a b).
Proof. unfold range. apply FinFun.Injective_map_NoDup; [intros x y; lia|apply seq_NoDup]. Qed.
Lemma nodup_map {A B} (f : A -> B) (l : list A) : NoDup l -> (forall x y, In x l -> In y l -> f x = f y -> x = y) -> NoDup (map f l).
Proof.
  induction l as [|a l IH]; intros Nd Inj; [constructor|]. apply NoDup_cons_iff in Nd. destruct Nd as [N1 N2]. cbn [map]. constructor.
  - rewrite in_map_iff. intros (y & E & Y). apply N1. rewrite (Inj a y (or_introl eq_refl) (or_intror Y) (eq_sym E)). exact Y.
  - apply IH; [exact N2|]. intros x y X Y. apply Inj; right; assumption.
Qed.
Lemma nodup_prod {A B} : forall (l1 : list A) (l2 : list B), NoDup l1 -> NoDup l2 -> NoDup (list_prod l1 l2).
Proof.
  induction l1 as [|x l1 IH]; intros l2 N1 N2; [constructor|]. apply NoDup_cons_iff in N1. destruct N1 as [X N1]. cbn [list_prod].
  assert (G : forall m, NoDup m -> (forall y, In y m -> In y l2) -> NoDup (map (fun y => (x, y)) m ++ list_prod l1 l2)); [|apply G; auto].
  induction m as [|y m IHm]; intros Nm Sub; [apply IH; assumption|]. apply NoDup_cons_iff in Nm. destruct Nm as [Y Nm]. cbn [map app]. constructor.
  - rewrite in_app_iff, in_map_iff, in_prod_iff. intros [(z & E & Z1)|[X' _]]; [injection E as ->; contradiction|contradiction].
  - apply IHm; [exact Nm|]. intros z Z1. apply Sub. right. exact Z1.
Qed.

Section S.
  Variables (debug analytic : bool) (n2 n3 pos w : Z) (T sign : R) (ns : nat) (Pi : Z -> nat -> R) (leftS : Z -> nat -> R) (leftD : Z -> Z -> nat -> R)
    (rightS : Z -> nat -> R) (rightD : Z -> Z -> nat -> R) (contract : Z -> Z -> (nat -> R) -> (nat -> R) -> R) (quadrature : (Z -> R) -> Z -> Z -> R).
  Hypotheses (P2 : 0 < n2) (P3 : 0 < n3) (E2 : exists m, n2 = 2 * m) (E3 : exists m, n3 = 2 * m) (Ppos : 0 < pos).
  Notation sumres := (summation_result debug analytic n2 n3 pos w T sign ns Pi leftS leftD rightS rightD contract quadrature).
  Notation integ := (integrand ns Pi leftS leftD rightS rightD).

  Lemma sign_flip_values : sign_flip w = 0 \/ sign_flip w = -1.
  Proof. unfold sign_flip. pose proof (Z.abs_nonneg (Z.quot w 2)). rewrite Z.rem_opp_l by lia. pose proof (Z.rem_bound_pos (Z.abs (Z.quot w 2)) 2 ltac:(lia) ltac:(lia)). lia. Qed.
  Lemma sum_order : sum_min pos w - 1 <= sum_max pos w.
  Proof. unfold sum_min, sum_max. pose proof sign_flip_values. lia. Qed.
  Lemma integrand_sum k v vp x : integ k v vp x = sum_below (fun s => (left_of leftS leftD k v x s * Pi x s * right_of rightS rightD k x vp s)%R) ns.
  Proof. unfold integrand. apply sum_seq. Qed.

  (** value of one entry *)
  Definition weight (scalar : bool) : R := if scalar then 2%R else 1%R.
  Definition closed (scalar : bool) (k : bclass) (v vp : Z) : R :=
    let f := integ k v vp in
    (sign * T * frequency_sum f (sum_min pos w) (sum_max pos w) +
     (if analytic then sign / (2 * PI) * analytic_tail pos w leftS leftD rightS rightD contract k v vp
      else sign * T * (weight scalar / 2) * quadrature f (lower_tail pos w) (upper_tail pos w)))%R.
  Lemma scalar_closed k v vp : evaluate_scalar analytic pos w T sign ns Pi leftS leftD rightS rightD contract quadrature k v vp = Some (closed true k v vp).
  Proof.
    unfold evaluate_scalar. rewrite C99_sum by apply sum_order. cbn [obind]. f_equal. unfold closed, value_prefactor, weight, frequency_sum. pose proof PI_RGT_0. cbv zeta.
    destruct analytic; field; lra.
  Qed.
  Lemma vector_closed k i j : (let '(Nv, Mv, Np, Mp, _) := ranges debug n2 n3 k in Nv <= i <= Mv /\ Np <= j <= Mp) -> sumres k i j = Some (closed false k (i * 2 + 1) (j * 2 + 1)).
  Proof.
    unfold summation_result. destruct (ranges debug n2 n3 k) as [[[[Nv Mv] Np] Mp] q]. intros [Hi Hj]. rewrite C99_agree by (try apply sum_order; lia).
    replace (2 * (Nv + Z.of_nat (Z.to_nat (- Nv + i))) + 1) with (i * 2 + 1) by lia. replace (2 * (Np + Z.of_nat (Z.to_nat (- Np + j))) + 1) with (j * 2 + 1) by lia.
    rewrite C99_sum by apply sum_order. cbn [obind]. f_equal. unfold closed, value_prefactor, weight, frequency_sum. pose proof PI_RGT_0. cbv zeta.
    replace (sum_to (fun n => integ k (i * 2 + 1) (j * 2 + 1) (2 * n + 1)) (sum_min pos w) (Z.to_nat (sum_max pos w - sum_min pos w + 1)))
      with (sum_to (fun n => sum_below (fun s => (left_of leftS leftD k (i * 2 + 1) (2 * n + 1)%Z s * Pi (2 * n + 1)%Z s * right_of rightS rightD k (2 * n + 1) (j * 2 + 1) s)%R) ns) (sum_min pos w) (Z.to_nat (sum_max pos w - sum_min pos w + 1))).
    2:{ rewrite !sum_to_below. apply sum_below_ext. intros m _. symmetry. apply integrand_sum. }
    destruct analytic; field; lra.
  Qed.

  (** all writes *)
  Definition written (k : bclass) (iv ivp : Z) : Prop :=
    in_class k n2 n3 iv ivp /\ (debug = true \/ match k with bk1 => True | bk2 => frequency n2 iv < 0 | bk2b => frequency n2 ivp < 0 | bk3 => frequency n3 iv < 0 end).
  Definition v_of (k : bclass) (iv : Z) : Z := match k with bk2 => frequency n2 iv | bk3 => frequency n3 iv | _ => 1 end.
  Definition vp_of (k : bclass) (ivp : Z) : Z := match k with bk2b => frequency n2 ivp | bk3 => frequency n3 ivp | _ => 1 end.

  Lemma halves n : 0 < n -> (exists m, n = 2 * m) -> exists m, n = 2 * m /\ 0 < m /\ Z.quot n 2 = m /\ Z.quot (- n) 2 = - m.
  Proof.
    intros H [m E]. exists m. subst n. split; [reflexivity|]. split; [lia|]. split; [rewrite Z.mul_comm; apply Z.quot_mul; lia|].
    replace (- (2 * m)) with ((- m) * 2) by ring. apply Z.quot_mul. lia.
  Qed.

  Lemma write_all_spec k : exists l, write_all debug analytic n2 n3 pos w T sign ns Pi leftS leftD rightS rightD contract quadrature k (repeat 0%R (vector_size n2 n3 k)) = Some l /\
    length l = vector_size n2 n3 k /\
    (forall iv ivp, written k iv ivp -> nth_error l (position k n3 iv ivp) = Some (closed false k (v_of k iv) (vp_of k ivp))) /\
    (forall iv ivp, in_class k n2 n3 iv ivp -> ~ written k iv ivp -> nth_error l (position k n3 iv ivp) = Some 0%R).
  Proof.
    destruct (halves n2 P2 E2) as (m2 & D2 & M2 & Q2 & Q2'). destruct (halves n3 P3 E3) as (m3 & D3 & M3 & Q3 & Q3').
    unfold write_all. destruct (ranges debug n2 n3 k) as [[[[Nv Mv] Np] Mp] N_vp] eqn:Rg. rewrite fold_nested.
    set (at_ := fun p : Z * Z => Z.to_nat ((- Nv + fst p) * N_vp + (- Np + snd p))).
    set (ps := list_prod (range Nv Mv) (range Np Mp)).
    assert (Ps : forall p, In p ps <-> Nv <= fst p <= Mv /\ Np <= snd p <= Mp). { intros [i j]. unfold ps. rewrite in_prod_iff, !in_range. reflexivity. }
    assert (Bounds : forall p, In p ps -> 0 <= (- Nv + fst p) * N_vp + (- Np + snd p) < Z.of_nat (vector_size n2 n3 k)).
    { intros [i j] Hp. apply Ps in Hp. cbn [fst snd] in *. unfold vector_size.
      destruct k; cbn [ranges] in Rg; rewrite ?Q2, ?Q2', ?Q3, ?Q3' in Rg; injection Rg as <- <- <- <- <-; rewrite Z2Nat.id by nia; destruct debug; nia. }
    assert (Inj : forall p q, In p ps -> In q ps -> at_ p = at_ q -> p = q).
    { intros [i j] [i' j'] Hp Hq E. pose proof (Bounds _ Hp) as B1. pose proof (Bounds _ Hq) as B2. apply Ps in Hp, Hq. unfold at_ in E. cbn [fst snd] in *. apply Z2Nat.inj in E; try lia.
      destruct k; cbn [ranges] in Rg; rewrite ?Q2, ?Q2', ?Q3, ?Q3' in Rg; injection Rg as <- <- <- <- <-; try (f_equal; lia).
      assert (i = i'); [|subst; f_equal; lia]. nia. }
    destruct (writes (fun p => sumres k (fst p) (snd p)) (fun p => closed false k (fst p * 2 + 1) (snd p * 2 + 1)) at_ ps (repeat 0%R (vector_size n2 n3 k))) as (l & E & L & X & O).
    { intros p Hp. apply vector_closed. rewrite Rg. apply Ps. exact Hp. }
    { intros p Hp. rewrite repeat_length. unfold at_. pose proof (Bounds p Hp). lia. }
    { apply nodup_map; [apply nodup_prod; apply nodup_range|exact Inj]. }
    exists l. split; [exact E|]. rewrite repeat_length in L. split; [exact L|].
    assert (At : forall iv ivp, in_class k n2 n3 iv ivp -> exists p, position k n3 iv ivp = at_ p /\ (forall q, In q ps -> at_ q = at_ p -> q = p) /\
      left_of leftS leftD k (fst p * 2 + 1) = left_of leftS leftD k (match k with bk2 => frequency n2 iv | bk3 => frequency n3 iv | _ => 1 end) /\
      (fst p * 2 + 1 = match k with bk2 => frequency n2 iv | bk3 => frequency n3 iv | _ => 1 end) /\
      (snd p * 2 + 1 = match k with bk2b => frequency n2 ivp | bk3 => frequency n3 ivp | _ => 1 end) /\ (In p ps <-> Nv <= fst p <= Mv /\ Np <= snd p <= Mp)).
    { intros iv ivp Hc. exists (match k with bk2 => - m2 + iv | bk3 => - m3 + iv | _ => 0 end, match k with bk2b => - m2 + ivp | bk3 => - m3 + ivp | _ => 0 end).
      unfold position, at_, frequency. cbn [fst snd].
      assert (G : 0 <= (- Nv + match k with bk2 => - m2 + iv | bk3 => - m3 + iv | _ => 0 end) /\ 0 <= - Np + match k with bk2b => - m2 + ivp | bk3 => - m3 + ivp | _ => 0 end < N_vp).
      { destruct k; cbn [ranges in_class] in Rg, Hc; rewrite ?Q2, ?Q2', ?Q3, ?Q3' in Rg; injection Rg as <- <- <- <- <-; lia. }
      split; [|split; [|split; [|split; [|split]]]].
      - destruct k; cbn [ranges in_class] in Rg, Hc; rewrite ?Q2, ?Q2', ?Q3, ?Q3' in Rg; injection Rg as <- <- <- <- <-; f_equal; lia.
      - intros [i j] Hp Eq. pose proof (Bounds _ Hp) as B1. apply Ps in Hp. cbn [fst snd] in *.
        set (x := - Nv + match k with bk2 => - m2 + iv | bk3 => - m3 + iv | _ => 0 end) in *. set (y := - Np + match k with bk2b => - m2 + ivp | bk3 => - m3 + ivp | _ => 0 end) in *.
        assert (Eq' : (- Nv + i) * N_vp + (- Np + j) = x * N_vp + y) by (apply Z2Nat.inj in Eq; nia).
        assert (Hj : 0 <= - Np + j < N_vp). { clear - Hp Rg Q2 Q2' Q3 Q3' M2 M3 D2 D3. destruct k; cbn [ranges] in Rg; rewrite ?Q2, ?Q2', ?Q3, ?Q3' in Rg; injection Rg as <- <- <- <- <-; destruct debug; lia. }
        assert (- Nv + i = x) by (clear - Eq' Hj G; nia). assert (- Np + j = y) by nia. unfold x, y in *. f_equal; lia.
      - f_equal. destruct k; lia.
      - destruct k; lia.
      - destruct k; lia.
      - rewrite Ps. reflexivity. }
    split.
    - intros iv ivp [Hc Hw]. destruct (At iv ivp Hc) as (p & -> & _ & _ & F1 & F2 & Ip). rewrite X.
      + f_equal. unfold v_of, vp_of. rewrite F1, F2. reflexivity.
      + apply Ip. unfold frequency in *. destruct k; cbn [ranges in_class] in Rg, Hc, Hw; rewrite ?Q2, ?Q2', ?Q3, ?Q3' in Rg; injection Rg as <- <- <- <- <-;
          destruct Hw as [Hw|Hw]; destruct debug; lia || congruence.
    - intros iv ivp Hc Hn. destruct (At iv ivp Hc) as (p & Ep & Uq & _ & F1 & F2 & Ip). rewrite Ep, O.
      + rewrite nth_error_repeat; [reflexivity|]. rewrite <- Ep. unfold vector_size, position. destruct k; cbn [in_class] in Hc; nia.
      + rewrite in_map_iff. intros (q & Eq & Hq). pose proof (Uq q Hq Eq) as ->. apply Hn. split; [exact Hc|]. apply Ip in Hq. clear - Hq F1 F2 Rg Q2 Q2' Q3 Q3' D2 D3.
        unfold frequency in *. destruct k; cbn [ranges] in Rg; rewrite ?Q2, ?Q2', ?Q3, ?Q3' in Rg; injection Rg as <- <- <- <- <-; destruct debug; (left; reflexivity) || (right; try exact I; lia).
  Qed.
End S.
