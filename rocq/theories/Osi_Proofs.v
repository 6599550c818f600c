(** Proofs about the Simpson and trapezoidal rules with a fixed number of points. *)
From Coq Require Import QArith Qfield Lqa Setoid Morphisms.
From Verif Require Import Prelude Cplx Osi_Model Osi_Spec.
Open Scope Z_scope.
Local Arguments inject_Z : simpl never.
Local Arguments Cscale : simpl never.

Ltac cq_ring := unfold Ceq, Cscale, Cadd, Csub, Cneg, C0; cbn [re im]; split.

Lemma cubic_respects c0 c1 c2 c3 : respects (cubic c0 c1 c2 c3).
Proof. intros x y E. unfold cubic. rewrite E. reflexivity. Qed.
Lemma antiderivative_m c0 c1 c2 c3 x y : (x == y)%Q ->
  (antiderivative c0 c1 c2 c3 x == antiderivative c0 c1 c2 c3 y)%C.
Proof. intros E. unfold antiderivative. rewrite E. reflexivity. Qed.

Section F.
Variable f : Q -> cplx.
Hypothesis fm : respects f.

Lemma panel_m l l' r r' : (l == l')%Q -> (r == r')%Q -> (panel f l r == panel f l' r')%C.
Proof.
  intros E1 E2. unfold panel.
  rewrite (fm l l' E1), (fm r r' E2), (fm ((l + r) / 2)%Q ((l' + r') / 2)%Q) by (rewrite E1, E2; reflexivity).
  rewrite E1, E2. reflexivity.
Qed.
Lemma composite_m xs : forall l l', (l == l')%Q -> (composite f l xs == composite f l' xs)%C.
Proof.
  destruct xs as [|r xs]; intros l l' E; cbn [composite]; [reflexivity|].
  rewrite (panel_m l l' r r E) by reflexivity. reflexivity.
Qed.
Lemma last_cons_ind (xs : list Q) : forall x d d', last (x :: xs) d = last (x :: xs) d'.
Proof. induction xs as [|y xs IH]; intros; [reflexivity|]. change (last (y :: xs) d = last (y :: xs) d'). apply IH. Qed.
Lemma last_cons (xs : list Q) x d : last (x :: xs) d = last xs x.
Proof. destruct xs as [|y xs]; [reflexivity|]. change (last (y :: xs) d = last (y :: xs) x). apply last_cons_ind. Qed.
Lemma composite_app xs : forall l ys,
  (composite f l (xs ++ ys) == composite f l xs + composite f (last xs l) ys)%C.
Proof.
  induction xs as [|r xs IH]; intros l ys.
  - cbn [app composite last]. ring.
  - rewrite last_cons. cbn [app composite]. rewrite IH. ring.
Qed.
Lemma last_app (xs : list Q) : forall ys l, last (xs ++ ys) l = last ys (last xs l).
Proof.
  induction xs as [|r xs IH]; intros ys l; [reflexivity|].
  cbn [app]. rewrite !last_cons. apply IH.
Qed.

(** ** sums *)
Fixpoint nsum (n : nat) (F : nat -> cplx) : cplx :=
  match n with O => C0 | S n' => (nsum n' F + F n')%C end.
Lemma nsum_ext n F G : (forall i, (i < n)%nat -> (F i == G i)%C) -> (nsum n F == nsum n G)%C.
Proof. induction n as [|n IH]; intros H; cbn [nsum]; [reflexivity|]. rewrite IH, (H n) by auto. reflexivity. Qed.

Lemma dot_loop_seq (g : nat -> cplx) (w : nat -> Q) n : forall k r,
  exists v, dot_loop r (map g (seq k n)) (map w (seq k n)) = Some v
  /\ (v == r + nsum n (fun i => Cscale (w (k + i)%nat) (g (k + i)%nat)))%C.
Proof.
  induction n as [|n IH]; intros k r.
  - exists r. split; [reflexivity|]. cbn [nsum]. ring.
  - cbn [seq map dot_loop].
    destruct (IH (S k) (r + Cscale (w k) (g k))%C) as [v [E V]].
    exists v. split; [exact E|]. rewrite V. clear.
    assert (H : forall m, (nsum (S m) (fun i => Cscale (w (k + i)%nat) (g (k + i)%nat)) ==
              Cscale (w k) (g k) + nsum m (fun i => Cscale (w (S k + i)%nat) (g (S k + i)%nat)))%C).
    { induction m as [|m IH].
      - cbn [nsum]. rewrite Nat.add_0_r. ring.
      - change (nsum (S (S m)) (fun i => Cscale (w (k + i)%nat) (g (k + i)%nat)))
          with (nsum (S m) (fun i => Cscale (w (k + i)%nat) (g (k + i)%nat)) +
                Cscale (w (k + S m)%nat) (g (k + S m)%nat))%C.
        rewrite IH. cbn [nsum]. replace (S k + m)%nat with (k + S m)%nat by lia. ring. }
    rewrite H. ring.
Qed.

(** weights of all points but the last *)
Definition iw (i : nat) : Q := if Nat.eqb i 0 then 1%Q else inject_Z (2 + 2 * (Z.of_nat i mod 2)).
Lemma iw_even k : (0 < k)%nat -> iw (2 * k) = 2%Q.
Proof.
  intros K. unfold iw. destruct (Nat.eqb_spec (2 * k) 0); [lia|].
  replace (Z.of_nat (2 * k) mod 2) with 0; [reflexivity|].
  rewrite Nat2Z.inj_mul. change (Z.of_nat 2) with 2. rewrite Z.mul_comm, Z_mod_mult. reflexivity.
Qed.
Lemma iw_odd k : iw (2 * k + 1) = 4%Q.
Proof.
  unfold iw. destruct (Nat.eqb_spec (2 * k + 1) 0); [lia|].
  replace (Z.of_nat (2 * k + 1) mod 2) with 1; [reflexivity|].
  replace (Z.of_nat (2 * k + 1)) with (1 + Z.of_nat k * 2) by lia. rewrite Z_mod_plus_full. reflexivity.
Qed.

Lemma two_per_panel (g : nat -> cplx) m :
  (nsum (2 * S m) (fun i => Cscale (iw i) (g i)) + g (2 * S m)%nat ==
   nsum (S m) (fun k => g (2 * k)%nat + Cscale 4 (g (2 * k + 1)%nat) + g (2 * k + 2)%nat))%C.
Proof.
  induction m as [|m IH].
  - cbn [Nat.mul Nat.add nsum]. change (iw 0) with 1%Q. change (iw 1) with 4%Q.
    cq_ring; ring.
  - replace (2 * S (S m))%nat with (S (S (2 * S m))) by lia.
    change (nsum (S (S (2 * S m))) (fun i => Cscale (iw i) (g i)))
      with (nsum (2 * S m) (fun i => Cscale (iw i) (g i)) + Cscale (iw (2 * S m)) (g (2 * S m)%nat)
            + Cscale (iw (S (2 * S m))) (g (S (2 * S m))))%C.
    replace (iw (S (2 * S m))) with (iw (2 * S m + 1)) by (f_equal; lia).
    rewrite iw_odd, iw_even by lia.
    change (nsum (S (S m)) (fun k => (g (2 * k)%nat + Cscale 4 (g (2 * k + 1)%nat) + g (2 * k + 2)%nat)%C))
      with (nsum (S m) (fun k => (g (2 * k)%nat + Cscale 4 (g (2 * k + 1)%nat) + g (2 * k + 2)%nat)%C)
            + (g (2 * S m)%nat + Cscale 4 (g (2 * S m + 1)%nat) + g (2 * S m + 2)%nat))%C.
    rewrite <- IH.
    replace (2 * S m + 1)%nat with (S (2 * S m)) by lia.
    replace (2 * S m + 2)%nat with (S (S (2 * S m))) by lia.
    cq_ring; ring.
Qed.

Lemma zrange_S n : 0 <= n -> zrange (n + 1) = zrange n ++ [n].
Proof.
  intros Hn. unfold zrange. replace (Z.to_nat (n + 1)) with (Z.to_nat n + 1)%nat by lia.
  rewrite seq_app, map_app. cbn [seq map Nat.add]. f_equal. f_equal. lia.
Qed.
Lemma simpson_weight_inner N i : (Z.of_nat i < N - 1) -> simpson_weight N (Z.of_nat i) = iw i.
Proof.
  intros H. unfold simpson_weight, iw.
  destruct (Z.eqb_spec (Z.of_nat i) (N - 1)); [lia|].
  destruct (Z.eqb_spec (Z.of_nat i) 0); destruct (Nat.eqb_spec i 0); try lia; reflexivity.
Qed.

Definition xk (a dx : Q) (i : nat) : Q := (a + inject_Z (Z.of_nat i) * dx)%Q.

(** the weighted sum of the points, all but the last one with the inner weights *)
Lemma simpson_sum a b N : 3 <= N ->
  exists v, integrator_simpson f Qcomp a b N = Some v
  /\ let dx := ((b - a) / inject_Z (N - 1))%Q in let n := Z.to_nat (N - 1) in
     (v == Cscale (dx / 3) (nsum n (fun i => Cscale (iw i) (f (xk a dx i))) + f (xk a dx n)))%C.
Proof.
  intros HN. unfold integrator_simpson.
  destruct (Z.ltb_spec N 3) as [L|_]; [lia|].
  set (dx := ((b - a) / inject_Z (N - 1))%Q).
  unfold dotproduct, zrange. cbn [res_start obind]. rewrite !map_map.
  destruct (dot_loop_seq (fun i => f (a + inject_Z (Z.of_nat i) * dx)%Q)
              (fun i => simpson_weight N (Z.of_nat i)) (Z.to_nat N) 0 C0) as [v [E V]].
  rewrite E. cbn [obind].
  eexists. split; [reflexivity|]. cbv zeta. rewrite V.
  set (n := Z.to_nat (N - 1)). replace (Z.to_nat N) with (S n) by (unfold n; lia).
  cbn [nsum Nat.add].
  rewrite (nsum_ext n _ (fun i => Cscale (iw i) (f (xk a dx i)))).
  2:{ intros i Hi. rewrite simpson_weight_inner by (unfold n in Hi; lia). reflexivity. }
  replace (simpson_weight N (Z.of_nat n)) with 1%Q.
  2:{ unfold simpson_weight. destruct (Z.eqb_spec (Z.of_nat n) (N - 1)); [reflexivity|unfold n in *; lia]. }
  fold (xk a dx n). unfold Ceq, Cscale, Cadd, C0; cbn [re im]; split; ring.
Qed.

(** break points of [m] intervals of equal length *)
Definition equi (a h : Q) (m : nat) : list Q :=
  map (fun k => (a + inject_Z (Z.of_nat k) * h)%Q) (seq 1 m).
Lemma equi_S a h m : equi a h (S m) = equi a h m ++ [(a + inject_Z (Z.of_nat (S m)) * h)%Q].
Proof. unfold equi. rewrite seq_S, map_app. reflexivity. Qed.
Lemma equi_last a h m : (last (equi a h m) a == a + inject_Z (Z.of_nat m) * h)%Q.
Proof.
  destruct m as [|m].
  - cbn [equi seq map last Z.of_nat]. change (inject_Z 0) with 0%Q. ring.
  - rewrite equi_S, last_app. reflexivity.
Qed.
Lemma panels_equi a dx m :
  (Cscale (dx / 3) (nsum m (fun k => f (xk a dx (2 * k)) + Cscale 4 (f (xk a dx (2 * k + 1))) + f (xk a dx (2 * k + 2))))
   == composite f a (equi a (2 * dx) m))%C.
Proof.
  induction m as [|m IH].
  - unfold equi. cbn [nsum seq map composite]. cq_ring; ring.
  - rewrite equi_S, composite_app. cbn [nsum composite]. rewrite <- IH.
    rewrite (panel_m _ (xk a dx (2 * m)) _ (xk a dx (2 * m + 2))).
    2:{ rewrite equi_last. unfold xk. replace (Z.of_nat (2 * m)) with (2 * Z.of_nat m) by lia.
        rewrite inject_Z_mult. change (inject_Z 2) with 2%Q. ring. }
    2:{ unfold xk. replace (Z.of_nat (2 * m + 2)) with (Z.of_nat (S m) * 2) by lia.
        rewrite inject_Z_mult. change (inject_Z 2) with 2%Q. ring. }
    unfold panel.
    rewrite (fm ((xk a dx (2 * m) + xk a dx (2 * m + 2)) / 2)%Q (xk a dx (2 * m + 1))).
    2:{ unfold xk. replace (Z.of_nat (2 * m + 2)) with (Z.of_nat (2 * m) + 2) by lia.
        replace (Z.of_nat (2 * m + 1)) with (Z.of_nat (2 * m) + 1) by lia.
        rewrite !inject_Z_plus. change (inject_Z 2) with 2%Q. change (inject_Z 1) with 1%Q. field. }
    assert (W : ((xk a dx (2 * m + 2) - xk a dx (2 * m)) / 6 == dx / 3)%Q).
    { unfold xk. replace (Z.of_nat (2 * m + 2)) with (Z.of_nat (2 * m) + 2) by lia.
      rewrite inject_Z_plus. change (inject_Z 2) with 2%Q. field. }
    rewrite W. cq_ring; ring.
Qed.

Lemma inject_pos z : 0 < z -> ~ (inject_Z z == 0)%Q.
Proof. intros Hz E. unfold Qeq, inject_Z in E. cbn in E. lia. Qed.

Lemma simpson_composite a b N : 3 <= N -> N mod 2 = 1 ->
  exists v, integrator_simpson f Qcomp a b N = Some v
  /\ (v == composite f a (equi a ((b - a) / inject_Z ((N - 1) / 2)) (Z.to_nat ((N - 1) / 2))))%C.
Proof.
  intros HN HO. destruct (simpson_sum a b N HN) as [v [E V]]. exists v. split; [exact E|].
  cbv zeta in V. rewrite V. clear V E.
  set (m := (N - 1) / 2).
  assert (EN : N - 1 = 2 * m) by (unfold m; pose proof (Z_div_mod_eq_full (N - 1) 2);
    assert ((N - 1) mod 2 = 0) by (rewrite Zminus_mod, HO; reflexivity); lia).
  assert (Hm : 1 <= m) by lia.
  rewrite EN. destruct (Z.to_nat m) as [|j] eqn:Ej; [lia|].
  replace (Z.to_nat (2 * m)) with (2 * S j)%nat by lia.
  set (dx := ((b - a) / inject_Z (2 * m))%Q).
  rewrite (two_per_panel (fun i => f (xk a dx i)) j).
  rewrite panels_equi.
  assert (H : (2 * dx == (b - a) / inject_Z m)%Q).
  { unfold dx. rewrite inject_Z_mult. change (inject_Z 2) with 2%Q. field. apply inject_pos. lia. }
  clear - H fm. generalize (S j). intros n.
  assert (G : forall k, (composite f a (equi a (2 * dx) k) == composite f a (equi a ((b - a) / inject_Z m) k))%C).
  { induction k as [|k IH]; [reflexivity|]. rewrite !equi_S, !composite_app, IH. cbn [composite].
    rewrite (panel_m _ (last (equi a ((b - a) / inject_Z m) k) a) _ (a + inject_Z (Z.of_nat (S k)) * ((b - a) / inject_Z m))%Q).
    - reflexivity.
    - rewrite !equi_last, H. reflexivity.
    - rewrite H. reflexivity. }
  apply G.
Qed.

Lemma simpson_small t a b N : N < 3 -> integrator_simpson f t a b N = integrator_simpson f t a b 3.
Proof. intros HN. unfold integrator_simpson. destruct (Z.ltb_spec N 3); [reflexivity|lia]. Qed.

(** every odd or small number of points: Simpson's rule on some chain from a to b *)
Lemma simpson_chain a b N : N < 3 \/ N mod 2 = 1 ->
  exists v xs, integrator_simpson f Qcomp a b N = Some v /\ (last xs a == b)%Q /\ (v == composite f a xs)%C.
Proof.
  intros HN.
  assert (R : forall N, 3 <= N -> N mod 2 = 1 ->
    exists v xs, integrator_simpson f Qcomp a b N = Some v /\ (last xs a == b)%Q /\ (v == composite f a xs)%C).
  { clear N HN. intros N H3 HO. destruct (simpson_composite a b N H3 HO) as [v [E V]].
    eexists v, _. split; [exact E|]. split; [|exact V].
    rewrite equi_last. rewrite Z2Nat.id by (apply Z.div_pos; lia). field. apply inject_pos.
    apply Z.div_str_pos. lia. }
  destruct (Z.lt_ge_cases N 3) as [L|L].
  - rewrite simpson_small by exact L. apply R; [lia|reflexivity].
  - destruct HN as [HN|HN]; [lia|]. apply R; [lia|exact HN].
Qed.
Lemma make_odd_odd n : make_odd n mod 2 = 1.
Proof.
  unfold make_odd. destruct (Z.eqb_spec (Z.rem n 2) 0) as [E|E].
  - apply Z.rem_divide in E; [|lia]. destruct E as [k E]. subst n.
    replace (k * 2 + 1) with (1 + k * 2) by ring. rewrite Z_mod_plus_full. reflexivity.
  - pose proof (Z.mod_pos_bound n 2 ltac:(lia)).
    destruct (Z.eq_dec (n mod 2) 0) as [E0|E0]; [|lia].
    apply Z.mod_divide in E0; [|lia]. apply Z.rem_divide in E0; lia.
Qed.

Definition chained (a b : Q) (o : option cplx) : Prop :=
  forall v, o = Some v -> exists xs, (last xs a == b)%Q /\ (v == composite f a xs)%C.
Lemma chained_simpson a b N : N < 3 \/ N mod 2 = 1 -> chained a b (integrator_simpson f Qcomp a b N).
Proof.
  intros HN v E. destruct (simpson_chain a b N HN) as [v' [xs [E' [L V]]]].
  rewrite E in E'. injection E' as <-. eauto.
Qed.
Lemma join a b c v1 v2 :
  (exists xs, (last xs a == b)%Q /\ (v1 == composite f a xs)%C) ->
  (exists xs, (last xs b == c)%Q /\ (v2 == composite f b xs)%C) ->
  exists xs, (last xs a == c)%Q /\ (v1 + v2 == composite f a xs)%C.
Proof.
  intros [xs [L1 V1]] [ys [L2 V2]]. exists (xs ++ ys). split.
  - rewrite last_app. destruct ys as [|y ys].
    + cbn [last] in *. rewrite L1. exact L2.
    + rewrite (last_cons_ind ys y _ b). exact L2.
  - rewrite composite_app, V1, V2. rewrite (composite_m ys (last xs a) b L1). reflexivity.
Qed.
Lemma chained_start a b : (a == b)%Q -> exists xs : list Q, (last xs a == b)%Q /\ (C0 == composite f a xs)%C.
Proof. intros E. exists []. split; [exact E|reflexivity]. Qed.

Lemma oadd_some o1 o2 v : oadd o1 o2 = Some v ->
  exists v1 v2, o1 = Some v1 /\ o2 = Some v2 /\ v = (v1 + v2)%C.
Proof. unfold oadd. destruct o1 as [v1|]; [|discriminate]. destruct o2 as [v2|]; [|discriminate].
  cbn [obind]. intros E. injection E as <-. eauto. Qed.

Ltac ext_eq E H := let xs := fresh in destruct H as [xs [? E]]; exists xs.

Lemma simpson_w_chained a b w N : chained a b (integrator_simpson_w f Qcomp a b w N).
Proof.
  intros v. unfold integrator_simpson_w.
  destruct (share N (w - a) a b) as [na|]; [|discriminate].
  destruct (share N (b - w) a b) as [nb|]; [|discriminate]. cbn [obind].
  intros E. apply oadd_some in E. destruct E as [u [v3 [E [E3 ->]]]].
  apply oadd_some in E. destruct E as [u2 [v2 [E [E2 ->]]]].
  apply oadd_some in E. destruct E as [u1 [v1 [E [E1 ->]]]]. injection E as <-.
  apply (join a (w + 2)%Q b).
  - apply (join a (w - 2)%Q (w + 2)%Q).
    + apply (join a a (w - 2)%Q); [apply chained_start; reflexivity|].
      apply (chained_simpson a (w - 2)%Q (make_odd na)); [right; apply make_odd_odd|exact E1].
    + apply (chained_simpson _ _ (make_odd (Z.quot N 5))); [right; apply make_odd_odd|exact E2].
  - apply (chained_simpson _ _ (make_odd nb)); [right; apply make_odd_odd|exact E3].
Qed.

Lemma chain_same a b v v' : (v == v')%C ->
  (exists xs, (last xs a == b)%Q /\ (v == composite f a xs)%C) ->
  exists xs, (last xs a == b)%Q /\ (v' == composite f a xs)%C.
Proof. intros E [xs [L V]]. exists xs. split; [exact L|]. rewrite <- E. exact V. Qed.

Lemma simpson_ww_chained a b w1 w2 N :
  (5 < b - w1 /\ 5 < b - w2)%Q \/ N < 3 \/ N mod 2 = 1 -> chained a b (integrator_simpson_ww f Qcomp a b w1 w2 N).
Proof.
  intros HN v. unfold integrator_simpson_ww.
  set (u1 := if qlt w1 w2 then w1 else w2). set (u2 := if qlt w1 w2 then w2 else w1).
  assert (HB : qlt 5 (b - u2) = true \/ N < 3 \/ N mod 2 = 1).
  { destruct HN as [[H1 H2]|HN]; [left|right; exact HN].
    unfold u2, qlt. apply negb_true_iff. apply not_true_is_false. intros X. apply Qle_bool_iff in X.
    destruct (negb (Qle_bool w2 w1)); lra. }
  clearbody u1 u2.
  destruct (qlt 5 (b - u2)) eqn:B.
  - destruct (share N (u1 - a) a b) as [na|]; [|discriminate].
    destruct (share N (b - u2) a b) as [nb|]; [|discriminate]. cbn [obind].
    destruct (qlt (10 * 5) (u2 - u1)).
    + destruct (share N (u2 - u1) a b) as [nc|]; [|discriminate]. cbn [obind]. intros E.
      apply oadd_some in E. destruct E as [r4 [v5 [E [E5 ->]]]].
      apply oadd_some in E. destruct E as [r3 [v4 [E [E4 ->]]]].
      apply oadd_some in E. destruct E as [r2 [v3 [E [E3 ->]]]].
      apply oadd_some in E. destruct E as [r1 [v2 [E [E2 ->]]]].
      apply oadd_some in E. destruct E as [r0 [v1 [E [E1 ->]]]]. injection E as <-.
      apply (chain_same a b (C0 + v1 + v3 + v4 + v5 + v2)%C); [ring|].
      assert (O : forall n, make_odd n < 3 \/ make_odd n mod 2 = 1) by (intros; right; apply make_odd_odd).
      apply (join a (u2 + 5)%Q b); [|eapply chained_simpson; [apply O|exact E2]].
      apply (join a (u2 - 5)%Q); [|eapply chained_simpson; [apply O|exact E5]].
      apply (join a (u1 + 5)%Q); [|eapply chained_simpson; [apply O|exact E4]].
      apply (join a (u1 - 5)%Q); [|eapply chained_simpson; [apply O|exact E3]].
      apply (join a a); [apply chained_start; reflexivity|eapply chained_simpson; [apply O|exact E1]].
    + destruct (to_int (inject_Z (make_odd (Z.quot N 10)) * (u2 - u1 + 2 * 5) / (2 * 5))) as [nc|]; [|discriminate].
      cbn [obind]. intros E.
      apply oadd_some in E. destruct E as [r2 [v3 [E [E3 ->]]]].
      apply oadd_some in E. destruct E as [r1 [v2 [E [E2 ->]]]].
      apply oadd_some in E. destruct E as [r0 [v1 [E [E1 ->]]]]. injection E as <-.
      apply (chain_same a b (C0 + v1 + v3 + v2)%C); [ring|].
      assert (O : forall n, make_odd n < 3 \/ make_odd n mod 2 = 1) by (intros; right; apply make_odd_odd).
      apply (join a (u2 + 5)%Q b); [|eapply chained_simpson; [apply O|exact E2]].
      apply (join a (u1 - 5)%Q); [|eapply chained_simpson; [apply O|exact E3]].
      apply (join a a); [apply chained_start; reflexivity|eapply chained_simpson; [apply O|exact E1]].
  - destruct HB as [HB|HB]; [discriminate|]. intros E.
    apply oadd_some in E. destruct E as [r2 [v3 [E [E3 ->]]]].
    apply oadd_some in E. destruct E as [r1 [v2 [E [E2 ->]]]].
    apply oadd_some in E. destruct E as [r0 [v1 [E [E1 ->]]]]. injection E as <-.
    assert (O : forall n, make_odd n < 3 \/ make_odd n mod 2 = 1) by (intros; right; apply make_odd_odd).
    apply (join a (u2 - 5)%Q b); [|eapply chained_simpson; [apply O|exact E3]].
    apply (join a (u1 + 5)%Q); [|eapply chained_simpson; [exact HB|exact E2]].
    apply (join a a); [apply chained_start; reflexivity|eapply chained_simpson; [apply O|exact E1]].
Qed.

End F.

Lemma panel_cubic c0 c1 c2 c3 l r :
  (panel (cubic c0 c1 c2 c3) l r == cubic_integral c0 c1 c2 c3 l r)%C.
Proof.
  unfold panel, cubic_integral, antiderivative, cubic, Ceq, Cscale, Cadd, Csub; cbn [re im]; split; field.
Qed.
Lemma composite_cubic c0 c1 c2 c3 xs : forall l b, (last xs l == b)%Q ->
  (composite (cubic c0 c1 c2 c3) l xs == cubic_integral c0 c1 c2 c3 l b)%C.
Proof.
  induction xs as [|r xs IH]; intros l b E.
  - cbn [composite last] in *. unfold cubic_integral. rewrite (antiderivative_m _ _ _ _ _ _ E). ring.
  - cbn [composite]. rewrite last_cons in E. rewrite (IH r b E), panel_cubic.
    unfold cubic_integral. ring.
Qed.

(** even number of points, constant integrand *)
Lemma nsum_iw c m :
  (nsum (2 * S m + 1) (fun i => Cscale (iw i) c) == Cscale (inject_Z (6 * Z.of_nat (S m) + 1)) c)%C.
Proof.
  induction m as [|m IH].
  - change (2 * 1 + 1)%nat with 3%nat. cbn [nsum]. change (iw 0) with 1%Q. change (iw 1) with 4%Q. change (iw 2) with 2%Q.
    change (inject_Z (6 * Z.of_nat 1 + 1)) with 7%Q. cq_ring; ring.
  - replace (2 * S (S m) + 1)%nat with (S (S (2 * S m + 1))) by lia.
    change (nsum (S (S (2 * S m + 1))) (fun i => Cscale (iw i) c))
      with (nsum (2 * S m + 1) (fun i => Cscale (iw i) c) + Cscale (iw (2 * S m + 1)) c + Cscale (iw (S (2 * S m + 1))) c)%C.
    rewrite IH, iw_odd. replace (S (2 * S m + 1)) with (2 * (S (S m)))%nat by lia. rewrite iw_even by lia.
    replace (6 * Z.of_nat (S (S m)) + 1) with (6 * Z.of_nat (S m) + 1 + 6) by lia.
    rewrite (inject_Z_plus _ 6). change (inject_Z 6) with 6%Q. cq_ring; ring.
Qed.

(** trapezoidal rule *)
Lemma trap_dot f : forall rest b0 b1 r, exists v,
  dot_loop r (map f (map fst (riemann_inner b0 b1 rest) ++ [last (b1 :: rest) 0%Q]))
             (map snd (riemann_inner b0 b1 rest) ++ [(last (b1 :: rest) 0 - last (removelast (b0 :: b1 :: rest)) 0)%Q]) = Some v
  /\ (v == r + Cscale (b1 - b0) (f b1) + Cscale 2 (trapezoids f b1 rest))%C.
Proof.
  induction rest as [|b2 rest IH]; intros b0 b1 r.
  - cbn [riemann_inner map app last removelast dot_loop trapezoids]. eexists. split; [reflexivity|]. cq_ring; ring.
  - cbn [riemann_inner map fst snd app dot_loop].
    change (last (b1 :: b2 :: rest) 0%Q) with (last (b2 :: rest) 0%Q).
    change (removelast (b0 :: b1 :: b2 :: rest)) with (b0 :: removelast (b1 :: b2 :: rest)).
    assert (L : last (b0 :: removelast (b1 :: b2 :: rest)) 0%Q = last (removelast (b1 :: b2 :: rest)) 0%Q).
    { change (removelast (b1 :: b2 :: rest)) with (b1 :: removelast (b2 :: rest)). reflexivity. }
    rewrite L. destruct (IH b1 b2 (r + Cscale (b2 - b0) (f b1))%C) as [v [E V]].
    exists v. split; [exact E|]. rewrite V. cbn [trapezoids]. cq_ring; field.
Qed.
Lemma riemann_trapezoids f bf N b0 rest : 2 <= N -> N <= Z.of_nat (length bf) ->
  firstn (Z.to_nat N) bf = b0 :: rest ->
  exists v, integrator_riemann f Qcomp bf N = Some v /\ (v == trapezoids f b0 rest)%C.
Proof.
  intros H2 HL EF. unfold integrator_riemann.
  destruct (Z.ltb_spec N 2); [lia|]. destruct (Z.ltb_spec (Z.of_nat (length bf)) N); [lia|]. cbn [orb].
  rewrite EF. destruct rest as [|b1 rest].
  - assert (length (firstn (Z.to_nat N) bf) = 1%nat) by (rewrite EF; reflexivity).
    rewrite firstn_length in *. lia.
  - cbv zeta. unfold dotproduct. cbn [res_start obind map dot_loop].
    destruct (trap_dot f rest b0 b1 (C0 + Cscale (b1 - b0) (f b0))%C) as [v [E V]].
    rewrite E. cbn [obind]. eexists. split; [reflexivity|]. rewrite V. cbn [trapezoids]. cq_ring; field.
Qed.
