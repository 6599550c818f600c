From Coq Require Import Permutation QArith Qfield.
From Verif Require Import Prelude Idx_Model Idx_Spec Idx_Proofs Arr_Proofs2 Deriv_Model Deriv_Spec.
Open Scope Z_scope.

Lemma zget_some {A} (l : list A) i : 0 <= i < Z.of_nat (length l) -> exists x, zget l i = Some x.
Proof.
  intros H. unfold zget. destruct (Z.ltb_spec i 0); [lia|]. destruct (nth_error l (Z.to_nat i)) eqn:E; eauto.
  apply nth_error_None in E. lia.
Qed.

(** exactness of one five-point formula for the monomials, with distances from the point of evaluation *)
Lemma five_point_exact (e x1 x2 x3 x4 : Q) (p : quartic) :
  ~ (e - x1 == 0)%Q -> ~ (e - x2 == 0)%Q -> ~ (e - x3 == 0)%Q -> ~ (e - x4 == 0)%Q ->
  ~ (x1 - x2 == 0)%Q -> ~ (x1 - x3 == 0)%Q -> ~ (x1 - x4 == 0)%Q -> ~ (x2 - x3 == 0)%Q -> ~ (x2 - x4 == 0)%Q -> ~ (x3 - x4 == 0)%Q ->
  ((e - x2) * (e - x3) * (e - x4) / ((x1 - e) * (x1 - x2) * (x1 - x3) * (x1 - x4)) * peval p x1
 + (e - x1) * (e - x3) * (e - x4) / ((x2 - e) * (x2 - x1) * (x2 - x3) * (x2 - x4)) * peval p x2
 + (e - x1) * (e - x2) * (e - x4) / ((x3 - e) * (x3 - x1) * (x3 - x2) * (x3 - x4)) * peval p x3
 + (e - x1) * (e - x2) * (e - x3) / ((x4 - e) * (x4 - x1) * (x4 - x2) * (x4 - x3)) * peval p x4
 + (1 / (e - x1) + 1 / (e - x2) + 1 / (e - x3) + 1 / (e - x4)) * peval p e == pderiv p e)%Q.
Proof.
  destruct p as [[[[c0 c1] c2] c3] c4]. unfold peval, pderiv.
  intros. 
  field.
  repeat split; intro E; match goal with H : ~ (?a - ?b == 0)%Q |- _ => first [apply H; rewrite <- E; ring | apply H; setoid_replace (a - b)%Q with (- (b - a))%Q by ring; rewrite E; reflexivity] end.
Qed.

Lemma sum_shape t1 t2 t3 t4 s1 s2 s3 s4 d0 d1 d2 d3 d4 u1 u2 u3 u4 v1 v2 v3 v4 e0 e1 e2 e3 e4 :
  (t1 == u1 -> t2 == u2 -> t3 == u3 -> t4 == u4 -> s1 == v1 -> s2 == v2 -> s3 == v3 -> s4 == v4 ->
   d0 == e0 -> d1 == e1 -> d2 == e2 -> d3 == e3 -> d4 == e4 ->
   0 + t1 * d1 + t2 * d2 + t3 * d3 + t4 * d4 + (0 + s1 + s2 + s3 + s4) * d0 ==
   u1 * e1 + u2 * e2 + u3 * e3 + u4 * e4 + (v1 + v2 + v3 + v4) * e0)%Q.
Proof. intros H1 H2 H3 H4 H5 H6 H7 H8 H9 H10 H11 H12 H13. rewrite H1, H2, H3, H4, H5, H6, H7, H8, H9, H10, H11, H12, H13. ring. Qed.

Section Stencil.
  Context (getx getd : Z -> option Q) (X : Z -> Q) (p : quartic).
  Definition okp (j : Z) : Prop := getx j = Some (X j) /\ oeq (getd j) (peval p (X j)).

  Lemma neq_sub (a b : Q) : ~ (a == b)%Q -> ~ (a - b == 0)%Q.
  Proof. intros H E. apply H. setoid_replace a with (a - b + b)%Q by ring. rewrite E. ring. Qed.

  Ltac norm_ranges := repeat match goal with |- context [zrange ?a ?b] =>
     let v := eval vm_compute in (zrange a b) in change (zrange a b) with v end.

  Lemma coef_eq (num den w N D : Q) : ~ (w == 0)%Q -> (num == w * N)%Q -> (den == D)%Q -> (num / w / den == N / D)%Q.
  Proof. intros Hw E1 E2. rewrite E1, E2. unfold Qdiv. setoid_replace (w * N * / w)%Q with N; [reflexivity|field; exact Hw]. Qed.

  Ltac inl := first [left; reflexivity | right; inl].
  Ltac fin R := apply coef_eq; [apply R; [inl|inl|discriminate] | ring | ring].

  Lemma stencil_exact i1 i2 i3 i4 lower upper :
    (exists k, In k [0;1;2;3;4]%Z /\ lower = - k /\ upper = 4 - k /\
       [i1;i2;i3;i4] = filter (fun j => negb (j =? 0)) (zrange lower (upper + 1))) ->
    okp 0 -> okp i1 -> okp i2 -> okp i3 -> okp i4 ->
    (forall a b, In a [0;i1;i2;i3;i4] -> In b [0;i1;i2;i3;i4] -> a <> b -> ~ (X a == X b)%Q) ->
    oeq (fd_helper getx getd [i1;i2;i3;i4] lower upper) (pderiv p (X 0)).
  Proof.
    intros (k & Hk & El0 & Eu0 & El) K0 K1 K2 K3 K4 Hd. subst lower upper.
    destruct K0 as [G0 (d0 & D0 & E0)], K1 as [G1 (d1 & D1 & E1)], K2 as [G2 (d2 & D2 & E2)], K3 as [G3 (d3 & D3 & E3)], K4 as [G4 (d4 & D4 & E4)].
    assert (Hne : forall a b, In a [0;i1;i2;i3;i4] -> In b [0;i1;i2;i3;i4] -> a <> b -> ~ (X a - X b == 0)%Q)
      by (intros; apply neq_sub; auto).
    pose proof (five_point_exact (X 0) (X i1) (X i2) (X i3) (X i4) p) as F.
    assert (R : forall a b, In a [0;i1;i2;i3;i4] -> In b [0;i1;i2;i3;i4] -> a <> b -> ~ (X a - X b == 0)%Q) by exact Hne.
    simpl in Hk. destruct Hk as [<-|[<-|[<-|[<-|[<-|[]]]]]]; vm_compute in El; inversion El; subst;
      (do 10 (match type of F with ?A -> _ => assert (HA : A) by (apply Hne; [inl|inl|discriminate]); specialize (F HA); clear HA end));
      unfold fd_helper; cbn [fd_sum]; unfold fd_term; norm_ranges; cbn [oprod obind];
      (repeat (first [rewrite G0|rewrite G1|rewrite G2|rewrite G3|rewrite G4]; cbn [obind]));
      rewrite D0, D1, D2, D3, D4; cbn [obind fst snd];
      eexists; (split; [reflexivity|]); (eapply Qeq_trans; [|exact F]); 
      (apply sum_shape; [fin R|fin R|fin R|fin R|apply Qeq_refl|apply Qeq_refl|apply Qeq_refl|apply Qeq_refl
                        |exact E0|exact E1|exact E2|exact E3|exact E4]).
  Qed.
End Stencil.
