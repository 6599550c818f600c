(** Proofs about the self-energy loop, continued: integrated values (C105) and the use of the result. *)
From Coq Require Import QArith Setoid Morphisms Ring.
From Verif Require Import Prelude Idx_Model Cplx Keld_Model Keld_Spec Keld_Proofs Util_Spec Lop_Model Lop_Spec Lop_Proofs.
Open Scope Z_scope.

Lemma Cscale_1' x : (Cscale 1 x == x)%C.
Proof. apply Cscale_1. Qed.

Section J.
Variable J : (Q -> cplx) -> cplx.
Hypothesis HJ : integral_ok J.

Lemma J_ext f h : (forall x, (f x == h x)%C) -> (J f == J h)%C.
Proof. apply HJ. Qed.
Lemma J_add f h : (J (fun x => f x + h x)%C == J f + J h)%C.
Proof. apply HJ. Qed.
Lemma J_scale q f : (J (fun x => Cscale q (f x)) == Cscale q (J f))%C.
Proof. apply HJ. Qed.
Lemma J_refl f : (J (fun x => f (- x)%Q) == J f)%C.
Proof. apply HJ. Qed.
Lemma J_sym F : (J (fun vp => Cscale (1 # 2) (F vp + F (- vp)%Q)) == J F)%C.
Proof.
  rewrite J_scale, J_add, J_refl. unfold Ceq, Cscale, Cadd; cbn [re im]; split; ring.
Qed.
Lemma J_opp f : (J (fun x => - f x)%C == - J f)%C.
Proof.
  rewrite <- Cscale_m1, <- J_scale. apply J_ext. intros x. rewrite Cscale_m1. reflexivity.
Qed.

Variables (Gam : vertex_legs) (V : vertexfn) (contour right all_spins : bool) (g : prop) (v : Q).
Hypothesis HG : vertex_ok Gam.
Hypothesis Hs : right && all_spins = false.
Hypothesis HV : seen contour right Gam V.
Let tgt := target Gam right all_spins g v.

Lemma row_transform r m a' a :
  (rowmat (rowmats r m) transform_to_KeldyshBasis (rowi a a')
   == csum bits (fun i => csum bits (fun i' => Cscale ((1 # 2) * (cbas i' a' * cbas i a)) (rowmat r m (rowi i i')))))%C.
Proof.
  unfold rowmat at 1.
  rewrite (transform_entry a a' false false), (transform_entry a a' false true),
          (transform_entry a a' true false), (transform_entry a a' true true).
  unfold rowmats; cbn [map nth]. unfold csum, bits; cbn [fold_right].
  rewrite !Cscale_ofq.
  change (rowi false false) with 0%nat. change (rowi false true) with 1%nat.
  change (rowi true false) with 2%nat. change (rowi true true) with 3%nat. ring.
Qed.

Lemma value_vector a' a :
  (J (fun vp => Keldysh_value_vector contour right all_spins V g v vp (rowi a a')) == J (fun vp => tgt vp a' a))%C.
Proof.
  rewrite <- (J_sym (fun vp => tgt vp a' a)). apply J_ext. intros vp. unfold Keldysh_value_vector.
  assert (E : forall x, (rowmat (rowmats (evaluate_propagator_vectorized true g x)
                  (evaluate_vertex_vectorized right all_spins V x v)) transform_to_KeldyshBasis (rowi a a')
                == tgt x a' a)%C \/ contour = false).
  { destruct contour; [|auto]. left. rewrite row_transform.
    unfold tgt. rewrite target_contr, <- rotated_identity. unfold rotated.
    apply csum_ext; intros i; apply csum_ext; intros i'.
    rewrite (row_contour Gam V right all_spins g v HG Hs x i' i) by assumption. reflexivity. }
  destruct contour.
  - destruct (E vp) as [E1|]; [|discriminate]. destruct (E (- vp)%Q) as [E2|]; [|discriminate].
    rewrite E1, E2. reflexivity.
  - rewrite !(row_keldysh Gam V right all_spins g v HG Hs) by assumption. reflexivity.
Qed.
Lemma value_scalar_keldysh a' a : contour = false ->
  (J (Keldysh_value_scalar contour right all_spins V g v (rowi a a')) == J (fun vp => tgt vp a' a))%C.
Proof.
  intros Hc. rewrite <- (J_sym (fun vp => tgt vp a' a)). apply J_ext. intros vp. unfold Keldysh_value_scalar.
  rewrite Hc in *. rewrite !(row_keldysh Gam V right all_spins g v HG Hs) by assumption. reflexivity.
Qed.
(** the four contour components, before the change of basis *)
Definition ctgt (vp : Q) (i' i : bool) : cplx :=
  csum bits (fun x => csum bits (fun x' => (Gcontour g vp x x' * closed right (fun b c d e =>
        Cscale (1 # 4) (to_contour (wsel right all_spins Gam (leg_freqs right v vp)) b c d e)) i' i x' x)%C)).
Lemma value_scalar_contour i' i : contour = true ->
  (J (Keldysh_value_scalar contour right all_spins V g v (rowi i i')) == J (fun vp => ctgt vp i' i))%C.
Proof.
  intros Hc. rewrite <- (J_sym (fun vp => ctgt vp i' i)). apply J_ext. intros vp. unfold Keldysh_value_scalar.
  rewrite Hc in *. rewrite !(row_contour Gam V right all_spins g v HG Hs) by assumption. reflexivity.
Qed.
Lemma ctgt_rotated a' a :
  (J (fun vp => tgt vp a' a) ==
   csum bits (fun i => csum bits (fun i' => Cscale ((1 # 2) * (cbas i' a' * cbas i a)) (J (fun vp => ctgt vp i' i)))))%C.
Proof.
  transitivity (J (fun vp => rotated right (Gcontour g vp) (fun b c d e =>
     Cscale (1 # 4) (to_contour (wsel right all_spins Gam (leg_freqs right v vp)) b c d e)) a' a)).
  - apply J_ext. intros vp. rewrite rotated_identity. unfold tgt. rewrite target_contr. reflexivity.
  - unfold rotated. unfold csum, bits. cbn [fold_right].
    etransitivity; [apply J_ext; intros x|].
    + assert (Z : forall y z u w, (y + (z + C0) + (u + (w + C0) + C0) == y + z + u + w)%C) by (intros; ring).
      apply Z.
    + rewrite !J_add, !J_scale. unfold ctgt, csum, bits. cbn [fold_right]. ring.
Qed.

(** ** complex conjugation *)
Hypothesis Hc : conj_symmetric Gam.
Hypothesis Hx : exchange_symmetric Gam.
Hypothesis Hk : antihermitian g.
Hypothesis HI : integral_imaginary J.

Lemma Cconj_add x y : (Cconj (x + y) == Cconj x + Cconj y)%C.
Proof. unfold Ceq, Cconj, Cadd; cbn [re im]; split; ring. Qed.
Lemma Cconj_mul x y : (Cconj (x * y) == Cconj x * Cconj y)%C.
Proof. unfold Ceq, Cconj, Cmul; cbn [re im]; split; ring. Qed.
Lemma Cconj_inv x : (Cconj (Cconj x) == x)%C.
Proof. unfold Ceq, Cconj; cbn [re im]; split; ring. Qed.
Lemma Cconj_C0 : (Cconj C0 == C0)%C.
Proof. split; cbn; reflexivity. Qed.
Lemma wspin_conj x y : (Cconj (wspin right all_spins x y) == wspin right all_spins (Cconj x) (Cconj y))%C.
Proof. clear HV. destruct right, all_spins; cbn [wspin]; rewrite ?Cconj_add; reflexivity. Qed.
Lemma wspin_scale q x y : (wspin right all_spins (Cscale q x) (Cscale q y) == Cscale q (wspin right all_spins x y))%C.
Proof. clear HV. destruct right, all_spins; cbn [wspin]; rewrite ?Cscale_add; reflexivity. Qed.

(** conjugation exchanges the ends of the line and the external legs *)
Lemma wsel_conj (right0 : bool) vp a' a x' x : right0 = right ->
  (Cconj (wsel right all_spins Gam (leg_freqs right v vp) (closed right0 code4 a' a x' x))
   == Cscale (conj_sign a' a x' x) (wsel right all_spins Gam (leg_freqs right v vp) (closed right0 code4 a a' x x')))%C.
Proof.
  clear HV. intros ->. rewrite <- !wspin_spec by exact Hs. rewrite wspin_conj.
  assert (E : forall s, s = 0 \/ s = 1 -> (Cconj (Gam s (leg_freqs right v vp) (closed right code4 a' a x' x))
     == Cscale (conj_sign a' a x' x) (Gam s (leg_freqs right v vp) (closed right code4 a a' x x')))%C).
  { intros s Sp. unfold leg_freqs. destruct right; cbn [closed].
    - pose proof (Hc s (mkLegs vp v v vp) x' a' a x Sp (Qplus_comm _ _)) as H. unfold in_out in H. cbn [n1' n2' n1 n2] in H.
      pose proof (Hx s (mkLegs v vp vp v) a x x' a' Sp (Qplus_comm _ _)) as H2. unfold particle_exchange in H2. cbn [n1' n2' n1 n2] in H2.
      rewrite H2, H, Cscale_Cscale. symmetry.
      rewrite (Cscale_q _ 1); [apply Cscale_1|]. destruct a', a, x', x; reflexivity.
    - pose proof (Hc s (mkLegs v vp v vp) a' x' a x Sp (Qeq_refl _)) as H. unfold in_out in H. cbn [n1' n2' n1 n2] in H.
      rewrite H, Cscale_Cscale. symmetry.
      rewrite (Cscale_q _ 1); [apply Cscale_1|]. destruct a', a, x', x; reflexivity. }
  rewrite (wspin_m _ _ _ _ _ _ (E 0 (or_introl eq_refl)) (E 1 (or_intror eq_refl))). apply wspin_scale.
Qed.
Lemma Gmat_conj vp x x' :
  (Cconj (Gmat g vp x x') == Cscale (if xorb x x' then 1 else -1) (Gmat g vp x' x))%C.
Proof.
  destruct x, x'; cbn [Gmat xorb]; rewrite ?Cscale_1, ?Cscale_m1, ?Cconj_C0, ?Cconj_inv; try reflexivity.
  apply Hk.
Qed.
Lemma target_conj vp : (Cconj (tgt vp true false) == - tgt vp false true)%C.
Proof.
  unfold tgt. rewrite !target_contr. unfold contr, csum, bits. cbn [fold_right].
  rewrite !Cconj_add, !Cconj_mul, !Gmat_conj, !(wsel_conj right) by reflexivity.
  rewrite !Cconj_C0. unfold conj_sign. cbn [xorb].
  rewrite ?Cscale_1, ?Cscale_m1. change (Gmat g vp false false) with C0. ring.
Qed.
Lemma J_conj : (Cconj (J (fun vp => tgt vp true false)) == J (fun vp => tgt vp false true))%C.
Proof.
  assert (E : (J (fun vp => Cconj (tgt vp true false)) == - J (fun vp => tgt vp false true))%C).
  { rewrite <- J_opp. apply J_ext. intros x. apply target_conj. }
  rewrite (HI (fun vp => tgt vp true false)) in E.
  transitivity (- - Cconj (J (fun vp => tgt vp true false)))%C; [ring|]. rewrite E. ring.
Qed.
End J.

Lemma component_cases k a' a : component k = Some (a', a) ->
  (k = 0 /\ a' = false /\ a = true) \/ (k = 1 /\ a' = false /\ a = false) \/ (k = 2 /\ a' = true /\ a = true).
Proof.
  unfold component. destruct (Z.eqb_spec k 0); [intros E; injection E as <- <-; auto|].
  destruct (Z.eqb_spec k 1); [intros E; injection E as <- <-; auto|].
  destruct (Z.eqb_spec k 2); [intros E; injection E as <- <-; auto|discriminate].
Qed.
Ltac setself_tac := unfold setself; cbn [Z.eqb Pos.eqb].

Lemma vector_spec J Gam V contour right all_spins g v self k a' a :
  integral_ok J -> integral_imaginary J -> vertex_ok Gam -> conj_symmetric Gam -> exchange_symmetric Gam ->
  antihermitian g -> seen contour right Gam V -> right && all_spins = false -> component k = Some (a', a) ->
  (compute_Keldysh_vector J contour right all_spins V g v self k
   == J (fun vp => contraction right (wsel right all_spins Gam) g v vp a' a))%C.
Proof.
  intros HJ HI HG Hc Hx Hk HV Hs E.
  assert (R : (Cconj (J (fun vp => Keldysh_value_vector contour right all_spins V g v vp 1))
            == J (fun vp => contraction right (wsel right all_spins Gam) g v vp false true))%C).
  { rewrite (value_vector J HJ Gam V contour right all_spins g v HG Hs HV true false).
    apply (J_conj J HJ Gam right all_spins g v Hs Hc Hx Hk HI). }
  assert (K : (J (fun vp => Keldysh_value_vector contour right all_spins V g v vp 0)
            == J (fun vp => contraction right (wsel right all_spins Gam) g v vp false false))%C)
    by apply (value_vector J HJ Gam V contour right all_spins g v HG Hs HV false false).
  assert (Z : (J (fun vp => Keldysh_value_vector contour right all_spins V g v vp 3)
            == J (fun vp => contraction right (wsel right all_spins Gam) g v vp true true))%C)
    by apply (value_vector J HJ Gam V contour right all_spins g v HG Hs HV true true).
  unfold compute_Keldysh_vector.
  destruct (component_cases _ _ _ E) as [(-> & -> & ->)|[(-> & -> & ->)|(-> & -> & ->)]];
    destruct contour; setself_tac; assumption.
Qed.

(** signs of the change of basis *)
Lemma basis_R (x00 x01 x10 x11 : cplx) :
  (Cscale (1 # 2) (x00 + x01 - x10 - x11) ==
   csum bits (fun i => csum bits (fun i' => Cscale ((1 # 2) * (cbas i' false * cbas i true))
     (match i', i with false, false => x00 | false, true => x01 | true, false => x10 | true, true => x11 end))))%C.
Proof. unfold csum, bits; cbn [fold_right cbas]. unfold Ceq, Cscale, Cadd, Csub, C0; cbn [re im]; split; ring. Qed.
Lemma basis_K (x00 x01 x10 x11 : cplx) :
  (Cscale (1 # 2) (x00 - x01 - x10 + x11) ==
   csum bits (fun i => csum bits (fun i' => Cscale ((1 # 2) * (cbas i' false * cbas i false))
     (match i', i with false, false => x00 | false, true => x01 | true, false => x10 | true, true => x11 end))))%C.
Proof. unfold csum, bits; cbn [fold_right cbas]. unfold Ceq, Cscale, Cadd, Csub, C0; cbn [re im]; split; ring. Qed.
Lemma basis_0 (x00 x01 x10 x11 : cplx) :
  (Cscale (1 # 2) (x00 + x01 + x11 + x10) ==
   csum bits (fun i => csum bits (fun i' => Cscale ((1 # 2) * (cbas i' true * cbas i true))
     (match i', i with false, false => x00 | false, true => x01 | true, false => x10 | true, true => x11 end))))%C.
Proof. unfold csum, bits; cbn [fold_right cbas]. unfold Ceq, Cscale, Cadd, Csub, C0; cbn [re im]; split; ring. Qed.

Lemma basis_all J (HJ : integral_ok J) Gam right all_spins g v (x00 x01 x10 x11 : cplx) :
  (x00 == J (fun vp => ctgt Gam right all_spins g v vp false false))%C ->
  (x01 == J (fun vp => ctgt Gam right all_spins g v vp false true))%C ->
  (x10 == J (fun vp => ctgt Gam right all_spins g v vp true false))%C ->
  (x11 == J (fun vp => ctgt Gam right all_spins g v vp true true))%C ->
  (Cscale (1 # 2) (x00 + x01 - x10 - x11) == J (fun vp => contraction right (wsel right all_spins Gam) g v vp false true))%C /\
  (Cscale (1 # 2) (x00 - x01 - x10 + x11) == J (fun vp => contraction right (wsel right all_spins Gam) g v vp false false))%C /\
  (Cscale (1 # 2) (x00 + x01 + x11 + x10) == J (fun vp => contraction right (wsel right all_spins Gam) g v vp true true))%C.
Proof.
  intros E00 E01 E10 E11. rewrite basis_R, basis_K, basis_0.
  pose proof (ctgt_rotated J HJ Gam right all_spins g v) as T.
  change (target Gam right all_spins g v) with
    (fun vp a' a => contraction right (wsel right all_spins Gam) g v vp a' a) in T. cbn beta in T.
  split; [|split]; rewrite T; apply csum_ext; intros i; apply csum_ext; intros i';
    destruct i, i'; rewrite ?E00, ?E01, ?E10, ?E11; reflexivity.
Qed.

Lemma scalar_spec J Gam V contour right all_spins g v self k a' a :
  integral_ok J -> vertex_ok Gam -> seen contour right Gam V -> right && all_spins = false -> component k = Some (a', a) ->
  (compute_Keldysh_scalar J contour right all_spins V g v self k
   == J (fun vp => contraction right (wsel right all_spins Gam) g v vp a' a))%C.
Proof.
  intros HJ HG HV Hs E. unfold compute_Keldysh_scalar.
  destruct contour eqn:C.
  - pose proof (value_scalar_contour J HJ Gam V true right all_spins g v HG Hs HV) as T.
    destruct (basis_all J HJ Gam right all_spins g v _ _ _ _ (T false false eq_refl) (T false true eq_refl)
                (T true false eq_refl) (T true true eq_refl)) as (TR & TK & TZ).
    destruct (component_cases _ _ _ E) as [(-> & -> & ->)|[(-> & -> & ->)|(-> & -> & ->)]]; setself_tac;
      [exact TR|exact TK|exact TZ].
  - pose proof (value_scalar_keldysh J HJ Gam V false right all_spins g v HG Hs HV) as T.
    destruct (component_cases _ _ _ E) as [(-> & -> & ->)|[(-> & -> & ->)|(-> & -> & ->)]]; setself_tac;
      [apply (T false true eq_refl)|apply (T false false eq_refl)|apply (T true true eq_refl)].
Qed.

(** ** SWITCH_SUM_N_INTEGRAL 0 *)
Section Switch0.
Variable J : (Q -> cplx) -> cplx.
Hypothesis HJ : integral_ok J.
Variables (Gam : vertex_legs) (V : vertexfn) (all_spins : bool) (g : prop) (v : Q).
Hypothesis HG : vertex_ok Gam.

(** one term: a component of the propagator with the vertex component that belongs to it *)
Lemma J_component contour comps s iK :
  (J (Keldysh_value_component contour comps s V g v iK) ==
   J (fun vp => evaluate_propagator contour g iK vp * spin_component V Ct s (nth iK comps 0%Z) vp v))%C.
Proof.
  rewrite <- (J_sym J HJ (fun vp => evaluate_propagator contour g iK vp * spin_component V Ct s (nth iK comps 0) vp v)%C).
  reflexivity.
Qed.
Definition bothspins (x0 x1 : cplx) : cplx := if all_spins then (Cscale 2 x0 + x1)%C else x0.
Lemma J_both contour comps iK :
  (bothspins (J (Keldysh_value_component contour comps 0 V g v iK)) (J (Keldysh_value_component contour comps 1 V g v iK))
   == J (fun vp => evaluate_propagator contour g iK vp
                   * wspin false all_spins (V Ct 0 (nth iK comps 0%Z) vp v) (V Ct 1 (nth iK comps 0%Z) vp v)))%C.
Proof.
  unfold bothspins. destruct all_spins; cbn [wspin].
  - rewrite !J_component, <- (J_scale J HJ), <- (J_add J HJ). apply (J_ext J HJ). intros x.
    change (spin_component V Ct 0) with (V Ct 0). change (spin_component V Ct 1) with (V Ct 1).
    rewrite Cscale_2. ring.
  - rewrite J_component. reflexivity.
Qed.

Lemma sum_components_spec type i' i : seen true false Gam V -> (type, (i', i)) = (0, (false, false)) \/ (type, (i', i)) = (1, (false, true)) \/
    (type, (i', i)) = (2, (true, false)) \/ (type, (i', i)) = (3, (true, true)) ->
  exists x, sum_components J all_spins type V g v = Some x /\
    (x == J (fun vp => ctgt Gam false all_spins g v vp i' i))%C.
Proof.
  intros HV Ht.
  assert (W : forall vp a b c d, (wspin false all_spins (V Ct 0 (code4 a b c d) vp v) (V Ct 1 (code4 a b c d) vp v)
     == Cscale (1 # 4) (to_contour (wsel false all_spins Gam (leg_freqs false v vp)) a b c d))%C).
  { intros vp a b c d.
    rewrite (wspin_m _ _ _ _ _ _ (HV 0 vp v a b c d (or_introl eq_refl)) (HV 1 vp v a b c d (or_intror eq_refl))).
    rewrite wspin_contour. apply Cscale_m; [reflexivity|]. apply to_contour_m. intros.
    rewrite <- wspin_spec by reflexivity. apply wspin_m; (apply HG; [auto|]); apply (legs_loop false). }
  assert (P : forall vp x x', (evaluate_propagator true g (rowi x x') vp == Gcontour g vp x x')%C).
  { intros vp x x'. rewrite <- (prop_row true g vp x x'). destruct x, x'; reflexivity. }
  assert (G : forall comps,
     (forall x x', nth (rowi x x') comps 0 = code4 i' x' i x) ->
     (fold_left (fun acc iK => (acc + bothspins (J (Keldysh_value_component true comps 0 V g v iK))
                                                (J (Keldysh_value_component true comps 1 V g v iK)))%C)
                  [0; 1; 2; 3]%nat C0 == J (fun vp => ctgt Gam false all_spins g v vp i' i))%C).
  { intros comps Hn. cbn [fold_left].
    rewrite !J_both.
    assert (T : forall x x', (J (fun vp => evaluate_propagator true g (rowi x x') vp *
                  wspin false all_spins (V Ct 0 (nth (rowi x x') comps 0) vp v) (V Ct 1 (nth (rowi x x') comps 0) vp v))
              == J (fun vp => Gcontour g vp x x' * Cscale (1 # 4) (to_contour (wsel false all_spins Gam (leg_freqs false v vp)) i' x' i x)))%C).
    { intros x x'. apply (J_ext J HJ). intros vp. rewrite Hn, W, P. reflexivity. }
    rewrite (T false false), (T false true), (T true false), (T true true).
    rewrite <- !(J_add J HJ) || idtac.
    transitivity (J (fun vp => Gcontour g vp false false * Cscale (1 # 4) (to_contour (wsel false all_spins Gam (leg_freqs false v vp)) i' false i false)
      + Gcontour g vp false true * Cscale (1 # 4) (to_contour (wsel false all_spins Gam (leg_freqs false v vp)) i' true i false)
      + Gcontour g vp true false * Cscale (1 # 4) (to_contour (wsel false all_spins Gam (leg_freqs false v vp)) i' false i true)
      + Gcontour g vp true true * Cscale (1 # 4) (to_contour (wsel false all_spins Gam (leg_freqs false v vp)) i' true i true))%C).
    - rewrite !(J_add J HJ). ring.
    - apply (J_ext J HJ). intros vp. unfold ctgt, csum, bits, closed. cbn [fold_right]. ring. }
  destruct Ht as [E|[E|[E|E]]]; injection E as -> -> ->; eexists; (split; [reflexivity|]); apply G;
    intros [|] [|]; reflexivity.
Qed.
Lemma switch0_contour_spec self k a' a : seen true false Gam V -> component k = Some (a', a) ->
  exists s, compute_Keldysh_switch0_contour J all_spins V g v self = Some s /\
    (s k == J (fun vp => contraction false (wsel false all_spins Gam) g v vp a' a))%C.
Proof.
  intros HV E. unfold compute_Keldysh_switch0_contour.
  destruct (sum_components_spec 0 false false HV) as (x00 & -> & E00); [auto|].
  destruct (sum_components_spec 1 false true HV) as (x01 & -> & E01); [auto|].
  destruct (sum_components_spec 2 true false HV) as (x10 & -> & E10); [auto|].
  destruct (sum_components_spec 3 true true HV) as (x11 & -> & E11); [auto|].
  cbn [obind]. eexists; split; [reflexivity|].
  destruct (basis_all J HJ Gam false all_spins g v _ _ _ _ E00 E01 E10 E11) as (TR & TK & TZ).
  destruct (component_cases _ _ _ E) as [(-> & -> & ->)|[(-> & -> & ->)|(-> & -> & ->)]]; setself_tac;
    [exact TR|exact TK|exact TZ].
Qed.

(** Keldysh basis: what is added *)
Lemma switch0_table comps i : seen false false Gam V ->
  (comps = [1; 4; 5; 2; 8; 10] /\ i = false) \/ (comps = [3; 6; 7; 3; 9; 11] /\ i = true) ->
  (bothspins (J (Keldysh_value_component false comps 0 V g v 0)) (J (Keldysh_value_component false comps 1 V g v 0))
   + bothspins (J (Keldysh_value_component false comps 0 V g v 1)) (J (Keldysh_value_component false comps 1 V g v 1))
   + bothspins (J (Keldysh_value_component false comps 0 V g v 2)) (J (Keldysh_value_component false comps 1 V g v 2))
   == J (fun vp => contraction false (wsel false all_spins Gam) g v vp false i))%C.
Proof.
  intros HV Hi. rewrite !J_both.
  assert (W : forall vp a b c d, (wspin false all_spins (V Ct 0 (code4 a b c d) vp v) (V Ct 1 (code4 a b c d) vp v)
     == wsel false all_spins Gam (leg_freqs false v vp) (code4 a b c d))%C).
  { intros vp a b c d.
    rewrite (wspin_m _ _ _ _ _ _ (HV 0 vp v a b c d (or_introl eq_refl)) (HV 1 vp v a b c d (or_intror eq_refl))).
    rewrite <- wspin_spec by reflexivity. apply wspin_m; (apply HG; [auto|]); apply (legs_loop false). }
  rewrite <- !(J_add J HJ). apply (J_ext J HJ). intros vp.
  unfold contraction, csum, bits, closed. cbn [fold_right Gmat evaluate_propagator].
  rewrite <- !W.
  change (code4 false false false true) with 1; change (code4 false true false false) with 4;
    change (code4 false true false true) with 5; change (code4 false false true true) with 3;
    change (code4 false true true false) with 6; change (code4 false true true true) with 7.
  destruct Hi as [[-> ->]|[-> ->]]; cbn [nth];
    change (code4 false false false true) with 1; change (code4 false true false false) with 4;
    change (code4 false true false true) with 5; change (code4 false false true true) with 3;
    change (code4 false true true false) with 6; change (code4 false true true true) with 7; ring.
Qed.
End Switch0.
