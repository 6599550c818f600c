(** Proofs about the self-energy loop: the summation over Keldysh and spin indices (C105). *)
From Coq Require Import QArith Setoid Morphisms Ring.
From Verif Require Import Prelude Idx_Model Cplx Keld_Model Keld_Spec Keld_Proofs Util_Spec Lop_Model Lop_Spec.
Open Scope Z_scope.

Lemma Cscale_ofq q x : (Cscale q x == Cofq q * x)%C.
Proof. unfold Ceq, Cscale, Cofq, Cmul; cbn [re im]; split; ring. Qed.
Lemma Cofq_2 : (Cofq 2 == C1 + C1)%C.
Proof. split; cbn; reflexivity. Qed.
Lemma Cscale_2 x : (Cscale 2 x == x + x)%C.
Proof. unfold Ceq, Cscale, Cadd; cbn [re im]; split; ring. Qed.
Lemma Cscale_add q x y : (Cscale q (x + y) == Cscale q x + Cscale q y)%C.
Proof. unfold Ceq, Cscale, Cadd; cbn [re im]; split; ring. Qed.

(** ** the expanded vertices *)
Lemma expanded_t f : symmetry_expanded Ct false f
  = Some [f 0; f 1; f 4; f 5; f 8; f 9; f 12; f 13; f 2; f 3; f 6; f 7; f 10; f 11; f 14; f 15].
Proof. reflexivity. Qed.
Lemma expanded_a f : symmetry_expanded Ca false f
  = Some [f 0; f 1; f 8; f 9; f 4; f 5; f 12; f 13; f 2; f 3; f 10; f 11; f 6; f 7; f 14; f 15].
Proof. reflexivity. Qed.
(** component of the expanded vertex at row i, column j *)
Definition pos (right : bool) (i j : nat) : Z :=
  nth (j * 4 + i)
      (if right then [0; 1; 8; 9; 4; 5; 12; 13; 2; 3; 10; 11; 6; 7; 14; 15]
       else [0; 1; 4; 5; 8; 9; 12; 13; 2; 3; 6; 7; 10; 11; 14; 15]) 0.
Lemma fetch_entry V (right : bool) s vp v i j : (i < 4)%nat -> (j < 4)%nat ->
  mget (fetch V (pick_channel right) s vp v) i j = spin_component V (pick_channel right) s (pos right i j) vp v.
Proof.
  intros Hi Hj. unfold fetch. destruct right; cbn [pick_channel]; rewrite ?expanded_t, ?expanded_a;
    do 4 (destruct i as [|i]; [do 4 (destruct j as [|j]; [reflexivity|]); lia|]); lia.
Qed.
Lemma mget_mk4 f i j : (i < 4)%nat -> (j < 4)%nat -> mget (mk4 f) i j = f i j.
Proof.
  intros Hi Hj. do 4 (destruct i as [|i]; [do 4 (destruct j as [|j]; [reflexivity|]); lia|]); lia.
Qed.

(** the vertex with the spin of the line summed (or fixed) *)
Definition wspin (right all_spins : bool) (V0 V1 : cplx) : cplx :=
  (match right, all_spins with
   | false, true => V0 + V0 + V1
   | false, false => V0
   | true, true => V0 + V1 + (V0 + V1) + V1
   | true, false => V0 + V1
   end)%C.
Lemma vertex_entry V (right all_spins : bool) vp v i j : (i < 4)%nat -> (j < 4)%nat ->
  (mget (evaluate_vertex_vectorized right all_spins V vp v) i j ==
   wspin right all_spins (V (pick_channel right) 0 (pos right i j) vp v)
                         (V (pick_channel right) 1 (pos right i j) vp v))%C.
Proof.
  intros Hi Hj. unfold evaluate_vertex_vectorized, mscale, madd.
  destruct all_spins; rewrite ?mget_mk4, ?fetch_entry by assumption;
    destruct right; unfold pick_spin, spin_component; cbn [wspin Z.eqb Z.sub Z.add Z.opp];
    change (2 - 0 =? 2) with true; change (2 - 1 =? 2) with false; change (2 - 1) with 1;
    rewrite ?Cscale_2; cbn iota; try ring; reflexivity.
Qed.

(** matrix position of the indices *)
Definition rowi (x' x : bool) : nat := match x', x with false, false => 0 | false, true => 1 | true, false => 2 | true, true => 3 end.
Lemma pos_legs right a' a x' x : pos right (rowi x' x) (rowi a a') = closed right code4 a' a x' x.
Proof. destruct right, a', a, x', x; reflexivity. Qed.

(** contraction over an arbitrary 2x2 matrix and an arbitrary vertex *)
Definition contr (right : bool) (G : bool -> bool -> cplx) (W : Z -> cplx) (a' a : bool) : cplx :=
  csum bits (fun x => csum bits (fun x' => (G x x' * W (closed right code4 a' a x' x))%C)).
Lemma contr_ext right G G' W W' a' a : (forall x y, (G x y == G' x y)%C) -> (forall a b c d, (W (code4 a b c d) == W' (code4 a b c d))%C) ->
  (contr right G W a' a == contr right G' W' a' a)%C.
Proof.
  intros HG HW. unfold contr. apply csum_ext; intros x. apply csum_ext; intros x'.
  rewrite HG. destruct right; cbn [closed]; rewrite HW; reflexivity.
Qed.

Definition mat_of (contour : bool) (g : prop) (vp : Q) : bool -> bool -> cplx :=
  if contour then Gcontour g vp else Gmat g vp.
Lemma prop_row contour g vp x x' :
  (nth (rowi x' x) (evaluate_propagator_vectorized contour g vp) C0 == mat_of contour g vp x x')%C.
Proof.
  destruct contour, x, x'; cbv [evaluate_propagator_vectorized mat_of rowi nth mget valsmooth_vectorized valsmooth_vectorized_contour
    Gcontour Gmat csum bits fold_right cbas]; rewrite ?Cscale_ofq; unfold Ceq, Cadd, Csub, Cneg, Cmul, Cofq, Cconj, C0; cbn [re im]; split; ring.
Qed.

Lemma rowmat_contr right r m G W a' a :
  (forall x' x, (nth (rowi x' x) r C0 == G x x')%C) ->
  (forall x' x, (mget m (rowi x' x) (rowi a a') == W (closed right code4 a' a x' x))%C) ->
  (rowmat r m (rowi a a') == contr right G W a' a)%C.
Proof.
  intros HG HW. unfold rowmat.
  rewrite (HG false false), (HG false true), (HG true false), (HG true true).
  rewrite (HW false false), (HW false true), (HW true false), (HW true true).
  unfold contr, csum, bits, fold_right. ring.
Qed.

Lemma rowi_lt x y : (rowi x y < 4)%nat.
Proof. destruct x, y; cbn; lia. Qed.
Lemma transform_entry a a' i i' :
  (mget transform_to_KeldyshBasis (rowi i i') (rowi a a') == Cofq ((1 # 2) * (cbas i' a' * cbas i a)))%C.
Proof. destruct a, a', i, i'; cbv [mget transform_to_KeldyshBasis rowi nth cbas]; split; reflexivity. Qed.

(** the contour matrix and the contour vertex contract to the Keldysh ones *)
Definition rotated (right : bool) (Gc : bool -> bool -> cplx) (Wc : bool -> bool -> bool -> bool -> cplx) (a' a : bool) : cplx :=
  csum bits (fun i => csum bits (fun i' => Cscale ((1 # 2) * (cbas i' a' * cbas i a))
    (csum bits (fun x => csum bits (fun x' => (Gc x x' * closed right Wc i' i x' x)%C))))).
Definition leg (F : bool -> cplx) (i : bool) : cplx := if i then (F true - F false)%C else (F false + F true)%C.
Lemma Cscale_1 x : (Cscale 1 x == x)%C.
Proof. unfold Ceq, Cscale; cbn [re im]; split; ring. Qed.
Lemma Cscale_m1 x : (Cscale (-1) x == - x)%C.
Proof. unfold Ceq, Cscale, Cneg; cbn [re im]; split; ring. Qed.
Lemma Cscale_4 x : (Cscale 4 x == x + x + x + x)%C.
Proof. unfold Ceq, Cscale, Cadd; cbn [re im]; split; ring. Qed.
Lemma Cscale_0 q : (Cscale q C0 == C0)%C.
Proof. unfold Ceq, Cscale, C0; cbn [re im]; split; ring. Qed.
Lemma Cscale_Cscale p q x : (Cscale p (Cscale q x) == Cscale (p * q) x)%C.
Proof. unfold Ceq, Cscale; cbn [re im]; split; ring. Qed.
Lemma Cscale_mul_l q x y : (Cscale q x * y == Cscale q (x * y))%C.
Proof. unfold Ceq, Cscale, Cmul; cbn [re im]; split; ring. Qed.
Lemma Cscale_mul_r q x y : (x * Cscale q y == Cscale q (x * y))%C.
Proof. unfold Ceq, Cscale, Cmul; cbn [re im]; split; ring. Qed.
Lemma Cscale_q p q x : (p == q)%Q -> (Cscale p x == Cscale q x)%C.
Proof. intros H. rewrite H. reflexivity. Qed.
Lemma csum_scale {A} (l : list A) q f : (csum l (fun a => Cscale q (f a)) == Cscale q (csum l f))%C.
Proof.
  induction l as [|x l IH]; cbn [csum fold_right]; [symmetry; apply Cscale_0|].
  rewrite Cscale_add. unfold csum in IH. rewrite IH. reflexivity.
Qed.
Lemma csum_leg F i : (csum bits (fun a => Cscale (cbas i a) (F a)) == leg F i)%C.
Proof.
  destruct i; unfold csum, bits, leg; cbn [fold_right cbas]; rewrite ?Cscale_1, ?Cscale_m1; ring.
Qed.
Lemma leg_ext F F' i : (forall b, (F b == F' b)%C) -> (leg F i == leg F' i)%C.
Proof. intros H. destruct i; unfold leg; rewrite !H; reflexivity. Qed.
Lemma csum_leg' q F i : (csum bits (fun a => Cscale (q * cbas i a) (F a)) == Cscale q (leg F i))%C.
Proof.
  rewrite <- csum_leg, <- csum_scale. apply csum_ext; intros a. rewrite Cscale_Cscale. reflexivity.
Qed.
Lemma Gcontour_legs g v i j : (Gcontour g v i j == Cscale (1 # 2) (leg (fun a => leg (fun b => Gmat g v a b) j) i))%C.
Proof.
  unfold Gcontour. rewrite <- (csum_leg (fun a => leg (fun b => Gmat g v a b) j) i).
  apply Cscale_m; [reflexivity|]. apply csum_ext; intros a.
  rewrite (csum_leg' (cbas i a) (fun b => Gmat g v a b) j). reflexivity.
Qed.
Lemma to_contour_legs W i1' i2' i1 i2 :
  (to_contour W i1' i2' i1 i2 == leg (fun a => leg (fun b => leg (fun c => leg (fun d => W (code4 a b c d)) i2) i1) i2') i1')%C.
Proof.
  unfold to_contour, sum4.
  rewrite <- (csum_leg (fun a => leg (fun b => leg (fun c => leg (fun d => W (code4 a b c d)) i2) i1) i2') i1').
  apply csum_ext; intros a.
  etransitivity; [apply csum_ext; intros b; etransitivity; [apply csum_ext; intros c; apply csum_leg'|]|].
  - etransitivity; [|apply Cscale_q; reflexivity]. apply (csum_leg' (cbas i1' a * cbas i2' b)).
  - apply (csum_leg' (cbas i1' a)).
Qed.

(** the two ends of the line *)
Lemma line_ends (G : bool -> bool -> cplx) (w : bool -> bool -> cplx) :
  (csum bits (fun x => csum bits (fun x' => leg (fun a => leg (fun b => G a b) x') x * leg (fun b => leg (fun a => w b a) x) x'))
   == Cscale 4 (csum bits (fun x => csum bits (fun x' => G x x' * w x' x))))%C.
Proof. rewrite Cscale_4. unfold csum, bits, leg; cbn [fold_right]. ring. Qed.
(** the two external legs *)
Lemma external_legs (F : bool -> bool -> cplx) a' a :
  (csum bits (fun i => csum bits (fun i' => Cscale (cbas i' a' * cbas i a) (leg (fun b => leg (fun c => F b c) i) i')))
   == Cscale 4 (F a' a))%C.
Proof.
  rewrite Cscale_4. destruct a', a; unfold csum, bits, leg; cbn [fold_right cbas];
    change (1 * 1)%Q with 1%Q; change (1 * -1)%Q with (-1)%Q; change (-1 * 1)%Q with (-1)%Q; change (-1 * -1)%Q with 1%Q;
    rewrite ?Cscale_1, ?Cscale_m1; ring.
Qed.
Lemma leg_swap (F : bool -> bool -> cplx) i j :
  (leg (fun a => leg (fun b => F a b) j) i == leg (fun b => leg (fun a => F a b) i) j)%C.
Proof. destruct i, j; unfold leg; ring. Qed.
Lemma leg_mul (F : bool -> cplx) x i : (x * leg F i == leg (fun a => x * F a)%C i)%C.
Proof. destruct i; unfold leg; ring. Qed.
Lemma leg_add (F F' : bool -> cplx) i : (leg F i + leg F' i == leg (fun a => F a + F' a)%C i)%C.
Proof. destruct i; unfold leg; ring. Qed.
(** order of the legs: the ends of the line first *)
Lemma closed_legs right W i' i x' x :
  (closed right (to_contour W) i' i x' x
   == leg (fun b => leg (fun a => leg (fun c => leg (fun d => W (closed right code4 c d b a)) i) i') x) x')%C.
Proof.
  destruct right; cbn [closed]; rewrite to_contour_legs.
  - apply leg_ext; intros b. destruct i', i, x; unfold leg; ring.
  - destruct i', i, x', x; unfold leg; ring.
Qed.

Lemma rotated_identity right (g : prop) vp W a' a :
  (rotated right (Gcontour g vp) (fun b c d e => Cscale (1 # 4) (to_contour W b c d e)) a' a
   == contr right (Gmat g vp) W a' a)%C.
Proof.
  unfold rotated.
  assert (E : forall i i', (csum bits (fun x => csum bits (fun x' =>
      Gcontour g vp x x' * closed right (fun b c d e => Cscale (1 # 4) (to_contour W b c d e)) i' i x' x))
    == Cscale (1 # 2) (leg (fun b => leg (fun c => contr right (Gmat g vp) W b c) i) i'))%C).
  { intros i i'.
    transitivity (csum bits (fun x => csum bits (fun x' => Cscale ((1 # 2) * (1 # 4))
      (leg (fun a => leg (fun b => Gmat g vp a b) x') x
       * leg (fun b => leg (fun a => leg (fun c => leg (fun d => W (closed right code4 c d b a)) i) i') x) x')%C))).
    { apply csum_ext; intros x; apply csum_ext; intros x'.
      assert (H : (closed right (fun b c d e => Cscale (1 # 4) (to_contour W b c d e)) i' i x' x
                   == Cscale (1 # 4) (closed right (to_contour W) i' i x' x))%C)
        by (destruct right; reflexivity).
      rewrite Gcontour_legs, Cscale_mul_l, H, closed_legs, Cscale_mul_r, Cscale_Cscale. reflexivity. }
    etransitivity; [apply csum_ext; intros x; apply csum_scale|]. rewrite csum_scale.
    etransitivity; [apply Cscale_m; [reflexivity|];
      apply (line_ends (Gmat g vp) (fun b a => leg (fun c => leg (fun d => W (closed right code4 c d b a)) i) i'))|].
    rewrite Cscale_Cscale.
    rewrite (Cscale_q (((1 # 2) * (1 # 4)) * 4) (1 # 2)) by reflexivity.
    apply Cscale_m; [reflexivity|]. unfold contr, csum, bits; cbn [fold_right].
    destruct i', i; unfold leg; ring. }
  transitivity (csum bits (fun i => csum bits (fun i' => Cscale (1 # 4) (Cscale (cbas i' a' * cbas i a)
      (leg (fun b => leg (fun c => contr right (Gmat g vp) W b c) i) i'))))).
  { apply csum_ext; intros i; apply csum_ext; intros i'. rewrite E, Cscale_Cscale.
    rewrite (Cscale_q _ ((1 # 4) * (cbas i' a' * cbas i a))) by ring.
    rewrite <- Cscale_Cscale. reflexivity. }
  etransitivity; [apply csum_ext; intros i; apply csum_scale|]. rewrite csum_scale.
  rewrite (external_legs (fun b c => contr right (Gmat g vp) W b c)), Cscale_Cscale.
  rewrite (Cscale_q ((1 # 4) * 4) 1) by reflexivity. apply Cscale_1.
Qed.

(** ** the integrands *)
Lemma legs_loop (right : bool) vp v : legs_eq (legs_of (pick_channel right) (0%Q, vp, v)) (leg_freqs right v vp).
Proof.
  destruct right; unfold legs_eq, leg_freqs, closed, legs_of, pick_channel; cbn [n1' n2' n1 n2];
    repeat split; field.
Qed.
(** the vertex of the specification *)
Definition wsel (right all_spins : bool) (Gam : vertex_legs) : legs -> Z -> cplx :=
  if all_spins then spin_summed right Gam else one_spin right Gam.
Lemma wspin_spec right all_spins Gam l k : right && all_spins = false ->
  (wspin right all_spins (Gam 0 l k) (Gam 1 l k) == wsel right all_spins Gam l k)%C.
Proof.
  intros H. destruct right, all_spins; try discriminate H; unfold wsel;
    cbv [wspin spin_summed one_spin csum bits fold_right full_spin Bool.eqb andb closed]; ring.
Qed.
Lemma wspin_m right all_spins x x' y y' : (x == x')%C -> (y == y')%C ->
  (wspin right all_spins x y == wspin right all_spins x' y')%C.
Proof. intros H H'. destruct right, all_spins; cbn [wspin]; rewrite ?H, ?H'; reflexivity. Qed.
Lemma to_contour_m W W' a b c d : (forall a b c d, (W (code4 a b c d) == W' (code4 a b c d))%C) ->
  (to_contour W a b c d == to_contour W' a b c d)%C.
Proof. intros H. unfold to_contour. apply sum4_ext; intros. rewrite H. reflexivity. Qed.
Lemma wspin_contour right all_spins W0 W1 a b c d :
  (wspin right all_spins (Cscale (1 # 4) (to_contour W0 a b c d)) (Cscale (1 # 4) (to_contour W1 a b c d))
   == Cscale (1 # 4) (to_contour (fun k => wspin right all_spins (W0 k) (W1 k)) a b c d))%C.
Proof.
  destruct right, all_spins; cbn [wspin]; try reflexivity; rewrite <- ?Cscale_add;
    (apply Cscale_m; [reflexivity|]); rewrite !to_contour_legs; destruct a, b, c, d; unfold leg; ring.
Qed.

Section Integrand.
Variables (Gam : vertex_legs) (V : vertexfn) (right all_spins : bool) (g : prop) (v : Q).
Hypothesis HG : vertex_ok Gam.
Hypothesis Hs : right && all_spins = false.

Definition target (vp : Q) (a' a : bool) : cplx := contraction right (wsel right all_spins Gam) g v vp a' a.
Lemma target_contr vp a' a : target vp a' a = contr right (Gmat g vp) (wsel right all_spins Gam (leg_freqs right v vp)) a' a.
Proof. reflexivity. Qed.

Lemma row_keldysh vp a' a : seen false right Gam V ->
  (rowmat (evaluate_propagator_vectorized false g vp) (evaluate_vertex_vectorized right all_spins V vp v) (rowi a a')
   == target vp a' a)%C.
Proof.
  intros HV. rewrite target_contr. apply rowmat_contr.
  - intros x' x. apply prop_row.
  - intros x' x. rewrite vertex_entry by apply rowi_lt. rewrite pos_legs, <- wspin_spec by exact Hs.
    apply wspin_m; unfold closed; destruct right; unfold seen in HV; rewrite HV by auto;
      (apply HG; [auto|]); apply (legs_loop true) || apply (legs_loop false).
Qed.
Lemma row_contour vp i' i : seen true right Gam V ->
  (rowmat (evaluate_propagator_vectorized true g vp) (evaluate_vertex_vectorized right all_spins V vp v) (rowi i i')
   == csum bits (fun x => csum bits (fun x' => (Gcontour g vp x x' * closed right (fun b c d e =>
        Cscale (1 # 4) (to_contour (wsel right all_spins Gam (leg_freqs right v vp)) b c d e)) i' i x' x)%C)))%C.
Proof.
  intros HV.
  rewrite (rowmat_contr right _ _ (Gcontour g vp)
             (fun k => wspin right all_spins (V (pick_channel right) 0 k vp v) (V (pick_channel right) 1 k vp v))).
  - unfold contr. apply csum_ext; intros x; apply csum_ext; intros x'.
    assert (H : forall a b c d, (wspin right all_spins (V (pick_channel right) 0 (code4 a b c d) vp v) (V (pick_channel right) 1 (code4 a b c d) vp v)
       == Cscale (1 # 4) (to_contour (wsel right all_spins Gam (leg_freqs right v vp)) a b c d))%C).
    { intros a b c d. rewrite (wspin_m _ _ _ _ _ _ (HV 0 vp v a b c d (or_introl eq_refl)) (HV 1 vp v a b c d (or_intror eq_refl))).
      rewrite wspin_contour. apply Cscale_m; [reflexivity|]. apply to_contour_m. intros.
      rewrite <- wspin_spec by exact Hs. apply wspin_m; (apply HG; [auto|]); apply legs_loop. }
    destruct right; cbn [closed]; rewrite H; reflexivity.
  - intros x' x. apply (prop_row true).
  - intros x' x. rewrite vertex_entry by apply rowi_lt. rewrite pos_legs. reflexivity.
Qed.
End Integrand.
