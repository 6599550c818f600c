(** Theorems for C105 (closing the line of the self-energy loop), C106 (asymptotic value after the
    loop), C107 (self-energies from the Schwinger-Dyson equation and second-order perturbation
    theory) and C103 (the Hartree shift is contained once). *)
From Coq Require Import QArith Setoid Morphisms Ring.
From Verif Require Import Prelude Idx_Model Cplx Keld_Model Keld_Spec Keld_Proofs Util_Spec Lop_Model Lop_Spec
  Lop_Proofs Lop_Proofs2.
Open Scope Z_scope.

(** ** C105 *)
(** vectorised integration, either basis, line closed above or on the right *)
Theorem C105_vectorised_partial : forall J Gam V contour right g v self k a' a,
  integral_ok J -> integral_imaginary J -> vertex_ok Gam -> conj_symmetric Gam -> exchange_symmetric Gam ->
  antihermitian g -> seen contour right Gam V -> component k = Some (a', a) ->
  (compute_Keldysh_vector J contour right false V g v self k
   == J (fun vp => contraction right (one_spin right Gam) g v vp a' a))%C /\
  (right = false ->
   (compute_Keldysh_vector J contour right true V g v self k
    == J (fun vp => contraction right (spin_summed right Gam) g v vp a' a))%C).
Proof.
  intros J Gam V contour right g v self k a' a HJ HI HG Hc Hx Hk HV E. split.
  - apply (vector_spec J Gam V contour right false g v self k a' a HJ HI HG Hc Hx Hk HV); [|exact E].
    destruct right; reflexivity.
  - intros ->. apply (vector_spec J Gam V contour false true g v self k a' a HJ HI HG Hc Hx Hk HV eq_refl E).
Qed.
(** one component at a time; no symmetry of the vertex is needed *)
Theorem C105_scalar_partial : forall J Gam V contour right g v self k a' a,
  integral_ok J -> vertex_ok Gam -> seen contour right Gam V -> component k = Some (a', a) ->
  (compute_Keldysh_scalar J contour right false V g v self k
   == J (fun vp => contraction right (one_spin right Gam) g v vp a' a))%C /\
  (right = false ->
   (compute_Keldysh_scalar J contour right true V g v self k
    == J (fun vp => contraction right (spin_summed right Gam) g v vp a' a))%C).
Proof.
  intros J Gam V contour right g v self k a' a HJ HG HV E. split.
  - apply (scalar_spec J Gam V contour right false g v self k a' a HJ HG HV); [|exact E].
    destruct right; reflexivity.
  - intros ->. apply (scalar_spec J Gam V contour false true g v self k a' a HJ HG HV eq_refl E).
Qed.
(** the Keldysh sum outside the integral (SWITCH_SUM_N_INTEGRAL 0) in the contour basis *)
Theorem C105_outer_sum_contour_partial : forall J Gam V all_spins g v self k a' a,
  integral_ok J -> vertex_ok Gam -> seen true false Gam V -> component k = Some (a', a) ->
  exists s, compute_Keldysh_switch0_contour J all_spins V g v self = Some s /\
    (s k == J (fun vp => contraction false (if all_spins then spin_summed false Gam else one_spin false Gam) g v vp a' a))%C.
Proof.
  intros J Gam V all_spins g v self k a' a HJ HG HV E.
  destruct (switch0_contour_spec J HJ Gam V all_spins g v HG self k a' a HV E) as (s & Es & H).
  exists s. split; [exact Es|exact H].
Qed.
(** … and in the Keldysh basis: an assertion fails for every input; without assertions the Keldysh
    component is stored as retarded one, everything is counted twice and added to the old contents *)
Theorem C105_outer_sum_keldysh_refuted : forall J Gam V all_spins g v self,
  integral_ok J -> vertex_ok Gam -> seen false false Gam V ->
  compute_Keldysh_switch0 J false all_spins V g v self = None /\
  exists s, compute_Keldysh_switch0 J true all_spins V g v self = Some s /\
    let K := J (fun vp => contraction false (if all_spins then spin_summed false Gam else one_spin false Gam) g v vp false false) in
    (s 0 == self 0 + K + K)%C /\ (s 1 == self 1 + K + K)%C /\ s 2 = self 2.
Proof.
  intros J Gam V all_spins g v self HJ HG HV. split; [reflexivity|].
  eexists; split; [reflexivity|].
  pose proof (switch0_table J HJ Gam V all_spins g v HG [1; 4; 5; 2; 8; 10] false HV (or_introl (conj eq_refl eq_refl))) as T.
  change (J (fun vp => contraction false (if all_spins then spin_summed false Gam else one_spin false Gam) g v vp false false))
    with (J (fun vp => contraction false (wsel false all_spins Gam) g v vp false false)).
  cbn zeta.
  split; [|split]; unfold switch0_block, switch0_pass, addself, setself; cbn [fold_left Z.eqb Pos.eqb].
  - rewrite <- T. unfold bothspins. destruct all_spins; ring.
  - rewrite <- T. unfold bothspins. destruct all_spins; ring.
  - reflexivity.
Qed.

(** the tables of components are right for both types of the Keldysh basis: type 2 would give the retarded component *)
Theorem C105_outer_sum_tables_partial : forall J Gam V (all_spins : bool) g v ndebug type comps,
  integral_ok J -> vertex_ok Gam -> seen false false Gam V -> type = 0 \/ type = 2 -> components0 false ndebug type = Some comps ->
  let value (s : Z) iK := J (Keldysh_value_component false comps s V g v iK) in
  let both iK := if all_spins then (Cscale 2 (value 0 iK) + value 1 iK)%C else value 0 iK in
  (both 0%nat + both 1%nat + both 2%nat
   == J (fun vp => contraction false (if all_spins then spin_summed false Gam else one_spin false Gam) g v vp false (type =? 2)))%C.
Proof.
  intros J Gam V all_spins g v ndebug type comps HJ HG HV [-> | ->] [= <-];
    refine (switch0_table J HJ Gam V all_spins g v HG _ _ HV _); [left|right]; split; reflexivity.
Qed.

(** example data *)
Definition J0 (f : Q -> cplx) : cplx := (Ci * (f 1%Q + f (-1)%Q))%C.
Lemma J0_ok : integral_ok J0.
Proof.
  unfold integral_ok, J0. split; [|split; [|split]].
  - intros f h H. rewrite (H 1%Q), (H (-1)%Q). reflexivity.
  - intros f h. ring.
  - intros q f. rewrite !Cscale_ofq. ring.
  - intros f. change (- (1))%Q with (-1)%Q. change (- (-1))%Q with 1%Q. ring.
Qed.
Lemma J0_imaginary : integral_imaginary J0.
Proof.
  intros f. unfold J0. destruct (f 1%Q) as [a b], (f (-1)%Q) as [c d].
  unfold Ceq, Cmul, Cadd, Cconj, Cneg, Ci; cbn [re im]; split; ring.
Qed.
(** a vertex with the two spin components x (spin 0) and y (spin 1), times 1 on the components with an
    odd number of indices 2 and times i on the others *)
Definition Gam0 (x y : Q) : vertex_legs := fun s _ k =>
  Cscale (if s =? 0 then x else y) (if isInList k odd_Keldysh then C1 else Ci).
Lemma Gam0_ok x y : vertex_ok (Gam0 x y).
Proof. intros s l l' a b c d _ _. reflexivity. Qed.
Lemma Gam0_conj x y : conj_symmetric (Gam0 x y).
Proof.
  intros s l a b c d _ _. unfold Gam0. generalize (if s =? 0 then x else y). intros z.
  assert (E : forall p q r t, isInList (code4 p q r t) odd_Keldysh = xorb (xorb p q) (xorb r t))
    by (intros [|] [|] [|] [|]; reflexivity).
  rewrite !E. destruct a, b, c, d; cbn [xorb]; unfold conj_sign, Ceq, Cscale, Cconj, C1, Ci; cbn [re im xorb]; split; ring.
Qed.
Lemma Gam0_exchange x y : exchange_symmetric (Gam0 x y).
Proof. intros s l a b c d _ _. unfold Gam0. destruct a, b, c, d; reflexivity. Qed.
Definition V0 (Gam : vertex_legs) : vertexfn := fun ch s k v v' => Gam s (legs_of ch (0%Q, v, v')) k.
Lemma V0_seen right Gam : seen false right Gam (V0 Gam).
Proof. intros s v v' a b c d _. reflexivity. Qed.
Definition V0c (Gam : vertex_legs) : vertexfn := fun ch s k v v' =>
  match iK_to_alphas k with
  | [a; b; c; d] => Cscale (1 # 4) (to_contour (Gam s (legs_of ch (0%Q, v, v'))) (a =? 2) (b =? 2) (c =? 2) (d =? 2))
  | _ => C0
  end.
Lemma V0c_seen right Gam : seen true right Gam (V0c Gam).
Proof. intros s v v' a b c d _. destruct right, a, b, c, d; reflexivity. Qed.
Definition g0 : prop := Prop_ (fun _ => Cplx 1 1) (fun v => Cplx 0 v).
Lemma g0_anti : antihermitian g0.
Proof. intros v. unfold Ceq, g0, Cconj, Cneg; cbn [gK re im]; split; ring. Qed.

(** line closed on the right with the spins summed: the code adds up 2(V0+V1)+V1 instead of V0+2V1 *)
Theorem C105_spin_sum_right_refuted : exists J Gam V g v self,
  integral_ok J /\ integral_imaginary J /\ vertex_ok Gam /\ conj_symmetric Gam /\ exchange_symmetric Gam /\
  antihermitian g /\ seen false true Gam V /\
  ~ (compute_Keldysh_vector J false true true V g v self 0
     == J (fun vp => contraction true (spin_summed true Gam) g v vp false true))%C /\
  ~ (compute_Keldysh_scalar J false true true V g v self 0
     == J (fun vp => contraction true (spin_summed true Gam) g v vp false true))%C.
Proof.
  exists J0, (Gam0 1 0), (V0 (Gam0 1 0)), g0, 0%Q, (fun _ => C0).
  split; [exact J0_ok|]. split; [exact J0_imaginary|]. split; [apply Gam0_ok|]. split; [apply Gam0_conj|].
  split; [apply Gam0_exchange|]. split; [exact g0_anti|]. split; [apply V0_seen|].
  split; intros [H1 H2]; vm_compute in H1, H2; (discriminate H1 || discriminate H2).
Qed.
(** the retarded component stored without assertions is not the retarded one *)
Theorem C105_outer_sum_component_refuted : exists J Gam V g v,
  integral_ok J /\ vertex_ok Gam /\ seen false false Gam V /\
  exists s, compute_Keldysh_switch0 J true false V g v (fun _ => C0) = Some s /\
  ~ (s 0 == J (fun vp => contraction false (one_spin false Gam) g v vp false true))%C /\
  ~ (s 1 == J (fun vp => contraction false (one_spin false Gam) g v vp false false))%C.
Proof.
  exists J0, (Gam0 1 0), (V0 (Gam0 1 0)), g0, 0%Q.
  split; [exact J0_ok|]. split; [apply Gam0_ok|]. split; [apply V0_seen|].
  eexists; split; [reflexivity|].
  split; intros [H1 H2]; vm_compute in H1, H2; (discriminate H1 || discriminate H2).
Qed.

(** Matsubara: with particle-hole symmetry only imaginary parts are stored, the propagator with a minus
    sign.  The stored number times i is the loop closed with the propagator -i GM. *)
Theorem C105_matsubara_partial : forall J Gam V right GM v self,
  (forall f h, (forall x, (f x == h x)%C) -> (J f == J h)%C) ->
  (forall z f, (J (fun x => z * f x)%C == z * J f)%C) ->
  vertex_ok Gam ->
  (forall ch s v v', s = 0 \/ s = 1 -> (V ch s 0 v v' == Gam s (legs_of ch (0%Q, v, v')) 0)%C) ->
  (compute_Matsubara J false right false V GM v self 0
   == J (fun vp => GM vp * one_spin right Gam (leg_freqs right v vp) 0))%C /\
  (Ci * compute_Matsubara J true right false V GM v self 0
   == J (fun vp => (- (Ci * GM vp)) * one_spin right Gam (leg_freqs right v vp) 0))%C /\
  (right = false ->
   (compute_Matsubara J false right true V GM v self 0
    == J (fun vp => GM vp * spin_summed right Gam (leg_freqs right v vp) 0))%C /\
   (Ci * compute_Matsubara J true right true V GM v self 0
    == J (fun vp => (- (Ci * GM vp)) * spin_summed right Gam (leg_freqs right v vp) 0))%C).
Proof.
  intros J Gam V right GM v self Hext Hlin HG HV.
  assert (W : forall all_spins vp, right && all_spins = false ->
     (vertex_Matsubara right all_spins V vp v == wsel right all_spins Gam (leg_freqs right v vp) 0)%C).
  { intros all_spins vp Hs. rewrite <- wspin_spec by exact Hs.
    assert (E0 : (V (pick_channel right) 0 0 vp v == Gam 0 (leg_freqs right v vp) 0)%C)
      by (rewrite HV by auto; (apply (HG _ _ _ false false false false); [auto|]); apply legs_loop).
    assert (E1 : (V (pick_channel right) 1 0 vp v == Gam 1 (leg_freqs right v vp) 0)%C)
      by (rewrite HV by auto; (apply (HG _ _ _ false false false false); [auto|]); apply legs_loop).
    rewrite <- (wspin_m right all_spins _ _ _ _ E0 E1).
    unfold vertex_Matsubara, pick_spin, spin_component.
    destruct right, all_spins; try discriminate Hs; cbn [wspin]; change (2 - 0 =? 2) with true;
      change (0 =? 2) with false; change (1 =? 2) with false; cbn iota; rewrite ?Cscale_2; reflexivity. }
  assert (P : forall all_spins, right && all_spins = false ->
    (compute_Matsubara J false right all_spins V GM v self 0
     == J (fun vp => GM vp * wsel right all_spins Gam (leg_freqs right v vp) 0))%C /\
    (Ci * compute_Matsubara J true right all_spins V GM v self 0
     == J (fun vp => (- (Ci * GM vp)) * wsel right all_spins Gam (leg_freqs right v vp) 0))%C).
  { intros all_spins Hs. unfold compute_Matsubara, setself; cbn [Z.eqb]. split.
    - apply Hext. intros x. unfold Matsubara_value. rewrite (W all_spins) by exact Hs. reflexivity.
    - rewrite <- Hlin. apply Hext. intros x. unfold Matsubara_value. rewrite (W all_spins) by exact Hs. ring. }
  assert (Hs : right && false = false) by (destruct right; reflexivity).
  destruct (P false Hs) as [P1 P2]. split; [exact P1|]. split; [exact P2|].
  intros ->. exact (P true eq_refl).
Qed.
Example C105_hyp :
  integral_ok J0 /\ integral_imaginary J0 /\ vertex_ok (Gam0 1 2) /\ conj_symmetric (Gam0 1 2) /\
  exchange_symmetric (Gam0 1 2) /\ antihermitian g0 /\ seen false true (Gam0 1 2) (V0 (Gam0 1 2)) /\
  seen true false (Gam0 1 2) (V0c (Gam0 1 2)) /\ component 0 = Some (false, true) /\
  (compute_Keldysh_vector J0 false false true (V0 (Gam0 1 2)) g0 0 (fun _ => C0) 0 == Cplx (- (16)) 0)%C.
Proof.
  split; [exact J0_ok|]. split; [exact J0_imaginary|]. split; [apply Gam0_ok|]. split; [apply Gam0_conj|].
  split; [apply Gam0_exchange|]. split; [exact g0_anti|]. split; [apply V0_seen|]. split; [apply V0c_seen|].
  split; [reflexivity|]. split; vm_compute; reflexivity.
Qed.

(** ** C106 *)
(** without particle-hole symmetry the retarded part (stored plus asymptotic value) of the result is the
    computed one at every grid point, whatever the self-energy contained before; the Keldysh component
    is untouched by the splitting *)
Definition sgn (version : bool) : Q := if version then (-1)%Q else 1%Q.
Definition in_grid (nFER iv : Z) : Prop := 0 <= iv < nFER.
Lemma in_grid_b nFER iv : in_grid nFER iv -> (0 <=? iv) && (iv <? nFER) = true.
Proof. intros [H1 H2]. apply andb_true_iff. split; [apply Z.leb_le|apply Z.ltb_lt]; assumption. Qed.
Lemma run_loop_at nFER freq calc s iv v k : in_grid nFER iv -> freq iv = Some v ->
  Sigma (run_loop nFER freq calc s) k iv = calc v (fun k => Sigma s k iv) k.
Proof. intros H E. unfold run_loop. cbn [Sigma]. rewrite (in_grid_b _ _ H), E. reflexivity. Qed.
Theorem C106_splitting_partial : forall version nFER freq calc self iv v,
  in_grid nFER iv -> freq iv = Some v ->
  let r := loop false version nFER freq calc self in
  let x := calc v (fun k => Sigma self k iv) in
  (valsmooth_at r 0 iv == Cscale (sgn version) (x 0))%C /\ (valsmooth_at r 1 iv == Cscale (sgn version) (x 1))%C /\
  (im (asymp_val_R r) == 0)%Q /\
  (Cofq (re (Sigma r 0 0)) == - Cofq (re (Sigma r 0 (nFER - 1))))%C.
Proof.
  intros version nFER freq calc self iv v H E. cbn zeta.
  assert (H0 : (0 <=? 0) && (0 <? nFER) = true) by (apply in_grid_b; unfold in_grid in *; lia).
  assert (H1 : (0 <=? nFER - 1) && (nFER - 1 <? nFER) = true) by (apply in_grid_b; unfold in_grid in *; lia).
  unfold loop, valsmooth_at. cbn [Sigma asymp_val_R scaleSE Z.eqb andb]. fold (sgn version).
  rewrite H0, H1, (in_grid_b _ _ H), (run_loop_at _ _ _ _ _ _ _ H E), (run_loop_at _ _ _ _ _ _ _ H E).
  change (inject_Z (1 - 0)) with 1%Q. change (inject_Z (1 - 1)) with 0%Q.
  split; [|split; [|split]].
  - unfold Ceq, Cscale, Cadd, Cofq; cbn [re im]; split; ring.
  - unfold Ceq, Cscale, Cadd, Cofq; cbn [re im]; split; ring.
  - reflexivity.
  - unfold Ceq, Cscale, Cadd, Cofq, Cneg; cbn [re im]; split; ring.
Qed.
(** with particle-hole symmetry this holds if the asymptotic value was zero before *)
Theorem C106_symmetric_partial : forall version nFER freq calc self iv v,
  in_grid nFER iv -> freq iv = Some v -> (asymp_val_R self == C0)%C ->
  let r := loop true version nFER freq calc self in
  let x := calc v (fun k => Sigma self k iv) in
  forall k, (valsmooth_at r k iv == Cscale (sgn version) (x k))%C.
Proof.
  intros version nFER freq calc self iv v H E A. cbn zeta. intros k.
  unfold loop, valsmooth_at. cbn [Sigma asymp_val_R scaleSE run_loop]. fold (sgn version).
  rewrite (in_grid_b _ _ H), E, A.
  unfold Ceq, Cscale, Cadd, C0; cbn [re im]; split; ring.
Qed.
(** … and otherwise the old asymptotic value is kept on top of the result, with the other sign if the
    loop is closed on the right *)
Theorem C106_symmetric_refuted : exists nFER freq calc self iv v,
  in_grid nFER iv /\ freq iv = Some v /\
  (valsmooth_at (loop true false nFER freq calc self) 0 iv == calc v (fun k => Sigma self k iv) 0%Z + C1)%C /\
  (valsmooth_at (loop true true nFER freq calc self) 0 iv == - calc v (fun k => Sigma self k iv) 0%Z - C1)%C.
Proof.
  exists 3, (fun _ => Some 0%Q), (fun _ _ _ => Cplx 2 1), (SE (fun _ _ => C0) C1), 1, 0%Q.
  split; [unfold in_grid; lia|]. split; [reflexivity|].
  split; vm_compute; split; reflexivity.
Qed.
(** the third component, which should vanish, is reported as minus the asymptotic value *)
Theorem C106_third_component_refuted : exists nFER freq calc self iv v,
  in_grid nFER iv /\ freq iv = Some v /\ calc v (fun k => Sigma self k iv) 2 = C0 /\ Sigma self 2 iv = C0 /\
  (valsmooth_at (loop false false nFER freq calc self) 2 iv == - C1)%C.
Proof.
  exists 3, (fun _ => Some 0%Q), (fun _ _ k => if k =? 0 then C1 else C0), zeroSE, 1, 0%Q.
  split; [unfold in_grid; lia|]. split; [reflexivity|]. split; [reflexivity|]. split; [reflexivity|].
  vm_compute; split; reflexivity.
Qed.
Example C106_hyp : in_grid 3 1 /\
  (valsmooth_at (loop false true 3 (fun iv => Some (inject_Z iv)) (fun v _ _ => Cplx (v * v) 1) zeroSE) 0 1 == - Cplx 1 1)%C /\
  (asymp_val_R (loop false true 3 (fun iv => Some (inject_Z iv)) (fun v _ _ => Cplx (v * v) 1) zeroSE) == - Cplx 2 0)%C.
Proof. split; [unfold in_grid; lia|]. split; vm_compute; split; reflexivity. Qed.

(** ** C107 *)
(** with particle-hole symmetry the second-order self-energy is the Hartree value plus the loop *)
Theorem C107_sopt_partial : forall nFER freq calc keldysh U hartree Psi iv v,
  in_grid nFER iv -> freq iv = Some v ->
  (valsmooth_at (sopt_state keldysh true U hartree (loop true false nFER freq calc) Psi) 0 iv
   == calc v (fun k => Sigma Psi k iv) 0%Z + asymp_val_R (initialize_state keldysh true U hartree))%C.
Proof.
  intros nFER freq calc keldysh U hartree Psi iv v H E.
  unfold valsmooth_at, sopt_state, selfEnergyInSOPT, loop. cbn [Sigma asymp_val_R scaleSE run_loop].
  rewrite (in_grid_b _ _ H), E. change (inject_Z (1 - 0)) with 1%Q. rewrite !Cscale_1. reflexivity.
Qed.
(** without particle-hole symmetry the constant that the loop moves into the asymptotic value is lost *)
Theorem C107_sopt_refuted : exists nFER freq calc keldysh U hartree Psi iv v,
  in_grid nFER iv /\ freq iv = Some v /\
  ~ (valsmooth_at (sopt_state keldysh false U hartree (loop false false nFER freq calc) Psi) 0 iv
     == calc v (fun k => Sigma Psi k iv) 0%Z + asymp_val_R (initialize_state keldysh false U hartree))%C.
Proof.
  exists 3, (fun iv => Some (inject_Z iv)), (fun v _ _ => Cplx (v * v) 1), true, 1%Q, (1 # 3)%Q, zeroSE, 1, 1%Q.
  split; [unfold in_grid; lia|]. split; [reflexivity|].
  intros [H _]. vm_compute in H. discriminate H.
Qed.
(** Schwinger-Dyson equation, version 1: the second-order diagram is counted once.  [a1 p1 t1]: what the
    three channels contribute beyond it *)
Theorem C107_sde_counting_partial : forall a p t s0 (a1 p1 t1 : Z -> Z -> cplx) k iv,
  (Sigma a k iv == Sigma s0 k iv + a1 k iv)%C -> (Sigma p k iv == Sigma s0 k iv + p1 k iv)%C ->
  (Sigma t k iv == Sigma s0 k iv + t1 k iv)%C ->
  (Sigma (SDE_v1 a p t s0) k iv == Sigma s0 k iv + a1 k iv + p1 k iv + t1 k iv)%C.
Proof.
  intros a p t s0 a1 p1 t1 k iv Ha Hp Ht. unfold SDE_v1. cbn [Sigma addSE scaleSE].
  rewrite Ha, Hp, Ht. unfold Ceq, Cscale, Cadd; cbn [re im]; split; ring.
Qed.
(** versions 2 and 3: the mean of two channels is either of them if they agree *)
Theorem C107_sde_mean_partial : forall a p k iv, (Sigma a k iv == Sigma p k iv)%C ->
  (Sigma (SDE_v2 a p) k iv == Sigma a k iv)%C.
Proof.
  intros a p k iv H. unfold SDE_v2. cbn [Sigma addSE scaleSE]. rewrite <- H.
  unfold Ceq, Cscale, Cadd; cbn [re im]; split; ring.
Qed.
(** the result of the Schwinger-Dyson equation is Hartree plus loops with particle-hole symmetry in the
    Keldysh formalism *)
Theorem C107_sde_partial : forall nFER freq calc U hartree self iv v,
  in_grid nFER iv -> freq iv = Some v ->
  (valsmooth_at (compute_SDE true U hartree (loop true false nFER freq calc self)) 0 iv
   == calc v (fun k => Sigma self k iv) 0%Z + asymp_val_R (initialize_state true true U hartree))%C.
Proof.
  intros nFER freq calc U hartree self iv v H E.
  unfold valsmooth_at, compute_SDE, loop. cbn [Sigma asymp_val_R scaleSE run_loop initialize_state].
  rewrite (in_grid_b _ _ H), E. change (inject_Z (1 - 0)) with 1%Q. rewrite !Cscale_1. reflexivity.
Qed.
(** without particle-hole symmetry the constant part of the loops is lost here too *)
Theorem C107_sde_refuted : exists nFER freq calc U hartree iv v,
  in_grid nFER iv /\ freq iv = Some v /\
  ~ (valsmooth_at (compute_SDE false U hartree (loop false false nFER freq calc zeroSE)) 0 iv
     == calc v (fun _ => C0) 0%Z + Cofq hartree)%C.
Proof.
  exists 3, (fun iv => Some (inject_Z iv)), (fun v _ _ => Cplx (v * v) 1), 1%Q, (1 # 3)%Q, 1, 1%Q.
  split; [unfold in_grid; lia|]. split; [reflexivity|].
  intros [H _]. vm_compute in H. discriminate H.
Qed.
(** in the Matsubara formalism with particle-hole symmetry (imaginary parts are stored, the real Hartree
    value must not be added) the Schwinger-Dyson equation shifts the imaginary part by U/2 *)
Theorem C107_sde_matsubara_refuted : forall nFER freq calc U hartree self iv v,
  in_grid nFER iv -> freq iv = Some v ->
  (valsmooth_at (compute_SDE true U hartree (loop true false nFER freq calc self)) 0 iv
   == calc v (fun k => Sigma self k iv) 0%Z + asymp_val_R (initialize_state false true U hartree) + Cofq (U * (1 # 2)))%C.
Proof.
  intros nFER freq calc U hartree self iv v H E.
  unfold valsmooth_at, compute_SDE, loop. cbn [Sigma asymp_val_R scaleSE run_loop initialize_state].
  rewrite (in_grid_b _ _ H), E. change (inject_Z (1 - 0)) with 1%Q.
  unfold Ceq, Cscale, Cadd, Cofq; cbn [re im]; split; ring.
Qed.
Example C107_hyp : in_grid 3 1 /\
  (valsmooth_at (sopt_state true true 2 0 (loop true false 3 (fun iv => Some (inject_Z iv)) (fun v _ _ => Cplx v 1)) zeroSE) 0 2
   == Cplx 3 1)%C /\
  (Sigma (SDE_v1 (SE (fun _ _ => Cplx 3 0) C0) (SE (fun _ _ => Cplx 4 0) C0) (SE (fun _ _ => Cplx 5 0) C0)
                 (SE (fun _ _ => Cplx 1 0) C0)) 0 0 == Cplx 10 0)%C.
Proof. split; [unfold in_grid; lia|]. split; vm_compute; split; reflexivity. Qed.

(** ** C103 *)
(** second order: the Hartree value is contained once *)
Theorem C103_sopt_partial : forall keldysh phs U hartree loop_a Psi,
  asymp_val_R (sopt_state keldysh phs U hartree loop_a Psi) = asymp_val_R (initialize_state keldysh phs U hartree).
Proof. reflexivity. Qed.
(** third and fourth order: twice, for every loop *)
Theorem C103_topt_refuted : forall keldysh phs U hartree loop_a,
  (asymp_val_R (topt_state keldysh phs U hartree loop_a)
   == Cscale 2 (asymp_val_R (initialize_state keldysh phs U hartree)))%C /\
  (forall iv, (Sigma (topt_state keldysh phs U hartree loop_a) 0 iv
               == Sigma (sopt_state keldysh phs U hartree loop_a zeroSE) 0 iv)%C).
Proof.
  intros. split.
  - unfold topt_state, selfEnergyInSOPT. cbn [asymp_val_R addSE]. rewrite Cscale_2. reflexivity.
  - intros iv. unfold topt_state, sopt_state, selfEnergyInSOPT. cbn [Sigma addSE initialize_state]. ring.
Qed.
Theorem C103_topt_default_refuted :
  ~ (asymp_val_R (topt_state true true 1 0 (fun s => s)) == asymp_val_R (initialize_state true true 1 0))%C.
Proof. intros [H _]. vm_compute in H. discriminate H. Qed.
Example C103_hyp : (asymp_val_R (sopt_state true true 3 0 (fun s => s) zeroSE) == Cplx (3 # 2) 0)%C /\
  (asymp_val_R (topt_state true true 3 0 (fun s => s)) == Cplx 3 0)%C.
Proof. split; vm_compute; split; reflexivity. Qed.

Print Assumptions C105_vectorised_partial.
Print Assumptions C105_scalar_partial.
Print Assumptions C105_outer_sum_contour_partial.
Print Assumptions C105_outer_sum_keldysh_refuted.
Print Assumptions C105_spin_sum_right_refuted.
Print Assumptions C105_matsubara_partial.
Print Assumptions C106_splitting_partial.
Print Assumptions C107_sopt_partial.
Print Assumptions C107_sde_matsubara_refuted.
Print Assumptions C103_topt_refuted.
Print Assumptions C105_outer_sum_tables_partial.
Example C105_tables_hyp : components0 false false 2 = Some [3; 6; 7; 3; 9; 11].
Proof. reflexivity. Qed.
