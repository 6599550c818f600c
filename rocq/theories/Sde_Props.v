(** C125: the versions of the Schwinger-Dyson equation *)
From Coq Require Import QArith Lqa.
From Verif Require Import Prelude Cplx Keld_Model Keld_Spec Keld_Proofs Keld_Props Util_Spec Sym_Model Tab_Model Rd_Model Rd_Spec Dec_Model Bub_Model Bub_Spec Sf_Model Sf_Spec Sf_Props
  Fl_Model Fl_Props Rd_Props Bub_Props Sde_Model Sde_Spec Sde_Proofs4.
From Verif Require Mlp_Model Bse_Model Skp_Spec Lop_Spec Bub_Proofs2 Sf_Proofs Sf_Proofs2 Sde_Proofs.
Open Scope Z_scope.
Import Lop_Spec (vertex_ok, component, integral_ok, integral_imaginary).

Section C125.
  Variables (c : cfg) (J Jl : (Q -> cplx) -> cplx) (pi U : Q) (g : prop) (v : vert).
  Hypothesis Kc : keldysh c = true.
  Hypothesis CBc : contour c = false.
  Hypothesis HJ : integral J.
  Hypothesis HL : Skp_Spec.linear J.
  Hypothesis Hpi : ~ (pi == 0)%Q.
  Hypothesis HI : integral_ok Jl.
  Hypothesis Him : integral_imaginary Jl.
  Hypothesis Hg : lines_ok g.
  Hypothesis Hp : phs c = true -> ph_symmetric g.
  Hypothesis Sy : symmetric c (- U / 2) v.
  Variables (vec : bool) (x : Q) (k : Z) (a' a : bool).
  Hypothesis Ek : component k = Some (a', a).
  Hypothesis Hk : k = 0 \/ k = 1.
  Notation at_k S := ((if k =? 0 then seR else seK) S x).
  (** each contribution is the diagram with three lines between the bare and the full vertex, or the bare vertex with one channel *)
  Theorem C125_each_contribution_is_the_diagram_partial ch :
    (at_k (compute_SDE_impl c J Jl pi vec U ch no_flags v g) == sde_value Jl J pi ch g (- U / 2) (full_vertex v) x a' a)%C /\
    (at_k (compute_SDE_impl_v1 c J Jl pi vec U ch v g) == sde_value Jl J pi ch g (- U / 2) (bare_and v ch) x a' a)%C.
  Proof. split; [eapply impl_full|eapply impl_one]; eassumption. Qed.
  (** if the choice of the integration variables is irrelevant, both versions return the same, which is the diagram *)
  Hypothesis O0 : order_irrelevant Jl J pi x (sde_pair g (- U / 2) (bare_legs (- U / 2)) x a' a).
  Hypothesis Or : forall ch, order_irrelevant Jl J pi x (sde_pair g (- U / 2) (bare_and v ch) x a' a).
  Theorem C125_versions_agree_partial :
    (at_k (compute_SDE_v1 c J Jl pi vec U v g) == at_k (fst (compute_SDE_v2 c J Jl pi vec U v g)))%C /\
    (at_k (snd (compute_SDE_v2 c J Jl pi vec U v g)) == C0)%C /\
    forall ch, (at_k (fst (compute_SDE_v2 c J Jl pi vec U v g)) == sde_value Jl J pi ch g (- U / 2) (full_vertex v) x a' a)%C.
  Proof.
    pose proof (full_order c J Jl pi U g Kc CBc HL HI v Sy x a' a O0 Or) as (F1 & F2).
    assert (E : forall ch, (at_k (compute_SDE_impl c J Jl pi vec U ch no_flags v g) == sde_value Jl J pi Ca g (- U / 2) (full_vertex v) x a' a)%C).
    { intros ch. rewrite (proj1 (C125_each_contribution_is_the_diagram_partial ch)). unfold sde_value. destruct ch; [reflexivity|symmetry; exact F1|symmetry; exact F2]. }
    assert (V2 : (at_k (fst (compute_SDE_v2 c J Jl pi vec U v g)) == sde_value Jl J pi Ca g (- U / 2) (full_vertex v) x a' a)%C).
    { pose proof (E Ca) as A. pose proof (E Cp) as B. unfold compute_SDE_v2, compute_SDE_impl_v2. cbn [fst].
      set (sa := compute_SDE_impl c J Jl pi vec U Ca no_flags v g) in *. set (sp := compute_SDE_impl c J Jl pi vec U Cp no_flags v g) in *.
      destruct (k =? 0); cbn [sscale sadd seR seK]; rewrite A, B; split; unfold Cscale, Cadd; cbn [re im]; ring. }
    split; [|split].
    - rewrite V2. unfold sde_value. rewrite (pair_split c J Jl pi U g Kc CBc HL HI v Sy x a' a Ca). unfold compute_SDE_v1.
      pose proof (proj2 (C125_each_contribution_is_the_diagram_partial Ca)) as A.
      pose proof (proj2 (C125_each_contribution_is_the_diagram_partial Cp)) as B.
      pose proof (proj2 (C125_each_contribution_is_the_diagram_partial Ct)) as D.
      pose proof (impl_bare c J Jl pi U g Kc CBc HJ HL Hpi HI Him Hg Hp vec x k a' a Ek Hk) as E0.
      unfold sde_value in A, B, D. rewrite <- (proj1 (Or Cp)) in B. rewrite <- (proj2 (Or Ct)) in D.
      rewrite <- A, <- B, <- D, <- E0.
      destruct (k =? 0); cbn [sscale sadd ssub seR seK]; split; unfold Cscale, Cadd, Csub, Cneg; cbn [re im]; ring.
    - pose proof (E Ca) as A. pose proof (E Cp) as B. change (snd (compute_SDE_v2 c J Jl pi vec U v g)) with (ssub (compute_SDE_impl c J Jl pi vec U Ca no_flags v g) (compute_SDE_impl c J Jl pi vec U Cp no_flags v g)).
      set (sa := compute_SDE_impl c J Jl pi vec U Ca no_flags v g) in *. set (sp := compute_SDE_impl c J Jl pi vec U Cp no_flags v g) in *.
      clearbody sa sp. unfold ssub, sadd, sscale. destruct (k =? 0); cbn [seR seK]; rewrite A, B; split; unfold Cscale, Cadd, C0; cbn [re im]; ring.
    - intros ch. rewrite V2. unfold sde_value. destruct ch; [reflexivity|exact F1|exact F2].
  Qed.
End C125.
Print Assumptions C125_each_contribution_is_the_diagram_partial.
Print Assumptions C125_versions_agree_partial.

(** example: lines of frequency -1 and 1 only, sums over integers *)
Definition on_lattice (q : Q) : bool := Qeq_bool q 1 || Qeq_bool q (-1).
Definition gL : prop := Prop_ (fun w => if on_lattice w then Cplx (Qred w) (-1) else C0) (fun w => if on_lattice w then Cplx 0 (Qred w) else C0).
Definition reduced (z : cplx) : cplx := Cplx (Qred (re z)) (Qred (im z)).
Lemma reduced_is z : (reduced z == z)%C.
Proof. split; cbn [reduced re im]; apply Qred_correct. Qed.
Definition sum_over (l : list Q) (f : Q -> cplx) : cplx := fold_right (fun q z => reduced (f q + z))%C C0 l.
Definition JL (f : Q -> cplx) : cplx := sum_over [-2; -1; 0; 1; 2]%Q f.
Definition JlL (f : Q -> cplx) : cplx := (Ci * sum_over [-1; 1]%Q f)%C.
Lemma sum_ext l f h : (forall q, (f q == h q)%C) -> (sum_over l f == sum_over l h)%C.
Proof. intros E. induction l as [|q l IH]; cbn [sum_over fold_right]; [reflexivity|]. rewrite !reduced_is. apply Cadd_m; [apply E|exact IH]. Qed.
Lemma sum_add l f h : (sum_over l (fun q => f q + h q) == sum_over l f + sum_over l h)%C.
Proof. induction l as [|q l IH]; cbn [sum_over fold_right]; [ring|]. rewrite !reduced_is. unfold sum_over in IH. rewrite IH. ring. Qed.
Lemma sum_scale l z f : (sum_over l (fun q => z * f q) == z * sum_over l f)%C.
Proof. induction l as [|q l IH]; cbn [sum_over fold_right]; [ring|]. rewrite !reduced_is. unfold sum_over in IH. rewrite IH. ring. Qed.
Lemma sum_conj l f : (sum_over l (fun q => Cconj (f q)) == Cconj (sum_over l f))%C.
Proof.
  induction l as [|q l IH]; cbn [sum_over fold_right]; [split; unfold Cconj, C0; cbn [re im]; ring|]. rewrite !reduced_is. unfold sum_over in IH. rewrite IH.
  split; unfold Cconj, Cadd; cbn [re im]; ring.
Qed.
Lemma JL_integral : integral JL.
Proof.
  constructor; unfold JL; intros.
  - apply sum_ext; assumption.
  - rewrite (sum_ext _ _ (fun q => (- C1) * f q)%C) by (intros; ring). rewrite sum_scale. ring.
  - apply sum_conj.
  - unfold sum_over; cbn [fold_right]. rewrite !reduced_is. cbv [Qopp Z.opp Qnum Qden]. ring.
Qed.
Lemma JL_linear : Skp_Spec.linear JL.
Proof. split; [|split]; unfold JL; intros; [apply sum_ext; assumption|apply sum_add|apply sum_scale]. Qed.
Lemma JlL_ok : integral_ok JlL /\ integral_imaginary JlL.
Proof.
  split; [split; [|split; [|split]]|]; unfold integral_imaginary, JlL; intros.
  - rewrite (sum_ext _ _ _ H). reflexivity.
  - rewrite sum_add. ring.
  - rewrite (sum_ext _ _ (fun y => Cofq q * f y)%C) by (intros; apply Lop_Proofs.Cscale_ofq). rewrite sum_scale, Lop_Proofs.Cscale_ofq. ring.
  - unfold sum_over; cbn [fold_right]. rewrite !reduced_is. cbv [Qopp Z.opp Qnum Qden]. ring.
  - rewrite sum_conj. split; unfold Cmul, Cneg, Cconj, Ci; cbn [re im]; ring.
Qed.
Lemma on_lattice_m q r : (q == r)%Q -> on_lattice q = on_lattice r.
Proof. intros E. unfold on_lattice. rewrite E. reflexivity. Qed.
Lemma on_lattice_opp q : on_lattice (- q) = on_lattice q.
Proof.
  unfold on_lattice.
  assert (B : Qeq_bool (- q) 1 = Qeq_bool q (-1)) by (apply eq_true_iff_eq; rewrite !Qeq_bool_iff; split; intros; lra).
  assert (D : Qeq_bool (- q) (-1) = Qeq_bool q 1) by (apply eq_true_iff_eq; rewrite !Qeq_bool_iff; split; intros; lra).
  rewrite B, D. destruct (Qeq_bool q 1), (Qeq_bool q (-1)); reflexivity.
Qed.
Lemma gL_ok : lines_ok gL /\ ph_symmetric gL.
Proof.
  split; [split; [split|]|].
  - intros q r E. cbn [gL gR]. rewrite (on_lattice_m q r E), (Qred_complete q r E). reflexivity.
  - intros q r E. cbn [gL gK]. rewrite (on_lattice_m q r E), (Qred_complete q r E). reflexivity.
  - intros q. cbn [gL gK]. destruct (on_lattice q); split; unfold Cneg, Cconj, C0; cbn [re im]; ring.
  - intros q. cbn [gL gR gK]. rewrite (on_lattice_opp q).
    destruct (on_lattice q); split; split; unfold Cneg, Cconj, C0; cbn [re im]; rewrite ?Qred_correct; ring.
Qed.
(** with such lines the integration variables are irrelevant *)
Section Lattice.
  Variable F : Q -> Q -> cplx.
  Hypothesis F_m : forall q q' r r', (q == q')%Q -> (r == r')%Q -> (F q r == F q' r')%C.
  Hypothesis F_0 : forall q r, on_lattice q && on_lattice r && on_lattice (back 1 q r) = false -> (F q r == C0)%C.
  Lemma lattice_sum ch : (both_integrals JlL JL (22 # 7) ch 1 F == Ci * prefactor (22 # 7) * (F 1 1 + F 1 (-1) + F (-1) 1))%C.
  Proof.
    unfold both_integrals, JlL, JL, sum_over. cbn [fold_right]. rewrite !reduced_is. generalize (prefactor (22 # 7)). intros p.
    destruct ch; cbn [line_frequencies];
      repeat match goal with |- context [F ?q ?r] =>
        lazymatch constr:((q, r)) with (1%Q, 1%Q) => fail | (1%Q, (-1)%Q) => fail | ((-1)%Q, 1%Q) => fail | _ => idtac end;
        first [rewrite (F_0 q r) by reflexivity | rewrite (F_m q 1 r 1) by reflexivity | rewrite (F_m q 1 r (-1)) by reflexivity | rewrite (F_m q (-1) r 1) by reflexivity] end.
    all: ring.
  Qed.
End Lattice.
Lemma Gmat_off f y z : on_lattice f = false -> (Gmat gL f y z == C0)%C.
Proof. intros E. destruct y, z; unfold Gmat; cbn [gL gR gK]; rewrite ?E; split; unfold Cconj, C0; cbn [re im]; ring. Qed.
Lemma pair_off u V a' a q r : on_lattice q && on_lattice r && on_lattice (back 1 q r) = false -> (sde_pair gL u V 1 a' a q r == C0)%C.
Proof.
  intros E. assert (Z : forall A B, (sde_diagram gL A B 1 a' a q r == C0)%C).
  { intros A B. unfold sde_diagram. generalize (mkLegs 1 (back 1 q r) q r), (mkLegs q r 1 (back 1 q r)). intros l l'.
    unfold sum4, csum, bits; cbn [fold_right].
    destruct (on_lattice q) eqn:E1; [destruct (on_lattice r) eqn:E2; [destruct (on_lattice (back 1 q r)) eqn:E3; [discriminate|]|]|];
      [rewrite !(Gmat_off (back 1 q r)) by assumption|rewrite !(Gmat_off r) by assumption|rewrite !(Gmat_off q) by assumption]; ring. }
  unfold sde_pair. rewrite !Z. split; unfold Cscale, Cadd, C0; cbn [re im]; ring.
Qed.
Lemma pair_value u V a' a q q' r r' : vertex_ok V -> (q == q')%Q -> (r == r')%Q -> (sde_pair gL u V 1 a' a q r == sde_pair gL u V 1 a' a q' r')%C.
Proof.
  intros D Eq Er. assert (Eb : (back 1 q r == back 1 q' r')%Q) by (unfold back; rewrite Eq, Er; reflexivity).
  assert (M : forall f f' y z, (f == f')%Q -> (Gmat gL f y z == Gmat gL f' y z)%C) by (intros; apply Gmat_m; [apply Bub_Proofs2.ok_prop, gL_ok|assumption]).
  assert (G : forall A B, vertex_ok A -> vertex_ok B -> (sde_diagram gL A B 1 a' a q r == sde_diagram gL A B 1 a' a q' r')%C).
  { intros A B HA HB. unfold sde_diagram. cbv zeta.
    assert (A' : forall s1 s2 s3 s4, (A 0 (mkLegs 1 (back 1 q r) q r) (code4 s1 s2 s3 s4) == A 0 (mkLegs 1 (back 1 q' r') q' r') (code4 s1 s2 s3 s4))%C).
    { intros. apply HA; [left; reflexivity|]. repeat (apply Logic.conj); cbn [n1' n2' n1 n2]; (assumption || reflexivity). }
    assert (B' : forall s1 s2 s3 s4, (B 0 (mkLegs q r 1 (back 1 q r)) (code4 s1 s2 s3 s4) == B 0 (mkLegs q' r' 1 (back 1 q' r')) (code4 s1 s2 s3 s4))%C).
    { intros. apply HB; [left; reflexivity|]. repeat (apply Logic.conj); cbn [n1' n2' n1 n2]; (assumption || reflexivity). }
    revert A' B'. generalize (mkLegs 1 (back 1 q r) q r) (mkLegs 1 (back 1 q' r') q' r') (mkLegs q r 1 (back 1 q r)) (mkLegs q' r' 1 (back 1 q' r')).
    intros l1 l2 l3 l4 A' B'. unfold sum4. repeat (apply csum_ext; intros ?).
    apply Cmul_m; [apply Cmul_m; [apply A'|]|apply B']. apply Cmul_m; [apply Cmul_m|]; apply M; assumption. }
  assert (B0 : vertex_ok (bare_legs u)) by (intros s l l' k1 k2 k3 k4 _ _; reflexivity).
  unfold sde_pair. apply Cscale_m; [reflexivity|]. apply Cadd_m; apply G; assumption.
Qed.
Lemma any_order u V a' a : vertex_ok V -> order_irrelevant JlL JL (22 # 7) 1 (sde_pair gL u V 1 a' a).
Proof.
  intros D. assert (E : forall ch, (both_integrals JlL JL (22 # 7) ch 1 (sde_pair gL u V 1 a' a) ==
    Ci * prefactor (22 # 7) * (sde_pair gL u V 1 a' a 1 1 + sde_pair gL u V 1 a' a 1 (-1) + sde_pair gL u V 1 a' a (-1) 1))%C).
  { intros ch. apply lattice_sum; intros; [apply pair_value|apply pair_off]; assumption. }
  split; rewrite (E Ca); symmetry; apply E.
Qed.
Example C125_hyp : keldysh demo_c = true /\ contour demo_c = false /\ integral JL /\ Skp_Spec.linear JL /\ ~ (22 # 7 == 0)%Q /\ integral_ok JlL /\
  integral_imaginary JlL /\ lines_ok gL /\ ph_symmetric gL /\ symmetric demo_c (-1 # 2) Psi1 /\ component 0 = Some (false, true) /\
  order_irrelevant JlL JL (22 # 7) 1 (sde_pair gL (-1 # 2) (bare_legs (-1 # 2)) 1 false true) /\
  (forall ch, order_irrelevant JlL JL (22 # 7) 1 (sde_pair gL (-1 # 2) (bare_and Psi1 ch) 1 false true)) /\
  show (sde_value JlL JL (22 # 7) Ca gL (-1 # 2) (bare_legs (-1 # 2)) 1 false true) = (21 # 176, -63 # 176)%Q /\
  show (full_vertex Psi1 0 (mkLegs 1 (-1) (-1) 1) 1) = (255 # 2, 0)%Q.
Proof.
  destruct JlL_ok as (A & B). destruct gL_ok as (D & E).
  split; [reflexivity|]. split; [reflexivity|]. split; [exact JL_integral|]. split; [exact JL_linear|]. split; [discriminate|]. split; [exact A|].
  split; [exact B|]. split; [exact D|]. split; [exact E|]. split; [exact Psi1_symmetric|]. split; [reflexivity|].
  split; [apply any_order; intros s l l' q1 q2 q3 q4 _ _; reflexivity|].
  split; [intros ch; apply any_order; exact (Sde_Proofs.whole_ok demo_c (-1 # 2) Psi1 Psi1_symmetric true ch)|].
  split; vm_compute; reflexivity.
Qed.
