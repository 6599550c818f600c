(** C127, C128: version 3 of the Schwinger-Dyson equation, and the derivative of the self-energy computed with it *)
From Coq Require Import QArith Lqa.
From Verif Require Import Prelude Cplx Keld_Model Keld_Spec Keld_Proofs Keld_Proofs2 Keld_Props Util_Spec Sym_Model Sym_Spec Tab_Model Rd_Model Rd_Spec Dec_Model Bub_Model Bub_Spec
  Sf_Model Sf_Spec Sf_Props Fl_Model Fl_Props Rd_Props Bub_Props Sde_Model Sde_Spec Sde_Props Sde3_Model Sde3_Spec.
From Verif Require Mlp_Model Bse_Model Skp_Spec Lop_Spec Bub_Proofs Bub_Proofs2 Sf_Proofs Fl_Proofs Sde_Proofs Sde_Proofs2 Sde_Proofs4 Sde3_Proofs Sde3_Proofs2.
Open Scope Z_scope.
Import Lop_Spec (vertex_legs, vertex_ok, exchange_symmetric, conj_symmetric, integral_ok, integral_imaginary, component).

Section C127.
  Variables (J Jl : (Q -> cplx) -> cplx) (pi u : Q) (g : prop) (v : vert) (A : vertex_legs).
  Hypothesis HJ : integral J.
  Hypothesis HL : Skp_Spec.linear J.
  Hypothesis Hpi : ~ (pi == 0)%Q.
  Hypothesis HI : integral_ok Jl.
  Hypothesis Him : integral_imaginary Jl.
  Hypothesis Hg : lines_ok g.
  Hypothesis Hv : values_ok v.
  Hypothesis Hb : has_bare u v.
  Hypothesis HA : vertex_ok A.
  Hypothesis XA : exchange_symmetric A.
  Hypothesis CA : conj_symmetric A.
  Definition to_the_right (ch : chan) : bool := match ch with Ct => true | _ => false end.
  (** the Hartree diagram is part of the contributions of the channels a and p *)
  Definition hartree_part (ch : chan) (a' a : bool) : cplx := match ch with Ct => C0 | _ => bare_loop Jl g u a' a end.
  (** Each contribution is the Hartree diagram and the diagram with three lines and the bare vertex on one side only: on the right; the
      vectorised loop obtains the retarded component from the advanced one and has the bare vertex on the left there. *)
  Theorem C127_contributions_partial : forall ch vec, bse_left J pi g u A ch v -> exists S,
    compute_SDE_impl_v3 Jl vec (to_the_right ch) ch v g = Some S /\ forall x,
    (seR S x == hartree_part ch false true + (if vec then mirrored Jl J pi ch g u A x false true else one_sided Jl J pi ch g u A x false true))%C /\
    (seK S x == hartree_part ch false false + one_sided Jl J pi ch g u A x false false)%C.
  Proof.
    intros ch vec Bs. exists (loop_of Jl vec (to_the_right ch) false symmetric_full (masked (flags_v3 ch) v) g). split; [destruct ch; reflexivity|]. intros x.
    change (to_the_right ch) with (Sde_Proofs2.version ch).
    pose proof (fun a' a => Sde3_Proofs.closed_value J Jl pi u g v HL HI Hg Hb A ch HA XA Bs x a' a) as T.
    destruct vec.
    - destruct (Sde3_Proofs.v3_vector Jl g v HI Hv (Sde_Proofs2.version ch) ch x) as (E1 & E2). rewrite E1, E2.
      split; [|apply T].
      assert (R : forall q z, (Cscale q (Cconj z) == Cconj (Cscale q z))%C) by (intros; split; unfold Cscale, Cconj; cbn [re im]; ring).
      rewrite R, (T true false), Lop_Proofs2.Cconj_add. apply Cadd_m.
      + destruct ch; cbn [hartree_part]; [| |apply Lop_Proofs2.Cconj_C0]; rewrite (Sde3_Proofs2.bare_loop_conj Jl u g HI Him Hg true false); cbn [xorb]; apply Lop_Proofs2.Cscale_1'.
      + unfold one_sided, mirrored. rewrite (Sde3_Proofs2.both_conj J Jl pi HJ Hpi HI Him). apply (Sde_Proofs4.both_ext J Jl pi HL HI).
        intros f3 fL. rewrite (Sde3_Proofs2.conj_diagram g A (bare_legs u) Hg CA (Sde3_Proofs2.bare_conj_symmetric u)). cbn [xorb]. apply Lop_Proofs2.Cscale_1'.
    - destruct (Sde3_Proofs.v3_scalar Jl g v HI Hv (Sde_Proofs2.version ch) ch x) as (E1 & E2). rewrite E1, E2. split; apply T.
  Qed.
  (** the result, if the choice of the integration variables is irrelevant; at half filling the Hartree diagram vanishes *)
  Theorem C127_version3_partial : forall vec x, bse_left J pi g u A Ca v -> bse_left J pi g u A Cp v ->
    (forall a' a, order_irrelevant Jl J pi x (sde_diagram g A (bare_legs u) x a' a) /\ order_irrelevant Jl J pi x (sde_diagram g (bare_legs u) A x a' a)) ->
    exists S, compute_SDE_v3 Jl vec v g = Some S /\
    (seR S x == bare_loop Jl g u false true + (if vec then mirrored Jl J pi Ca g u A x false true else one_sided Jl J pi Ca g u A x false true))%C /\
    (seK S x == bare_loop Jl g u false false + one_sided Jl J pi Ca g u A x false false)%C /\
    (ph_symmetric g -> bare_loop Jl g u false true == C0 /\ bare_loop Jl g u false false == C0)%C.
  Proof.
    intros vec x Ba Bp Ord. destruct (C127_contributions_partial Ca vec Ba) as (Sa & Ea & Va). destruct (C127_contributions_partial Cp vec Bp) as (Sp & Ep & Vp).
    exists (sscale (1 # 2) (sadd Sa Sp)). cbn [to_the_right] in Ea, Ep. split.
    - unfold compute_SDE_v3. rewrite Ea, Ep. reflexivity.
    - destruct (Va x) as (Va1 & Va2), (Vp x) as (Vp1 & Vp2). destruct (Ord false true) as ((O1 & _) & (O2 & _)), (Ord false false) as ((O3 & _) & _).
      unfold one_sided, mirrored in *. cbn [hartree_part] in *. split; [|split].
      + cbn [sscale sadd seR]. rewrite Va1, Vp1. destruct vec; rewrite <- ?O1, <- ?O2; split; unfold Cscale, Cadd; cbn [re im]; ring.
      + cbn [sscale sadd seK]. rewrite Va2, Vp2. rewrite <- O3; split; unfold Cscale, Cadd; cbn [re im]; ring.
      + intros Ph. split; apply Sde3_Proofs2.bare_loop_phs; assumption.
  Qed.
End C127.
Print Assumptions C127_contributions_partial.
Print Assumptions C127_version3_partial.

(** *** a vertex whose channels are the bubbles of the bare vertex with itself *)
Definition bit (k : Z) (i : Z) : bool := Z.testbit k i.
Definition bubble_of_bare (g : prop) (u : Q) (ch : chan) : data := fun s k f =>
  let '(w, _, _) := f in
  (Cscale (match ch with Ct => -1 | _ => 1 end) (prefactor (22 # 7)) * JL (fun vpp =>
     code_diagram ch s (fun t i => bare_legs u t (mkLegs 0 0 0 0) i) (fun t i => bare_legs u t (mkLegs 0 0 0 0) i) (lines ch false g g w vpp) (bit k 3) (bit k 2) (bit k 1) (bit k 0)))%C.
Definition second_order (g : prop) (u : Q) : vert :=
  let x ch := Mlp_Model.Build_rvert data (bubble_of_bare g u ch) dzero dzero dzero in
  Mlp_Model.Build_vertex data (fun s k _ => bare_legs u s (mkLegs 0 0 0 0) k) (x Ca) (x Cp) (x Ct).
Lemma second_bse g u ch : bse_left JL (22 # 7) g u (bare_legs u) ch (second_order g u).
Proof.
  intros s l a b d e _. unfold left_part, one_bubble.
  assert (B : forall i, In i [0; 1; 2; 3] -> bit (code4 a b d e) i = nth (Z.to_nat i) [e; d; b; a] false).
  { intros i [<-|[<-|[<-|[<-|[]]]]]; destruct a, b, d, e; reflexivity. }
  destruct ch; cbn [second_order channel_of class_of Mlp_Model.va Mlp_Model.vp Mlp_Model.vt Mlp_Model.K1 Mlp_Model.K2 bubble_of_bare natural];
  rewrite !B by (cbn [In]; auto); unfold dzero; match goal with |- (?x + C0 == _)%C => transitivity x; [ring|reflexivity] end.
Qed.
Lemma second_values g u : prop_ok g -> values_ok (second_order g u).
Proof.
  intros Pg ch k s a b d e ((w, v), v') ((w2, v2), v2') Sp (E & _). cbn [fst snd] in E.
  assert (K : (bubble_of_bare g u ch s (code4 a b d e) (w, v, v') == bubble_of_bare g u ch s (code4 a b d e) (w2, v2, v2'))%C).
  { unfold bubble_of_bare. apply Cmul_m; [reflexivity|]. apply (int_ext _ JL_integral). intros vpp. apply code_diagram_ext. intros x3 x4 x3' x4'.
    unfold lines, pair_of_lines. apply Cmul_m; apply Gmat_m; try exact Pg; destruct ch; unfold line1, line2; rewrite E; reflexivity. }
  destruct k; [destruct ch; exact K| | |]; destruct ch; change (dzero s (code4 a b d e) (w, v, v') == dzero s (code4 a b d e) (w2, v2, v2'))%C; reflexivity.
Qed.
Lemma second_bare g u : has_bare u (second_order g u).
Proof. intros s l a b d e _. reflexivity. Qed.
(** a propagator away from half filling *)
Definition gH : prop := Prop_ (gR gL) (fun w => if on_lattice w then Cplx 0 1 else C0).
Lemma gH_ok : lines_ok gH.
Proof.
  destruct gL_ok as (([A _] & _) & _). split; [split; [exact A|]|].
  - intros q r E. cbn [gH gK]. rewrite (on_lattice_m q r E). reflexivity.
  - intros q. cbn [gH gK]. destruct (on_lattice q); reflexivity.
Qed.
(** Without particle-hole symmetry the Hartree diagram is counted twice: version 3 returns it together with the diagram with three lines, and
    compute_SDE adds the Hartree value afterwards (initialize). Witness: the vertex of second order, for which versions 2 and 3 should agree. *)
Definition no_phs (c : cfg) : cfg := mkCfg (keldysh c) (zero_t c) false (contour c) (nBOS3 c).
Theorem C127_hartree_twice_refuted :
  exists c U g v, keldysh c = true /\ contour c = false /\ phs c = false /\ lines_ok g /\ values_ok v /\ has_bare (- U / 2) v /\
    (forall ch, bse_left JL (22 # 7) g (- U / 2) (bare_legs (- U / 2)) ch v) /\
    forall vec, exists S, compute_SDE_v3 JlL vec v g = Some S /\
      let S2 := fst (compute_SDE_v2 c JL JlL (22 # 7) vec U (bare_vertex c U) g) in
      forall x, (seR S x == seR S2 x + bare_loop JlL g (- U / 2) false true)%C /\ ~ (seR S x == seR S2 x)%C.
Proof.
  destruct JlL_ok as (HI & Him). exists (no_phs demo_c), 1%Q, gH, (second_order gH (- 1 / 2)). set (c := no_phs demo_c). set (u := (- 1 / 2)%Q).
  assert (Hp : ~ (22 # 7 == 0)%Q) by discriminate. assert (Kc : keldysh c = true) by reflexivity. assert (CBc : contour c = false) by reflexivity.
  assert (Ph : phs c = true -> ph_symmetric gH) by discriminate.
  split; [reflexivity|]. split; [reflexivity|]. split; [reflexivity|]. split; [exact gH_ok|].
  split; [apply second_values; exact (Bub_Proofs2.ok_prop _ gH_ok)|]. split; [apply second_bare|]. split; [intros ch; apply second_bse|].
  intros vec.
  assert (OB : vertex_ok (bare_legs u)) by (intros s l1 l2 q1 q2 q3 q4 _ _; reflexivity).
  assert (XB : exchange_symmetric (bare_legs u)).
  { intros s l a b d e _ _. unfold bare_legs. assert (P : code4 b a e d = code4 b a e d) by reflexivity. destruct a, b, d, e; reflexivity. }
  pose proof (fun ch => C127_contributions_partial JL JlL (22 # 7) u gH (second_order gH u) (bare_legs u) JL_integral JL_linear Hp HI Him gH_ok
    (second_values gH u (Bub_Proofs2.ok_prop _ gH_ok)) (second_bare gH u) OB XB (Sde3_Proofs2.bare_conj_symmetric u) ch vec (second_bse gH u ch)) as C.
  destruct (C Ca) as (Sa & Ea & Va). destruct (C Cp) as (Sp & Ep & Vp). cbn [to_the_right hartree_part] in Ea, Ep, Va, Vp.
  exists (sscale (1 # 2) (sadd Sa Sp)). split; [unfold compute_SDE_v3; rewrite Ea, Ep; reflexivity|].
  assert (V2 : forall ch x, (seR (compute_SDE_impl c JL JlL (22 # 7) vec 1 ch no_flags (bare_vertex c 1) gH) x == one_sided JlL JL (22 # 7) ch gH u (bare_legs u) x false true)%C).
  { intros ch x. pose proof (proj1 (C125_each_contribution_is_the_diagram_partial c JL JlL (22 # 7) 1 gH (bare_vertex c 1) Kc CBc JL_integral JL_linear Hp HI Him gH_ok Ph
      (Sde_Proofs2.bare_symmetric c 1 Kc CBc) vec x 0 false true eq_refl (or_introl eq_refl) ch)) as H. cbn [Z.eqb] in H. rewrite H.
    unfold sde_value, one_sided. apply (Sde_Proofs4.both_ext JL JlL (22 # 7) JL_linear HI). intros f3 fL. unfold sde_pair.
    assert (F : Sde_Proofs4.same_legs (full_vertex (bare_vertex c 1)) (bare_legs u)).
    { intros s l a b d e Sp0. exact (Sde_Proofs4.bare_is c 1 Kc CBc s l a b d e Ca Sp0). }
    assert (I : Sde_Proofs4.same_legs (bare_legs u) (bare_legs u)) by (intros s l a b d e _; reflexivity).
    transitivity (Cscale (1 # 2) (sde_diagram gH (bare_legs u) (bare_legs u) x false true f3 fL + sde_diagram gH (bare_legs u) (bare_legs u) x false true f3 fL)).
    { apply Cscale_m; [reflexivity|]. apply Cadd_m; [exact (Sde_Proofs4.sde_diagram_ext gH _ _ _ _ x false true f3 fL I F)|exact (Sde_Proofs4.sde_diagram_ext gH _ _ _ _ x false true f3 fL F I)]. }
    generalize (sde_diagram gH (bare_legs u) (bare_legs u) x false true f3 fL). intros z. split; unfold Cscale, Cadd; cbn [re im]; ring. }
  cbv zeta. intros x. fold u.
  assert (E : (seR (sscale (1 # 2) (sadd Sa Sp)) x == seR (fst (compute_SDE_v2 c JL JlL (22 # 7) vec 1 (bare_vertex c 1) gH)) x + bare_loop JlL gH u false true)%C).
  { destruct (Va x) as (Va1 & _), (Vp x) as (Vp1 & _). change (seR (fst (compute_SDE_v2 c JL JlL (22 # 7) vec 1 (bare_vertex c 1) gH)) x) with
      (Cscale (1 # 2) (seR (compute_SDE_impl c JL JlL (22 # 7) vec 1 Ca no_flags (bare_vertex c 1) gH) x + seR (compute_SDE_impl c JL JlL (22 # 7) vec 1 Cp no_flags (bare_vertex c 1) gH) x)).
    rewrite !V2. cbn [sscale sadd seR]. rewrite Va1, Vp1. unfold mirrored, one_sided. destruct vec; split; unfold Cscale, Cadd; cbn [re im]; ring. }
  split; [exact E|]. intros Q. rewrite Q in E.
  assert (B : (bare_loop JlL gH u false true == Cofq 1)%C) by (vm_compute; split; reflexivity).
  rewrite B in E. destruct E as (E1 & _). unfold Cadd, Cofq in E1; cbn [re] in E1. lra.
Qed.
Print Assumptions C127_hartree_twice_refuted.
(** The retarded component depends on whether the loop is vectorised, also at half filling and for a vertex with all symmetries: the part that
    is closed does not have them. (Versions 1 and 2: C125.) *)
Theorem C127_vectorisation_refuted :
  symmetric demo_c (-1 # 2) Psi1 /\ lines_ok gL /\ ph_symmetric gL /\
  exists S S', compute_SDE_v3 JlL true Psi1 gL = Some S /\ compute_SDE_v3 JlL false Psi1 gL = Some S' /\ ~ (seR S 1 == seR S' 1)%C.
Proof.
  destruct gL_ok as (A & B). split; [exact Psi1_symmetric|]. split; [exact A|]. split; [exact B|].
  eexists. eexists. split; [reflexivity|]. split; [reflexivity|]. intros (E & _). vm_compute in E. discriminate E.
Qed.
Print Assumptions C127_vectorisation_refuted.
Example C127_hyp : lines_ok gL /\ ph_symmetric gL /\ values_ok (second_order gL (-1 # 2)) /\ has_bare (-1 # 2) (second_order gL (-1 # 2)) /\
  (forall ch, bse_left JL (22 # 7) gL (-1 # 2) (bare_legs (-1 # 2)) ch (second_order gL (-1 # 2))) /\
  (forall a' a, order_irrelevant JlL JL (22 # 7) 1 (sde_pair gL (-1 # 2) (bare_legs (-1 # 2)) 1 a' a)) /\
  show (bare_loop JlL gH (-1 # 2) false true) = (1, 0)%Q /\ show (one_sided JlL JL (22 # 7) Ca gL (-1 # 2) (bare_legs (-1 # 2)) 1 false true) = (21 # 176, -63 # 176)%Q.
Proof.
  destruct gL_ok as (A & B). split; [exact A|]. split; [exact B|]. split; [apply second_values; exact (Bub_Proofs2.ok_prop _ A)|].
  split; [apply second_bare|]. split; [intros ch; apply second_bse|].
  split; [intros a' a; apply any_order; intros s l l' q1 q2 q3 q4 _ _; reflexivity|]. split; vm_compute; reflexivity.
Qed.

(** C128: compute_diff_SDE is the derivative of version 3: along any line in the space of vertices and propagators, the self-energy is a
    polynomial of second degree whose linear coefficient is its result *)
Theorem C128_derivative_partial : forall Jl vec v dv g dg, integral_ok Jl -> values_ok v -> values_ok dv ->
  exists S dS S2, compute_SDE_v3 Jl vec v g = Some S /\ compute_diff_SDE Jl vec v dv g dg = Some dS /\ compute_SDE_v3 Jl vec dv dg = Some S2 /\
  forall t, exists St, compute_SDE_v3 Jl vec (vplus t v dv) (gplus t g dg) = Some St /\ forall x,
    (seR St x == seR S x + Cscale t (seR dS x) + Cscale (t * t) (seR S2 x))%C /\ (seK St x == seK S x + Cscale t (seK dS x) + Cscale (t * t) (seK S2 x))%C.
Proof.
  intros Jl vec v dv g dg HI Hv Hw. eexists. eexists. eexists. split; [reflexivity|]. split; [reflexivity|]. split; [reflexivity|].
  intros t. eexists. split; [reflexivity|]. intros x. cbn [sscale sadd seR seK].
  pose proof (fun ch k => Sde3_Proofs2.loop_plus Jl t g dg v dv HI Hv Hw vec false ch k x) as L.
  pose proof (L Ca true) as A1. pose proof (L Cp true) as A2. pose proof (L Ca false) as B1. pose proof (L Cp false) as B2. cbv zeta iota in A1, A2, B1, B2.
  cbn [loop_of seR seK] in A1, A2, B1, B2. cbn [loop_of seR seK].
  split; [rewrite A1, A2|rewrite B1, B2]; split; unfold Cscale, Cadd; cbn [re im]; ring.
Qed.
Print Assumptions C128_derivative_partial.
Lemma Psi1_values : values_ok Psi1.
Proof. intros ch k s a b d e f f' Sp E. exact (Fl_Proofs.value_m demo_c _ Psi1 Psi1_symmetric ch k s a b d e f f' Sp E). Qed.
Example C128_hyp : integral_ok JlL /\ values_ok Psi1 /\ values_ok (second_order gL 1) /\
  option_map (fun S => (show (seR S 1), show (seK S 1))) (compute_diff_SDE JlL true Psi1 (bare_vertex demo_c 1) gL gH) = Some ((-49, -14)%Q, (0, -26)%Q).
Proof.
  destruct JlL_ok as (HI & _). split; [exact HI|]. split; [exact Psi1_values|]. split; [apply second_values; apply Bub_Proofs2.ok_prop, gL_ok|].
  vm_compute. reflexivity.
Qed.
