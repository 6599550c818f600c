(** Versions 1 and 2 of the Schwinger-Dyson equation. *)
From Coq Require Import QArith Lqa.
From Verif Require Import Prelude Cplx Keld_Model Keld_Spec Keld_Proofs Keld_Proofs2 Util_Spec Sym_Model Sym_Spec Sym_Proofs2 Tab_Model Tab_Spec
  Rd_Model Rd_Spec Rd_Props Dec_Model Bub_Model Bub_Spec Bub_Proofs Bub_Proofs2 Bub_Proofs3 Bub_Props Sf_Model Sf_Spec Sf_Proofs Sf_Proofs2 Sf_Props
  Lop_Model Fl_Model Fl_Spec Fl_Proofs Sde_Model Sde_Spec Sde_Proofs Sde_Proofs2 Sde_Proofs3.
From Verif Require Mlp_Model Bse_Model Lop_Spec Lop_Proofs Lop_Proofs2 Skp_Spec.
Open Scope Z_scope.
Import Lop_Spec (vertex_legs, vertex_ok, exchange_symmetric, integral_ok, integral_imaginary, contraction, component, leg_freqs, closed).
Local Opaque diagram.

Definition same_legs (V V' : vertex_legs) : Prop := forall s l a b d e, spin01 s -> (V s l (code4 a b d e) == V' s l (code4 a b d e))%C.
Lemma sde_diagram_ext g V V' W W' x a' a f3 fL : same_legs V V' -> same_legs W W' ->
  (sde_diagram g V W x a' a f3 fL == sde_diagram g V' W' x a' a f3 fL)%C.
Proof.
  intros E F. unfold sde_diagram. apply sum4_ext. intros. apply csum2_ext. intros.
  rewrite (E 0 _ _ _ _ _ (or_introl eq_refl)), (F 0 _ _ _ _ _ (or_introl eq_refl)). reflexivity.
Qed.
Lemma sde_add_l g V V' V'' W x a' a f3 fL : (forall l k, (V 0 l k == V' 0 l k + V'' 0 l k)%C) ->
  (sde_diagram g V W x a' a f3 fL == sde_diagram g V' W x a' a f3 fL + sde_diagram g V'' W x a' a f3 fL)%C.
Proof.
  intros E. unfold sde_diagram, sum4, csum, bits; cbn [fold_right]. rewrite !E. ring.
Qed.

Section Final.
  Variables (c : cfg) (J Jl : (Q -> cplx) -> cplx) (pi U : Q) (g : prop).
  Hypothesis Kc : keldysh c = true.
  Hypothesis CBc : contour c = false.
  Hypothesis HJ : integral J.
  Hypothesis HL : Skp_Spec.linear J.
  Hypothesis Hpi : ~ (pi == 0)%Q.
  Hypothesis HI : integral_ok Jl.
  Hypothesis Him : integral_imaginary Jl.
  Hypothesis Hg : lines_ok g.
  Hypothesis Hp : phs c = true -> ph_symmetric g.
  Notation P := (mkP false g g).
  Notation bare := (bare_vertex c U).
  Notation u0 := (- U / 2)%Q.
  Lemma pull (z : bool -> bool -> cplx) (h : bool -> bool -> Q -> cplx) :
    (csum bits (fun y => csum bits (fun y' => z y y' * J (h y y'))) == J (fun t => csum bits (fun y => csum bits (fun y' => z y y' * h y y' t))))%C.
  Proof.
    destruct HL as (Ext & Ad & Sc).
    assert (Z0 : (J (fun _ => C0) == C0)%C) by (apply (J_0 J HL); reflexivity).
    unfold csum, bits; cbn [fold_right]. rewrite !Ad, !Sc, !Z0. reflexivity.
  Qed.
  Lemma bare_is s l a b d e ch : spin01 s -> (whole false ch bare s l (code4 a b d e) == bare_legs u0 s l (code4 a b d e))%C.
  Proof.
    intros Sp. unfold whole, total, present, part, bare_vertex, Bse_Model.initialize; cbn [is_full orb channel_of class_of Mlp_Model.irr Mlp_Model.va Mlp_Model.vp
      Mlp_Model.vt Mlp_Model.vzero Mlp_Model.rzero Mlp_Model.K1 Mlp_Model.K2 Mlp_Model.K2b Mlp_Model.K3]. unfold dzero, lift.
    unfold irred_expanded, irred_initialize, bare_legs. rewrite Kc, CBc. cbn [andb negb].
    assert (E : isInList (code4 a b d e) odd_Keldysh = xorb (xorb a b) (xorb d e)) by (destruct a, b, d, e; reflexivity). rewrite E.
    assert (E' : xorb (xorb (Z.testbit (code4 a b d e) 0) (Z.testbit (code4 a b d e) 1)) (xorb (Z.testbit (code4 a b d e) 2) (Z.testbit (code4 a b d e) 3)) =
      xorb (xorb a b) (xorb d e)) by (destruct a, b, d, e; reflexivity). rewrite E'.
    destruct Sp as [-> | ->]; cbn [Z.eqb Pos.eqb]; destruct (xorb (xorb a b) (xorb d e)); split; unfold Cmul, Cadd, Cofq, C0; cbn [re im]; ring.
  Qed.
  Lemma bare_opposite ch : opposite (whole false ch bare).
  Proof.
    intros l a b d e. rewrite !bare_is by (left; reflexivity) || (right; reflexivity). unfold bare_legs; cbn [Z.eqb Pos.eqb].
    destruct (xorb _ _); split; unfold Cneg, Cofq, C0; cbn [re im]; ring.
  Qed.
  Lemma connected_bubble ch oA oB vA vB s a b d e f :
    connected J pi P ch (whole_data oA ch vA) (whole_data oB ch vB) s a b d e f =
    (bubble_value_prefactor pi ch * J (fun vpp => bubble_diagram g (whole oA ch vA) (whole oB ch vB) ch s f vpp a b d e))%C.
  Proof. destruct f as ((w, v), v'). reflexivity. Qed.

  Section Vertex.
    Variables (v : vert) (only : bool).
    Hypothesis Sy : symmetric c u0 v.
    Notation V ch := (whole only ch v). Notation V0 ch := (whole false ch bare).
    Definition halves (ch : chan) (x : Q) (a' a : bool) (f3 fL : Q) : cplx :=
      Cscale (1 # 2) (sde_diagram g (V0 ch) (V ch) x a' a f3 fL + sde_diagram g (V ch) (V0 ch) x a' a f3 fL)%C.
    Lemma loop_diagram ch x vp a' a :
      (Cscale (if version ch then -1 else 1) (contraction (version ch) (Lop_Proofs.wsel (version ch) false (seen_part c J pi U g v only ch)) g x vp a' a) ==
       prefactor pi * J (fun vpp => let '(f3, fL) := line_frequencies ch x vp vpp in halves ch x a' a f3 fL))%C.
    Proof.
      pose proof (bare_symmetric c U Kc CBc) as Sb. pose proof (J_ext J HL) as Ext. pose proof (J_add J HL) as Ad. pose proof (J_scale J HL) as Sc.
      pose proof (whole_ok c u0 v Sy only ch) as OV. pose proof (whole_ok c u0 bare Sb false ch) as OB.
      pose proof (whole_exchange c Kc CBc u0 v Sy only ch) as XV. pose proof (whole_exchange c Kc CBc u0 bare Sb false ch) as XB.
      set (D1 := fun vpp => let '(f3, fL) := line_frequencies ch x vp vpp in sde_diagram g (V0 ch) (V ch) x a' a f3 fL).
      set (D2 := fun vpp => let '(f3, fL) := line_frequencies ch x vp vpp in sde_diagram g (V ch) (V0 ch) x a' a f3 fL).
      assert (R : (J (fun vpp => let '(f3, fL) := line_frequencies ch x vp vpp in halves ch x a' a f3 fL) == Cofq (1 # 2) * (J D1 + J D2))%C).
      { rewrite <- Ad, <- Sc. apply Ext. intros vpp. unfold D1, D2, halves. destruct (line_frequencies ch x vp vpp). apply Lop_Proofs.Cscale_ofq. }
      rewrite R.
      (* one pair of Keldysh indices of the line *)
      set (l := leg_freqs (version ch) x vp).
      set (E1 := fun s y y' vpp => closed (version ch) (bubble_diagram g (V0 ch) (V ch) ch s (natural ch l) vpp) a' a y' y).
      set (E2 := fun s y y' vpp => closed (version ch) (bubble_diagram g (V ch) (V0 ch) ch s (natural ch l) vpp) a' a y' y).
      assert (S : forall s y y', spin01 s -> (seen_part c J pi U g v only ch s l (closed (version ch) code4 a' a y' y) ==
        Cofq (1 # 2) * bubble_value_prefactor pi ch * (J (E1 s y y') + J (E2 s y y')))%C).
      { intros s y y' Sp. unfold seen_part, E1, E2, closed.
        destruct (version ch); rewrite (part_symmetrised c J pi U g Kc CBc HL Hg v Sy only ch s _ _ _ _ l Sp), !connected_bubble, Lop_Proofs.Cscale_ofq; ring. }
      assert (M : (contraction (version ch) (Lop_Proofs.wsel (version ch) false (seen_part c J pi U g v only ch)) g x vp a' a ==
        csum bits (fun y => csum bits (fun y' => Gmat g vp y y' * (Cofq (1 # 2) * bubble_value_prefactor pi ch *
          if version ch then J (fun t => E1 0 y y' t + E1 1 y y' t) + J (fun t => E2 0 y y' t + E2 1 y y' t) else J (fun t => E1 0 y y' t) + J (fun t => E2 0 y y' t)))))%C).
      { unfold contraction. apply csum2_ext. intros y y'. apply Cmul_m; [reflexivity|].
        rewrite <- Lop_Proofs.wspin_spec by (destruct (version ch); reflexivity). fold l.
        destruct (version ch) eqn:Ev; cbn [Lop_Proofs.wspin]; rewrite !S by (left; reflexivity) || (right; reflexivity); rewrite ?Ad; [ring|]. change (fun t => E1 0 y y' t) with (E1 0 y y'); change (fun t => E2 0 y y' t) with (E2 0 y y'). ring. }
      rewrite M. clear M S R.
      transitivity (Cscale (if version ch then -1 else 1) (Cofq (1 # 2) * bubble_value_prefactor pi ch *
        (J (fun t => csum bits (fun y => csum bits (fun y' => Gmat g vp y y' * if version ch then E1 0 y y' t + E1 1 y y' t else E1 0 y y' t))) +
         J (fun t => csum bits (fun y => csum bits (fun y' => Gmat g vp y y' * if version ch then E2 0 y y' t + E2 1 y y' t else E2 0 y y' t)))))%C)%C.
      - apply Cscale_m; [reflexivity|]. 
        rewrite <- (pull (fun y y' => Gmat g vp y y') (fun y y' t => if version ch then E1 0 y y' t + E1 1 y y' t else E1 0 y y' t)%C).
        rewrite <- (pull (fun y y' => Gmat g vp y y') (fun y y' t => if version ch then E2 0 y y' t + E2 1 y y' t else E2 0 y y' t)%C).
        unfold csum, bits; cbn [fold_right]. destruct (version ch) eqn:Ev; cbv iota beta. ring. ring.
      - assert (C1 : forall t, (csum bits (fun y => csum bits (fun y' => Gmat g vp y y' * if version ch then E1 0 y y' t + E1 1 y y' t else E1 0 y y' t)) == D1 t)%C).
        { intros t. unfold E1, D1, l. destruct ch; cbn [version closed line_frequencies].
          - apply (close_a g Hg _ _ OB OV).
          - apply (close_p g Hg _ _ OB OV).
          - apply (close_t g Hg _ _ OB OV); [left; apply bare_opposite|exact XB]. }
        assert (C2 : forall t, (csum bits (fun y => csum bits (fun y' => Gmat g vp y y' * if version ch then E2 0 y y' t + E2 1 y y' t else E2 0 y y' t)) == D2 t)%C).
        { intros t. unfold E2, D2, l. destruct ch; cbn [version closed line_frequencies].
          - apply (close_a g Hg _ _ OV OB).
          - apply (close_p g Hg _ _ OV OB).
          - apply (close_t g Hg _ _ OV OB); [right; apply bare_opposite|exact XV]. }
        rewrite (Ext _ _ C1), (Ext _ _ C2). unfold bubble_value_prefactor. fold (prefactor pi). rewrite !Lop_Proofs.Cscale_ofq.
        set (z := (J D1 + J D2)%C). destruct ch; cbn [version]; rewrite ?Lop_Proofs.Cscale_ofq;
        generalize (prefactor pi); intros; split; unfold Cmul, Cofq; cbn [re im]; ring.
    Qed.
    Lemma halves_spec ch x a' a f3 fL : (halves ch x a' a f3 fL ==
      Cscale (1 # 2) (sde_diagram g (bare_legs u0) (V ch) x a' a f3 fL + sde_diagram g (V ch) (bare_legs u0) x a' a f3 fL))%C.
    Proof.
      unfold halves. apply Cscale_m; [reflexivity|]. 
      apply Cadd_m; apply sde_diagram_ext; intros s l p q d e Sp; try reflexivity; apply bare_is; exact Sp.
    Qed.
    Theorem impl_value vec ch x k a' a : component k = Some (a', a) -> k = 0 \/ k = 1 ->
      ((if k =? 0 then seR else seK) (compute_SDE_impl c J Jl pi vec U ch (flags_of only ch) v g) x == sde_value Jl J pi ch g u0 (V ch) x a' a)%C.
    Proof.
      intros E Hk. rewrite (impl_contraction c J Jl pi U g Kc CBc HJ HL Hpi HI Him Hg Hp v Sy only vec ch x k a' a E Hk).
      destruct HI as (Ext & _ & Sc & _). rewrite <- Sc. unfold sde_value, both_integrals. apply Ext. intros vp. rewrite loop_diagram.
      apply Cmul_m; [reflexivity|]. apply (J_ext J HL). intros vpp. destruct (line_frequencies ch x vp vpp) as (f3, fL). apply halves_spec.
    Qed.
  End Vertex.

  (** ** the two versions *)
  Section Versions.
    Variable v : vert.
    Hypothesis Sy : symmetric c u0 v.
    Variables (vec : bool) (x : Q) (k : Z) (a' a : bool).
    Hypothesis Ek : component k = Some (a', a).
    Hypothesis Hk : k = 0 \/ k = 1.
    Notation at_k S := ((if k =? 0 then seR else seK) S x).
    Notation sde_pair V := (sde_pair g u0 V x a' a).
    Hypothesis O0 : order_irrelevant Jl J pi x (sde_pair (bare_legs u0)).
    Hypothesis Or : forall ch, order_irrelevant Jl J pi x (sde_pair (bare_and v ch)).

    Lemma both_ext ch F G : (forall f3 fL, (F f3 fL == G f3 fL)%C) -> (both_integrals Jl J pi ch x F == both_integrals Jl J pi ch x G)%C.
    Proof.
      intros E. unfold both_integrals. apply (proj1 HI). intros vp. apply Cmul_m; [reflexivity|]. apply (J_ext J HL). intros vpp.
      destruct (line_frequencies ch x vp vpp). apply E.
    Qed.
    Lemma both_add ch F G : (both_integrals Jl J pi ch x (fun f3 fL => F f3 fL + G f3 fL) == both_integrals Jl J pi ch x F + both_integrals Jl J pi ch x G)%C.
    Proof.
      unfold both_integrals. destruct HI as (Ext & Ad & _). rewrite <- Ad. apply Ext. intros vp.
      rewrite (J_ext J HL _ (fun vpp => (let '(f3, fL) := line_frequencies ch x vp vpp in F f3 fL) + (let '(f3, fL) := line_frequencies ch x vp vpp in G f3 fL))%C)
        by (intros vpp; destruct (line_frequencies ch x vp vpp); reflexivity).
      rewrite (J_add J HL). ring.
    Qed.
    Lemma both_scale ch q F : (both_integrals Jl J pi ch x (fun f3 fL => Cscale q (F f3 fL)) == Cscale q (both_integrals Jl J pi ch x F))%C.
    Proof.
      unfold both_integrals. destruct HI as (Ext & _ & Sc & _). rewrite <- Sc. apply Ext. intros vp.
      rewrite (J_ext J HL _ (fun vpp => Cofq q * (let '(f3, fL) := line_frequencies ch x vp vpp in F f3 fL))%C)
        by (intros vpp; destruct (line_frequencies ch x vp vpp); apply Lop_Proofs.Cscale_ofq).
      rewrite (J_scale J HL), Lop_Proofs.Cscale_ofq. ring.
    Qed.
    Notation I ch V := (both_integrals Jl J pi ch x (sde_pair V)).
    Lemma pair_ext V W f3 fL : same_legs V W -> (sde_pair V f3 fL == sde_pair W f3 fL)%C.
    Proof. intros E. unfold sde_pair. apply Cscale_m; [reflexivity|]. apply Cadd_m; apply sde_diagram_ext; try exact E; intros s l p q d e Sp; reflexivity. Qed.
    Lemma whole_is_full ch : same_legs (whole false ch v) (full_vertex v).
    Proof. intros s l p q d e Sp. reflexivity. Qed.
    Lemma whole_is_one ch : same_legs (whole true ch v) (bare_and v ch).
    Proof. intros s l p q d e Sp. reflexivity. Qed.
    (** the full vertex is the sum of the parts *)
    Lemma bare_of_v s l p q d e : spin01 s -> (bare_part v s l (code4 p q d e) == bare_legs u0 s l (code4 p q d e))%C.
    Proof.
      intros Sp. unfold bare_part. rewrite (bare_value c u0 v Sy s p q d e Sp). rewrite <- (bare_is s l p q d e Ca Sp).
      unfold whole, total, present, part, bare_vertex, Bse_Model.initialize; cbn [is_full orb channel_of class_of Mlp_Model.irr Mlp_Model.va Mlp_Model.vp
        Mlp_Model.vt Mlp_Model.vzero Mlp_Model.rzero Mlp_Model.K1 Mlp_Model.K2 Mlp_Model.K2b Mlp_Model.K3]. rewrite Kc, CBc. cbn [andb negb]. unfold dzero, lift. ring.
    Qed.
    Lemma diagram_split (D : vertex_legs -> cplx) :
      (forall V W, same_legs V W -> (D V == D W)%C) -> (forall V W, (D (fun s l k => V s l k + W s l k) == D V + D W)%C) ->
      (D (full_vertex v) == D (bare_and v Ca) + D (bare_and v Cp) + D (bare_and v Ct) - (D (bare_legs u0) + D (bare_legs u0)))%C.
    Proof.
      intros Ext Ad.
      assert (F : (D (full_vertex v) + (D (bare_legs u0) + D (bare_legs u0)) == D (bare_and v Ca) + D (bare_and v Cp) + D (bare_and v Ct))%C).
      { rewrite <- !Ad. apply Ext. intros s l p q d e Sp. unfold full_vertex, bare_and. rewrite (bare_of_v s l p q d e Sp). ring. }
      rewrite <- F. ring.
    Qed.
    Lemma diag_add_l V W W' f3 fL : (sde_diagram g (fun s l k => W s l k + W' s l k) V x a' a f3 fL == sde_diagram g W V x a' a f3 fL + sde_diagram g W' V x a' a f3 fL)%C.
    Proof. unfold sde_diagram, sum4, csum, bits; cbn [fold_right]. ring. Qed.
    Lemma diag_add_r V W W' f3 fL : (sde_diagram g V (fun s l k => W s l k + W' s l k) x a' a f3 fL == sde_diagram g V W x a' a f3 fL + sde_diagram g V W' x a' a f3 fL)%C.
    Proof. unfold sde_diagram, sum4, csum, bits; cbn [fold_right]. ring. Qed.
    Lemma pair_split ch : (I ch (full_vertex v) == I ch (bare_and v Ca) + I ch (bare_and v Cp) + I ch (bare_and v Ct) - (I ch (bare_legs u0) + I ch (bare_legs u0)))%C.
    Proof.
      apply (diagram_split (fun V => I ch V)).
      - intros V W E. apply both_ext. intros. apply pair_ext; exact E.
      - intros V W. rewrite <- both_add. apply both_ext. intros. unfold sde_pair. rewrite diag_add_l, diag_add_r.
        split; unfold Cscale, Cadd; cbn [re im]; ring.
    Qed.
    Lemma impl_one ch : (at_k (compute_SDE_impl_v1 c J Jl pi vec U ch v g) == I ch (bare_and v ch))%C.
    Proof. rewrite (impl_value v true Sy vec ch x k a' a Ek Hk : (at_k (compute_SDE_impl_v1 c J Jl pi vec U ch v g) == _)%C). 
      apply both_ext. intros. apply pair_ext, whole_is_one. Qed.
    Lemma impl_full ch : (at_k (compute_SDE_impl c J Jl pi vec U ch no_flags v g) == I ch (full_vertex v))%C.
    Proof. rewrite (impl_value v false Sy vec ch x k a' a Ek Hk : (at_k (compute_SDE_impl c J Jl pi vec U ch no_flags v g) == _)%C). 
      apply both_ext. intros. apply pair_ext, whole_is_full. Qed.
    Lemma full_order : order_irrelevant Jl J pi x (sde_pair (full_vertex v)).
    Proof.
      destruct O0 as (Z1 & Z2). destruct (Or Ca) as (A1 & A2). destruct (Or Cp) as (P1 & P2). destruct (Or Ct) as (T1 & T2).
      split; rewrite !pair_split; [rewrite <- Z1, <- A1, <- P1, <- T1|rewrite <- Z2, <- A2, <- P2, <- T2]; reflexivity.
    Qed.
  End Versions.
  Lemma impl_bare vec x k a' a : component k = Some (a', a) -> k = 0 \/ k = 1 ->
    ((if k =? 0 then seR else seK) (compute_SDE_impl_v1 c J Jl pi vec U Ca bare g) x == both_integrals Jl J pi Ca x (sde_pair g u0 (bare_legs u0) x a' a))%C.
  Proof.
    intros Ek Hk. rewrite (impl_one bare (bare_symmetric c U Kc CBc) vec x k a' a Ek Hk Ca). apply both_ext. intros. apply pair_ext.
    intros s l p q d e Sp. rewrite <- (bare_is s l p q d e Ca Sp).
    unfold bare_and, bare_part, reducible, whole, total, present, part, bare_vertex, Bse_Model.initialize; cbn [is_full orb channel_of class_of Mlp_Model.irr Mlp_Model.va Mlp_Model.vp
        Mlp_Model.vt Mlp_Model.vzero Mlp_Model.rzero Mlp_Model.K1 Mlp_Model.K2 Mlp_Model.K2b Mlp_Model.K3]. unfold dzero. ring.
  Qed.
End Final.
