(** The versions of the Schwinger-Dyson equation as loops over bubbles with whole vertices. *)
From Coq Require Import QArith Lqa.
From Verif Require Import Prelude Cplx Keld_Model Keld_Spec Keld_Proofs Keld_Proofs2 Util_Spec Sym_Model Sym_Spec Sym_Proofs2 Tab_Model Tab_Spec
  Rd_Model Rd_Spec Rd_Props Dec_Model Bub_Model Bub_Spec Bub_Proofs Bub_Proofs2 Bub_Proofs3 Bub_Props Sf_Model Sf_Spec Sf_Proofs Sf_Proofs2 Sf_Props
  Lop_Model Fl_Model Fl_Spec Fl_Proofs Sde_Model Sde_Spec Sde_Proofs.
From Verif Require Mlp_Model Bse_Model Lop_Spec Lop_Proofs Lop_Proofs2 Skp_Spec.
Open Scope Z_scope.
Import Lop_Spec (vertex_legs, vertex_ok, conj_symmetric, exchange_symmetric, integral_ok, integral_imaginary, contraction, component, seen).
Import Mlp_Model (Full, Irreducible, DiffLeft, DiffRight).
Local Opaque diagram.

Section Sde.
  Variables (c : cfg) (J Jl : (Q -> cplx) -> cplx) (pi U : Q) (g : prop).
  Hypothesis Kc : keldysh c = true.
  Hypothesis CBc : contour c = false.
  Hypothesis HJ : integral J.
  Hypothesis HL : Skp_Spec.linear J.
  Hypothesis Hpi : ~ (pi == 0)%Q.
  Hypothesis HI : integral_ok Jl.
  Hypothesis Him : integral_imaginary Jl.
  Hypothesis Hg : lines_ok g.
  Hypothesis Hp : phs c = true -> ph_symmetric g.
  Notation all_channels := (Mlp_Model.all_channels data pair (bubble_of J pi) 3 true).
  Notation P := (mkP false g g).
  Notation bare := (bare_vertex c U).
  Notation u0 := (- U / 2)%Q.

  Lemma bare_symmetric : symmetric c u0 bare.
  Proof.
    destruct (zero_obeys c Kc CBc) as [H1 H2 H3 H4]. unfold bare_vertex. rewrite Kc, CBc. cbn [andb negb].
    assert (S : same_family (on_legs vzero vzero) (on_legs (Bse_Model.initialize data (lift c) vzero u0) (Bse_Model.initialize data (lift c) vzero u0))).
    { intros h ch k s kl l Hk Sp. unfold on_legs. destruct h, ch; reflexivity. }
    split; [|exact (physical_ext c _ _ Kc S H2)|exact (reversible_ext c _ _ Kc S H3)|].
    - intros h ch k s kl f f' Hk Sp E. specialize (H1 h ch k s kl f f' Hk Sp E). destruct h, ch; exact H1.
    - intros h s kl f Hk Sp. destruct h; reflexivity.
  Qed.
  Lemma pair_fine : pair_ok c P.
  Proof. repeat (apply Logic.conj); cbn [p_g p_s]; auto. Qed.

  Section Vertex.
    Variables (v : vert).
    Hypothesis Sy : symmetric c u0 v.
    Variable only : bool.
    (** the bubbles in all channels *)
    Definition symmetrised : vert := vhalf (vadd (all_channels vzero (op false bare) (op only v) P) (all_channels vzero (op only v) (op false bare) P)).
    Lemma symmetrised_symmetric : symmetric c ((1 # 2) * 0) symmetrised.
    Proof.
      apply (obeys_half c Kc CBc). apply (sum_LR c Kc CBc).
      assert (O : obeys c 0 (all_channels vzero (op false bare) (op only v) P) (all_channels vzero (flip (op only v)) (flip (op false bare)) P)).
      { apply (bubbles_obey c J pi Kc CBc HJ Hpi vzero vzero u0 u0); auto using vzero_bare, pair_fine.
        - exact bare_symmetric.
        - destruct only; exact Sy. }
      destruct only; exact O.
    Qed.
    Lemma class_symmetrised ch k s i f : class_of (channel_of symmetrised ch) k s i f =
      Cscale (1 # 2) (bubble_of J pi P (chr ch) (kcr k) (op false bare) (op only v) s i f + bubble_of J pi P (chr ch) (kcr k) (op only v) (op false bare) s i f)%C.
    Proof. destruct ch, k; reflexivity. Qed.
    (** the bare vertex has no part that depends on frequencies *)
    Lemma zero_crossed r r' : same_data (cross r r' (Bse_Model.value data dzero dadd no_mirror true bare bare r)) dzero.
    Proof.
      intros s a b d e f Sp. unfold cross. destruct (transfToR false (chan_of r) (Bch (chan_of r')) f); [|reflexivity].
      unfold Bse_Model.value, Bse_Model.read_K2b, dadd, bare_vertex, Bse_Model.initialize. destruct r; cbn; unfold dzero; ring.
    Qed.
    Lemma zero_rest ch : same_data (Bse_Model.gammaRb data dzero dadd cross no_mirror true bare bare (chr ch)) dzero.
    Proof. 
      intros s a b d e f Sp. unfold Bse_Model.gammaRb. 
      destruct ch; cbn [chr]; unfold dadd; rewrite !(zero_crossed _ _ s a b d e f Sp); unfold dzero; ring.
    Qed.
    Lemma bare_left ch : same_data (left_data k3 (op false bare) (chr ch)) dzero.
    Proof.
      intros s a b d e f Sp. unfold left_data, op; cbn [left_dressed Bse_Model.left_diff]. unfold dadd. rewrite (zero_rest ch s a b d e f Sp), !get_chr.
      destruct ch; unfold bare_vertex, Bse_Model.initialize; cbn [channel_of Mlp_Model.vzero Mlp_Model.va Mlp_Model.vp Mlp_Model.vt Mlp_Model.rzero Mlp_Model.K2 Mlp_Model.K3]; unfold dzero; ring.
    Qed.
    Lemma bare_right ch : same_data (right_data k3 (op false bare) (chr ch)) dzero.
    Proof.
      intros s a b d e f Sp. unfold right_data, op; cbn [right_dressed Bse_Model.right_diff]. unfold dadd, Bse_Model.read_K2b. rewrite (zero_rest ch s a b d e f Sp), !get_chr.
      destruct ch; unfold bare_vertex, Bse_Model.initialize; cbn [channel_of Mlp_Model.vzero Mlp_Model.va Mlp_Model.vp Mlp_Model.vt Mlp_Model.rzero Mlp_Model.K2b Mlp_Model.K3]; unfold dzero; ring.
    Qed.
    Lemma no_third_class ch s a b d e f : spin01 s -> (class_of (channel_of symmetrised ch) k3 s (code4 a b d e) f == C0)%C.
    Proof.
      intros Sp. rewrite class_symmetrised, !bubble_of_data, !(product_connected J pi HL) by auto.
      rewrite (connected_0_l J pi HL P ch _ _ s a b d e f Sp (bare_left ch)), (connected_0_r J pi HL P ch _ _ s a b d e f Sp (bare_right ch)).
      split; unfold Cscale, Cadd, C0; cbn [re im]; ring.
    Qed.

    (** the sum of the classes *)
    Lemma part_symmetrised ch s a b d e l : spin01 s ->
      (part symmetrised ch s l (code4 a b d e) ==
       Cscale (1 # 2) (connected J pi P ch (whole_data false ch bare) (whole_data only ch v) s a b d e (natural ch l) +
                       connected J pi P ch (whole_data only ch v) (whole_data false ch bare) s a b d e (natural ch l)))%C.
    Proof.
      intros Sp.
      rewrite <- (all_classes c J pi HL u0 u0 bare v false only P ch s a b d e _ bare_symmetric Sy Sp Hg Hg).
      rewrite <- (all_classes c J pi HL u0 u0 v bare only false P ch s a b d e _ Sy bare_symmetric Sp Hg Hg).
      unfold part. rewrite !class_symmetrised. split; unfold Cscale, Cadd; cbn [re im]; ring.
    Qed.
    Definition seen_part (ch : chan) : vertex_legs := part symmetrised ch.
    Lemma seen_part_ok ch : vertex_ok (seen_part ch).
    Proof. intros s l l' a b d e Sp E. apply (part_m c _ _ symmetrised_symmetric); assumption. Qed.
    Lemma seen_part_conj ch : conj_symmetric (seen_part ch).
    Proof.
      intros s l p q d e Sp Co. change (Lop_Spec.in_out l) with (in_out_f l).
      assert (Co' : conserved (in_out_f l)) by (unfold conserved, in_out_f in *; cbn [n1' n2' n1 n2] in *; rewrite Co; ring).
      unfold seen_part. rewrite (part_in_out c _ _ Kc symmetrised_symmetric ch s d e p q (in_out_f l) Sp Co'). rewrite conj_of_eps.
      assert (El : in_out_f (in_out_f l) = l) by (destruct l; reflexivity). rewrite El. generalize (Cconj (part symmetrised ch s l (code4 p q d e))). intros z.
      destruct p, q, d, e; unfold eps4, Bub_Proofs.eps, Lop_Spec.conj_sign; cbn [xorb]; split; unfold Cmul, Cneg, C1, Cscale; cbn [re im]; ring.
    Qed.
    Lemma seen_part_exchange ch : exchange_symmetric (seen_part ch).
    Proof. intros s l p q d e Sp Co. unfold seen_part. rewrite <- (part_exchange c _ _ symmetrised_symmetric ch s p q d e l Sp Co). reflexivity. Qed.

    (** ** what is computed *)
    Definition flags_of (ch : chan) : flags := if only then mkFl false (fun r _ => other_than ch r) else no_flags.
    Lemma masked_none : masked no_flags v = v.
    Proof. destruct v as [i [a1 a2 a3 a4] [p1 p2 p3 p4] [t1 t2 t3 t4]]. reflexivity. Qed.
    Lemma masked_crossed ch r : other_than ch r = true ->
      same_data (cross (chr r) (chr ch) (Bse_Model.value data dzero dadd no_mirror true (masked (mkFl false (fun r _ => other_than ch r)) v)
        (masked (mkFl false (fun r _ => other_than ch r)) v) (chr r))) dzero.
    Proof.
      intros O s a b d e f Sp. unfold cross. rewrite !chan_chr. destruct (transfToR false r (Bch ch) f); [|reflexivity].
      unfold Bse_Model.value, Bse_Model.read_K2b, dadd. rewrite !get_chr.
      assert (Z : channel_of (masked (mkFl false (fun r _ => other_than ch r)) v) r = Mlp_Model.rzero data dzero) by (destruct ch, r; try discriminate O; reflexivity).
      rewrite Z. cbn [Mlp_Model.rzero Mlp_Model.K1 Mlp_Model.K2 Mlp_Model.K2b Mlp_Model.K3]. unfold dzero. ring.
    Qed.
    Lemma masked_rest ch : same_data (Bse_Model.gammaRb data dzero dadd cross no_mirror true (masked (mkFl false (fun r _ => other_than ch r)) v)
        (masked (mkFl false (fun r _ => other_than ch r)) v) (chr ch)) dzero.
    Proof.
      intros s a b d e f Sp. unfold Bse_Model.gammaRb.
      destruct ch; cbn [chr];
      [pose proof (masked_crossed Ca Cp eq_refl s a b d e f Sp) as X; pose proof (masked_crossed Ca Ct eq_refl s a b d e f Sp) as Y
      |pose proof (masked_crossed Cp Ca eq_refl s a b d e f Sp) as X; pose proof (masked_crossed Cp Ct eq_refl s a b d e f Sp) as Y
      |pose proof (masked_crossed Ct Ca eq_refl s a b d e f Sp) as X; pose proof (masked_crossed Ct Cp eq_refl s a b d e f Sp) as Y];
      cbn [chr] in X, Y; unfold dadd at 1; rewrite X, Y; unfold dzero; ring.
    Qed.
    Lemma masked_left ch k : same_data (left_data k (Full _ (masked (flags_of ch) v)) (chr ch)) (left_data k (op only v) (chr ch)).
    Proof.
      intros s a b d e f Sp. unfold flags_of, op. destruct only; [|rewrite masked_none; reflexivity].
      unfold left_data. destruct (left_dressed k); cbn [Bse_Model.left_diff Bse_Model.left_same].
      - unfold dadd at 1. rewrite (masked_rest ch s a b d e f Sp). unfold dadd. rewrite !get_chr. unfold dzero.
        destruct ch; cbn; ring.
      - unfold dadd, Bse_Model.read_K2b. rewrite !get_chr. destruct ch; reflexivity.
    Qed.
    Lemma masked_right ch k : same_data (right_data k (Full _ (masked (flags_of ch) v)) (chr ch)) (right_data k (op only v) (chr ch)).
    Proof.
      intros s a b d e f Sp. unfold flags_of, op. destruct only; [|rewrite masked_none; reflexivity].
      unfold right_data. destruct (right_dressed k); cbn [Bse_Model.right_diff Bse_Model.right_same].
      - unfold dadd at 1. rewrite (masked_rest ch s a b d e f Sp). unfold dadd, Bse_Model.read_K2b. rewrite !get_chr. unfold dzero.
        destruct ch; cbn; ring.
      - unfold dadd. rewrite !get_chr. destruct ch; reflexivity.
    Qed.
    Lemma sde_classes ch k s i f :
      (class_of (channel_of (sde_bubble c J pi U ch (flags_of ch) v g) ch) k s i f ==
       Cscale (1 # 2) (bubble_of J pi P (chr ch) (kcr k) (op false bare) (Full _ (masked (flags_of ch) v)) s i f +
                       bubble_of J pi P (chr ch) (kcr k) (Full _ (masked (flags_of ch) v)) (op false bare) s i f))%C.
    Proof.
      set (m := masked (flags_of ch) v).
      set (X := bubble_of J pi P (chr ch) (kcr k) (op false bare) (Full _ m)). set (Y := bubble_of J pi P (chr ch) (kcr k) (Full _ m) (op false bare)).
      assert (E : class_of (channel_of (sde_bubble c J pi U ch (flags_of ch) v g) ch) k s i f =
        match ch with Cp => Cscale (1 # 2) (X s i f + Y s i f)%C | _ => Cscale (1 # 2) (X s i f + C0 + (Y s i f + C0))%C end) by (destruct ch, k; reflexivity).
      rewrite E. destruct ch; apply Cscale_m; try reflexivity; ring.
    Qed.
    Lemma sde_bubble_classes ch k s a b d e f : spin01 s ->
      (class_of (channel_of (sde_bubble c J pi U ch (flags_of ch) v g) ch) k s (code4 a b d e) f == class_of (channel_of symmetrised ch) k s (code4 a b d e) f)%C.
    Proof.
      intros Sp. rewrite sde_classes, class_symmetrised, !bubble_of_data, !(product_connected J pi HL) by auto.
      rewrite (connected_ext J pi HL P ch _ _ _ _ s a b d e f Sp (fun t p q r y f' Ht => ltac:(reflexivity)) (masked_right ch k)).
      rewrite (connected_ext J pi HL P ch _ _ _ _ s a b d e f Sp (masked_left ch k) (fun t p q r y f' Ht => ltac:(reflexivity))). reflexivity.
    Qed.
    Definition version (ch : chan) : bool := match ch with Ct => true | _ => false end.
    Lemma loop_sees ch right : seen false right (seen_part ch) (loop_vertex symmetric_full (masked (loop_flags ch) (sde_bubble c J pi U ch (flags_of ch) v g))).
    Proof.
      unfold seen. intros s x y p q d e Sp. set (b := if right then Ca else Ct). unfold loop_vertex, g_value_expanded, f_value. cbn [is_full negb].
      set (m := masked _ _).
      assert (R : forall r, exists z, r_value false false 3 r (Bch b) (get_r (expanded m s (code4 p q d e)) r) (0, x, y)%Q = Some z /\
        (z == if other_than ch r then C0 else seen_part ch s (legs_of b (0, x, y)%Q) (code4 p q d e))%C).
      { intros r. destruct (part_conv c _ _ symmetrised_symmetric r b s p q d e (0, x, y)%Q Sp) as (f & T & E).
        unfold r_value. rewrite T. cbn [obind]. change (2 <=? 3) with true. change (3 <=? 3) with true. cbv iota. eexists. split; [reflexivity|].
        destruct (other_than ch r) eqn:O.
        - destruct ch, r; try discriminate O; cbn; unfold dzero; ring.
        - assert (ch = r) as <- by (destruct ch, r; try discriminate O; reflexivity). unfold seen_part. rewrite <- E.
          rewrite (no_third_class ch s p q d e f Sp), <- !(sde_bubble_classes ch _ s p q d e f Sp). unfold m.
          set (B := sde_bubble _ _ _ _ _ _ _ _). destruct ch; cbn; unfold dzero; ring. }
      destruct (R Ca) as (za & Ea & Za). destruct (R Cp) as (zp & Ep & Zp). destruct (R Ct) as (zt & Et & Zt). cbn [get_r] in Ea, Ep, Et.
      rewrite Ea, Ep, Et. cbn [oadd obind or0]. rewrite Za, Zp, Zt. unfold m. cbn [expanded irred masked no_gamma0 loop_flags Mlp_Model.irr]. unfold dzero.
      destruct ch; cbn [other_than]; ring.
    Qed.
    Theorem impl_contraction vec ch x k a' a : component k = Some (a', a) -> k = 0 \/ k = 1 ->
      ((if k =? 0 then seR else seK) (compute_SDE_impl c J Jl pi vec U ch (flags_of ch) v g) x ==
       Cscale (if version ch then -1 else 1) (Jl (fun vp => contraction (version ch) (Lop_Proofs.wsel (version ch) false (seen_part ch)) g x vp a' a)))%C.
    Proof.
      intros E Hk. unfold compute_SDE_impl. fold (version ch). set (m := masked _ _).
      assert (A : Lop_Spec.antihermitian g).
      { intros y. pose proof (ok_conjugate _ Hg y) as K. destruct (gK g y) as [r i]; cbn [re] in K. split; unfold Cconj, Cneg; cbn [re im]; rewrite ?K; ring. }
      assert (V : forall k a' a, component k = Some (a', a) ->
        ((if vec then compute_Keldysh_vector Jl false (version ch) false (loop_vertex symmetric_full m) g x (fun _ => C0)
          else compute_Keldysh_scalar Jl false (version ch) false (loop_vertex symmetric_full m) g x (fun _ => C0)) k ==
         Jl (fun vp => contraction (version ch) (Lop_Proofs.wsel (version ch) false (seen_part ch)) g x vp a' a))%C).
      { clear k a' a E Hk. intros k a' a E. assert (N0 : version ch && false = false) by (destruct (version ch); reflexivity). destruct vec.
        - apply Lop_Proofs2.vector_spec; auto using seen_part_ok, seen_part_conj, seen_part_exchange; apply loop_sees.
        - apply Lop_Proofs2.scalar_spec; auto using seen_part_ok; apply loop_sees. }
      specialize (V k a' a E). unfold loop_of.
      destruct Hk as [-> | ->]; cbn [Z.eqb Pos.eqb seR seK]; (apply Cscale_m; [reflexivity|exact V]).
    Qed.
  End Vertex.
End Sde.
