(** Version 3 of the Schwinger-Dyson equation. *)
From Coq Require Import QArith Lqa.
From Verif Require Import Prelude Cplx Keld_Model Keld_Spec Keld_Proofs Keld_Proofs2 Util_Spec Sym_Model Sym_Spec Sym_Proofs2 Tab_Model Tab_Spec
  Rd_Model Rd_Spec Rd_Props Dec_Model Bub_Model Bub_Spec Bub_Proofs Bub_Proofs2 Bub_Proofs3 Bub_Props Sf_Model Sf_Spec Sf_Proofs Sf_Proofs2 Sf_Props
  Lop_Model Fl_Model Fl_Spec Fl_Proofs Sde_Model Sde_Spec Sde_Proofs Sde_Proofs2 Sde_Proofs3 Sde_Proofs4 Sde3_Model Sde3_Spec.
From Verif Require Mlp_Model Bse_Model Lop_Spec Lop_Proofs Lop_Proofs2 Skp_Spec.
Open Scope Z_scope.
Import Lop_Spec (vertex_legs, vertex_ok, exchange_symmetric, conj_symmetric, integral_ok, integral_imaginary, contraction, component, leg_freqs, closed, seen).
Local Opaque diagram.

Definition bare_left (v : vert) (ch : chan) : vertex_legs := fun s l k => (bare_part v s l k + left_part v ch s l k)%C.
Lemma r_seen v ch b r s p q d e f : values_ok v -> (s = 0 \/ s = 1) ->
  exists z, r_value false false 3 r (Bch b) (get_r (expanded (masked (flags_v3 ch) v) s (code4 p q d e)) r) f = Some z /\
    (z == if other_than ch r then C0 else left_part v ch s (legs_of b f) (code4 p q d e))%C.
Proof.
  intros Hv Sp. destruct (conv_legs r b f) as (h & T & L). unfold r_value. rewrite T. cbn [obind]. change (2 <=? 3) with true. change (3 <=? 3) with true. cbv iota.
  eexists. split; [reflexivity|]. destruct (other_than ch r) eqn:O.
  - destruct ch, r; try discriminate O; cbn; unfold dzero; ring.
  - assert (ch = r) as <- by (destruct ch, r; try discriminate O; reflexivity).
    assert (E : trip_eq h (natural ch (legs_of b f))).
    { apply natural_of_legs. destruct L as (A & B & C & D). repeat (apply Logic.conj); symmetry; assumption. }
    unfold left_part. rewrite <- !(Hv ch _ s p q d e _ _ Sp E). destruct ch; cbn; unfold dzero; ring.
Qed.
Lemma v3_sees v ch right : values_ok v -> seen false right (bare_left v ch) (loop_vertex symmetric_full (masked (flags_v3 ch) v)).
Proof.
  intros Hv. unfold seen. intros s x y p q d e Sp. set (b := if right then Ca else Ct). unfold loop_vertex, g_value_expanded, f_value. cbn [is_full negb].
  pose proof (fun r => r_seen v ch b r s p q d e (0, x, y)%Q Hv Sp) as R.
  destruct (R Ca) as (za & Ea & Za). destruct (R Cp) as (zp & Ep & Zp). destruct (R Ct) as (zt & Et & Zt). cbn [get_r] in Ea, Ep, Et.
  rewrite Ea, Ep, Et. cbn [oadd obind or0]. rewrite Za, Zp, Zt. cbn [expanded irred masked no_gamma0 flags_v3 Mlp_Model.irr]. unfold bare_left, bare_part.
  destruct ch; cbn [other_than]; ring.
Qed.

Section V3.
  Variables (J Jl : (Q -> cplx) -> cplx) (pi u : Q) (g : prop) (v : vert).
  Hypothesis HL : Skp_Spec.linear J.
  Hypothesis HI : integral_ok Jl.
  Hypothesis Hg : lines_ok g.
  Hypothesis Hv : values_ok v.
  Lemma left_ok ch : vertex_ok (bare_left v ch).
  Proof.
    intros s l l' a b d e Sp E. unfold bare_left, bare_part, left_part.
    rewrite !(Hv ch _ s a b d e _ _ Sp (natural_m ch l l' E)). reflexivity.
  Qed.
  Definition closed_by (right : bool) (ch : chan) (x : Q) (a' a : bool) : cplx :=
    Jl (fun vp => contraction right (Lop_Proofs.wsel right false (bare_left v ch)) g x vp a' a).
  Notation sg right := (if right then (-1)%Q else 1%Q).
  Lemma v3_scalar right ch x :
    let S := loop_of Jl false right false symmetric_full (masked (flags_v3 ch) v) g in
    (seR S x == Cscale (sg right) (closed_by right ch x false true))%C /\ (seK S x == Cscale (sg right) (closed_by right ch x false false))%C.
  Proof.
    assert (N0 : right && false = false) by (destruct right; reflexivity).
    cbn [loop_of seR seK]. split; (apply Cscale_m; [reflexivity|]); unfold closed_by;
      apply Lop_Proofs2.scalar_spec; auto using left_ok; apply v3_sees; exact Hv.
  Qed.
  Lemma v3_vector right ch x :
    let S := loop_of Jl true right false symmetric_full (masked (flags_v3 ch) v) g in
    (seR S x == Cscale (sg right) (Cconj (closed_by right ch x true false)))%C /\ (seK S x == Cscale (sg right) (closed_by right ch x false false))%C.
  Proof.
    assert (N0 : right && false = false) by (destruct right; reflexivity).
    pose proof (Lop_Proofs2.value_vector Jl HI (bare_left v ch) _ false right false g x (left_ok ch) N0 (v3_sees v ch right Hv)) as T.
    cbn [loop_of seR seK]. unfold compute_Keldysh_vector, setself. cbn [Z.eqb Pos.eqb]. split; (apply Cscale_m; [reflexivity|]).
    - apply Cconj_m. exact (T true false).
    - exact (T false false).
  Qed.
  (** ** the bare vertex and the bubble *)
  Hypothesis Hb : has_bare u v.
  Lemma contraction_split right ch x vp a' a :
    (contraction right (Lop_Proofs.wsel right false (bare_left v ch)) g x vp a' a ==
     contraction right (Lop_Proofs.wsel right false (bare_legs u)) g x vp a' a +
     contraction right (Lop_Proofs.wsel right false (left_part v ch)) g x vp a' a)%C.
  Proof.
    unfold contraction.
    assert (E : forall y y', (Lop_Proofs.wsel right false (bare_left v ch) (leg_freqs right x vp) (closed right code4 a' a y' y) ==
      Lop_Proofs.wsel right false (bare_legs u) (leg_freqs right x vp) (closed right code4 a' a y' y) +
      Lop_Proofs.wsel right false (left_part v ch) (leg_freqs right x vp) (closed right code4 a' a y' y))%C).
    { intros y y'. rewrite <- !Lop_Proofs.wspin_spec by (destruct right; reflexivity). unfold bare_left.
      destruct right; cbn [Lop_Proofs.wspin closed]; rewrite !(Hb _ _ _ _ _ _) by auto; ring. }
    unfold csum, bits; cbn [fold_right]. rewrite !E. ring.
  Qed.
  Lemma bare_contraction right x vp a' a :
    (contraction right (Lop_Proofs.wsel right false (bare_legs u)) g x vp a' a ==
     if right then C0 else csum bits (fun y => csum bits (fun y' => (Gmat g vp y y' * (if xorb (xorb a' a) (xorb y' y) then Cofq u else C0))%C)))%C.
  Proof.
    unfold contraction.
    assert (E : forall y y', (Lop_Proofs.wsel right false (bare_legs u) (leg_freqs right x vp) (closed right code4 a' a y' y) ==
      if right then C0 else if xorb (xorb a' a) (xorb y' y) then Cofq u else C0)%C).
    { intros y y'. rewrite <- !Lop_Proofs.wspin_spec by (destruct right; reflexivity).
      unfold bare_legs; cbn [Z.eqb Pos.eqb].
      assert (Pa : let k := closed right code4 a' a y' y in
        xorb (xorb (Z.testbit k 0) (Z.testbit k 1)) (xorb (Z.testbit k 2) (Z.testbit k 3)) = xorb (xorb a' a) (xorb y' y))
        by (destruct right, a', a, y', y; reflexivity).
      cbv zeta in Pa. rewrite Pa. destruct right, (xorb (xorb a' a) (xorb y' y)); cbn [Lop_Proofs.wspin]; split; unfold Cadd, Cofq, C0; cbn [re im]; ring. }
    unfold csum, bits; cbn [fold_right]. rewrite !E. destruct right; ring.
  Qed.
  Variables (A : vertex_legs) (ch : chan).
  Hypothesis HA : vertex_ok A.
  Hypothesis XA : exchange_symmetric A.
  Hypothesis Bs : bse_left J pi g u A ch v.
  Notation right := (version ch).
  Lemma bubble_closed x vp a' a :
    (Cscale (sg right) (contraction right (Lop_Proofs.wsel right false (left_part v ch)) g x vp a' a) ==
     prefactor pi * J (fun vpp => let '(f3, fL) := line_frequencies ch x vp vpp in sde_diagram g A (bare_legs u) x a' a f3 fL))%C.
  Proof.
    pose proof (J_ext J HL) as Ext. pose proof (J_add J HL) as Ad. pose proof (J_scale J HL) as Sc.
    set (D := fun vpp => let '(f3, fL) := line_frequencies ch x vp vpp in sde_diagram g A (bare_legs u) x a' a f3 fL).
    set (l := leg_freqs right x vp).
    set (E := fun s y y' vpp => closed right (bubble_diagram g A (bare_legs u) ch s (natural ch l) vpp) a' a y' y).
    assert (OB : vertex_ok (bare_legs u)) by (intros s l1 l2 q1 q2 q3 q4 _ _; reflexivity).
    assert (Op : opposite (bare_legs u)).
    { intros l1 q1 q2 q3 q4. unfold bare_legs; cbn [Z.eqb Pos.eqb]. destruct (xorb _ _); split; unfold Cneg, Cofq, C0; cbn [re im]; ring. }
    assert (P : forall s y y', (s = 0 \/ s = 1) -> (left_part v ch s l (closed right code4 a' a y' y) == bubble_value_prefactor pi ch * J (E s y y'))%C).
    { intros s y y' Sp. unfold E. assert (T : forall p q r t, (left_part v ch s l (code4 p q r t) ==
        bubble_value_prefactor pi ch * J (fun vpp => bubble_diagram g A (bare_legs u) ch s (natural ch l) vpp p q r t))%C).
      { intros. rewrite (Bs s l p q r t Sp). unfold one_bubble, bubble_diagram, at_left, at_right. destruct (natural ch l) as ((w0, v0), v0'). reflexivity. }
      unfold closed. destruct right; apply T. }
    assert (M : (contraction right (Lop_Proofs.wsel right false (left_part v ch)) g x vp a' a ==
      bubble_value_prefactor pi ch * J (fun t => csum bits (fun y => csum bits (fun y' => Gmat g vp y y' * if right then E 0 y y' t + E 1 y y' t else E 0 y y' t))))%C).
    { rewrite <- (pull J HL (fun y y' => Gmat g vp y y') (fun y y' t => if right then E 0 y y' t + E 1 y y' t else E 0 y y' t)%C).
      transitivity (csum bits (fun y => csum bits (fun y' => Gmat g vp y y' * (bubble_value_prefactor pi ch *
        J (fun t => if right then E 0 y y' t + E 1 y y' t else E 0 y y' t)))))%C.
      - unfold contraction. apply csum2_ext. intros y y'. apply Cmul_m; [reflexivity|].
        rewrite <- Lop_Proofs.wspin_spec by (destruct right; reflexivity). fold l.
        destruct right; cbn [Lop_Proofs.wspin]; rewrite !P by (left; reflexivity) || (right; reflexivity); rewrite ?Ad; [|change (fun t => E 0 y y' t) with (E 0 y y'); reflexivity].
        change (fun t => E 0 y y' t) with (E 0 y y'); change (fun t => E 1 y y' t) with (E 1 y y'). ring.
      - unfold csum, bits; cbn [fold_right]. ring. }
    rewrite M.
    assert (C1 : forall t, (csum bits (fun y => csum bits (fun y' => Gmat g vp y y' * if right then E 0 y y' t + E 1 y y' t else E 0 y y' t)) == D t)%C).
    { intros t. unfold E, D, l. destruct ch; cbn [version closed line_frequencies].
      - apply (close_a g Hg _ _ HA OB).
      - apply (close_p g Hg _ _ HA OB).
      - apply (close_t g Hg _ _ HA OB); [right; exact Op|exact XA]. }
    rewrite (Ext _ _ C1). unfold bubble_value_prefactor. fold (prefactor pi). generalize (J D). intros z. clear. destruct ch; cbn [version];
    generalize (prefactor pi); intros; split; unfold Cmul, Cscale; cbn [re im]; ring.
  Qed.
  Lemma closed_value x a' a :
    (Cscale (sg right) (closed_by right ch x a' a) ==
     (match ch with Ct => C0 | _ => bare_loop Jl g u a' a end) + one_sided Jl J pi ch g u A x a' a)%C.
  Proof.
    pose proof HI as (Ext & Ad & Sc & _). unfold closed_by, one_sided, both_integrals.
    rewrite (Ext _ _ (fun vp => contraction_split right ch x vp a' a)), Ad.
    transitivity (Cscale (sg right) (Jl (fun vp => contraction right (Lop_Proofs.wsel right false (bare_legs u)) g x vp a' a)) +
      Cscale (sg right) (Jl (fun vp => contraction right (Lop_Proofs.wsel right false (left_part v ch)) g x vp a' a)))%C.
    { split; unfold Cscale, Cadd; cbn [re im]; ring. }
    apply Cadd_m.
    - rewrite (Ext _ _ (fun vp => bare_contraction right x vp a' a)).
      destruct ch; cbn [version].
      + unfold bare_loop. apply Lop_Proofs2.Cscale_1'.
      + unfold bare_loop. apply Lop_Proofs2.Cscale_1'.
      + assert (Z : (Jl (fun _ => C0) == C0)%C).
        { transitivity (Jl (fun _ => Cscale 0 C0)); [apply Ext; intros; split; unfold Cscale, C0; cbn [re im]; ring|].
          rewrite Sc. split; unfold Cscale, C0; cbn [re im]; ring. }
        rewrite Z. split; unfold Cscale, C0; cbn [re im]; ring.
    - rewrite <- Sc. apply Ext. intros vp. apply bubble_closed.
  Qed.
End V3.
