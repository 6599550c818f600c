(** Version 3 of the Schwinger-Dyson equation: mirrored diagrams, particle-hole symmetry, linearity. *)
From Coq Require Import QArith Lqa.
From Verif Require Import Prelude Cplx Keld_Model Keld_Spec Keld_Proofs Keld_Proofs2 Util_Spec Sym_Model Sym_Spec Sym_Proofs2 Tab_Model Tab_Spec
  Rd_Model Rd_Spec Rd_Props Dec_Model Bub_Model Bub_Spec Bub_Proofs Bub_Proofs2 Bub_Proofs3 Bub_Props Sf_Model Sf_Spec Sf_Proofs Sf_Proofs2 Sf_Props
  Lop_Model Fl_Model Fl_Spec Fl_Proofs Sde_Model Sde_Spec Sde_Proofs Sde_Proofs2 Sde_Proofs3 Sde_Proofs4 Sde3_Model Sde3_Spec Sde3_Proofs.
From Verif Require Mlp_Model Bse_Model Lop_Spec Lop_Proofs Lop_Proofs2 Skp_Spec.
Open Scope Z_scope.
Import Lop_Spec (vertex_legs, vertex_ok, exchange_symmetric, conj_symmetric, conj_sign, integral_ok, integral_imaginary, contraction, component, leg_freqs, closed, seen).

Lemma conj_csum f : (Cconj (csum bits f) == csum bits (fun y => Cconj (f y)))%C.
Proof. unfold csum, bits; cbn [fold_right]. rewrite !Lop_Proofs2.Cconj_add, Lop_Proofs2.Cconj_C0. reflexivity. Qed.
Lemma conj_sum4 f : (Cconj (sum4 f) == sum4 (fun a b d e => Cconj (f a b d e)))%C.
Proof. unfold sum4. rewrite conj_csum. apply csum_ext; intros. rewrite conj_csum. apply csum_ext; intros. rewrite conj_csum. apply csum_ext; intros. apply conj_csum. Qed.
Lemma sums_swapped (f : bool -> bool -> bool -> bool -> bool -> bool -> cplx) :
  (sum4 (fun x3 x4 x3' x4' => csum bits (fun xL => csum bits (fun xL' => f x3 x4 x3' x4' xL xL'))) ==
   sum4 (fun x3 x4 x3' x4' => csum bits (fun xL => csum bits (fun xL' => f x3' x4' x3 x4 xL' xL))))%C.
Proof. unfold sum4, csum, bits; cbn [fold_right]. ring. Qed.
Lemma sum4_ext' f h : (forall a b d e, (f a b d e == h a b d e)%C) -> (sum4 f == sum4 h)%C.
Proof. intros E. unfold sum4. repeat (apply csum_ext; intros ?). apply E. Qed.
Lemma sum4_scale q f : (sum4 (fun a b d e => Cscale q (f a b d e)) == Cscale q (sum4 f))%C.
Proof. unfold sum4, csum, bits; cbn [fold_right]. split; unfold Cscale, Cadd, C0; cbn [re im]; ring. Qed.
Lemma csum2_scale q (f : bool -> bool -> cplx) : (csum bits (fun a => csum bits (fun b => Cscale q (f a b))) == Cscale q (csum bits (fun a => csum bits (fun b => f a b))))%C.
Proof. unfold csum, bits; cbn [fold_right]. split; unfold Cscale, Cadd, C0; cbn [re im]; ring. Qed.
Lemma bare_conj_symmetric u : conj_symmetric (bare_legs u).
Proof.
  intros s l a b d e _ _. unfold bare_legs.
  assert (P : forall p q r t, let k := code4 p q r t in xorb (xorb (Z.testbit k 0) (Z.testbit k 1)) (xorb (Z.testbit k 2) (Z.testbit k 3)) = xorb (xorb p q) (xorb r t))
    by (intros [] [] [] []; reflexivity).
  cbv zeta in P. rewrite !P. assert (X : xorb (xorb d e) (xorb a b) = xorb (xorb a b) (xorb d e)) by apply xorb_comm. rewrite X. unfold conj_sign.
  destruct (xorb (xorb a b) (xorb d e)); split; unfold Cscale, Cconj, Cofq, C0; cbn [re im]; ring.
Qed.
Section Mirror.
  Variables (g : prop) (A B : vertex_legs).
  Hypothesis Hg : lines_ok g.
  Hypothesis HA : conj_symmetric A.
  Hypothesis HB : conj_symmetric B.
  Lemma conj_diagram x a' a f3 fL : (Cconj (sde_diagram g A B x a' a f3 fL) == Cscale (if xorb a' a then 1 else -1) (sde_diagram g B A x a a' f3 fL))%C.
  Proof.
    assert (An : Lop_Spec.antihermitian g).
    { intros y. pose proof (ok_conjugate _ Hg y) as K. destruct (gK g y) as [r i]; cbn [re] in K. split; unfold Cconj, Cneg; cbn [re im]; rewrite ?K; ring. }
    unfold sde_diagram. cbv zeta. rewrite conj_sum4.
    rewrite (sum4_ext' _ (fun x3 x4 x3' x4' => csum bits (fun xL => csum bits (fun xL' => Cconj (A 0 (mkLegs x (back x f3 fL) f3 fL) (code4 a' x4' x3 xL) *
      (Gmat g f3 x3 x3' * Gmat g fL xL xL' * Gmat g (back x f3 fL) x4 x4') * B 0 (mkLegs f3 fL x (back x f3 fL)) (code4 x3' xL' a x4))%C))))
      by (intros; rewrite conj_csum; apply csum_ext; intros; apply conj_csum).
    rewrite sums_swapped.
    rewrite <- sum4_scale. apply sum4_ext'. intros x3 x4 x3' x4'. rewrite <- csum2_scale. apply csum_ext; intros xL. apply csum_ext; intros xL'.
    assert (Co : conserved (mkLegs x (back x f3 fL) f3 fL)) by (unfold conserved, back; cbn [n1' n2' n1 n2]; ring).
    assert (Co' : conserved (mkLegs f3 fL x (back x f3 fL))) by (unfold conserved, back; cbn [n1' n2' n1 n2]; ring).
    pose proof (HA 0 _ a' x4 x3' xL' (or_introl eq_refl) Co) as EA. pose proof (HB 0 _ x3 xL a x4' (or_introl eq_refl) Co') as EB.
    unfold Lop_Spec.in_out in EA, EB; cbn [n1' n2' n1 n2] in EA, EB. rewrite EA, EB. rewrite !Lop_Proofs2.Cconj_mul, !(Lop_Proofs2.Gmat_conj g An).
    generalize (Cconj (A 0 (mkLegs x (back x f3 fL) f3 fL) (code4 a' x4 x3' xL'))), (Cconj (B 0 (mkLegs f3 fL x (back x f3 fL)) (code4 x3 xL a x4'))),
      (Gmat g f3 x3 x3'), (Gmat g fL xL xL'), (Gmat g (back x f3 fL) x4 x4').
    intros z1 z2 z3 z4 z5. unfold conj_sign. destruct a', a, x3, x3', x4, x4', xL, xL'; cbn [xorb]; rewrite !Lop_Proofs.Cscale_ofq;
    split; unfold Cmul, Cofq; cbn [re im]; ring.
  Qed.
End Mirror.
Section Values.
  Variables (J Jl : (Q -> cplx) -> cplx) (pi u : Q) (g : prop).
  Hypothesis HJ : integral J.
  Hypothesis Hpi : ~ (pi == 0)%Q.
  Hypothesis HI : integral_ok Jl.
  Hypothesis Him : integral_imaginary Jl.
  Hypothesis Hg : lines_ok g.
  Lemma prefactor_imaginary : (Cconj (prefactor pi) == - prefactor pi)%C.
  Proof. unfold prefactor. split; unfold Cdiv, Cinv, Cnorm2, Cconj, Cneg, Cmul, Cofq, Ci, C1; cbn [re im]; field; assumption. Qed.
  Lemma both_conj ch x F : (Cconj (both_integrals Jl J pi ch x F) == both_integrals Jl J pi ch x (fun f3 fL => Cconj (F f3 fL)))%C.
  Proof.
    unfold both_integrals. destruct HI as (Ext & _). pose proof (Him (fun vp => prefactor pi * J (fun vpp => let '(f3, fL) := line_frequencies ch x vp vpp in F f3 fL))%C) as H.
    transitivity (- (Jl (fun vp => Cconj (prefactor pi * J (fun vpp => let '(f3, fL) := line_frequencies ch x vp vpp in F f3 fL)))))%C; [rewrite H; ring|].
    rewrite <- (Lop_Proofs2.J_opp Jl HI). apply Ext. intros vp. rewrite Lop_Proofs2.Cconj_mul, prefactor_imaginary.
    rewrite <- (int_conj _ HJ). rewrite (int_ext _ HJ _ (fun vpp => let '(f3, fL) := line_frequencies ch x vp vpp in Cconj (F f3 fL)))
      by (intros vpp; destruct (line_frequencies ch x vp vpp); reflexivity). ring.
  Qed.
  Lemma bare_loop_conj a' a : (Cconj (bare_loop Jl g u a' a) == Cscale (if xorb a' a then 1 else -1) (bare_loop Jl g u a a'))%C.
  Proof.
    assert (An : Lop_Spec.antihermitian g).
    { intros y. pose proof (ok_conjugate _ Hg y) as K. destruct (gK g y) as [r i]; cbn [re] in K. split; unfold Cconj, Cneg; cbn [re im]; rewrite ?K; ring. }
    unfold bare_loop. destruct HI as (Ext & _ & Sc & _). rewrite <- Sc.
    match goal with |- (Cconj (Jl ?F) == _)%C => pose proof (Him F) as H; transitivity (- Jl (fun vp => Cconj (F vp)))%C; [rewrite H; ring|] end.
    rewrite <- (Lop_Proofs2.J_opp Jl HI). apply Ext. intros vp.
    unfold csum, bits; cbn [fold_right]. rewrite !Lop_Proofs2.Cconj_add, !Lop_Proofs2.Cconj_mul, !(Lop_Proofs2.Gmat_conj g An), !Lop_Proofs2.Cconj_C0.
    change (Gmat g vp false false) with C0. generalize (Gmat g vp true true), (Gmat g vp true false), (Gmat g vp false true). intros.
    destruct a', a; cbn [xorb]; rewrite !Lop_Proofs.Cscale_ofq, ?Lop_Proofs2.Cconj_C0; split; unfold Cmul, Cadd, Cneg, Cconj, Cofq, C0; cbn [re im]; ring.
  Qed.
  (** at half filling the Hartree diagram vanishes *)
  Lemma bare_loop_phs a' a : ph_symmetric g -> (bare_loop Jl g u a' a == C0)%C.
  Proof.
    intros Ph. pose proof HI as (Ext & _ & _ & Refl).
    assert (N : (bare_loop Jl g u a' a == - bare_loop Jl g u a' a)%C).
    { unfold bare_loop at 1. rewrite <- Refl. unfold bare_loop. rewrite <- (Lop_Proofs2.J_opp Jl HI). apply Ext. intros vp.
      destruct (Ph vp) as (E1 & E2).
      unfold csum, bits; cbn [fold_right Gmat]. rewrite E1, E2. 
      destruct (gK g vp) as [k1 k2], (gR g vp) as [r1 r2].
      destruct a', a; cbn [xorb]; split; unfold Cmul, Cadd, Cneg, Cconj, Cofq, C0; cbn [re im]; ring. }
    destruct N as (N1 & N2). unfold Cneg in N1, N2; cbn [re im] in N1, N2. split; cbn [re im C0]; lra.
  Qed.
End Values.
(** ** vertex and propagator enter linearly *)
Section Linear.
  Variables (Jl : (Q -> cplx) -> cplx) (t : Q) (g h : prop) (v w : vert).
  Hypothesis HI : integral_ok Jl.
  Lemma vplus_ok : values_ok v -> values_ok w -> values_ok (vplus t v w).
  Proof.
    intros A B ch k s a b d e f f' Sp E. pose proof (A ch k s a b d e f f' Sp E) as A1. pose proof (B ch k s a b d e f f' Sp E) as B1.
    destruct ch, k; cbn [vplus channel_of class_of Mlp_Model.va Mlp_Model.vp Mlp_Model.vt Mlp_Model.K1 Mlp_Model.K2 Mlp_Model.K2b Mlp_Model.K3] in *; rewrite A1, B1; reflexivity.
  Qed.
  Lemma Gmat_plus x y z : (Gmat (gplus t g h) x y z == Gmat g x y z + Cscale t (Gmat h x y z))%C.
  Proof. destruct y, z; cbn [Gmat gplus gR gK]; split; unfold Cconj, Cadd, Cscale, C0; cbn [re im]; ring. Qed.
  Lemma bare_left_plus ch s l k : (bare_left (vplus t v w) ch s l k == bare_left v ch s l k + Cscale t (bare_left w ch s l k))%C.
  Proof.
    unfold bare_left, bare_part, left_part. destruct ch; cbn [vplus channel_of class_of Mlp_Model.irr Mlp_Model.va Mlp_Model.vp Mlp_Model.vt Mlp_Model.K1 Mlp_Model.K2 Mlp_Model.K2b Mlp_Model.K3];
    rewrite !Lop_Proofs.Cscale_ofq; ring.
  Qed.
  Lemma contraction_plus right ch x vp a' a :
    (contraction right (Lop_Proofs.wsel right false (bare_left (vplus t v w) ch)) (gplus t g h) x vp a' a ==
     contraction right (Lop_Proofs.wsel right false (bare_left v ch)) g x vp a' a +
     Cscale t (contraction right (Lop_Proofs.wsel right false (bare_left v ch)) h x vp a' a + contraction right (Lop_Proofs.wsel right false (bare_left w ch)) g x vp a' a) +
     Cscale (t * t) (contraction right (Lop_Proofs.wsel right false (bare_left w ch)) h x vp a' a))%C.
  Proof.
    assert (E : forall l k, (Lop_Proofs.wsel right false (bare_left (vplus t v w) ch) l k ==
      Lop_Proofs.wsel right false (bare_left v ch) l k + Cscale t (Lop_Proofs.wsel right false (bare_left w ch) l k))%C).
    { intros l k. rewrite <- !Lop_Proofs.wspin_spec by (destruct right; reflexivity).
      destruct right; cbn [Lop_Proofs.wspin]; rewrite !bare_left_plus, !Lop_Proofs.Cscale_ofq; ring. }
    unfold contraction, csum, bits; cbn [fold_right]. rewrite !E, !Gmat_plus.
    assert (T : (Cofq (t * t) == Cofq t * Cofq t)%C) by (split; unfold Cmul, Cofq; cbn [re im]; ring).
    rewrite !Lop_Proofs.Cscale_ofq, T. ring.
  Qed.
  Lemma closed_plus right ch x a' a :
    (closed_by Jl (gplus t g h) (vplus t v w) right ch x a' a ==
     closed_by Jl g v right ch x a' a + Cscale t (closed_by Jl h v right ch x a' a + closed_by Jl g w right ch x a' a) +
     Cscale (t * t) (closed_by Jl h w right ch x a' a))%C.
  Proof.
    destruct HI as (Ext & Ad & Sc & _). unfold closed_by. rewrite (Ext _ _ (fun vp => contraction_plus right ch x vp a' a)). rewrite !Ad, !Sc, !Ad. reflexivity.
  Qed.
  Hypothesis Hv : values_ok v.
  Hypothesis Hw : values_ok w.
  Notation loop vec right ch v g := (loop_of Jl vec right false symmetric_full (masked (flags_v3 ch) v) g).
  Lemma loop_plus vec right ch k x : let at_ S := (if (k : bool) then seR S x else seK S x) in
    (at_ (loop vec right ch (vplus t v w) (gplus t g h)) ==
     at_ (loop vec right ch v g) + Cscale t (at_ (loop vec right ch v h) + at_ (loop vec right ch w g)) + Cscale (t * t) (at_ (loop vec right ch w h)))%C.
  Proof.
    cbv zeta. pose proof (vplus_ok Hv Hw) as Hs.
    destruct vec.
    - destruct (v3_vector Jl (gplus t g h) _ HI Hs right ch x) as (A0 & B0). destruct (v3_vector Jl g _ HI Hv right ch x) as (A1 & B1).
      destruct (v3_vector Jl h _ HI Hv right ch x) as (A2 & B2). destruct (v3_vector Jl g _ HI Hw right ch x) as (A3 & B3). destruct (v3_vector Jl h _ HI Hw right ch x) as (A4 & B4).
      destruct k; [rewrite A0, A1, A2, A3, A4|rewrite B0, B1, B2, B3, B4]; rewrite closed_plus; split; unfold Cscale, Cadd, Cconj; cbn [re im]; ring.
    - destruct (v3_scalar Jl (gplus t g h) _ HI Hs right ch x) as (A0 & B0). destruct (v3_scalar Jl g _ HI Hv right ch x) as (A1 & B1).
      destruct (v3_scalar Jl h _ HI Hv right ch x) as (A2 & B2). destruct (v3_scalar Jl g _ HI Hw right ch x) as (A3 & B3). destruct (v3_scalar Jl h _ HI Hw right ch x) as (A4 & B4).
      destruct k; [rewrite A0, A1, A2, A3, A4|rewrite B0, B1, B2, B3, B4]; rewrite closed_plus; split; unfold Cscale, Cadd; cbn [re im]; ring.
  Qed.
End Linear.
