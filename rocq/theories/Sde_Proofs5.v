(** Self-energies from a loop over a part of a vertex have the symmetries of a self-energy. *)
From Coq Require Import QArith Lqa.
From Verif Require Import Prelude Cplx Keld_Model Keld_Spec Keld_Proofs Util_Spec Sym_Model Sym_Spec Sym_Proofs2 Tab_Model Tab_Spec
  Rd_Model Rd_Spec Rd_Props Dec_Model Bub_Model Bub_Spec Bub_Proofs Bub_Proofs2 Bub_Proofs3 Bub_Props Sf_Model Sf_Spec Sf_Proofs Sf_Proofs2
  Lop_Model Fl_Model Fl_Spec Fl_Proofs Fl_Proofs2 Sde_Model Sde_Proofs2.
From Verif Require Mlp_Model Bse_Model Lop_Spec Lop_Proofs Lop_Proofs2 Skp_Spec.
Open Scope Z_scope.
Import Lop_Spec (vertex_legs, vertex_ok, exchange_symmetric, integral_ok, integral_imaginary, contraction, component).

Section Generic.
  Variables (c : cfg) (Jl : (Q -> cplx) -> cplx) (right : bool) (g : prop) (V : vertex_legs).
  Hypothesis HJ : integral_ok Jl.
  Hypothesis HI : integral_imaginary Jl.
  Hypothesis Hg : lines_ok g.
  Hypothesis Hp : phs c = true -> ph_symmetric g.
  Hypothesis V_ok : vertex_ok V.
  Hypothesis V_exchange : exchange_symmetric V.
  Hypothesis V_in_out : forall s a b d e l, spin01 s -> conserved l -> (V s l (code4 a b d e) == conj_of (klof (code4 a b d e)) (V s (in_out_f l) (code4 d e a b)))%C.
  Hypothesis V_reversed : phs c = true -> forall s a b d e l, spin01 s -> conserved l ->
    (V s l (code4 a b d e) == conj_of (klof (code4 a b d e)) (V s (minus_f l) (code4 a b d e)))%C.
  Notation W := (Lop_Proofs.wsel right false V).
  Lemma no_sum : right && false = false. Proof. destruct right; reflexivity. Qed.
  Lemma W_is l k : (W l k == Lop_Proofs.wspin right false (V 0 l k) (V 1 l k))%C.
  Proof. symmetry. apply Lop_Proofs.wspin_spec. exact no_sum. Qed.
  Lemma wspin_conj kl x y : (conj_of kl (Lop_Proofs.wspin right false x y) == Lop_Proofs.wspin right false (conj_of kl x) (conj_of kl y))%C.
  Proof. destruct right; cbn [Lop_Proofs.wspin]; rewrite ?conj_of_add; reflexivity. Qed.
  Lemma W_value x y vp a' a z' z : (x == y)%Q ->
    (W (Lop_Spec.leg_freqs right x vp) (Lop_Spec.closed right code4 a' a z' z) == W (Lop_Spec.leg_freqs right y vp) (Lop_Spec.closed right code4 a' a z' z))%C.
  Proof.
    intros E. rewrite !W_is.
    assert (L : legs_eq (Lop_Spec.leg_freqs right x vp) (Lop_Spec.leg_freqs right y vp)).
    { unfold Lop_Spec.leg_freqs, Lop_Spec.closed. destruct right; repeat (apply Logic.conj); cbn [n1' n2' n1 n2]; try reflexivity; exact E. }
    apply Lop_Proofs.wspin_m; destruct right; cbn [Lop_Spec.closed] in *; (apply V_ok; [auto|exact L]).
  Qed.
  Lemma W_conj x vp a' a y' y :
    (W (Lop_Spec.leg_freqs right x vp) (Lop_Spec.closed right code4 a' a y' y) ==
     - (eps4 a' y' a y * Cconj (W (Lop_Spec.leg_freqs right x vp) (Lop_Spec.closed right code4 a a' y y'))))%C.
  Proof.
    rewrite <- conj_of_eps. rewrite W_is. rewrite (conj_of_m _ _ _ (W_is _ _)). rewrite wspin_conj.
    assert (E : forall s, spin01 s -> (V s (Lop_Spec.leg_freqs right x vp) (Lop_Spec.closed right code4 a' a y' y) ==
       conj_of (klof (code4 a' y' a y)) (V s (Lop_Spec.leg_freqs right x vp) (Lop_Spec.closed right code4 a a' y y')))%C).
    { intros s Sp. destruct right; cbn [Lop_Spec.closed Lop_Spec.leg_freqs].
      - assert (Co : conserved (mkLegs vp x x vp)) by (unfold conserved; cbn [n1' n2' n1 n2]; ring).
        unfold Lop_Spec.leg_freqs, Lop_Spec.closed. rewrite <- (V_exchange s (mkLegs vp x x vp) y' a' a y Sp Co).
        unfold Lop_Spec.particle_exchange; cbn [n1' n2' n1 n2]. assert (Co' : conserved (mkLegs x vp vp x)) by (unfold conserved; cbn [n1' n2' n1 n2]; ring).
        rewrite (V_in_out s a' y' y a (mkLegs x vp vp x) Sp Co'). unfold in_out_f; cbn [n1' n2' n1 n2]. rewrite !conj_of_eps.
        destruct a', a, y', y; unfold eps4, Bub_Proofs.eps; ring.
      - assert (Co : conserved (mkLegs x vp x vp)) by (unfold conserved; cbn [n1' n2' n1 n2]; ring).
        exact (V_in_out s a' y' a y (mkLegs x vp x vp) Sp Co). }
    apply Lop_Proofs.wspin_m; apply E; [left|right]; reflexivity.
  Qed.
  Lemma W_reversed x vp a' a y' y : phs c = true ->
    (W (Lop_Spec.leg_freqs right x vp) (Lop_Spec.closed right code4 a' a y' y) ==
     - (eps4 a' y' a y * Cconj (W (Lop_Spec.leg_freqs right (- x) (- vp)) (Lop_Spec.closed right code4 a' a y' y))))%C.
  Proof.
    intros Ph. rewrite <- conj_of_eps. rewrite W_is. rewrite (conj_of_m _ _ _ (W_is _ _)). rewrite wspin_conj.
    assert (E : forall s, spin01 s -> (V s (Lop_Spec.leg_freqs right x vp) (Lop_Spec.closed right code4 a' a y' y) ==
       conj_of (klof (code4 a' y' a y)) (V s (Lop_Spec.leg_freqs right (- x) (- vp)) (Lop_Spec.closed right code4 a' a y' y)))%C).
    { intros s Sp. destruct right; cbn [Lop_Spec.closed Lop_Spec.leg_freqs].
      - assert (Co : conserved (mkLegs vp x x vp)) by (unfold conserved; cbn [n1' n2' n1 n2]; ring).
        unfold Lop_Spec.leg_freqs, Lop_Spec.closed.
        rewrite (V_reversed Ph s y' a' a y (mkLegs vp x x vp) Sp Co) at 1. unfold minus_f; cbn [n1' n2' n1 n2]. rewrite !conj_of_eps.
        destruct a', a, y', y; unfold eps4, Bub_Proofs.eps; ring.
      - assert (Co : conserved (mkLegs x vp x vp)) by (unfold conserved; cbn [n1' n2' n1 n2]; ring).
        exact (V_reversed Ph s a' y' a y (mkLegs x vp x vp) Sp Co). }
    apply Lop_Proofs.wspin_m; apply E; [left|right]; reflexivity.
  Qed.
  Lemma closed_conj x vp a' a : (contraction right W g x vp a' a == Bub_Proofs.eps a' * Bub_Proofs.eps a * Cconj (contraction right W g x vp a a'))%C.
  Proof.
    assert (T : forall y y', (Gmat g vp y y' * W (Lop_Spec.leg_freqs right x vp) (Lop_Spec.closed right code4 a' a y' y) ==
      Bub_Proofs.eps a' * Bub_Proofs.eps a * Cconj (Gmat g vp y' y * W (Lop_Spec.leg_freqs right x vp) (Lop_Spec.closed right code4 a a' y y')))%C).
    { intros y y'. rewrite conj_mul. rewrite (W_conj x vp a' a), (G_conj g Hg vp y y'). unfold eps4.
      destruct y, y'; cbn [Bub_Proofs.eps]; generalize (Bub_Proofs.eps a') (Bub_Proofs.eps a); intros; ring. }
    unfold contraction, csum, bits. cbn [fold_right]. rewrite (T true true), (T true false), (T false true), (T false false).
    rewrite !conj_add, !conj_0. generalize (Bub_Proofs.eps a') (Bub_Proofs.eps a). intros. ring.
  Qed.
  Lemma closed_reversed x vp a' a : phs c = true ->
    (contraction right W g x vp a' a == - (Bub_Proofs.eps a' * Bub_Proofs.eps a * Cconj (contraction right W g (- x) (- vp) a' a)))%C.
  Proof.
    intros Ph.
    assert (T : forall y y', (Gmat g vp y y' * W (Lop_Spec.leg_freqs right x vp) (Lop_Spec.closed right code4 a' a y' y) ==
      - (Bub_Proofs.eps a' * Bub_Proofs.eps a * Cconj (Gmat g (- vp) y y' * W (Lop_Spec.leg_freqs right (- x) (- vp)) (Lop_Spec.closed right code4 a' a y' y))))%C).
    { intros y y'. rewrite conj_mul. rewrite (W_reversed x vp a' a _ _ Ph), (G_reversed g Hg vp y y' (Hp Ph)). unfold eps4.
      destruct y, y'; cbn [Bub_Proofs.eps]; generalize (Bub_Proofs.eps a') (Bub_Proofs.eps a); intros; ring. }
    unfold contraction, csum, bits. cbn [fold_right]. rewrite (T true true), (T true false), (T false true), (T false false).
    rewrite !conj_add, !conj_0. generalize (Bub_Proofs.eps a') (Bub_Proofs.eps a). intros. ring.
  Qed.
  (** a self-energy with these components *)
  Variable (sg : Q) (S : selfen).
  Hypothesis E0 : forall x, (seR S x == Cscale sg (Jl (fun vp => contraction right W g x vp false true)))%C.
  Hypothesis E1 : forall x, (seK S x == Cscale sg (Jl (fun vp => contraction right W g x vp false false)))%C.
  Notation I x a' a := (Jl (fun vp => contraction right W g x vp a' a)).
  Lemma J_minus f : (Jl (fun x => - f x)%C == - Jl f)%C.
  Proof.
    destruct HJ as (Ext & _ & Sc & _). transitivity (Jl (fun x => Cscale (-1) (f x))); [apply Ext; intros; symmetry; apply cscale_neg1|].
    rewrite Sc. apply cscale_neg1.
  Qed.
  Theorem part_loop_ok : se_ok c 0 S.
  Proof.
    pose proof HJ as (Ext & _ & Sc & Refl). pose proof HI as HI'. unfold integral_imaginary in HI'.
    assert (M : forall x y a' a, (x == y)%Q -> (I x a' a == I y a' a)%C).
    { intros x y a' a E. apply Ext. intros vp. unfold contraction, csum, bits. cbn [fold_right]. rewrite !(W_value x y vp a' a _ _ E). reflexivity. }
    assert (K : forall x, (Cconj (I x false false) == - I x false false)%C).
    { intros x. pose proof (HI (fun vp => contraction right W g x vp false false)) as H.
      assert (X : (Jl (fun vp => Cconj (contraction right W g x vp false false)) == Jl (fun vp => contraction right W g x vp false false))%C).
      { apply Ext. intros vp. rewrite (closed_conj x vp false false) at 2. cbn [Bub_Proofs.eps]. ring. }
      rewrite X in H. set (z := Jl _) in *. transitivity (- - Cconj z)%C; [ring|]. rewrite <- H. reflexivity. }
    assert (R : forall x a' a, phs c = true -> (I (- x) a' a == Bub_Proofs.eps a' * Bub_Proofs.eps a * Cconj (I x a' a))%C).
    { intros x a' a Ph.
      transitivity (- (Bub_Proofs.eps a' * Bub_Proofs.eps a * - Cconj (Jl (fun vp => contraction right W g x vp a' a))))%C; [|ring].
      rewrite <- (HI' (fun vp => contraction right W g x vp a' a)), <- (Refl (fun vp => contraction right W g (- x) vp a' a)).
      assert (Xm : forall vp, (contraction right W g (- x) (- vp) a' a == - (Bub_Proofs.eps a' * Bub_Proofs.eps a * Cconj (contraction right W g x vp a' a)))%C).
      { intros vp. rewrite (closed_reversed x vp a' a Ph).
        rewrite conj_neg, !conj_mul, conj_conj. destruct a', a; cbn [Bub_Proofs.eps]; unfold C1; 
        generalize (contraction right W g (- x) (- vp)); intros z; split; unfold Cneg, Cmul, Cconj; cbn [re im]; ring. }
      rewrite (Ext _ _ Xm). rewrite J_minus. apply Cneg_m.
      assert (Sg : (Bub_Proofs.eps a' * Bub_Proofs.eps a == Cofq (if xorb a' a then -1 else 1))%C).
      { destruct a', a; cbn [Bub_Proofs.eps xorb]; split; unfold Cmul, Cneg, C1, Cofq; cbn [re im]; ring. }
      rewrite Sg. transitivity (Jl (fun vp => Cscale (if xorb a' a then -1 else 1) (Cconj (contraction right W g x vp a' a)))).
      - apply Ext. intros vp. rewrite Sg. symmetry. apply Lop_Proofs.Cscale_ofq.
      - rewrite Sc. apply Lop_Proofs.Cscale_ofq. }
    split.
    - intros x y E. rewrite !E0, !E1. rewrite (M x y false true E), (M x y false false E). split; reflexivity.
    - intros x. destruct (E1 x) as [-> _]. destruct (K x) as [K1 _]. unfold Cconj, Cneg in K1; cbn [re] in K1. unfold Cscale; cbn [re].
      set (z := I x false false) in *. assert (Z : (re z == 0)%Q) by lra. rewrite Z. ring.
    - intros Ph x. rewrite !E0, !E1, (R x false true Ph), (R x false false Ph), (K x). cbn [Bub_Proofs.eps].
      set (z := I x false true). set (y := I x false false). split; split; unfold Cscale, Csub, Cadd, Cneg, Cmul, Cconj, C1, Cofq; cbn [re im]; ring.
  Qed.
End Generic.

Section Sde.
  Variables (c : cfg) (J Jl : (Q -> cplx) -> cplx) (pi U : Q) (g : prop).
  Hypothesis Kc : keldysh c = true.
  Hypothesis CBc : contour c = false.
  Hypothesis HJ : integral J.
  Hypothesis HL : Skp_Spec.linear J.
  Hypothesis Hpi : ~ (pi == 0)%Q.
  Hypothesis HI : integral_ok Jl.
  Hypothesis Him : integral_imaginary Jl.
  Hypothesis Hg : lines_ok g.
  Hypothesis Hp : phs c = true -> ph_symmetric g.
  Lemma impl_ok v only vec ch : symmetric c (- U / 2) v -> se_ok c 0 (compute_SDE_impl c J Jl pi vec U ch (flags_of only ch) v g).
  Proof.
    intros Sy. pose proof (impl_contraction c J Jl pi U g Kc CBc HJ HL Hpi HI Him Hg Hp v Sy only vec ch) as C.
    pose proof (symmetrised_symmetric c J pi U g Kc CBc HJ Hpi Hg Hp v Sy only) as Sy'.
    apply (part_loop_ok c Jl (version ch) g (seen_part c J pi U g v only ch)) with (sg := if version ch then (-1)%Q else 1%Q); auto.
    - apply seen_part_ok; assumption.
    - apply seen_part_exchange; assumption.
    - intros s a b d e l Sp Co. apply (part_in_out c _ _ Kc Sy'); assumption.
    - intros Ph s a b d e l Sp Co. apply (part_reversed c _ _ Kc Sy'); assumption.
    - intros x. exact (C x 0 false true eq_refl (or_introl eq_refl)).
    - intros x. exact (C x 1 false false eq_refl (or_intror eq_refl)).
  Qed.
  Lemma v1_ok v vec : symmetric c (- U / 2) v -> se_ok c 0 (compute_SDE_v1 c J Jl pi vec U v g).
  Proof.
    intros Sy. pose proof (bare_symmetric c U Kc CBc) as B. unfold compute_SDE_v1, ssub.
    repeat (apply sadd_ok || apply sscale_ok); apply (impl_ok _ true); assumption.
  Qed.
  Lemma v2_ok v vec : symmetric c (- U / 2) v -> se_ok c 0 (fst (compute_SDE_v2 c J Jl pi vec U v g)) /\ se_ok c 0 (snd (compute_SDE_v2 c J Jl pi vec U v g)).
  Proof.
    intros Sy. assert (A : forall ch, se_ok c 0 (compute_SDE_impl c J Jl pi vec U ch no_flags v g)) by (intros; apply (impl_ok v false); exact Sy).
    split.
    - change (fst (compute_SDE_v2 c J Jl pi vec U v g)) with (sscale (1 # 2) (sadd (compute_SDE_impl c J Jl pi vec U Ca no_flags v g) (compute_SDE_impl c J Jl pi vec U Cp no_flags v g))).
      apply sscale_ok, sadd_ok; apply A.
    - change (snd (compute_SDE_v2 c J Jl pi vec U v g)) with (sadd (compute_SDE_impl c J Jl pi vec U Ca no_flags v g) (sscale (-1) (compute_SDE_impl c J Jl pi vec U Cp no_flags v g))).
      apply sadd_ok; [apply A|apply sscale_ok, A].
  Qed.
End Sde.
