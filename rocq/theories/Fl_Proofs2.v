(** The self-energies and propagators of a flow keep their symmetries. *)
From Coq Require Import QArith Lqa.
From Verif Require Import Prelude Cplx Keld_Model Keld_Spec Keld_Proofs Util_Spec Sym_Model Sym_Spec Sym_Proofs2 Tab_Model Tab_Spec
  Rd_Model Rd_Spec Rd_Props Dec_Model Bub_Model Bub_Spec Bub_Proofs Bub_Proofs2 Bub_Proofs3 Bub_Props Sf_Model Sf_Spec Sf_Proofs Sf_Proofs2
  Lop_Model Fl_Model Fl_Spec Fl_Proofs.
From Verif Require Mlp_Model Bse_Model Lop_Spec Lop_Proofs Lop_Proofs2 Lop_Props.
Open Scope Z_scope.
Import Lop_Spec (integral_ok, integral_imaginary, contraction, component).

(** ** the loop *)
Section Loop.
  Variables (c : cfg) (u : Q) (v : vert) (Jl : (Q -> cplx) -> cplx) (st : symmtype) (right all_spins : bool) (g : prop).
  Hypothesis Kc : keldysh c = true.
  Hypothesis CBc : contour c = false.
  Hypothesis Sy : symmetric c u v.
  Hypothesis HJ : integral_ok Jl.
  Hypothesis HI : integral_imaginary Jl.
  Hypothesis Hs : right && all_spins = false.
  Hypothesis Hst : is_full st = true \/ is_r_irred st = true.
  Hypothesis Hg : lines_ok g.
  Hypothesis Hp : phs c = true -> ph_symmetric g.
  Notation W := (Lop_Proofs.wsel right all_spins (total st (if right then Ca else Ct) v)).
  Definition value (vec : bool) (x : Q) (k : Z) : cplx :=
    (if vec then compute_Keldysh_vector Jl false right all_spins (loop_vertex st v) g x (fun _ => C0)
     else compute_Keldysh_scalar Jl false right all_spins (loop_vertex st v) g x (fun _ => C0)) k.
  Lemma anti : Lop_Spec.antihermitian g.
  Proof.
    intros x. pose proof (ok_conjugate _ Hg x) as K. destruct (gK g x) as [r i]; cbn [re] in K.
    split; unfold Cconj, Cneg; cbn [re im]; rewrite ?K; ring.
  Qed.
  Lemma value_contraction vec x k a' a : component k = Some (a', a) ->
    (value vec x k == Jl (fun vp => contraction right W g x vp a' a))%C.
  Proof.
    intros E. unfold value. destruct vec.
    - apply (Lop_Proofs2.vector_spec Jl (total st (if right then Ca else Ct) v) (loop_vertex st v) false right all_spins g x (fun _ => C0) k a' a);
      auto using (total_ok c u v Sy), (total_conj c u v Kc CBc Sy), (total_exchange c u v Kc CBc Sy), anti. apply (total_seen c u v Sy); exact Hst.
    - apply (Lop_Proofs2.scalar_spec Jl (total st (if right then Ca else Ct) v) (loop_vertex st v) false right all_spins g x (fun _ => C0) k a' a);
      auto using (total_ok c u v Sy). apply (total_seen c u v Sy); exact Hst.
  Qed.
  Lemma J_neg f : (Jl (fun x => - f x)%C == - Jl f)%C.
  Proof.
    destruct HJ as (Ext & _ & Sc & _). transitivity (Jl (fun x => Cscale (-1) (f x))); [apply Ext; intros; symmetry; apply cscale_neg1|].
    rewrite Sc. apply cscale_neg1.
  Qed.
  Lemma W_m x y vp a' a z' z : (x == y)%Q ->
    (W (Lop_Spec.leg_freqs right x vp) (Lop_Spec.closed right code4 a' a z' z) == W (Lop_Spec.leg_freqs right y vp) (Lop_Spec.closed right code4 a' a z' z))%C.
  Proof.
    intros E. rewrite <- !Lop_Proofs.wspin_spec by exact Hs.
    assert (L : legs_eq (Lop_Spec.leg_freqs right x vp) (Lop_Spec.leg_freqs right y vp)).
    { unfold Lop_Spec.leg_freqs, Lop_Spec.closed. destruct right; repeat (apply Logic.conj); cbn [n1' n2' n1 n2]; try reflexivity; exact E. }
    pose proof (total_ok c u v Sy st (if right then Ca else Ct)) as T.
    apply Lop_Proofs.wspin_m; destruct right; cbn [Lop_Spec.closed] in *; (apply T; [auto|exact L]).
  Qed.
  Theorem loop_ok vec : se_ok c 0 (loop_of Jl vec right all_spins st v g).
  Proof.
    set (sg := if right then (-1)%Q else 1%Q).
    assert (E0 : forall x, seR (loop_of Jl vec right all_spins st v g) x = Cscale sg (value vec x 0)) by (intros; destruct vec; reflexivity).
    assert (E1 : forall x, seK (loop_of Jl vec right all_spins st v g) x = Cscale sg (value vec x 1)) by (intros; destruct vec; reflexivity).
    pose proof HJ as (Ext & _ & Sc & Refl). pose proof HI as HI'. unfold integral_imaginary in HI'.
    assert (M : forall x y k a' a, component k = Some (a', a) -> (x == y)%Q -> (value vec x k == value vec y k)%C).
    { intros x y k a' a C E. rewrite !(value_contraction vec _ k a' a C). apply Ext. intros vp. unfold contraction, csum, bits. cbn [fold_right].
      rewrite !(W_m x y vp a' a _ _ E). reflexivity. }
    assert (K : forall x, (Cconj (value vec x 1) == - value vec x 1)%C).
    { intros x. rewrite (value_contraction vec x 1 false false eq_refl).
      pose proof (HI (fun vp => contraction right W g x vp false false)) as H.
      assert (X : (Jl (fun vp => Cconj (contraction right W g x vp false false)) == Jl (fun vp => contraction right W g x vp false false))%C).
      { apply Ext. intros vp. rewrite (contraction_conj c u v Kc CBc Sy right all_spins g Hs Hg st x vp false false) at 2. cbn [Bub_Proofs.eps]. ring. }
      rewrite X in H. set (z := Jl _) in *. transitivity (- - Cconj z)%C; [ring|]. rewrite <- H. reflexivity. }
    assert (R : forall x k a' a, component k = Some (a', a) -> phs c = true ->
      (value vec (- x) k == Bub_Proofs.eps a' * Bub_Proofs.eps a * Cconj (value vec x k))%C).
    { intros x k a' a C Ph. rewrite !(value_contraction vec _ k a' a C).
      transitivity (- (Bub_Proofs.eps a' * Bub_Proofs.eps a * - Cconj (Jl (fun vp => contraction right W g x vp a' a))))%C; [|ring].
      rewrite <- (HI' (fun vp => contraction right W g x vp a' a)), <- (Refl (fun vp => contraction right W g (- x) vp a' a)).
      assert (Xm : forall vp, (contraction right W g (- x) (- vp) a' a == - (Bub_Proofs.eps a' * Bub_Proofs.eps a * Cconj (contraction right W g x vp a' a)))%C).
      { intros vp. rewrite (contraction_reversed c u v Kc CBc Sy right all_spins g Hs Hg st x vp a' a Ph (Hp Ph)).
        rewrite conj_neg, !conj_mul, conj_conj. destruct a', a; cbn [Bub_Proofs.eps]; unfold C1; 
        generalize (contraction right W g (- x) (- vp)); intros z; split; unfold Cneg, Cmul, Cconj; cbn [re im]; ring. }
      rewrite (Ext _ _ Xm). rewrite J_neg. apply Cneg_m.
      assert (Sg : (Bub_Proofs.eps a' * Bub_Proofs.eps a == Cofq (if xorb a' a then -1 else 1))%C).
      { destruct a', a; cbn [Bub_Proofs.eps xorb]; split; unfold Cmul, Cneg, C1, Cofq; cbn [re im]; ring. }
      rewrite Sg. transitivity (Jl (fun vp => Cscale (if xorb a' a then -1 else 1) (Cconj (contraction right W g x vp a' a)))).
      - apply Ext. intros vp. rewrite Sg. symmetry. apply Lop_Proofs.Cscale_ofq.
      - rewrite Sc. apply Lop_Proofs.Cscale_ofq. }
    split.
    - intros x y E. rewrite !E0, !E1. rewrite (M x y 0 false true eq_refl E), (M x y 1 false false eq_refl E). split; reflexivity.
    - intros x. rewrite E1. destruct (K x) as [K1 _]. unfold Cconj, Cneg in K1; cbn [re] in K1. unfold Cscale; cbn [re].
      assert (Z : (re (value vec x 1) == 0)%Q) by lra. rewrite Z. ring.
    - intros Ph x. rewrite !E0, !E1, (R x 0 false true eq_refl Ph), (R x 1 false false eq_refl Ph), (K x). cbn [Bub_Proofs.eps].
      set (z := value vec x 0). set (y := value vec x 1). split; split; unfold Cscale, Csub, Cadd, Cneg, Cmul, Cconj, C1, Cofq; cbn [re im]; ring.
  Qed.
End Loop.

(** ** propagators *)
Section Lines.
  Variables (c : cfg) (p : params) (h : Q) (S : selfen).
  Hypothesis HS : se_ok c h S.
  Hypothesis Hf : half_filled c p h.
  Lemma conj_inv z : (Cconj (Cinv z) == Cinv (Cconj z))%C.
  Proof.
    assert (Nn : (Cnorm2 (Cconj z) == Cnorm2 z)%Q) by (unfold Cnorm2, Cconj; cbn [re im]; ring).
    split; unfold Cinv, Cconj; cbn [re im]; fold (Cconj z); rewrite ?Nn; unfold Qdiv; ring.
  Qed.
  Lemma inv_neg z : (Cinv (- z) == - Cinv z)%C.
  Proof.
    assert (Nn : (Cnorm2 (- z) == Cnorm2 z)%Q) by (unfold Cnorm2, Cneg; cbn [re im]; ring).
    split; unfold Cinv, Cneg; cbn [re im]; fold (Cneg z); rewrite ?Nn; unfold Qdiv; ring.
  Qed.
  Lemma Cofq_m x y : (x == y)%Q -> (Cofq x == Cofq y)%C. Proof. intros E. split; unfold Cofq; cbn [re im]; [exact E|reflexivity]. Qed.
  Lemma im_m x y : (x == y)%C -> (im x == im y)%Q. Proof. intros E. apply E. Qed.
  Lemma GR_m x y : (x == y)%Q -> (GR p S x == GR p S y)%C.
  Proof. intros E. unfold GR. rewrite (proj1 (se_values _ _ _ HS x y E)), (Cofq_m (x - eps p) (y - eps p)) by (rewrite E; reflexivity). reflexivity. Qed.
  Lemma GK_m x y : (x == y)%Q -> (GK p S x == GK p S y)%C.
  Proof. intros E. unfold GK. apply Cmul_m; [reflexivity|]. apply Cofq_m. rewrite (im_m _ _ (GR_m x y E)), (proj1 Hf x y E). reflexivity. Qed.
  Lemma SR_m x y : (x == y)%Q -> (SR p S x == SR p S y)%C.
  Proof. intros E. unfold SR. rewrite (GR_m x y E). reflexivity. Qed.
  Lemma SK_m x y : (x == y)%Q -> (SK p S x == SK p S y)%C.
  Proof. intros E. unfold SK. apply Cmul_m; [reflexivity|]. apply Cofq_m. rewrite (im_m _ _ (SR_m x y E)), (proj1 Hf x y E). reflexivity. Qed.
  Lemma GK_imaginary x : (re (GK p S x) == 0)%Q. Proof. unfold GK, Cmul, Ci, Cofq; cbn [re im]. ring. Qed.
  Lemma SK_imaginary x : (re (SK p S x) == 0)%Q. Proof. unfold SK, Cmul, Ci, Cofq; cbn [re im]. ring. Qed.
  Lemma GR_reversed x : phs c = true -> (GR p S (- x) == - Cconj (GR p S x))%C.
  Proof.
    intros Ph. unfold GR, Cdiv. rewrite conj_mul, conj_inv.
    destruct (proj2 Hf Ph) as (He & _). destruct (se_reversal _ _ _ HS Ph x) as (HR & _). set (sm := seR S (- x)) in *. set (sp := seR S x) in *.
    transitivity (C1 * Cinv (- Cconj (Cofq (x - eps p) + Ci * Cofq (gam p * (1 # 2)) + Ci * Cofq (lam p * (1 # 2)) - sp)))%C.
    - apply Cmul_m; [reflexivity|]. apply Cinv_m.
      destruct HR as (R1 & R2). unfold Csub, Cadd, Cneg, Cconj, Cofq in R1, R2. cbn [re im] in R1, R2.
      split; unfold Csub, Cadd, Cneg, Cconj, Cofq, Ci, Cmul; cbn [re im]; lra.
    - rewrite inv_neg. split; unfold Cmul, Cneg, Cconj, C1; cbn [re im]; ring.
  Qed.
  Lemma GK_reversed x : phs c = true -> (GK p S (- x) == - GK p S x)%C.
  Proof.
    intros Ph. destruct (proj2 Hf Ph) as (_ & Ho). pose proof (im_m _ _ (GR_reversed x Ph)) as E. unfold Cneg, Cconj in E; cbn [im] in E.
    unfold GK. rewrite (Cofq_m _ (- (occ p x * 2 * im (GR p S x)))); [split; unfold Cmul, Cneg, Ci, Cofq; cbn [re im]; ring|].
    rewrite E, Ho. ring.
  Qed.
  Lemma SR_reversed x : phs c = true -> (SR p S (- x) == - Cconj (SR p S x))%C.
  Proof. intros Ph. unfold SR. rewrite (GR_reversed x Ph). set (z := GR p S x). split; unfold Cmul, Cneg, Cconj, Ci, Cofq; cbn [re im]; ring. Qed.
  Lemma SK_reversed x : phs c = true -> (SK p S (- x) == - SK p S x)%C.
  Proof.
    intros Ph. destruct (proj2 Hf Ph) as (_ & Ho). pose proof (im_m _ _ (SR_reversed x Ph)) as E. unfold Cneg, Cconj in E; cbn [im] in E.
    unfold SK. rewrite (Cofq_m _ (- (occ p x * 2 * im (SR p S x)))); [split; unfold Cmul, Cneg, Ci, Cofq; cbn [re im]; ring|].
    rewrite E, Ho. ring.
  Qed.
  Lemma g_ok : lines_ok (prop_g p S) /\ (phs c = true -> ph_symmetric (prop_g p S)).
  Proof. split; [split; [split|]|]; cbn [prop_g gR gK]; [exact GR_m|exact GK_m|exact GK_imaginary|]. intros Ph x. split; [apply GR_reversed|apply GK_reversed]; exact Ph. Qed.
  Lemma s_ok : lines_ok (prop_s p S) /\ (phs c = true -> ph_symmetric (prop_s p S)).
  Proof. split; [split; [split|]|]; cbn [prop_s gR gK]; [exact SR_m|exact SK_m|exact SK_imaginary|]. intros Ph x. split; [apply SR_reversed|apply SK_reversed]; exact Ph. Qed.
  Variable dS : selfen.
  Hypothesis HdS : se_ok c 0 dS.
  Lemma KR_m x y : (x == y)%Q -> (Katanin_R p S dS x == Katanin_R p S dS y)%C.
  Proof. intros E. unfold Katanin_R. rewrite (GR_m x y E), (proj1 (se_values _ _ _ HdS x y E)). reflexivity. Qed.
  Lemma KK_m x y : (x == y)%Q -> (Katanin_K p S dS x == Katanin_K p S dS y)%C.
  Proof. intros E. destruct (se_values _ _ _ HdS x y E) as (E1 & E2). unfold Katanin_K. rewrite (GR_m x y E), (GK_m x y E), E1, E2. reflexivity. Qed.
  Lemma KK_imaginary x : (re (Katanin_K p S dS x) == 0)%Q.
  Proof.
    unfold Katanin_K. pose proof (GK_imaginary x) as E1. pose proof (se_imaginary _ _ _ HdS x) as E2.
    destruct (GK p S x) as [a b], (seK dS x) as [d e], (GR p S x) as [g1 g2], (seR dS x) as [s1 s2]. cbn [re im] in E1, E2.
    unfold Cadd, Cmul, Cconj; cbn [re im]. rewrite E1, E2. ring.
  Qed.
  Lemma reversal0 x : phs c = true -> (seR dS (- x) == - Cconj (seR dS x))%C /\ (seK dS (- x) == - seK dS x)%C.
  Proof.
    intros Ph. destruct (se_reversal _ _ _ HdS Ph x) as ((A1 & A2) & B). split; [|exact B].
    unfold Csub, Cadd, Cneg, Cconj, Cofq in A1, A2. cbn [re im] in A1, A2. split; unfold Cneg, Cconj; cbn [re im]; lra.
  Qed.
  Lemma KR_reversed x : phs c = true -> (Katanin_R p S dS (- x) == - Cconj (Katanin_R p S dS x))%C.
  Proof.
    intros Ph. destruct (reversal0 x Ph) as (A & _). unfold Katanin_R. rewrite (GR_reversed x Ph), A. set (z := GR p S x). set (y := seR dS x).
    split; unfold Cmul, Cneg, Cconj; cbn [re im]; ring.
  Qed.
  Lemma KK_reversed x : phs c = true -> (Katanin_K p S dS (- x) == - Katanin_K p S dS x)%C.
  Proof.
    intros Ph. destruct (reversal0 x Ph) as (A & B). unfold Katanin_K. rewrite (GR_reversed x Ph), (GK_reversed x Ph), A, B.
    set (z := GR p S x). set (y := seR dS x). set (k := GK p S x). set (d := seK dS x).
    split; unfold Cadd, Cmul, Cneg, Cconj; cbn [re im]; ring.
  Qed.
  Lemma e_ok : lines_ok (prop_e p S dS) /\ (phs c = true -> ph_symmetric (prop_e p S dS)).
  Proof. split; [split; [split|]|]; cbn [prop_e gR gK]; [exact KR_m|exact KK_m|exact KK_imaginary|]. intros Ph x. split; [apply KR_reversed|apply KK_reversed]; exact Ph. Qed.
  Lemma k_ok : lines_ok (prop_k p S dS) /\ (phs c = true -> ph_symmetric (prop_k p S dS)).
  Proof.
    split; [split; [split|]|]; cbn [prop_k gR gK].
    - intros x y E. rewrite (SR_m x y E), (KR_m x y E). reflexivity.
    - intros x y E. rewrite (SK_m x y E), (KK_m x y E). reflexivity.
    - intros x. pose proof (SK_imaginary x) as H1. pose proof (KK_imaginary x) as H2. cbn [prop_k gK]. unfold Cadd; cbn [re]. lra.
    - intros Ph x. cbn [prop_k gR gK]. split.
      + rewrite (SR_reversed x Ph), (KR_reversed x Ph), conj_add. ring.
      + rewrite (SK_reversed x Ph), (KK_reversed x Ph). ring.
  Qed.
End Lines.

(** ** linear combinations *)
Lemma sadd_ok c S T : se_ok c 0 S -> se_ok c 0 T -> se_ok c 0 (sadd S T).
Proof.
  intros [A1 A2 A3] [B1 B2 B3]. split; cbn [sadd seR seK].
  - intros x y E. destruct (A1 x y E) as (E1 & E2), (B1 x y E) as (F1 & F2). rewrite E1, E2, F1, F2. split; reflexivity.
  - intros x. pose proof (A2 x). pose proof (B2 x). unfold Cadd; cbn [re]. lra.
  - intros Ph x. destruct (A3 Ph x) as ((E1 & E2) & E3), (B3 Ph x) as ((F1 & F2) & F3). split.
    + unfold Csub, Cadd, Cneg, Cconj, Cofq in *; cbn [re im] in *. split; cbn [re im]; lra.
    + rewrite E3, F3. ring.
Qed.
Lemma sscale_ok c q S : se_ok c 0 S -> se_ok c 0 (sscale q S).
Proof.
  intros [A1 A2 A3]. split; cbn [sscale seR seK].
  - intros x y E. destruct (A1 x y E) as (E1 & E2). rewrite E1, E2. split; reflexivity.
  - intros x. unfold Cscale; cbn [re]. rewrite A2. ring.
  - intros Ph x. destruct (A3 Ph x) as ((E1 & E2) & (E3 & E4)). split.
    + unfold Csub, Cadd, Cneg, Cconj, Cofq, Cscale in *; cbn [re im] in *.
      assert (F1 : (re (seR S (- x)) == - re (seR S x))%Q) by lra. assert (F2 : (im (seR S (- x)) == im (seR S x))%Q) by lra.
      split; cbn [re im]; rewrite ?F1, ?F2; ring.
    + unfold Cneg, Cscale in *; cbn [re im] in *. split; cbn [re im]; rewrite ?E3, ?E4; ring.
Qed.
Lemma zero_ok c : se_ok c 0 (mkS (fun _ => C0) (fun _ => C0)).
Proof. split; cbn [seR seK]; intros; split; try reflexivity; split; reflexivity. Qed.
Lemma mixed_ok c l : forall alpha, Forall (fun p : (vert * selfen) * (vert * selfen) => se_ok c 0 (snd (fst p)) /\ se_ok c 0 (snd (snd p))) l ->
  se_ok c 0 (mixed l alpha).
Proof.
  induction l as [|((a, n), (b, o)) l IH]; intros [|q alpha] H; cbn [mixed]; try apply zero_ok.
  inversion H as [|? ? (Hn & Ho) Hl]. cbn [fst snd] in *. apply sadd_ok; [|apply IH; exact Hl]. apply sscale_ok, sadd_ok; apply sscale_ok; assumption.
Qed.

(** ** Dyson equation and derivatives *)
Lemma dyson p S v : nonzero (inverse_propagator p S v) -> (GR p S v * inverse_propagator p S v == C1)%C.
Proof.
  intros H. unfold GR, Cdiv.
  rewrite (Cinv_m _ (inverse_propagator p S v)).
  - set (z := inverse_propagator p S v) in *. unfold nonzero in H. split; unfold Cmul, Cinv, C1, Cnorm2; cbn [re im]; field; exact H.
  - unfold inverse_propagator. split; unfold Cofq, Ci, Csub, Cadd, Cneg, Cmul; cbn [re im]; ring.
Qed.
(** G' - G = G (D - D') G' for inverse D, D' *)
Lemma resolvent (g g' d d' : cplx) : (g * d == C1)%C -> (g' * d' == C1)%C -> (g' - g == g * (d - d') * g')%C.
Proof.
  intros E E'. transitivity (g' * (g * d) - g * (g' * d'))%C; [rewrite E, E'; ring|ring].
Qed.
Lemma second_order (g g' e : cplx) : (g' - g == g * e * g')%C -> (g' - g == g * e * g + g * e * g * e * g')%C.
Proof.
  intros E. transitivity (g * e * (g + (g' - g)))%C; [rewrite E at 1; ring|]. rewrite E. ring.
Qed.
