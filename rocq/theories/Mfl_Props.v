(** C123: flow keeps the symmetries of self-energy and propagators, Matsubara formalism: with symmetric vertex and self-energy the loops,
    the propagators of the flow equation (REG 2, 3, 4) and the right-hand side of the multiloop flow are conjugated when the frequencies
    are reversed, and real and odd with particle-hole symmetry. *)
From Coq Require Import QArith Lqa.
From Verif Require Import Prelude Cplx Keld_Model Keld_Spec Keld_Proofs Util_Spec Sym_Model Sym_Spec Sym_Proofs Sym_Proofs2 Tab_Model Tab_Spec
  Rd_Model Rd_Spec Rd_Props Rd_Props2 Dec_Model Bub_Model Bub_Spec Bub_Proofs Bub_Proofs2 Bub_Proofs3 Bub_Props Mbu_Spec Mbu_Proofs Mbu_Props
  Mbt_Model Mbt_Spec Mbt_Proofs Mbt_Proofs2 Mbt_Proofs3 Mbt_Props Sf_Model Sf_Spec Sf_Proofs Sf_Proofs2 Msf_Model Msf_Spec Msf_Props Mtf_Model Mtf_Spec Mtf_Props Lop_Model
  Mfl_Model Mfl_Spec Mfl_Proofs Mfl_Proofs2.
From Verif Require Mlp_Model Bse_Model Fl_Spec Fl_Proofs2 Fl_Props.
Open Scope Z_scope.

(** the propagators g, s, e, k of a symmetric self-energy, at all frequencies of a set *)
Theorem C123_matsubara_propagators_keep_symmetries : forall D p S dS g,
  conjugated D (ph p) S -> conjugated D (ph p) dS -> In g [GM p S; SM p S; prop_e p S dS; prop_k p S dS] -> conjugated D (ph p) g.
Proof.
  intros D p S dS g HS HdS H. cbn [In] in H. destruct H as [<-|[<-|[<-|[<-|[]]]]]; [apply G_ok|apply S_ok|apply e_ok|apply k_ok]; assumption.
Qed.
Print Assumptions C123_matsubara_propagators_keep_symmetries.

(** the loop over a symmetric vertex, zero temperature *)
Theorem C123_matsubara_loop_keeps_symmetries : forall c u v Jl version all_spins st g,
  keldysh c = false -> zero_t c = true -> msymmetric c u v -> loop_integral all_frequencies Jl ->
  conjugated all_frequencies (phs c) g -> conjugated all_frequencies (phs c) (loop_of Jl false (phs c) version all_spins st v g).
Proof.
  intros c u v Jl version all_spins st g Kc Zc Sy HJ Hg.
  apply (loop_conjugated all_frequencies (phs c) version all_spins (loop_vertex false st v) g Jl); try assumption; try (intros; exact I).
  exact (mloop_vertex c u v st _ Kc Zc Sy).
Qed.
Print Assumptions C123_matsubara_loop_keeps_symmetries.

Lemma fermionic_neg x : fermionic x -> fermionic (- x).
Proof. intros (n & E). exists (- n - 1). rewrite E. unfold Qeq, inject_Z, Qopp; cbn [Qnum Qden]. lia. Qed.
(** finite temperature: the sum over -POSINTRANGE ... POSINTRANGE - 1 *)
Theorem C123_finite_temperature_loop_keeps_symmetries : forall ph u v pos T version all_spins st g,
  tsymmetric ph u v -> conjugated fermionic ph g -> conjugated fermionic ph (loop_of (loop_sum pos T) true ph version all_spins st v g).
Proof.
  intros ph u v pos T version all_spins st g Sy Hg.
  apply (loop_conjugated fermionic ph version all_spins (loop_vertex true st v) g (loop_sum pos T)); try assumption.
  - exact (tloop_vertex ph u v st _ Sy).
  - apply loop_sum_integral.
  - exact fermionic_neg.
  - exact fermionic_ext.
Qed.
Print Assumptions C123_finite_temperature_loop_keeps_symmetries.

Lemma line_of_conjugated c g : conjugated all_frequencies (phs c) g -> line_ok c g.
Proof. intros (A & B). split; intros; [apply A|apply B]; try exact I; assumption. Qed.
(** the right-hand side of the multiloop flow keeps the symmetries of the whole state, zero temperature *)
Theorem C123_matsubara_flow_keeps_symmetries : forall c J Jl pi p u Psi S alpha vnorm bnorm brel reorder
    tol_abs tol_rel se_abs se_rel nmax nloops a,
  keldysh c = false -> zero_t c = true -> ph p = phs c -> integral J -> loop_integral all_frequencies Jl ->
  msymmetric c u Psi -> conjugated all_frequencies (phs c) S ->
  mflow_rhs Jl false p Psi S alpha c J pi vnorm bnorm brel reorder tol_abs tol_rel se_abs se_rel nmax nloops = Some a ->
  msymmetric c 0 (Mlp_Model.a_vertex _ _ a) /\ conjugated all_frequencies (phs c) (Mlp_Model.a_se _ _ a).
Proof.
  intros c J Jl pi p u Psi S alpha vnorm bnorm brel reorder tol_abs tol_rel se_abs se_rel nmax nloops a Kc Zc Ep HJ HJl HPsi HS E.
  set (good := conjugated all_frequencies (phs c)).
  assert (HG : good (GM p S)) by (unfold good; rewrite <- Ep in *; apply G_ok; exact HS).
  assert (HSM : good (SM p S)) by (unfold good; rewrite <- Ep in *; apply S_ok; exact HS).
  assert (He : forall d, good d -> good (prop_e p S d)) by (unfold good; rewrite <- Ep in *; intros d Hd; apply e_ok; assumption).
  assert (Hk : forall d, good d -> good (prop_k p S d)) by (unfold good; rewrite <- Ep in *; intros d Hd; apply k_ok; assumption).
  assert (Hl : forall w v st g, msymmetric c w v -> good g -> good (loop_of Jl false (ph p) false true st v g)).
  { intros w v st g Hv Hg. rewrite Ep. apply (C123_matsubara_loop_keeps_symmetries c w); assumption. }
  assert (H1 : good (selfEnergyOneLoopFlow Jl false p Psi S)) by (apply (Hl u); assumption).
  unfold mflow_rhs in E.
  refine (C122_matsubara_multiloop_symmetric c J pi mself _ _ u Psi _ _ _ _ _ _ _ _ _ _ _ _ _ _ _ good a Kc Zc HJ HPsi _ _ H1 _ _ E).
  - split; apply line_of_conjugated; exact HG.
  - intros d Hd. split; apply line_of_conjugated; [exact HG|apply Hk, Hd].
  - intros v Hv. apply add_ok; [exact H1|]. cbn [corrections]. unfold selfEnergyFlowCorrections. cbv zeta.
    assert (T : good (loop_of Jl false (ph p) false true symmetric_r_irred v (GM p S))) by (apply (Hl 0%Q); assumption).
    apply add_ok; [exact T|]. apply (Hl u); auto.
  - intros l Hf. apply mixed_ok. exact Hf.
Qed.
Print Assumptions C123_matsubara_flow_keeps_symmetries.

(** finite temperature *)
Theorem C123_finite_temperature_flow_keeps_symmetries : forall c pos pos' tails pi T p u Psi S alpha vnorm bnorm brel reorder
    tol_abs tol_rel se_abs se_rel nmax nloops a,
  ph p = phs c -> sum_T tails -> tsymmetric (phs c) u Psi -> conjugated fermionic (phs c) S ->
  tflow_rhs (loop_sum pos' T) true p Psi S alpha c pos tails pi T vnorm bnorm brel reorder tol_abs tol_rel se_abs se_rel nmax nloops = Some a ->
  tsymmetric (phs c) 0 (Mlp_Model.a_vertex _ _ a) /\ conjugated fermionic (phs c) (Mlp_Model.a_se _ _ a).
Proof.
  intros c pos pos' tails pi T p u Psi S alpha vnorm bnorm brel reorder tol_abs tol_rel se_abs se_rel nmax nloops a Ep Ht HPsi HS E.
  set (good := conjugated fermionic (phs c)).
  assert (HG : good (GM p S)) by (unfold good; rewrite <- Ep in *; apply G_ok; exact HS).
  assert (HSM : good (SM p S)) by (unfold good; rewrite <- Ep in *; apply S_ok; exact HS).
  assert (He : forall d, good d -> good (prop_e p S d)) by (unfold good; rewrite <- Ep in *; intros d Hd; apply e_ok; assumption).
  assert (Hk : forall d, good d -> good (prop_k p S d)) by (unfold good; rewrite <- Ep in *; intros d Hd; apply k_ok; assumption).
  assert (Hl : forall w v st g, tsymmetric (phs c) w v -> good g -> good (loop_of (loop_sum pos' T) true (ph p) false true st v g)).
  { intros w v st g Hv Hg. rewrite Ep. apply (C123_finite_temperature_loop_keeps_symmetries (phs c) w); assumption. }
  assert (H1 : good (selfEnergyOneLoopFlow (loop_sum pos' T) true p Psi S)) by (apply (Hl u); assumption).
  unfold tflow_rhs in E.
  refine (C122_finite_temperature_multiloop_symmetric c pos tails pi T mself _ _ u Psi _ _ _ _ _ _ _ _ _ _ _ _ _ _ _ good a Ht HPsi _ _ H1 _ _ E).
  - split; exact HG.
  - intros d Hd. split; [exact HG|apply Hk, Hd].
  - intros v Hv. apply add_ok; [exact H1|]. cbn [corrections]. unfold selfEnergyFlowCorrections. cbv zeta.
    assert (X : good (loop_of (loop_sum pos' T) true (ph p) false true symmetric_r_irred v (GM p S))) by (apply (Hl 0%Q); assumption).
    apply add_ok; [exact X|]. apply (Hl u); auto.
  - intros l Hf. apply mixed_ok. exact Hf.
Qed.
Print Assumptions C123_finite_temperature_flow_keeps_symmetries.

(** the scale derivative of the propagator at fixed self-energy is the single-scale propagator, the derivative in direction of a
    self-energy is the Katanin extension (with remainders of second order), where the denominators do not vanish *)
Definition at_scale (l : Q) (p : mparams) : mparams := mkMP (ph p) (reg p) l (eps p) (gam p) (unit p).
Definition inverse2 (p : mparams) (S : mself) (v : Q) : cplx :=
  (G0M_inv p v + (if ph p then C1 else Ci) * Cofq (lam p * (1 # 2) * sign v) - S v)%C.
Lemma GM2 p S v : reg p = 2 -> (GM p S v == C1 / inverse2 p S v)%C.
Proof. intros R. unfold GM, inverse2. rewrite R. cbn [Z.eqb Pos.eqb]. destruct (ph p); [|reflexivity]. assert (E : forall z, (C1 * z == z)%C) by (intros; ring). rewrite E. reflexivity. Qed.
Lemma SM2 p S v : reg p = 2 -> (SM p S v == Cscale (- (1 # 2) * sign v) ((if ph p then C1 else Ci) * (GM p S v * GM p S v)))%C.
Proof.
  intros R. unfold SM. rewrite R. cbn [Z.eqb Pos.eqb]. generalize (GM p S v) (sign v). intros [a b] q.
  destruct (ph p); split; unfold Cscale, Cmul, Cofq, Ci, C1; cbn [re im]; ring.
Qed.
Lemma inverse_l z : ~ (z == C0)%C -> (C1 / z * z == C1)%C.
Proof. intros N. transitivity (Cinv z * z)%C; [unfold Cdiv; ring|exact (Cinv_l z N)]. Qed.
Theorem C123_matsubara_derivatives : forall p S dS v l t,
  reg p = 2 -> ~ (inverse2 p S v == C0)%C -> ~ (inverse2 (at_scale l p) S v == C0)%C -> ~ (inverse2 p (madd_ S (mscale_ t dS)) v == C0)%C ->
  let G := GM p S v in
  (G * inverse2 p S v == C1)%C /\
  (let G' := GM (at_scale l p) S v in let d := (l - lam p)%Q in let u := if ph p then C1 else Ci in
   G' - G == Cscale d (SM p S v) + Cscale (d * d * (sign v * sign v) * (1 # 4)) (u * u * G * G * G'))%C /\
  (let G' := GM p (madd_ S (mscale_ t dS)) v in
   G' - G == Cscale t (prop_e p S dS v) + Cscale (t * t) (G * dS v * G * dS v * G'))%C.
Proof.
  intros p S dS v l t R N0 N1 N2 G.
  assert (D0 : (G * inverse2 p S v == C1)%C) by (unfold G; rewrite (GM2 p S v R); apply inverse_l, N0).
  assert (D1 : (GM (at_scale l p) S v * inverse2 (at_scale l p) S v == C1)%C) by (rewrite (GM2 (at_scale l p) S v R); apply inverse_l, N1).
  assert (D2 : (GM p (madd_ S (mscale_ t dS)) v * inverse2 p (madd_ S (mscale_ t dS)) v == C1)%C) by (rewrite (GM2 p _ v R); apply inverse_l, N2).
  split; [exact D0|]. split; cbv zeta.
  - pose proof (Fl_Proofs2.resolvent _ _ _ _ D0 D1) as E. set (G' := GM (at_scale l p) S v) in *.
    assert (X : (inverse2 p S v - inverse2 (at_scale l p) S v == Cscale (- ((l - lam p) * (1 # 2) * sign v)) (if ph p then C1 else Ci))%C).
    { unfold inverse2, G0M_inv, at_scale; cbn [ph lam eps gam unit reg]. generalize (S v). intros [a b].
      destruct (ph p); split; unfold Csub, Cadd, Cneg, Cscale, Cmul, Cofq, Ci, C1; cbn [re im]; ring. }
    rewrite X in E. rewrite (Fl_Proofs2.second_order _ _ _ E). rewrite (SM2 p S v R). fold G. generalize (sign v). intros q.
    destruct G as [a b], G' as [a' b'], (ph p); split; unfold Csub, Cadd, Cneg, Cscale, Cmul, Ci, C1; cbn [re im]; ring.
  - pose proof (Fl_Proofs2.resolvent _ _ _ _ D0 D2) as E. set (G' := GM p (madd_ S (mscale_ t dS)) v) in *.
    assert (X : (inverse2 p S v - inverse2 p (madd_ S (mscale_ t dS)) v == Cscale t (dS v))%C).
    { unfold inverse2, madd_, mscale_. split; unfold Csub, Cadd, Cneg, Cscale; cbn [re im]; ring. }
    rewrite X in E. rewrite (Fl_Proofs2.second_order _ _ _ E). unfold prop_e. fold G. generalize (dS v). intros [d e]. destruct G as [a b], G' as [a' b'].
    split; unfold Csub, Cadd, Cneg, Cscale, Cmul; cbn [re im]; ring.
Qed.
Print Assumptions C123_matsubara_derivatives.

(** REG 3 and REG 4: inverse propagators with the regulator v^2 / (v^2 + Lambda^2) and Lambda in front of the bare propagator *)
Definition regulator (p : mparams) (v : Q) : Q := if reg p =? 3 then (v * v) / (v * v + lam p * lam p) else lam p.
Definition inverse34 (p : mparams) (S : mself) (v : Q) : cplx := (Cscale (/ regulator p v) (G0M_inv p v) - S v)%C.
Lemma square_pos v : ~ (v == 0)%Q -> (0 < v * v)%Q.
Proof.
  intros N. destruct (Qlt_le_dec 0 v) as [H|H]; [nra|]. assert (H' : (v < 0)%Q) by (apply Qle_lteq in H; destruct H as [H|H]; [exact H|contradiction]). nra.
Qed.
Lemma Cofq_inv q : ~ (q == 0)%Q -> (Cinv (Cofq q) == Cofq (/ q))%C.
Proof. intros N. split; unfold Cinv, Cnorm2, Cofq; cbn [re im]; field; exact N. Qed.
Lemma scaled_inverse q z w : ~ (q == 0)%Q -> (Cscale (/ q) z - w == Cscale (/ q) (z - Cofq q * w))%C.
Proof. intros N. destruct z as [z1 z2], w as [w1 w2]; split; unfold Cscale, Csub, Cadd, Cneg, Cmul, Cofq; cbn [re im]; field; exact N. Qed.
Lemma GM3 p S v : reg p = 3 -> ~ (v == 0)%Q -> (GM p S v == C1 / inverse34 p S v)%C.
Proof.
  intros R N. unfold GM, inverse34, regulator. rewrite R. cbn [Z.eqb Pos.eqb]. pose proof (square_pos v N) as P.
  assert (Nq : ~ (v * v / (v * v + lam p * lam p) == 0)%Q).
  { intros E. assert (X : (v * v == 0)%Q); [|lra]. assert (Y : (v * v == v * v / (v * v + lam p * lam p) * (v * v + lam p * lam p))%Q) by (field; nra).
    rewrite Y, E. ring. }
  assert (E : (G0M_inv p v / Cofq (v * v / (v * v + lam p * lam p)) == Cscale (/ (v * v / (v * v + lam p * lam p))) (G0M_inv p v))%C).
  { unfold Cdiv. rewrite (Cofq_inv _ Nq). generalize (/ (v * v / (v * v + lam p * lam p)))%Q (G0M_inv p v). intros q [a b].
    split; unfold Cmul, Cofq, Cscale; cbn [re im]; ring. }
  rewrite E. reflexivity.
Qed.
Lemma GM4 p S v : reg p = 4 -> ~ (lam p == 0)%Q -> ~ (inverse34 p S v == C0)%C -> (GM p S v == C1 / inverse34 p S v)%C /\
  (Cofq (lam p) * (C1 / (G0M_inv p v - Cofq (lam p) * S v)) == C1 / inverse34 p S v)%C.
Proof.
  intros R N Ni. unfold GM, inverse34, regulator in *. rewrite R in *. cbn [Z.eqb Pos.eqb] in *. rewrite scaled_inverse in Ni by exact N.
  set (z := (G0M_inv p v - Cofq (lam p) * S v)%C) in *.
  assert (Nz : ~ (z == C0)%C). { intros E. apply Ni. rewrite E. split; unfold Cscale, C0; cbn [re im]; ring. }
  assert (D : (C1 / (Cscale (/ lam p) (G0M_inv p v) - S v) == Cofq (lam p) * (C1 / z))%C).
  { rewrite scaled_inverse by exact N. fold z. pose proof (inverse_l _ Nz) as A. pose proof (inverse_l _ Ni) as B.
    set (g := (C1 / z)%C) in *. set (h := (C1 / Cscale (/ lam p) z)%C) in *.
    assert (X : (h * Cscale (/ lam p) z * (Cofq (lam p) * g) == h * (z * g))%C).
    { destruct h as [h1 h2], z as [z1 z2], g as [g1 g2]; split; unfold Cscale, Cmul, Cofq; cbn [re im]; field; exact N. }
    rewrite B in X. assert (A' : (z * g == C1)%C) by (rewrite <- A; ring). rewrite A' in X.
    transitivity (h * C1)%C; [ring|]. rewrite <- X. ring. }
  split; [|symmetry; exact D]. rewrite D. unfold Cdiv. ring.
Qed.
Theorem C123_matsubara_derivatives_other_regulators : forall p S dS v l t,
  reg p = 3 \/ (reg p = 4 /\ ~ (lam p == 0)%Q /\ ~ (l == 0)%Q) -> ~ (v == 0)%Q ->
  ~ (inverse34 p S v == C0)%C -> ~ (inverse34 (at_scale l p) S v == C0)%C -> ~ (inverse34 p (madd_ S (mscale_ t dS)) v == C0)%C ->
  let G := GM p S v in
  (G * inverse34 p S v == C1)%C /\
  (let G' := GM (at_scale l p) S v in let d := (l - lam p)%Q in
   let e := Cscale (if reg p =? 3 then - ((l + lam p) / (v * v)) else 1 / (l * lam p)) (G0M_inv p v) in
   G' - G == Cscale d (SM p S v) + Cscale (d * d) ((if reg p =? 3 then Cscale (- (1 / (v * v))) (G * G0M_inv p v * G) else Cscale (- (1 / l)) (SM p S v)) + G * e * G * e * G'))%C /\
  (let G' := GM p (madd_ S (mscale_ t dS)) v in
   G' - G == Cscale t (prop_e p S dS v) + Cscale (t * t) (G * dS v * G * dS v * G'))%C.
Proof.
  intros p S dS v l t R Nv N0 N1 N2 G.
  assert (D : forall p' S', (reg p' = 3 \/ (reg p' = 4 /\ ~ (lam p' == 0)%Q)) -> ~ (inverse34 p' S' v == C0)%C -> (GM p' S' v * inverse34 p' S' v == C1)%C).
  { intros p' S' [R'|(R' & Nl)] N; [rewrite (GM3 p' S' v R' Nv)|rewrite (proj1 (GM4 p' S' v R' Nl N))]; apply inverse_l, N. }
  assert (D0 : (G * inverse34 p S v == C1)%C) by (apply D; [tauto|exact N0]).
  assert (D1 : (GM (at_scale l p) S v * inverse34 (at_scale l p) S v == C1)%C) by (apply D; [cbn [at_scale reg lam]; tauto|exact N1]).
  assert (D2 : (GM p (madd_ S (mscale_ t dS)) v * inverse34 p (madd_ S (mscale_ t dS)) v == C1)%C) by (apply D; [tauto|exact N2]).
  pose proof (square_pos v Nv) as Pv.
  split; [exact D0|]. split; cbv zeta.
  - pose proof (Fl_Proofs2.resolvent _ _ _ _ D0 D1) as E. set (G' := GM (at_scale l p) S v) in *.
    assert (X : (inverse34 p S v - inverse34 (at_scale l p) S v ==
      Cscale ((l - lam p) * (if reg p =? 3 then - ((l + lam p) / (v * v)) else 1 / (l * lam p))) (G0M_inv p v))%C).
    { unfold inverse34, regulator. change (G0M_inv (at_scale l p) v) with (G0M_inv p v). cbn [at_scale reg lam]. generalize (S v) (G0M_inv p v). intros [a b] [a' b'].
      destruct R as [R|(R & Nl & Nl')]; rewrite R; cbn [Z.eqb Pos.eqb]; split; unfold Csub, Cadd, Cneg, Cscale; cbn [re im]; field;
      repeat (apply Logic.conj); try assumption; nra. }
    rewrite X in E. rewrite (Fl_Proofs2.second_order _ _ _ E).
    assert (Y : (Cscale (l - lam p) (SM p S v) + Cscale ((l - lam p) * (l - lam p)) (if reg p =? 3 then Cscale (- (1 / (v * v))) (G * G0M_inv p v * G) else Cscale (- (1 / l)) (SM p S v)) ==
      G * Cscale ((l - lam p) * (if reg p =? 3 then - ((l + lam p) / (v * v)) else 1 / (l * lam p))) (G0M_inv p v) * G)%C).
    { destruct R as [R|(R & Nl & Nl')].
      - unfold SM. rewrite R. cbn [Z.eqb Pos.eqb]. fold G. generalize (G0M_inv p v). intros [a' b']. destruct G as [a b].
        split; unfold Cadd, Cscale, Cmul, Cofq; cbn [re im]; field; nra.
      - assert (H : (Cofq (lam p) * (C1 / (G0M_inv p v - Cofq (lam p) * S v)) == G)%C).
        { unfold G. destruct (GM4 p S v R Nl N0) as (A & B). rewrite A, B. reflexivity. }
        unfold SM. rewrite R. cbn [Z.eqb Pos.eqb]. cbv zeta. rewrite <- H. generalize (C1 / (G0M_inv p v - Cofq (lam p) * S v))%C (G0M_inv p v). intros [a b] [a' b'].
        split; unfold Cadd, Cscale, Cmul, Cofq; cbn [re im]; field; split; assumption. }
    match goal with |- (?x + ?y == _)%C => set (rest := y); rewrite <- Y; subst rest end. set (Z1 := (if reg p =? 3 then _ else _)%C). set (q := (if reg p =? 3 then _ else _)%Q). generalize (SM p S v) Z1 (G0M_inv p v). intros [s s'] [z z'] [h h'].
    destruct G as [a b], G' as [a' b']. split; unfold Cadd, Cscale, Cmul; cbn [re im]; ring.
  - pose proof (Fl_Proofs2.resolvent _ _ _ _ D0 D2) as E. set (G' := GM p (madd_ S (mscale_ t dS)) v) in *.
    assert (X : (inverse34 p S v - inverse34 p (madd_ S (mscale_ t dS)) v == Cscale t (dS v))%C).
    { unfold inverse34, madd_, mscale_. split; unfold Csub, Cadd, Cneg, Cscale; cbn [re im]; ring. }
    rewrite X in E. rewrite (Fl_Proofs2.second_order _ _ _ E). unfold prop_e. fold G. generalize (dS v). intros [d e]. destruct G as [a b], G' as [a' b'].
    split; unfold Csub, Cadd, Cneg, Cscale, Cmul; cbn [re im]; ring.
Qed.
Print Assumptions C123_matsubara_derivatives_other_regulators.

(** examples: particle-hole symmetry, REG 2, zero temperature; no particle-hole symmetry, REG 3, finite temperature, POSINTRANGE 1 *)
Definition mph_c : cfg := mkCfg false true true false 51.
(** twice the weight in the channel p *)
Lemma mweigh_physical c G : keldysh c = false -> physical c false G -> physical c false (Fl_Props.weigh G).
Proof.
  intros Kc [A1 A2 A3 _ A5 A6]. split; try congruence.
  - intros h ch k s kl f f' l l' H1 H2 H3 H4 H5. unfold Fl_Props.weigh. rewrite (A1 h ch k s kl f f' l l' H1 H2 H3 H4 H5). reflexivity.
  - intros h ch ch' fl k s kl l Ca Hk Co Sp. unfold Fl_Props.weigh. rewrite (Fl_Props.weight_carried swap_in_k ch ch' fl (or_introl eq_refl) Ca). apply Fl_Props.weigh_scale, A2; assumption.
  - intros h ch ch' fl k s kl l Ca Hk Co Sp. unfold Fl_Props.weigh. rewrite (Fl_Props.weight_carried swap_out_k ch ch' fl (or_intror (or_introl eq_refl)) Ca). apply Fl_Props.weigh_scale, A3; assumption.
  - intros _ h ch ch' fl k s kl l Ca Co Sp. unfold Fl_Props.weigh. rewrite (Fl_Props.weight_carried in_out_k ch ch' fl (or_intror (or_intror eq_refl)) Ca).
    rewrite (A5 Kc h ch ch' fl k s kl l Ca Co Sp). split; unfold Cscale, Cconj; cbn [re im]; ring.
  - intros _ Ph h ch k s kl l. unfold Fl_Props.weigh, Cscale; cbn [im]. rewrite (A6 Kc Ph h ch k s kl l). ring.
Qed.
Definition mPsi1 : vert := mvert (-1 # 2) (Fl_Props.weigh (both_halves (demo0 mph_c))).
Lemma mPsi1_symmetric : msymmetric mph_c (-1 # 2) mPsi1.
Proof.
  destruct (demo0_physical mph_c eq_refl) as (P & R & _). destruct (mboth_physical mph_c _ eq_refl P) as (P' & M).
  apply mvert_symmetric; [reflexivity|reflexivity|apply mweigh_physical; [reflexivity|exact P']| |].
  - split; [discriminate|]. intros K h ch k s kl l Co. unfold Fl_Props.weigh, both_halves.
    rewrite (reversal_matsubara _ _ R K false ch k s kl l Co) at 1. rewrite (reversal_matsubara _ _ R K true ch k s kl l Co) at 1.
    split; unfold Cscale, Cadd, Cconj; cbn [re im]; ring.
  - unfold self_mirror, Fl_Props.weigh in *. intros. rewrite M. reflexivity.
Qed.
Definition tPsi1 : vert := tvert (-1 # 2) (at_T (Fl_Props.weigh (both_halves (demo0 matsubara_c)))).
Lemma tPsi1_symmetric : tsymmetric false (-1 # 2) tPsi1.
Proof.
  destruct (demo0_physical matsubara_c eq_refl) as (P & R & _). destruct (mboth_physical matsubara_c _ eq_refl P) as (P' & M).
  apply tvert_symmetric.
  - exact (at_T_symmetric matsubara_c _ eq_refl eq_refl (mweigh_physical matsubara_c _ eq_refl P')).
  - intros h ch k s l _ (Co & _). unfold at_T, Fl_Props.weigh, both_halves.
    rewrite (reversal_matsubara _ _ R eq_refl false ch k s k1111 l Co) at 1. rewrite (reversal_matsubara _ _ R eq_refl true ch k s k1111 l Co) at 1.
    split; unfold Cscale, Cadd, Cconj; cbn [re im]; ring.
  - intros ch k s l _ _. unfold at_T, Fl_Props.weigh. unfold self_mirror in M. rewrite M. reflexivity.
Qed.
Definition Jl1 (v : Q) (f : Q -> cplx) : cplx := Cscale (-1 # 4) (f v + f (- v)%Q + (f 2%Q + f (-2)%Q))%C.
Definition mp1 : mparams := mkMP true 2 2 0 1 1.
Definition mS1 : mself := fun v => Cofq ((-1 # 2) * v).
Definition mflow1 (nloops : Z) : option (Mlp_Model.answer data mself) :=
  mflow_rhs Jl1 false mp1 mPsi1 mS1 (fun _ => [1%Q]) mph_c J2 (22 # 7) (fun _ => Mlp_Model.Fin 1) (fun _ => Mlp_Model.Fin 0)
    (fun _ _ => Mlp_Model.Fin 0) (fun x y => (x, y)) 0 0 (1 # 2) (1 # 2) 1 nloops.
Definition mp2 : mparams := mkMP false 3 2 (1 # 2) 1 (1 # 3).
Definition mS2 : mself := fun v => Cplx (1 # 2) ((-1 # 4) * v).
Definition tflow1 (nloops : Z) : option (Mlp_Model.answer data mself) :=
  tflow_rhs (loop_sum 1 (1 # 2)) true mp2 tPsi1 mS2 (fun _ => [1%Q]) finite_c 1 (fun _ _ => C0) (22 # 7) (1 # 2) (fun _ => Mlp_Model.Fin 1) (fun _ => Mlp_Model.Fin 0)
    (fun _ _ => Mlp_Model.Fin 0) (fun x y => (x, y)) 0 0 (1 # 2) (1 # 2) 1 nloops.
Lemma Jl1_integral : loop_integral all_frequencies Jl1.
Proof.
  assert (A : forall x, all_frequencies x) by (intros; exact I). split; unfold Jl1.
  - intros v v' f g _ E H. rewrite (H v v' (A v) E), (H (- v)%Q (- v')%Q (A _)), (H 2 2 (A _))%Q, (H (-2) (-2) (A _))%Q; try reflexivity. rewrite E. reflexivity.
  - intros v f. split; unfold Cscale, Cadd, Cneg; cbn [re im]; ring.
  - intros v f. split; unfold Cscale, Cadd, Cconj; cbn [re im]; ring.
  - intros v f g _ H. rewrite (H (- v) v (A _))%Q, (H (- - v) (- v) (A _))%Q, (H 2 (-2) (A _))%Q, (H (-2) 2 (A _))%Q; try reflexivity; try ring.
    split; unfold Cscale, Cadd; cbn [re im]; ring.
Qed.
Lemma mS1_ok : conjugated all_frequencies true mS1.
Proof. split; [intros x y _ E; unfold mS1; rewrite E; reflexivity|]. intros v _. split; [reflexivity|]. split; unfold mS1, Cofq, Cneg; cbn [re im]; ring. Qed.
Lemma mS2_ok : conjugated fermionic false mS2.
Proof. split; [intros x y _ E; unfold mS2; split; cbn [re im]; rewrite ?E; reflexivity|]. intros v _. split; unfold mS2, Cconj; cbn [re im]; ring. Qed.
Example C123_matsubara_hyp : msymmetric mph_c (-1 # 2) mPsi1 /\ ph mp1 = phs mph_c /\ phs mph_c = true /\ integral J2 /\ loop_integral all_frequencies Jl1 /\
  conjugated all_frequencies true mS1 /\ (if mflow1 3 then true else false) = true /\
  (* the vertex closed by the loop, where the propagator is odd *)
  show (loop_vertex false symmetric_full mPsi1 Ct 0 0 1%Q 3%Q) = (1535 # 2, 0)%Q /\ show (loop_vertex false symmetric_full mPsi1 Ct 0 0 (-1)%Q 3%Q) = (1343 # 2, 0)%Q /\
  show (prop_k mp1 mS1 mS1 3%Q) = (-1 # 18, 0)%Q /\ show (prop_k (mkMP true 4 2 0 1 1) mS1 mS1 3%Q) = (-10 # 169, 0)%Q.
Proof.
  split; [exact mPsi1_symmetric|]. split; [reflexivity|]. split; [reflexivity|]. split; [exact J2_integral|]. split; [exact Jl1_integral|].
  split; [exact mS1_ok|]. repeat (apply Logic.conj); vm_compute; reflexivity.
Qed.
Example C123_finite_temperature_hyp : tsymmetric false (-1 # 2) tPsi1 /\ ph mp2 = phs finite_c /\ sum_T (fun _ _ => C0) /\ conjugated fermionic false mS2 /\
  (if tflow1 3 then true else false) = true /\
  show (loop_vertex true symmetric_full tPsi1 Ct 0 0 1%Q 3%Q) = (1535 # 2, 0)%Q /\ show (loop_vertex true symmetric_full tPsi1 Ct 0 0 (-1)%Q 3%Q) = (1343 # 2, 0)%Q /\
  show (GM (mkMP true 3 2 0 1 1) (fun _ => C0) 3%Q) = (18 # 91, 0)%Q.
Proof.
  split; [exact tPsi1_symmetric|]. split; [reflexivity|]. split; [exact no_tails|]. split; [exact mS2_ok|].
  repeat (apply Logic.conj); vm_compute; reflexivity.
Qed.
Example C123_matsubara_derivatives_hyp : reg mp1 = 2 /\ ~ (inverse2 mp1 mS1 3 == C0)%C /\ ~ (inverse2 (at_scale 5 mp1) mS1 3 == C0)%C /\
  ~ (inverse2 mp1 (madd_ mS1 (mscale_ (1 # 3) mS1)) 3 == C0)%C /\ show (GM mp1 mS1 3%Q) = (1 # 6, 0)%Q.
Proof. repeat (apply Logic.conj); try reflexivity; try (intros (E & _); vm_compute in E; discriminate E). Qed.
Example C123_matsubara_derivatives_other_hyp : (let p := mkMP true 3 2 0 1 1 in
   reg p = 3 /\ ~ (inverse34 p mS1 3 == C0)%C /\ ~ (inverse34 (at_scale 5 p) mS1 3 == C0)%C /\ ~ (inverse34 p (madd_ mS1 (mscale_ (1 # 3) mS1)) 3 == C0)%C) /\
  (let p := mkMP true 4 2 0 1 1 in
   reg p = 4 /\ ~ (inverse34 p mS1 3 == C0)%C /\ ~ (inverse34 (at_scale 5 p) mS1 3 == C0)%C /\ ~ (inverse34 p (madd_ mS1 (mscale_ (1 # 3) mS1)) 3 == C0)%C).
Proof. repeat (apply Logic.conj); try reflexivity; try (intros (E & _); vm_compute in E; discriminate E). Qed.
