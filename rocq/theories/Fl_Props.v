(** C123: with symmetric vertex and self-energy, the self-energies of the flow equation (loop with the
    single-scale propagator, multiloop corrections) have an imaginary Keldysh component and, with
    particle-hole symmetry, the reversal symmetry; hence the right-hand side of the multiloop flow
    keeps the symmetries of the whole state (Keldysh formalism, Keldysh basis, REG 2,
    DEBUG_SYMMETRIES 1). *)
From Coq Require Import QArith Lqa.
From Verif Require Import Prelude Cplx Keld_Model Keld_Spec Keld_Proofs Util_Spec Sym_Model Sym_Spec Sym_Proofs2 Tab_Model Tab_Spec
  Rd_Model Rd_Spec Rd_Props Rd_Props2 Dec_Model Bub_Model Bub_Spec Bub_Proofs Bub_Proofs2 Bub_Proofs3 Bub_Props Sf_Model Sf_Spec Sf_Proofs Sf_Proofs2 Sf_Props
  Lop_Model Fl_Model Fl_Spec Fl_Proofs Fl_Proofs2.
From Verif Require Mlp_Model Bse_Model Lop_Spec Lop_Proofs Lop_Proofs2 Lop_Props.
Open Scope Z_scope.
Import Lop_Spec (integral_ok, integral_imaginary).

(** the loop over a symmetric vertex; not covered: all_spins together with the version that closes
    the a-channel line (asserted in LoopCalculator) *)
Theorem C123_loop_keeps_symmetries_partial : forall c u v Jl vectorised right all_spins st g,
  keldysh c = true -> contour c = false -> symmetric c u v -> integral_ok Jl -> integral_imaginary Jl ->
  right && all_spins = false -> is_full st = true \/ is_r_irred st = true ->
  lines_ok g -> (phs c = true -> ph_symmetric g) -> se_ok c 0 (loop_of Jl vectorised right all_spins st v g).
Proof. intros. eapply loop_ok; eassumption. Qed.
Print Assumptions C123_loop_keeps_symmetries_partial.

(** the propagators g, s, e, k of a symmetric self-energy *)
Theorem C123_propagators_keep_symmetries_partial : forall c p h S dS P,
  se_ok c h S -> se_ok c 0 dS -> half_filled c p h ->
  In P [prop_g p S; prop_s p S; prop_e p S dS; prop_k p S dS] ->
  lines_ok P /\ (phs c = true -> ph_symmetric P).
Proof.
  intros c p h S dS P HS HdS Hf H. cbn [In] in H.
  destruct H as [<-|[<-|[<-|[<-|[]]]]]; [eapply g_ok|eapply s_ok|eapply e_ok|eapply k_ok]; eassumption.
Qed.
Print Assumptions C123_propagators_keep_symmetries_partial.

(** the regulator derivative of the propagator at fixed self-energy is the single-scale propagator, the derivative in direction of
    a self-energy is the Katanin extension (with remainders of second order) *)
Theorem C123_derivatives : forall p S dS v l t,
  nonzero (inverse_propagator p S v) -> nonzero (inverse_propagator (at_scale l p) S v) -> nonzero (inverse_propagator p (sadd S (sscale t dS)) v) ->
  let G := GR p S v in
  (G * inverse_propagator p S v == C1)%C /\
  (GR (at_scale l p) S v - G == Cscale (l - lam p) (SR p S v) - Cscale ((l - lam p) * (l - lam p) * (1 # 4)) (G * G * GR (at_scale l p) S v))%C /\
  (GR p (sadd S (sscale t dS)) v - G ==
     Cscale t (Katanin_R p S dS v) + Cscale (t * t) (G * seR dS v * G * seR dS v * GR p (sadd S (sscale t dS)) v))%C.
Proof.
  intros p S dS v l t H0 H1 H2 G. pose proof (dyson _ _ _ H0) as D0. pose proof (dyson _ _ _ H1) as D1. pose proof (dyson _ _ _ H2) as D2.
  fold G in D0. split; [exact D0|]. split.
  - pose proof (resolvent _ _ _ _ D0 D1) as E. set (G' := GR (at_scale l p) S v) in *.
    assert (X : (inverse_propagator p S v - inverse_propagator (at_scale l p) S v == Cscale (- ((l - lam p) * (1 # 2))) Ci)%C).
    { split; unfold inverse_propagator, at_scale, Csub, Cadd, Cneg, Cscale, Ci; cbn [re im lam eps gam]; ring. }
    rewrite X in E. rewrite (second_order _ _ _ E). unfold SR. fold G. destruct G as [a b], G' as [a' b'].
    split; unfold Csub, Cadd, Cneg, Cscale, Cmul, Ci, Cofq; cbn [re im]; ring.
  - pose proof (resolvent _ _ _ _ D0 D2) as E. set (G' := GR p (sadd S (sscale t dS)) v) in *.
    assert (X : (inverse_propagator p S v - inverse_propagator p (sadd S (sscale t dS)) v == Cscale t (seR dS v))%C).
    { split; unfold inverse_propagator, sadd, sscale, Csub, Cadd, Cneg, Cscale; cbn [re im seR]; ring. }
    rewrite X in E. rewrite (second_order _ _ _ E). unfold Katanin_R. fold G. generalize (seR dS v). intros [d e]. destruct G as [a b], G' as [a' b'].
    split; unfold Csub, Cadd, Cneg, Cscale, Cmul; cbn [re im]; ring.
Qed.
Print Assumptions C123_derivatives.

(** the propagators are in equilibrium, the extension if the self-energy is *)
Theorem C123_propagators_in_equilibrium : forall p S dS,
  equilibrium p (GR p S) (GK p S) /\ equilibrium p (SR p S) (SK p S) /\
  (equilibrium p (seR dS) (seK dS) -> equilibrium p (Katanin_R p S dS) (Katanin_K p S dS) /\ equilibrium p (gR (prop_k p S dS)) (gK (prop_k p S dS))).
Proof.
  intros p S dS.
  assert (A : equilibrium p (GR p S) (GK p S)) by (intros x; split; unfold GK, Cmul, Ci, Cofq, Csub, Cadd, Cneg, Cconj; cbn [re im]; ring).
  assert (B : equilibrium p (SR p S) (SK p S)) by (intros x; split; unfold SK, Cmul, Ci, Cofq, Csub, Cadd, Cneg, Cconj; cbn [re im]; ring).
  split; [exact A|]. split; [exact B|]. intros C.
  assert (D : equilibrium p (Katanin_R p S dS) (Katanin_K p S dS)).
  { intros x. unfold Katanin_R, Katanin_K. rewrite (A x), (C x). generalize (GR p S x) (seR dS x) (occ p x). intros [a b] [d e] o.
    split; unfold Cmul, Cofq, Csub, Cadd, Cneg, Cconj; cbn [re im]; ring. }
  split; [exact D|]. intros x. cbn [prop_k gR gK]. rewrite (B x), (D x), conj_add. ring.
Qed.
Print Assumptions C123_propagators_in_equilibrium.

Theorem C123_flow_keeps_symmetries_partial : forall c J Jl pi vectorised p h u Psi S alpha vnorm bnorm brel reorder
    tol_abs tol_rel se_abs se_rel nmax nloops a,
  keldysh c = true -> contour c = false -> integral J -> integral_ok Jl -> integral_imaginary Jl -> ~ (pi == 0)%Q ->
  symmetric c u Psi -> se_ok c h S -> half_filled c p h ->
  flow_rhs J Jl pi vectorised p Psi S alpha vnorm bnorm brel reorder tol_abs tol_rel se_abs se_rel nmax nloops = Some a ->
  symmetric c 0 (Mlp_Model.a_vertex _ _ a) /\ se_ok c 0 (Mlp_Model.a_se _ _ a).
Proof.
  intros c J Jl pi vectorised p h u Psi S alpha vnorm bnorm brel reorder tol_abs tol_rel se_abs se_rel nmax nloops a
    Kc CBc HJ HJl HI Hpi HPsi HS Hf E.
  unfold flow_rhs in E.
  assert (H1 : se_ok c 0 (selfEnergyOneLoopFlow Jl vectorised p Psi S)).
  { destruct (s_ok c p h S HS Hf) as (A & B). apply (loop_ok c u); auto. }
  refine (C122_multiloop_symmetric_partial c J pi selfen _ _ u Psi _ _ _ _ _ _ _ _ _ _ _ _ _ _ _ (se_ok c 0) a Kc CBc HJ Hpi HPsi _ _ H1 _ _ E).
  - destruct (g_ok c p h S HS Hf) as (A & B). split; [exact A|]. split; [exact A|]. intros Ph. split; apply B; exact Ph.
  - intros dS HdS. destruct (g_ok c p h S HS Hf) as (A & B), (k_ok c p h S HS Hf dS HdS) as (A' & B').
    split; [exact A|]. split; [exact A'|]. intros Ph. split; [apply B|apply B']; exact Ph.
  - intros v Hv. apply sadd_ok; [exact H1|]. unfold selfEnergyFlowCorrections.
    assert (T : se_ok c 0 (loop_of Jl vectorised false true symmetric_r_irred v (prop_g p S))).
    { destruct (g_ok c p h S HS Hf) as (A & B). apply (loop_ok c 0); auto. }
    apply sadd_ok; [exact T|]. destruct (e_ok c p h S HS Hf _ T) as (A & B). apply (loop_ok c u); auto.
  - intros l Hl. apply mixed_ok. exact Hl.
Qed.
Print Assumptions C123_flow_keeps_symmetries_partial.

(** an example: a vertex with twice the weight in the channel p, a self-energy with Hartree value 1/2, half filling *)
Definition weight (ch : chan) : Q := match ch with Cp => 2 | _ => 1 end.
Definition weigh (G : family) : family := fun h ch k s kl l => Cscale (weight ch) (G h ch k s kl l).
Lemma weight_carried P ch ch' fl : (P = swap_in_k \/ P = swap_out_k \/ P = in_out_k) -> carried P ch ch' fl -> weight ch' = weight ch.
Proof. intros H. destruct H as [-> | [-> | ->]], ch, ch', fl; intros C; try reflexivity; discriminate C. Qed.
Lemma weigh_scale a x z y : (z == Cscale x y)%C -> (Cscale a z == Cscale x (Cscale a y))%C.
Proof. intros ->. split; unfold Cscale; cbn [re im]; ring. Qed.
Lemma weigh_conj a x z y : (z == Cscale x (Cconj y))%C -> (Cscale a z == Cscale x (Cconj (Cscale a y)))%C.
Proof. intros ->. split; unfold Cscale, Cconj; cbn [re im]; ring. Qed.
Lemma weigh_physical c G : keldysh c = true -> physical c false G -> physical c false (weigh G).
Proof.
  intros Kc [A1 A2 A3 A4 _ _]. split.
  - intros h ch k s kl f f' l l' H1 H2 H3 H4 H5. unfold weigh. rewrite (A1 h ch k s kl f f' l l' H1 H2 H3 H4 H5). reflexivity.
  - intros h ch ch' fl k s kl l Ca Hk Co Sp. unfold weigh. rewrite (weight_carried swap_in_k ch ch' fl (or_introl eq_refl) Ca). apply weigh_scale, A2; assumption.
  - intros h ch ch' fl k s kl l Ca Hk Co Sp. unfold weigh. rewrite (weight_carried swap_out_k ch ch' fl (or_intror (or_introl eq_refl)) Ca). apply weigh_scale, A3; assumption.
  - intros _ h ch ch' fl k s kl l Ca Hk Co Sp. unfold weigh. rewrite (weight_carried in_out_k ch ch' fl (or_intror (or_intror eq_refl)) Ca). apply weigh_conj, A4; assumption.
  - rewrite Kc. discriminate.
  - rewrite Kc. discriminate.
Qed.
Definition Psi1 : vert := vert_of demo_c (-1 # 2) (weigh demoS).
Lemma Psi1_symmetric : symmetric demo_c (-1 # 2) Psi1.
Proof.
  destruct (demo0_physical demo_c eq_refl) as (P & R & _). destruct (both_physical demo_c _ eq_refl P) as (P' & M).
  assert (R' : reversible demo_c (weigh demoS)).
  { split; [|discriminate]. intros K Ph h ch k s kl l Hk Co Sp. unfold weigh. apply weigh_conj. unfold demoS, both_halves.
    rewrite (reversal_keldysh _ _ R K Ph false ch k s kl l Hk Co Sp) at 1. rewrite (reversal_keldysh _ _ R K Ph true ch k s kl l Hk Co Sp) at 1.
    rewrite conj_add, cscale_add. reflexivity. }
  apply vert_symmetric; [reflexivity|apply weigh_physical; [reflexivity|exact P']|exact R'|].
  unfold self_mirror, weigh in *. intros. rewrite M. reflexivity.
Qed.
Definition S1 : selfen := mkS (fun x => Cplx ((1 # 2) + x) (-1)) (fun x => Cplx 0 (3 * x)).
Definition p1 : params := mkPar 2 (-1 # 2) 1 (fun x => x).
Definition flow1 (vectorised : bool) (nloops : Z) : option (Mlp_Model.answer data selfen) :=
  flow_rhs J2 Lop_Props.J0 (22 # 7) vectorised p1 Psi1 S1 (fun _ => [1%Q]) (fun _ => Mlp_Model.Fin 1) (fun _ => Mlp_Model.Fin 0)
    (fun _ _ => Mlp_Model.Fin 0) (fun x y => (x, y)) 0 0 (1 # 2) (1 # 2) 1 nloops.
Lemma S1_ok : se_ok demo_c (1 # 2) S1.
Proof.
  split; cbn [S1 seR seK].
  - intros x y E. split; split; cbn [re im]; rewrite ?E; reflexivity.
  - intros x. reflexivity.
  - intros _ x. split; split; unfold Csub, Cadd, Cneg, Cconj, Cofq; cbn [re im]; ring.
Qed.
Example C123_derivatives_hyp : nonzero (inverse_propagator p1 S1 3) /\ nonzero (inverse_propagator (at_scale 5 p1) S1 3) /\
  nonzero (inverse_propagator p1 (sadd S1 (sscale (1 # 3) S1)) 3) /\ show (GR p1 S1 3) = (0, -2 # 5)%Q /\
  show (Katanin_R p1 S1 (sscale 2 S1) 3) = (-28 # 25, 8 # 25)%Q.
Proof. repeat (apply Logic.conj); try (unfold nonzero; vm_compute; discriminate); vm_compute; reflexivity. Qed.
Example C123_equilibrium_hyp : let dS := mkS (fun x => Cplx x (-1)) (fun x => Cplx 0 (- 2 * x)) in
  equilibrium p1 (seR dS) (seK dS) /\ show (Katanin_K p1 S1 dS 3) = (0, 24 # 25)%Q.
Proof.
  cbv zeta. split; [|vm_compute; reflexivity]. intros x. split; cbn [p1 occ seR seK]; unfold Cmul, Cofq, Csub, Cadd, Cneg, Cconj; cbn [re im]; ring.
Qed.
Example C123_hyp : symmetric demo_c (-1 # 2) Psi1 /\ integral J2 /\ integral_ok Lop_Props.J0 /\ integral_imaginary Lop_Props.J0 /\
  se_ok demo_c (1 # 2) S1 /\ half_filled demo_c p1 (1 # 2) /\ phs demo_c = true /\
  (if flow1 true 1 then true else false) = true /\ show (Mlp_Model.K1 _ (Mlp_Model.vp _ Psi1) 0 1 (3, 0, 0)%Q) = (36, 0)%Q /\
  (if flow1 false 3 then true else false) = true.
Proof.
  split; [exact Psi1_symmetric|]. split; [exact J2_integral|]. split; [exact Lop_Props.J0_ok|]. split; [exact Lop_Props.J0_imaginary|].
  split; [exact S1_ok|]. split. { split; [intros x y E; exact E|]. intros _. split; [reflexivity|]. intros x. reflexivity. }
  split; [reflexivity|]. split; [|split]; vm_compute; reflexivity.
Qed.
