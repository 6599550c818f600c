(** C126 in the Matsubara formalism at zero temperature: the Schwinger-Dyson equation and parquet iterations *)
From Coq Require Import QArith Lqa.
From Verif Require Import Prelude Cplx Keld_Model Keld_Spec Keld_Proofs Util_Spec Sym_Model Sym_Spec Sym_Proofs Sym_Proofs2 Tab_Model Tab_Spec
  Rd_Model Rd_Spec Rd_Props Rd_Props2 Dec_Model Bub_Model Bub_Spec Bub_Proofs Bub_Proofs2 Bub_Proofs3 Bub_Props Mbu_Spec Mbu_Proofs Mbu_Props
  Mbt_Model Mbt_Spec Mbt_Proofs Mbt_Proofs2 Mbt_Proofs3 Mbt_Props Sf_Model Sf_Spec Sf_Proofs Sf_Proofs2 Msf_Model Msf_Spec Msf_Proofs Msf_Props
  Mtf_Model Mtf_Spec Mtf_Props Lop_Model Mfl_Model Mfl_Spec Mfl_Proofs Mfl_Proofs2 Mfl_Props Mpq_Model Mpq_Proofs.
From Verif Require Mlp_Model Bse_Model Fl_Props Sde_Model Pit_Model.
Open Scope Z_scope.

(** what versions 1 and 2 compute for a symmetric vertex is conjugated when the frequency is reversed (real and odd with particle-hole
    symmetry), and so is the difference that version 2 prints *)
Theorem C126_matsubara_SDE_keeps_symmetries : forall c J Jl pi U u v g,
  keldysh c = false -> zero_t c = true -> integral J -> loop_integral all_frequencies Jl -> msymmetric c u v -> conjugated all_frequencies (phs c) g ->
  conjugated all_frequencies (phs c) (mcompute_SDE_v1 c J Jl pi U v g) /\
  conjugated all_frequencies (phs c) (fst (mcompute_SDE_v2 c J Jl pi U v g)) /\ conjugated all_frequencies (phs c) (snd (mcompute_SDE_v2 c J Jl pi U v g)).
Proof. intros c J Jl pi U u v g Kc Zc HJ HI Sy Hg. split; [eapply mv1_ok|eapply mv2_ok]; eassumption. Qed.
Print Assumptions C126_matsubara_SDE_keeps_symmetries.

(** without particle-hole symmetry an iteration, and any number of iterations with mixing, keep the symmetries of vertex and self-energy *)
Theorem C126_matsubara_iterations_partial : forall c J Jl pi U p hartree version mixings x,
  keldysh c = false -> zero_t c = true -> phs c = false -> ph p = false -> integral J -> loop_integral all_frequencies Jl ->
  msymmetric c (- U) (fst x) -> conjugated all_frequencies false (snd x) ->
  (let y := mparquet_iteration c J Jl pi U p hartree version x in msymmetric c (- U) (fst y) /\ conjugated all_frequencies false (snd y)) /\
  (let y := mplain_solver c J Jl pi U p hartree version mixings x in msymmetric c (- U) (fst y) /\ conjugated all_frequencies false (snd y)).
Proof.
  intros c J Jl pi U p hartree version mixings x Kc Zc Ph Pp HJ HI.
  assert (It : forall x, msymmetric c (- U) (fst x) -> conjugated all_frequencies false (snd x) ->
    let y := mparquet_iteration c J Jl pi U p hartree version x in msymmetric c (- U) (fst y) /\ conjugated all_frequencies false (snd y)).
  { clear x. intros x Hv HS. assert (HG : conjugated all_frequencies (phs c) (GM p (snd x))).
    { rewrite Ph. rewrite <- Pp in *. apply G_ok. exact HS. }
    cbv zeta. unfold mparquet_iteration. cbn [fst snd]. split.
    - apply (C122_matsubara_parquet_symmetric c J pi U (- U)); auto. split; apply line_of_conjugated; exact HG.
    - destruct (C126_matsubara_SDE_keeps_symmetries c J Jl pi U (- U) (fst x) (GM p (snd x)) Kc Zc HJ HI Hv HG) as (A & B & _). rewrite Ph in A, B.
      unfold mcompute_SDE. cbv zeta. set (s := if version =? 1 then _ else _).
      assert (Hs : conjugated all_frequencies false s) by (unfold s; destruct (version =? 1); assumption).
      destruct Hs as (H1 & H2). unfold minitialized. split.
      + intros a b D E. rewrite (H1 a b D E). reflexivity.
      + intros w D. specialize (H2 w D). cbn match in H2. rewrite H2. split; unfold Cadd, Cconj, Cofq; cbn [re im]; ring. }
  assert (St : forall m x, msymmetric c (- U) (fst x) -> conjugated all_frequencies false (snd x) ->
    msymmetric c (- U) (fst (mplain_step c J Jl pi U p hartree version m x)) /\ conjugated all_frequencies false (snd (mplain_step c J Jl pi U p hartree version m x))).
  { clear x. intros m x Hv HS. destruct (It x Hv HS) as (A & B). unfold mplain_step. cbv zeta. cbn [fst snd]. split.
    - apply (mobeys_bare_m c (m * - U + (1 - m) * - U)); [ring|]. apply (mobeys_add c Kc); apply mobeys_scale; assumption.
    - apply add_ok; apply scale_ok; assumption. }
  intros Hv HS. split; [apply It; assumption|]. cbv zeta. revert x Hv HS. unfold mplain_solver.
  induction mixings as [|m mixings IH]; intros x Hv HS; cbn [fold_left]; [split; assumption|]. destruct (St m x Hv HS) as (A & B). apply IH; assumption.
Qed.
Print Assumptions C126_matsubara_iterations_partial.

(** With particle-hole symmetry compute_SDE sets the asymptotic value to U/2 (parquet_solver.hpp:348) also in the Matsubara formalism, where
    only the imaginary part of the self-energy is stored and State::initialize sets it to zero (state.hpp:151-153): whatever the
    symmetric vertex, the propagator and U <> 0 are, the result is not an odd function. *)
Theorem C126_matsubara_particle_hole_refuted : forall c J Jl pi U u p hartree version v S,
  keldysh c = false -> zero_t c = true -> phs c = true -> ph p = true -> integral J -> loop_integral all_frequencies Jl ->
  msymmetric c u v -> conjugated all_frequencies true S -> ~ (U == 0)%Q ->
  ~ conjugated all_frequencies true (mcompute_SDE c J Jl pi U p hartree version v S).
Proof.
  intros c J Jl pi U u p hartree version v S Kc Zc Ph Pp HJ HI Sy HS NU (_ & H).
  assert (HG : conjugated all_frequencies (phs c) (GM p S)).
  { rewrite Ph. rewrite <- Pp in *. apply G_ok. exact HS. }
  destruct (C126_matsubara_SDE_keeps_symmetries c J Jl pi U u v (GM p S) Kc Zc HJ HI Sy HG) as (A & B & _). rewrite Ph in A, B.
  specialize (H 1%Q I). destruct H as (_ & H). unfold mcompute_SDE in H. cbv zeta in H. rewrite Ph in H. set (s := if version =? 1 then _ else _) in H.
  assert (Hs : conjugated all_frequencies true s) by (unfold s; destruct (version =? 1); assumption).
  destruct Hs as (_ & Hs). destruct (Hs 1%Q I) as (_ & E). unfold minitialized in H. rewrite E in H. destruct H as (H & _).
  unfold Cadd, Cneg, Cofq in H; cbn [re] in H. apply NU. setoid_replace (U / 2)%Q with (U * (1 # 2))%Q in H by reflexivity. lra.
Qed.
Print Assumptions C126_matsubara_particle_hole_refuted.

(** examples without and with particle-hole symmetry *)
Definition mPsi2 : vert := mvert (-1) (Fl_Props.weigh (both_halves (demo0 matsubara_c))).
Lemma mPsi2_symmetric : msymmetric matsubara_c (-1) mPsi2.
Proof.
  destruct (demo0_physical matsubara_c eq_refl) as (P & R & _). destruct (mboth_physical matsubara_c _ eq_refl P) as (P' & M).
  apply mvert_symmetric; [reflexivity|reflexivity|apply mweigh_physical; [reflexivity|exact P']| |].
  - split; [discriminate|]. intros K h ch k s kl l Co. unfold Fl_Props.weigh, both_halves.
    rewrite (reversal_matsubara _ _ R K false ch k s kl l Co) at 1. rewrite (reversal_matsubara _ _ R K true ch k s kl l Co) at 1.
    split; unfold Cscale, Cadd, Cconj; cbn [re im]; ring.
  - unfold self_mirror, Fl_Props.weigh in *. intros. rewrite M. reflexivity.
Qed.
Lemma mS2_all : conjugated all_frequencies false mS2.
Proof. split; [intros x y _ E; unfold mS2; split; cbn [re im]; rewrite ?E; reflexivity|]. intros v _. split; unfold mS2, Cconj; cbn [re im]; ring. Qed.
Example C126_matsubara_hyp : msymmetric matsubara_c (- (1)) mPsi2 /\ phs matsubara_c = false /\ keldysh matsubara_c = false /\ zero_t matsubara_c = true /\ ph mp2 = false /\ integral J2 /\
  loop_integral all_frequencies Jl1 /\ conjugated all_frequencies false mS2 /\
  show (class_of (channel_of (msde_bubble matsubara_c J2 (22 # 7) 1 Ca Sde_Model.no_flags (Sde_Model.bare_vertex matsubara_c 1) (fun v => Cplx 1 (/ v))) Ca)
    k1 0 0 (4, 1, 2)%Q) = (14 # 33, 0)%Q /\
  show (GM mp2 mS2 3%Q) = (-1584 # 12961, -3780 # 12961)%Q.
Proof.
  split; [exact mPsi2_symmetric|]. do 4 (split; [reflexivity|]). split; [exact J2_integral|]. split; [exact Jl1_integral|]. split; [exact mS2_all|].
  split; vm_compute; reflexivity.
Qed.
Example C126_matsubara_particle_hole_hyp : msymmetric mph_c (-1 # 2) mPsi1 /\ phs mph_c = true /\ ph mp1 = true /\ conjugated all_frequencies true mS1 /\ ~ (1 == 0)%Q.
Proof. split; [exact mPsi1_symmetric|]. do 2 (split; [reflexivity|]). split; [exact mS1_ok|discriminate]. Qed.
