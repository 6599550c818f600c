(** C126 in the Matsubara formalism with Anderson acceleration *)
From Coq Require Import QArith.
From Verif Require Import Prelude Cplx Keld_Model Util_Spec Sym_Model Sym_Spec Tab_Model Rd_Model Rd_Spec Dec_Model Bub_Model Bub_Spec Bub_Props Mbu_Props Sf_Model Sf_Spec
  Msf_Model Msf_Spec Msf_Proofs Msf_Props Mfl_Model Mfl_Spec Mfl_Proofs Mfl_Props Mpq_Model Mpq_Proofs Mpq_Props Mpa_Model.
From Verif Require Mlp_Model Pit_Model Pit_Props.
Open Scope Z_scope.

(** states whose vertex has w times the bare value -U *)
Definition mweighted (c : cfg) (U w : Q) (x : mstate) : Prop := msymmetric c (w * - U) (fst x) /\ conjugated all_frequencies false (snd x).
Section States.
  Variables (c : cfg) (U : Q).
  Hypothesis Kc : keldysh c = false.
  Lemma mweighted_m w w' x : (w == w')%Q -> mweighted c U w x -> mweighted c U w' x.
  Proof. intros E (A & B). split; [apply (mobeys_bare_m c (w * - U)); [rewrite E; reflexivity|exact A]|exact B]. Qed.
  Lemma mweighted_scale q w x : mweighted c U w x -> mweighted c U (q * w) (mst_scale q x).
  Proof.
    intros (A & B). split; cbn [mst_scale fst snd]; [|apply scale_ok; exact B].
    apply (mobeys_bare_m c (q * (w * - U))); [ring|]. apply mobeys_scale; assumption.
  Qed.
  Lemma mweighted_add w w' x y : mweighted c U w x -> mweighted c U w' y -> mweighted c U (w + w') (mst_add x y).
  Proof.
    intros (A & B) (A' & B'). split; cbn [mst_add fst snd]; [|apply add_ok; assumption].
    apply (mobeys_bare_m c (w * - U + w' * - U)); [ring|]. apply (mobeys_add c Kc); assumption.
  Qed.
  Definition mgood (p : mstate * mstate) : Prop := mweighted c U 1 (fst p) /\ mweighted c U 1 (snd p).
  Lemma mdamped_weighted z p : mgood p -> mweighted c U 1 (mdamped z p).
  Proof. intros (A & B). apply (mweighted_m (z * 1 + (1 - z) * 1)); [ring|]. apply mweighted_add; apply mweighted_scale; assumption. Qed.
  Lemma maccumulate_weighted z : forall alpha l w x, length alpha = length l -> Forall mgood l -> mweighted c U w x ->
    mweighted c U (w + Pit_Props.total alpha) (maccumulate z x alpha l).
  Proof.
    induction alpha as [|a alpha IH]; intros [|p l] w x Len Hl Hx; try discriminate Len.
    - apply (mweighted_m w); [cbn [Pit_Props.total]; ring|exact Hx].
    - cbn [maccumulate Pit_Props.total]. inversion Hl as [|? ? Hp Hl']. apply (mweighted_m (w + a * 1 + Pit_Props.total alpha)); [ring|].
      apply IH; [injection Len as Len; exact Len|exact Hl'|]. apply mweighted_add; [exact Hx|]. apply mweighted_scale, mdamped_weighted; exact Hp.
  Qed.
  Lemma mupdate_weighted z gamma l x : length l = S (length gamma) -> Forall mgood l -> manderson_update z gamma l = Some x -> mweighted c U 1 x.
  Proof.
    intros Len Hl E. unfold manderson_update in E. destruct (Pit_Props.alphas_total gamma 1%Q) as (T & L). destruct (Pit_Model.alphas 1 gamma) as [|a alpha]; [discriminate E|].
    destruct l as [|p l]; [discriminate E|]. injection E as <-. inversion Hl as [|? ? Hp Hl']. cbn [Pit_Props.total] in T.
    apply (mweighted_m (a * 1 + Pit_Props.total alpha)); [transitivity (a + Pit_Props.total alpha)%Q; [ring|exact T]|].
    apply maccumulate_weighted; [cbn [length] in L, Len; congruence|exact Hl'|]. apply mweighted_scale, mdamped_weighted; exact Hp.
  Qed.
End States.

(** every iterate of the accelerated solver, for any solution of the least-squares problem, without particle-hole symmetry *)
Theorem C126_matsubara_anderson_partial : forall c J Jl pi U p hartree gamma version zetas x y l,
  keldysh c = false -> zero_t c = true -> phs c = false -> ph p = false -> integral J -> loop_integral all_frequencies Jl ->
  (forall h, h <> [] -> length h = S (length (gamma h))) ->
  msymmetric c (- U) (fst x) -> conjugated all_frequencies false (snd x) ->
  msolver c J Jl pi U p hartree gamma version zetas (x, []) = Some (y, l) ->
  msymmetric c (- U) (fst y) /\ conjugated all_frequencies false (snd y).
Proof.
  intros c J Jl pi U p hartree gamma version zetas x y l Kc Zc Ph Pp HJ HI Lg Hv HS.
  assert (One : forall x, mweighted c U 1 x <-> msymmetric c (- U) (fst x) /\ conjugated all_frequencies false (snd x)).
  { intros z. split; intros (A & B); (split; [|exact B]); [apply (mobeys_bare_m c (1 * - U))|apply (mobeys_bare_m c (- U))]; try exact A; ring. }
  assert (G : forall zetas x h, mweighted c U 1 x -> Forall (mgood c U) h ->
    msolver c J Jl pi U p hartree gamma version zetas (x, h) = Some (y, l) -> mweighted c U 1 y).
  { clear x Hv HS zetas. induction zetas as [|z zetas IH]; intros x h Hx Hh E; cbn [msolver] in E; [injection E as <- _; exact Hx|].
    unfold msolver_step in E. set (h1 := h ++ _) in E. set (h2 := if (4 <? length h1)%nat then tl h1 else h1) in E.
    assert (H1 : Forall (mgood c U) h1).
    { apply Forall_app. split; [exact Hh|]. constructor; [|constructor]. split; cbn [fst snd]; [|exact Hx].
      apply One in Hx. destruct Hx as (A & B). apply One.
      exact (proj1 (C126_matsubara_iterations_partial c J Jl pi U p hartree version [] x Kc Zc Ph Pp HJ HI A B)). }
    assert (H2 : Forall (mgood c U) h2) by (unfold h2; destruct (4 <? length h1)%nat; [destruct h1; [exact H1|inversion H1; assumption]|exact H1]).
    assert (N2 : h2 <> []).
    { assert (L1 : (0 < length h1)%nat) by (unfold h1; rewrite app_length; cbn [length]; lia). unfold h2. destruct (Nat.ltb_spec 4 (length h1)) as [L|L].
      - destruct h1 as [|q0 [|q1 h1']]; cbn [length] in L; try lia. discriminate.
      - intros Z. rewrite Z in L1. cbn [length] in L1. lia. }
    destruct (manderson_update z (gamma h2) h2) as [out|] eqn:Eo; [|discriminate E].
    apply (IH out h2); [|exact H2|exact E]. apply (mupdate_weighted c U Kc z (gamma h2) h2); [apply Lg, N2|exact H2|exact Eo]. }
  intros E. apply One. apply (G zetas x []); [apply One; split; assumption|constructor|exact E].
Qed.
Print Assumptions C126_matsubara_anderson_partial.

Definition mgamma0 (h : list (mstate * mstate)) : list Q := repeat (1 # 3) (length h - 1).
Example C126_matsubara_anderson_hyp : msymmetric matsubara_c (- (1)) mPsi2 /\ conjugated all_frequencies false mS2 /\ integral J2 /\ loop_integral all_frequencies Jl1 /\
  phs matsubara_c = false /\ ph mp2 = false /\ (forall h, h <> [] -> length h = S (length (mgamma0 h))) /\
  option_map (fun r => length (snd r)) (msolver matsubara_c J2 Jl1 (22 # 7) 1 mp2 (fun _ => 1 # 2) mgamma0 1 [1 # 2; 1 # 2; 1 # 2; 1 # 3; 1 # 3]%Q ((mPsi2, mS2), [])) = Some 4%nat /\
  option_map (fun r => show (snd r 3%Q)) (manderson_update (1 # 2) [1 # 3] [((mPsi2, mS2), (mPsi2, mS1)); ((mPsi2, mS1), (mPsi2, mS2))]) = Some (-1 # 2, -3 # 8)%Q.
Proof.
  split; [exact mPsi2_symmetric|]. split; [exact mS2_all|]. split; [exact J2_integral|]. split; [exact Jl1_integral|]. do 2 (split; [reflexivity|]).
  split. { intros h Hh. unfold mgamma0. rewrite repeat_length. destruct h; [congruence|cbn [length]; lia]. }
  split; [lazy; reflexivity|vm_compute; reflexivity].
Qed.
