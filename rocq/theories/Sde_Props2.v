(** C126: the bubble of the Schwinger-Dyson equation in the Keldysh formalism, before parts of it are closed by the loop *)
From Coq Require Import QArith.
From Verif Require Import Prelude Cplx Keld_Model Keld_Spec Keld_Proofs Util_Spec Sym_Model Sym_Spec Tab_Model Rd_Model Rd_Spec Rd_Props Dec_Model Bub_Model Bub_Spec Bub_Proofs
  Bub_Props Sf_Model Sf_Spec Sf_Proofs Sf_Props Fl_Model Fl_Spec Fl_Props Sde_Model Sde_Proofs2 Sde_Props.
From Verif Require Mlp_Model Skp_Spec.
Open Scope Z_scope.

Lemma keldysh_masked_swap only ch v : (ch = Ca \/ ch = Ct) ->
  masked (swap_a_and_t (flags_of only ch)) v = masked (flags_of only (match ch with Ca => Ct | Ct => Ca | Cp => Cp end)) v.
Proof. intros [-> | ->]; destruct only; reflexivity. Qed.
Lemma keldysh_other_channel c J pi U only v g ch r k s i f : ch <> Cp -> r <> Cp -> ch <> r ->
  (class_of (channel_of (sde_bubble c J pi U ch (flags_of only ch) v g) r) k s i f == class_of (channel_of (sde_bubble c J pi U r (flags_of only r) v g) r) k s i f)%C.
Proof.
  intros A B D. unfold sde_bubble. rewrite !keldysh_masked_swap by (destruct ch, r; tauto). cbv zeta.
  destruct ch, r; try congruence.
  all: set (ma := masked (flags_of only Ca) v); set (mt := masked (flags_of only Ct) v).
  all: destruct k; cbn; unfold dhalf, dadd, dzero; apply Cscale_m; try reflexivity; ring.
Qed.

(** its parts in the channels a and t belong together: they are the parts of one vertex with the symmetries (C122); the same holds for
    the channel p. Missing: contour basis and reduced storage. *)
Theorem C126_SDE_bubble_symmetric_partial : forall c J pi U v g (only : bool) ch,
  keldysh c = true -> contour c = false -> integral J -> Skp_Spec.linear J -> ~ (pi == 0)%Q -> lines_ok g -> (phs c = true -> ph_symmetric g) ->
  symmetric c (- U / 2) v ->
  exists w, symmetric c 0 w /\ forall r k s iK f, s = 0 \/ s = 1 -> 0 <= iK < 16 -> r = ch \/ (ch <> Cp /\ r <> Cp) ->
    (class_of (channel_of (sde_bubble c J pi U ch (if only then mkFl false (fun r _ => other_than ch r) else no_flags) v g) r) k s iK f ==
     class_of (channel_of w r) k s iK f)%C.
Proof.
  intros c J pi U v g only ch Kc CBc HJ HL Hpi Hg Hp Sy. exists (symmetrised c J pi U g v only). split.
  - apply (obeys_bare_m c Kc CBc ((1 # 2) * 0)); [reflexivity|]. apply symmetrised_symmetric; assumption.
  - intros r k s iK f Sp Hi Hr. change (if only then mkFl false (fun r _ => other_than ch r) else no_flags) with (flags_of only ch).
    destruct (below16 iK Hi) as (e1 & e2 & e3 & e4 & ->).
    assert (D : {r = ch} + {r <> ch}) by decide equality. destruct D as [-> | D].
    + apply sde_bubble_classes; assumption.
    + destruct Hr as [Hr | (Hc & Hr)]; [contradiction|]. rewrite keldysh_other_channel by congruence. apply sde_bubble_classes; assumption.
Qed.
Print Assumptions C126_SDE_bubble_symmetric_partial.

Example C126_SDE_bubble_hyp : integral JL /\ Skp_Spec.linear JL /\ lines_ok gL /\ ph_symmetric gL /\ symmetric demo_c (- (1) / 2) Psi1 /\
  (* with flags: the part in the channel t of the bubble in the channel a, and what it is the crossing partner of *)
  show (class_of (channel_of (sde_bubble demo_c JL (22 # 7) 1 Ca (mkFl false (fun r _ => other_than Ca r)) (bare_vertex demo_c 1) gL) Ct) k1 1 6 (0, 1, 2)%Q) = (0, 21 # 88)%Q /\
  show (class_of (channel_of (sde_bubble demo_c JL (22 # 7) 1 Ca (mkFl false (fun r _ => other_than Ca r)) (bare_vertex demo_c 1) gL) Ca) k1 0 5 (0, 1, 2)%Q) = (0, -21 # 88)%Q.
Proof.
  destruct gL_ok as (D & E). split; [exact JL_integral|]. split; [exact JL_linear|]. split; [exact D|]. split; [exact E|].
  split; [apply (obeys_bare_m demo_c eq_refl eq_refl (-1 # 2)); [reflexivity|exact Psi1_symmetric]|]. split; vm_compute; reflexivity.
Qed.
