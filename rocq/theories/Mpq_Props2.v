(** C126: the bubble of the Schwinger-Dyson equation in the Matsubara formalism, before parts of it are closed by the loop *)
From Coq Require Import QArith.
From Verif Require Import Prelude Cplx Keld_Model Util_Spec Sym_Model Sym_Spec Tab_Model Rd_Model Rd_Spec Dec_Model Bub_Model Bub_Spec Bub_Props Mbu_Props Sf_Model Sf_Spec
  Bub_Proofs Mbu_Spec Mbu_Proofs Msf_Model Msf_Spec Msf_Proofs Msf_Props Mfl_Model Mfl_Spec Mfl_Props Mpq_Model Mpq_Proofs Mpq_Props.
From Verif Require Mlp_Model Sde_Model Sde_Proofs Sde_Proofs2.
Open Scope Z_scope.
Import Sde_Model (flags, no_flags, mkFl, swap_a_and_t, masked, other_than, bare_vertex).
Import Sde_Proofs2 (flags_of).

(** the bubbles in the channels a and t with the flags of one another are the same, each in its own channel *)
Lemma masked_swap only ch v : (ch = Ca \/ ch = Ct) -> masked (swap_a_and_t (flags_of only ch)) v = masked (flags_of only (match ch with Ca => Ct | Ct => Ca | Cp => Cp end)) v.
Proof. intros [-> | ->]; destruct only; reflexivity. Qed.
Lemma other_channel c J pi U only v g ch r k s f : ch <> Cp -> r <> Cp -> ch <> r ->
  (class_of (channel_of (msde_bubble c J pi U ch (flags_of only ch) v g) r) k s 0 f == class_of (channel_of (msde_bubble c J pi U r (flags_of only r) v g) r) k s 0 f)%C.
Proof.
  intros A B D. unfold msde_bubble. rewrite !masked_swap by (destruct ch, r; tauto). cbv zeta.
  destruct ch, r; try congruence.
  all: set (ma := masked (flags_of only Ca) v); set (mt := masked (flags_of only Ct) v).
  all: destruct k; cbn; unfold dhalf, dadd, dzero; apply Cscale_m; try reflexivity; ring.
Qed.

(** its parts in the channels a and t belong together: they are the parts of one vertex with the symmetries (C122), which is why the components
    that vanish in the integrand are exchanged for the second bubble; the same holds for the channel p *)
Theorem C126_matsubara_SDE_bubble_symmetric : forall c J pi U u v g (only : bool) ch,
  keldysh c = false -> zero_t c = true -> integral J -> msymmetric c u v -> conjugated all_frequencies (phs c) g ->
  exists w, msymmetric c 0 w /\ forall r k s f, spin01 s -> r = ch \/ (ch <> Cp /\ r <> Cp) ->
    (class_of (channel_of (msde_bubble c J pi U ch (if only then mkFl false (fun r _ => other_than ch r) else no_flags) v g) r) k s 0 f ==
     class_of (channel_of w r) k s 0 f)%C.
Proof.
  intros c J pi U u v g only ch Kc Zc HJ Sy Hg. exists (msymmetrised c J pi U g v only). split.
  - apply (mobeys_bare_m c ((1 # 2) * 0)); [ring|]. apply (msymmetrised_symmetric c J pi U g Kc Zc HJ Hg u v Sy only).
  - intros r k s f Sp Hr. change (if only then mkFl false (fun r _ => other_than ch r) else no_flags) with (flags_of only ch).
    assert (D : {r = ch} + {r <> ch}) by decide equality. destruct D as [-> | D].
    + apply msde_classes; assumption.
    + destruct Hr as [Hr | (Hc & Hr)]; [contradiction|]. rewrite other_channel by congruence. apply msde_classes; assumption.
Qed.
Print Assumptions C126_matsubara_SDE_bubble_symmetric.
Example C126_matsubara_SDE_bubble_hyp : msymmetric matsubara_c (- (1)) mPsi2 /\ integral J2 /\ conjugated all_frequencies false mS2 /\
  (* with flags: the part in the channel t of the bubble in the channel a *)
  show (class_of (channel_of (msde_bubble matsubara_c J2 (22 # 7) 1 Ca (mkFl false (fun r _ => other_than Ca r)) (bare_vertex matsubara_c 1) (fun v => Cplx 1 (/ v))) Ct)
    k1 1 0 (4, 1, 2)%Q) = (-14 # 33, 0)%Q.
Proof. split; [exact mPsi2_symmetric|]. split; [exact J2_integral|]. split; [exact mS2_all|]. vm_compute; reflexivity. Qed.
