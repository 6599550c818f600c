(** Properties C110 (layers covered by the evaluation of a result file) and C111 (Ward identity). *)
From Coq Require Import QArith Lqa.
From Verif Require Import Prelude Cplx Post_Model Post_Spec Post_Proofs Post_Proofs2.
Open Scope Z_scope.

(** ** C110 *)
Theorem C110_susceptibilities_partial : forall S V (chi : S -> V) f st, complete f st ->
  exists w, susceptibilities S chi (Some f) = Some (Some (last_it f + 1, w), true) /\ one_for_each chi st (last_it f + 1) w.
Proof. intros S V chi f st C. apply (susc_ok S st f C chi). Qed.

Theorem C110_slices_partial : forall S V (zero : V) npts value f st, complete f st -> 0 < npts (st 0) ->
  exists a, slices S zero npts value (Some f) = Some a /\
    forall i iv ivp iK, 0 <= i <= last_it f -> 0 <= iv < npts (st 0) -> 0 <= ivp < npts (st 0) -> 0 <= iK < 15 ->
      entry a (((i * npts (st 0) + iv) * npts (st 0) + ivp) * 16 + iK) (value (st i) iv ivp iK).
Proof.
  intros S V zero npts value f st C H. destruct (slices_ok S st f C V zero npts value H) as [a [E A]]. exists a. split; auto. intros i iv ivp iK A1 A2 A3 A4.
  specialize (A i iv ivp iK A1 A2 A3 ltac:(lia)). destruct (Z.ltb_spec iK 15); [exact A|lia].
Qed.
(** the sixteenth component of the vertex is zero in the output, whatever the vertex *)
Theorem C110_slices_refuted : forall S V (zero : V) npts value f st, complete f st -> 0 < npts (st 0) ->
  exists a, slices S zero npts value (Some f) = Some a /\
    forall i iv ivp, 0 <= i <= last_it f -> 0 <= iv < npts (st 0) -> 0 <= ivp < npts (st 0) -> entry a (((i * npts (st 0) + iv) * npts (st 0) + ivp) * 16 + 15) zero.
Proof.
  intros S V zero npts value f st C H. destruct (slices_ok S st f C V zero npts value H) as [a [E A]]. exists a. split; auto. intros i iv ivp A1 A2 A3.
  apply (A i iv ivp 15); auto. lia.
Qed.
(** the other evaluations leave out the last layer *)
Theorem C110_fdt_refuted : forall S V (cmp : S -> V) f st, complete f st ->
  exists w, compare_flow_with_FDTs S cmp (Some f) = Some w /\ one_for_each cmp st (last_it f) w /\ forall x, ~ In (last_it f, x) w.
Proof.
  intros S V cmp f st C. destruct (fdt_ok S st f C cmp) as [w [E A]]. exists w. split; [exact E|]. split; [exact A|].
  intros x I. destruct A as [A _]. apply A in I. lia.
Qed.
Theorem C110_sum_rule_refuted : forall S V (z : V) rule f st, complete f st ->
  exists l, sum_rule_K1tK S z rule (Some f) = Some l /\ Z.of_nat (length l) = last_it f /\ forall i, 0 <= i < last_it f -> entry l i (rule (st i)).
Proof. intros S V z rule f st C. apply (rule_ok S st f C z rule). Qed.
Theorem C110_phi_refuted : forall S V (zero : V) nFER n_in freq sigma phi f st, complete f st -> 0 < nFER -> 0 < n_in ->
  exists v s p, compute_Phi_tilde S V zero nFER n_in freq sigma phi (Some f) = Some (v, s, p) /\
    (forall i iv j, 0 <= i < last_it f -> 0 <= iv < nFER -> 0 <= j < n_in -> entry p (i * nFER * n_in + iv * n_in + j) (phi (st i) iv j)) /\
    (forall iv j, 0 <= iv < nFER -> 0 <= j < n_in -> entry p (last_it f * nFER * n_in + iv * n_in + j) zero).
Proof.
  intros S V zero nFER n_in freq sigma phi f st C HF HN. destruct (phi_ok S st f C V zero nFER n_in HF HN freq sigma phi) as [v [s [p [E [_ A]]]]].
  assert (R := proj1 C).
  exists v, s, p. split; auto. split.
  - intros i iv j A1 A2 A3. destruct (A i iv j ltac:(lia) A2 A3) as [B _]. destruct (Z.ltb_spec i (last_it f)); [exact B|lia].
  - intros iv j A2 A3. destruct (A (last_it f) iv j ltac:(lia) A2 A3) as [B _]. rewrite Z.ltb_irrefl in B. exact B.
Qed.
(** for one internal index frequencies and self-energy are at the same places as Phi *)
Theorem C110_phi_partial : forall S V (zero : V) nFER freq sigma phi f st, complete f st -> 0 < nFER ->
  exists v s p, compute_Phi_tilde S V zero nFER 1 freq sigma phi (Some f) = Some (v, s, p) /\
    forall i iv, 0 <= i < last_it f -> 0 <= iv < nFER ->
      entry v (i * nFER + iv) (freq (st i) iv 0) /\ entry s (i * nFER + iv) (sigma (st i) iv 0) /\ entry p (i * nFER + iv) (phi (st i) iv 0).
Proof.
  intros S V zero nFER freq sigma phi f st C HF. destruct (phi_ok S st f C V zero nFER 1 HF ltac:(lia) freq sigma phi) as [v [s [p [E [_ A]]]]].
  assert (R := proj1 C).
  exists v, s, p. split; auto. intros i iv A1 A2. destruct (A i iv 0 ltac:(lia) A2 ltac:(lia)) as [B D]. destruct (D eq_refl) as [D1 D2].
  destruct (Z.ltb_spec i (last_it f)); [|lia]. replace (i * nFER * 1 + iv * 1 + 0) with (i * nFER + iv) in * by lia. auto.
Qed.
(** for several internal indices the layers overwrite each other: state of a layer = its number, two frequencies, two internal indices *)
Definition two_in : rfile Z := {| nlambda := 4; last_it := 3; layer := fun i => if (0 <=? i) && (i <=? 3) then Some i else None |}.
Theorem C110_phi_index_refuted :
  let freq := fun s iv j => 100 * s + 10 * iv + j in
  complete two_in (fun i => i) /\
  exists v s p, compute_Phi_tilde Z Z 0 2 2 freq freq freq (Some two_in) = Some (v, s, p) /\
    entry v (0 * 2 * 2 + 1 * 2 + 0) 100 /\ freq 0 1 0 = 10 /\                  (* layer 0, frequency 1: holds the first frequency of layer 1 *)
    entry v (2 * 2 * 2 + 0 * 2 + 0) 0 /\ freq 2 0 0 = 200.                     (* layer 2: never written *)
Proof.
  cbv zeta. split.
  - unfold complete. cbn. repeat split; try lia.
  - eexists _, _, _. split; [vm_compute; reflexivity|]. repeat split; try lia.
Qed.
(** grids of 50 and 100 layers: layers beyond the end of the file are asked for, so no evaluation is possible *)
Theorem C110_kramers_kronig_refuted : forall S (f : rfile S) st, complete f st -> nlambda f = 50 \/ nlambda f = 100 -> check_Kramers_Kronig S (Some f) = None.
Proof. intros S f st C H. apply (kk_bad S st f C H). Qed.
Theorem C110_kramers_kronig_last_refuted : forall S (f : rfile S) st, complete f st -> nlambda f <> 50 -> nlambda f <> 100 ->
  exists w, check_Kramers_Kronig S (Some f) = Some w /\ one_for_each (fun s => s) st (last_it f) w /\ forall x, ~ In (last_it f, x) w.
Proof.
  intros S f st C A B. destruct (kk_ok S st f C A B) as [w [E W]]. exists w. split; [exact E|]. split; [exact W|]. intros x I. destruct W as [W _]. apply W in I. lia.
Qed.
(** a missing result file: an empty file of susceptibilities is written and no error reported; all others raise *)
Theorem C110_missing_refuted : forall S V (chi : S -> V), susceptibilities S chi None = Some (None, true).
Proof. reflexivity. Qed.
Theorem C110_missing_partial : forall S V (z : V) nFER n_in freq sigma phi (rule : S -> V) npts value,
  compute_Phi_tilde S V z nFER n_in freq sigma phi None = None /\ sum_rule_K1tK S z rule None = None /\ compare_flow_with_FDTs S rule None = None /\
  check_Kramers_Kronig S None = None /\ slices S z npts value None = None.
Proof. intros. repeat split. Qed.

Example C110_hyp : complete {| nlambda := 5; last_it := 2; layer := fun i => if (0 <=? i) && (i <=? 2) then Some (i * i) else None |} (fun i => i * i) /\
  compare_flow_with_FDTs Z (fun s => s + 1) (Some {| nlambda := 5; last_it := 2; layer := fun i => if (0 <=? i) && (i <=? 2) then Some (i * i) else None |}) = Some [(0, 1); (1, 2)] /\
  susceptibilities Z (fun s => s + 1) (Some {| nlambda := 5; last_it := 2; layer := fun i => if (0 <=? i) && (i <=? 2) then Some (i * i) else None |})
   = Some (Some (3, [(0, 1); (1, 2); (2, 5)]), true).
Proof. split; [|split; vm_compute; reflexivity]. unfold complete. cbn. repeat split; lia. Qed.
Example C110_kk_hyp : complete {| nlambda := 50; last_it := 49; layer := fun i => if (0 <=? i) && (i <=? 49) then Some i else None |} (fun i => i).
Proof. unfold complete. cbn. repeat split; lia. Qed.

(** ** C111 *)
Open Scope Q_scope.
(** the integrator sees the values of the integrand only *)
Definition extensional (integral : (Q -> Q) -> Q) : Prop := forall f g, (forall x, f x == g x) -> integral f == integral g.
Theorem C111_integrated_refuted : forall w_upper grid_index frequency Sigma integral Phi, extensional integral ->
  match Phi_integrated w_upper grid_index frequency Sigma integral Phi with
  | Some r => r == 1
  | None => integral (fun v => if Qltb (if Qltb v 0 then - v else v) w_upper then 2 * im (Sigma v) else 0) == 0
  end.
Proof.
  intros w gi fr Sg I Phi E. unfold Phi_integrated, fdiv.
  assert (A : I (ward_integrand w gi fr Sg Phi) == I (ward_integrand w gi fr Sg (fun _ => 0))).
  { apply E. intros x. rewrite !ward_value. reflexivity. }
  destruct (Qeq_bool _ 0) eqn:B.
  - apply Qeq_bool_eq in B. rewrite <- B. apply E. intros x. rewrite ward_value. reflexivity.
  - apply Qeq_bool_neq in B. rewrite A. field. exact B.
Qed.
(** witness: three frequencies, the identity holds exactly (Phi = -2 Im Sigma everywhere), the reported deviation is 1 *)
Theorem C111_identity_refuted : exists w_upper grid_index frequency Sigma integral Phi, extensional integral /\
  (forall i, (-1 <= i <= 1)%Z -> Phi i == - (2) * im (Sigma (frequency i))) /\
  exists r, Phi_integrated w_upper grid_index frequency Sigma integral Phi = Some r /\ r == 1.
Proof.
  exists 1, (fun v => if Qltb v 0 then (-1)%Z else 0%Z), inject_Z, (fun _ => Cplx (1 # 3) (- (1 # 2))), (fun f => (f (- (1 # 2)) + f (1 # 2)) * (1 # 2)), (fun _ => 1).
  split; [|split].
  - intros f g H. rewrite !H. reflexivity.
  - intros i _. reflexivity.
  - eexists. split; [vm_compute; reflexivity|reflexivity].
Qed.
(** the right-hand side uses the propagator of the saved state if the Hartree term has its particle-hole symmetric value *)
Theorem C111_weight_partial : forall eps Delta U dyn asymp v, asymp == U / 2 -> 
  (phi_weight eps Delta U dyn asymp v == Cconj (GR eps Delta dyn asymp v) * GR eps Delta dyn asymp v)%C.
Proof.
  intros eps D U dyn a v H. unfold phi_weight. cbv zeta.
  assert (E : (GR eps D dyn (U / 2) v == GR eps D dyn a v)%C).
  { unfold GR. apply Cinv_m. apply Csub_m; [reflexivity|]. apply Cadd_m; [reflexivity|]. split; cbn; [rewrite H; reflexivity|reflexivity]. }
  apply Cmul_m; [apply Cconj_m|]; exact E.
Qed.
Theorem C111_weight_refuted : exists eps Delta U dyn asymp v,
  ~ (phi_weight eps Delta U dyn asymp v == Cconj (GR eps Delta dyn asymp v) * GR eps Delta dyn asymp v)%C.
Proof.
  exists 0, 1, 2, (fun _ => Cplx 0 0), (1 # 2), 0. intros [H _]. vm_compute in H. discriminate.
Qed.
Example C111_hyp : extensional (fun f => (f (- (1 # 2)) + f (1 # 2)) * (1 # 2)).
Proof. intros f g H. rewrite !H. reflexivity. Qed.
Example C111_weight_hyp : (phi_weight (1 # 2) 1 2 (fun v => Cplx v (- (1 # 3))) 1 (1 # 4) == Cplx (36 # 145) 0)%C.
Proof. split; vm_compute; reflexivity. Qed.

Print Assumptions C110_susceptibilities_partial.
Print Assumptions C110_slices_partial.
Print Assumptions C110_slices_refuted.
Print Assumptions C110_fdt_refuted.
Print Assumptions C110_sum_rule_refuted.
Print Assumptions C110_phi_refuted.
Print Assumptions C110_phi_partial.
Print Assumptions C110_phi_index_refuted.
Print Assumptions C110_kramers_kronig_refuted.
Print Assumptions C110_kramers_kronig_last_refuted.
Print Assumptions C110_missing_refuted.
Print Assumptions C110_missing_partial.
Print Assumptions C111_integrated_refuted.
Print Assumptions C111_identity_refuted.
Print Assumptions C111_weight_partial.
Print Assumptions C111_weight_refuted.
