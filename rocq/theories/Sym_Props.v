(** Theorems for C17, C18 (symmetry operations) and C21-C23 (frequency conversions between channels). *)
From Coq Require Import QArith Lqa.
From Verif Require Import Prelude Keld_Model Util_Model Util_Spec Util_Proofs Sym_Model Sym_Spec Sym_Proofs Sym_Proofs2.
Open Scope Z_scope.

(** ** C17 *)
Theorem C17_leg_exchanges_involutive : forall c sbe x, wf c x ->
  oieq (y <- T1 c sbe x ;; T1 c sbe y) (Some x) /\
  oieq (y <- T2 c sbe x ;; T2 c sbe y) (Some x) /\
  oieq (y <- T3 c sbe x ;; T3 c sbe y) (Some x).
Proof. intros. split; [|split]; [apply T1_involutive|apply T2_involutive|apply T3_involutive]; assumption. Qed.
Print Assumptions C17_leg_exchanges_involutive.
Theorem C17_conjugation_reversals_involutive : forall c sbe x, wf c x ->
  oieq (y <- TC c sbe x ;; TC c sbe y) (Some x) /\
  oieq (y <- Tph c sbe x ;; Tph c sbe y) (Some x) /\
  oieq (y <- TR c sbe x ;; TR c sbe y) (Some x).
Proof. intros. split; [|split]; [apply TC_involutive|apply Tph_involutive|apply TR_involutive]; assumption. Qed.
Print Assumptions C17_conjugation_reversals_involutive.
Theorem C17_leg_exchanges_commute : forall c sbe x, wf c x ->
  oieq (y <- T1 c sbe x ;; T2 c sbe y) (y <- T2 c sbe x ;; T1 c sbe y).
Proof. exact T1_T2_commute. Qed.
Print Assumptions C17_leg_exchanges_commute.
Theorem C17_conjugation_exchanges_the_exchanges : forall c sbe x, wf c x ->
  oieq (y <- T1 c sbe x ;; TC c sbe y) (y <- TC c sbe x ;; T2 c sbe y) /\
  oieq (y <- T2 c sbe x ;; TC c sbe y) (y <- TC c sbe x ;; T1 c sbe y) /\
  oieq (y <- T3 c sbe x ;; TC c sbe y) (y <- TC c sbe x ;; T3 c sbe y).
Proof. intros. split; [|split]; [apply T1_TC|apply T2_TC|apply T3_TC]; assumption. Qed.
Print Assumptions C17_conjugation_exchanges_the_exchanges.
Theorem C17_reversals_commute : forall c sbe x, wf c x ->
  (oieq (y <- Tph c sbe x ;; T1 c sbe y) (y <- T1 c sbe x ;; Tph c sbe y) /\
   oieq (y <- Tph c sbe x ;; T2 c sbe y) (y <- T2 c sbe x ;; Tph c sbe y) /\
   oieq (y <- Tph c sbe x ;; TC c sbe y) (y <- TC c sbe x ;; Tph c sbe y)) /\
  (oieq (y <- TR c sbe x ;; T1 c sbe y) (y <- T1 c sbe x ;; TR c sbe y) /\
   oieq (y <- TR c sbe x ;; T2 c sbe y) (y <- T2 c sbe x ;; TR c sbe y) /\
   oieq (y <- TR c sbe x ;; TC c sbe y) (y <- TC c sbe x ;; TR c sbe y)).
Proof.
  intros. split; (split; [|split]); [apply Tph_T1|apply Tph_T2|apply Tph_TC|apply TR_T1|apply TR_T2|apply TR_TC]; assumption.
Qed.
Print Assumptions C17_reversals_commute.
(** a composite operation is the composition of the elementary operations named by its digits *)
Theorem C17_composite_is_composition : forall c sbe x i, wf c x -> In i (codes c) ->
  oieq (Ti c sbe x i) (compose c sbe (digits i) x).
Proof. exact Ti_digits. Qed.
Print Assumptions C17_composite_is_composition.
Theorem C17_unknown_code_is_an_error : forall c sbe x i, ~ In i (codes c) -> Ti c sbe x i = None.
Proof. exact Ti_other. Qed.
Print Assumptions C17_unknown_code_is_an_error.
Definition demo_kel := mkCfg true false true false 51.
Definition demo_mats := mkCfg false false true false 51.
Definition demo_x := mkI 6 0 (-6) 3 (-5) 7 1 false false Cp.
Example C17_hyp : wf demo_kel demo_x /\ wf demo_mats demo_x /\ In 346 (codes demo_kel) /\ ~ In 346 (codes demo_mats) /\
  oieq (T1 demo_mats false demo_x) (Some (mkI 6 1 (-6) 3 3 7 (-1) false false Cp)).
Proof.
  split; [split; [intros _; cbn; lia|discriminate]|].
  split; [split; [discriminate|intros _; exists (-3); reflexivity]|].
  split; [cbn; tauto|]. split; [cbn; intuition discriminate|].
  do 2 eexists. split; [vm_compute; reflexivity|]. split; [reflexivity|].
  unfold ieq; cbn. repeat split; reflexivity.
Qed.

(** ** C18: the effect on the four legs. [F] and [K] describe the permutation of the leg frequencies and
    Keldysh indices, [sg] the sign, [cj] whether the value is complex conjugated. *)
Definition effect (c : cfg) (op : indices -> option indices) (F : legs -> legs) (K : klegs -> klegs)
  (flip_spin : bool) (sg : klegs -> Q) (cj : bool) : Prop :=
  forall x, wf c x -> exists y, op x = Some y /\
    (forall l, legs_are (mf c) (channel_rvert x) (freqs x) l -> legs_are (mf c) (channel_rvert y) (freqs y) (F l)) /\
    spin y = (if flip_spin then 1 - spin x else spin x) /\ conjugate y = xorb cj (conjugate x) /\
    forall k, klegs_ok k -> iK x = kcode k ->
      (keldysh c = true -> iK y = kcode (K k)) /\ (prefactor y == sg k * prefactor x)%Q.
Definition id_k (k : klegs) : klegs := k.
Definition minus1 (sbe : bool) (k : klegs) : Q := if sbe then 1%Q else (-1)%Q.
(** sign of complex conjugation; in the contour basis it does not depend on the indices; the
    single-boson-exchange vertices carry one sign more *)
Definition conj_sg (c : cfg) (sbe : bool) (k : klegs) : Q :=
  ((if sbe then -1 else 1) * (if contour c then -1 else conj_factor k))%Q.

Lemma obind_inv : forall A B (o : option A) (f : A -> option B) y, obind o f = Some y -> exists a, o = Some a /\ f a = Some y.
Proof. intros A B [a|] f y H; [exists a; auto|discriminate]. Qed.
Ltac obi E := let a := fresh "a" in let G := fresh "G" in apply obind_inv in E; destruct E as (a & G & E).
Ltac last_part := split; [intros; first [congruence|reflexivity]|].

Theorem C18_T1_exchanges_incoming_legs : forall c sbe,
  effect c (T1 c sbe) swap_in_f swap_in_k true (minus1 sbe) false.
Proof.
  intros c sbe x Hx. destruct (T1_legs c sbe x Hx) as (y & E & L). exists y. split; [exact E|]. split; [exact L|].
  unfold T1 in E. obi E.
  destruct (channel_rvert x); [injection E as <-|obi E; injection E as <-|injection E as <-]; cbn [spin conjugate iK prefactor xorb];
  (split; [reflexivity|split; [destruct (conjugate x); reflexivity|intros k Hk Ek; split;
    [intro Kc; rewrite Kc, Ek, swap23_kcode in G by exact Hk; injection G as <-; reflexivity|unfold minus1; destruct sbe; ring]]]).
Qed.
Print Assumptions C18_T1_exchanges_incoming_legs.
Theorem C18_T2_exchanges_outgoing_legs : forall c sbe,
  effect c (T2 c sbe) swap_out_f swap_out_k true (minus1 sbe) false.
Proof.
  intros c sbe x Hx. destruct (T2_legs c sbe x Hx) as (y & E & L). exists y. split; [exact E|]. split; [exact L|].
  unfold T2 in E. obi E.
  destruct (channel_rvert x); [injection E as <-|obi E; injection E as <-|injection E as <-]; cbn [spin conjugate iK prefactor xorb];
  (split; [reflexivity|split; [destruct (conjugate x); reflexivity|intros k Hk Ek; split;
    [intro Kc; rewrite Kc, Ek, swap01_kcode in G by exact Hk; injection G as <-; reflexivity|unfold minus1; destruct sbe; ring]]]).
Qed.
Print Assumptions C18_T2_exchanges_outgoing_legs.
Theorem C18_TC_exchanges_in_and_out_keldysh : forall c sbe, keldysh c = true ->
  effect c (TC c sbe) in_out_f in_out_k false (conj_sg c sbe) true.
Proof.
  intros c sbe Kc x Hx. destruct (TC_legs c sbe x Hx) as (y & E & L). rewrite Kc in L.
  exists y. split; [exact E|]. split; [exact L|].
  unfold TC in E. rewrite Kc in E. obi E.
  destruct (channel_rvert x); injection E as <-; cbn [spin conjugate iK prefactor];
  (split; [reflexivity|split; [destruct (conjugate x); reflexivity|intros k Hk Ek;
    rewrite Ek, swapC_kcode in G by exact Hk; injection G as <-; split; [reflexivity|
    unfold conj_sign, conj_sg, conj_factor; rewrite odd_kcode_swapC by exact Hk;
    destruct (contour c), sbe, (Z.even (a1' k + a2' k + a1 k + a2 k)); cbn [negb]; ring]]]).
Qed.
Print Assumptions C18_TC_exchanges_in_and_out_keldysh.
(** Matsubara: conjugation exchanges in and out and reverses the frequencies *)
Theorem C18_TC_exchanges_in_and_out_matsubara : forall c sbe, keldysh c = false ->
  effect c (TC c sbe) (fun l => minus_f (in_out_f l)) id_k false (fun _ => 1%Q) true.
Proof.
  intros c sbe Kc x Hx. destruct (TC_legs c sbe x Hx) as (y & E & L). rewrite Kc in L.
  exists y. split; [exact E|]. split; [exact L|].
  unfold TC in E. rewrite Kc in E. obi E.
  destruct (channel_rvert x); obi E; injection E as <-; cbn [spin conjugate iK prefactor];
  (split; [reflexivity|split; [destruct (conjugate x); reflexivity|intros k Hk Ek; split; [congruence|ring]]]).
Qed.
Print Assumptions C18_TC_exchanges_in_and_out_matsubara.
Theorem C18_Tph_reverses_frequencies : forall c sbe, keldysh c = true -> phs c = true ->
  effect c (Tph c sbe) minus_f id_k false (conj_sg c sbe) true.
Proof.
  intros c sbe Kc Pc x Hx. destruct (Tph_legs c sbe x Hx) as (y & E & L). rewrite Kc, Pc in L. cbn [andb] in L.
  exists y. split; [exact E|]. split; [exact L|].
  unfold Tph in E. rewrite Kc, Pc in E. cbn [andb] in E. injection E as <-. cbn [spin conjugate iK prefactor].
  split; [reflexivity|]. split; [destruct (conjugate x); reflexivity|]. intros k Hk Ek. split; [intros _; exact Ek|].
  rewrite Ek. unfold conj_sign, conj_sg, conj_factor. rewrite odd_kcode by exact Hk.
  destruct (contour c), sbe, (Z.even (a1' k + a2' k + a1 k + a2 k)); cbn [negb]; ring.
Qed.
Print Assumptions C18_Tph_reverses_frequencies.
Theorem C18_TR_reverses_matsubara_frequencies : forall c sbe, keldysh c = false ->
  effect c (TR c sbe) minus_f id_k false (fun _ => 1%Q) true.
Proof.
  intros c sbe Kc x Hx. destruct (TR_legs c sbe x Hx) as (y & E & L). rewrite Kc in L.
  exists y. split; [exact E|]. split; [exact L|].
  unfold TR in E. rewrite Kc in E. obi E. injection E as <-. cbn [spin conjugate iK prefactor].
  split; [reflexivity|]. split; [destruct (conjugate x); reflexivity|]. intros k Hk Ek. split; [congruence|ring].
Qed.
Print Assumptions C18_TR_reverses_matsubara_frequencies.
Example C18_hyp : let k := mkK 1 2 2 1 in klegs_ok k /\ kcode k = 6 /\ iK demo_x = kcode k /\
  legs_are true Cp (freqs demo_x) (mkLegs 1 (-7) (-7) 1) /\
  option_map (fun y => (iK y, freqs y)) (T1 demo_kel false demo_x) = Some (kcode (mkK 1 2 1 2), (-6, 3, -5 * -1 + 0)%Q).
Proof.
  cbv zeta. split; [unfold klegs_ok, is12; cbn; lia|]. split; [reflexivity|]. split; [reflexivity|].
  split; [|vm_compute; reflexivity].
  exists (-4)%Q, (-2)%Q. split.
  - split; [exists (-2); reflexivity|]. split; [exists (-1); reflexivity|].
    repeat split; vm_compute; try reflexivity; discriminate.
  - repeat split; vm_compute; reflexivity.
Qed.

(** ** C21: Keldysh and zero temperature *)
Theorem C21_same_four_legs : forall ch ch' f,
  exists g, transfToR false ch (Bch ch') f = Some g /\ legs_eq (legs_of ch g) (legs_of ch' f).
Proof. exact conv_legs. Qed.
Print Assumptions C21_same_four_legs.
Theorem C21_forth_and_back : forall ch ch' f, exists g h,
  transfToR false ch (Bch ch') f = Some g /\ transfToR false ch' (Bch ch) g = Some h /\ trip_eq h f.
Proof. exact conv_back. Qed.
Print Assumptions C21_forth_and_back.
Theorem C21_via_third_channel : forall ch ch' ch'' f, exists g h k,
  transfToR false ch' (Bch ch) f = Some g /\ transfToR false ch'' (Bch ch') g = Some h /\
  transfToR false ch'' (Bch ch) f = Some k /\ trip_eq h k.
Proof. exact conv_via. Qed.
Print Assumptions C21_via_third_channel.
Theorem C21_from_leg_frequencies : forall ch l, conserved l ->
  exists g, transfToR false ch Bf (n1' l, n2' l, n1 l) = Some g /\ legs_eq (legs_of ch g) l.
Proof. exact conv_from_legs. Qed.
Print Assumptions C21_from_leg_frequencies.
Example C21_hyp : conserved (mkLegs 1 (5#2) (1#2) 3) /\
  exists g, transfToR false Ca (Bch Cp) (3, 1, 2)%Q = Some g /\ trip_eq g (-3, 1, 2)%Q.
Proof. split; [vm_compute; reflexivity|]. eexists. split; [reflexivity|]. repeat split; vm_compute; reflexivity. Qed.

(** ** C22: finite-temperature Matsubara frequencies *)
Theorem C22_parity_and_legs : forall ch ch' f, mats f ->
  exists g, transfToR true ch (Bch ch') f = Some g /\ mats g /\ forall l, legs_mf ch' f l -> legs_mf ch g l.
Proof. exact conv_mf. Qed.
Print Assumptions C22_parity_and_legs.
Theorem C22_forth_and_back : forall ch ch' f, mats f -> exists g h,
  transfToR true ch (Bch ch') f = Some g /\ transfToR true ch' (Bch ch) g = Some h /\ trip_eq h f.
Proof. exact conv_mf_back. Qed.
Print Assumptions C22_forth_and_back.
Theorem C22_via_third_channel : forall ch ch' ch'' f, mats f -> exists g h k,
  transfToR true ch' (Bch ch) f = Some g /\ transfToR true ch'' (Bch ch') g = Some h /\
  transfToR true ch'' (Bch ch) f = Some k /\ trip_eq h k.
Proof. exact conv_mf_via. Qed.
Print Assumptions C22_via_third_channel.
(** every triple describes four legs *)
Theorem C22_legs_exist : forall ch f, mats f -> exists l, legs_mf ch f l /\ mats_legs l /\ conserved l.
Proof.
  intros ch [[w0 v] v'] (Hw & Hv & Hv'). destruct (half_split_spec w0 Hw) as (lo & hi & _ & _ & S).
  pose proof S as (Hlo & Hhi & _).
  exists (legs_split ch lo hi v v'). split; [exists lo, hi; split; [exact S|repeat apply conj; reflexivity]|].
  destruct ch; unfold mats_legs, conserved; cbn [legs_split n1' n2' n1 n2];
  (split; [repeat apply conj; auto with par|ring]).
Qed.
Print Assumptions C22_legs_exist.
Example C22_hyp : mats (6, 3, -5)%Q /\ exists g, transfToR true Ct (Bch Ca) (6, 3, -5)%Q = Some g /\ trip_eq g (8, 3, -3)%Q.
Proof.
  split; [split; [exists 3|split; [exists 1|exists (-3)]]; reflexivity|].
  eexists. split; [vm_compute; reflexivity|]. repeat split; vm_compute; reflexivity.
Qed.

(** ** C23 *)
Theorem C23_legs_to_a_refuted : exists l, mats_legs l /\ conserved l /\
  exists g, transfToR true Ca Bf (n1' l, n2' l, n1 l) = Some g /\ ~ legs_mf Ca g l.
Proof.
  exists (mkLegs 1 5 1 5). 
  assert (M : mats_legs (mkLegs 1 5 1 5)) by (repeat split; cbn; [exists 0|exists 2|exists 0|exists 2]; reflexivity).
  assert (C : conserved (mkLegs 1 5 1 5)) by (vm_compute; reflexivity).
  split; [exact M|]. split; [exact C|]. apply (conv_mf_from_legs_a _ M C). cbn. intros [H|H]; vm_compute in H; discriminate.
Qed.
Print Assumptions C23_legs_to_a_refuted.
(** the a conversion is wrong for every transfer frequency other than 0 and 2 *)
Theorem C23_legs_to_a_always_wrong_refuted : forall l, mats_legs l -> conserved l ->
  ~ (n2' l - n1 l == 0 \/ n2' l - n1 l == 2)%Q ->
  exists g, transfToR true Ca Bf (n1' l, n2' l, n1 l) = Some g /\ ~ legs_mf Ca g l.
Proof. exact conv_mf_from_legs_a. Qed.
Print Assumptions C23_legs_to_a_always_wrong_refuted.
(** correct: p and t always, a for transfer frequency 0 or 2; missing: a otherwise (false) *)
Theorem C23_legs_to_channel_partial : forall ch l,
  ch <> Ca \/ (n2' l - n1 l == 0 \/ n2' l - n1 l == 2)%Q -> mats_legs l -> conserved l ->
  exists g, transfToR true ch Bf (n1' l, n2' l, n1 l) = Some g /\ mats g /\ legs_mf ch g l.
Proof. exact conv_mf_from_legs. Qed.
Print Assumptions C23_legs_to_channel_partial.
(** hence for p and t the conversion from legs agrees with converting the legs' own parametrisation *)
Theorem C23_agrees_with_channel_conversion_partial : forall ch ch' f l, ch <> Ca -> mats f -> legs_mf ch' f l ->
  mats_legs l -> conserved l ->
  exists g g', transfToR true ch Bf (n1' l, n2' l, n1 l) = Some g /\ transfToR true ch (Bch ch') f = Some g' /\ trip_eq g g'.
Proof.
  intros ch ch' f l Hch M L Ml Cl.
  destruct (conv_mf_from_legs ch l (or_introl Hch) Ml Cl) as (g & E & _ & Lg).
  destruct (conv_mf ch ch' f M) as (g' & E' & _ & Lg').
  exists g, g'. split; [exact E|]. split; [exact E'|]. eapply legs_mf_inj; [exact Lg|]. apply Lg', L.
Qed.
Print Assumptions C23_agrees_with_channel_conversion_partial.
Example C23_hyp : mats_legs (mkLegs 1 5 1 5) /\ conserved (mkLegs 1 5 1 5) /\ mats (4, 3, 3)%Q /\
  legs_mf Ca (4, 3, 3)%Q (mkLegs 1 5 1 5) /\
  exists g, transfToR true Ca Bf (1, 5, 1)%Q = Some g /\ trip_eq g (4, -1, -1)%Q.
Proof.
  split; [repeat split; cbn; [exists 0|exists 2|exists 0|exists 2]; reflexivity|].
  split; [vm_compute; reflexivity|].
  split; [split; [exists 2|split; exists 1]; reflexivity|].
  split.
  - exists 2%Q, 2%Q. split; [|repeat split; vm_compute; reflexivity].
    split; [exists 1; reflexivity|]. split; [exists 1; reflexivity|]. repeat split; vm_compute; try reflexivity; discriminate.
  - eexists. split; [vm_compute; reflexivity|]. repeat split; vm_compute; reflexivity.
Qed.
