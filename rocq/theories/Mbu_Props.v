(** C121, Matsubara formalism at zero temperature: a bubble of symmetric vertices is a symmetric vertex. *)
From Coq Require Import QArith Lqa.
From Verif Require Import Prelude Cplx Keld_Model Keld_Spec Keld_Proofs Keld_Proofs2 Util_Spec Sym_Model Sym_Spec Tab_Model Tab_Spec
  Rd_Model Rd_Spec Rd_Props Rd_Props2 Dec_Model Bub_Model Bub_Spec Bub_Proofs Bub_Proofs2 Bub_Proofs3 Bub_Props Mbu_Model Mbu_Spec Mbu_Proofs Mbu_Proofs2.
Open Scope Z_scope.

(** every bubble of two vertices that obey crossing and complex conjugation (and are real with particle-hole symmetry) obeys them too *)
Theorem C121_matsubara_symmetric : forall c uL uR J pi diff g s stL stR GL GR VL VR,
  keldysh c = false -> zero_t c = true -> integral J -> line_ok c g -> line_ok c s ->
  physical c false GL -> physical c false GR -> operand_ok stL GL -> operand_ok stR GR ->
  (forall h, reads_matsubara uL GL h (VL h)) -> (forall h, reads_matsubara uR GR h (VR h)) ->
  physical c false (matsubara_family c J pi diff g s stL stR VL VR).
Proof.
  intros c uL uR J pi diff g s stL stR GL GR VL VR Kc Zc HJ Hg HS PL PR OL OR RL RR. split.
  - intros. eapply (mbubble_of_class_freqs c uL uR J pi diff g s stL stR GL GR VL VR); eassumption.
  - intros h ch ch' fl k sp kl l H Hk Co Sp.
    rewrite (mbubble_exchange_in c uL uR J pi diff g s stL stR GL GR VL VR) with (ch' := ch') (fl := fl) (kl' := swap_in_k kl) by assumption.
    destruct k; symmetry; apply cscale_neg1.
  - intros h ch ch' fl k sp kl l H Hk Co Sp.
    rewrite (mbubble_exchange_out c uL uR J pi diff g s stL stR GL GR VL VR) with (ch' := ch') (fl := fl) (kl' := swap_out_k kl) by assumption.
    destruct k; symmetry; apply cscale_neg1.
  - congruence.
  - intros _ h ch ch' fl k sp kl l H Co Sp.
    apply (mbubble_conjugation c uL uR J pi diff g s stL stR GL GR VL VR); assumption.
  - intros _ Ph h ch k sp kl l. apply (mbubble_real c uL uR J pi diff g s stL stR GL GR VL VR); assumption.
Qed.
Print Assumptions C121_matsubara_symmetric.
(** reversal of all frequencies gives the conjugate *)
Theorem C121_matsubara_reversible : forall c uL uR J pi diff g s stL stR GL GR VL VR,
  keldysh c = false -> zero_t c = true -> integral J -> line_ok c g -> line_ok c s ->
  physical c false GL -> physical c false GR -> operand_ok stL GL -> operand_ok stR GR ->
  (forall h, reads_matsubara uL GL h (VL h)) -> (forall h, reads_matsubara uR GR h (VR h)) ->
  reversible c GL -> reversible c GR ->
  reversible c (matsubara_family c J pi diff g s stL stR VL VR).
Proof.
  intros c uL uR J pi diff g s stL stR GL GR VL VR Kc Zc HJ Hg HS PL PR OL OR RL RR R1 R2. split; [congruence|].
  intros _ h ch k sp kl l Co. destruct ((sp =? 0) || (sp =? 1)) eqn:Es.
  - apply (mbubble_reversal c uL uR J pi diff g s stL stR GL GR VL VR); try assumption.
    apply Bool.orb_true_iff in Es. destruct Es as [Es | Es]; apply Z.eqb_eq in Es; [left|right]; exact Es.
  - unfold matsubara_family. rewrite Es. symmetry. apply conj_0.
Qed.
Print Assumptions C121_matsubara_reversible.
(** the bubble of a vertex with itself is its own mirror image *)
Theorem C121_matsubara_mirror : forall c u J pi diff g s st G V,
  keldysh c = false -> zero_t c = true -> integral J -> self_mirror G -> (forall h, reads_matsubara u G h (V h)) ->
  self_mirror (matsubara_family c J pi diff g s st st V V).
Proof.
  intros c u J pi diff g s st G V Kc Zc HJ M R ch k sp kl l.
  destruct ((sp =? 0) || (sp =? 1)) eqn:Es.
  2: { unfold matsubara_family. rewrite Es. reflexivity. }
  assert (Sp : spin01 sp) by (apply Bool.orb_true_iff in Es; destruct Es as [Es | Es]; apply Z.eqb_eq in Es; [left|right]; exact Es).
  rewrite !(mfamily_core c u u J pi diff g s st st G G V V Kc HJ R R) by exact Sp.
  apply Cmul_m; [reflexivity|]. apply (int_ext _ HJ). intros x. unfold mcore. apply sum_ext; [exact Sp| | |reflexivity].
  - intros t Ht. unfold mA. destruct (natural ch l) as ((w0, v), v'). unfold mSPL, spec_part, others, total.
    unfold self_mirror in M. destruct (left_dressed k), (is_r_irred st), (is_diff st), ch; rewrite ?M; reflexivity.
  - intros t Ht. unfold mB. destruct (natural ch l) as ((w0, v), v'). unfold mSPR, spec_part, others, total.
    unfold self_mirror in M. destruct (right_dressed k), (is_r_irred st), (is_diff st), ch; rewrite ?M; reflexivity.
Qed.
Print Assumptions C121_matsubara_mirror.

(** an example without particle-hole symmetry *)
Definition matsubara_c : cfg := mkCfg false true false false 51.
(** 1/(i v - 1) *)
Definition gm : Q -> cplx := fun v => Cplx (- (1 / (v * v + 1))) (- (v / (v * v + 1))).
Lemma gm_ok : line_ok matsubara_c gm.
Proof.
  split.
  - intros x y E. unfold gm; split; cbn [re im]; rewrite E; reflexivity.
  - intros v. cbn [phs matsubara_c]. pose proof (q1 v) as N. assert (N' : ~ ((- v) * (- v) + 1 == 0)%Q) by apply q1.
    split; unfold gm, Cconj; cbn [re im]; field; repeat (apply Logic.conj); assumption.
Qed.
(** with particle-hole symmetry: the imaginary part, a real odd function *)
Definition gphs : Q -> cplx := fun v => Cplx (- (v / (v * v + 1))) 0.
Definition matsubara_phs : cfg := mkCfg false true true false 51.
Lemma gphs_ok : line_ok matsubara_phs gphs.
Proof.
  split.
  - intros x y E. unfold gphs; split; cbn [re im]; [rewrite E|]; reflexivity.
  - intros v. cbn [phs matsubara_phs]. pose proof (q1 v) as N. assert (N' : ~ ((- v) * (- v) + 1 == 0)%Q) by apply q1.
    split; [reflexivity|]. split; unfold gphs, Cneg; cbn [re im]; [field; repeat (apply Logic.conj); assumption|reflexivity].
Qed.
Definition mreader (u : Q) (G : family) (h : bool) : reader := fun s _ =>
  mkF (Cofq (if s =? 0 then u else - u)%Q)
    (fun k f => G h Ca k s k1111 (legs_of Ca f)) (fun k f => G h Cp k s k1111 (legs_of Cp f)) (fun k f => G h Ct k s k1111 (legs_of Ct f)).
Lemma mreader_reads c u G h : mf c = false -> physical c false G -> reads_matsubara u G h (mreader u G h).
Proof.
  intros M P s Sp. split; [|reflexivity]. intros ch k f l L.
  assert (X : (G h ch k s k1111 (legs_of ch f) == G h ch k s k1111 l)%C).
  { apply (of_class_freqs _ _ _ P h ch k s k1111 f f); unfold legs_are; rewrite ?M; auto using k1111_ok.
    - apply legs_eq_refl.
    - destruct f as ((x, y), z). destruct k; repeat (apply Logic.conj); try exact I; reflexivity. }
  destruct ch; cbn [get_r mreader av pv tv]; exact X.
Qed.
Lemma mboth_physical c G : keldysh c = false -> physical c false G -> physical c false (both_halves G) /\ self_mirror (both_halves G).
Proof.
  intros K [P1 P2 P3 _ P5 P6]. split; [split; try congruence|intros ch k s kl l; reflexivity]; unfold both_halves.
  - intros h ch k s kl f f' l l' Hk Sp L L' E. rewrite (P1 false _ _ _ _ _ _ _ _ Hk Sp L L' E), (P1 true _ _ _ _ _ _ _ _ Hk Sp L L' E). reflexivity.
  - intros h ch ch' fl k s kl l H Hk Co Sp. rewrite (P2 false _ _ _ _ _ _ _ H Hk Co Sp), (P2 true _ _ _ _ _ _ _ H Hk Co Sp), cscale_add.
    destruct fl; cbn [xorb]; ring.
  - intros h ch ch' fl k s kl l H Hk Co Sp. rewrite (P3 false _ _ _ _ _ _ _ H Hk Co Sp), (P3 true _ _ _ _ _ _ _ H Hk Co Sp), cscale_add.
    destruct fl; cbn [xorb]; ring.
  - intros _ h ch ch' fl k s kl l H Co Sp. rewrite (P5 K false _ _ _ _ _ _ _ H Co Sp), (P5 K true _ _ _ _ _ _ _ H Co Sp), conj_add.
    destruct fl; cbn [xorb]; ring.
  - intros _ Ph h ch k s kl l. unfold Cadd. cbn [im]. rewrite (P6 K Ph false), (P6 K Ph true). reflexivity.
Qed.
Definition mL : family := demo matsubara_c false.
Definition mR : family := both_halves (demo matsubara_c false).
Definition mdemo : family :=
  matsubara_family matsubara_c J2 (22 # 7) true gm (fun v => gm v * gm v)%C non_symmetric_diffleft symmetric_full (mreader (-1 # 2) mL) (mreader (-1 # 2) mR).
Lemma gm2_ok : line_ok matsubara_c (fun v => gm v * gm v)%C.
Proof.
  destruct gm_ok as (E & H). split.
  - intros x y Exy. rewrite (E _ _ Exy). reflexivity.
  - intros v. specialize (H v). cbn [phs matsubara_c] in *. rewrite H, conj_mul. reflexivity.
Qed.
Example C121_matsubara_hyp : integral J2 /\ line_ok matsubara_c gm /\ line_ok matsubara_c (fun v => gm v * gm v)%C /\
  physical matsubara_c false mL /\ ~ self_mirror mL /\ physical matsubara_c false mR /\ self_mirror mR /\
  (forall h, reads_matsubara (-1 # 2) mL h (mreader (-1 # 2) mL h)) /\
  (forall h, reads_matsubara (-1 # 2) mR h (mreader (-1 # 2) mR h)) /\
  operand_ok non_symmetric_diffleft mL /\ operand_ok symmetric_full mR /\ line_ok matsubara_phs gphs /\
  physical matsubara_phs false (demo matsubara_phs false) /\
  (* class K2 of half 1 is the conjugate of class K2' of half 2 at reversed frequencies *)
  (show (mdemo false Cp k2 1 k1111 (legs_of Cp (4, 1, 2)%Q)),
   show (mdemo true Cp k2b 1 k1111 (minus_f (in_out_f (legs_of Cp (4, 1, 2)%Q))))) =
  (-11781 # 25, 2142 # 25, (-11781 # 25, -2142 # 25))%Q.
Proof.
  pose proof (demo_physical matsubara_c false eq_refl) as PL. destruct (mboth_physical matsubara_c _ eq_refl PL) as (PR & MR).
  split; [exact J2_integral|]. split; [exact gm_ok|]. split; [exact gm2_ok|]. split; [exact PL|].
  split. { intros M. specialize (M Ca k2 0 k1111 (legs_of Ca (4, 1, 2)%Q)). destruct M as (M & _). vm_compute in M. discriminate M. }
  split; [exact PR|]. split; [exact MR|]. split; [intros h; apply (mreader_reads matsubara_c); [reflexivity|exact PL]|].
  split; [intros h; apply (mreader_reads matsubara_c); [reflexivity|exact PR]|]. split; [discriminate|]. split; [intros _; exact MR|].
  split; [exact gphs_ok|]. split; [exact (demo_physical matsubara_phs false eq_refl)|].
  vm_compute. reflexivity.
Qed.
(** a vertex that is reversible too *)
Example C121_matsubara_reversible_hyp : physical matsubara_c false (demo0 matsubara_c) /\ reversible matsubara_c (demo0 matsubara_c) /\
  operand_ok non_symmetric_diffleft (demo0 matsubara_c) /\
  (forall h, reads_matsubara (-1 # 2) (demo0 matsubara_c) h (mreader (-1 # 2) (demo0 matsubara_c) h)) /\
  ~ (demo0 matsubara_c false Ca k2 0 k1111 (legs_of Ca (4, 1, 2)%Q) == C0)%C.
Proof.
  destruct (demo0_physical matsubara_c eq_refl) as (P & R & _). split; [exact P|]. split; [exact R|]. split; [discriminate|].
  split; [intros h; apply (mreader_reads matsubara_c); [reflexivity|exact P]|]. intros (E & _). vm_compute in E. discriminate E.
Qed.
