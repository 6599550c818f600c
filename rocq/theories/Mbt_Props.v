(** C121, Matsubara formalism at finite temperature: a bubble of symmetric vertices is a symmetric vertex. *)
From Coq Require Import QArith Qround Lqa.
From Verif Require Import Prelude Cplx Keld_Model Keld_Spec Keld_Proofs Keld_Proofs2 Util_Model Util_Spec Util_Proofs Sym_Model Sym_Spec Sym_Proofs Sym_Proofs2
  Tab_Model Tab_Spec Rd_Model Rd_Spec Rd_Props Rd_Props2 Dec_Model Bub_Model Bub_Spec Bub_Proofs Bub_Proofs2 Bub_Proofs3 Bub_Props
  Mbu_Spec Mbu_Proofs Mbu_Props Mbt_Model Mbt_Spec Mbt_Proofs Mbt_Proofs2 Mbt_Proofs3.
Open Scope Z_scope.

(** the frequency sum of the code, with its limits, is symmetric for every transfer frequency *)
Theorem C121_frequency_sum : forall pos, sum_T (frequency_sum pos).
Proof. exact frequency_sum_T. Qed.
Print Assumptions C121_frequency_sum.
(** every bubble of two vertices that obey crossing and complex conjugation at the Matsubara frequencies (and are real with
    particle-hole symmetry) obeys them too *)
Theorem C121_finite_temperature_symmetric : forall c uL uR pos tails pi T diff g s stL stR GL GR VL VR,
  sum_T tails -> line_T (phs c) g -> line_T (phs c) s ->
  symmetric_T (phs c) GL -> symmetric_T (phs c) GR -> operand_T stL GL -> operand_T stR GR ->
  (forall h, reads_T uL GL h (VL h)) -> (forall h, reads_T uR GR h (VR h)) ->
  symmetric_T (phs c) (bubbles_T c pos tails pi T diff g s stL stR VL VR).
Proof.
  intros c uL uR pos tails pi T diff g s stL stR GL GR VL VR Ht Hg HS PL PR OL OR RL RR. split.
  - intros. eapply (tbubble_class c uL uR pos tails pi T diff g s stL stR GL GR VL VR); eassumption.
  - intros. apply (tbubble_in c uL uR pos tails pi T diff g s stL stR GL GR VL VR); assumption.
  - intros. apply (tbubble_out c uL uR pos tails pi T diff g s stL stR GL GR VL VR); assumption.
  - intros. apply (tbubble_conj c uL uR pos tails pi T diff g s stL stR GL GR VL VR); assumption.
  - intros. apply (tbubble_real c uL uR pos tails pi T diff g s stL stR GL GR VL VR); assumption.
Qed.
Print Assumptions C121_finite_temperature_symmetric.
(** reversal of all frequencies gives the conjugate *)
Theorem C121_finite_temperature_reversible : forall c uL uR pos tails pi T diff g s stL stR GL GR VL VR,
  sum_T tails -> line_T (phs c) g -> line_T (phs c) s ->
  symmetric_T (phs c) GL -> symmetric_T (phs c) GR -> operand_T stL GL -> operand_T stR GR ->
  (forall h, reads_T uL GL h (VL h)) -> (forall h, reads_T uR GR h (VR h)) -> reversible_T GL -> reversible_T GR ->
  reversible_T (bubbles_T c pos tails pi T diff g s stL stR VL VR).
Proof.
  intros c uL uR pos tails pi T diff g s stL stR GL GR VL VR Ht Hg HS PL PR OL OR RL RR R1 R2 h ch k sp l Sp M.
  apply (tbubble_reversal c uL uR pos tails pi T diff g s stL stR GL GR VL VR); assumption.
Qed.
Print Assumptions C121_finite_temperature_reversible.
(** the bubble of a vertex with itself is its own mirror image *)
Theorem C121_finite_temperature_mirror : forall c u pos tails pi T diff g s st G V,
  sum_T tails -> line_T (phs c) g -> line_T (phs c) s -> self_mirror_T G -> (forall h, reads_T u G h (V h)) ->
  self_mirror_T (bubbles_T c pos tails pi T diff g s st st V V).
Proof.
  intros c u pos tails pi T diff g s st G V Ht Hg HS Mi R ch k sp l Sp Ml.
  rewrite !(tfamily_core c u u pos tails pi T diff g s st st G G V V Ht Hg HS R R) by assumption.
  apply Cmul_m; [reflexivity|]. unfold JJ. pose proof (natural_mats ch l Ml) as M.
  apply (T_ext _ (HJ pos tails Ht)). intros x Fx. destruct (natural_T ch l) as ((w, v), v').
  unfold tcore. apply sum_ext; [exact Sp| | |reflexivity]; intros t Hs.
  - unfold tA, tSPL, partT, othersT, totalT.
    pose proof (legs_T_mats ch _ (m1 _ _ _ x M Fx)) as L. assert (X : forall ch' k', (G true ch' k' t (legs_T ch (w, v, x)) == G false ch' k' t (legs_T ch (w, v, x)))%C) by (intros; apply Mi; assumption).
    destruct (left_dressed k), (is_r_irred st), (is_diff st), ch; rewrite ?X; reflexivity.
  - unfold tB, tSPR, partT, othersT, totalT.
    pose proof (legs_T_mats ch _ (m2 _ _ _ x M Fx)) as L. assert (X : forall ch' k', (G true ch' k' t (legs_T ch (w, x, v')) == G false ch' k' t (legs_T ch (w, x, v')))%C) by (intros; apply Mi; assumption).
    destruct (right_dressed k), (is_r_irred st), (is_diff st), ch; rewrite ?X; reflexivity.
Qed.
Print Assumptions C121_finite_temperature_mirror.

(** vertices of the zero-temperature formalism, read at the Matsubara frequencies, as examples *)
Definition at_T (G : family) : vertex_T := fun h ch k s l => G h ch k s k1111 l.
Lemma mf_centred ch w v v' l : legs_mf ch (w, v, v') l ->
  legs_are false ch (w, v + (hi w - lo w) * (1 # 2), v' + (hi w - lo w) * (1 # 2))%Q l.
Proof.
  intros (a & b & S & E1 & E2 & E3 & E4).
  assert (Bw : bosonic w). { destruct S as (A & B & E & _). destruct (bb_add _ _ A B) as (n & F). exists n. rewrite <- E. exact F. }
  destruct (half_split_unique w a b (lo w) (hi w) S (lo_hi w Bw)) as (Ea & Eb).
  destruct S as (_ & _ & Es & _). assert (H2 : (w / 2 == w * (1 # 2))%Q) by reflexivity.
  unfold legs_are. repeat (apply Logic.conj); destruct ch; cbn [legs_of legs_split n1' n2' n1 n2] in *; rewrite ?E1, ?E2, ?E3, ?E4, ?H2; lra.
Qed.
Lemma at_T_symmetric c G : keldysh c = false -> mf c = false -> physical c false G -> symmetric_T (phs c) (at_T G).
Proof.
  intros K M [P1 P2 P3 _ P5 P6]. unfold at_T. split.
  - intros h ch k s f f' l l' Sp _ _ L L' E. destruct f as ((w, v), v'), f' as ((w', y), y').
    rewrite M in P1. apply (P1 h ch k s k1111 _ _ l l' k1111_ok Sp (mf_centred _ _ _ _ _ L) (mf_centred _ _ _ _ _ L')).
    destruct E as (E1 & E2). pose proof (lo_m _ _ E1). pose proof (hi_m _ _ E1). split; [exact E1|].
    destruct k; try exact I; try (split; destruct E2); lra.
  - intros h ch ch' fl k s l H (Co & _) Sp. rewrite (P2 h ch ch' fl k s k1111 l H k1111_ok Co Sp). destruct k; apply cscale_neg1.
  - intros h ch ch' fl k s l H (Co & _) Sp. rewrite (P3 h ch ch' fl k s k1111 l H k1111_ok Co Sp). destruct k; apply cscale_neg1.
  - intros h ch ch' fl k s l H (Co & _) Sp. exact (P5 K h ch ch' fl k s k1111 l H Co Sp).
  - intros Ph h ch k s l _ _. exact (P6 K Ph h ch k s k1111 l).
Qed.
Definition reader_T (u : Q) (G : vertex_T) (h : bool) : reader := fun s _ =>
  mkF (Cofq (if s =? 0 then u else - u)%Q)
    (fun k f => G h Ca k s (legs_T Ca f)) (fun k f => G h Cp k s (legs_T Cp f)) (fun k f => G h Ct k s (legs_T Ct f)).
Lemma reader_T_reads ph u G h : symmetric_T ph G -> reads_T u G h (reader_T u G h).
Proof.
  intros P s Sp. split; [|reflexivity]. intros ch k f l M L. pose proof (mf_mats _ _ _ M L) as Mf.
  assert (X : (G h ch k s (legs_T ch f) == G h ch k s l)%C).
  { apply (T_class_freqs _ _ P h ch k s f f); auto using legs_T_mats, legs_T_mf.
    destruct f as ((x, y), z). destruct k; repeat (apply Logic.conj); try exact I; reflexivity. }
  destruct ch; cbn [get_r reader_T av pv tv]; exact X.
Qed.
Lemma line_T_of c g : line_ok c g -> line_T (phs c) g.
Proof. intros (A & B). split; [intros; apply A; assumption|intros v _; apply B]. Qed.
Definition tL : vertex_T := at_T mL.
Definition tR : vertex_T := at_T mR.
Definition finite_c : cfg := mkCfg false false false false 51.
(** POSINTRANGE 1, no tails *)
Definition tdemo : vertex_T :=
  bubbles_T finite_c 1 (fun _ _ => C0) (22 # 7) (1 # 2) true gm (fun v => gm v * gm v)%C non_symmetric_diffleft symmetric_full
    (reader_T (-1 # 2) tL) (reader_T (-1 # 2) tR).
Lemma no_tails : sum_T (fun _ _ => C0).
Proof. split; intros; reflexivity. Qed.
(** w = 2 is split into 0 and 2 *)
Definition l2 : legs := legs_split Cp 0 2 1 3.
Example C121_finite_temperature_hyp : sum_T (fun _ _ => C0) /\ sum_T (frequency_sum 3) /\ line_T false gm /\ line_T false (fun v => gm v * gm v)%C /\
  symmetric_T false tL /\ ~ self_mirror_T tL /\ symmetric_T false tR /\ self_mirror_T tR /\
  (forall h, reads_T (-1 # 2) tL h (reader_T (-1 # 2) tL h)) /\ (forall h, reads_T (-1 # 2) tR h (reader_T (-1 # 2) tR h)) /\
  operand_T non_symmetric_diffleft tL /\ operand_T symmetric_full tR /\ line_T true gphs /\ symmetric_T true (at_T (demo matsubara_phs false)) /\
  matsubara_legs l2 /\ legs_mf Cp (2, 1, 3)%Q l2 /\
  (* class K2 of half 1 is the conjugate of class K2' of half 2 at reversed frequencies *)
  (show (tdemo false Cp k2 1 l2), show (tdemo true Cp k2b 1 (minus_f (in_out_f l2)))) =
  (3344 # 25, 5392 # 25, (3344 # 25, -5392 # 25))%Q.
Proof.
  pose proof (demo_physical matsubara_c false eq_refl) as PL. destruct (mboth_physical matsubara_c _ eq_refl PL) as (PR & MR).
  pose proof (at_T_symmetric matsubara_c _ eq_refl eq_refl PL) as TL. pose proof (at_T_symmetric matsubara_c _ eq_refl eq_refl PR) as TR.
  assert (TM : self_mirror_T tR) by (intros ch k s l _ _; apply MR).
  assert (L2 : matsubara_legs l2).
  { split; [reflexivity|]. repeat split; [exists 1|exists (-1)|exists 2|exists (-2)]; reflexivity. }
  split; [exact no_tails|]. split; [exact (frequency_sum_T 3)|]. split; [exact (line_T_of _ _ gm_ok)|]. split; [exact (line_T_of _ _ gm2_ok)|]. split; [exact TL|].
  split. { intros M. specialize (M Cp k2 0 l2 (or_introl eq_refl) L2). destruct M as (M & _). vm_compute in M. discriminate M. }
  split; [exact TR|]. split; [exact TM|]. split; [intros h; exact (reader_T_reads _ _ _ h TL)|]. split; [intros h; exact (reader_T_reads _ _ _ h TR)|].
  split; [discriminate|]. split; [intros _; exact TM|]. split; [exact (line_T_of _ _ gphs_ok)|].
  split; [exact (at_T_symmetric matsubara_phs _ eq_refl eq_refl (demo_physical matsubara_phs false eq_refl))|].
  split; [exact L2|]. split.
  { exists 0%Q, 2%Q. split; [|apply legs_eq_refl]. split; [exists 0; reflexivity|]. split; [exists 1; reflexivity|]. repeat split; vm_compute; congruence. }
  vm_compute. reflexivity.
Qed.
(** a vertex that is reversible too *)
Example C121_finite_temperature_reversible_hyp : symmetric_T false (at_T (demo0 matsubara_c)) /\ reversible_T (at_T (demo0 matsubara_c)) /\
  operand_T non_symmetric_diffleft (at_T (demo0 matsubara_c)) /\
  (forall h, reads_T (-1 # 2) (at_T (demo0 matsubara_c)) h (reader_T (-1 # 2) (at_T (demo0 matsubara_c)) h)) /\
  ~ (at_T (demo0 matsubara_c) false Cp k2 0 l2 == C0)%C.
Proof.
  destruct (demo0_physical matsubara_c eq_refl) as (P & R & _). pose proof (at_T_symmetric matsubara_c _ eq_refl eq_refl P) as TP.
  split; [exact TP|]. split; [intros h ch k s l _ (Co & _); exact (reversal_matsubara _ _ R eq_refl h ch k s k1111 l Co)|]. split; [discriminate|].
  split; [intros h; exact (reader_T_reads _ _ _ h TP)|]. intros (E & _). vm_compute in E. discriminate E.
Qed.
