(** Bubbles of vertices that obey the symmetries of the Matsubara formalism. *)
From Coq Require Import QArith Lqa.
From Verif Require Import Prelude Cplx Keld_Model Keld_Spec Keld_Proofs Keld_Proofs2 Util_Spec Sym_Model Sym_Spec Sym_Proofs2 Tab_Model Tab_Spec
  Rd_Model Rd_Spec Rd_Props Dec_Model Bub_Model Bub_Spec Bub_Proofs Bub_Proofs2 Bub_Proofs3 Bub_Props Mbu_Model Mbu_Spec Mbu_Proofs Mbu_Proofs2 Mbu_Props
  Sf_Model Sf_Spec Sf_Proofs Sf_Proofs2 Msf_Model Msf_Spec Msf_Proofs.
From Verif Require Mlp_Model Bse_Model.
Open Scope Z_scope.
Import Mlp_Model (Full, Irreducible, DiffLeft, DiffRight).

Section Bubble.
  Variables (c : cfg) (J : (Q -> cplx) -> cplx) (pi : Q).
  Hypothesis Kc : keldysh c = false.
  Hypothesis Zc : zero_t c = true.
  Hypothesis HJ : integral J.

  Lemma mreads_obeys u v1 v2 : mobeys c u v1 v2 -> forall h : bool, reads_matsubara u (on_mlegs v1 v2) h (rdr (if h then v2 else v1)).
  Proof.
    intros [N P R B] h s Sp. split.
    - intros ch k f l L. rewrite get_rdr. unfold on_mlegs.
      assert (E : (s =? 0) || (s =? 1) = true) by (destruct Sp as [-> | ->]; reflexivity). rewrite E.
      apply N; try assumption. exact (natural_of_legs ch f l L).
    - cbn [rdr irred]. apply B; assumption.
  Qed.
  Lemma mbubble_of_data P ch k o1 o2 : mbubble_of c J pi P (chr ch) (kcr k) o1 o2 = mproduct c J pi P (chr ch) (left_data k o1 (chr ch)) (right_data k o2 (chr ch)).
  Proof. destruct k; reflexivity. Qed.
  Definition mbare_const (v : vert) : Prop := forall s f, spin01 s -> (irr v s 0 f == irr v s 0 (0, 0, 0)%Q)%C.
  Lemma mbubble_of_entry P ch k o1 o2 s f : spin01 s -> mbare_const (half1 o1) -> mbare_const (half1 o2) ->
    (mbubble_of c J pi P (chr ch) (kcr k) o1 o2 s 0 f ==
     bubble_entry c J pi k ch (m_diff P) (m_g P) (m_s P) (type_of o1) (type_of o2) (rdr (half1 o1)) (rdr (half1 o2)) s f)%C.
  Proof.
    intros Sp B1 B2. rewrite mbubble_of_data. destruct f as ((w, v), v'). unfold mproduct, bubble_entry. rewrite chan_chr.
    apply Cmul_m; [reflexivity|]. apply (int_ext _ HJ). intros x. unfold integrand.
    apply sum_ext; [exact Sp| | |reflexivity]; intros t Ht; change 0 with (kcode k1111).
    - apply left_data_eq. apply (B1 t _ Ht).
    - apply right_data_eq. apply (B2 t _ Ht).
  Qed.

  Notation all_channels := (Mlp_Model.all_channels data mpair (mbubble_of c J pi) 3 true).
  Lemma mclass_all t o1 o2 P ch k : class_of (channel_of (all_channels t o1 o2 P) ch) k = mbubble_of c J pi P (chr ch) (kcr k) o1 o2.
  Proof. destruct ch, k; reflexivity. Qed.
  Lemma mirr_all t o1 o2 P : irr (all_channels t o1 o2 P) = irr t. Proof. reflexivity. Qed.
  Definition moperand_is (u : Q) (o : operand) : Prop := mobeys c u (half1 o) (half2 o).
  Lemma moperand_ok_of o : operand_ok (type_of o) (on_mlegs (half1 o) (half2 o)).
  Proof. destruct o; intros H; try discriminate H; intros ch k s kl l; unfold on_mlegs; cbn [half1 half2]; reflexivity. Qed.
  Lemma mobeys_const u v1 v2 : mobeys c u v1 v2 -> mbare_const v1 /\ mbare_const v2.
  Proof.
    intros [N P R B]. split; intros s f Sp.
    - rewrite (B false s f Sp). symmetry. apply (B false s _ Sp).
    - rewrite (B true s f Sp). symmetry. apply (B true s _ Sp).
  Qed.
  Lemma mentry_types k ch P st1 st2 st1' st2' V1 V2 s f : is_r_irred st1 = is_r_irred st1' -> is_diff st1 = is_diff st1' ->
    is_r_irred st2 = is_r_irred st2' -> is_diff st2 = is_diff st2' ->
    bubble_entry c J pi k ch (m_diff P) (m_g P) (m_s P) st1 st2 V1 V2 s f = bubble_entry c J pi k ch (m_diff P) (m_g P) (m_s P) st1' st2' V1 V2 s f.
  Proof.
    intros A B C D. unfold bubble_entry, integrand, left_part, right_part, g_left_diff, g_left_same, g_right_diff, g_right_same.
    rewrite A, B, C, D. reflexivity.
  Qed.
  Lemma legs_m ch f f' : trip_eq f f' -> legs_eq (legs_of ch f) (legs_of ch f').
  Proof.
    destruct f as ((w, v), v'), f' as ((w', y), y'). intros (A & B & C). cbn [fst snd] in A, B, C.
    destruct ch; repeat (apply Logic.conj); cbn [legs_of n1' n2' n1 n2]; rewrite ?A, ?B, ?C; reflexivity.
  Qed.
  Lemma legs_conserved ch f : conserved (legs_of ch f).
  Proof. destruct f as ((w, v), v'). destruct ch; unfold conserved; cbn [legs_of n1' n2' n1 n2]; field. Qed.
  Lemma mentry_values u1 u2 G1 G2 V1 V2 st1 st2 P k ch s h h' f f' : spin01 s -> mpair_ok c P ->
    physical c false G1 -> physical c false G2 -> reads_matsubara u1 G1 h V1 -> reads_matsubara u2 G2 h' V2 -> trip_eq f f' ->
    (bubble_entry c J pi k ch (m_diff P) (m_g P) (m_s P) st1 st2 V1 V2 s f == bubble_entry c J pi k ch (m_diff P) (m_g P) (m_s P) st1 st2 V1 V2 s f')%C.
  Proof.
    intros Sp (Hg & Hs) P1 P2 R1 R2 E. pose proof (Mc c Kc Zc) as M.
    unfold bubble_entry. apply Cmul_m; [reflexivity|]. apply (int_ext _ HJ). intros x. unfold integrand.
    destruct f as ((w, v), v'), f' as ((w', y), y'). destruct E as (E1 & E2 & E3). cbn [fst snd] in E1, E2, E3.
    apply sum_ext; [exact Sp| | |].
    - intros t Ht. rewrite (mleft_reads c u1 Kc G1 h V1 t R1 Ht k st1 ch (w, v, x) (legs_of ch (w, v, x))) by apply legs_eq_refl.
      rewrite (mleft_reads c u1 Kc G1 h V1 t R1 Ht k st1 ch (w', y, x) (legs_of ch (w', y, x))) by apply legs_eq_refl.
      apply mpart_m; auto using legs_conserved. apply legs_m. repeat (apply Logic.conj); cbn [fst snd]; auto; reflexivity.
    - intros t Ht. rewrite (mright_reads c u2 Kc G2 h' V2 t R2 Ht k st2 ch (w, x, v') (legs_of ch (w, x, v'))) by apply legs_eq_refl.
      rewrite (mright_reads c u2 Kc G2 h' V2 t R2 Ht k st2 ch (w', x, y') (legs_of ch (w', x, y'))) by apply legs_eq_refl.
      apply mpart_m; auto using legs_conserved. apply legs_m. repeat (apply Logic.conj); cbn [fst snd]; auto; reflexivity.
    - apply pair_w; auto; destruct ch; unfold convert_1, convert_2; rewrite E1; reflexivity.
  Qed.
  Lemma mbubbles_obey t t' u1 u2 o1 o2 P : mpair_ok c P -> moperand_is u1 o1 -> moperand_is u2 o2 ->
    (forall s f, spin01 s -> (irr t s 0 f == C0)%C) -> (forall s f, spin01 s -> (irr t' s 0 f == C0)%C) ->
    mobeys c 0 (all_channels t o1 o2 P) (all_channels t' (flip o2) (flip o1) P).
  Proof.
    intros HP O1 O2 T T'. pose proof HP as (Hg & Hs).
    destruct (mobeys_const _ _ _ O1) as (C1 & C1'). destruct (mobeys_const _ _ _ O2) as (C2 & C2').
    pose proof (mreads_obeys _ _ _ O1) as R1. pose proof (mreads_obeys _ _ _ O2) as R2.
    set (V1 := fun h : bool => rdr (if h then half2 o1 else half1 o1)) in *. set (V2 := fun h : bool => rdr (if h then half2 o2 else half1 o2)) in *.
    change (forall h, reads_matsubara u1 (on_mlegs (half1 o1) (half2 o1)) h (V1 h)) in R1.
    change (forall h, reads_matsubara u2 (on_mlegs (half1 o2) (half2 o2)) h (V2 h)) in R2.
    set (mentry := fun (h : bool) k ch s f => if h then bubble_entry c J pi k ch (m_diff P) (m_g P) (m_s P) (type_of o2) (type_of o1) (V2 true) (V1 true) s f
      else bubble_entry c J pi k ch (m_diff P) (m_g P) (m_s P) (type_of o1) (type_of o2) (V1 false) (V2 false) s f).
    assert (E : forall (h : bool) ch k s f, spin01 s ->
      (class_of (channel_of (if h then all_channels t' (flip o2) (flip o1) P else all_channels t o1 o2 P) ch) k s 0 f == mentry h k ch s f)%C).
    { intros h ch k s f Sp. unfold mentry, V1, V2. destruct h; rewrite mclass_all, mbubble_of_entry; try assumption; rewrite ?half1_flip; try assumption.
      - rewrite (mentry_types k ch P (type_of (flip o2)) (type_of (flip o1)) (type_of o2) (type_of o1)) by (destruct o1, o2; reflexivity). reflexivity.
      - reflexivity. }
    assert (S : msame_family (matsubara_family c J pi (m_diff P) (m_g P) (m_s P) (type_of o1) (type_of o2) V1 V2)
                 (on_mlegs (all_channels t o1 o2 P) (all_channels t' (flip o2) (flip o1) P))).
    { intros h ch k s kl l. unfold on_mlegs, matsubara_family. destruct ((s =? 0) || (s =? 1)) eqn:Es; [|reflexivity].
      rewrite E by (apply spin_test, Es). unfold mentry. destruct h; reflexivity. }
    pose proof (mobeys_physical _ _ _ _ O1) as P1. pose proof (mobeys_physical _ _ _ _ O2) as P2.
    pose proof (moperand_ok_of o1) as K1. pose proof (moperand_ok_of o2) as K2.
    split.
    - intros h ch k s f f' Sp F. rewrite !E by assumption. unfold mentry. destruct h.
      + apply (mentry_values u2 u1 _ _ (V2 true) (V1 true) (type_of o2) (type_of o1) P k ch s true true f f' Sp HP P2 P1 (R2 true) (R1 true) F).
      + apply (mentry_values u1 u2 _ _ (V1 false) (V2 false) (type_of o1) (type_of o2) P k ch s false false f f' Sp HP P1 P2 (R1 false) (R2 false) F).
    - apply (mphysical_ext c Kc _ _ S).
      apply (C121_matsubara_symmetric c u1 u2 J pi (m_diff P) (m_g P) (m_s P) (type_of o1) (type_of o2) _ _ V1 V2 Kc Zc HJ Hg Hs P1 P2 K1 K2 R1 R2).
    - apply (mreversible_ext c Kc _ _ S).
      apply (C121_matsubara_reversible c u1 u2 J pi (m_diff P) (m_g P) (m_s P) (type_of o1) (type_of o2) _ _ V1 V2 Kc Zc HJ Hg Hs P1 P2 K1 K2 R1 R2
        (mobeys_reversible _ _ _ _ O1) (mobeys_reversible _ _ _ _ O2)).
    - intros h s f Sp. transitivity C0; [destruct h; rewrite mirr_all; auto|].
      destruct (s =? 0); split; unfold Cofq, C0; cbn [re im]; ring.
  Qed.
End Bubble.
