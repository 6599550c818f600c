(** Bubbles of vertices that obey the symmetries of the Matsubara formalism at finite temperature. *)
From Coq Require Import QArith Lqa.
From Verif Require Import Prelude Cplx Keld_Model Keld_Spec Keld_Proofs Keld_Proofs2 Util_Spec Sym_Model Sym_Spec Sym_Proofs Sym_Proofs2 Tab_Model Tab_Spec
  Rd_Model Rd_Spec Rd_Props Dec_Model Bub_Model Bub_Spec Bub_Proofs Bub_Proofs2 Bub_Proofs3 Bub_Props Mbu_Proofs
  Mbt_Model Mbt_Spec Mbt_Proofs Mbt_Proofs2 Mbt_Proofs3 Mbt_Props Sf_Model Sf_Spec Sf_Proofs Sf_Proofs2 Msf_Model Mtf_Model Mtf_Spec Mtf_Proofs.
From Verif Require Mbu_Model Mlp_Model Bse_Model.
Open Scope Z_scope.
Import Mlp_Model (Full, Irreducible, DiffLeft, DiffRight).

Section Bubble.
  Variables (c : cfg) (pos : Z) (tails : Q -> (Q -> cplx) -> cplx) (pi T : Q).
  Hypothesis Ht : sum_T tails.
  Notation ph := (phs c).

  Lemma treads_obeys u v1 v2 : tobeys ph u v1 v2 -> forall h : bool, reads_T u (on_tlegs v1 v2) h (rdr (if h then v2 else v1)).
  Proof.
    intros [N P R B] h s Sp. split.
    - intros ch k f l M L. rewrite get_rdr. unfold on_tlegs.
      pose proof (legs_mf_inj ch f (natural_T ch l) l L (natural_mf ch l M)) as E. pose proof (mf_mats ch f l M L) as Mf.
      destruct f as ((w, v), v'), (natural_T ch l) as ((w', y), y'). destruct Mf as (A & A' & A''), E as (E & E' & E''). cbn [fst snd] in *.
      apply N; assumption.
    - cbn [rdr irred]. apply B; assumption.
  Qed.
  (** the parts of Bse_Model are those of Dec_Model *)
  Lemma tcross_total v ch ch' s iK f : mats f -> exists g, transfToR true ch (Bch ch') f = Some g /\
    tcross (chr ch) (chr ch') (Bse_Model.value data dzero dadd no_mirror true v v (chr ch)) s iK f =
      (class_of (channel_of v ch) k1 s iK g + class_of (channel_of v ch) k2 s iK g + class_of (channel_of v ch) k2b s iK g + class_of (channel_of v ch) k3 s iK g)%C.
  Proof.
    intros M. destruct (conv_mf ch ch' f M) as (g & E & _). exists g. split; [exact E|].
    unfold tcross. rewrite !chan_chr, E. destruct ch; reflexivity.
  Qed.
  Lemma tgammaRb_rdr v ch s iK f : mats f -> exists z, gammaRb true false 3 ch (rdr v s iK) f = Some z /\
    (Bse_Model.gammaRb data dzero dadd tcross no_mirror true v v (chr ch) s iK f == z)%C.
  Proof.
    intros M. destruct (tcross_total v Ca ch s iK f M) as (ga & Ta & Ea). destruct (tcross_total v Cp ch s iK f M) as (gp & Tp & Ep).
    destruct (tcross_total v Ct ch s iK f M) as (gt & Tt & Et).
    unfold gammaRb, r_value. destruct ch; rewrite ?Ta, ?Tp, ?Tt; cbn [obind oadd]; change (2 <=? 3) with true; change (3 <=? 3) with true; cbv iota;
    cbn [obind]; (eexists; split; [reflexivity|]); unfold Bse_Model.gammaRb; cbn [chr] in *; unfold dadd at 1; rewrite ?Ea, ?Ep, ?Et; reflexivity.
  Qed.
  Definition tleft_data (k : kcl) (o : operand) (r : Mlp_Model.channel) : data :=
    if left_dressed k then Bse_Model.left_diff data dzero dadd tcross no_mirror true o r else Bse_Model.left_same data dzero dadd no_mirror true o r.
  Definition tright_data (k : kcl) (o : operand) (r : Mlp_Model.channel) : data :=
    if right_dressed k then Bse_Model.right_diff data dzero dadd tcross no_mirror true o r else Bse_Model.right_same data dzero dadd o r.
  Lemma tleft_data_eq k o ch s f : mats f -> (irr (half1 o) s 0 f == irr (half1 o) s 0 (0, 0, 0)%Q)%C ->
    (tleft_data k o (chr ch) s 0 f == left_part k (type_of o) ch (rdr (half1 o)) s f)%C.
  Proof.
    intros M HI. destruct (tgammaRb_rdr (half1 o) ch s 0 f M) as (z & Ez & Hz).
    unfold tleft_data, left_part. destruct (left_dressed k).
    - unfold g_left_diff, f_left_diff, r_left_diff. rewrite Ez.
      destruct o; cbn [Sf_Proofs2.half1 type_of is_r_irred is_diff Bse_Model.left_diff] in *; change (2 <=? 3) with true;
      repeat match goal with |- context [3 =? ?n] => change (3 =? n) with false || change (3 =? n) with true end; cbn [oadd obind or0]; unfold dadd;
      rewrite ?Hz, ?get_rdr, ?get_chr; reflexivity.
    - unfold g_left_same, f_left_same, r_left_same. change (3 =? 1) with false. change (1 <? 3) with true.
      destruct o; cbn [Sf_Proofs2.half1 type_of is_r_irred Bse_Model.left_same oadd obind or0] in *; unfold dadd, Bse_Model.read_K2b; rewrite ?get_chr, ?get_rdr;
      cbn [rdr irred]; rewrite HI; reflexivity.
  Qed.
  Lemma tright_data_eq k o ch s f : mats f -> (irr (half1 o) s 0 f == irr (half1 o) s 0 (0, 0, 0)%Q)%C ->
    (tright_data k o (chr ch) s 0 f == right_part k (type_of o) ch (rdr (half1 o)) s f)%C.
  Proof.
    intros M HI. destruct (tgammaRb_rdr (half1 o) ch s 0 f M) as (z & Ez & Hz).
    unfold tright_data, right_part. destruct (right_dressed k).
    - unfold g_right_diff, f_right_diff, r_right_diff. rewrite Ez.
      destruct o; cbn [Sf_Proofs2.half1 type_of is_r_irred is_diff Bse_Model.right_diff] in *; change (2 <=? 3) with true;
      repeat match goal with |- context [3 =? ?n] => change (3 =? n) with false || change (3 =? n) with true end; cbn [oadd obind or0]; unfold dadd, Bse_Model.read_K2b;
      rewrite ?Hz, ?get_rdr, ?get_chr; reflexivity.
    - unfold g_right_same, f_right_same, r_right_same. change (3 =? 1) with false. change (1 <? 3) with true.
      destruct o; cbn [Sf_Proofs2.half1 type_of is_r_irred Bse_Model.right_same oadd obind or0] in *; unfold dadd; rewrite ?get_chr, ?get_rdr;
      cbn [rdr irred]; rewrite HI; reflexivity.
  Qed.
  Lemma tbubble_of_data P ch k o1 o2 : tbubble_of c pos tails pi T P (chr ch) (kcr k) o1 o2 =
    tproduct c pos tails pi T P (chr ch) (tleft_data k o1 (chr ch)) (tright_data k o2 (chr ch)).
  Proof. destruct k; reflexivity. Qed.
  Definition tbare_const (v : vert) : Prop := forall s f, spin01 s -> (irr v s 0 f == irr v s 0 (0, 0, 0)%Q)%C.
  Lemma tbubble_of_entry P ch k o1 o2 s f : spin01 s -> mats f -> tbare_const (half1 o1) -> tbare_const (half1 o2) ->
    (tbubble_of c pos tails pi T P (chr ch) (kcr k) o1 o2 s 0 f ==
     bubble_entry c pos tails pi T k ch (m_diff P) (m_g P) (m_s P) (type_of o1) (type_of o2) (rdr (half1 o1)) (rdr (half1 o2)) s f)%C.
  Proof.
    intros Sp M B1 B2. rewrite tbubble_of_data. destruct f as ((w, v), v'). unfold tproduct, bubble_entry. rewrite chan_chr. cbv zeta.
    match goal with |- (_ * frequency_sum pos w ?F + _ == _ * frequency_sum pos w ?F' + _)%C =>
      assert (E : forall x, fermionic x -> (F x == F' x)%C) end.
    { intros x Fx. unfold integrand. destruct (value_Matsubara _ _ _ _ _ _ _) as [Pi|]; [|reflexivity]. cbn [obind or0].
      apply sum_ext; [exact Sp| | |reflexivity]; intros t Hs.
      - apply tleft_data_eq; [exact (m1 w v v' x M Fx)|apply B1, Hs].
      - apply tright_data_eq; [exact (m2 w v v' x M Fx)|apply B2, Hs]. }
    rewrite (T_ext _ (frequency_sum_T pos) w _ _ E), (T_ext _ Ht w _ _ E). reflexivity.
  Qed.

  Notation all_channels := (Mlp_Model.all_channels data mpair (tbubble_of c pos tails pi T) 3 true).
  Lemma tclass_all t o1 o2 P ch k : class_of (channel_of (all_channels t o1 o2 P) ch) k = tbubble_of c pos tails pi T P (chr ch) (kcr k) o1 o2.
  Proof. destruct ch, k; reflexivity. Qed.
  Lemma tirr_all t o1 o2 P : irr (all_channels t o1 o2 P) = irr t. Proof. reflexivity. Qed.
  Definition toperand_is (u : Q) (o : operand) : Prop := tobeys ph u (half1 o) (half2 o).
  Lemma toperand_ok_of o : operand_T (type_of o) (on_tlegs (half1 o) (half2 o)).
  Proof. destruct o; intros H; try discriminate H; intros ch k s l _ _; unfold on_tlegs; cbn [Sf_Proofs2.half1 Sf_Proofs2.half2]; reflexivity. Qed.
  Lemma tobeys_const u v1 v2 : tobeys ph u v1 v2 -> tbare_const v1 /\ tbare_const v2.
  Proof.
    intros [N P R B]. split; intros s f Sp.
    - rewrite (B false s f Sp). symmetry. apply (B false s _ Sp).
    - rewrite (B true s f Sp). symmetry. apply (B true s _ Sp).
  Qed.
  Lemma tentry_types k ch P st1 st2 st1' st2' V1 V2 s f : is_r_irred st1 = is_r_irred st1' -> is_diff st1 = is_diff st1' ->
    is_r_irred st2 = is_r_irred st2' -> is_diff st2 = is_diff st2' ->
    bubble_entry c pos tails pi T k ch (m_diff P) (m_g P) (m_s P) st1 st2 V1 V2 s f = bubble_entry c pos tails pi T k ch (m_diff P) (m_g P) (m_s P) st1' st2' V1 V2 s f.
  Proof.
    intros A B C D. unfold bubble_entry, integrand, left_part, right_part, g_left_diff, g_left_same, g_right_diff, g_right_same.
    rewrite A, B, C, D. reflexivity.
  Qed.
  Lemma mats_m f f' : trip_eq f f' -> mats f -> mats f'.
  Proof.
    destruct f as ((w, v), v'), f' as ((w', y), y'). intros (A & B & C) ((n & D) & E & F). cbn [fst snd] in A, B, C.
    split; [exists n; rewrite <- A; exact D|]. split; eapply fermionic_ext; eauto.
  Qed.
  Lemma tbubbles_obey t t' u1 u2 o1 o2 P : tpair_ok ph P -> toperand_is u1 o1 -> toperand_is u2 o2 ->
    (forall s f, spin01 s -> (irr t s 0 f == C0)%C) -> (forall s f, spin01 s -> (irr t' s 0 f == C0)%C) ->
    tobeys ph 0 (all_channels t o1 o2 P) (all_channels t' (flip o2) (flip o1) P).
  Proof.
    intros HP O1 O2 T1 T2. pose proof HP as (Hg & Hs).
    destruct (tobeys_const _ _ _ O1) as (C1 & C1'). destruct (tobeys_const _ _ _ O2) as (C2 & C2').
    pose proof (treads_obeys _ _ _ O1) as R1. pose proof (treads_obeys _ _ _ O2) as R2.
    set (V1 := fun h : bool => rdr (if h then half2 o1 else half1 o1)) in *. set (V2 := fun h : bool => rdr (if h then half2 o2 else half1 o2)) in *.
    change (forall h, reads_T u1 (on_tlegs (half1 o1) (half2 o1)) h (V1 h)) in R1.
    change (forall h, reads_T u2 (on_tlegs (half1 o2) (half2 o2)) h (V2 h)) in R2.
    set (tentry := fun (h : bool) k ch s f =>
      if h then bubble_entry c pos tails pi T k ch (m_diff P) (m_g P) (m_s P) (type_of o2) (type_of o1) (V2 true) (V1 true) s f
      else bubble_entry c pos tails pi T k ch (m_diff P) (m_g P) (m_s P) (type_of o1) (type_of o2) (V1 false) (V2 false) s f).
    assert (E : forall (h : bool) ch k s f, spin01 s -> mats f ->
      (class_of (channel_of (if h then all_channels t' (flip o2) (flip o1) P else all_channels t o1 o2 P) ch) k s 0 f == tentry h k ch s f)%C).
    { intros h ch k s f Sp M. unfold tentry, V1, V2. destruct h; rewrite tclass_all, tbubble_of_entry; try assumption; rewrite ?half1_flip; try assumption.
      - rewrite (tentry_types k ch P (type_of (flip o2)) (type_of (flip o1)) (type_of o2) (type_of o1)) by (destruct o1, o2; reflexivity). reflexivity.
      - reflexivity. }
    assert (S : tsame (bubbles_T c pos tails pi T (m_diff P) (m_g P) (m_s P) (type_of o1) (type_of o2) V1 V2)
                 (on_tlegs (all_channels t o1 o2 P) (all_channels t' (flip o2) (flip o1) P))).
    { intros h ch k s l Sp M. unfold on_tlegs, bubbles_T.
      rewrite E by auto using natural_mats. unfold tentry. destruct h; reflexivity. }
    pose proof (tobeys_symmetric _ _ _ _ O1) as P1. pose proof (tobeys_symmetric _ _ _ _ O2) as P2.
    pose proof (toperand_ok_of o1) as K1. pose proof (toperand_ok_of o2) as K2.
    split.
    - intros h ch k s w v v' w' y y' Sp A A' A'' X X' X''.
      assert (M : mats (w, v, v')) by (split; [exact A|split; assumption]).
      assert (F : trip_eq (w, v, v') (w', y, y')) by (repeat (apply Logic.conj); assumption).
      rewrite !E by eauto using mats_m. unfold tentry.
      destruct (tentry_core c u1 u2 pos tails pi T (m_diff P) (m_g P) (m_s P) (type_of o1) (type_of o2) _ _ V1 V2 Ht Hg Hs R1 R2 k ch s _ Sp M) as (Y & Y').
      destruct (tentry_core c u1 u2 pos tails pi T (m_diff P) (m_g P) (m_s P) (type_of o1) (type_of o2) _ _ V1 V2 Ht Hg Hs R1 R2 k ch s _ Sp (mats_m _ _ F M)) as (Z & Z').
      destruct h; [rewrite Y', Z'|rewrite Y, Z]; (apply Cmul_m; [reflexivity|]); eapply JJ_m; eassumption.
    - apply (tsymmetric_ext _ _ _ S).
      apply (C121_finite_temperature_symmetric c u1 u2 pos tails pi T (m_diff P) (m_g P) (m_s P) (type_of o1) (type_of o2) _ _ V1 V2 Ht Hg Hs P1 P2 K1 K2 R1 R2).
    - apply (treversible_ext _ _ S).
      apply (C121_finite_temperature_reversible c u1 u2 pos tails pi T (m_diff P) (m_g P) (m_s P) (type_of o1) (type_of o2) _ _ V1 V2 Ht Hg Hs P1 P2 K1 K2 R1 R2
        (tobeys_reversible _ _ _ _ O1) (tobeys_reversible _ _ _ _ O2)).
    - intros h s f Sp. transitivity C0; [destruct h; rewrite tirr_all; auto|].
      destruct (s =? 0); split; unfold Cofq, C0; cbn [re im]; ring.
  Qed.
End Bubble.
