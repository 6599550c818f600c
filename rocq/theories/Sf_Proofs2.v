(** Bubbles, multiloop flow and parquet iteration of vertices that obey the symmetries. *)
From Coq Require Import QArith Lqa.
From Verif Require Import Prelude Cplx Keld_Model Keld_Spec Keld_Proofs Keld_Proofs2 Util_Spec Sym_Model Sym_Spec Sym_Proofs2 Tab_Model Tab_Spec
  Rd_Model Rd_Spec Rd_Props Dec_Model Bub_Model Bub_Spec Bub_Proofs Bub_Proofs2 Bub_Proofs3 Bub_Props Sf_Model Sf_Spec Sf_Proofs.
From Verif Require Mlp_Model Bse_Model.
Open Scope Z_scope.
Import Mlp_Model (Full, Irreducible, DiffLeft, DiffRight).
Notation operand := (Mlp_Model.operand data).

Definition half1 (o : operand) : vert := match o with Full _ v | Irreducible _ v _ | DiffLeft _ v _ _ | DiffRight _ v _ _ => v end.
Definition half2 (o : operand) : vert := match o with Full _ v | Irreducible _ v _ => v | DiffLeft _ _ v _ | DiffRight _ _ v _ => v end.
Definition type_of (o : operand) : symmtype :=
  match o with Full _ _ => symmetric_full | Irreducible _ _ _ => symmetric_r_irred
  | DiffLeft _ _ _ _ => non_symmetric_diffleft | DiffRight _ _ _ _ => non_symmetric_diffright end.
(** the operand with the two halves exchanged *)
Definition flip (o : operand) : operand :=
  match o with Full _ v => Full _ v | Irreducible _ v b => Irreducible _ v b | DiffLeft _ v w b => DiffRight _ w v b | DiffRight _ v w b => DiffLeft _ w v b end.
Definition rdr (v : vert) : reader := fun s iK =>
  mkF (irr v s iK (0, 0, 0)%Q) (fun k f => class_of (channel_of v Ca) k s iK f) (fun k f => class_of (channel_of v Cp) k s iK f)
    (fun k f => class_of (channel_of v Ct) k s iK f).
Definition chr (ch : chan) : Mlp_Model.channel := match ch with Ca => Mlp_Model.Ca | Cp => Mlp_Model.Cp | Ct => Mlp_Model.Ct end.
Definition kcr (k : kcl) : Mlp_Model.kclass := match k with k1 => Mlp_Model.k1 | k2 => Mlp_Model.k2 | k2b => Mlp_Model.k2b | k3 => Mlp_Model.k3 end.
Lemma chan_chr ch : chan_of (chr ch) = ch. Proof. destruct ch; reflexivity. Qed.
Lemma get_rdr v s iK ch k f : get_r (rdr v s iK) ch k f = class_of (channel_of v ch) k s iK f. Proof. destruct ch; reflexivity. Qed.
Lemma get_chr v ch : Bse_Model.get data dzero v (chr ch) = channel_of v ch. Proof. destruct ch; reflexivity. Qed.

Section Bubble.
  Variables (c : cfg) (J : (Q -> cplx) -> cplx) (pi : Q).
  Hypothesis Kc : keldysh c = true.
  Hypothesis CBc : contour c = false.
  Hypothesis HJ : integral J.
  Hypothesis Hpi : ~ (pi == 0)%Q.

  Lemma natural_of_legs ch f l : legs_are false ch f l -> trip_eq f (natural ch l).
  Proof.
    intros L. destruct f as ((w, v), v'). destruct L as (A & B & C & D).
    repeat (apply Logic.conj); destruct ch; cbn [natural legs_of fst snd n1' n2' n1 n2] in *; rewrite ?A, ?B, ?C, ?D; field.
  Qed.
  Lemma reads_obeys u v1 v2 : obeys c u v1 v2 -> forall h : bool, reads c u (on_legs v1 v2) h (rdr (if h then v2 else v1)).
  Proof.
    intros [N P R B] h. split.
    - intros ch k s kl f l Hk Sp L. rewrite get_rdr. unfold on_legs. apply N; try assumption. exact (natural_of_legs ch f l L).
    - intros s kl Hk Sp. cbn [rdr irred]. apply B; assumption.
  Qed.
  (** the parts of Bse_Model are those of Dec_Model *)
  Lemma cross_total v ch ch' s iK f : exists g, transfToR false ch (Bch ch') f = Some g /\
    cross (chr ch) (chr ch') (Bse_Model.value data dzero dadd no_mirror true v v (chr ch)) s iK f =
      (class_of (channel_of v ch) k1 s iK g + class_of (channel_of v ch) k2 s iK g + class_of (channel_of v ch) k2b s iK g + class_of (channel_of v ch) k3 s iK g)%C.
  Proof.
    destruct (conv_legs ch ch' f) as (g & T & _). exists g. split; [exact T|].
    unfold cross. rewrite !chan_chr, T. destruct ch; reflexivity.
  Qed.
  Lemma gammaRb_rdr v ch s iK f : exists z, gammaRb false false 3 ch (rdr v s iK) f = Some z /\
    (Bse_Model.gammaRb data dzero dadd cross no_mirror true v v (chr ch) s iK f == z)%C.
  Proof.
    destruct (cross_total v Ca ch s iK f) as (ga & Ta & Ea). destruct (cross_total v Cp ch s iK f) as (gp & Tp & Ep).
    destruct (cross_total v Ct ch s iK f) as (gt & Tt & Et).
    unfold gammaRb, r_value. destruct ch; rewrite ?Ta, ?Tp, ?Tt; cbn [obind oadd]; change (2 <=? 3) with true; change (3 <=? 3) with true; cbv iota;
    cbn [obind]; (eexists; split; [reflexivity|]); unfold Bse_Model.gammaRb; cbn [chr] in *; unfold dadd at 1; rewrite ?Ea, ?Ep, ?Et; reflexivity.
  Qed.
  Lemma gammaRb_halves v w ch : Bse_Model.gammaRb data dzero dadd cross no_mirror true v w ch = Bse_Model.gammaRb data dzero dadd cross no_mirror true v v ch.
  Proof. reflexivity. Qed.
  Definition left_data (k : kcl) (o : operand) (r : Mlp_Model.channel) : data :=
    if left_dressed k then Bse_Model.left_diff data dzero dadd cross no_mirror true o r else Bse_Model.left_same data dzero dadd no_mirror true o r.
  Definition right_data (k : kcl) (o : operand) (r : Mlp_Model.channel) : data :=
    if right_dressed k then Bse_Model.right_diff data dzero dadd cross no_mirror true o r else Bse_Model.right_same data dzero dadd o r.
  Lemma left_data_eq k o ch s kl f : (irr (half1 o) s (kcode kl) f == irr (half1 o) s (kcode kl) (0, 0, 0)%Q)%C ->
    (left_data k o (chr ch) s (kcode kl) f == left_part k (type_of o) ch (rdr (half1 o)) s (kcode kl) f)%C.
  Proof.
    intros HI. destruct (gammaRb_rdr (half1 o) ch s (kcode kl) f) as (z & Ez & Hz).
    unfold left_data, left_part. destruct (left_dressed k).
    - unfold g_left_diff, f_left_diff, r_left_diff. rewrite Ez. 
      destruct o; cbn [half1 type_of is_r_irred is_diff Bse_Model.left_diff] in *; change (2 <=? 3) with true;
      repeat match goal with |- context [3 =? ?n] => change (3 =? n) with false || change (3 =? n) with true end; cbn [oadd obind or0]; unfold dadd;
      rewrite ?Hz, ?get_rdr, ?get_chr; reflexivity.
    - unfold g_left_same, f_left_same, r_left_same. change (3 =? 1) with false. change (1 <? 3) with true.
      destruct o; cbn [half1 type_of is_r_irred Bse_Model.left_same oadd obind or0] in *; unfold dadd, Bse_Model.read_K2b; rewrite ?get_chr, ?get_rdr;
      cbn [rdr irred]; rewrite HI; reflexivity.
  Qed.
  Lemma right_data_eq k o ch s kl f : (irr (half1 o) s (kcode kl) f == irr (half1 o) s (kcode kl) (0, 0, 0)%Q)%C ->
    (right_data k o (chr ch) s (kcode kl) f == right_part k (type_of o) ch (rdr (half1 o)) s (kcode kl) f)%C.
  Proof.
    intros HI. destruct (gammaRb_rdr (half1 o) ch s (kcode kl) f) as (z & Ez & Hz).
    unfold right_data, right_part. destruct (right_dressed k).
    - unfold g_right_diff, f_right_diff, r_right_diff. rewrite Ez. 
      destruct o; cbn [half1 type_of is_r_irred is_diff Bse_Model.right_diff] in *; change (2 <=? 3) with true;
      repeat match goal with |- context [3 =? ?n] => change (3 =? n) with false || change (3 =? n) with true end; cbn [oadd obind or0]; unfold dadd, Bse_Model.read_K2b;
      rewrite ?Hz, ?get_rdr, ?get_chr; reflexivity.
    - unfold g_right_same, f_right_same, r_right_same. change (3 =? 1) with false. change (1 <? 3) with true.
      destruct o; cbn [half1 type_of is_r_irred Bse_Model.right_same oadd obind or0] in *; unfold dadd; rewrite ?get_chr, ?get_rdr;
      cbn [rdr irred]; rewrite HI; reflexivity.
  Qed.
  Lemma bubble_of_data P ch k o1 o2 : bubble_of J pi P (chr ch) (kcr k) o1 o2 = product J pi P (chr ch) (left_data k o1 (chr ch)) (right_data k o2 (chr ch)).
  Proof. destruct k; reflexivity. Qed.
  Definition bare_const (v : vert) : Prop := forall s kl f, klegs_ok kl -> spin01 s -> (irr v s (kcode kl) f == irr v s (kcode kl) (0, 0, 0)%Q)%C.
  Lemma bubble_of_entry P ch k o1 o2 s kl f : klegs_ok kl -> spin01 s -> lines_ok (p_g P) -> lines_ok (p_s P) ->
    bare_const (half1 o1) -> bare_const (half1 o2) ->
    (bubble_of J pi P (chr ch) (kcr k) o1 o2 s (kcode kl) f ==
     bubble_entry J pi k ch (p_diff P) (p_g P) (p_s P) (type_of o1) (type_of o2) (rdr (half1 o1)) (rdr (half1 o2)) s (kcode kl) f)%C.
  Proof.
    intros Hk Sp Hg Hs B1 B2. rewrite bubble_of_data. destruct f as ((w, v), v'). unfold product, bubble_entry. rewrite chan_chr.
    apply Cmul_m; [reflexivity|]. apply (int_ext _ HJ). intros x. unfold integrand.
    destruct (klof_kcode kl Hk) as (a & b & d & e & ->). rewrite kcode_klof.
    destruct (integrand_vectorized_code ch s (fun sp i => left_data k o1 (chr ch) sp i (w, v, x)) (fun sp i => right_data k o2 (chr ch) sp i (w, x, v'))
      (value_vectorized ch (p_diff P) (p_g P) (p_s P) w x) (lines ch (p_diff P) (p_g P) (p_s P) w x) Sp) as (l1 & E1 & _ & H1).
    { intros. apply value_vectorized_spec; apply ok_prop; assumption. }
    destruct (integrand_vectorized_code ch s (fun sp i => left_part k (type_of o1) ch (rdr (half1 o1)) sp i (w, v, x))
      (fun sp i => right_part k (type_of o2) ch (rdr (half1 o2)) sp i (w, x, v'))
      (value_vectorized ch (p_diff P) (p_g P) (p_s P) w x) (lines ch (p_diff P) (p_g P) (p_s P) w x) Sp) as (l2 & E2 & _ & H2).
    { intros. apply value_vectorized_spec; apply ok_prop; assumption. }
    rewrite E1, E2. cbn [obind]. destruct (H1 a b d e) as (z1 & N1 & Z1). destruct (H2 a b d e) as (z2 & N2 & Z2).
    rewrite N1, N2. cbn [or0]. rewrite Z1, Z2.
    apply code_diagram_ext_codes; [exact Sp| | |reflexivity]; intros t p q r y Ht; cbv beta; rewrite <- (kcode_klof p q r y).
    - apply left_data_eq, B1; auto using klof_ok.
    - apply right_data_eq, B2; auto using klof_ok.
  Qed.

  (** ** all channels *)
  Notation all_channels := (Mlp_Model.all_channels data pair (bubble_of J pi) 3 true).
  Lemma class_all t o1 o2 P ch k : class_of (channel_of (all_channels t o1 o2 P) ch) k = bubble_of J pi P (chr ch) (kcr k) o1 o2.
  Proof. destruct ch, k; reflexivity. Qed.
  Lemma irr_all t o1 o2 P : irr (all_channels t o1 o2 P) = irr t. Proof. reflexivity. Qed.
  (** a symmetric operand has equal halves *)
  Definition operand_is (u : Q) (o : operand) : Prop := obeys c u (half1 o) (half2 o).
  Lemma half1_flip o : half1 (flip o) = half2 o. Proof. destruct o; reflexivity. Qed.
  Lemma half2_flip o : half2 (flip o) = half1 o. Proof. destruct o; reflexivity. Qed.
  Lemma operand_ok_of o : operand_ok (type_of o) (on_legs (half1 o) (half2 o)).
  Proof. destruct o; intros H; try discriminate H; intros ch k s kl l; unfold on_legs; cbn [half1 half2]; reflexivity. Qed.
  Lemma obeys_const u v1 v2 : obeys c u v1 v2 -> bare_const v1 /\ bare_const v2.
  Proof.
    intros [N P R B]. split; intros s kl f Hk Sp.
    - rewrite (B false s kl f Hk Sp). symmetry. apply (B false s kl _ Hk Sp).
    - rewrite (B true s kl f Hk Sp). symmetry. apply (B true s kl _ Hk Sp).
  Qed.
  Lemma entry_types k ch P st1 st2 st1' st2' V1 V2 s iK f : is_r_irred st1 = is_r_irred st1' -> is_diff st1 = is_diff st1' ->
    is_r_irred st2 = is_r_irred st2' -> is_diff st2 = is_diff st2' ->
    bubble_entry J pi k ch (p_diff P) (p_g P) (p_s P) st1 st2 V1 V2 s iK f = bubble_entry J pi k ch (p_diff P) (p_g P) (p_s P) st1' st2' V1 V2 s iK f.
  Proof.
    intros A B C D. unfold bubble_entry, integrand, left_part, right_part, g_left_diff, g_left_same, g_right_diff, g_right_same.
    rewrite A, B, C, D. reflexivity.
  Qed.
  Lemma bubbles_obey t t' u1 u2 o1 o2 P : pair_ok c P -> operand_is u1 o1 -> operand_is u2 o2 ->
    (forall s kl f, klegs_ok kl -> spin01 s -> (irr t s (kcode kl) f == C0)%C) -> (forall s kl f, klegs_ok kl -> spin01 s -> (irr t' s (kcode kl) f == C0)%C) ->
    obeys c 0 (all_channels t o1 o2 P) (all_channels t' (flip o2) (flip o1) P).
  Proof.
    intros (Hg & Hs & Hp) O1 O2 T T'.
    destruct (obeys_const _ _ _ O1) as (C1 & C1'). destruct (obeys_const _ _ _ O2) as (C2 & C2').
    pose proof (reads_obeys _ _ _ O1) as R1. pose proof (reads_obeys _ _ _ O2) as R2.
    set (V1 := fun h : bool => rdr (if h then half2 o1 else half1 o1)) in *. set (V2 := fun h : bool => rdr (if h then half2 o2 else half1 o2)) in *.
    change (forall h, reads c u1 (on_legs (half1 o1) (half2 o1)) h (V1 h)) in R1. change (forall h, reads c u2 (on_legs (half1 o2) (half2 o2)) h (V2 h)) in R2.
    assert (E : forall (h : bool) ch k s kl f, klegs_ok kl -> spin01 s ->
      (class_of (channel_of (if h then all_channels t' (flip o2) (flip o1) P else all_channels t o1 o2 P) ch) k s (kcode kl) f ==
       entry J pi (p_diff P) (p_g P) (p_s P) (type_of o1) (type_of o2) V1 V2 h k ch s (kcode kl) f)%C).
    { intros h ch k s kl f Hk Sp. unfold entry, V1, V2. destruct h; rewrite class_all, bubble_of_entry; try assumption; rewrite ?half1_flip; try assumption.
      - rewrite (entry_types k ch P (type_of (flip o2)) (type_of (flip o1)) (type_of o2) (type_of o1)) by (destruct o1, o2; reflexivity). reflexivity.
      - reflexivity. }
    assert (S : same_family (bubble_family J pi (p_diff P) (p_g P) (p_s P) (type_of o1) (type_of o2) V1 V2)
                 (on_legs (all_channels t o1 o2 P) (all_channels t' (flip o2) (flip o1) P))).
    { intros h ch k s kl l Hk Sp. unfold on_legs. rewrite E by assumption. unfold bubble_family, entry. destruct h; reflexivity. }
    pose proof (obeys_physical _ _ _ _ O1) as P1. pose proof (obeys_physical _ _ _ _ O2) as P2.
    pose proof (operand_ok_of o1) as K1. pose proof (operand_ok_of o2) as K2.
    split.
    - intros h ch k s kl f f' Hk Sp F. rewrite !E by assumption. destruct (klof_kcode kl Hk) as (a & b & d & e & ->). rewrite kcode_klof.
      rewrite !(entry_core c u1 u2 J pi (p_diff P) (p_g P) (p_s P) (type_of o1) (type_of o2) _ _ V1 V2 HJ Hg Hs R1 R2) by exact Sp.
      apply Cmul_m; [reflexivity|]. apply (int_ext _ HJ). intros x. apply core_m; assumption.
    - apply (physical_ext c _ _ Kc S).
      apply (C121_bubble_symmetric_partial c u1 u2 J pi (p_diff P) (p_g P) (p_s P) (type_of o1) (type_of o2) _ _ V1 V2 Kc CBc HJ Hpi Hg Hs P1 P2 K1 K2 R1 R2).
    - apply (reversible_ext c _ _ Kc S). assert (B : phs c = true \/ phs c = false) by (destruct (phs c); auto). destruct B as [B | B].
      + destruct (Hp B) as (Sg & Ss).
        apply (C121_bubble_reversible_partial c u1 u2 J pi (p_diff P) (p_g P) (p_s P) (type_of o1) (type_of o2) _ _ V1 V2 Kc CBc HJ Hpi Hg Hs P1 P2 K1 K2 R1 R2 Sg Ss
          (obeys_reversible _ _ _ _ O1) (obeys_reversible _ _ _ _ O2)).
      + split; congruence.
    - intros h s kl f Hk Sp. transitivity C0; [destruct h; rewrite irr_all; auto|].
      unfold irred_expanded, irred_initialize. rewrite Kc, CBc. destruct Sp as [-> | ->]; cbn [Z.eqb Pos.eqb]; destruct (isInList (kcode kl) odd_Keldysh);
      split; unfold Cofq, Cmul, C0; cbn [re im]; ring.
  Qed.
End Bubble.
