(** The Schwinger-Dyson equation in the Matsubara formalism keeps the symmetries. *)
From Coq Require Import QArith Lqa.
From Verif Require Import Prelude Cplx Keld_Model Keld_Spec Keld_Proofs Keld_Proofs2 Util_Spec Sym_Model Sym_Spec Sym_Proofs Sym_Proofs2 Tab_Model Tab_Spec
  Rd_Model Rd_Spec Rd_Props Dec_Model Bub_Model Bub_Spec Bub_Proofs Bub_Proofs2 Bub_Proofs3 Bub_Props Mbu_Model Mbu_Spec Mbu_Proofs
  Sf_Model Sf_Spec Sf_Proofs Sf_Proofs2 Msf_Model Msf_Spec Msf_Proofs Msf_Proofs2 Msf_Props Lop_Model Mfl_Model Mfl_Spec Mfl_Proofs Mfl_Proofs2 Mpq_Model.
From Verif Require Mlp_Model Bse_Model Sde_Model Sde_Proofs Sde_Proofs2 Fl_Proofs Pit_Model.
Open Scope Z_scope.
Import Mlp_Model (Full, Irreducible, DiffLeft, DiffRight).
Import Sde_Model (flags, no_flags, mkFl, swap_a_and_t, masked, other_than, channel_name, bare_vertex, loop_flags, no_gamma0, vanishing).
Import Sde_Proofs (op, same_data).
Import Sde_Proofs2 (flags_of, masked_rest).

Lemma class_masked f v ch k : class_of (channel_of (masked f v) ch) k = if vanishing f ch k then dzero else class_of (channel_of v ch) k.
Proof. destruct ch, k; reflexivity. Qed.

Lemma masked_none v : masked no_flags v = v.
Proof. destruct v as [i [a1 a2 a3 a4] [p1 p2 p3 p4] [t1 t2 t3 t4]]. reflexivity. Qed.
Lemma masked_left only v ch k : same_data (left_data k (Full _ (masked (flags_of only ch) v)) (chr ch)) (left_data k (op only v) (chr ch)).
Proof.
  intros s a b d e f Sp. unfold flags_of, op. destruct only; [|rewrite masked_none; reflexivity].
  unfold left_data. destruct (left_dressed k); cbn [Bse_Model.left_diff Bse_Model.left_same].
  - unfold dadd at 1. rewrite (masked_rest v ch s a b d e f Sp). unfold dadd. rewrite !get_chr. unfold dzero. destruct ch; cbn; ring.
  - unfold dadd, Bse_Model.read_K2b. rewrite !get_chr. destruct ch; reflexivity.
Qed.
Lemma masked_right only v ch k : same_data (right_data k (Full _ (masked (flags_of only ch) v)) (chr ch)) (right_data k (op only v) (chr ch)).
Proof.
  intros s a b d e f Sp. unfold flags_of, op. destruct only; [|rewrite masked_none; reflexivity].
  unfold right_data. destruct (right_dressed k); cbn [Bse_Model.right_diff Bse_Model.right_same].
  - unfold dadd at 1. rewrite (masked_rest v ch s a b d e f Sp). unfold dadd, Bse_Model.read_K2b. rewrite !get_chr. unfold dzero. destruct ch; cbn; ring.
  - unfold dadd. rewrite !get_chr. destruct ch; reflexivity.
Qed.

(** a loop over parts of a vertex that is equal to a symmetric one in these parts *)
Lemma masked_loop_vertex c u v w f b : keldysh c = false -> zero_t c = true -> msymmetric c u w -> no_gamma0 f = true ->
  (forall ch k s x, spin01 s -> vanishing f ch k = false -> (class_of (channel_of v ch) k s 0 x == class_of (channel_of w ch) k s 0 x)%C) ->
  vertex_conjugated all_frequencies (phs c) b (loop_vertex false symmetric_full (masked f v)).
Proof.
  intros Kc Zc Sy Hf Eq. pose proof (Msf_Proofs2.mreads_obeys c u w w Sy false) as R. cbn match in R.
  assert (Es : forall s, spin01 s -> (s =? 0) || (s =? 1) = true) by (intros s [-> | ->]; reflexivity).
  apply (read_conjugated all_frequencies (phs c) false (masked f v) b (legs_of b)
    (fun ch k s l => if vanishing f ch k then C0 else on_mlegs w w false ch k s k1111 l) conserved (fun s => 0%Q)).
  - intros ch s x y Sp _ _. destruct (conv_legs ch b (0, x, y)%Q) as (g & T & E). exists g. split; [exact T|]. intros k.
    rewrite class_masked. destruct (vanishing f ch k) eqn:Va; [reflexivity|]. rewrite (Eq ch k s g Sp Va).
    rewrite <- get_rdr. apply (R s Sp). destruct E as (A & B & C & D). repeat (apply Logic.conj); symmetry; assumption.
  - intros x y _ _. apply Msf_Proofs2.legs_conserved.
  - intros ch k s l l' Sp Co E. destruct (vanishing f ch k); [reflexivity|]. unfold on_mlegs. rewrite (Es s Sp). exact (mof_values _ _ _ _ Sy false ch k s _ _ Sp (Fl_Proofs.natural_m ch l l' E)).
  - intros ch k s l Sp Co. destruct (vanishing f ch k); [symmetry; apply conj_0|]. apply (reversal_matsubara _ _ (mobeys_reversible _ _ _ _ Sy) Kc); assumption.
  - intros Ph ch k s l Sp Co. destruct (vanishing f ch k); [reflexivity|]. apply (real_matsubara _ _ _ (mobeys_physical _ _ _ _ Sy) Kc Ph).
  - intros x y x' y' E E'. apply Msf_Proofs2.legs_m. repeat (apply Logic.conj); cbn [fst snd]; auto. reflexivity.
  - intros x y. destruct b; repeat (apply Logic.conj); unfold minus_f; cbn [legs_of n1' n2' n1 n2]; field.
  - trivial.
  - intros s Sp. unfold masked; cbn [Mlp_Model.irr]. rewrite Hf. reflexivity.
  - trivial.
Qed.

Section Sde.
  Variables (c : cfg) (J : (Q -> cplx) -> cplx) (Jl : Q -> (Q -> cplx) -> cplx) (pi U : Q) (g : mself).
  Hypothesis Kc : keldysh c = false.
  Hypothesis Zc : zero_t c = true.
  Hypothesis HJ : integral J.
  Hypothesis HI : loop_integral all_frequencies Jl.
  Hypothesis Hg : conjugated all_frequencies (phs c) g.
  Notation all_channels := (Mlp_Model.all_channels data mpair (mbubble_of c J pi) 3 true).
  Notation P := (mkM false g g).
  Notation bare := (bare_vertex c U).
  Lemma mbare_symmetric : msymmetric c (- U) bare.
  Proof.
    destruct (mzero_obeys c Kc Zc) as [H1 H2 H3 H4]. unfold bare_vertex. rewrite Kc. cbn [andb].
    assert (S : msame_family (on_mlegs vzero vzero) (on_mlegs (Bse_Model.initialize data (lift c) vzero (- U)) (Bse_Model.initialize data (lift c) vzero (- U)))).
    { intros h ch k s kl l. unfold on_mlegs. destruct h, ch; reflexivity. }
    split; [|exact (mphysical_ext c Kc _ _ S H2)|exact (mreversible_ext c Kc _ _ S H3)|].
    - intros h ch k s f f' Sp E. specialize (H1 h ch k s f f' Sp E). destruct h, ch; exact H1.
    - intros h s f Sp. assert (E : (lift c (- U) s 0 f == Cofq (if s =? 0 then - U else - - U))%C).
      { unfold lift, irred_expanded, irred_initialize. rewrite Kc. destruct Sp as [-> | ->]; cbn [Z.eqb Pos.eqb];
        split; unfold Cmul, Cofq; cbn [re im]; ring. }
      destruct h; exact E.
  Qed.
  Lemma mpair_fine : mpair_ok c P.
  Proof. destruct Hg as (A & B). split; (split; intros; [apply A|apply B]; try exact I; assumption). Qed.
  Section Vertex.
    Variables (u : Q) (v : vert).
    Hypothesis Sy : msymmetric c u v.
    Variable only : bool.
    Definition msymmetrised : vert := vhalf (vadd (all_channels vzero (op false bare) (op only v) P) (all_channels vzero (op only v) (op false bare) P)).
    Lemma msymmetrised_symmetric : msymmetric c ((1 # 2) * 0) msymmetrised.
    Proof.
      apply (mobeys_half c Kc). apply (msum_LR c Kc).
      assert (O : mobeys c 0 (all_channels vzero (op false bare) (op only v) P) (all_channels vzero (flip (op only v)) (flip (op false bare)) P)).
      { apply (mbubbles_obey c J pi Kc Zc HJ vzero vzero (- U) u); auto using mvzero_bare, mpair_fine.
        - exact mbare_symmetric.
        - destruct only; exact Sy. }
      assert (E : forall o o', mobeys c 0 (all_channels vzero (op false bare) (op only v) P) (all_channels vzero (flip o) (flip o') P) ->
        (o = op only v) -> (o' = op false bare) -> mobeys c 0 (all_channels vzero (op false bare) (op only v) P) (all_channels vzero (op only v) (op false bare) P)).
      { intros o o' H -> ->. destruct only; exact H. }
      exact (E _ _ O eq_refl eq_refl).
    Qed.
    Lemma mproduct_ext ch L L' R R' s f : spin01 s -> same_data L L' -> same_data R R' ->
      (mproduct c J pi P (chr ch) L R s 0 f == mproduct c J pi P (chr ch) L' R' s 0 f)%C.
    Proof.
      intros Sp EL ER. destruct f as ((w, x), y). unfold mproduct. rewrite chan_chr. apply Cmul_m; [reflexivity|]. apply (int_ext _ HJ). intros z.
      apply sum_ext; [exact Sp| | |reflexivity]; intros t Ht; change 0 with (code4 false false false false); auto.
    Qed.
    Lemma msde_classes ch k s f : spin01 s ->
      (class_of (channel_of (msde_bubble c J pi U ch (flags_of only ch) v g) ch) k s 0 f == class_of (channel_of msymmetrised ch) k s 0 f)%C.
    Proof.
      intros Sp. set (m := masked (flags_of only ch) v).
      set (X := mbubble_of c J pi P (chr ch) (kcr k) (op false bare) (Full _ m)). set (Y := mbubble_of c J pi P (chr ch) (kcr k) (Full _ m) (op false bare)).
      assert (E : class_of (channel_of (msde_bubble c J pi U ch (flags_of only ch) v g) ch) k s 0 f =
        match ch with Cp => Cscale (1 # 2) (X s 0 f + Y s 0 f)%C | _ => Cscale (1 # 2) (X s 0 f + C0 + (Y s 0 f + C0))%C end) by (destruct ch, k; reflexivity).
      assert (E' : class_of (channel_of msymmetrised ch) k s 0 f =
        Cscale (1 # 2) (mbubble_of c J pi P (chr ch) (kcr k) (op false bare) (op only v) s 0 f + mbubble_of c J pi P (chr ch) (kcr k) (op only v) (op false bare) s 0 f)%C)
        by (destruct ch, k; reflexivity).
      assert (EX : (X s 0 f == mbubble_of c J pi P (chr ch) (kcr k) (op false bare) (op only v) s 0 f)%C).
      { unfold X. rewrite !mbubble_of_data. apply mproduct_ext; [exact Sp|intros t a b d e f' Ht; reflexivity|apply masked_right]. }
      assert (EY : (Y s 0 f == mbubble_of c J pi P (chr ch) (kcr k) (op only v) (op false bare) s 0 f)%C).
      { unfold Y. rewrite !mbubble_of_data. apply mproduct_ext; [exact Sp|apply masked_left|intros t a b d e f' Ht; reflexivity]. }
      rewrite E, E', <- EX, <- EY. destruct ch; apply Cscale_m; try reflexivity; ring.
    Qed.
    Lemma mimpl_ok ch : conjugated all_frequencies (phs c) (mcompute_SDE_impl c J Jl pi U ch (flags_of only ch) v g).
    Proof.
      unfold mcompute_SDE_impl, loop_of.
      apply (loop_conjugated all_frequencies (phs c) (match ch with Ct => true | _ => false end) false _ g Jl); try assumption; try (intros; exact I).
      apply (masked_loop_vertex c _ _ msymmetrised (loop_flags ch) _ Kc Zc msymmetrised_symmetric eq_refl).
      intros r k s x Sp Va. assert (r = ch) as -> by (destruct ch, r, k; try discriminate Va; reflexivity). apply msde_classes; assumption.
    Qed.
  End Vertex.
  Lemma mv1_ok u v : msymmetric c u v -> conjugated all_frequencies (phs c) (mcompute_SDE_v1 c J Jl pi U v g).
  Proof.
    intros Sy. unfold mcompute_SDE_v1, msub_, mcompute_SDE_impl_v1. apply add_ok; [apply add_ok; [apply add_ok|]|apply scale_ok, scale_ok].
    - exact (mimpl_ok u v Sy true Ca).
    - exact (mimpl_ok u v Sy true Cp).
    - exact (mimpl_ok u v Sy true Ct).
    - exact (mimpl_ok (- U) _ mbare_symmetric true Ca).
  Qed.
  Lemma mv2_ok u v : msymmetric c u v ->
    conjugated all_frequencies (phs c) (fst (mcompute_SDE_v2 c J Jl pi U v g)) /\ conjugated all_frequencies (phs c) (snd (mcompute_SDE_v2 c J Jl pi U v g)).
  Proof.
    intros Sy. pose proof (mimpl_ok u v Sy false Ca) as A. pose proof (mimpl_ok u v Sy false Cp) as B.
    unfold mcompute_SDE_v2. cbv zeta. cbn [fst snd]. unfold msub_. split; [apply scale_ok, add_ok|apply add_ok; [|apply scale_ok]]; assumption.
  Qed.
End Sde.

Lemma mobeys_scale c q u v1 v2 : keldysh c = false -> mobeys c u v1 v2 -> mobeys c (q * u) (Pit_Model.vscale q v1) (Pit_Model.vscale q v2).
Proof.
  intros Kc [N P R B].
  assert (CV : forall v ch k s iK f, class_of (channel_of (Pit_Model.vscale q v) ch) k s iK f = Cscale q (class_of (channel_of v ch) k s iK f)) by (intros v [] []; reflexivity).
  assert (S : msame_family (fun h ch k s kl l => Cscale q (on_mlegs v1 v2 h ch k s kl l)) (on_mlegs (Pit_Model.vscale q v1) (Pit_Model.vscale q v2))).
  { intros h ch k s kl l. unfold on_mlegs. destruct ((s =? 0) || (s =? 1)); [destruct h; rewrite CV; reflexivity|].
    split; unfold Cscale, C0; cbn [re im]; ring. }
  split.
  - intros h ch k s f f' Sp E. specialize (N h ch k s f f' Sp E). destruct h; rewrite !CV, N; reflexivity.
  - apply (mphysical_ext c Kc _ _ S), mphysical_scale; assumption.
  - apply (mreversible_ext c Kc _ _ S), mreversible_scale; assumption.
  - intros h s f Sp. transitivity (Cscale q (Cofq (if s =? 0 then u else - u)))%C.
    + rewrite <- (B h s f) by assumption. destruct h; reflexivity.
    + destruct (s =? 0); split; unfold Cscale, Cofq; cbn [re im]; ring.
Qed.
