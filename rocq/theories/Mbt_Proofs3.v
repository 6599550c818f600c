(** Proofs for Mbt_Props: a bubble of symmetric vertices is a symmetric vertex. *)
From Coq Require Import QArith Qround Lqa.
From Verif Require Import Prelude Cplx Keld_Model Util_Model Util_Spec Util_Proofs Sym_Model Sym_Spec Sym_Proofs Sym_Proofs2
  Tab_Model Tab_Spec Rd_Model Rd_Spec Dec_Model Bub_Model Bub_Spec Bub_Proofs Bub_Proofs2 Bub_Proofs3 Mbu_Proofs Mbu_Proofs2 Mbt_Model Mbt_Spec Mbt_Proofs Mbt_Proofs2.
From Verif Require Mbu_Model.
Open Scope Z_scope.

(** reflection of a fermionic frequency *)
Definition rf (w x : Q) : Q := (- x - (hi w - lo w))%Q.
Lemma rf_f w x : bosonic w -> fermionic x -> fermionic (rf w x).
Proof. intros. unfold rf. auto with par. Qed.

Section Bubble.
  Variables (c : cfg) (uL uR : Q) (pos : Z) (tails : Q -> (Q -> cplx) -> cplx) (pi T : Q) (diff : bool) (g S0 : Q -> cplx) (stL stR : symmtype).
  Variables (GL GR : vertex_T) (VL VR : bool -> reader).
  Hypothesis Ht : sum_T tails.
  Hypothesis Hg : line_T (phs c) g.
  Hypothesis HS : line_T (phs c) S0.
  Hypothesis PL : symmetric_T (phs c) GL.
  Hypothesis PR : symmetric_T (phs c) GR.
  Hypothesis OL : operand_T stL GL.
  Hypothesis OR : operand_T stR GR.
  Hypothesis RL : forall h, reads_T uL GL h (VL h).
  Hypothesis RR : forall h, reads_T uR GR h (VR h).

  Definition J (w : Q) (f : Q -> cplx) : cplx := (frequency_sum pos w f + tails w f)%C.
  Lemma HJ : sum_T J. Proof. apply sum_T_add; [apply frequency_sum_T|exact Ht]. Qed.
  Definition pre (ch : chan) : cplx := (Mbu_Model.bubble_value_prefactor pi ch * Cofq (2 * pi) * Cofq T)%C.
  Lemma pre_real ch : (Cconj (pre ch) == pre ch)%C.
  Proof. unfold pre. rewrite !conj_mul, mpref_real. split; unfold Cconj, Cmul, Cofq; cbn [re im]; ring. Qed.
  Lemma pre_crossed ch : ch <> Cp -> (pre (crossed_at ch) == - pre ch)%C.
  Proof. intros H. unfold pre. rewrite mpref_crossed by exact H. ring. Qed.

  Definition tSPL (h : bool) (k : kcl) (ch : chan) (s : Z) (l : legs) : cplx :=
    if h then partT uR false stR (left_dressed k) GR true ch s l else partT uL false stL (left_dressed k) GL false ch s l.
  Definition tSPR (h : bool) (k : kcl) (ch : chan) (s : Z) (l : legs) : cplx :=
    if h then partT uL true stL (right_dressed k) GL true ch s l else partT uR true stR (right_dressed k) GR false ch s l.
  Definition tA (h : bool) (k : kcl) (ch : chan) (f : Q * Q * Q) (x : Q) : Z -> cplx := fun s =>
    let '(w, v, _) := f in tSPL h k ch s (legs_T ch (w, v, x)).
  Definition tB (h : bool) (k : kcl) (ch : chan) (f : Q * Q * Q) (x : Q) : Z -> cplx := fun s =>
    let '(w, _, v') := f in tSPR h k ch s (legs_T ch (w, x, v')).
  Definition tP (ch : chan) (f : Q * Q * Q) (x : Q) : cplx := pair_T c diff g S0 ch (fst (fst f)) x.
  Definition tcore (h : bool) (k : kcl) (ch : chan) (s : Z) (f : Q * Q * Q) (x : Q) : cplx :=
    Mbu_Model.sum_over_internal_scalar ch s (tA h k ch f x) (tB h k ch f x) (tP ch f x).
  Definition JJ (h : bool) (k : kcl) (ch : chan) (s : Z) (f : Q * Q * Q) : cplx := J (fst (fst f)) (tcore h k ch s f).
  Notation F := (bubbles_T c pos tails pi T diff g S0 stL stR VL VR).

  Lemma m1 w v v' x : mats (w, v, v') -> fermionic x -> mats (w, v, x).
  Proof. intros (A & B & D) E. repeat (apply Logic.conj); assumption. Qed.
  Lemma m2 w v v' x : mats (w, v, v') -> fermionic x -> mats (w, x, v').
  Proof. intros (A & B & D) E. repeat (apply Logic.conj); assumption. Qed.

  Lemma tentry_core k ch s f : spin01 s -> mats f ->
    (bubble_entry c pos tails pi T k ch diff g S0 stL stR (VL false) (VR false) s f == pre ch * JJ false k ch s f)%C /\
    (bubble_entry c pos tails pi T k ch diff g S0 stR stL (VR true) (VL true) s f == pre ch * JJ true k ch s f)%C.
  Proof.
    intros Sp M. destruct f as ((w, v), v'). unfold bubble_entry, JJ, J. cbn [fst snd].
    assert (E : forall h stA stB VA VB, (forall t x, spin01 t -> fermionic x -> (left_part k stA ch VA t (w, v, x) == tA h k ch (w, v, v') x t)%C) ->
      (forall t x, spin01 t -> fermionic x -> (right_part k stB ch VB t (w, x, v') == tB h k ch (w, v, v') x t)%C) ->
      forall x, fermionic x -> (or0 (integrand c k ch diff g S0 stA stB VA VB s (w, v, v') x) == tcore h k ch s (w, v, v') x)%C).
    { intros h stA stB VA VB HA HB x Fx. unfold integrand.
      destruct (value_pair c diff g S0 Hg HS ch w x (proj1 M) Fx) as (z & Ez & Zz). rewrite Ez. cbn [obind or0]. unfold tcore.
      apply sum_ext; try exact Sp; auto. }
    assert (X : forall h f, (forall x, fermionic x -> (f x == tcore h k ch s (w, v, v') x)%C) ->
      (Mbu_Model.bubble_value_prefactor pi ch * Cofq (2 * pi) * Cofq T * frequency_sum pos w f +
       Mbu_Model.bubble_value_prefactor pi ch * Cofq (2 * pi) * Cofq T * tails w f ==
       pre ch * (frequency_sum pos w (tcore h k ch s (w, v, v')) + tails w (tcore h k ch s (w, v, v'))))%C).
    { intros h f H. rewrite (T_ext _ (frequency_sum_T pos) w _ _ H), (T_ext _ Ht w _ _ H). unfold pre. ring. }
    split; apply X; intros x Fx; (apply E; [| |exact Fx]); intros t y Sy Fy; unfold tA, tB, tSPL, tSPR;
    first [apply leftT_reads|apply rightT_reads]; auto; first [apply legs_T_mats|apply legs_T_mf]; eauto using m1, m2.
  Qed.
  Lemma tfamily_core h ch k s l : spin01 s -> matsubara_legs l -> (F h ch k s l == pre ch * JJ h k ch s (natural_T ch l))%C.
  Proof.
    intros Sp M. destruct (tentry_core k ch s (natural_T ch l) Sp (natural_mats ch l M)) as (A & B).
    unfold bubbles_T. destruct h; assumption.
  Qed.

  (** laws of the two sides *)
  Lemma tSPL_m h k ch s l l' : spin01 s -> matsubara_legs l -> legs_eq l l' -> (tSPL h k ch s l == tSPL h k ch s l')%C.
  Proof. intros Sp M E. unfold tSPL. destruct h; eapply partT_m; eauto. Qed.
  Lemma tSPR_m h k ch s l l' : spin01 s -> matsubara_legs l -> legs_eq l l' -> (tSPR h k ch s l == tSPR h k ch s l')%C.
  Proof. intros Sp M E. unfold tSPR. destruct h; eapply partT_m; eauto. Qed.
  Ltac side lem := unfold tSPL, tSPR; repeat match goal with |- context [left_dressed (mirror true ?k)] => rewrite (proj1 (mdressed k)) end;
    repeat match goal with |- context [right_dressed (mirror true ?k)] => rewrite (proj2 (mdressed k)) end; cbn [negb];
    match goal with
    | |- (partT _ ?r ?st ?d GL ?h ?ch ?s ?l == _)%C => etransitivity; [apply (lem uL (phs c) GL PL r st d h ch s l); assumption|cbn [xorb negb]; reflexivity]
    | |- (partT _ ?r ?st ?d GR ?h ?ch ?s ?l == _)%C => etransitivity; [apply (lem uR (phs c) GR PR r st d h ch s l); assumption|cbn [xorb negb]; reflexivity]
    end.
  Lemma tSPL_out h k ch s l : matsubara_legs l -> spin01 s ->
    (tSPL h k ch s l == - tSPL h k (crossed_at ch) (1 - s)%Z (swap_out_f l))%C.
  Proof. intros. destruct h; side partT_out. Qed.
  Lemma tSPR_out h k ch s l : matsubara_legs l -> spin01 s ->
    (tSPR h k ch s l == - tSPR h k (crossed_at ch) (1 - s)%Z (swap_out_f l))%C.
  Proof. intros. destruct h; side partT_out. Qed.
  Lemma tSPL_in h k ch s l : ch <> Cp -> matsubara_legs l -> spin01 s ->
    (tSPL h k ch s l == - tSPR (negb h) (mirror true k) (crossed_at ch) (1 - s)%Z (swap_in_f l))%C.
  Proof. intros Hc; intros. destruct h; destruct ch; try congruence; side partT_in. Qed.
  Lemma tSPR_in h k ch s l : ch <> Cp -> matsubara_legs l -> spin01 s ->
    (tSPR h k ch s l == - tSPL (negb h) (mirror true k) (crossed_at ch) (1 - s)%Z (swap_in_f l))%C.
  Proof. intros Hc; intros. destruct h; destruct ch; try congruence; side partT_in. Qed.
  Lemma tSPL_in_p h k s l : matsubara_legs l -> spin01 s -> (tSPL h k Cp s l == - tSPL h k Cp (1 - s)%Z (swap_in_f l))%C.
  Proof. intros. destruct h; side partT_in. Qed.
  Lemma tSPR_in_p h k s l : matsubara_legs l -> spin01 s -> (tSPR h k Cp s l == - tSPR h k Cp (1 - s)%Z (swap_in_f l))%C.
  Proof. intros. destruct h; side partT_in. Qed.
  Lemma tSPL_conj h k ch s l : ch <> Ct -> matsubara_legs l -> spin01 s ->
    (tSPL h k ch s l == Cconj (tSPR (negb h) (mirror true k) ch s (minus_f (in_out_f l))))%C.
  Proof. intros Hc; intros. destruct h; destruct ch; try congruence; side partT_conj. Qed.
  Lemma tSPR_conj h k ch s l : ch <> Ct -> matsubara_legs l -> spin01 s ->
    (tSPR h k ch s l == Cconj (tSPL (negb h) (mirror true k) ch s (minus_f (in_out_f l))))%C.
  Proof. intros Hc; intros. destruct h; destruct ch; try congruence; side partT_conj. Qed.
  Lemma tSPL_conj_t h k s l : matsubara_legs l -> spin01 s -> (tSPL h k Ct s l == Cconj (tSPL h k Ct s (minus_f (in_out_f l))))%C.
  Proof. intros. destruct h; side partT_conj. Qed.
  Lemma tSPR_conj_t h k s l : matsubara_legs l -> spin01 s -> (tSPR h k Ct s l == Cconj (tSPR h k Ct s (minus_f (in_out_f l))))%C.
  Proof. intros. destruct h; side partT_conj. Qed.
  Lemma tSPL_minus h k ch s l : reversible_T GL -> reversible_T GR -> matsubara_legs l -> spin01 s ->
    (tSPL h k ch s l == Cconj (tSPL h k ch s (minus_f l)))%C.
  Proof. intros. unfold tSPL; destruct h; eapply partT_minus; eauto. Qed.
  Lemma tSPR_minus h k ch s l : reversible_T GL -> reversible_T GR -> matsubara_legs l -> spin01 s ->
    (tSPR h k ch s l == Cconj (tSPR h k ch s (minus_f l)))%C.
  Proof. intros. unfold tSPR; destruct h; eapply partT_minus; eauto. Qed.
  Lemma tSPL_real h k ch s l : phs c = true -> spin01 s -> matsubara_legs l -> (tSPL h k ch s l == Cconj (tSPL h k ch s l))%C.
  Proof. intros. unfold tSPL; destruct h; eapply partT_real; eauto. Qed.
  Lemma tSPR_real h k ch s l : phs c = true -> spin01 s -> matsubara_legs l -> (tSPR h k ch s l == Cconj (tSPR h k ch s l))%C.
  Proof. intros. unfold tSPR; destruct h; eapply partT_real; eauto. Qed.

  Ltac spin_tac := solve [assumption|apply spin01_flip; assumption|apply spin01_flip, spin01_flip; assumption|left; reflexivity|right; reflexivity].
  Ltac lm := solve [apply legs_T_mats; eauto using m1, m2|apply mats_swap_in, legs_T_mats; eauto using m1, m2|apply mats_swap_out, legs_T_mats; eauto using m1, m2|
    apply mats_conj, legs_T_mats; eauto using m1, m2|apply mats_minus, legs_T_mats; eauto using m1, m2].
  Ltac halves w := let B := fresh "B" in assert (B : bosonic w) by (match goal with M : mats (w, _, _) |- _ => exact (proj1 M) end);
    pose proof (lo_opp w B); pose proof (hi_opp w B); pose proof (proj1 (proj2 (proj2 (lo_hi w B)))).
  Ltac lege w := halves w; repeat (apply Logic.conj); cbn [legs_T legs_split swap_in_f swap_out_f in_out_f minus_f n1' n2' n1 n2]; unfold rf in *; lra.
  Ltac conv w := halves w; unfold c1, c2, rf in *; lra.
  Ltac bw := match goal with M : mats (?w, _, _) |- bosonic ?w => exact (proj1 M) end.

  Lemma tcore_m h k ch s f f' x : spin01 s -> mats f -> fermionic x -> trip_eq f f' -> (tcore h k ch s f x == tcore h k ch s f' x)%C.
  Proof.
    intros Sp M Fx E. destruct f as ((w, v), v'), f' as ((w', y), y'). destruct E as (E1 & E2 & E3). cbn [fst snd] in E1, E2, E3.
    unfold tcore. apply sum_ext; [exact Sp| | |].
    - intros t Hs. unfold tA. apply tSPL_m; [assumption|lm|]. apply legs_T_m. repeat (apply Logic.conj); cbn [fst snd]; auto; reflexivity.
    - intros t Hs. unfold tB. apply tSPR_m; [assumption|lm|]. apply legs_T_m. repeat (apply Logic.conj); cbn [fst snd]; auto; reflexivity.
    - unfold tP. cbn [fst snd]. pose proof (lo_m _ _ E1). pose proof (hi_m _ _ E1).
      apply pairT_w; try assumption; try bw; destruct ch; unfold c1, c2; lra.
  Qed.
  Lemma J_w w w' f : bosonic w -> (w' == w \/ w' == - w)%Q -> (J w' f == J w f)%C. Proof. apply (T_even _ HJ). Qed.
  Lemma JJ_m h k ch s f f' : spin01 s -> mats f -> trip_eq f f' -> (JJ h k ch s f == JJ h k ch s f')%C.
  Proof.
    intros Sp M E. unfold JJ. assert (Bw : bosonic (fst (fst f))) by (destruct f as ((w, v), v'); exact (proj1 M)).
    rewrite (T_ext _ HJ _ (tcore h k ch s f) (tcore h k ch s f')) by (intros x Fx; apply tcore_m; assumption).
    symmetry. apply J_w; [exact Bw|]. left. symmetry. exact (proj1 E).
  Qed.
  Lemma tcore_class h k ch s f f' x : spin01 s -> mats f -> mats f' -> fermionic x -> same_class_freqs k f f' ->
    (tcore h k ch s f x == tcore h k ch s f' x)%C.
  Proof.
    intros Sp M M' Fx E. destruct f as ((w, v), v'), f' as ((w', y), y'). destruct E as (E1 & E2).
    assert (Mw : mats (w', v, v')) by (destruct M as (_ & A & B), M' as (D & _); repeat (apply Logic.conj); assumption).
    transitivity (tcore h k ch s (w', v, v') x).
    { apply tcore_m; try assumption. repeat (apply Logic.conj); cbn [fst snd]; auto; reflexivity. }
    unfold tcore. apply sum_ext; [exact Sp| | |reflexivity].
    - intros t Hs. unfold tA. destruct (left_dressed k) eqn:D.
      + apply tSPL_m; [assumption|lm|]. apply legs_T_m.
        destruct k; try discriminate D; repeat (apply Logic.conj); cbn [fst snd]; try reflexivity; try exact E2; apply E2.
      + unfold tSPL. rewrite D. assert (Fy : fermionic y) by apply M'. destruct h; eapply leftT_same_m; eauto using m1, m2.
    - intros t Hs. unfold tB. destruct (right_dressed k) eqn:D.
      + apply tSPR_m; [assumption|lm|]. apply legs_T_m.
        destruct k; try discriminate D; repeat (apply Logic.conj); cbn [fst snd]; try reflexivity; try exact E2; apply E2.
      + unfold tSPR. rewrite D. assert (Fy : fermionic y') by apply M'. destruct h; eapply rightT_same_m; eauto using m1, m2.
  Qed.
  Lemma tcore_out_at h k ch s w v v' x : ch <> Cp -> spin01 s -> mats (w, v, v') -> fermionic x ->
    (tcore h k ch s (w, v, v') x == tcore h k (crossed_at ch) (1 - s) (w, v, v') x)%C.
  Proof.
    intros Hc Sp M Fx. unfold tcore. apply sum_out_at; [exact Hc|exact Sp| | |].
    - intros t Hs. unfold tA. rewrite tSPL_out by (try assumption; lm).
      apply Cneg_m, tSPL_m; [spin_tac|lm|]. destruct ch; try congruence; cbn [crossed_at]; lege w.
    - intros t Hs. unfold tB. rewrite tSPR_out by (try assumption; lm).
      apply Cneg_m, tSPR_m; [spin_tac|lm|]. destruct ch; try congruence; cbn [crossed_at]; lege w.
    - unfold tP. cbn [fst snd]. apply pairT_w; try assumption; try bw; destruct ch; try congruence; reflexivity.
  Qed.
  Lemma tcore_in_at h k ch s w v v' x : ch <> Cp -> spin01 s -> mats (w, v, v') -> fermionic x ->
    (tcore h k ch s (w, v, v') x == tcore (negb h) (mirror true k) (crossed_at ch) (1 - s) (- w, v', v)%Q x)%C.
  Proof.
    intros Hc Sp M Fx. unfold tcore. apply sum_in_at; [exact Hc|exact Sp| | |].
    - intros t Hs. unfold tA, tB. rewrite tSPL_in by (try assumption; lm).
      apply Cneg_m, tSPR_m; [spin_tac|lm|]. destruct ch; try congruence; cbn [crossed_at]; lege w.
    - intros t Hs. unfold tA, tB. rewrite tSPR_in by (try assumption; lm).
      apply Cneg_m, tSPL_m; [spin_tac|lm|]. destruct ch; try congruence; cbn [crossed_at]; lege w.
    - unfold tP. cbn [fst snd]. apply pairT_exchanged; try assumption; try bw; destruct ch; try congruence; cbn [crossed_at]; conv w.
  Qed.
  Lemma tcore_out_p h k s w v v' x : spin01 s -> mats (w, v, v') -> fermionic x ->
    (tcore h k Cp s (w, v, v') x == - tcore h k Cp (1 - s) (w, rf w v, v')%Q x)%C.
  Proof.
    intros Sp M Fx. unfold tcore. rewrite !sum_p by auto using spin01_flip.
    assert (E : (tA h k Cp (w, v, v') x s == - tA h k Cp (w, rf w v, v')%Q x (1 - s)%Z)%C).
    { unfold tA. rewrite tSPL_out by (try assumption; lm). apply Cneg_m, tSPL_m; [spin_tac|lm|]. cbn [crossed_at]; lege w. }
    rewrite E. change (tB h k Cp (w, rf w v, v') x 0) with (tB h k Cp (w, v, v') x 0). change (tP Cp (w, rf w v, v') x) with (tP Cp (w, v, v') x). ring.
  Qed.
  (** exchange of the two internal legs *)
  Lemma tcross_p h k s1 s2 w v v' x x' : spin01 s1 -> spin01 s2 -> mats (w, v, v') -> fermionic x -> (x' == rf w x)%Q ->
    (tA h k Cp (w, v, v') x s1 * tP Cp (w, v, v') x * tB h k Cp (w, v, v') x s2 ==
     tA h k Cp (w, v, v') x' (1 - s1)%Z * tP Cp (w, v, v') x' * tB h k Cp (w, v, v') x' (1 - s2)%Z)%C.
  Proof.
    intros Sp1 Sp2 M Fx Ex.
    assert (EA : (tA h k Cp (w, v, v') x s1 == - tA h k Cp (w, v, v') x' (1 - s1)%Z)%C).
    { unfold tA. rewrite tSPL_in_p by (try assumption; lm). apply Cneg_m, tSPL_m; [spin_tac|lm|lege w]. }
    assert (EB : (tB h k Cp (w, v, v') x s2 == - tB h k Cp (w, v, v') x' (1 - s2)%Z)%C).
    { unfold tB. rewrite tSPR_out by (try assumption; lm). apply Cneg_m, tSPR_m; [spin_tac|lm|cbn [crossed_at]; lege w]. }
    assert (EP : (tP Cp (w, v, v') x == tP Cp (w, v, v') x')%C).
    { unfold tP. cbn [fst snd]. apply pairT_exchanged; try assumption; try bw; conv w. }
    rewrite EA, EB, EP. ring.
  Qed.
  Lemma rf_ext w x x' : bosonic w -> fermionic x -> (x' == rf w x)%Q -> fermionic x'.
  Proof. intros B Fx E. apply (fermionic_ext (rf w x)); [symmetry; exact E|]. apply rf_f; assumption. Qed.
  Lemma tcore_in_p h k s w v v' x x' : spin01 s -> mats (w, v, v') -> fermionic x -> (x' == rf w x)%Q ->
    (tcore h k Cp s (w, v, v') x == - tcore h k Cp (1 - s) (w, v, rf w v')%Q x')%C.
  Proof.
    intros Sp M Fx Ex. unfold tcore. rewrite !sum_p by auto using spin01_flip.
    assert (H0 : spin01 0) by (left; reflexivity).
    assert (Fx' : fermionic x') by (eapply rf_ext; eauto; bw).
    rewrite (tcross_p h k s 0 w v v' x x' Sp H0 M Fx Ex).
    assert (E : (tB h k Cp (w, v, v') x' (1 - 0)%Z == - tB h k Cp (w, v, rf w v') x' 0)%C).
    { unfold tB. rewrite tSPR_in_p by (first [lm|spin_tac]). change (1 - (1 - 0)) with 0.
      apply Cneg_m, tSPR_m; [spin_tac|lm|lege w]. }
    rewrite E. change (tA h k Cp (w, v, rf w v') x' (1 - s)) with (tA h k Cp (w, v, v') x' (1 - s)).
    change (tP Cp (w, v, rf w v') x') with (tP Cp (w, v, v') x'). ring.
  Qed.
  Lemma tcore_conj_a h k s w v v' x x' : spin01 s -> mats (w, v, v') -> fermionic x -> (x' == rf w x)%Q ->
    (tcore h k Ca s (w, v, v') x == Cconj (tcore (negb h) (mirror true k) Ca s (- w, rf w v', rf w v)%Q x'))%C.
  Proof.
    intros Sp M Fx Ex. assert (Hc : Ca <> Ct) by discriminate. unfold tcore. apply sum_conj_a; [exact Sp| | |].
    - intros t Hs. unfold tA, tB. rewrite tSPL_conj by (try assumption; lm). apply Cconj_m, tSPR_m; [spin_tac|lm|lege w].
    - intros t Hs. unfold tA, tB. rewrite tSPR_conj by (try assumption; lm). apply Cconj_m, tSPL_m; [spin_tac|lm|lege w].
    - unfold tP. cbn [fst snd]. apply pairT_minus; try assumption; try bw; conv w.
  Qed.
  Lemma tcore_conj_t h k s w v v' x x' : spin01 s -> mats (w, v, v') -> fermionic x -> (x' == rf w x)%Q ->
    (tcore h k Ct s (w, v, v') x == Cconj (tcore h k Ct s (w, rf w v, rf w v')%Q x'))%C.
  Proof.
    intros Sp M Fx Ex. unfold tcore. apply sum_conj; [exact Sp| | |].
    - intros t Hs. unfold tA. rewrite tSPL_conj_t by (try assumption; lm). apply Cconj_m, tSPL_m; [spin_tac|lm|lege w].
    - intros t Hs. unfold tB. rewrite tSPR_conj_t by (try assumption; lm). apply Cconj_m, tSPR_m; [spin_tac|lm|lege w].
    - unfold tP. cbn [fst snd]. apply pairT_minus_exchanged; try assumption; try bw; conv w.
  Qed.
  Lemma mats_conj_f w v v' : mats (w, v, v') -> mats (- w, rf w v', rf w v)%Q.
  Proof. intros (A & B & D). repeat (apply Logic.conj); auto using rf_f with par. Qed.
  (** the p channel: spin 1 needs the exchange of the internal legs *)
  Lemma tcore_conj_p0 h k w v v' x x' : mats (w, v, v') -> fermionic x -> (x' == rf w x)%Q ->
    (tcore h k Cp 0 (w, v, v') x == Cconj (tcore (negb h) (mirror true k) Cp 0 (- w, rf w v', rf w v)%Q x'))%C /\
    (tcore h k Cp 1 (w, v, v') x == Cconj (tcore (negb h) (mirror true k) Cp 1 (- w, rf w v', rf w v)%Q x))%C.
  Proof.
    intros M Fx Ex. assert (Hc : Cp <> Ct) by discriminate.
    assert (H0 : spin01 0) by (left; reflexivity). assert (H1 : spin01 1) by (right; reflexivity).
    pose proof (mats_conj_f _ _ _ M) as M'. assert (Fx' : fermionic x') by (eapply rf_ext; eauto; bw).
    unfold tcore. rewrite !sum_p by assumption.
    set (h' := negb h). set (k' := mirror true k). set (f' := (- w, rf w v', rf w v)%Q).
    assert (EA : forall t, spin01 t -> (tA h k Cp (w, v, v') x t == Cconj (tB h' k' Cp f' x' t))%C).
    { intros t Hs. unfold tA, tB, f'. rewrite tSPL_conj by (try assumption; lm). apply Cconj_m, tSPR_m; [spin_tac|lm|lege w]. }
    assert (EB : forall t, spin01 t -> (tB h k Cp (w, v, v') x t == Cconj (tA h' k' Cp f' x' t))%C).
    { intros t Hs. unfold tA, tB, f'. rewrite tSPR_conj by (try assumption; lm). apply Cconj_m, tSPL_m; [spin_tac|lm|lege w]. }
    assert (EP : (tP Cp (w, v, v') x == Cconj (tP Cp f' x'))%C).
    { unfold tP, f'. cbn [fst snd]. apply pairT_minus; try assumption; try bw; conv w. }
    rewrite (EA 0 H0), (EA 1 H1), (EB 0 H0), EP. split.
    - rewrite !conj_mul. ring.
    - unfold f'. rewrite (tcross_p h' k' 1 0 (- w)%Q (rf w v') (rf w v) x x' H1 H0 M' Fx).
      + change (1 - 1) with 0. change (1 - 0) with 1. rewrite !conj_mul. ring.
      + halves w. unfold rf in *. lra.
  Qed.
  Lemma tcore_minus h k ch s w v v' x x' : reversible_T GL -> reversible_T GR -> spin01 s -> mats (w, v, v') -> fermionic x -> (x' == rf w x)%Q ->
    (tcore h k ch s (w, v, v') x == Cconj (tcore h k ch s (- w, rf w v, rf w v')%Q x'))%C.
  Proof.
    intros R1 R2 Sp M Fx Ex. unfold tcore. apply sum_conj; [exact Sp| | |].
    - intros t Hs. unfold tA. rewrite tSPL_minus by (try assumption; lm). apply Cconj_m, tSPL_m; [spin_tac|lm|destruct ch; lege w].
    - intros t Hs. unfold tB. rewrite tSPR_minus by (try assumption; lm). apply Cconj_m, tSPR_m; [spin_tac|lm|destruct ch; lege w].
    - unfold tP. cbn [fst snd]. apply pairT_minus; try assumption; try bw; destruct ch; conv w.
  Qed.
  Lemma tcore_real h k ch s f x : phs c = true -> spin01 s -> mats f -> fermionic x -> (tcore h k ch s f x == Cconj (tcore h k ch s f x))%C.
  Proof.
    intros Ph Sp M Fx. destruct f as ((w, v), v'). unfold tcore. apply sum_conj; [exact Sp| | |].
    - intros t Hs. apply tSPL_real; try assumption; lm.
    - intros t Hs. apply tSPR_real; try assumption; lm.
    - unfold tP. cbn [fst snd]. symmetry. apply pairT_real; try assumption; bw.
  Qed.

  (** ** the bubble *)
  Lemma J_neg w A B : (forall x, fermionic x -> A x == - B x)%C -> (J w A == - J w B)%C.
  Proof. intros H. rewrite (T_ext _ HJ w A (fun x => - B x)%C H). apply (T_opp _ HJ). Qed.
  Lemma J_neg_reflect w A B : bosonic w -> (forall x x', fermionic x -> (x' == rf w x)%Q -> A x == - B x')%C -> (J w A == - J w B)%C.
  Proof. intros Bw H. rewrite <- (T_opp _ HJ w B). apply (T_reflect _ HJ w (lo w) (hi w)); [apply lo_hi, Bw|]. intros v v' Fv E. apply H; assumption. Qed.
  Lemma J_conj w A B : (forall x, fermionic x -> A x == Cconj (B x))%C -> (J w A == Cconj (J w B))%C.
  Proof. intros H. rewrite (T_ext _ HJ w _ _ H). apply (T_conj _ HJ). Qed.
  Lemma J_conj_reflect w A B : bosonic w -> (forall x x', fermionic x -> (x' == rf w x)%Q -> A x == Cconj (B x'))%C -> (J w A == Cconj (J w B))%C.
  Proof. intros Bw H. rewrite <- (T_conj _ HJ w B). apply (T_reflect _ HJ w (lo w) (hi w)); [apply lo_hi, Bw|]. intros v v' Fv E. apply H; assumption. Qed.

  Lemma tbubble_class h ch k s f f' l l' : spin01 s -> matsubara_legs l -> matsubara_legs l' -> legs_mf ch f l -> legs_mf ch f' l' ->
    same_class_freqs k f f' -> (F h ch k s l == F h ch k s l')%C.
  Proof.
    intros Sp M M' L L' E. rewrite !tfamily_core by assumption. apply Cmul_m; [reflexivity|].
    pose proof (legs_mf_inj ch (natural_T ch l) f l (natural_mf ch l M) L) as N.
    pose proof (legs_mf_inj ch (natural_T ch l') f' l' (natural_mf ch l' M') L') as N'.
    pose proof (natural_mats ch l M) as Q1. pose proof (natural_mats ch l' M') as Q2.
    assert (X : same_class_freqs k (natural_T ch l) (natural_T ch l')).
    { destruct (natural_T ch l) as ((x1, x2), x3), (natural_T ch l') as ((x4, x5), x6), f as ((w0, v), v'), f' as ((w1, y), y').
      destruct N as (N1 & N2 & N3), N' as (M1 & M2 & M3). destruct E as (E1 & E2). cbn [fst snd] in *. cbn [same_class_freqs].
      split; [rewrite N1, M1; exact E1|]. destruct k; rewrite ?N2, ?N3, ?M2, ?M3; try exact E2; exact I. }
    unfold JJ. rewrite (T_ext _ HJ _ (tcore h k ch s (natural_T ch l)) (tcore h k ch s (natural_T ch l')))
      by (intros x Fx; apply tcore_class; assumption).
    symmetry. apply J_w.
    - destruct (natural_T ch l) as ((x1, x2), x3). exact (proj1 Q1).
    - left. destruct (natural_T ch l) as ((x1, x2), x3), (natural_T ch l') as ((x4, x5), x6). symmetry. exact (proj1 X).
  Qed.
  (** natural frequencies are determined by the legs *)
  Lemma natural_is ch f l : matsubara_legs l -> mats f -> legs_eq l (legs_T ch f) -> trip_eq f (natural_T ch l).
  Proof.
    intros M Mf E. apply (legs_mf_inj ch f (natural_T ch l) l); [|apply natural_mf, M].
    apply (legs_mf_eq ch f (legs_T ch f)); [|apply legs_T_mf, Mf]. destruct E as (A & B & C & D); repeat (apply Logic.conj); symmetry; assumption.
  Qed.
  Lemma natural_legs_T ch l : matsubara_legs l -> legs_eq l (legs_T ch (natural_T ch l)).
  Proof.
    intros M. pose proof (natural_mf ch l M) as X. pose proof (natural_mats ch l M) as B. destruct (natural_T ch l) as ((w, v), v').
    destruct X as (a & b & S & E1 & E2 & E3 & E4). destruct (half_split_unique w a b (lo w) (hi w) S (lo_hi w (proj1 B))) as (Ea & Eb).
    destruct ch; repeat (apply Logic.conj); cbn [legs_T legs_split n1' n2' n1 n2] in *; lra.
  Qed.
  Ltac moved w := match goal with |- legs_eq (?op ?l) _ => halves w;
    match goal with E : legs_eq l (legs_T _ _) |- _ => destruct E as (? & ? & ? & ?) end;
    repeat (apply Logic.conj); cbn [legs_T legs_split swap_in_f swap_out_f in_out_f minus_f n1' n2' n1 n2] in *; unfold rf; lra end.

  Lemma tbubble_out h ch ch' fl k s l : carried swap_out_k ch ch' fl -> matsubara_legs l -> spin01 s ->
    (F h ch k s l == - F (xorb h fl) ch' (mirror fl k) (1 - s)%Z (swap_out_f l))%C.
  Proof.
    intros Ca0 Ml Sp. pose proof (mats_swap_out l Ml) as Ml'. rewrite !tfamily_core by (auto using spin01_flip). pose proof (spin01_flip s Sp) as Sp'.
    assert (H : (ch <> Cp /\ ch' = crossed_at ch \/ ch = Cp /\ ch' = Cp) /\ fl = false).
    { destruct ch, ch', fl; try discriminate Ca0; split; try reflexivity; try (left; split; [discriminate|reflexivity]); right; split; reflexivity. }
    pose proof (natural_mats ch l Ml) as M. pose proof (natural_legs_T ch l Ml) as E.
    destruct (natural_T ch l) as ((w, v), v') eqn:Ef.
    destruct H as ([(Hc & ->) | (-> & ->)] & ->); rewrite Bool.xorb_false_r; cbn [mirror].
    - rewrite pre_crossed by exact Hc.
      rewrite <- (JJ_m h k (crossed_at ch) (1 - s) (w, v, v') (natural_T (crossed_at ch) (swap_out_f l)) Sp' M).
      2: { apply natural_is; try assumption. destruct ch; try congruence; cbn [crossed_at]; moved w. }
      unfold JJ. cbn [fst snd]. rewrite (T_ext _ HJ w (tcore h k ch s (w, v, v')) (tcore h k (crossed_at ch) (1 - s) (w, v, v'))); [ring|].
      intros x Fx. apply tcore_out_at; assumption.
    - assert (M' : mats (w, rf w v, v')) by (destruct M as (A & B & D); repeat (apply Logic.conj); auto using rf_f).
      rewrite <- (JJ_m h k Cp (1 - s) (w, rf w v, v') (natural_T Cp (swap_out_f l)) Sp' M').
      2: { apply natural_is; try assumption. moved w. }
      unfold JJ. cbn [fst snd]. rewrite (J_neg w (tcore h k Cp s (w, v, v')) (tcore h k Cp (1 - s) (w, rf w v, v'))); [ring|].
      intros x Fx. apply tcore_out_p; assumption.
  Qed.
  Lemma tbubble_in h ch ch' fl k s l : carried swap_in_k ch ch' fl -> matsubara_legs l -> spin01 s ->
    (F h ch k s l == - F (xorb h fl) ch' (mirror fl k) (1 - s)%Z (swap_in_f l))%C.
  Proof.
    intros Ca0 Ml Sp. pose proof (mats_swap_in l Ml) as Ml'. rewrite !tfamily_core by (auto using spin01_flip). pose proof (spin01_flip s Sp) as Sp'.
    assert (H : (ch <> Cp /\ ch' = crossed_at ch /\ fl = true) \/ (ch = Cp /\ ch' = Cp /\ fl = false)).
    { destruct ch, ch', fl; try discriminate Ca0; try (left; split; [discriminate|split; reflexivity]); right; repeat split; reflexivity. }
    pose proof (natural_mats ch l Ml) as M. pose proof (natural_legs_T ch l Ml) as E.
    destruct (natural_T ch l) as ((w, v), v') eqn:Ef.
    destruct H as [(Hc & -> & ->) | (-> & -> & ->)].
    - rewrite Bool.xorb_true_r. rewrite pre_crossed by exact Hc.
      assert (M' : mats (- w, v', v)%Q) by (destruct M as (A & B & D); repeat (apply Logic.conj); auto with par).
      rewrite <- (JJ_m (negb h) (mirror true k) (crossed_at ch) (1 - s) (- w, v', v)%Q (natural_T (crossed_at ch) (swap_in_f l)) Sp' M').
      2: { apply natural_is; try assumption. destruct ch; try congruence; cbn [crossed_at]; moved w. }
      unfold JJ. cbn [fst snd].
      rewrite (T_ext _ HJ w (tcore h k ch s (w, v, v')) (tcore (negb h) (mirror true k) (crossed_at ch) (1 - s) (- w, v', v)%Q)).
      2: { intros x Fx. apply tcore_in_at; assumption. }
      rewrite (J_w w (- w)%Q) by (first [bw|right; reflexivity]). ring.
    - rewrite Bool.xorb_false_r. cbn [mirror].
      assert (M' : mats (w, v, rf w v')) by (destruct M as (A & B & D); repeat (apply Logic.conj); auto using rf_f).
      rewrite <- (JJ_m h k Cp (1 - s) (w, v, rf w v') (natural_T Cp (swap_in_f l)) Sp' M').
      2: { apply natural_is; try assumption. moved w. }
      unfold JJ. cbn [fst snd]. rewrite (J_neg_reflect w (tcore h k Cp s (w, v, v')) (tcore h k Cp (1 - s) (w, v, rf w v'))); [ring|bw|].
      intros x x' Fx Ex. apply tcore_in_p; assumption.
  Qed.
  Lemma tbubble_conj h ch ch' fl k s l : carried in_out_k ch ch' fl -> matsubara_legs l -> spin01 s ->
    (F h ch k s l == Cconj (F (xorb h fl) ch' (mirror fl k) s (minus_f (in_out_f l))))%C.
  Proof.
    intros Ca0 Ml Sp. pose proof (mats_conj l Ml) as Ml'. rewrite !tfamily_core by assumption. rewrite conj_mul, pre_real.
    assert (H : ch' = ch /\ fl = fl_conj ch) by (destruct ch, ch', fl; try discriminate Ca0; split; reflexivity).
    destruct H as (-> & ->).
    pose proof (natural_mats ch l Ml) as M. pose proof (natural_legs_T ch l Ml) as E.
    destruct (natural_T ch l) as ((w, v), v') eqn:Ef.
    apply Cmul_m; [reflexivity|]. destruct ch; cbn [fl_conj]; rewrite ?Bool.xorb_true_r, ?Bool.xorb_false_r.
    - rewrite <- (JJ_m (negb h) (mirror true k) Ca s (- w, rf w v', rf w v)%Q (natural_T Ca (minus_f (in_out_f l))) Sp (mats_conj_f _ _ _ M)).
      2: { apply natural_is; try assumption; [apply mats_conj_f, M|]. destruct E as (? & ? & ? & ?). halves w.
           repeat (apply Logic.conj); cbn [legs_T legs_split in_out_f minus_f n1' n2' n1 n2] in *; unfold rf; lra. }
      unfold JJ. cbn [fst snd]. rewrite (J_w w (- w)%Q) by (first [bw|right; reflexivity]).
      apply J_conj_reflect; [bw|]. intros x x' Fx Ex. apply tcore_conj_a; assumption.
    - rewrite <- (JJ_m (negb h) (mirror true k) Cp s (- w, rf w v', rf w v)%Q (natural_T Cp (minus_f (in_out_f l))) Sp (mats_conj_f _ _ _ M)).
      2: { apply natural_is; try assumption; [apply mats_conj_f, M|]. destruct E as (? & ? & ? & ?). halves w.
           repeat (apply Logic.conj); cbn [legs_T legs_split in_out_f minus_f n1' n2' n1 n2] in *; unfold rf; lra. }
      unfold JJ. cbn [fst snd]. rewrite (J_w w (- w)%Q) by (first [bw|right; reflexivity]).
      destruct Sp as [-> | ->].
      + apply J_conj_reflect; [bw|]. intros x x' Fx Ex. apply (tcore_conj_p0 h k w v v' x x'); assumption.
      + apply J_conj. intros x Fx. apply (tcore_conj_p0 h k w v v' x (rf w x)); try assumption. reflexivity.
    - assert (M' : mats (w, rf w v, rf w v')) by (destruct M as (A & B & D); repeat (apply Logic.conj); auto using rf_f).
      rewrite <- (JJ_m h (mirror false k) Ct s (w, rf w v, rf w v') (natural_T Ct (minus_f (in_out_f l))) Sp M').
      2: { apply natural_is; try assumption. destruct E as (? & ? & ? & ?). halves w.
           repeat (apply Logic.conj); cbn [legs_T legs_split in_out_f minus_f n1' n2' n1 n2] in *; unfold rf; lra. }
      unfold JJ. cbn [fst snd mirror]. apply J_conj_reflect; [bw|]. intros x x' Fx Ex. apply tcore_conj_t; assumption.
  Qed.
  Lemma tbubble_reversal h ch k s l : reversible_T GL -> reversible_T GR -> spin01 s -> matsubara_legs l ->
    (F h ch k s l == Cconj (F h ch k s (minus_f l)))%C.
  Proof.
    intros R1 R2 Sp Ml. pose proof (mats_minus l Ml) as Ml'. rewrite !tfamily_core by assumption. rewrite conj_mul, pre_real.
    pose proof (natural_mats ch l Ml) as M. pose proof (natural_legs_T ch l Ml) as E.
    destruct (natural_T ch l) as ((w, v), v') eqn:Ef. apply Cmul_m; [reflexivity|].
    assert (M' : mats (- w, rf w v, rf w v')%Q) by (destruct M as (A & B & D); repeat (apply Logic.conj); auto using rf_f with par).
    rewrite <- (JJ_m h k ch s (- w, rf w v, rf w v')%Q (natural_T ch (minus_f l)) Sp M').
    2: { apply natural_is; try assumption. destruct ch; moved w. }
    unfold JJ. cbn [fst snd]. rewrite (J_w w (- w)%Q) by (first [bw|right; reflexivity]).
    apply J_conj_reflect; [bw|]. intros x x' Fx Ex. apply tcore_minus; assumption.
  Qed.
  Lemma tbubble_real h ch k s l : phs c = true -> spin01 s -> matsubara_legs l -> (im (F h ch k s l) == 0)%Q.
  Proof.
    intros Ph Sp Ml.
    assert (E : (F h ch k s l == Cconj (F h ch k s l))%C).
    { rewrite !tfamily_core by assumption. rewrite conj_mul, pre_real. apply Cmul_m; [reflexivity|]. unfold JJ.
      apply J_conj. intros q Fq. apply tcore_real; try assumption. apply natural_mats, Ml. }
    destruct E as (_ & E). unfold Cconj in E. cbn [im] in E. lra.
  Qed.
End Bubble.
