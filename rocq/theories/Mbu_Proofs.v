(** Proofs for Mbu_Props: the lines, the parts of the vertices and the integrand. *)
From Coq Require Import QArith Lqa.
From Verif Require Import Prelude Cplx Keld_Model Keld_Spec Keld_Proofs Keld_Proofs2 Util_Spec Sym_Model Sym_Spec Sym_Proofs Sym_Proofs2
  Tab_Model Tab_Spec Rd_Model Rd_Spec Dec_Model Bub_Model Bub_Spec Bub_Proofs Bub_Proofs2 Bub_Proofs3 Mbu_Model Mbu_Spec.
Open Scope Z_scope.

(** ** lines *)
Section Lines.
  Variables (c : cfg) (diff : bool) (g s : Q -> cplx).
  Hypotheses (Hg : line_ok c g) (Hs : line_ok c s).
  Notation P := (value_Matsubara c).
  Lemma pair_w ch ch' (w w' v v' : Q) : (convert_1 ch v w == convert_1 ch' v' w')%Q -> (convert_2 ch v w == convert_2 ch' v' w')%Q ->
    (P ch diff g s w v == P ch' diff g s w' v')%C.
  Proof.
    intros E1 E2. destruct Hg as (Eg & _), Hs as (Es & _). unfold value_Matsubara.
    assert (E : ((if diff then g (convert_1 ch v w) * s (convert_2 ch v w) + s (convert_1 ch v w) * g (convert_2 ch v w)
                  else g (convert_1 ch v w) * g (convert_2 ch v w)) ==
                 (if diff then g (convert_1 ch' v' w') * s (convert_2 ch' v' w') + s (convert_1 ch' v' w') * g (convert_2 ch' v' w')
                  else g (convert_1 ch' v' w') * g (convert_2 ch' v' w')))%C).
    { destruct diff; rewrite (Eg _ _ E1), (Eg _ _ E2), ?(Es _ _ E1), ?(Es _ _ E2); reflexivity. }
    destruct (phs c); [rewrite E|]; try exact E; reflexivity.
  Qed.
  Lemma pair_exchanged ch ch' (w w' v v' : Q) : (convert_1 ch v w == convert_2 ch' v' w')%Q -> (convert_2 ch v w == convert_1 ch' v' w')%Q ->
    (P ch diff g s w v == P ch' diff g s w' v')%C.
  Proof.
    intros E1 E2. destruct Hg as (Eg & _), Hs as (Es & _). unfold value_Matsubara.
    assert (E : ((if diff then g (convert_1 ch v w) * s (convert_2 ch v w) + s (convert_1 ch v w) * g (convert_2 ch v w)
                  else g (convert_1 ch v w) * g (convert_2 ch v w)) ==
                 (if diff then g (convert_1 ch' v' w') * s (convert_2 ch' v' w') + s (convert_1 ch' v' w') * g (convert_2 ch' v' w')
                  else g (convert_1 ch' v' w') * g (convert_2 ch' v' w')))%C).
    { destruct diff; rewrite (Eg _ _ E1), (Eg _ _ E2), ?(Es _ _ E1), ?(Es _ _ E2); ring. }
    destruct (phs c); [rewrite E|]; try exact E; reflexivity.
  Qed.
  Lemma odd_real (f : Q -> cplx) v v' : line_ok c f -> phs c = true -> (v' == - v)%Q -> (f v' == - Cconj (f v))%C.
  Proof.
    intros (Ef & H) Ph E. rewrite (Ef _ _ E). specialize (H v). rewrite Ph in H. destruct H as (I & ->).
    split; unfold Cneg, Cconj; cbn [re im]; try rewrite I; ring.
  Qed.
  Lemma conj_even (f : Q -> cplx) v v' : line_ok c f -> phs c = false -> (v' == - v)%Q -> (f v' == Cconj (f v))%C.
  Proof. intros (Ef & H) Ph E. rewrite (Ef _ _ E). specialize (H v). rewrite Ph in H. exact H. Qed.
  Lemma cscale_conj q x : (Cconj (Cscale q x) == Cscale q (Cconj x))%C.
  Proof. split; unfold Cconj, Cscale; cbn [re im]; ring. Qed.
  Lemma pair_minus ch (w w' v v' : Q) : (w' == - w)%Q -> (v' == - v)%Q ->
    (P ch diff g s w v == Cconj (P ch diff g s w' v'))%C.
  Proof.
    intros Ew Ev.
    assert (E1 : (convert_1 ch v w == - convert_1 ch v' w')%Q) by (destruct ch; unfold convert_1; rewrite Ew, Ev; ring).
    assert (E2 : (convert_2 ch v w == - convert_2 ch v' w')%Q) by (destruct ch; unfold convert_2; rewrite Ew, Ev; ring).
    unfold value_Matsubara. destruct (phs c) eqn:Ph.
    - rewrite cscale_conj. apply Cscale_m; [reflexivity|].
      destruct diff; rewrite ?conj_add, ?conj_mul;
      rewrite (odd_real g _ _ Hg Ph E1), (odd_real g _ _ Hg Ph E2), ?(odd_real s _ _ Hs Ph E1), ?(odd_real s _ _ Hs Ph E2); ring.
    - destruct diff; rewrite ?conj_add, ?conj_mul;
      rewrite (conj_even g _ _ Hg Ph E1), (conj_even g _ _ Hg Ph E2), ?(conj_even s _ _ Hs Ph E1), ?(conj_even s _ _ Hs Ph E2); ring.
  Qed.
  Lemma pair_real ch (w v : Q) : phs c = true -> (Cconj (P ch diff g s w v) == P ch diff g s w v)%C.
  Proof.
    intros Ph. unfold value_Matsubara. rewrite Ph, cscale_conj. apply Cscale_m; [reflexivity|].
    assert (R : forall f, line_ok c f -> forall x, (Cconj (f x) == f x)%C).
    { intros f (_ & H) x. specialize (H x). rewrite Ph in H. destruct H as (I & _). split; unfold Cconj; cbn [re im]; [reflexivity|rewrite I; reflexivity]. }
    destruct diff; rewrite ?conj_add, ?conj_mul, ?(R g Hg), ?(R s Hs); reflexivity.
  Qed.
End Lines.

(** ** parts of a vertex *)
Lemma k1111_ok : klegs_ok k1111. Proof. repeat split; left; reflexivity. Qed.
Section Parts.
  Variables (c : cfg) (u : Q).
  Hypothesis Mc : mf c = false.
  Hypothesis Kc : keldysh c = false.
  Lemma bare_value s : spin01 s -> (bare c u s k1111 == Cofq (if s =? 0 then u else - u))%C.
  Proof.
    intros Sp. unfold bare, irred_expanded, irred_initialize. rewrite Kc. change (kcode k1111 =? 0) with true. cbv iota.
    destruct Sp as [-> | ->]; bares; split; unfold Cmul, Cofq; cbn [re im]; ring.
  Qed.
  Section Reading.
    Variables (G : family) (h : bool) (V : reader) (s : Z).
    Hypothesis RV : reads_matsubara u G h V.
    Hypothesis Sp : spin01 s.
    Lemma mreads_value ch ch' f l : legs_are false ch' f l ->
      exists z, r_value false false 3 ch (Bch ch') (get_r (V s 0) ch) f = Some z /\ (z == total G h ch s k1111 l)%C.
    Proof.
      intros L. destruct (RV s Sp) as (R & _). destruct (conv_legs ch ch' f) as (g & T & E). unfold r_value. rewrite T. cbn [obind].
      change (2 <=? 3) with true. change (3 <=? 3) with true. cbv iota. eexists. split; [reflexivity|].
      assert (L' : legs_are false ch g l).
      { destruct L as (A & B & C & D), E as (A' & B' & C' & D'). repeat (apply Logic.conj);
        rewrite ?A', ?B', ?C', ?D'; assumption. }
      unfold total. rewrite !(R ch _ g l L'). reflexivity.
    Qed.
    Lemma mreads_others ch f l : legs_are false ch f l ->
      exists z, gammaRb false false 3 ch (V s 0) f = Some z /\ (z == others G h ch s k1111 l)%C.
    Proof.
      intros L. unfold gammaRb.
      destruct (mreads_value Ca ch f l L) as (za & Ea & Za).
      destruct (mreads_value Cp ch f l L) as (zp & Ep & Zp).
      destruct (mreads_value Ct ch f l L) as (zt & Et & Zt).
      destruct ch; rewrite ?Ea, ?Ep, ?Et; cbn [oadd obind others]; eexists; (split; [reflexivity|]);
      rewrite ?Za, ?Zp, ?Zt; reflexivity.
    Qed.
    Lemma mleft_reads k st ch f l : legs_are false ch f l ->
      (left_part k st ch V s 0 f == spec_part c u false st (left_dressed k) G h ch s k1111 l)%C.
    Proof.
      intros L. destruct (mreads_others ch f l L) as (zo & Eo & Zo).
      destruct (RV s Sp) as (R & RB). assert (Rk : forall k, (get_r (V s 0) ch k f == G h ch k s k1111 l)%C) by (intros; apply R; assumption).
      rewrite <- (bare_value s Sp) in RB.
      unfold left_part, spec_part. destruct (left_dressed k).
      - unfold g_left_diff, f_left_diff, r_left_diff. rewrite Eo. destruct st;
        repeat match goal with |- context [3 =? ?n] => change (3 =? n) with false || change (3 =? n) with true end;
        change (2 <=? 3) with true; cbn [is_r_irred is_diff oadd obind or0 mirror]; rewrite ?Rk, ?Zo; ring.
      - unfold g_left_same, f_left_same, r_left_same. destruct st;
        change (3 =? 1) with false; change (1 <? 3) with true; cbn [is_r_irred oadd obind or0 mirror]; rewrite ?Rk, ?RB; ring.
    Qed.
    Lemma mright_reads k st ch f l : legs_are false ch f l ->
      (right_part k st ch V s 0 f == spec_part c u true st (right_dressed k) G h ch s k1111 l)%C.
    Proof.
      intros L. destruct (mreads_others ch f l L) as (zo & Eo & Zo).
      destruct (RV s Sp) as (R & RB). assert (Rk : forall k, (get_r (V s 0) ch k f == G h ch k s k1111 l)%C) by (intros; apply R; assumption).
      rewrite <- (bare_value s Sp) in RB.
      unfold right_part, spec_part. destruct (right_dressed k).
      - unfold g_right_diff, f_right_diff, r_right_diff. rewrite Eo. destruct st;
        repeat match goal with |- context [3 =? ?n] => change (3 =? n) with false || change (3 =? n) with true end;
        change (2 <=? 3) with true; cbn [is_r_irred is_diff oadd obind or0 mirror]; rewrite ?Rk, ?Zo; ring.
      - unfold g_right_same, f_right_same, r_right_same. destruct st;
        change (3 =? 1) with false; change (1 <? 3) with true; cbn [is_r_irred oadd obind or0 mirror]; rewrite ?Rk, ?RB; ring.
    Qed.
  End Reading.

  Section Family.
    Variable G : family.
    Hypothesis PG : physical c false G.
    Lemma mfamily_m h ch k s l l' : spin01 s -> conserved l -> legs_eq l l' -> (G h ch k s k1111 l == G h ch k s k1111 l')%C.
    Proof.
      intros Sp Co E. apply (of_class_freqs _ _ _ PG h ch k s k1111 (natural ch l) (natural ch l)); rewrite ?Mc; try assumption.
      - apply k1111_ok.
      - apply natural_legs, Co.
      - pose proof (natural_legs ch l Co) as (A & B & C & D). destruct E as (A' & B' & C' & D').
        repeat (apply Logic.conj); rewrite <- ?A', <- ?B', <- ?C', <- ?D'; assumption.
      - destruct (natural ch l) as ((x, y), z). destruct k; repeat (apply Logic.conj); try exact I; reflexivity.
    Qed.
    Lemma mtotal_m h ch s l l' : spin01 s -> conserved l -> legs_eq l l' -> (total G h ch s k1111 l == total G h ch s k1111 l')%C.
    Proof. intros Sp Co E. unfold total. rewrite !(mfamily_m h ch _ s l l' Sp Co E). reflexivity. Qed.
    Lemma mpart_m right st d h ch s l l' : spin01 s -> conserved l -> legs_eq l l' ->
      (spec_part c u right st d G h ch s k1111 l == spec_part c u right st d G h ch s k1111 l')%C.
    Proof.
      intros Sp Co E. unfold spec_part. destruct d, (is_r_irred st), (is_diff st), ch; cbn [others];
      rewrite ?(mtotal_m h _ s l l' Sp Co E), ?(mfamily_m h _ _ s l l' Sp Co E); reflexivity.
    Qed.
    Lemma mleft_same_m st h ch s w v x v' : spin01 s ->
      (spec_part c u false st false G h ch s k1111 (legs_of ch (w, v, x)) == spec_part c u false st false G h ch s k1111 (legs_of ch (w, v', x)))%C.
    Proof.
      intros Sp. unfold spec_part. destruct (is_r_irred st); [reflexivity|].
      assert (E : forall k, k = k1 \/ k = k2b -> (G h ch k s k1111 (legs_of ch (w, v, x)) == G h ch k s k1111 (legs_of ch (w, v', x)))%C).
      { intros k Hk. apply (of_class_freqs _ _ _ PG h ch k s k1111 (w, v, x) (w, v', x)); rewrite ?Mc; try assumption.
        - apply k1111_ok.
        - apply legs_eq_refl.
        - apply legs_eq_refl.
        - destruct Hk as [-> | ->]; split; try exact I; reflexivity. }
      rewrite (E k1), (E (mirror false k2b)) by (cbn [mirror]; auto). reflexivity.
    Qed.
    Lemma mright_same_m st h ch s w v x v' : spin01 s ->
      (spec_part c u true st false G h ch s k1111 (legs_of ch (w, x, v)) == spec_part c u true st false G h ch s k1111 (legs_of ch (w, x, v')))%C.
    Proof.
      intros Sp. unfold spec_part. destruct (is_r_irred st); [reflexivity|].
      assert (E : forall k, k = k1 \/ k = k2 -> (G h ch k s k1111 (legs_of ch (w, x, v)) == G h ch k s k1111 (legs_of ch (w, x, v')))%C).
      { intros k Hk. apply (of_class_freqs _ _ _ PG h ch k s k1111 (w, x, v) (w, x, v')); rewrite ?Mc; try assumption.
        - apply k1111_ok.
        - apply legs_eq_refl.
        - apply legs_eq_refl.
        - destruct Hk as [-> | ->]; split; try exact I; reflexivity. }
      rewrite (E k1), (E (mirror true k2b)) by (cbn [mirror]; auto). reflexivity.
    Qed.

    (** the operations as instances of [spec_part_law] *)
    Definition cj (_ : klegs) (x : cplx) : cplx := Cconj x.
    Lemma kcode_swap P kl : P = swap_in_k \/ P = swap_out_k -> klegs_ok kl -> (kcode (P kl) =? 0) = (kcode kl =? 0).
    Proof. intros HP Hk. destruct (klof_kcode kl Hk) as (a & b & d & e & ->). destruct HP as [-> | ->]; destruct a, b, d, e; reflexivity. Qed.
    Lemma mbare_swap P : P = swap_in_k \/ P = swap_out_k -> forall s kl, klegs_ok kl -> spin01 s ->
      (bare c u s kl == neg_of kl (bare c u (1 - s) (P kl)))%C.
    Proof.
      intros HP s kl Hk Sp. unfold bare, irred_expanded, irred_initialize, neg_of. rewrite Kc, (kcode_swap P kl HP Hk).
      destruct (kcode kl =? 0), Sp as [-> | ->]; bares; split; unfold Cmul, Cneg, Cofq, C0; cbn [re im]; ring.
    Qed.
    Lemma mbare_real s kl : (bare c u s kl == Cconj (bare c u s kl))%C.
    Proof.
      unfold bare, irred_expanded, irred_initialize. rewrite Kc.
      destruct (kcode kl =? 0), (s =? 2), (s =? 0); split; unfold Cmul, Cconj, Cofq, C0; cbn [re im]; ring.
    Qed.
    Notation part := (spec_part c u).
    Lemma mpart_in right st d h ch s l : operand_ok st G -> conserved l -> spin01 s ->
      (part right st d G h ch s k1111 l ==
       - part (xorb right (fl_in ch)) st d G (xorb h (fl_in ch)) (crossed_at ch) (1 - s)%Z k1111 (swap_in_f l))%C.
    Proof.
      intros Ok Co Sp.
      apply (spec_part_law c u G neg_of swap_in_k swap_in_f (fun s => 1 - s) crossed_at fl_in); auto using k1111_ok.
      - intros; unfold neg_of; ring.
      - intros; unfold neg_of; ring.
      - intros k x y E; unfold neg_of; rewrite E; reflexivity.
      - intros h' ch' k s' kl' l' Hk Co' Sp'. unfold neg_of.
        rewrite (exchange_in _ _ _ PG h' ch' (crossed_at ch') (fl_in ch') k s' kl' l') by (try assumption; destruct ch'; reflexivity).
        destruct k; apply cscale_neg1.
      - apply mbare_swap. auto.
    Qed.
    Lemma mpart_out right st d h ch s l : operand_ok st G -> conserved l -> spin01 s ->
      (part right st d G h ch s k1111 l == - part right st d G h (crossed_at ch) (1 - s)%Z k1111 (swap_out_f l))%C.
    Proof.
      intros Ok Co Sp.
      rewrite (spec_part_law c u G neg_of swap_out_k swap_out_f (fun s => 1 - s) crossed_at (fun _ => false)) with (right := right); auto using k1111_ok.
      - unfold neg_of. rewrite !Bool.xorb_false_r. reflexivity.
      - intros; unfold neg_of; ring.
      - intros; unfold neg_of; ring.
      - intros k x y E; unfold neg_of; rewrite E; reflexivity.
      - intros h' ch' k s' kl' l' Hk' Co' Sp'. unfold neg_of.
        rewrite (exchange_out _ _ _ PG h' ch' (crossed_at ch') false k s' kl' l') by (try assumption; destruct ch'; reflexivity).
        destruct k; apply cscale_neg1.
      - apply mbare_swap. auto.
    Qed.
    Lemma cj_laws : (forall kl x y, (cj kl (x + y) == cj kl x + cj kl y)%C) /\ (forall kl, (cj kl C0 == C0)%C) /\
      (forall kl x y, (x == y)%C -> (cj kl x == cj kl y)%C).
    Proof. unfold cj. split; [intros; apply conj_add|]. split; [intros; apply conj_0|]. intros kl x y E; rewrite E; reflexivity. Qed.
    Lemma mpart_conj right st d h ch s l : operand_ok st G -> conserved l -> spin01 s ->
      (part right st d G h ch s k1111 l ==
       Cconj (part (xorb right (fl_conj ch)) st d G (xorb h (fl_conj ch)) ch s k1111 (minus_f (in_out_f l))))%C.
    Proof.
      intros Ok Co Sp. destruct cj_laws as (L1 & L2 & L3).
      apply (spec_part_law c u G cj (fun kl => kl) (fun l => minus_f (in_out_f l)) (fun s => s) (fun ch => ch) fl_conj); auto using k1111_ok.
      - intros h' ch' k s' kl' l' Hk Co' Sp'.
        rewrite (conjugation_matsubara _ _ _ PG Kc h' ch' ch' (fl_conj ch') k s' kl' l') by (try assumption; destruct ch'; reflexivity).
        reflexivity.
      - intros s' kl' _ _. apply mbare_real.
    Qed.
    Lemma mpart_minus right st d h ch s l : reversible c G -> operand_ok st G -> conserved l -> spin01 s ->
      (part right st d G h ch s k1111 l == Cconj (part right st d G h ch s k1111 (minus_f l)))%C.
    Proof.
      intros RG Ok Co Sp. destruct cj_laws as (L1 & L2 & L3).
      rewrite (spec_part_law c u G cj (fun kl => kl) minus_f (fun s => s) (fun ch => ch) (fun _ => false)) with (right := right); auto using k1111_ok.
      - unfold cj. rewrite !Bool.xorb_false_r. reflexivity.
      - intros h' ch' k s' kl' l' Hk' Co' Sp'. rewrite (reversal_matsubara _ _ RG Kc h' ch' k s' kl' l' Co').
        rewrite Bool.xorb_false_r. destruct k; reflexivity.
      - intros s' kl' _ _. apply mbare_real.
    Qed.
    Lemma mpart_real right st d h ch s l : phs c = true -> (Cconj (part right st d G h ch s k1111 l) == part right st d G h ch s k1111 l)%C.
    Proof.
      intros Ph.
      assert (R : forall h ch k s kl l, (Cconj (G h ch k s kl l) == G h ch k s kl l)%C).
      { intros. pose proof (real_matsubara _ _ _ PG Kc Ph h0 ch0 k s0 kl l0) as I. split; unfold Cconj; cbn [re im]; [reflexivity|rewrite I; reflexivity]. }
      unfold spec_part, others, total. destruct d, (is_r_irred st), (is_diff st), ch;
      rewrite ?conj_add, ?conj_0, ?R, <- ?mbare_real; reflexivity.
    Qed.
  End Family.
End Parts.

(** ** the spin sum *)
Section Sums.
  Notation sum := sum_over_internal_scalar.
  Lemma sum_ext ch s (A A' B B' : Z -> cplx) P P' : spin01 s -> (forall t, spin01 t -> (A t == A' t)%C) ->
    (forall t, spin01 t -> (B t == B' t)%C) -> (P == P')%C -> (sum ch s A B P == sum ch s A' B' P')%C.
  Proof.
    intros Sp HA HB HP. assert (S0 : spin01 0) by (left; reflexivity). assert (S1 : spin01 1) by (right; reflexivity).
    unfold sum. change (1 - 1) with 0. destruct Sp as [-> | ->], ch; cbv zeta iota;
    rewrite ?(HA 0 S0), ?(HA 1 S1), ?(HB 0 S0), ?(HB 1 S1), HP; reflexivity.
  Qed.
  Ltac spins := change (1 - 1) with 0; change (1 - 0) with 1.
  Lemma sum_out_at ch s (A A' B B' : Z -> cplx) P P' : ch <> Cp -> spin01 s -> (forall t, spin01 t -> (A t == - A' (1 - t)%Z)%C) ->
    (forall t, spin01 t -> (B t == - B' (1 - t)%Z)%C) -> (P == P')%C -> (sum ch s A B P == sum (crossed_at ch) (1 - s) A' B' P')%C.
  Proof.
    intros Hc Sp HA HB HP. assert (S0 : spin01 0) by (left; reflexivity). assert (S1 : spin01 1) by (right; reflexivity).
    unfold sum. destruct Sp as [-> | ->], ch; try congruence; spins; cbn [crossed_at]; cbv zeta iota;
    rewrite ?(HA 0 S0), ?(HA 1 S1), ?(HB 0 S0), ?(HB 1 S1), HP; spins; ring.
  Qed.
  Lemma sum_in_at ch s (A A' B B' : Z -> cplx) P P' : ch <> Cp -> spin01 s -> (forall t, spin01 t -> (A t == - B' (1 - t)%Z)%C) ->
    (forall t, spin01 t -> (B t == - A' (1 - t)%Z)%C) -> (P == P')%C -> (sum ch s A B P == sum (crossed_at ch) (1 - s) A' B' P')%C.
  Proof.
    intros Hc Sp HA HB HP. assert (S0 : spin01 0) by (left; reflexivity). assert (S1 : spin01 1) by (right; reflexivity).
    unfold sum. destruct Sp as [-> | ->], ch; try congruence; spins; cbn [crossed_at]; cbv zeta iota;
    rewrite ?(HA 0 S0), ?(HA 1 S1), ?(HB 0 S0), ?(HB 1 S1), HP; spins; ring.
  Qed.
  Lemma sum_p s (A B : Z -> cplx) P : spin01 s -> (sum Cp s A B P == A s * P * B 0)%C.
  Proof. intros [-> | ->]; reflexivity. Qed.
  Lemma sum_conj ch s (A A' B B' : Z -> cplx) P P' : spin01 s -> (forall t, spin01 t -> (A t == Cconj (A' t))%C) ->
    (forall t, spin01 t -> (B t == Cconj (B' t))%C) -> (P == Cconj P')%C -> (sum ch s A B P == Cconj (sum ch s A' B' P'))%C.
  Proof.
    intros Sp HA HB HP. assert (S0 : spin01 0) by (left; reflexivity). assert (S1 : spin01 1) by (right; reflexivity).
    unfold sum. destruct Sp as [-> | ->], ch; spins; cbv zeta iota;
    rewrite ?(HA 0 S0), ?(HA 1 S1), ?(HB 0 S0), ?(HB 1 S1), HP, ?conj_add, ?conj_mul, ?conj_add; reflexivity.
  Qed.
  Lemma sum_conj_a s (A A' B B' : Z -> cplx) P P' : spin01 s -> (forall t, spin01 t -> (A t == Cconj (B' t))%C) ->
    (forall t, spin01 t -> (B t == Cconj (A' t))%C) -> (P == Cconj P')%C -> (sum Ca s A B P == Cconj (sum Ca s A' B' P'))%C.
  Proof.
    intros Sp HA HB HP. assert (S0 : spin01 0) by (left; reflexivity). assert (S1 : spin01 1) by (right; reflexivity).
    unfold sum. destruct Sp as [-> | ->]; spins; cbv zeta iota;
    rewrite ?(HA 0 S0), ?(HA 1 S1), ?(HB 0 S0), ?(HB 1 S1), HP, ?conj_add, ?conj_mul, ?conj_add; ring.
  Qed.
End Sums.
