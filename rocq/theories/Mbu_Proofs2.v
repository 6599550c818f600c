(** Proofs for Mbu_Props: a Matsubara bubble of symmetric vertices is a symmetric vertex. *)
From Coq Require Import QArith Lqa.
From Verif Require Import Prelude Cplx Keld_Model Keld_Spec Keld_Proofs Keld_Proofs2 Util_Spec Sym_Model Sym_Spec Sym_Proofs Sym_Proofs2
  Tab_Model Tab_Spec Rd_Model Rd_Spec Dec_Model Bub_Model Bub_Spec Bub_Proofs Bub_Proofs2 Bub_Proofs3 Mbu_Model Mbu_Spec Mbu_Proofs.
Open Scope Z_scope.

Lemma mpref_real pi ch : (Cconj (bubble_value_prefactor pi ch) == bubble_value_prefactor pi ch)%C.
Proof.
  unfold bubble_value_prefactor.
  destruct ch; split; unfold Cconj, Cscale, Cdiv, Cinv, Cmul, Cofq, C1; cbn [re im]; try reflexivity; unfold Qdiv; ring.
Qed.
Lemma mpref_crossed pi ch : ch <> Cp -> (bubble_value_prefactor pi (crossed_at ch) == - bubble_value_prefactor pi ch)%C.
Proof.
  intros Hc. unfold bubble_value_prefactor. set (z := (C1 / _)%C).
  destruct ch; try congruence; cbn [crossed_at]; split; unfold Cscale, Cneg; cbn [re im]; ring.
Qed.

Section Bubble.
  Variables (c : cfg) (uL uR : Q) (J : (Q -> cplx) -> cplx) (pi : Q) (diff : bool) (g S0 : Q -> cplx) (stL stR : symmtype).
  Variables (GL GR : family) (VL VR : bool -> reader).
  Hypothesis Kc : keldysh c = false.
  Hypothesis Zc : zero_t c = true.
  Hypothesis HJ : integral J.
  Hypothesis Hg : line_ok c g.
  Hypothesis HS : line_ok c S0.
  Hypothesis PL : physical c false GL.
  Hypothesis PR : physical c false GR.
  Hypothesis OL : operand_ok stL GL.
  Hypothesis OR : operand_ok stR GR.
  Hypothesis RL : forall h, reads_matsubara uL GL h (VL h).
  Hypothesis RR : forall h, reads_matsubara uR GR h (VR h).
  Lemma Mc : mf c = false. Proof. unfold mf. rewrite Zc, Kc. reflexivity. Qed.

  Definition mSPL (h : bool) (k : kcl) (ch : chan) (s : Z) (l : legs) : cplx :=
    if h then spec_part c uR false stR (left_dressed k) GR true ch s k1111 l else spec_part c uL false stL (left_dressed k) GL false ch s k1111 l.
  Definition mSPR (h : bool) (k : kcl) (ch : chan) (s : Z) (l : legs) : cplx :=
    if h then spec_part c uL true stL (right_dressed k) GL true ch s k1111 l else spec_part c uR true stR (right_dressed k) GR false ch s k1111 l.
  Definition mA (h : bool) (k : kcl) (ch : chan) (f : Q * Q * Q) (x : Q) : Z -> cplx := fun s =>
    let '(w, v, _) := f in mSPL h k ch s (legs_of ch (w, v, x)).
  Definition mB (h : bool) (k : kcl) (ch : chan) (f : Q * Q * Q) (x : Q) : Z -> cplx := fun s =>
    let '(w, _, v') := f in mSPR h k ch s (legs_of ch (w, x, v')).
  Definition mP (ch : chan) (f : Q * Q * Q) (x : Q) : cplx := value_Matsubara c ch diff g S0 (fst (fst f)) x.
  Definition mcore (h : bool) (k : kcl) (ch : chan) (s : Z) (f : Q * Q * Q) (x : Q) : cplx :=
    sum_over_internal_scalar ch s (mA h k ch f x) (mB h k ch f x) (mP ch f x).
  Notation F := (matsubara_family c J pi diff g S0 stL stR VL VR).

  Lemma mfamily_core h ch k s kl l : spin01 s ->
    (F h ch k s kl l == bubble_value_prefactor pi ch * J (mcore h k ch s (natural ch l)))%C.
  Proof.
    intros Sp. unfold matsubara_family. assert (E : (s =? 0) || (s =? 1) = true) by (destruct Sp as [-> | ->]; reflexivity). rewrite E.
    destruct (natural ch l) as ((w, v), v').
    destruct h; unfold bubble_entry; apply Cmul_m; try reflexivity; apply (int_ext _ HJ); intros x;
    unfold integrand, mcore; apply sum_ext; try exact Sp; try reflexivity; intros t Ht; unfold mA, mB, mSPL, mSPR;
    first [apply mleft_reads|apply mright_reads]; auto; apply legs_eq_refl.
  Qed.

  (** laws of the two sides *)
  Lemma mSPL_m h k ch s l l' : spin01 s -> conserved l -> legs_eq l l' -> (mSPL h k ch s l == mSPL h k ch s l')%C.
  Proof. intros Sp Co E. unfold mSPL. destruct h; apply mpart_m; auto using Mc. Qed.
  Lemma mSPR_m h k ch s l l' : spin01 s -> conserved l -> legs_eq l l' -> (mSPR h k ch s l == mSPR h k ch s l')%C.
  Proof. intros Sp Co E. unfold mSPR. destruct h; apply mpart_m; auto using Mc. Qed.
  Lemma mdressed k : left_dressed (mirror true k) = right_dressed k /\ right_dressed (mirror true k) = left_dressed k.
  Proof. destruct k; split; reflexivity. Qed.
  Ltac side lem := unfold mSPL, mSPR; repeat match goal with |- context [left_dressed (mirror true ?k)] => rewrite (proj1 (mdressed k)) end;
    repeat match goal with |- context [right_dressed (mirror true ?k)] => rewrite (proj2 (mdressed k)) end; cbn [negb];
    match goal with
    | |- (spec_part _ _ ?r ?st ?d GL ?h ?ch ?s _ ?l == _)%C => etransitivity; [apply (lem c uL Kc GL PL r st d h ch s l); assumption|cbn [xorb negb]; reflexivity]
    | |- (spec_part _ _ ?r ?st ?d GR ?h ?ch ?s _ ?l == _)%C => etransitivity; [apply (lem c uR Kc GR PR r st d h ch s l); assumption|cbn [xorb negb]; reflexivity]
    end.
  Lemma mSPL_out h k ch s l : conserved l -> spin01 s ->
    (mSPL h k ch s l == - mSPL h k (crossed_at ch) (1 - s)%Z (swap_out_f l))%C.
  Proof. intros. destruct h; side mpart_out. Qed.
  Lemma mSPR_out h k ch s l : conserved l -> spin01 s ->
    (mSPR h k ch s l == - mSPR h k (crossed_at ch) (1 - s)%Z (swap_out_f l))%C.
  Proof. intros. destruct h; side mpart_out. Qed.
  Lemma mSPL_in h k ch s l : ch <> Cp -> conserved l -> spin01 s ->
    (mSPL h k ch s l == - mSPR (negb h) (mirror true k) (crossed_at ch) (1 - s)%Z (swap_in_f l))%C.
  Proof. intros Hc; intros. destruct h; destruct ch; try congruence; side mpart_in. Qed.
  Lemma mSPR_in h k ch s l : ch <> Cp -> conserved l -> spin01 s ->
    (mSPR h k ch s l == - mSPL (negb h) (mirror true k) (crossed_at ch) (1 - s)%Z (swap_in_f l))%C.
  Proof. intros Hc; intros. destruct h; destruct ch; try congruence; side mpart_in. Qed.
  Lemma mSPL_in_p h k s l : conserved l -> spin01 s ->
    (mSPL h k Cp s l == - mSPL h k Cp (1 - s)%Z (swap_in_f l))%C.
  Proof. intros. destruct h; side mpart_in. Qed.
  Lemma mSPR_in_p h k s l : conserved l -> spin01 s ->
    (mSPR h k Cp s l == - mSPR h k Cp (1 - s)%Z (swap_in_f l))%C.
  Proof. intros. destruct h; side mpart_in. Qed.
  Lemma mSPL_conj h k ch s l : ch <> Ct -> conserved l -> spin01 s ->
    (mSPL h k ch s l == Cconj (mSPR (negb h) (mirror true k) ch s (minus_f (in_out_f l))))%C.
  Proof. intros Hc; intros. destruct h; destruct ch; try congruence; side mpart_conj. Qed.
  Lemma mSPR_conj h k ch s l : ch <> Ct -> conserved l -> spin01 s ->
    (mSPR h k ch s l == Cconj (mSPL (negb h) (mirror true k) ch s (minus_f (in_out_f l))))%C.
  Proof. intros Hc; intros. destruct h; destruct ch; try congruence; side mpart_conj. Qed.
  Lemma mSPL_conj_t h k s l : conserved l -> spin01 s ->
    (mSPL h k Ct s l == Cconj (mSPL h k Ct s (minus_f (in_out_f l))))%C.
  Proof. intros. destruct h; side mpart_conj. Qed.
  Lemma mSPR_conj_t h k s l : conserved l -> spin01 s ->
    (mSPR h k Ct s l == Cconj (mSPR h k Ct s (minus_f (in_out_f l))))%C.
  Proof. intros. destruct h; side mpart_conj. Qed.
  Lemma mSPL_minus h k ch s l : reversible c GL -> reversible c GR -> conserved l -> spin01 s ->
    (mSPL h k ch s l == Cconj (mSPL h k ch s (minus_f l)))%C.
  Proof. intros. unfold mSPL; destruct h; apply mpart_minus; assumption. Qed.
  Lemma mSPR_minus h k ch s l : reversible c GL -> reversible c GR -> conserved l -> spin01 s ->
    (mSPR h k ch s l == Cconj (mSPR h k ch s (minus_f l)))%C.
  Proof. intros. unfold mSPR; destruct h; apply mpart_minus; assumption. Qed.
  Lemma mSPL_real h k ch s l : phs c = true -> (mSPL h k ch s l == Cconj (mSPL h k ch s l))%C.
  Proof. intros. symmetry. unfold mSPL; destruct h; apply mpart_real; assumption. Qed.
  Lemma mSPR_real h k ch s l : phs c = true -> (mSPR h k ch s l == Cconj (mSPR h k ch s l))%C.
  Proof. intros. symmetry. unfold mSPR; destruct h; apply mpart_real; assumption. Qed.

  Ltac spin_tac := solve [assumption|apply spin01_flip; assumption|apply spin01_flip, spin01_flip; assumption|left; reflexivity|right; reflexivity].
  Ltac cons := unfold conserved; cbn [legs_of swap_in_f swap_out_f in_out_f minus_f n1' n2' n1 n2]; field.
  Ltac lege := repeat (apply Logic.conj); cbn [legs_of swap_in_f swap_out_f in_out_f minus_f n1' n2' n1 n2];
    repeat match goal with E : (_ == _)%Q |- _ => rewrite E; clear E end; field.
  Ltac conv := unfold convert_1, convert_2; ring.

  Lemma mcore_m h k ch s f f' x : spin01 s -> trip_eq f f' -> (mcore h k ch s f x == mcore h k ch s f' x)%C.
  Proof.
    intros Sp E. destruct f as ((w, v), v'), f' as ((w', y), y'). destruct E as (E1 & E2 & E3). cbn [fst snd] in E1, E2, E3.
    unfold mcore. apply sum_ext; [exact Sp| | |].
    - intros t Ht. unfold mA. apply mSPL_m; [assumption|apply legs_of_conserved|]. apply legs_of_m. repeat (apply Logic.conj); cbn [fst snd]; auto; reflexivity.
    - intros t Ht. unfold mB. apply mSPR_m; [assumption|apply legs_of_conserved|]. apply legs_of_m. repeat (apply Logic.conj); cbn [fst snd]; auto; reflexivity.
    - unfold mP. cbn [fst snd]. apply pair_w; try assumption; destruct ch; unfold convert_1, convert_2; rewrite E1; reflexivity.
  Qed.
  Lemma mcore_class h k ch s f f' x : spin01 s -> same_class_freqs k f f' -> (mcore h k ch s f x == mcore h k ch s f' x)%C.
  Proof.
    intros Sp E. destruct f as ((w, v), v'), f' as ((w', y), y'). destruct E as (E1 & E2).
    transitivity (mcore h k ch s (w', v, v') x).
    { apply mcore_m; [exact Sp|]. repeat (apply Logic.conj); cbn [fst snd]; auto; reflexivity. }
    unfold mcore. apply sum_ext; [exact Sp| | |reflexivity].
    - intros t Ht. unfold mA. destruct (left_dressed k) eqn:D.
      + apply mSPL_m; [assumption|apply legs_of_conserved|]. apply legs_of_m.
        destruct k; try discriminate D; repeat (apply Logic.conj); cbn [fst snd]; try reflexivity; try exact E2; apply E2.
      + unfold mSPL. rewrite D. destruct h; apply mleft_same_m; auto using Mc.
    - intros t Ht. unfold mB. destruct (right_dressed k) eqn:D.
      + apply mSPR_m; [assumption|apply legs_of_conserved|]. apply legs_of_m.
        destruct k; try discriminate D; repeat (apply Logic.conj); cbn [fst snd]; try reflexivity; try exact E2; apply E2.
      + unfold mSPR. rewrite D. destruct h; apply mright_same_m; auto using Mc.
  Qed.
  Lemma mcore_out_at h k ch s w v v' x : ch <> Cp -> spin01 s ->
    (mcore h k ch s (w, v, v') x == mcore h k (crossed_at ch) (1 - s) (w, v, v') x)%C.
  Proof.
    intros Hc Sp. unfold mcore. apply sum_out_at; [exact Hc|exact Sp| | |].
    - intros t Ht. unfold mA. rewrite mSPL_out by (auto using legs_of_conserved).
      apply Cneg_m, mSPL_m; destruct ch; try congruence; cbn [crossed_at]; first [spin_tac|cons|lege].
    - intros t Ht. unfold mB. rewrite mSPR_out by (auto using legs_of_conserved).
      apply Cneg_m, mSPR_m; destruct ch; try congruence; cbn [crossed_at]; first [spin_tac|cons|lege].
    - unfold mP. cbn [fst snd]. apply pair_w; try assumption; destruct ch; try congruence; reflexivity.
  Qed.
  Lemma mcore_in_at h k ch s w v v' x : ch <> Cp -> spin01 s ->
    (mcore h k ch s (w, v, v') x == mcore (negb h) (mirror true k) (crossed_at ch) (1 - s) (- w, v', v)%Q x)%C.
  Proof.
    intros Hc Sp. unfold mcore. apply sum_in_at; [exact Hc|exact Sp| | |].
    - intros t Ht. unfold mA, mB. rewrite mSPL_in by (auto using legs_of_conserved).
      apply Cneg_m, mSPR_m; destruct ch; try congruence; cbn [crossed_at]; first [spin_tac|cons|lege].
    - intros t Ht. unfold mA, mB. rewrite mSPR_in by (auto using legs_of_conserved).
      apply Cneg_m, mSPL_m; destruct ch; try congruence; cbn [crossed_at]; first [spin_tac|cons|lege].
    - unfold mP. cbn [fst snd]. apply pair_exchanged; try assumption; destruct ch; try congruence; cbn [crossed_at]; conv.
  Qed.
  Lemma mcore_out_p h k s w v v' x : spin01 s ->
    (mcore h k Cp s (w, v, v') x == - mcore h k Cp (1 - s) (w, - v, v')%Q x)%C.
  Proof.
    intros Sp. unfold mcore. rewrite !sum_p by auto using spin01_flip.
    assert (E : (mA h k Cp (w, v, v') x s == - mA h k Cp (w, - v, v')%Q x (1 - s)%Z)%C).
    { unfold mA. rewrite mSPL_out by (auto using legs_of_conserved).
      apply Cneg_m, mSPL_m; cbn [crossed_at]; first [spin_tac|cons|lege]. }
    rewrite E. change (mB h k Cp (w, (- v)%Q, v') x 0) with (mB h k Cp (w, v, v') x 0). change (mP Cp (w, (- v)%Q, v') x) with (mP Cp (w, v, v') x). ring.
  Qed.
  (** exchange of the two internal legs *)
  Lemma mcross_p h k s1 s2 w v v' x : spin01 s1 -> spin01 s2 ->
    (mA h k Cp (w, v, v') x s1 * mP Cp (w, v, v') x * mB h k Cp (w, v, v') x s2 ==
     mA h k Cp (w, v, v') (- x)%Q (1 - s1)%Z * mP Cp (w, v, v') (- x)%Q * mB h k Cp (w, v, v') (- x)%Q (1 - s2)%Z)%C.
  Proof.
    intros Sp1 Sp2.
    assert (EA : (mA h k Cp (w, v, v') x s1 == - mA h k Cp (w, v, v') (- x)%Q (1 - s1)%Z)%C).
    { unfold mA. rewrite mSPL_in_p by (auto using legs_of_conserved). apply Cneg_m, mSPL_m; first [spin_tac|cons|lege]. }
    assert (EB : (mB h k Cp (w, v, v') x s2 == - mB h k Cp (w, v, v') (- x)%Q (1 - s2)%Z)%C).
    { unfold mB. rewrite mSPR_out by (auto using legs_of_conserved). apply Cneg_m, mSPR_m; cbn [crossed_at]; first [spin_tac|cons|lege]. }
    assert (EP : (mP Cp (w, v, v') x == mP Cp (w, v, v') (- x)%Q)%C).
    { unfold mP. cbn [fst snd]. apply pair_exchanged; try assumption; conv. }
    rewrite EA, EB, EP. ring.
  Qed.
  Lemma mcore_in_p h k s w v v' x : spin01 s ->
    (mcore h k Cp s (w, v, v') x == - mcore h k Cp (1 - s) (w, v, - v')%Q (- x)%Q)%C.
  Proof.
    intros Sp. unfold mcore. rewrite !sum_p by auto using spin01_flip.
    assert (H0 : spin01 0) by (left; reflexivity).
    rewrite (mcross_p h k s 0 w v v' x Sp H0).
    assert (E : (mB h k Cp (w, v, v') (- x)%Q (1 - 0)%Z == - mB h k Cp (w, v, (- v')%Q) (- x)%Q 0)%C).
    { unfold mB. rewrite mSPR_in_p by (auto using legs_of_conserved, spin01_flip). change (1 - (1 - 0)) with 0.
      apply Cneg_m, mSPR_m; first [spin_tac|cons|lege]. }
    rewrite E. change (mA h k Cp (w, v, (- v')%Q) (- x)%Q (1 - s)) with (mA h k Cp (w, v, v') (- x)%Q (1 - s)).
    change (mP Cp (w, v, (- v')%Q) (- x)%Q) with (mP Cp (w, v, v') (- x)%Q). ring.
  Qed.
  Lemma mcore_conj_a h k s w v v' x : spin01 s ->
    (mcore h k Ca s (w, v, v') x == Cconj (mcore (negb h) (mirror true k) Ca s (- w, - v', - v)%Q (- x)%Q))%C.
  Proof.
    intros Sp. assert (Hc : Ca <> Ct) by discriminate. unfold mcore. apply sum_conj_a; [exact Sp| | |].
    - intros t Ht. unfold mA, mB. rewrite mSPL_conj by (auto using legs_of_conserved). apply Cconj_m, mSPR_m; first [spin_tac|cons|lege].
    - intros t Ht. unfold mA, mB. rewrite mSPR_conj by (auto using legs_of_conserved). apply Cconj_m, mSPL_m; first [spin_tac|cons|lege].
    - unfold mP. cbn [fst snd]. apply pair_minus; try assumption; reflexivity.
  Qed.
  Lemma mcore_conj_t h k s w v v' x : spin01 s ->
    (mcore h k Ct s (w, v, v') x == Cconj (mcore h k Ct s (w, - v, - v')%Q (- x)%Q))%C.
  Proof.
    intros Sp. unfold mcore. apply sum_conj; [exact Sp| | |].
    - intros t Ht. unfold mA. rewrite mSPL_conj_t by (auto using legs_of_conserved). apply Cconj_m, mSPL_m; first [spin_tac|cons|lege].
    - intros t Ht. unfold mB. rewrite mSPR_conj_t by (auto using legs_of_conserved). apply Cconj_m, mSPR_m; first [spin_tac|cons|lege].
    - unfold mP. cbn [fst snd]. rewrite (pair_minus c diff g S0 Hg HS Ct w (- w)%Q x (- x)%Q) by reflexivity.
      apply Cconj_m. apply pair_exchanged; try assumption; conv.
  Qed.
  (** the p channel: spin 1 needs the exchange of the internal legs *)
  Lemma mcore_conj_p h k s w v v' x : spin01 s ->
    (mcore h k Cp s (w, v, v') x ==
     Cconj (mcore (negb h) (mirror true k) Cp s (- w, - v', - v)%Q (if s =? 0 then - x else x)%Q))%C.
  Proof.
    intros Sp. assert (Hc : Cp <> Ct) by discriminate.
    assert (H0 : spin01 0) by (left; reflexivity). assert (H1 : spin01 1) by (right; reflexivity).
    unfold mcore. rewrite !sum_p by exact Sp.
    set (h' := negb h). set (k' := mirror true k).
    assert (EA : forall t, spin01 t -> (mA h k Cp (w, v, v') x t == Cconj (mB h' k' Cp (- w, - v', - v)%Q (- x)%Q t))%C).
    { intros t Ht. unfold mA, mB. rewrite mSPL_conj by (auto using legs_of_conserved). apply Cconj_m, mSPR_m; first [spin_tac|cons|lege]. }
    assert (EB : forall t, spin01 t -> (mB h k Cp (w, v, v') x t == Cconj (mA h' k' Cp (- w, - v', - v)%Q (- x)%Q t))%C).
    { intros t Ht. unfold mA, mB. rewrite mSPR_conj by (auto using legs_of_conserved). apply Cconj_m, mSPL_m; first [spin_tac|cons|lege]. }
    assert (EP : (mP Cp (w, v, v') x == Cconj (mP Cp (- w, - v', - v)%Q (- x)%Q))%C).
    { unfold mP. cbn [fst snd]. apply pair_minus; try assumption; reflexivity. }
    rewrite (EA s Sp), (EB 0 H0), EP. destruct Sp as [-> | ->].
    - change (0 =? 0) with true. cbv iota. rewrite !conj_mul. ring.
    - change (1 =? 0) with false. cbv iota.
      assert (X : forall y, (mA h' k' Cp (- w, - v', - v)%Q x y == mA h' k' Cp (- w, - v', - v)%Q x y)%C) by reflexivity.
      rewrite (mcross_p h' k' 1 0 (- w)%Q (- v')%Q (- v)%Q x H1 H0). change (1 - 1) with 0. change (1 - 0) with 1.
      rewrite !conj_mul. ring.
  Qed.
  Lemma mcore_minus h k ch s w v v' x : reversible c GL -> reversible c GR -> spin01 s ->
    (mcore h k ch s (w, v, v') x == Cconj (mcore h k ch s (- w, - v, - v')%Q (- x)%Q))%C.
  Proof.
    intros R1 R2 Sp. unfold mcore. apply sum_conj; [exact Sp| | |].
    - intros t Ht. unfold mA. rewrite mSPL_minus by (auto using legs_of_conserved). apply Cconj_m, mSPL_m; destruct ch; first [spin_tac|cons|lege].
    - intros t Ht. unfold mB. rewrite mSPR_minus by (auto using legs_of_conserved). apply Cconj_m, mSPR_m; destruct ch; first [spin_tac|cons|lege].
    - unfold mP. cbn [fst snd]. apply pair_minus; try assumption; reflexivity.
  Qed.
  Lemma mcore_real h k ch s f x : phs c = true -> spin01 s -> (mcore h k ch s f x == Cconj (mcore h k ch s f x))%C.
  Proof.
    intros Ph Sp. destruct f as ((w, v), v'). unfold mcore. apply sum_conj; [exact Sp| | |].
    - intros t Ht. apply mSPL_real, Ph.
    - intros t Ht. apply mSPR_real, Ph.
    - unfold mP. symmetry. apply pair_real; assumption.
  Qed.

  (** ** the bubble *)
  Ltac nat_eq := repeat (apply Logic.conj); cbn [natural swap_in_f swap_out_f in_out_f minus_f n1' n2' n1 n2 fst snd].
  Lemma mJ_m h k ch s f f' : spin01 s -> trip_eq f f' -> (J (mcore h k ch s f) == J (mcore h k ch s f'))%C.
  Proof. intros Sp E. apply (int_ext _ HJ). intros x. apply mcore_m; assumption. Qed.
  Lemma mJ_neg A B : (forall x, A x == - B x)%C -> (J A == - J B)%C.
  Proof. intros H. rewrite (int_ext _ HJ A (fun x => - B x)%C H). apply (int_opp _ HJ). Qed.
  Lemma mJ_neg_reflect A B : (forall x, A x == - B (- x)%Q)%C -> (J A == - J B)%C.
  Proof. intros H. rewrite (mJ_neg A (fun x => B (- x)%Q) H), (int_reflect _ HJ B). reflexivity. Qed.
  Lemma mJ_conj A B : (forall x, A x == Cconj (B x))%C -> (J A == Cconj (J B))%C.
  Proof. intros H. rewrite (int_ext _ HJ _ _ H). apply (int_conj _ HJ). Qed.
  Lemma mJ_conj_reflect A B : (forall x, A x == Cconj (B (- x)%Q))%C -> (J A == Cconj (J B))%C.
  Proof. intros H. rewrite (mJ_conj A (fun x => B (- x)%Q) H), (int_reflect _ HJ B). reflexivity. Qed.

  Lemma mbubble_of_class_freqs h ch k s kl f f' l l' : spin01 s -> legs_are (mf c) ch f l -> legs_are (mf c) ch f' l' ->
    same_class_freqs k f f' -> (F h ch k s kl l == F h ch k s kl l')%C.
  Proof.
    intros Sp L L' E. unfold legs_are in L, L'. rewrite Mc in L, L'.
    rewrite !mfamily_core by exact Sp.
    apply Cmul_m; [reflexivity|]. apply (int_ext _ HJ). intros x. apply mcore_class; try assumption.
    destruct f as ((w0, v), v'), f' as ((w1, y), y'). destruct E as (E1 & E2).
    destruct L as (A & B & C & D), L' as (A' & B' & C' & D').
    assert (N : trip_eq (natural ch l) (w0, v, v')).
    { repeat (apply Logic.conj); destruct ch; cbn [natural legs_of fst snd n1' n2' n1 n2] in *; rewrite ?A, ?B, ?C, ?D; field. }
    assert (N' : trip_eq (natural ch l') (w1, y, y')).
    { repeat (apply Logic.conj); destruct ch; cbn [natural legs_of fst snd n1' n2' n1 n2] in *; rewrite ?A', ?B', ?C', ?D'; field. }
    destruct (natural ch l) as ((x1, x2), x3), (natural ch l') as ((x4, x5), x6).
    destruct N as (N1 & N2 & N3), N' as (M1 & M2 & M3). cbn [fst snd] in *. cbn [same_class_freqs].
    split; [rewrite N1, M1; exact E1|]. destruct k; rewrite ?N2, ?N3, ?M2, ?M3; try exact E2; exact I.
  Qed.
  Lemma mbubble_exchange_out h ch ch' fl k s kl kl' l : carried swap_out_k ch ch' fl -> conserved l -> spin01 s ->
    (F h ch k s kl l == - F (xorb h fl) ch' (mirror fl k) (1 - s)%Z kl' (swap_out_f l))%C.
  Proof.
    intros Ca0 Co Sp. rewrite !mfamily_core by (auto using spin01_flip). pose proof (spin01_flip s Sp) as Sp'.
    destruct l as [x y z t]. unfold conserved in Co. cbn [n1' n2' n1 n2] in Co.
    assert (H : (ch <> Cp /\ ch' = crossed_at ch \/ ch = Cp /\ ch' = Cp) /\ fl = false).
    { destruct ch, ch', fl; try discriminate Ca0; split; try reflexivity; try (left; split; [discriminate|reflexivity]); right; split; reflexivity. }
    destruct H as ([(Hc & ->) | (-> & ->)] & ->); rewrite Bool.xorb_false_r; cbn [mirror].
    - rewrite mpref_crossed by exact Hc.
      rewrite (int_ext _ HJ (mcore h k ch s (natural ch (mkLegs x y z t))) (mcore h k (crossed_at ch) (1 - s) (natural ch (mkLegs x y z t)))).
      2: { intros q. destruct (natural ch (mkLegs x y z t)) as ((w0, v), v'). apply mcore_out_at; assumption. }
      rewrite (mJ_m h k (crossed_at ch) (1 - s) (natural ch (mkLegs x y z t)) (natural (crossed_at ch) (swap_out_f (mkLegs x y z t))) Sp').
      + ring.
      + destruct ch; try congruence; cbn [crossed_at]; nat_eq; reflexivity.
    - rewrite (mJ_neg (mcore h k Cp s (natural Cp (mkLegs x y z t))) (mcore h k Cp (1 - s) (x + y, - ((x - y) / 2), (z - t) / 2)%Q)).
      2: { intros q. apply mcore_out_p; assumption. }
      rewrite (mJ_m h k Cp (1 - s) (x + y, - ((x - y) / 2), (z - t) / 2)%Q (natural Cp (swap_out_f (mkLegs x y z t))) Sp').
      + ring.
      + nat_eq; field.
  Qed.
  Lemma mbubble_exchange_in h ch ch' fl k s kl kl' l : carried swap_in_k ch ch' fl -> conserved l -> spin01 s ->
    (F h ch k s kl l == - F (xorb h fl) ch' (mirror fl k) (1 - s)%Z kl' (swap_in_f l))%C.
  Proof.
    intros Ca0 Co Sp. rewrite !mfamily_core by (auto using spin01_flip). pose proof (spin01_flip s Sp) as Sp'.
    destruct l as [x y z t]. unfold conserved in Co. cbn [n1' n2' n1 n2] in Co.
    assert (X : (x == z + t - y)%Q) by (rewrite <- Co; ring).
    assert (H : (ch <> Cp /\ ch' = crossed_at ch /\ fl = true) \/ (ch = Cp /\ ch' = Cp /\ fl = false)).
    { destruct ch, ch', fl; try discriminate Ca0; try (left; split; [discriminate|split; reflexivity]); right; repeat split; reflexivity. }
    destruct H as [(Hc & -> & ->) | (-> & -> & ->)].
    - rewrite Bool.xorb_true_r. rewrite mpref_crossed by exact Hc.
      set (f := natural ch (mkLegs x y z t)).
      rewrite (int_ext _ HJ (mcore h k ch s f) (mcore (negb h) (mirror true k) (crossed_at ch) (1 - s) (- fst (fst f), snd f, snd (fst f))%Q)).
      2: { intros q. destruct f as ((w0, v), v'). apply mcore_in_at; assumption. }
      rewrite (mJ_m (negb h) (mirror true k) (crossed_at ch) (1 - s) (- fst (fst f), snd f, snd (fst f))%Q
        (natural (crossed_at ch) (swap_in_f (mkLegs x y z t))) Sp').
      + ring.
      + unfold f. destruct ch; try congruence; cbn [crossed_at]; nat_eq; try rewrite X; field.
    - rewrite Bool.xorb_false_r. cbn [mirror].
      rewrite (mJ_neg_reflect (mcore h k Cp s (natural Cp (mkLegs x y z t))) (mcore h k Cp (1 - s) (x + y, (x - y) / 2, - ((z - t) / 2))%Q)).
      2: { intros q. apply mcore_in_p; assumption. }
      rewrite (mJ_m h k Cp (1 - s) (x + y, (x - y) / 2, - ((z - t) / 2))%Q (natural Cp (swap_in_f (mkLegs x y z t))) Sp').
      + ring.
      + nat_eq; field.
  Qed.
  Lemma mbubble_conjugation h ch ch' fl k s kl l : carried in_out_k ch ch' fl -> conserved l -> spin01 s ->
    (F h ch k s kl l == Cconj (F (xorb h fl) ch' (mirror fl k) s kl (minus_f (in_out_f l))))%C.
  Proof.
    intros Ca0 Co Sp. rewrite !mfamily_core by exact Sp. rewrite conj_mul, mpref_real.
    destruct l as [x y z t]. unfold conserved in Co. cbn [n1' n2' n1 n2] in Co.
    assert (X : (x == z + t - y)%Q) by (rewrite <- Co; ring).
    assert (H : ch' = ch /\ fl = fl_conj ch) by (destruct ch, ch', fl; try discriminate Ca0; split; reflexivity).
    destruct H as (-> & ->). set (f := natural ch (mkLegs x y z t)).
    set (f' := match ch with Ct => (fst (fst f), - snd (fst f), - snd f)%Q | _ => (- fst (fst f), - snd f, - snd (fst f))%Q end).
    rewrite <- (mJ_m (xorb h (fl_conj ch)) (mirror (fl_conj ch) k) ch s f' (natural ch (minus_f (in_out_f (mkLegs x y z t)))) Sp).
    2: { unfold f', f. destruct ch; nat_eq; try rewrite X; field. }
    apply Cmul_m; [reflexivity|].
    unfold f'. destruct f as ((w0, v), v'). cbn [fst snd]. destruct ch; cbn [fl_conj]; rewrite ?Bool.xorb_true_r, ?Bool.xorb_false_r.
    - apply mJ_conj_reflect. intros q. apply mcore_conj_a; assumption.
    - destruct Sp as [-> | ->].
      + apply mJ_conj_reflect. intros q. etransitivity; [apply mcore_conj_p; try assumption; left; reflexivity|]. reflexivity.
      + apply mJ_conj. intros q. etransitivity; [apply mcore_conj_p; try assumption; right; reflexivity|]. reflexivity.
    - apply mJ_conj_reflect. intros q. apply mcore_conj_t; assumption.
  Qed.
  Lemma mbubble_reversal h ch k s kl l : reversible c GL -> reversible c GR -> spin01 s ->
    (F h ch k s kl l == Cconj (F h ch k s kl (minus_f l)))%C.
  Proof.
    intros R1 R2 Sp. rewrite !mfamily_core by exact Sp. rewrite conj_mul, mpref_real. set (f := natural ch l).
    rewrite <- (mJ_m h k ch s (- fst (fst f), - snd (fst f), - snd f)%Q (natural ch (minus_f l)) Sp).
    2: { unfold f. destruct ch; nat_eq; field. }
    apply Cmul_m; [reflexivity|]. apply mJ_conj_reflect. intros q. destruct f as ((w0, v), v'). apply mcore_minus; assumption.
  Qed.
  Lemma mbubble_real h ch k s kl l : phs c = true -> (im (F h ch k s kl l) == 0)%Q.
  Proof.
    intros Ph. destruct ((s =? 0) || (s =? 1)) eqn:Es.
    2: { unfold matsubara_family. rewrite Es. reflexivity. }
    assert (Sp : spin01 s) by (apply Bool.orb_true_iff in Es; destruct Es as [Es | Es]; apply Z.eqb_eq in Es; [left|right]; exact Es).
    assert (E : (F h ch k s kl l == Cconj (F h ch k s kl l))%C).
    { rewrite !mfamily_core by exact Sp. rewrite conj_mul, mpref_real. apply Cmul_m; [reflexivity|].
      apply mJ_conj. intros q. apply mcore_real; assumption. }
    destruct E as (_ & E). unfold Cconj in E. cbn [im] in E. lra.
  Qed.
End Bubble.
