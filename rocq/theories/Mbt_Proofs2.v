(** Proofs for Mbt_Props: the frequency sum of the code is symmetric under the reflection of the internal frequency. *)
From Coq Require Import QArith Qround Lqa.
From Verif Require Import Prelude Cplx Keld_Model Util_Model Util_Spec Util_Proofs Sym_Model Sym_Spec Sym_Proofs Sym_Proofs2
  Tab_Model Tab_Spec Rd_Model Rd_Spec Dec_Model Bub_Model Bub_Spec Bub_Proofs Bub_Proofs2 Bub_Proofs3 Mbu_Proofs Mbt_Model Mbt_Spec Mbt_Proofs.
From Verif Require Mbe_Model.
Open Scope Z_scope.

Fixpoint csum (F : nat -> cplx) (n : nat) : cplx := match n with O => C0 | S n => (csum F n + F n)%C end.
Lemma csum_ext F G n : (forall i, (i < n)%nat -> (F i == G i)%C) -> (csum F n == csum G n)%C.
Proof.
  induction n as [|n IH]; intros H; cbn [csum]; [reflexivity|]. rewrite IH by (intros; apply H; lia). rewrite (H n) by lia. reflexivity.
Qed.
Lemma csum_first F n : (csum F (S n) == F O + csum (fun i => F (S i)) n)%C.
Proof.
  induction n as [|n IH]; [cbn [csum]; ring|].
  change (csum F (S (S n))) with (csum F (S n) + F (S n))%C. rewrite IH. cbn [csum]. ring.
Qed.
Lemma csum_reverse n : forall F, (csum F n == csum (fun i => F (n - 1 - i)%nat) n)%C.
Proof.
  induction n as [|n IH]; intros F; [reflexivity|].
  rewrite csum_first. cbn [csum]. rewrite (IH (fun i => F (S i))).
  rewrite (csum_ext (fun i => F (S (n - 1 - i))) (fun i => F (S n - 1 - i)%nat)).
  2: { intros i Hi. replace (S n - 1 - i)%nat with (S (n - 1 - i)) by lia. reflexivity. }
  replace (S n - 1 - n)%nat with O by lia. ring.
Qed.
Lemma fold_csum (F : nat -> cplx) n : forall a z, (fold_left (fun r i => (r + F i)%C) (seq a n) z == z + csum (fun i => F (a + i)%nat) n)%C.
Proof.
  induction n as [|n IH]; intros a z; [cbn [seq fold_left csum]; ring|].
  cbn [seq fold_left]. rewrite IH, csum_first. replace (a + 0)%nat with a by lia.
  rewrite (csum_ext (fun i => F (S a + i)%nat) (fun i => F (a + S i)%nat)).
  2: { intros i _. replace (S a + i)%nat with (a + S i)%nat by lia. reflexivity. }
  ring.
Qed.
Definition term (f : Q -> cplx) (a : Z) (i : nat) : cplx := f (inject_Z ((a + Z.of_nat i) * 2 + 1)).
Lemma matsubarasum_csum f a b : (matsubarasum f a b == csum (term f a) (Z.to_nat (b - a + 1)))%C.
Proof.
  unfold matsubarasum. etransitivity; [apply (fold_csum (fun i => f (inject_Z ((a + Z.of_nat i) * 2 + 1))))|].
  cbn [Nat.add]. unfold term. ring.
Qed.
Lemma term_fermionic a i : fermionic (inject_Z ((a + Z.of_nat i) * 2 + 1)).
Proof. exists (a + Z.of_nat i). f_equiv. f_equal. ring. Qed.
Lemma csum_opp F n : (csum (fun i => - F i)%C n == - csum F n)%C.
Proof. induction n as [|n IH]; cbn [csum]; [|rewrite IH]; ring. Qed.
Lemma csum_conj F n : (csum (fun i => Cconj (F i)) n == Cconj (csum F n))%C.
Proof. induction n as [|n IH]; cbn [csum]; [symmetry; apply conj_0|rewrite IH, conj_add; reflexivity]. Qed.

(** the limits of the sum *)
Lemma quot_abs m : Z.abs (Z.quot m 2) = Z.abs m / 2.
Proof.
  destruct (Z_le_gt_dec 0 m).
  - rewrite Z.quot_div_nonneg by lia. rewrite !Z.abs_eq; try lia. apply Z.div_pos; lia.
  - assert (E : Z.quot m 2 = - ((- m) / 2)).
    { rewrite <- (Z.opp_involutive m) at 1. rewrite Z.quot_opp_l, Z.quot_div_nonneg by lia. reflexivity. }
    rewrite E, Z.abs_opp, (Z.abs_neq m) by lia. apply Z.abs_eq. apply Z.div_pos; lia.
Qed.
Lemma quot_even m : Z.quot (2 * m) 2 = m. Proof. rewrite Z.mul_comm. apply Z.quot_mul. lia. Qed.
Lemma sign_flip_even m : Mbe_Model.sign_flip (2 * m) = - (Z.abs m mod 2).
Proof.
  unfold Mbe_Model.sign_flip. rewrite quot_even, Z.rem_opp_l by lia. rewrite Z.rem_mod_nonneg by lia. reflexivity.
Qed.
Lemma limits pos m : Mbe_Model.sum_min pos (2 * m) = - pos - Z.abs m / 2 - Z.abs m mod 2 /\ Mbe_Model.sum_max pos (2 * m) = pos - 1 + Z.abs m / 2.
Proof.
  unfold Mbe_Model.sum_min, Mbe_Model.sum_max. rewrite quot_even, quot_abs, sign_flip_even. split; lia.
Qed.
Lemma bosonic_floor w m : (w == inject_Z (2 * m))%Q -> Qfloor w = 2 * m.
Proof. intros E. rewrite (Qfloor_comp _ _ E). apply Qfloor_Z. Qed.
Lemma abs_mod2 m : Z.abs m mod 2 = m mod 2.
Proof. destruct (Z_le_gt_dec 0 m); [rewrite Z.abs_eq by lia; reflexivity|]. rewrite Z.abs_neq by lia. rewrite <- (Z.opp_involutive m) at 2.
  pose proof (Z.div_mod (- m) 2). pose proof (Z.mod_pos_bound (- m) 2).
  apply (Z.mod_unique_pos (- - m) 2 (- ((- m) / 2) - (- m) mod 2)); lia. Qed.
Lemma split_delta w l h m : half_split w l h -> (w == inject_Z (2 * m))%Q -> (h - l == inject_Z (2 * (m mod 2)))%Q.
Proof.
  intros ((a & Ea) & (b & Eb) & Es & E1 & E2 & E3) Em.
  assert (X : (w / 2 == inject_Z m)%Q). { rewrite Em, inject_Z_mult. change (inject_Z 2) with 2%Q. field. }
  rewrite X, Ea in E1. rewrite X, Eb in E2. rewrite Ea, Eb in E3. rewrite Ea, Eb, Em, <- inject_Z_plus in Es.
  apply (proj1 (inject_Z_injective _ _)) in Es. rewrite <- Zle_Qle in E1, E2.
  assert (Y : (inject_Z (2 * b) - inject_Z (2 * a) == inject_Z (2 * b - 2 * a))%Q) by (unfold Z.sub; rewrite inject_Z_plus, inject_Z_opp; ring).
  rewrite Y in E3. change 2%Q with (inject_Z 2) in E3. rewrite <- Zle_Qle in E3.
  rewrite Ea, Eb, Y. apply inject_Z_injective.
    assert (D : b - a = m mod 2) by (apply (Z.mod_unique_pos m 2 a (b - a)); lia). lia.
Qed.

Lemma frequency_sum_T pos : sum_T (frequency_sum pos).
Proof.
  split.
  - intros w f g H. unfold frequency_sum. rewrite !matsubarasum_csum. apply csum_ext. intros i _. apply H, term_fermionic.
  - intros w f. unfold frequency_sum. rewrite !matsubarasum_csum. apply csum_opp.
  - intros w f. unfold frequency_sum. rewrite !matsubarasum_csum. apply csum_conj.
  - intros w l h f g S H. unfold frequency_sum. rewrite !matsubarasum_csum.
    assert (Bw : bosonic w). { destruct S as (A & B & E & _). destruct (bb_add _ _ A B) as (n & F). exists n. rewrite <- E. exact F. }
    destruct Bw as (m & Em). rewrite (bosonic_floor w m Em). pose proof (split_delta w l h m S Em) as D.
    destruct (limits pos m) as (L1 & L2). rewrite abs_mod2 in L1.
    set (N := Z.to_nat _). rewrite (csum_reverse N (term g _)). apply csum_ext. intros i Hi. unfold term. apply H; [apply term_fermionic|].
    rewrite D. unfold N in *.
    rewrite Nat2Z.inj_sub, Nat2Z.inj_sub, Z2Nat.id by lia.
    unfold Qminus. rewrite <- !inject_Z_opp, <- !inject_Z_plus. apply inject_Z_injective. lia.
  - intros w w' f (m & Em) Ew. unfold frequency_sum. rewrite (bosonic_floor w m Em).
    assert (X : Qfloor w' = 2 * m \/ Qfloor w' = 2 * - m).
    { destruct Ew as [Ew | Ew]; [left|right]; apply bosonic_floor; rewrite Ew, Em; [reflexivity|]. rewrite <- inject_Z_opp. apply inject_Z_injective. lia. }
    destruct X as [-> | ->]; [reflexivity|].
    assert (Y : Mbe_Model.sum_min pos (2 * - m) = Mbe_Model.sum_min pos (2 * m) /\ Mbe_Model.sum_max pos (2 * - m) = Mbe_Model.sum_max pos (2 * m)).
    { destruct (limits pos m) as (A & B), (limits pos (- m)) as (A' & B'). rewrite Z.abs_opp in A', B'. split; congruence. }
    destruct Y as (-> & ->). reflexivity.
Qed.
Lemma sum_T_add J1 J2 : sum_T J1 -> sum_T J2 -> sum_T (fun w f => (J1 w f + J2 w f)%C).
Proof.
  intros H1 H2. split.
  - intros w f g H. rewrite (T_ext _ H1 w f g H), (T_ext _ H2 w f g H). reflexivity.
  - intros w f. rewrite (T_opp _ H1 w f), (T_opp _ H2 w f). ring.
  - intros w f. rewrite (T_conj _ H1 w f), (T_conj _ H2 w f), conj_add. reflexivity.
  - intros w l h f g S H. rewrite (T_reflect _ H1 w l h f g S H), (T_reflect _ H2 w l h f g S H). reflexivity.
  - intros w w' f B E. rewrite (T_even _ H1 w w' f B E), (T_even _ H2 w w' f B E). reflexivity.
Qed.
