(** The values written by the program for functions in equilibrium. *)
From Coq Require Import Reals Lra Lia.
From Verif Require Import Prelude Gf_Model Fdt_Model Fdt_Spec Fdt_Alg Fdt_Proofs.
Open Scope R_scope.

Ltac energy := unfold group_energy, sumR, leg_energy; cbn [map fold_right leg_freq]; field; lra.

#[local] Arguments comp3 : simpl never.
#[local] Arguments comp2 : simpl never.

Section Written.
  Variable c : cfg.
  Variables T w v vp : R.
  Hypothesis HT : 0 < T.
  Hypothesis HZ : zero_t c = false.
  Hypothesis HM : mu c = 0.

  Lemma fac_group : forall ch g x, group_energy ch w v vp g = x ->
    Fermi_fac c x (mu c) T = (exp (group_energy ch w v vp g / T) - 1) / (exp (group_energy ch w v vp g / T) + 1).
  Proof. intros ch g x <-. apply fac_exp; assumption. Qed.
  Lemma boson_group : forall ch g x, group_energy ch w v vp g = x -> x <> 0 ->
    1 / Fermi_fac c x (mu c) T = (exp (group_energy ch w v vp g / T) + 1) / (exp (group_energy ch w v vp g / T) - 1).
  Proof. intros ch g x <- H. apply boson_exp; assumption. Qed.

  Lemma K3_written : forall ch val, in_equilibrium ch T w v vp groups_K3 val ->
    fdt_K3 c ch T w v vp val = [(0%Z, val 0%Z); (1%Z, val 1%Z)].
  Proof.
    intros ch val (F & TH & H)%equilibrium_normal.
    assert (A : forall N1 N2 N3 N4,
      N1 = Fermi_fac c (group_energy ch w v vp [O1]) (mu c) T -> N2 = Fermi_fac c (group_energy ch w v vp [O2]) (mu c) T ->
      N3 = Fermi_fac c (group_energy ch w v vp [I1]) (mu c) T -> N4 = Fermi_fac c (group_energy ch w v vp [I2]) (mu c) T ->
      four_1234 N1 N2 N3 N4 (val 7%Z) (val 11%Z) (val 13%Z) (val 14%Z) (val 3%Z) (val 5%Z) (val 6%Z) (val 9%Z) (val 10%Z) (val 12%Z) = val 0%Z /\
      four_123 N1 N2 N3 (val 7%Z) (val 11%Z) (val 13%Z) (val 14%Z) (val 3%Z) (val 5%Z) (val 9%Z) = val 1%Z).
    { intros N1 N2 N3 N4 -> -> -> ->. rewrite !H by lia. split.
      - refine (four_1234_thermal ch T w v vp F _ _ _ _ TH _ _ _ _ HT); apply fac_group; reflexivity.
      - refine (four_123_thermal ch T w v vp F _ _ _ _ TH _ _ _ (fac_group ch [I2] _ eq_refl) HT); apply fac_group; reflexivity. }
    unfold fdt_K3. destruct ch;
      (edestruct A as [A1 A2]; cycle 4; [rewrite A1, A2; reflexivity | f_equal; energy ..]).
  Qed.

  Lemma comp3_component : forall a b g h F k,
    keldysh_component 1 [[a]; [b]; [g; h]] F k = comp3 F (group_one k [a]) (group_one k [b]) (group_one k [g; h]).
  Proof. intros. unfold keldysh_component, comp3. apply injective_projections; cbn; ring. Qed.
  Lemma comp2_component : forall a b g h F k,
    keldysh_component 1 [[a; b]; [g; h]] F k = comp2 F (group_one k [a; b]) (group_one k [g; h]).
  Proof. intros. unfold keldysh_component, comp2. apply injective_projections; cbn; ring. Qed.

  Lemma K2_written : forall ch val, in_equilibrium ch T w v vp (groups_K2 ch) val ->
    fdt_K2 c ch T w v val =
    if Rlt_dec T (Rabs w) then
      match ch with Cp => [(0%Z, val 0%Z); (1%Z, val 1%Z); (5%Z, val 5%Z)] | _ => [(0%Z, val 0%Z); (2%Z, val 2%Z); (3%Z, val 3%Z)] end
    else [].
  Proof.
    intros ch val (F & TH & H)%equilibrium_normal.
    unfold fdt_K2. destruct (Rlt_dec T (Rabs w)) as [L|L]; [|reflexivity].
    assert (W : w <> 0) by (intros ->; rewrite Rabs_R0 in L; lra).
    assert (A : forall a b g h N1 N2 N3, groups_K2 ch = [[a]; [b]; [g; h]] ->
      group_energy ch w v vp [a] + group_energy ch w v vp [b] + group_energy ch w v vp [g; h] = 0 ->
      group_energy ch w v vp [g; h] <> 0 ->
      N1 = Fermi_fac c (group_energy ch w v vp [a]) (mu c) T -> N2 = Fermi_fac c (group_energy ch w v vp [b]) (mu c) T ->
      N3 = 1 / Fermi_fac c (group_energy ch w v vp [g; h]) (mu c) T ->
      three_pair N1 N2 (comp3 F true false false) (comp3 F false true false) (comp3 F false false true) = comp3 F true true false /\
      three_pair N1 N3 (comp3 F true false false) (comp3 F false false true) (comp3 F false true false) = comp3 F true false true /\
      three_pair N2 N3 (comp3 F false true false) (comp3 F false false true) (comp3 F true false false) = comp3 F false true true /\
      three_123 N1 N2 N3 (comp3 F true false false) (comp3 F false true false) (comp3 F false false true) = comp3 F true true true).
    { intros a b g h N1 N2 N3 G S0 B -> -> ->. rewrite G in TH.
      assert (X : exp (group_energy ch w v vp [a] / T) * exp (group_energy ch w v vp [b] / T) * exp (group_energy ch w v vp [g; h] / T) = 1).
      { rewrite <- !exp_plus, <- exp_0. f_equal. rewrite <- (Rmult_0_l (/ T)), <- S0. field. lra. }
      pose proof (exp_ne_1 _ T HT B) as Y.
      pose proof (fac_group ch [a] _ eq_refl). pose proof (fac_group ch [b] _ eq_refl).
      pose proof (boson_group ch [g; h] _ eq_refl B) as N3.
      split; [|split; [|split]];
        [eapply three_12_thermal|eapply three_13_thermal|eapply three_23_thermal|eapply three_123_thermal]; try eassumption. }
    destruct ch; rewrite !H by lia; cbn [groups_K2]; rewrite !comp3_component; cbn;
      (edestruct A as (A1 & A2 & A3 & A4); [reflexivity|energy| | | | |]; cycle 4;
        [rewrite ?A1, ?A2, ?A3, ?A4; reflexivity | intros Z; apply W | f_equal; energy | f_equal; energy | do 2 f_equal; energy]).
    all: revert Z; unfold group_energy, sumR, leg_energy; cbn [map fold_right leg_freq]; lra.
  Qed.

  Lemma K1_written : forall ch val, in_equilibrium ch T w v vp (groups_K1 ch) val ->
    fdt_K1 c ch T w val =
    if Rlt_dec (T * 25) (Rabs w) then [match ch with Cp => (5%Z, val 5%Z) | _ => (3%Z, val 3%Z) end] else [].
  Proof.
    intros ch val (F & TH & H)%equilibrium_normal.
    unfold fdt_K1. destruct (Rlt_dec (T * 25) (Rabs w)) as [L|L]; [|reflexivity].
    assert (W : w <> 0) by (intros ->; rewrite Rabs_R0 in L; lra).
    pose proof (exp_pos (w / T)) as P. pose proof (exp_ne_1 w T HT W) as N.
    assert (NI : exp (- (w / T)) <> 1) by (replace (- (w / T)) with ((- w) / T) by (field; lra); apply exp_ne_1; [exact HT|lra]).
    rewrite boson_exp by assumption.
    destruct ch; rewrite !H by lia; cbn [groups_K1]; rewrite !comp2_component; cbn; f_equal; f_equal.
    - eapply two_first with (1 := TH).
      + replace (group_energy Ca w v vp [O1; I2] / T) with (- (w / T)) by energy. exact NI.
      + replace (group_energy Ca w v vp [O1; I2] / T) with (- (w / T)) by energy. rewrite exp_Ropp. field. lra.
    - eapply two_second with (1 := TH).
      + rewrite <- exp_plus, <- exp_0. f_equal. energy.
      + replace (group_energy Cp w v vp [O1; O2] / T) with (w / T) by energy. exact N.
      + replace (group_energy Cp w v vp [I1; I2] / T) with (- (w / T)) by energy. rewrite exp_Ropp. field. lra.
    - eapply two_second with (1 := TH).
      + rewrite <- exp_plus, <- exp_0. f_equal. energy.
      + replace (group_energy Ct w v vp [O1; I1] / T) with (w / T) by energy. exact N.
      + replace (group_energy Ct w v vp [O2; I2] / T) with (- (w / T)) by energy. rewrite exp_Ropp. field. lra.
  Qed.
End Written.

(** ** The slice at vanishing transfer frequency *)
Lemma scal_conj_pair : forall z z' : comp, z = scal 1 (conj z') -> fst z = fst z' /\ snd z = - snd z'.
Proof. intros z z' ->. unfold scal, conj; cbn [fst snd]. split; ring. Qed.
Lemma scal_anti_pair : forall z z' : comp, z = scal (-1) (conj z') -> fst z = - fst z' /\ snd z = snd z'.
Proof. intros z z' ->. unfold scal, conj; cbn [fst snd]. split; ring. Qed.

Section Slice.
  Variable c : cfg.
  Variables T v vp : R.
  Hypothesis HT : 0 < T.
  Hypothesis HM : mu c = 0.
  Lemma slice_written : forall val, in_equilibrium Ct T 0 v vp groups_K3 val -> conjugation_symmetric val ->
    fdt_slice c T v vp val = map (fun k => (k, val k)) [0; 1; 2; 3; 4; 5; 6; 7; 8; 9; 10; 11; 12; 13; 14; 15]%Z.
  Proof.
    intros val (F & TH & H)%equilibrium_normal CS.
    set (E1 := exp (vp / T)). set (E2 := exp (v / T)).
    assert (P1 : 0 < E1) by apply exp_pos. assert (P2 : 0 < E2) by apply exp_pos.
    assert (L1 : exp (group_energy Ct 0 v vp [O1] / T) = E1) by (unfold E1; f_equal; energy).
    assert (L2 : exp (group_energy Ct 0 v vp [O2] / T) = E2) by (unfold E2; f_equal; energy).
    assert (L3 : exp (group_energy Ct 0 v vp [I1] / T) = / E1) by (unfold E1; rewrite <- exp_Ropp; f_equal; energy).
    assert (L4 : exp (group_energy Ct 0 v vp [I2] / T) = / E2) by (unfold E2; rewrite <- exp_Ropp; f_equal; energy).
    set (t1 := tanh (vp / (2 * T))). set (t2 := tanh (v / (2 * T))).
    assert (T1 : t1 = (E1 - 1) / (E1 + 1)) by (apply tanh_exp, HT).
    assert (T2 : t2 = (E2 - 1) / (E2 + 1)) by (apply tanh_exp, HT).
    assert (N1 : t1 = (exp (group_energy Ct 0 v vp [O1] / T) - 1) / (exp (group_energy Ct 0 v vp [O1] / T) + 1)) by (rewrite L1; exact T1).
    assert (N2 : t2 = (exp (group_energy Ct 0 v vp [O2] / T) - 1) / (exp (group_energy Ct 0 v vp [O2] / T) + 1)) by (rewrite L2; exact T2).
    assert (N3 : - t1 = (exp (group_energy Ct 0 v vp [I1] / T) - 1) / (exp (group_energy Ct 0 v vp [I1] / T) + 1)) by (rewrite L3, T1; field; lra).
    assert (N4 : - t2 = (exp (group_energy Ct 0 v vp [I2] / T) - 1) / (exp (group_energy Ct 0 v vp [I2] / T) + 1)) by (rewrite L4, T2; field; lra).
    pose proof (four_123_thermal Ct T 0 v vp F _ _ _ _ TH N1 N2 N3 N4 HT) as A1.
    pose proof (four_124_thermal Ct T 0 v vp F _ _ _ _ TH N1 N2 N3 N4 HT) as A2.
    pose proof (four_1234_thermal Ct T 0 v vp F _ _ _ _ TH N1 N2 N3 N4 HT) as A0.
    pose proof (all_two_thermal Ct T 0 v vp F TH) as A15.
    assert (O : exp (group_energy Ct 0 v vp [I1] / T) = / exp (group_energy Ct 0 v vp [O1] / T)) by (rewrite L3, L1; reflexivity).
    pose proof (opposite_thermal Ct T 0 v vp F t1 t2 TH N1 N2 O) as A5.
    rewrite <- (H 0%Z), <- (H 7%Z), <- (H 11%Z), <- (H 13%Z), <- (H 14%Z), <- (H 3%Z), <- (H 5%Z), <- (H 6%Z), <- (H 9%Z), <- (H 10%Z), <- (H 12%Z) in A0 by lia.
    rewrite <- (H 1%Z), <- (H 7%Z), <- (H 11%Z), <- (H 13%Z), <- (H 14%Z), <- (H 3%Z), <- (H 5%Z), <- (H 9%Z) in A1 by lia.
    rewrite <- (H 2%Z), <- (H 7%Z), <- (H 11%Z), <- (H 13%Z), <- (H 14%Z), <- (H 3%Z), <- (H 6%Z), <- (H 10%Z) in A2 by lia.
    rewrite <- (H 5%Z), <- (H 7%Z), <- (H 11%Z), <- (H 13%Z), <- (H 14%Z), <- (H 10%Z) in A5 by lia.
    rewrite <- (H 15%Z) in A15 by lia.
    clear N1 N2 N3 N4 L1 L2 L3 L4 O TH H.
    pose proof (scal_conj_pair _ _ (CS 7%Z ltac:(lia))) as [X13 Y13]. change (swap_legs 7) with 13%Z in X13, Y13.
    pose proof (scal_conj_pair _ _ (CS 11%Z ltac:(lia))) as [X14 Y14]. change (swap_legs 11) with 14%Z in X14, Y14.
    pose proof (scal_anti_pair _ _ (CS 3%Z ltac:(lia))) as [X12 Y12]. change (swap_legs 3) with 12%Z in X12, Y12.
    pose proof (scal_anti_pair _ _ (CS 6%Z ltac:(lia))) as [X9 Y9]. change (swap_legs 6) with 9%Z in X9, Y9.
    pose proof (scal_anti_pair _ _ (CS 5%Z ltac:(lia))) as [X5 _]. change (swap_legs 5) with 5%Z in X5.
    pose proof (scal_anti_pair _ _ (CS 10%Z ltac:(lia))) as [X10 _]. change (swap_legs 10) with 10%Z in X10.
    pose proof (scal_anti_pair _ _ (CS 0%Z ltac:(lia))) as [X0 _]. change (swap_legs 0) with 0%Z in X0.
    pose proof (scal_conj_pair _ _ (CS 1%Z ltac:(lia))) as [X4 Y4]. change (swap_legs 1) with 4%Z in X4, Y4.
    pose proof (scal_conj_pair _ _ (CS 2%Z ltac:(lia))) as [X8 Y8]. change (swap_legs 2) with 8%Z in X8, Y8.
    assert (Z5 : fst (val 5%Z) = 0) by lra. assert (Z10 : fst (val 10%Z) = 0) by lra. assert (Z0 : fst (val 0%Z) = 0) by lra.
    clear X5 X10 X0 CS.
    assert (R1 := f_equal fst A1). assert (I1 := f_equal snd A1). assert (R2 := f_equal fst A2). assert (I2 := f_equal snd A2).
    assert (I0 := f_equal snd A0). clear A1 A2 A0.
    unfold four_123, four_1234, scal, conj, cadd, csub in R1, I1, R2, I2, I0; cbn [fst snd] in R1, I1, R2, I2, I0.
    unfold fdt_slice. rewrite HM, !Rminus_0_r. fold t1 t2. cbn [map].
    rewrite !cosh_exp by exact HT. fold E1 E2.
    assert (W : forall (k : Z) (z z' : comp) l l', fst z = fst z' -> snd z = snd z' -> l = l' -> (k, z) :: l = (k, z') :: l').
    { intros k [] [] l l' A B ->. cbn in A, B. subst. reflexivity. }
    repeat apply W; try reflexivity; unfold imag, scal, conj, cadd, csub, copp; cbn [fst snd]; 
      try rewrite X4; try rewrite Y4; try rewrite X8; try rewrite Y8; try rewrite Z0;
      try rewrite <- R1; try rewrite <- I1; try rewrite <- R2; try rewrite <- I2; try rewrite <- I0;
      try (rewrite ?Y13, ?Y14, ?Y12, ?Y9, ?X13, ?X14, ?X12, ?X9, ?Z5, ?Z10; ring).
    - apply Rmult_eq_reg_l with ((1 - t2 * t2)); [|rewrite T2; replace (1 - (E2 - 1) / (E2 + 1) * ((E2 - 1) / (E2 + 1))) with (4 * E2 / ((E2 + 1) * (E2 + 1))) by (field; lra);
        apply Rgt_not_eq, Rdiv_lt_0_compat; [lra|apply Rmult_lt_0_compat; lra]].
      rewrite Y13, Y14 in A5.
      transitivity ((1 - t2 * t2) * (snd (val 5%Z) - t1 * (snd (val 7%Z) - - snd (val 7%Z))) + (1 - t2 * t2) * (2 * t1 * snd (val 7%Z))); [|ring].
      rewrite <- A5, T1, T2. field. lra.
    - rewrite A15. reflexivity.
    - rewrite A15. reflexivity.
  Qed.
End Slice.
