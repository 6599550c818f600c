(** Claims about fluctuation-dissipation theorems and causality checks. *)
From Coq Require Import Reals Lra Lia FinFun.
From Verif Require Import Prelude Gf_Model Fdt_Model Fdt_Spec Fdt_Alg Fdt_Proofs Fdt_Proofs2 Fdt_Proofs3.
Open Scope R_scope.

(** * C108: components from fluctuation-dissipation theorems *)
(** Partial: exact arithmetic, mu = 0 and finite temperature; without the interpolation that provides the values. *)
Theorem C108_K1_partial : forall c ch T w v vp val, 0 < T -> zero_t c = false -> mu c = 0 ->
  in_equilibrium ch T w v vp (groups_K1 ch) val ->
  fdt_K1 c ch T w val =
  if Rlt_dec (T * 25) (Rabs w) then [match ch with Cp => (5%Z, val 5%Z) | _ => (3%Z, val 3%Z) end] else [].
Proof. intros c ch T w v vp val HT HZ HM. apply K1_written with (v := v) (vp := vp); assumption. Qed.
Print Assumptions C108_K1_partial.

Theorem C108_K2_partial : forall c ch T w v vp val, 0 < T -> zero_t c = false -> mu c = 0 ->
  in_equilibrium ch T w v vp (groups_K2 ch) val ->
  fdt_K2 c ch T w v val =
  if Rlt_dec T (Rabs w) then
    match ch with Cp => [(0%Z, val 0%Z); (1%Z, val 1%Z); (5%Z, val 5%Z)] | _ => [(0%Z, val 0%Z); (2%Z, val 2%Z); (3%Z, val 3%Z)] end
  else [].
Proof. intros c ch T w v vp val HT HZ HM. apply K2_written with (vp := vp); assumption. Qed.
Print Assumptions C108_K2_partial.

Theorem C108_K3_partial : forall c ch T w v vp val, 0 < T -> zero_t c = false -> mu c = 0 ->
  in_equilibrium ch T w v vp groups_K3 val ->
  fdt_K3 c ch T w v vp val = [(0%Z, val 0%Z); (1%Z, val 1%Z)].
Proof. intros c ch T w v vp val HT HZ HM. apply K3_written; assumption. Qed.
Print Assumptions C108_K3_partial.

Theorem C108_slice_partial : forall c T v vp val, 0 < T -> mu c = 0 ->
  in_equilibrium Ct T 0 v vp groups_K3 val -> conjugation_symmetric val ->
  fdt_slice c T v vp val = map (fun k => (k, val k)) [0; 1; 2; 3; 4; 5; 6; 7; 8; 9; 10; 11; 12; 13; 14; 15]%Z.
Proof. intros c T v vp val HT HM. apply slice_written; assumption. Qed.
Print Assumptions C108_slice_partial.

(** equilibrium vertices pass, in every spin component *)
Theorem C108_no_deviation_partial : forall c ch T w v vp n p, 0 < T -> zero_t c = false -> mu c = 0 ->
  ((forall s, in_equilibrium ch T w v vp (groups_K1 ch) (p s)) -> forall s k, deviation p (through_K1 c n ch T w p) s k = rc 0) /\
  ((forall s, in_equilibrium ch T w v vp (groups_K2 ch) (p s)) -> forall s k, deviation p (through_K2 c n ch T w v p) s k = rc 0) /\
  ((forall s, in_equilibrium ch T w v vp groups_K3 (p s)) -> forall s k, deviation p (through_K3 c n ch T w v vp p) s k = rc 0).
Proof.
  intros c ch T w v vp n p HT HZ HM.
  assert (A : forall q : point, (forall s k, q s k = p s k) -> forall s k, deviation p q s k = rc 0).
  { intros q H s k. unfold deviation. rewrite H. unfold csub, rc. f_equal; lra. }
  split; [|split]; intros H s k; apply A; clear s k; intros s k; apply loop_ext; intros s' e _ I -> ->.
  - rewrite (C108_K1_partial c ch T w v vp _ HT HZ HM (H s')) in I. destruct Rlt_dec; [|destruct I].
    destruct ch; destruct I as [<-|[]]; reflexivity.
  - rewrite (C108_K2_partial c ch T w v vp _ HT HZ HM (H s')) in I. destruct Rlt_dec; [|destruct I].
    destruct ch; destruct I as [<-|[<-|[<-|[]]]]; reflexivity.
  - rewrite (C108_K3_partial c ch T w v vp _ HT HZ HM (H s')) in I. destruct I as [<-|[<-|[]]]; reflexivity.
Qed.
Print Assumptions C108_no_deviation_partial.

(** violations in K3 show up in every spin component *)
Lemma K3_stored : forall c ch T w v vp n p s, (0 <= s < Z.of_nat n)%Z ->
  forall e, In e (fdt_K3 c ch T w v vp (p s)) -> through_K3 c n ch T w v vp p s (fst e) = snd e.
Proof.
  intros c ch T w v vp n p s Hs e I. unfold through_K3.
  assert (Hin : In s (spins n)) by (apply spins_range, Hs).
  assert (ND : NoDup (spins n)) by (unfold spins; apply FinFun.Injective_map_NoDup; [intros a b E; lia|apply seq_NoDup]).
  apply in_split in Hin as (l1 & l2 & E). rewrite E in *.
  rewrite fold_left_app. cbn [fold_left].
  rewrite loop_untouched.
  2: { intros Q. apply NoDup_remove_2 in ND. apply ND, in_or_app. right. exact Q. }
  unfold fdt_K3 in *. destruct ch; destruct I as [<-|[<-|[]]];
    unfold store; cbn [fold_left fst snd]; unfold setvert; cbn [fst snd]; rewrite !Z.eqb_refl; cbn; rewrite ?andb_false_r, ?andb_true_r; reflexivity.
Qed.
Theorem C108_K3_detected_partial : forall c ch T w v vp n p s, (0 <= s < Z.of_nat n)%Z ->
  ((forall k, deviation p (through_K3 c n ch T w v vp p) s k = rc 0) <->
   (forall e, In e (fdt_K3 c ch T w v vp (p s)) -> snd e = p s (fst e))).
Proof.
  intros c ch T w v vp n p s Hs. split.
  - intros H e I. specialize (H (fst e)). unfold deviation in H. rewrite (K3_stored _ _ _ _ _ _ _ _ _ Hs e I) in H.
    destruct (p s (fst e)) as [x y], (snd e) as [x' y']. unfold csub, rc in H; cbn [fst snd] in H. injection H as H1 H2. f_equal; lra.
  - intros H k. unfold deviation, through_K3. rewrite loop_ext.
    + unfold csub, rc. f_equal; lra.
    + intros s' e _ I <- ->. apply H, I.
Qed.
Print Assumptions C108_K3_detected_partial.

(** the loops for K1 and K2 run over n_in = 1 values of the spin index: violations in the second spin component
    leave no deviation *)
Theorem C108_second_spin_refuted : exists p : point, forall c ch,
  (forall s k, deviation p (through_K1 c 1 ch 1 26 p) s k = rc 0) /\
  (forall s k, deviation p (through_K2 c 1 ch 1 26 1 p) s k = rc 0) /\
  (exists e, In e (fdt_K1 c ch 1 26 (p 1%Z)) /\ snd e <> p 1%Z (fst e)) /\
  (exists e, In e (fdt_K2 c ch 1 26 1 (p 1%Z)) /\ snd e <> p 1%Z (fst e)).
Proof.
  exists (fun s _ => if (s =? 1)%Z then rc 1 else rc 0). intros c ch.
  assert (A : 1 * 25 < Rabs 26) by (rewrite Rabs_right; lra). assert (B : 1 < Rabs 26) by (rewrite Rabs_right; lra).
  assert (Z : forall x : R, scal x (conj (rc 0) - rc 0)%C = rc 0).
  { intros. unfold scal, conj, csub, rc; cbn [fst snd]. f_equal; ring. }
  assert (Z2 : forall x y, three_pair x y (rc 0) (rc 0) (rc 0) = rc 0).
  { intros. unfold three_pair. rewrite !Z. unfold cadd, rc; cbn [fst snd]. f_equal; ring. }
  assert (Z3 : forall x y z, three_123 x y z (rc 0) (rc 0) (rc 0) = rc 0).
  { intros. unfold three_123, scal, conj, re_part, cadd, rc; cbn [fst snd]. f_equal; ring. }
  assert (O : forall x : R, scal x (conj (rc 1) - rc 1)%C = rc 0).
  { intros. unfold scal, conj, csub, rc; cbn [fst snd]. f_equal; ring. }
  assert (NE : rc 0 <> rc 1) by (intros [=]; lra).
  assert (D0 : forall (p q : point) s k, q s k = p s k -> deviation p q s k = rc 0).
  { intros p q s k E. unfold deviation. rewrite E. unfold csub, rc. f_equal; lra. }
  split; [|split; [|split]].
  - intros s k. apply D0. apply loop_ext. intros s' e I1 I2 -> ->. apply spins_range in I1. assert (s' = 0%Z) by lia. subst s'. cbn.
    unfold fdt_K1 in I2. destruct Rlt_dec; [|contradiction]. cbn in I2. rewrite Z in I2.
    destruct ch; destruct I2 as [<-|[]]; reflexivity.
  - intros s k. apply D0. apply loop_ext. intros s' e I1 I2 -> ->. apply spins_range in I1. assert (s' = 0%Z) by lia. subst s'. cbn.
    unfold fdt_K2 in I2. destruct Rlt_dec; [|contradiction].
    destruct ch; cbn -[three_pair three_123] in I2; rewrite ?Z2, ?Z3 in I2; destruct I2 as [<-|[<-|[<-|[]]]]; reflexivity.
  - unfold fdt_K1. destruct Rlt_dec; [|contradiction]. eexists. split; [left; reflexivity|]. cbn -[scal]. rewrite O. exact NE.
  - unfold fdt_K2. destruct Rlt_dec; [|contradiction].
    destruct ch; (eexists; split; [left; reflexivity|]; cbn -[three_pair]; unfold three_pair; rewrite !O;
      replace (rc 0 + rc 0)%C with (rc 0) by (unfold cadd, rc; cbn [fst snd]; f_equal; ring); exact NE).
Qed.
Print Assumptions C108_second_spin_refuted.

(** ** Functions in equilibrium *)
(** energies ln 2, ln 3, - ln 2, - ln 3 of the legs *)
Definition ex4 (j : list bool) : comp :=
  match j with
  | [false; false; false; false] | [true; true; true; true] | [true; false; false; false] | [true; true; false; true] => ci
  | [false; true; true; true] | [false; false; true; false] => (0, -2)
  | _ => rc 0
  end.
Lemma exp_ln : forall x y, 0 < x -> y = ln x -> exp y = x.
Proof. intros x y H ->. apply exp_ln, H. Qed.
Lemma ex4_weights :
  exp (group_energy Ct 0 (ln 3) (ln 2) [O1] / 1) = 2 /\ exp (group_energy Ct 0 (ln 3) (ln 2) [O2] / 1) = 3 /\
  exp (group_energy Ct 0 (ln 3) (ln 2) [I1] / 1) = / 2 /\ exp (group_energy Ct 0 (ln 3) (ln 2) [I2] / 1) = / 3.
Proof.
  split; [|split; [|split]]; (apply exp_ln; [lra|]); rewrite ?ln_Rinv by lra; unfold group_energy, sumR, leg_energy; cbn [map fold_right leg_freq]; field.
Qed.
Lemma ex4_thermal : thermal Ct 1 0 (ln 3) (ln 2) groups_K3 ex4.
Proof.
  destruct ex4_weights as (A & B & C & D). split.
  - intros j I. cbn [groups_K3 length branches map app] in I. cbn in I.
    repeat match type of I with _ \/ _ => destruct I as [<-|I] end; [.. | contradiction];
      cbn; unfold weight; cbn [fermionic length Nat.odd Nat.even negb]; rewrite ?A, ?B, ?C, ?D;
      apply injective_projections; cbn; try field; lra.
  - apply injective_projections; cbn; lra.
Qed.
Definition ex4_val : Z -> comp := keldysh_component 1 groups_K3 ex4.
Example C108_K3_hyp : 0 < 1 /\ in_equilibrium Ct 1 0 (ln 3) (ln 2) groups_K3 ex4_val /\ ex4_val 0%Z <> rc 0.
Proof.
  split; [lra|]. split; [exists ex4, 1; split; [exact ex4_thermal|reflexivity]|].
  intros E. apply (f_equal snd) in E. unfold ex4_val in E. cbn in E. lra.
Qed.
Example C108_slice_hyp : conjugation_symmetric ex4_val.
Proof.
  intros k Hk.
  assert (C : (k = 0 \/ k = 1 \/ k = 2 \/ k = 3 \/ k = 4 \/ k = 5 \/ k = 6 \/ k = 7 \/ k = 8 \/ k = 9 \/ k = 10 \/ k = 11 \/ k = 12 \/ k = 13 \/ k = 14 \/ k = 15)%Z) by lia.
  unfold ex4_val.
  Ltac sw := match goal with |- context [swap_legs ?x] => let s := eval vm_compute in (swap_legs x) in change (swap_legs x) with s end.
  repeat (destruct C as [->|C]; [sw; apply injective_projections; cbn; lra|]). subst k. sw. apply injective_projections; cbn; lra.
Qed.

(** temperature 1, transfer frequency 26 *)
Definition ex3 (E : R) (j : list bool) : comp :=
  match j with
  | [false; false; false] | [true; true; true] => ci
  | [true; false; false] => (0, 2 / (E - 1))
  | [false; true; true] => (0, - E * (2 / (E - 1)))
  | _ => rc 0
  end.
Example C108_K2_hyp : forall ch, 1 < Rabs 26 /\ exists val, in_equilibrium ch 1 26 1 0 (groups_K2 ch) val /\ val 0%Z <> rc 0.
Proof.
  intros ch. split; [rewrite Rabs_right; lra|].
  set (a := match ch with Ca => [I2] | Cp => [O1] | Ct => [I2] end).
  set (b := match ch with Ca => [O1] | Cp => [O2] | Ct => [O2] end).
  set (g := match ch with Ca => [O2; I1] | Cp => [I1; I2] | Ct => [O1; I1] end).
  set (E := exp (group_energy ch 26 1 0 a / 1)). set (E2 := exp (group_energy ch 26 1 0 b / 1)). set (E3 := exp (group_energy ch 26 1 0 g / 1)).
  assert (P : 0 < E) by apply exp_pos.
  assert (N : E <> 1).
  { apply exp_ne_1; [lra|]. destruct ch; unfold a, group_energy, sumR, leg_energy; cbn [map fold_right leg_freq]; lra. }
  assert (X : E2 * E3 = / E).
  { apply Rmult_eq_reg_l with E; [|lra]. rewrite Rinv_r by lra. unfold E, E2, E3. rewrite <- !exp_plus. refine (eq_trans _ exp_0). f_equal.
    destruct ch; unfold a, b, g, group_energy, sumR, leg_energy; cbn [map fold_right leg_freq]; field. }
  assert (P2 : 0 < E2) by apply exp_pos.
  assert (Y : E3 = / E / E2) by (rewrite <- X; field; lra).
  assert (G : groups_K2 ch = [a; b; g]) by (destruct ch; reflexivity).
  assert (FA : fermionic a = true) by (destruct ch; reflexivity). assert (FB : fermionic b = true) by (destruct ch; reflexivity).
  assert (FG : fermionic g = false) by (destruct ch; reflexivity).
  exists (keldysh_component 1 (groups_K2 ch) (ex3 E)). split.
  - exists (ex3 E), 1. split; [|reflexivity]. rewrite G. split.
    + intros j I. cbn in I.
      repeat match type of I with _ \/ _ => destruct I as [<-|I] end; [.. | contradiction];
        cbn; unfold weight; rewrite ?FA, ?FB, ?FG; fold E E2 E3; apply injective_projections; cbn; try (field; lra).
      all: rewrite Y; field; lra.
    + apply injective_projections; cbn; field; lra.
  - intros V. apply (f_equal snd) in V. destruct ch; cbn in V.
    all: match type of V with ?x = 0 => replace x with (4) in V by (field; lra) end; lra.
Qed.
Definition ex2 (X : R) (j : list bool) : comp :=
  match j with
  | [true; false] => (0, - (2 / (1 + X))) | [false; true] => (0, - (X * (2 / (1 + X)))) | _ => ci
  end.
Example C108_K1_hyp : forall ch, 1 * 25 < Rabs 26 /\ exists val, in_equilibrium ch 1 26 1 0 (groups_K1 ch) val /\
  val (match ch with Cp => 5%Z | _ => 3%Z end) <> rc 0.
Proof.
  intros ch. split; [rewrite Rabs_right; lra|].
  set (a := match ch with Ca => [O1; I2] | Cp => [O1; O2] | Ct => [O1; I1] end).
  set (b := match ch with Ca => [O2; I1] | Cp => [I1; I2] | Ct => [O2; I2] end).
  set (X := exp (group_energy ch 26 1 0 a / 1)). set (Y := exp (group_energy ch 26 1 0 b / 1)).
  assert (P : 0 < X) by apply exp_pos.
  assert (XY : Y = / X).
  { unfold X, Y. rewrite <- exp_Ropp. f_equal.
    destruct ch; unfold a, b, group_energy, sumR, leg_energy; cbn [map fold_right leg_freq]; field. }
  assert (G : groups_K1 ch = [a; b]) by (destruct ch; reflexivity).
  assert (FA : fermionic a = false) by (destruct ch; reflexivity). assert (FB : fermionic b = false) by (destruct ch; reflexivity).
  exists (keldysh_component 1 (groups_K1 ch) (ex2 X)). split.
  - exists (ex2 X), 1. split; [|reflexivity]. rewrite G. split.
    + intros j I. cbn in I.
      repeat match type of I with _ \/ _ => destruct I as [<-|I] end; [.. | contradiction];
        cbn; unfold weight; rewrite ?FA, ?FB; fold X Y; rewrite ?XY; apply injective_projections; cbn; field; lra.
    + apply injective_projections; cbn; field; lra.
  - intros V. apply (f_equal snd) in V. destruct ch; cbn in V.
    all: match type of V with ?x = 0 => replace x with 4 in V by (field; lra) end; lra.
Qed.
Example C108_spin_hyp : (0 <= 1 < Z.of_nat 2)%Z.
Proof. lia. Qed.

(** * C109: checks of the self-energy and of K1 *)
(** Partial: exact arithmetic, finite values. *)
Theorem C109_selfenergy_deviation_partial : forall c T pts,
  (max_deviation c T pts = 0 <-> forall v sR sK, In (v, sR, sK) pts -> sK = (0, 2 * Eff_fac c v T * snd sR)) /\
  (forall v sR sK, In (v, sR, sK) pts -> cabs (sK - (0%R, (2 * Eff_fac c v T * snd sR)%R))%C <= max_deviation c T pts) /\
  (pts = [] \/ exists v sR sK, In (v, sR, sK) pts /\ max_deviation c T pts = cabs (sK - (0%R, (2 * Eff_fac c v T * snd sR)%R))%C).
Proof.
  intros c T pts. unfold max_deviation.
  destruct (fold_Rmax_spec _ (fun p : R * comp * comp => cabs (sigma_K_from_FDT c (fst (fst p)) T (snd (fst p)) - snd p)%C) pts 0) as (H1 & H2 & H3).
  set (M := fold_left _ pts 0) in *.
  assert (S0 : forall v sR sK, cabs (sigma_K_from_FDT c v T sR - sK)%C = cabs (sK - (0%R, (2 * Eff_fac c v T * snd sR)%R))%C).
  { intros. unfold cabs, norm, sigma_K_from_FDT, imag, csub; cbn [fst snd]. f_equal. ring. }
  split; [split|split].
  - intros E v sR sK I. specialize (H2 _ I). cbn [fst snd] in H2. rewrite S0, E in H2.
    pose proof (cabs_nonneg (sK - (0%R, (2 * Eff_fac c v T * snd sR)%R))%C).
    assert (Z : cabs (sK - (0%R, (2 * Eff_fac c v T * snd sR)%R))%C = 0) by lra. apply cabs_zero in Z.
    destruct sK as [x y]. unfold csub in Z; cbn [fst snd] in Z. injection Z as Z1 Z2. f_equal; lra.
  - intros H. destruct H3 as [E|([[v sR] sK] & I & E)]; [exact E|]. rewrite E. cbn [fst snd].
    rewrite (H v sR sK I). unfold cabs, norm, sigma_K_from_FDT, imag, csub; cbn [fst snd].
    refine (eq_trans _ sqrt_0). f_equal. ring.
  - intros v sR sK I. rewrite <- S0. apply (H2 _ I).
  - destruct pts as [|[[v sR] sK] l]; [left; reflexivity|right].
    destruct H3 as [E|([[v' sR'] sK'] & I & E)].
    + exists v, sR, sK. split; [left; reflexivity|]. rewrite E, <- S0.
      specialize (H2 (v, sR, sK) (or_introl eq_refl)). cbn [fst snd] in H2. pose proof (cabs_nonneg (sigma_K_from_FDT c v T sR - sK)%C). lra.
    + exists v', sR', sK'. split; [exact I|]. rewrite E. apply S0.
Qed.
Print Assumptions C109_selfenergy_deviation_partial.

(** in equilibrium nothing deviates: retarded component outgoing 1, incoming 2 *)
Theorem C109_selfenergy_equilibrium_partial : forall c T pts, 0 < T -> zero_t c = false -> equilibrium c = true -> mu c = 0 ->
  (forall v sR sK, In (v, sR, sK) pts -> exists F n, thermal Ct T 0 0 v [[O1]; [I1]] F /\
     sR = keldysh_component n [[O1]; [I1]] F 2 /\ sK = keldysh_component n [[O1]; [I1]] F 0) ->
  max_deviation c T pts = 0.
Proof.
  intros c T pts HT HZ HQ HM H. apply C109_selfenergy_deviation_partial. intros v sR sK I.
  destruct (H v sR sK I) as (F & n & TH & -> & ->).
  rewrite (component_scaled n _ F 0), (component_scaled n _ F 2). apply (thermal_scaled n) in TH. set (F' := fun j => scal n (F j)) in *.
  unfold Eff_fac, Fermi_fac. rewrite HQ, HZ, HM, Rminus_0_r.
  pose proof (selfenergy_thermal T 0 v F' HT TH) as E.
  assert (A : keldysh_component 1 [[O1]; [I1]] F' 0 = comp2 F' true true) by (apply injective_projections; cbn; ring).
  assert (B : keldysh_component 1 [[O1]; [I1]] F' 2 = comp2 F' true false) by (apply injective_projections; cbn; ring).
  rewrite A, B. exact E.
Qed.
Print Assumptions C109_selfenergy_equilibrium_partial.

Theorem C109_K1_equilibrium_partial : forall c ch T w v vp val, 0 < T -> zero_t c = false -> equilibrium c = true -> mu c = 0 -> w <> 0 ->
  in_equilibrium ch T w v vp (groups_K1 ch) val -> K1_deviation c ch w T val = rc 0.
Proof.
  intros c ch T w v vp val HT HZ HQ HM W (F & TH & H)%equilibrium_normal.
  pose proof (exp_pos (w / T)) as P. pose proof (exp_ne_1 w T HT W) as N.
  assert (NI : exp (- (w / T)) <> 1) by (replace (- (w / T)) with ((- w) / T) by (field; lra); apply exp_ne_1; [exact HT|lra]).
  assert (K : scal ((exp (w / T) + 1) / (exp (w / T) - 1)) (conj (val 1%Z) - val 1%Z)%C = val (match ch with Cp => 5%Z | _ => 3%Z end)).
  { destruct ch; rewrite !H by lia; cbn [groups_K1]; rewrite !comp2_component; cbn -[comp2].
    - eapply two_first with (1 := TH).
      + replace (group_energy Ca w v vp [O1; I2] / T) with (- (w / T)) by energy. exact NI.
      + replace (group_energy Ca w v vp [O1; I2] / T) with (- (w / T)) by energy. rewrite exp_Ropp. field. lra.
    - eapply two_second with (1 := TH).
      + rewrite <- exp_plus, <- exp_0. f_equal. energy.
      + replace (group_energy Cp w v vp [O1; O2] / T) with (w / T) by energy. exact N.
      + replace (group_energy Cp w v vp [I1; I2] / T) with (- (w / T)) by energy. rewrite exp_Ropp. field. lra.
    - eapply two_second with (1 := TH).
      + rewrite <- exp_plus, <- exp_0. f_equal. energy.
      + replace (group_energy Ct w v vp [O1; I1] / T) with (w / T) by energy. exact N.
      + replace (group_energy Ct w v vp [O2; I2] / T) with (- (w / T)) by energy. rewrite exp_Ropp. field. lra. }
  unfold K1_deviation, Eff_fac. rewrite HQ, <- K, fac_exp by assumption.
  apply injective_projections; cbn; field; lra.
Qed.
Print Assumptions C109_K1_equilibrium_partial.

(** the report of positive imaginary parts, without NaN and internal index *)
Theorem C109_causality_partial : forall (values : list R),
  let r := causality_Keldysh (length values) (map Some values) in
  (fst r = 0%nat <-> Forall (fun x => x <= 0) values) /\
  fst r = length (filter (fun x => if Rlt_dec 0 x then true else false) values) /\
  ((fst r > 0)%nat -> In (snd r) values /\ 0 < snd r /\ Forall (fun x => x <= snd r) values).
Proof.
  intros values. unfold causality_Keldysh. rewrite firstn_all2 by (rewrite map_length; lia).
  destruct (causality_fold (map Some values) 0 0) as (H1 & H2 & H3 & H4).
  set (r := fold_left _ (map Some values) (0%nat, 0)) in *. cbn zeta.
  assert (L : length (filter positive (map Some values)) = length (filter (fun x => if Rlt_dec 0 x then true else false) values)).
  { clear. induction values as [|x l IH]; [reflexivity|]. cbn [map filter positive]. destruct (Rlt_dec 0 x); cbn [length]; congruence. }
  rewrite L in H1. cbn [Nat.add] in H1. split; [|split; [exact H1|]].
  - rewrite H1, filter_nil, !Forall_forall. split; intros H x I; specialize (H x I).
    + destruct (Rlt_dec 0 x); [discriminate|lra].
    + cbn beta in H. destruct (Rlt_dec 0 x); [lra|reflexivity].
  - intros G. destruct H4 as [E|(x & I & Px & E)].
    + exfalso. rewrite H1 in G.
      assert (F0 : length (filter (fun x => if Rlt_dec 0 x then true else false) values) = 0%nat).
      { apply filter_nil, Forall_forall. intros x I. cbn beta. destruct (Rlt_dec 0 x) as [Q|Q]; [|reflexivity].
        specialize (H3 x (in_map Some _ _ I) Q). lra. }
      lia.
    + apply in_map_iff in I as (y & [= ->] & I). rewrite E. split; [exact I|]. split; [exact Px|].
      apply Forall_forall. intros z J. destruct (Rlt_dec 0 z) as [Q|Q]; [|lra]. rewrite <- E. apply H3; [apply in_map, J|exact Q].
Qed.
Print Assumptions C109_causality_partial.

(** Matsubara: the imaginary part must not have the sign of the frequency *)
Theorem C109_causality_matsubara_partial : forall (l : list (R * R)),
  causality_Matsubara (map (fun p => (fst p, Some (snd p))) l) = 0%nat <->
  Forall (fun p => (0 < fst p -> snd p <= 0) /\ (fst p < 0 -> 0 <= snd p)) l.
Proof.
  intros l. unfold causality_Matsubara. rewrite filter_nil, !Forall_forall. split.
  - intros H [w x] I. specialize (H (w, Some x)). cbn [fst snd] in *.
    assert (J : In (w, Some x) (map (fun p : R * R => (fst p, Some (snd p))) l)) by (apply in_map_iff; exists (w, x); auto).
    specialize (H J). cbn [positive] in H. unfold sign in H.
    destruct (Rlt_dec 0 w), (Rlt_dec w 0); destruct (Rlt_dec 0 (_ * _)); try discriminate; split; intros; lra.
  - intros H [w o] I. apply in_map_iff in I as ([w' x] & [= -> <-] & I). specialize (H _ I). cbn [fst snd positive] in *. unfold sign.
    destruct (Rlt_dec 0 w), (Rlt_dec w 0); destruct (Rlt_dec 0 (_ * _)); try reflexivity; lra.
Qed.
Print Assumptions C109_causality_matsubara_partial.
Example C109_causality_matsubara_hyp : Forall (fun p : R * R => (0 < fst p -> snd p <= 0) /\ (fst p < 0 -> 0 <= snd p)) [(-1, 2); (0, 5); (1, -2)].
Proof. repeat apply Forall_cons; try apply Forall_nil; cbn; split; lra. Qed.

(** a self-energy of NaN is reported to be causal, as is one with positive values at the second internal index *)
Theorem C109_causality_refuted :
  (forall nFER, fst (causality_Keldysh nFER (repeat None nFER)) = 0%nat) /\
  (forall nFER, fst (causality_Keldysh nFER (repeat (Some (-1)) nFER ++ repeat (Some 1) nFER)) = 0%nat).
Proof.
  split; intros n; unfold causality_Keldysh.
  - rewrite firstn_all2 by (rewrite repeat_length; lia). destruct (causality_fold (repeat None n) 0 0) as (H & _). rewrite H.
    cbn [Nat.add]. apply filter_nil, Forall_forall. intros x I. apply repeat_spec in I. subst x. reflexivity.
  - rewrite firstn_app, repeat_length, Nat.sub_diag. cbn [firstn]. rewrite app_nil_r, firstn_all2 by (rewrite repeat_length; lia).
    destruct (causality_fold (repeat (Some (-1)) n) 0 0) as (H & _). rewrite H.
    cbn [Nat.add]. apply filter_nil, Forall_forall. intros x I. apply repeat_spec in I. subst x. cbn. destruct (Rlt_dec 0 (-1)); [lra|reflexivity].
Qed.
Print Assumptions C109_causality_refuted.

Definition ex1 (j : list bool) : comp :=
  match j with [true; false] => (0, 2) | [false; true] => (0, -4) | _ => ci end.
Example C109_equilibrium_hyp : thermal Ct 1 0 0 (ln 2) [[O1]; [I1]] ex1 /\ keldysh_component 1 [[O1]; [I1]] ex1 2 = (0, 6).
Proof.
  assert (A : exp (group_energy Ct 0 0 (ln 2) [O1] / 1) = 2).
  { apply exp_ln; [lra|]. unfold group_energy, sumR, leg_energy; cbn [map fold_right leg_freq]; field. }
  assert (B : exp (group_energy Ct 0 0 (ln 2) [I1] / 1) = / 2).
  { apply exp_ln; [lra|]. rewrite ln_Rinv by lra. unfold group_energy, sumR, leg_energy; cbn [map fold_right leg_freq]; field. }
  split; [split|].
  - intros j I. cbn in I.
    repeat match type of I with _ \/ _ => destruct I as [<-|I] end; [.. | contradiction];
      cbn; unfold weight; cbn [fermionic length Nat.odd Nat.even negb]; rewrite ?A, ?B; apply injective_projections; cbn; try field; lra.
  - apply injective_projections; cbn; lra.
  - apply injective_projections; cbn; lra.
Qed.
