(** Formulas of the program against functions in thermal equilibrium. *)
From Coq Require Import Reals Lra Lia.
From Verif Require Import Prelude Gf_Model Fdt_Model Fdt_Spec Fdt_Alg.
Open Scope R_scope.

Lemma tanh_exp : forall x T, 0 < T -> tanh (x / (2 * T)) = (exp (x / T) - 1) / (exp (x / T) + 1).
Proof.
  intros x T HT. unfold tanh, sinh, cosh.
  replace (x / T) with (x / (2 * T) + x / (2 * T)) by (field; lra).
  rewrite exp_plus, exp_Ropp. set (e := exp (x / (2 * T))).
  assert (0 < e) by apply exp_pos. field. assert (0 < e * e) by (apply Rmult_lt_0_compat; assumption). repeat split; lra.
Qed.
Lemma cosh_exp : forall x T, 0 < T ->
  cosh (x / (2 * T)) * cosh (x / (2 * T)) = (exp (x / T) + 1) * (exp (x / T) + 1) / (4 * exp (x / T)).
Proof.
  intros x T HT. unfold cosh.
  replace (x / T) with (x / (2 * T) + x / (2 * T)) by (field; lra).
  rewrite exp_plus, exp_Ropp. set (e := exp (x / (2 * T))).
  assert (0 < e) by apply exp_pos. field. lra.
Qed.
Lemma fac_exp : forall c x T, 0 < T -> zero_t c = false -> mu c = 0 ->
  Fermi_fac c x (mu c) T = (exp (x / T) - 1) / (exp (x / T) + 1).
Proof. intros c x T HT Z M. unfold Fermi_fac. rewrite Z, M, Rminus_0_r. apply tanh_exp, HT. Qed.
Lemma exp_ne_1 : forall x T, 0 < T -> x <> 0 -> exp (x / T) <> 1.
Proof.
  intros x T HT X E. apply X. rewrite <- exp_0 in E. apply exp_inv in E.
  apply Rmult_eq_reg_r with (/ T); [|apply Rinv_neq_0_compat; lra]. unfold Rdiv in E. lra.
Qed.
Lemma boson_exp : forall c x T, 0 < T -> zero_t c = false -> mu c = 0 -> x <> 0 ->
  1 / Fermi_fac c x (mu c) T = (exp (x / T) + 1) / (exp (x / T) - 1).
Proof.
  intros c x T HT Z M X. rewrite fac_exp; try assumption. pose proof (exp_ne_1 x T HT X). pose proof (exp_pos (x / T)).
  field. split; lra.
Qed.

(** ** Real and imaginary parts of the conditions *)
Section Parts.
  Variables (ch : channel) (T w v vp : R) (gs : list group) (F : list bool -> comp).
  Hypothesis TH : thermal ch T w v vp gs F.
  Definition wt (j : list bool) : R := prodR (map (fun p => weight ch T w v vp (fst p) (snd p)) (combine gs j)).

  Lemma negb_negb : forall j, map negb (map negb j) = j.
  Proof. induction j as [|b j IH]; cbn; [reflexivity|]. rewrite negb_involutive, IH. reflexivity. Qed.
  Lemma kms_re : forall j, In j (branches (length gs)) -> fst (F (map negb j)) = - wt j * fst (F j).
  Proof. intros j I. destruct TH as [K _]. rewrite (K j I). reflexivity. Qed.
  Lemma kms_im : forall j, In j (branches (length gs)) -> snd (F (map negb j)) = wt j * snd (F j).
  Proof. intros j I. destruct TH as [K _]. rewrite (K j I). unfold scal, conj, wt; cbn [fst snd]. ring. Qed.
  Lemma causal_re : fst (sumC (map F (branches (length gs)))) = 0.
  Proof. destruct TH as [_ C]. rewrite C. reflexivity. Qed.
  Lemma causal_im : snd (sumC (map F (branches (length gs)))) = 0.
  Proof. destruct TH as [_ C]. rewrite C. reflexivity. Qed.
End Parts.

#[global] Arguments group_energy : simpl never.
#[global] Arguments Rdiv : simpl never.
#[global] Arguments exp : simpl never.

Ltac kms H j := refine (eq_trans (H j _) _); [vm_compute; tauto|]; cbn; ring.

Section Four.
  Variables (ch : channel) (T w v vp : R) (F : list bool -> comp) (N1 N2 N3 N4 : R).
  Hypothesis TH : thermal ch T w v vp groups_K3 F.
  Let E (l : leg) : R := exp (group_energy ch w v vp [l] / T).
  Hypothesis HN1 : N1 = (E O1 - 1) / (E O1 + 1).
  Hypothesis HN2 : N2 = (E O2 - 1) / (E O2 + 1).
  Hypothesis HN3 : N3 = (E I1 - 1) / (E I1 + 1).
  Hypothesis HN4 : N4 = (E I2 - 1) / (E I2 + 1).
  Hypothesis HT : 0 < T.
  Lemma E_pos : forall l, 0 < E l.
  Proof. intro. apply exp_pos. Qed.
  Lemma E_prod : E O1 * E O2 * E I1 * E I2 = 1.
  Proof.
    unfold E. rewrite <- !exp_plus. rewrite <- exp_0. f_equal. unfold group_energy, sumR, leg_energy.
    cbn [map fold_right]. destruct ch; cbn [leg_freq]; field; lra.
  Qed.
  Let K := keldysh_component 1 groups_K3 F.
  Notation f := false. Notation t := true.
  Definition re j := fst (F j).
  Definition im j := snd (F j).

  Ltac side H C :=
    match goal with
    | |- 0 < E _ => apply E_pos
    | |- E _ * _ * _ * _ = 1 => first [apply E_prod | assumption]
    | |- _ = (_ - 1) / (_ + 1) => assumption
    | |- ?g [?a;?b;?c;?d] = _ => unfold g, E; kms H (map negb [a;b;c;d])
    | |- 0 + _ + _ + _ + _ + _ + _ + _ + _ + _ + _ + _ + _ + _ + _ + _ + _ = 0 => refine (eq_trans _ C); unfold re, im; cbn; ring
    end.
  Ltac by_re L :=
    let H := constr:(kms_re ch T w v vp groups_K3 F TH) in let C := constr:(causal_re ch T w v vp groups_K3 F TH) in
    refine (eq_trans _ (eq_trans (L (E O1) (E O2) (E I1) (E I2) N1 N2 N3 N4
      (re [f;f;f;f]) (re [f;f;f;t]) (re [f;f;t;f]) (re [f;f;t;t]) (re [f;t;f;f]) (re [f;t;f;t]) (re [f;t;t;f]) (re [f;t;t;t])
      (re [t;f;f;f]) (re [t;f;f;t]) (re [t;f;t;f]) (re [t;f;t;t]) (re [t;t;f;f]) (re [t;t;f;t]) (re [t;t;t;f]) (re [t;t;t;t])
      _ _ _ _ _ _ _ _ _ _ _ _ _ _ _ _ _) _)); try side H C; unfold re; cbn; ring.
  Ltac by_im L :=
    let H := constr:(kms_im ch T w v vp groups_K3 F TH) in let C := constr:(causal_im ch T w v vp groups_K3 F TH) in
    refine (eq_trans _ (eq_trans (L (E O1) (E O2) (E I1) (E I2) N1 N2 N3 N4
      (im [f;f;f;f]) (im [f;f;f;t]) (im [f;f;t;f]) (im [f;f;t;t]) (im [f;t;f;f]) (im [f;t;f;t]) (im [f;t;t;f]) (im [f;t;t;t])
      (im [t;f;f;f]) (im [t;f;f;t]) (im [t;f;t;f]) (im [t;f;t;t]) (im [t;t;f;f]) (im [t;t;f;t]) (im [t;t;t;f]) (im [t;t;t;t])
      _ _ _ _ _ _ _ _ _ _ _ _ _ _ _ _ _) _)); try side H C; unfold im; cbn; ring.

  Lemma four_123_thermal :
    four_123 N1 N2 N3 (K 7) (K 11) (K 13) (K 14) (K 3) (K 5) (K 9) = K 1.
  Proof.
    unfold K. apply injective_projections; [by_re four_123_re|by_im four_123_im].
  Qed.
  Lemma four_1234_thermal :
    four_1234 N1 N2 N3 N4 (K 7) (K 11) (K 13) (K 14) (K 3) (K 5) (K 6) (K 9) (K 10) (K 12) = K 0.
  Proof.
    unfold K. apply injective_projections; [by_re four_1234_re|by_im four_1234_im].
  Qed.
  Ltac perm_re L :=
    let H := constr:(kms_re ch T w v vp groups_K3 F TH) in let C := constr:(causal_re ch T w v vp groups_K3 F TH) in
    refine (eq_trans _ (eq_trans (L (E O1) (E O2) (E I2) (E I1) N1 N2 N4 N3
      (re [f;f;f;f]) (re [f;f;t;f]) (re [f;f;f;t]) (re [f;f;t;t]) (re [f;t;f;f]) (re [f;t;t;f]) (re [f;t;f;t]) (re [f;t;t;t])
      (re [t;f;f;f]) (re [t;f;t;f]) (re [t;f;f;t]) (re [t;f;t;t]) (re [t;t;f;f]) (re [t;t;t;f]) (re [t;t;f;t]) (re [t;t;t;t])
      _ _ _ _ _ _ _ _ _ _ _ _ _ _ _ _ _) _)); try side H C; unfold re; cbn; ring.
  Ltac perm_im L :=
    let H := constr:(kms_im ch T w v vp groups_K3 F TH) in let C := constr:(causal_im ch T w v vp groups_K3 F TH) in
    refine (eq_trans _ (eq_trans (L (E O1) (E O2) (E I2) (E I1) N1 N2 N4 N3
      (im [f;f;f;f]) (im [f;f;t;f]) (im [f;f;f;t]) (im [f;f;t;t]) (im [f;t;f;f]) (im [f;t;t;f]) (im [f;t;f;t]) (im [f;t;t;t])
      (im [t;f;f;f]) (im [t;f;t;f]) (im [t;f;f;t]) (im [t;f;t;t]) (im [t;t;f;f]) (im [t;t;t;f]) (im [t;t;f;t]) (im [t;t;t;t])
      _ _ _ _ _ _ _ _ _ _ _ _ _ _ _ _ _) _)); try side H C; unfold im; cbn; ring.
  Lemma E_prod' : E O1 * E O2 * E I2 * E I1 = 1.
  Proof. rewrite <- E_prod. ring. Qed.
  (** the same with the incoming legs exchanged *)
  Lemma four_124_thermal :
    four_123 N1 N2 N4 (K 7) (K 11) (K 14) (K 13) (K 3) (K 6) (K 10) = K 2.
  Proof.
    pose proof E_prod'. unfold K. apply injective_projections; [perm_re four_123_re|perm_im four_123_im].
  Qed.
  Lemma all_two_thermal : K 15 = rc 0.
  Proof.
    unfold K. apply injective_projections.
    - refine (eq_trans _ (causal_re ch T w v vp groups_K3 F TH)). cbn. ring.
    - refine (eq_trans _ (causal_im ch T w v vp groups_K3 F TH)). cbn. ring.
  Qed.
  Lemma opposite_thermal : E I1 = / E O1 ->
    (1 - N1 * N1) * (snd (K 10) - N2 * (snd (K 11) - snd (K 14))) = (1 - N2 * N2) * (snd (K 5) - N1 * (snd (K 7) - snd (K 13))).
  Proof.
    intros O. pose proof (kms_im ch T w v vp groups_K3 F TH) as H. pose proof (causal_im ch T w v vp groups_K3 F TH) as C.
    refine (eq_trans _ (eq_trans (slice_1212_im (E O1) (E O2) N1 N2
      (im [f;f;f;f]) (im [f;f;f;t]) (im [f;f;t;f]) (im [f;f;t;t]) (im [f;t;f;f]) (im [f;t;f;t]) (im [f;t;t;f]) (im [f;t;t;t])
      (im [t;f;f;f]) (im [t;f;f;t]) (im [t;f;t;f]) (im [t;f;t;t]) (im [t;t;f;f]) (im [t;t;f;t]) (im [t;t;t;f]) (im [t;t;t;t])
      _ _ _ _ _ _ _ _ _ _ _ _ _) _)); rewrite <- ?O; try side H C; unfold K, im; cbn; ring.
  Qed.
End Four.

(** ** Two single legs and a pair *)
Section Three.
  Variables (ch : channel) (T w v vp : R) (F : list bool -> comp) (N1 N2 N3 : R) (a b g h : leg).
  Hypothesis TH : thermal ch T w v vp [[a]; [b]; [g; h]] F.
  Let E (l : group) : R := exp (group_energy ch w v vp l / T).
  Hypothesis HN1 : N1 = (E [a] - 1) / (E [a] + 1).
  Hypothesis HN2 : N2 = (E [b] - 1) / (E [b] + 1).
  Hypothesis HN3 : N3 = (E [g; h] + 1) / (E [g; h] - 1).
  Hypothesis HE : E [a] * E [b] * E [g; h] = 1.
  Hypothesis H1 : E [g; h] <> 1.
  Notation f := false. Notation t := true.
  (** component with the given rotations *)
  Definition comp3 (x y z : bool) : comp :=
    sumC (map (fun j => scal (prodR (map (fun p => rotation (fst p) (snd p)) (combine [x; y; z] j))) (F j)) (branches 3)).
  Lemma EP : forall l, 0 < E l.
  Proof. intro. apply exp_pos. Qed.
  Definition re3 j := fst (F j).
  Definition im3 j := snd (F j).
  Ltac side H C :=
    match goal with
    | |- 0 < E _ => apply EP
    | |- E _ <> 1 => assumption
    | |- E _ * _ * _ = 1 => assumption
    | |- _ = (_ - 1) / (_ + 1) => assumption
    | |- _ = (_ + 1) / (_ - 1) => assumption
    | |- ?g [?a;?b;?c] = _ => unfold g, E; kms H (map negb [a;b;c])
    | |- 0 + _ + _ + _ + _ + _ + _ + _ + _ = 0 => refine (eq_trans _ C); unfold re3, im3; cbn; ring
    end.
  Ltac by_re L :=
    let H := constr:(kms_re ch T w v vp _ F TH) in let C := constr:(causal_re ch T w v vp _ F TH) in
    refine (eq_trans _ (eq_trans (L (E [a]) (E [b]) (E [g; h]) N1 N2 N3
      (re3 [f;f;f]) (re3 [f;f;t]) (re3 [f;t;f]) (re3 [f;t;t]) (re3 [t;f;f]) (re3 [t;f;t]) (re3 [t;t;f]) (re3 [t;t;t])
      _ _ _ _ _ _ _ _ _ _ _ _) _)); try side H C; unfold re3; cbn; ring.
  Ltac by_im L :=
    let H := constr:(kms_im ch T w v vp _ F TH) in let C := constr:(causal_im ch T w v vp _ F TH) in
    refine (eq_trans _ (eq_trans (L (E [a]) (E [b]) (E [g; h]) N1 N2 N3
      (im3 [f;f;f]) (im3 [f;f;t]) (im3 [f;t;f]) (im3 [f;t;t]) (im3 [t;f;f]) (im3 [t;f;t]) (im3 [t;t;f]) (im3 [t;t;t])
      _ _ _ _ _ _ _ _ _ _ _ _) _)); try side H C; unfold im3; cbn; ring.
  Let G1 := comp3 t f f. Let G2 := comp3 f t f. Let G3 := comp3 f f t.
  Lemma three_12_thermal : three_pair N1 N2 G1 G2 G3 = comp3 t t f.
  Proof. unfold G1, G2, G3. apply injective_projections; [by_re three_12_re|by_im three_12_im]. Qed.
  Lemma three_13_thermal : three_pair N1 N3 G1 G3 G2 = comp3 t f t.
  Proof. unfold G1, G2, G3. apply injective_projections; [by_re three_13_re|by_im three_13_im]. Qed.
  Lemma three_23_thermal : three_pair N2 N3 G2 G3 G1 = comp3 f t t.
  Proof. unfold G1, G2, G3. apply injective_projections; [by_re three_23_re|by_im three_23_im]. Qed.
  Lemma three_123_thermal : three_123 N1 N2 N3 G1 G2 G3 = comp3 t t t.
  Proof. unfold G1, G2, G3. apply injective_projections; [by_re three_123_re|by_im three_123_im]. Qed.
End Three.

(** ** Two pairs *)
Section Two.
  Variables (ch : channel) (T w v vp : R) (F : list bool -> comp) (N : R) (a b g h : leg).
  Hypothesis TH : thermal ch T w v vp [[a; b]; [g; h]] F.
  Let X : R := exp (group_energy ch w v vp [a; b] / T).
  Let Y : R := exp (group_energy ch w v vp [g; h] / T).
  Hypothesis HE : X * Y = 1.
  Hypothesis H1 : X <> 1.
  Notation f := false. Notation t := true.
  Definition comp2 (x y : bool) : comp :=
    sumC (map (fun j => scal (prodR (map (fun p => rotation (fst p) (snd p)) (combine [x; y] j))) (F j)) (branches 2)).
  Lemma two_parts :
    fst (F [t;t]) = - fst (F [f;f]) /\ fst (F [f;t]) = 0 /\ fst (F [t;f]) = 0 /\
    snd (F [t;t]) = snd (F [f;f]) /\ snd (F [f;t]) = X * snd (F [t;f]) /\ 2 * snd (F [f;f]) + (1 + X) * snd (F [t;f]) = 0.
  Proof.
    assert (A : fst (F [t;t]) = - fst (F [f;f])) by kms (kms_re ch T w v vp _ F TH) [f;f].
    assert (B : fst (F [f;t]) = - (X * fst (F [t;f]))) by (unfold X; kms (kms_re ch T w v vp _ F TH) [t;f]).
    assert (A' : snd (F [t;t]) = snd (F [f;f])) by kms (kms_im ch T w v vp _ F TH) [f;f].
    assert (B' : snd (F [f;t]) = X * snd (F [t;f])) by (unfold X; kms (kms_im ch T w v vp _ F TH) [t;f]).
    pose proof (causal_re ch T w v vp _ F TH) as C. pose proof (causal_im ch T w v vp _ F TH) as C'.
    cbn in C, C'.
    assert (Z : fst (F [t;f]) = 0).
    { apply Rmult_eq_reg_l with (1 - X); [|lra]. rewrite A, B in C. lra. }
    repeat match goal with |- _ /\ _ => split end; try assumption.
    - rewrite B, Z. ring.
    - rewrite A', B' in C'. lra.
  Qed.
  Lemma two_first : N = (1 + X) / (1 - X) -> scal N (conj (comp2 t f) - comp2 t f)%C = comp2 t t.
  Proof.
    intros ->. destruct two_parts as (A & B & Z & A' & B' & C').
    assert (snd (F [f;f]) = - (1 + X) / 2 * snd (F [t;f])) as D by lra.
    apply injective_projections; cbn.
    - rewrite A, B, Z. field. lra.
    - rewrite A', B', D. field. lra.
  Qed.
  Lemma two_second : N = (1 + Y) / (1 - Y) -> scal N (conj (comp2 f t) - comp2 f t)%C = comp2 t t.
  Proof.
    intros ->. destruct two_parts as (A & B & Z & A' & B' & C').
    assert (snd (F [f;f]) = - (1 + X) / 2 * snd (F [t;f])) as D by lra.
    assert (0 < X) by apply exp_pos.
    assert (Y = / X) as -> by (apply Rmult_eq_reg_l with X; [rewrite HE; field|]; lra).
    apply injective_projections; cbn.
    - rewrite A, B, Z. field. lra.
    - rewrite A', B', D. field. lra.
  Qed.
End Two.

(** ** Normalisation *)
Lemma thermal_scaled : forall n ch T w v vp gs F, thermal ch T w v vp gs F -> thermal ch T w v vp gs (fun j => scal n (F j)).
Proof.
  intros n ch T w v vp gs F [K C]. split.
  - intros j I. rewrite (K j I). unfold scal, conj; cbn [fst snd]. f_equal; ring.
  - assert (A : forall l, sumC (map (fun j => scal n (F j)) l) = scal n (sumC (map F l))).
    { induction l as [|j l IH]; cbn [map sumC fold_right]; [unfold scal, rc; cbn [fst snd]; f_equal; ring|].
      fold (sumC (map (fun j => scal n (F j)) l)). fold (sumC (map F l)). rewrite IH.
      unfold scal, cadd; cbn [fst snd]. f_equal; ring. }
    rewrite A, C. unfold scal, rc; cbn [fst snd]. f_equal; ring.
Qed.
Lemma component_scaled : forall n gs F k,
  keldysh_component n gs F k = keldysh_component 1 gs (fun j => scal n (F j)) k.
Proof.
  intros n gs F k. unfold keldysh_component.
  assert (A : forall l (r : list bool -> R),
    scal n (sumC (map (fun j => scal (r j) (F j)) l)) = scal 1 (sumC (map (fun j => scal (r j) (scal n (F j))) l))).
  { intros l r. induction l as [|j l IH]; cbn [map sumC fold_right]; [unfold scal, rc; cbn [fst snd]; f_equal; ring|].
    fold (sumC (map (fun j => scal (r j) (F j)) l)). fold (sumC (map (fun j => scal (r j) (scal n (F j))) l)).
    assert (forall x y z, scal x (y + z)%C = (scal x y + scal x z)%C) as D by (intros; unfold scal, cadd; cbn [fst snd]; f_equal; ring).
    rewrite !D, IH. f_equal. unfold scal; cbn [fst snd]. f_equal; ring. }
  apply A.
Qed.
Lemma equilibrium_normal : forall ch T w v vp gs val, in_equilibrium ch T w v vp gs val ->
  exists F, thermal ch T w v vp gs F /\ forall k, (0 <= k < 16)%Z -> val k = keldysh_component 1 gs F k.
Proof.
  intros ch T w v vp gs val (F & n & TH & H). exists (fun j => scal n (F j)). split; [apply thermal_scaled, TH|].
  intros k Hk. rewrite <- component_scaled. apply H, Hk.
Qed.
