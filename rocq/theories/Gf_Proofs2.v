From Coq Require Import Reals Lra Field.
From Verif Require Import Prelude Gf_Model Gf_Spec Gf_Proofs.
Open Scope R_scope.

Lemma dlim_local f g x l e : 0 < e -> (forall y, Rabs (y - x) < e -> f y = g y) -> derivable_pt_lim f x l -> derivable_pt_lim g x l.
Proof.
  intros He E H eps Heps. destruct (H eps Heps) as (d & Hd). assert (P : 0 < Rmin d e) by (apply Rmin_pos; [apply cond_pos|exact He]).
  exists (mkposreal _ P). intros h A B. cbn in B. rewrite <- !E.
  - apply Hd; [exact A|]. eapply Rlt_le_trans; [exact B|apply Rmin_l].
  - rewrite Rminus_eq_0, Rabs_R0. exact He.
  - replace (x + h - x) with h by ring. eapply Rlt_le_trans; [exact B|apply Rmin_r].
Qed.
Lemma D_total_inv g x d : derivative_at (fun y => Some (g y)) x d -> cder g x d.
Proof.
  intros (h & e & He & E & A & B). assert (E' : forall y, Rabs (y - x) < e -> h y = g y) by (intros y Y; specialize (E y Y); congruence).
  split; (eapply dlim_local; [exact He| |eassumption]); intros y Y; cbn; rewrite E' by exact Y; reflexivity.
Qed.
Lemma cder_lin x : cder (fun y => rc y) x (rc 1). Proof. apply cder_rc, did. Qed.
Lemma cder_cmul a f x d : cder f x d -> cder (fun y => a * f y)%C x (a * d)%C.
Proof. intros H. pose proof (cder_mul _ _ _ _ _ (cder_const a x) H) as M. eapply cder_eq; [exact M|]. cbv beta. ring. Qed.
Lemma cder_addc a f x d : cder f x d -> cder (fun y => a + f y)%C x d.
Proof. intros H. pose proof (cder_add _ _ _ _ _ (cder_const a x) H) as M. eapply cder_eq; [exact M|]. cbv beta. ring. Qed.
Lemma cder_csub a f x d : cder f x d -> cder (fun y => a - f y)%C x (- d)%C.
Proof. intros H. pose proof (cder_sub _ _ _ _ _ (cder_const a x) H) as M. eapply cder_eq; [exact M|]. cbv beta. ring. Qed.
Definition half : comp := rc (1 / 2).
Lemma rc_half y : rc (y * (1 / 2)) = (half * rc y)%C. Proof. unfold half. rewrite rc_mul. ring. Qed.
Lemma half2 : (half + half)%C = rc 1. Proof. unfold half. rewrite <- rc_add. f_equal. field. Qed.
Lemma rc_neg_half : rc (- (1 / 2)) = (- half)%C. Proof. unfold half. cx; ring. Qed.

Lemma rc_m2 y : rc (-2 * y) = (- (rc 1 + rc 1) * rc y)%C. Proof. cx; ring. Qed.

Section Flow.
  Variable c : cfg.
  Variable pr : R -> propagator.
  Variable v L : R.
  Hypothesis F : flowing pr v L.
  Let p := pr L.
  Let s := fun y => sigma (pr y) 0 v.
  Let s' := dsigma p 0 v.
  Lemma fl y : Lambda (pr y) = y /\ epsilon (pr y) = epsilon p /\ Gamma (pr y) = Gamma p /\ Temp (pr y) = Temp p. Proof. apply (proj1 F y). Qed.
  Lemma fs : cder s L s'. Proof. apply D_total_inv. apply (proj2 F). auto. Qed.
  Lemma fk : cder (fun y => sigma (pr y) 1 v) L (dsigma p 1 v). Proof. apply D_total_inv. apply (proj2 F). auto. Qed.
  Lemma G0R_const y : G0R_inv (pr y) v = G0R_inv p v. Proof. destruct (fl y) as (_ & A & B & _). unfold G0R_inv. rewrite A, B. reflexivity. Qed.
  Lemma G0M_const y : G0M_inv c (pr y) v = G0M_inv c p v. Proof. destruct (fl y) as (_ & A & B & C). unfold G0M_inv, scaled. rewrite A, B, C. reflexivity. Qed.
  Lemma Lp : Lambda p = L. Proof. apply (fl L). Qed.

  Lemma flow_R2 g : GR_REG2 p v = Some g -> derivative_at (fun y => GR_REG2 (pr y) v) L (- half * ci * g * g + g * s' * g)%C.
  Proof.
    intros H. unfold GR_REG2 in H. apply cquot_inv in H. destruct H as (N & ->). rewrite Lp in *.
    apply (D_ext (fun y => cquot (rc 1) (G0R_inv p v + ci * (half * rc y) - s y)%C)).
    { intros y. unfold GR_REG2. rewrite G0R_const, (proj1 (fl y)), rc_half. reflexivity. }
    rewrite rc_half in *. eapply D_eq; [apply D_quot; [apply cder_const| |exact N]|].
    { apply cder_sub; [|exact fs]. apply cder_addc, cder_cmul, cder_cmul, cder_lin. }
    cbn beta. unfold s. fold p. field. exact N.
  Qed.
  Lemma flow_R5 g : GR_REG5 p v = Some g -> derivative_at (fun y => GR_REG5 (pr y) v) L (g * s' * g)%C.
  Proof.
    intros H. unfold GR_REG5 in H. apply cquot_inv in H. destruct H as (N & ->).
    apply (D_ext (fun y => cquot (rc 1) (G0R_inv p v - s y)%C)). { intros y. unfold GR_REG5. rewrite G0R_const. reflexivity. }
    eapply D_eq; [apply D_quot; [apply cder_const| |exact N]|]. { apply cder_csub, fs. } cbn beta. unfold s. fold p. field. exact N.
  Qed.
  Lemma flow_R4 g : (forall y, asymp (pr y) = asymp p) -> GR_REG4 p v = Some g -> exists d, SR_REG4 p v = Some d /\ derivative_at (fun y => GR_REG4 (pr y) v) L (d + g * s' * g)%C.
  Proof.
    intros A H. unfold GR_REG4 in H. apply cquot_inv in H. destruct H as (N & ->). unfold SR_REG4. rewrite Lp in *. rewrite cquot_some by exact N. cbn [obind]. eexists. split; [reflexivity|].
    apply (D_ext (fun y => cquot (rc y) (G0R_inv p v - asymp p - rc y * (s y - asymp p))%C)). { intros y. unfold GR_REG4. rewrite G0R_const, (proj1 (fl y)), A. reflexivity. }
    eapply D_eq; [apply D_quot; [apply cder_lin| |exact N]|]. { apply cder_csub. apply cder_mul; [apply cder_lin|]. apply (cder_sub s (fun _ => asymp p)); [exact fs|apply cder_const]. }
    cbn beta. unfold s. fold p. field. exact N.
  Qed.
  (** 1 / reg *)
  Lemma flow_R3 g : reg c = 3%Z -> v <> 0 -> GR_REG3 p v = Some g -> derivative_at (fun y => GR_REG3 (pr y) v) L (- ci * cinv (rc v) * g * G0R_inv p v * g + g * s' * g)%C.
  Proof.
    intros _ Nv H. unfold GR_REG3 in H. rewrite Lp in H. assert (N1 : (rc v + ci * rc L)%C <> rc 0) by (intros E; apply (f_equal fst) in E; cbn in E; lra).
    pose proof (rc_nz v Nv) as Nc. rewrite cquot_some in H by exact N1. cbn [obind] in H. apply cquot_inv in H. destruct H as (N2 & ->).
    apply (D_ext (fun y => r <- cquot (rc v) (rc v + ci * rc y)%C ;; cquot r (G0R_inv p v - r * s y)%C)). { intros y. unfold GR_REG3. rewrite G0R_const, (proj1 (fl y)). reflexivity. }
    eapply D_bind; [apply D_quot; [apply cder_const|apply cder_addc, cder_cmul, cder_lin|exact N1]|apply cquot_some; exact N1|].
    intros h Hx Hd. cbv beta in Hd, Hx. eapply D_eq; [apply D_quot; [exact Hd| |]|].
    { apply cder_csub. apply cder_mul; [exact Hd|exact fs]. }
    { rewrite Hx. exact N2. }
    cbv beta. rewrite Hx. unfold s. fold p. revert N2. set (S0 := sigma p 0 v). set (G0 := G0R_inv p v). intros N2. field. split; [exact N1|]. split; [|exact Nc].
    intros E. apply N2. transitivity ((G0 * (rc v + ci * rc L) - rc v * S0) * cinv (rc v + ci * rc L))%C; [field; exact N1|]. rewrite E. ring.
  Qed.
  (** at v = 0 the propagator with frequency regulator vanishes *)
  Lemma flow_R3_zero g : v = 0 -> L <> 0 -> GR_REG3 p v = Some g -> g = rc 0 /\ derivative_at (fun y => GR_REG3 (pr y) v) L (rc 0)%C.
  Proof.
    intros V NL H. assert (N1 : (rc v + ci * rc L)%C <> rc 0) by (intros E; apply (f_equal snd) in E; cbn in E; apply NL; lra).
    unfold GR_REG3 in H. rewrite Lp, cquot_some in H by exact N1. cbn [obind] in H. apply cquot_inv in H. destruct H as (N2 & ->). split; [rewrite V; ring|].
    apply (D_ext (fun y => r <- cquot (rc v) (rc v + ci * rc y)%C ;; cquot r (G0R_inv p v - r * s y)%C)). { intros y. unfold GR_REG3. rewrite G0R_const, (proj1 (fl y)). reflexivity. }
    eapply D_bind; [apply D_quot; [apply cder_const|apply cder_addc, cder_cmul, cder_lin|exact N1]|apply cquot_some; exact N1|].
    intros h Hx Hd. cbv beta in Hd, Hx. assert (Hx0 : h L = rc 0) by (rewrite Hx, V; ring).
    assert (Hd0 : cder h L (rc 0)) by (eapply cder_eq; [exact Hd|rewrite V; ring]). eapply D_eq; [apply D_quot; [exact Hd0| |]|].
    { apply cder_csub. apply cder_mul; [exact Hd0|exact fs]. }
    { rewrite Hx. exact N2. }
    cbv beta. rewrite Hx0. ring.
  Qed.

  (** retarded component for all regulators *)
  Definition tiny_ok : Prop := reg c = 3%Z -> (/ 10 ^ 18 <= Rabs v) \/ (v = 0 /\ L <> 0).
  Lemma tol18 : 0 < / 10 ^ 18. Proof. apply Rinv_0_lt_compat, pow_lt. lra. Qed.
  Lemma flow_R g : tiny_ok -> (reg c = 4%Z -> forall y, asymp (pr y) = asymp p) -> GR c p v = Some g ->
    exists d, SR c p v = Some d /\ derivative_at (fun y => GR c (pr y) v) L (d + g * s' * g)%C.
  Proof.
    intros Tn As H. unfold SR, GR in *. destruct (Z.eqb_spec (reg c) 2) as [E|N2].
    { exists (- half * ci * g * g)%C. split; [|apply flow_R2; exact H]. unfold SR_REG2, GR. rewrite E. cbn [Z.eqb Pos.eqb]. rewrite H. cbn [obind]. rewrite rc_neg_half. reflexivity. }
    destruct (Z.eqb_spec (reg c) 3) as [E|N3].
    { unfold SR_REG3. destruct (Tn E) as [Big|(V & NL)].
      - destruct (Rlt_dec (Rabs v) (/ 10 ^ 18)) as [Lt|_]; [lra|]. pose proof tol18. assert (Nv : v <> 0) by (intros ->; rewrite Rabs_R0 in Big; lra).
        exists (- ci * cinv (rc v) * g * G0R_inv p v * g)%C. split; [|apply flow_R3; assumption]. unfold GR. rewrite E. cbn [Z.eqb Pos.eqb]. rewrite H. cbn [obind].
        rewrite cquot_some by (apply rc_nz; exact Nv). reflexivity.
      - exists (rc 0). destruct (flow_R3_zero g V NL H) as (-> & D). split.
        + destruct (Rlt_dec (Rabs v) (/ 10 ^ 18)) as [_|N]; [reflexivity|]. exfalso. apply N. rewrite V, Rabs_R0. apply tol18.
        + eapply D_eq; [exact D|ring]. }
    destruct (Z.eqb_spec (reg c) 4) as [E|N4]; [apply flow_R4; auto|].
    destruct (Z.eqb_spec (reg c) 5) as [E|N5]; [|discriminate]. exists (rc 0). split; [reflexivity|]. eapply D_eq; [apply flow_R5; exact H|ring].
  Qed.

  (** Matsubara *)
  Lemma flow_M g : v <> 0 -> GM c p v = Some g -> exists d, SM c p v = Some d /\ derivative_at (fun y => GM c (pr y) v) L (d + g * s' * g)%C.
  Proof.
    intros Nv H. unfold SM. assert (H' := H). unfold GM in H'.
    destruct (Z.eqb_spec (reg c) 2) as [E|N2].
    { unfold SM_REG2. rewrite H. cbn [obind]. eexists. split; [reflexivity|].
      assert (X : derivative_at (fun y => GM_REG2 c (pr y) v) L ((if phs c then rc (- (1 / 2)) * g * g * rc (sign v) else rc (- (1 / 2)) * ci * g * g * rc (sign v)) + g * s' * g)%C);
        [|eapply D_ext; [|exact X]; intros y; unfold GM; rewrite E; reflexivity].
      unfold GM_REG2 in H'. destruct (phs c) eqn:Ph.
      - apply cquot_inv in H'. destruct H' as (N & Hg). rewrite Lp in N, Hg.
        apply (D_ext (fun y => cquot (rc 1) (G0M_inv c p v + half * rc (sign v) * rc y - s y)%C)).
        { intros y. unfold GM_REG2. rewrite Ph, G0M_const, (proj1 (fl y)). rewrite rc_mul, rc_half. unfold s. do 2 f_equal. ring. }
        assert (Rw : (rc (L * (1 / 2) * sign v))%C = (half * rc (sign v) * rc L)%C) by (rewrite rc_mul, rc_half; ring). rewrite Rw in N, Hg.
        eapply D_eq; [apply D_quot; [apply cder_const| |exact N]|]. { apply cder_sub; [|exact fs]. apply cder_addc, cder_cmul, cder_lin. }
        cbv beta. rewrite Hg, rc_neg_half. unfold s. fold p. field. exact N.
      - apply cquot_inv in H'. destruct H' as (N & Hg). rewrite Lp in N, Hg.
        apply (D_ext (fun y => cquot (rc 1) (G0M_inv c p v + ci * half * rc (sign v) * rc y - s y)%C)).
        { intros y. unfold GM_REG2. rewrite Ph, G0M_const, (proj1 (fl y)). rewrite rc_mul, rc_half. unfold s. do 2 f_equal. ring. }
        assert (Rw : (ci * rc (L * (1 / 2) * sign v))%C = (ci * half * rc (sign v) * rc L)%C) by (rewrite rc_mul, rc_half; ring). rewrite Rw in N, Hg.
        eapply D_eq; [apply D_quot; [apply cder_const| |exact N]|]. { apply cder_sub; [|exact fs]. apply cder_addc, cder_cmul, cder_lin. }
        cbv beta. rewrite Hg, rc_neg_half. unfold s. fold p. field. exact N. }
    assert (Nc : rc (v * v) <> rc 0) by (apply rc_nz; nra).
    destruct (Z.eqb_spec (reg c) 3) as [E|N3].
    { unfold SM_REG3. destruct (Req_EM_T v 0) as [|_]; [contradiction|]. rewrite H. cbn [obind]. rewrite cquot_some by exact Nc. cbn [obind]. eexists. split; [reflexivity|].
      assert (X : derivative_at (fun y => GM_REG3 c (pr y) v) L (rc (-2 * Lambda p) * cinv (rc (v * v)) * g * G0M_inv c p v * g + g * s' * g)%C);
        [|eapply D_ext; [|exact X]; intros y; unfold GM; rewrite E; reflexivity].
      assert (Nl : forall y, rc (v * v + y * y) <> rc 0) by (intros y; apply rc_nz; nra).
      assert (Q : forall y, (r <- cquot (rc (v * v)) (rc (v * v + y * y)) ;; cquot (G0M_inv c p v) r) = Some (G0M_inv c p v * (rc 1 + cinv (rc (v * v)) * (rc y * rc y)))%C).
      { intros y. rewrite cquot_some by apply Nl. cbn [obind]. specialize (Nl y). rewrite rc_add, (rc_mul y y) in *. rewrite cquot_some.
        - f_equal. field. split; assumption.
        - intros Z. apply Nc. transitivity (rc (v * v) * cinv (rc (v * v) + rc y * rc y) * (rc (v * v) + rc y * rc y))%C; [field; exact Nl|]. rewrite Z. ring. }
      assert (Q' : forall y, GM_REG3 c (pr y) v = cquot (rc 1) (G0M_inv c p v * (rc 1 + cinv (rc (v * v)) * (rc y * rc y)) - s y)%C).
      { intros y. unfold GM_REG3. rewrite G0M_const, (proj1 (fl y)). specialize (Q y). destruct (cquot (rc (v * v)) (rc (v * v + y * y))) as [r|]; [|discriminate]. cbn [obind] in *. rewrite Q. reflexivity. }
      unfold p in H'. rewrite Q' in H'. apply cquot_inv in H'. destruct H' as (N & Hg). fold p in N, Hg.
      apply (D_ext (fun y => cquot (rc 1) (G0M_inv c p v * (rc 1 + cinv (rc (v * v)) * (rc y * rc y)) - s y)%C)); [intros y; symmetry; apply Q'|].
      eapply D_eq; [apply D_quot; [apply cder_const| |exact N]|].
      { apply cder_sub; [|exact fs]. apply cder_cmul, cder_addc, cder_cmul. apply cder_mul; apply cder_lin. }
      cbv beta. rewrite Hg, Lp. rewrite rc_m2. revert N. unfold s. fold p. set (S0 := sigma p 0 v). set (G0 := G0M_inv c p v). intros N. field.
      split; [exact Nc|]. intros Z. apply N. transitivity ((G0 * (rc (v * v) + rc L * rc L) - S0 * rc (v * v)) * cinv (rc (v * v)))%C; [field; exact Nc|]. rewrite Z. ring. }
    destruct (Z.eqb_spec (reg c) 4) as [E|N4]; [|discriminate].
    unfold SM_REG4. destruct (Req_EM_T v 0) as [|_]; [contradiction|]. unfold GM_REG4 in H'. apply cquot_inv in H'. destruct H' as (N & ->). rewrite Lp in *.
    rewrite cquot_some by exact N. cbn [obind]. eexists. split; [reflexivity|].
    apply (D_ext (fun y => cquot (rc y) (G0M_inv c p v - rc y * s y)%C)). { intros y. unfold GM. rewrite E. cbn [Z.eqb Pos.eqb]. unfold GM_REG4. rewrite G0M_const, (proj1 (fl y)). reflexivity. }
    eapply D_eq; [apply D_quot; [apply cder_lin| |exact N]|]. { apply cder_csub. apply cder_mul; [apply cder_lin|exact fs]. }
    cbv beta. unfold s. fold p. field. exact N.
  Qed.

  (** Keldysh component in equilibrium *)
  Lemma cder_im g d e : cder g L d -> cder (fun y => ci * rc (e * 2 * snd (g y)))%C L (ci * rc (e * 2 * snd d))%C.
  Proof.
    intros H. rewrite im_conj. apply (cder_ext (fun y => rc e * (g y - conj (g y)))%C); [intros y; symmetry; apply im_conj|]. apply cder_cmul, cder_sub; [exact H|apply cder_conj, H].
  Qed.
  Lemma flow_K_eq k : tiny_ok -> (reg c = 4%Z -> forall y, asymp (pr y) = asymp p) -> equilibrium c = true -> reg c <> 5%Z -> fdt_katanin c = false ->
    fdr (Eff_fac c v (Temp p)) (dsigma p 0 v) (dsigma p 1 v) -> GK c p v = Some k ->
    exists d e, SK c p v = Some d /\ Katanin_K c p v = Some e /\ derivative_at (fun y => GK c (pr y) v) L (d + e)%C.
  Proof.
    intros Tn As Eq N5 Fd Fr H. apply Z.eqb_neq in N5. unfold Katanin_K. rewrite Fd, H. cbn [obind]. unfold GK in H. destruct (GR c p v) as [g|] eqn:Hg; [|discriminate].
    cbn [obind] in *. rewrite Eq, N5 in H. injection H as <-. destruct (flow_R g Tn As Hg) as (d & Hs & D). unfold SK. rewrite Eq, N5, Hs. cbn [obind].
    do 2 eexists. split; [reflexivity|]. split; [reflexivity|].
    apply (D_ext (fun y => r <- GR c (pr y) v ;; Some (ci * rc (Eff_fac c v (Temp p) * 2 * snd r))%C)).
    { intros y. unfold GK. destruct (GR c (pr y) v); [|reflexivity]. cbn [obind]. rewrite Eq, N5. destruct (fl y) as (_ & _ & _ & ->). reflexivity. }
    eapply D_bind; [exact D|exact Hg|]. intros h Hx Hd. apply D_total. eapply cder_eq; [apply cder_im; exact Hd|].
    unfold fdr in Fr. rewrite Fr. rewrite !im_conj. set (E := Eff_fac c v (Temp p)) in *.
    replace (0, 2 * E * snd (dsigma p 0 v)) with (rc E * (dsigma p 0 v - conj (dsigma p 0 v)))%C by (rewrite <- im_conj; unfold cmul, ci, rc; cbn; f_equal; ring).
    fold s'. rewrite conj_add, !conj_mul. ring.
  Qed.
  (** temperature flow *)
  Lemma cder_norm g d : cder g L d -> cder (fun y => rc (norm (g y))) L (d * conj (g L) + g L * conj d)%C.
  Proof. intros H. apply (cder_ext (fun y => g y * conj (g y))%C); [intros y; symmetry; apply norm_conj|]. apply cder_mul; [exact H|apply cder_conj, H]. Qed.
  Lemma root_nz x y : x <> 0 -> rc (x * cosh (y / (2 * x)) * (x * cosh (y / (2 * x)))) <> rc 0.
  Proof. intros N. apply rc_nz. pose proof (cosh_pos (y / (2 * x))) as P. assert (x * cosh (y / (2 * x)) <> 0) by (apply Rmult_integral_contrapositive; split; lra). apply Rmult_integral_contrapositive; split; assumption. Qed.
  Lemma flow_K_T k : equilibrium c = true -> reg c = 5%Z -> zero_t c = false -> mu c = 0 -> L <> 0 -> fdt_katanin c = false -> GK c p v = Some k ->
    exists d e, SK c p v = Some d /\ Katanin_K c p v = Some e /\ derivative_at (fun y => GK c (pr y) v) L (d + e)%C.
  Proof.
    intros Eq R5 Zt Mu NL Fd H. unfold Katanin_K. rewrite Fd, H. cbn [obind]. unfold GK in H. destruct (GR c p v) as [g|] eqn:Hg; [|discriminate].
    cbn [obind] in *. rewrite Eq, R5 in H. cbn [Z.eqb Pos.eqb] in H. injection H as <-.
    destruct (flow_R g) as (d & Hs & D); [intros E; rewrite R5 in E; discriminate|intros E; rewrite R5 in E; discriminate|exact Hg|].
    unfold SR in Hs. rewrite R5 in Hs. cbn [Z.eqb Pos.eqb] in Hs. injection Hs as <-.
    unfold SK. rewrite Eq, R5, Hg. cbn [obind Z.eqb Pos.eqb]. unfold root_denominator. rewrite Lp. rewrite cquot_some by (apply root_nz; exact NL).
    do 2 eexists. split; [reflexivity|]. split; [reflexivity|].
    apply (D_ext (fun y => r <- GR c (pr y) v ;; Some ((sigma (pr y) 1 v - ci * rc (Gamma p * tanh (v / (2 * y)))) * rc (norm r))%C)).
    { intros y. unfold GK. destruct (GR c (pr y) v); [|reflexivity]. cbn [obind]. rewrite Eq, R5. cbn [Z.eqb Pos.eqb]. destruct (fl y) as (A & _ & B & _). rewrite A, B.
      unfold Eff_fac, Fermi_fac. rewrite Eq, Zt, Mu, Rminus_0_r. reflexivity. }
    eapply D_bind; [exact D|exact Hg|]. intros h Hx Hd. apply D_total. unfold Eff_fac, Fermi_fac. rewrite Eq, Zt, Mu, Rminus_0_r.
    set (q := cosh (v / (2 * L)) * cosh (v / (2 * L))).
    assert (Nq : q <> 0) by (pose proof (cosh_pos (v / (2 * L))); unfold q; apply Rmult_integral_contrapositive; split; lra).
    assert (DT : cder (fun y => rc (Gamma p * tanh (v / (2 * y)))) L (rc (Gamma p * (- v / (2 * L * L * q))))).
    { apply cder_rc. pose proof (dmulc _ _ _ (Gamma p) (dtanh_T v L NL)) as M. fold q in M. rewrite (Rmult_comm (Gamma p)). eapply dlim_ext; [|exact M]. intros y. cbv beta. ring. }
    eapply cder_eq; [apply cder_mul; [apply cder_sub; [exact fk|apply cder_cmul; exact DT]|apply cder_norm; exact Hd]|].
    cbv beta. rewrite Hx. fold p. replace (L * cosh (v / (2 * L)) * (L * cosh (v / (2 * L)))) with (L * L * q) by (unfold q; ring).
    assert (Cq : cinv (rc (L * L * q)) = rc (/ (L * L * q))) by (unfold cinv, rc, norm; cbn; f_equal; field; split; assumption).
    rewrite Cq. set (T := tanh (v / (2 * L))).
    replace (ci * rc (1 / 2 * Gamma p * v * norm g) * rc (/ (L * L * q)))%C with (- (ci * rc (Gamma p * (- v / (2 * L * L * q)))) * rc (norm g))%C
      by (cnorm; f_equal; [ring|]; field; split; assumption).
    rewrite !norm_conj. fold s'. rewrite !conj_add, !conj_mul, conj_rc. ring.
  Qed.
  (** out of equilibrium, hybridisation regulator *)
  Lemma flow_K_neq k : equilibrium c = false -> reg c = 2%Z -> fdt_katanin c = false -> GK c p v = Some k ->
    exists d e, SK c p v = Some d /\ Katanin_K c p v = Some e /\ derivative_at (fun y => GK c (pr y) v) L (d + e)%C.
  Proof.
    intros Eq R2 Fd H. unfold Katanin_K. rewrite Fd, H. cbn [obind]. unfold GK in H. destruct (GR c p v) as [g|] eqn:Hg; [|discriminate].
    cbn [obind] in *. rewrite Eq in H. injection H as <-.
    destruct (flow_R g) as (d & Hs & D); [intros E; rewrite R2 in E; discriminate|intros E; rewrite R2 in E; discriminate|exact Hg|].
    unfold SR in Hs. rewrite R2 in Hs. cbn [Z.eqb Pos.eqb] in Hs. unfold SR_REG2 in Hs. rewrite Hg in Hs. cbn [obind] in Hs. injection Hs as <-.
    unfold SK. rewrite Eq, Hg. cbn [obind]. rewrite Lp. do 2 eexists. split; [reflexivity|]. split; [reflexivity|].
    apply (D_ext (fun y => r <- GR c (pr y) v ;; Some (rc (norm r) * (sigma (pr y) 1 v - ci * rc ((Gamma p + y) * Eff_fac c v (Temp p))))%C)).
    { intros y. unfold GK. destruct (GR c (pr y) v); [|reflexivity]. cbn [obind]. rewrite Eq. destruct (fl y) as (A & _ & B & C'). rewrite A, B, C'. reflexivity. }
    eapply D_bind; [exact D|exact Hg|]. intros h Hx Hd. apply D_total. set (E := Eff_fac c v (Temp p)).
    assert (DL : cder (fun y => rc ((Gamma p + y) * E)) L (rc (1 * E))) by (apply cder_rc, dmulc, daddc, did).
    eapply cder_eq; [apply cder_mul; [apply cder_norm; exact Hd|apply cder_sub; [exact fk|apply cder_cmul; exact DL]]|].
    cbv beta. rewrite Hx. fold p. rewrite rc_neg_half.
    assert (Im : rc (snd g) = (- half * ci * g + half * ci * conj g)%C) by (unfold half; clear; destruct g as [a b]; cnorm; f_equal; field).
    rewrite (rc_mul (norm g) (snd g)), (rc_mul (norm g * E)), (rc_mul (norm g) E), (rc_add 1), (rc_mul (Gamma p + L) (snd g)), (rc_mul (Gamma p + L) E), (rc_mul 1 E), !norm_conj, Im.
    fold s'. rewrite !conj_add, !conj_mul, ?conj_ci. replace (conj (- half)%C) with (- half)%C by (unfold half; clear; cnorm; f_equal; ring). ring.
  Qed.
End Flow.
