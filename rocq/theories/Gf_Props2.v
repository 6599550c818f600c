From Coq Require Import Reals Lra Field.
From Verif Require Import Prelude Gf_Model Gf_Spec Gf_Proofs Gf_Proofs2 Gf_Props.
Open Scope R_scope.

(** ** C100: distribution functions *)
Lemma tanh_exp x : tanh x = (exp (2 * x) - 1) / (exp (2 * x) + 1).
Proof.
  unfold tanh, sinh, cosh. pose proof (exp_pos x) as P. replace (2 * x) with (x + x) by ring. rewrite exp_plus, exp_Ropp. field. repeat split; nra.
Qed.
Lemma tanh_opp x : tanh (- x) = - tanh x.
Proof. unfold tanh, sinh, cosh. rewrite Ropp_involutive. pose proof (exp_pos x). pose proof (exp_pos (- x)). field. lra. Qed.
Lemma tanh_bound x : -1 < tanh x < 1.
Proof.
  rewrite tanh_exp. pose proof (exp_pos (2 * x)) as P. set (e := exp (2 * x)) in *. split.
  - apply (Rmult_lt_reg_r (e + 1)); [lra|]. replace ((e - 1) / (e + 1) * (e + 1)) with (e - 1) by (field; lra). lra.
  - apply (Rmult_lt_reg_r (e + 1)); [lra|]. replace ((e - 1) / (e + 1) * (e + 1)) with (e - 1) by (field; lra). lra.
Qed.
Lemma tanh_incr x y : x < y -> tanh x < tanh y.
Proof.
  intros H. rewrite !tanh_exp. assert (E : exp (2 * x) < exp (2 * y)) by (apply exp_increasing; lra). pose proof (exp_pos (2 * x)). pose proof (exp_pos (2 * y)).
  set (a := exp (2 * x)) in *. set (b := exp (2 * y)) in *. apply (Rmult_lt_reg_r ((a + 1) * (b + 1))); [apply Rmult_lt_0_compat; lra|].
  replace ((a - 1) / (a + 1) * ((a + 1) * (b + 1))) with ((a - 1) * (b + 1)) by (field; lra). replace ((b - 1) / (b + 1) * ((a + 1) * (b + 1))) with ((b - 1) * (a + 1)) by (field; lra). nra.
Qed.
(** the factors are one minus twice the distributions *)
Theorem C100_factor c v T : (zero_t c = true -> equilibrium c = true -> v <> mu c) -> Eff_fac c v T = 1 - 2 * Eff_distr c v T.
Proof.
  intros N. unfold Eff_fac, Eff_distr, Fermi_fac, Fermi_distr, sgn. destruct (equilibrium c); [|field]. destruct (zero_t c); [|field]. specialize (N eq_refl eq_refl).
  destruct (Rlt_dec (v - mu c) 0), (Rle_dec 0 (v - mu c)), (Rle_dec (v - mu c) 0); lra.
Qed.
Print Assumptions C100_factor.
(** refuted at the chemical potential for zero temperature *)
Theorem C100_zero_temperature_refuted c v T : zero_t c = true -> equilibrium c = true -> v = mu c -> Eff_fac c v T = 0 /\ 1 - 2 * Eff_distr c v T = 1 /\ Fermi_distribution c 0 T = 1 / 2.
Proof.
  intros Z E ->. unfold Eff_fac, Eff_distr, Fermi_fac, Fermi_distr, Fermi_distribution, sgn. rewrite Z, E, Rminus_eq_0.
  destruct (Rlt_dec 0 0), (Rle_dec 0 0); try lra. split; [lra|]. split; [lra|]. destruct (Req_EM_T 0 0); lra.
Qed.
Print Assumptions C100_zero_temperature_refuted.
Theorem C100_range c v m T : 0 <= Fermi_distr c v m T <= 1 /\ -1 <= Fermi_fac c v m T <= 1.
Proof.
  unfold Fermi_distr, Fermi_fac, sgn. destruct (zero_t c).
  - destruct (Rlt_dec (v - m) 0), (Rle_dec 0 (v - m)), (Rle_dec (v - m) 0); lra.
  - pose proof (tanh_bound ((v - m) / (2 * T))). lra.
Qed.
Print Assumptions C100_range.
Theorem C100_decreasing c v v' m T : 0 < T -> v < v' -> Fermi_distr c v' m T <= Fermi_distr c v m T /\ (zero_t c = false -> Fermi_distr c v' m T < Fermi_distr c v m T).
Proof.
  intros HT H. unfold Fermi_distr. destruct (zero_t c).
  - split; [|discriminate]. destruct (Rlt_dec (v - m) 0), (Rlt_dec (v' - m) 0); lra.
  - assert (tanh ((v - m) / (2 * T)) < tanh ((v' - m) / (2 * T))) by (apply tanh_incr; unfold Rdiv; apply Rmult_lt_compat_r; [apply Rinv_0_lt_compat; lra|lra]). split; [|intros _]; lra.
Qed.
Print Assumptions C100_decreasing.
Theorem C100_particle_hole c x m T : (zero_t c = true -> x <> 0) -> Fermi_distr c (m + x) m T + Fermi_distr c (m - x) m T = 1 /\ Fermi_fac c (m - x) m T = - Fermi_fac c (m + x) m T.
Proof.
  intros N. unfold Fermi_distr, Fermi_fac, sgn. replace (m + x - m) with x by ring. replace (m - x - m) with (- x) by ring. destruct (zero_t c).
  - specialize (N eq_refl). destruct (Rlt_dec x 0), (Rlt_dec (- x) 0), (Rle_dec 0 (- x)), (Rle_dec (- x) 0), (Rle_dec 0 x), (Rle_dec x 0); lra.
  - replace (- x / (2 * T)) with (- (x / (2 * T))) by (unfold Rdiv; ring). rewrite tanh_opp. split; lra.
Qed.
Print Assumptions C100_particle_hole.
(** the two implementations of the Fermi function agree *)
Theorem C100_textbook c v m T : T <> 0 -> (zero_t c = true -> v <> m) -> Fermi_distr c v m T = Fermi_distribution c (v - m) T.
Proof.
  intros HT N. unfold Fermi_distr, Fermi_distribution. destruct (zero_t c).
  - specialize (N eq_refl). destruct (Rlt_dec (v - m) 0), (Rlt_dec 0 (v - m)), (Req_EM_T (v - m) 0); lra.
  - rewrite tanh_exp. replace (2 * ((v - m) / (2 * T))) with ((v - m) / T) by (field; exact HT). pose proof (exp_pos ((v - m) / T)). field. lra.
Qed.
Print Assumptions C100_textbook.
Example C100_hyp : 0 < 1 /\ Fermi_distr (std true 2) 0 0 1 = 1 / 2 /\ Eff_fac (std true 2) 0 1 = 0.
Proof.
  unfold Eff_fac, Fermi_distr, Fermi_fac. cbn [zero_t equilibrium mu std]. rewrite Rminus_eq_0. replace (0 / (2 * 1)) with 0 by field.
  assert (T0 : tanh 0 = 0) by (unfold tanh; rewrite sinh_0; unfold Rdiv; ring). rewrite T0. lra.
Qed.

(** ** C59: fluctuation-dissipation relation *)
(** the formula with self-energy components and zero bias agrees with the equilibrium one (hybridisation regulator) *)
Definition off_equilibrium (c : cfg) : cfg :=
  {| keldysh := keldysh c; contour := contour c; zero_t := zero_t c; phs := phs c; reg := reg c; equilibrium := false; fdt_katanin := fdt_katanin c; mu := mu c; bias := 0 |}.
Lemma off_fac c v T : equilibrium c = true -> (zero_t c = true -> v <> mu c) -> Eff_fac (off_equilibrium c) v T = Eff_fac c v T.
Proof.
  intros E N. rewrite !C100_factor; [|auto|intros _; discriminate]. unfold Eff_distr. cbn [equilibrium off_equilibrium mu bias]. rewrite E. replace (mu c + 0 / 2) with (mu c) by field. replace (mu c - 0 / 2) with (mu c) by field.
  change (Fermi_distr (off_equilibrium c)) with (Fermi_distr c). field.
Qed.
Lemma im_inv x : x <> rc 0 -> snd (cinv x) = - snd x * norm (cinv x).
Proof. intros N. apply norm_nz in N. destruct x as [a b]. unfold cinv, norm in *. cbn [fst snd] in *. field. exact N. Qed.
Theorem C59_general c p v : equilibrium c = true -> reg c = 2%Z -> (zero_t c = true -> v <> mu c) -> fdr (Eff_fac c v (Temp p)) (sigma p 0 v) (sigma p 1 v) ->
  GK (off_equilibrium c) p v = GK c p v.
Proof.
  intros E R N F. unfold GK. change (GR (off_equilibrium c) p v) with (GR c p v). destruct (GR c p v) as [g|] eqn:Hg; [|reflexivity]. cbn [obind].
  rewrite E, R, (off_fac c v (Temp p)) by assumption. cbn [equilibrium off_equilibrium Z.eqb Pos.eqb]. f_equal.
  unfold GR in Hg. rewrite R in Hg. cbn [Z.eqb Pos.eqb] in Hg. unfold GR_REG2 in Hg. apply cquot_inv in Hg. destruct Hg as (Nz & ->).
  set (D := (G0R_inv p v + ci * rc (Lambda p * (1 / 2)) - sigma p 0 v)%C) in *. replace (rc 1 * cinv D)%C with (cinv D) by ring.
  rewrite F. set (e := Eff_fac c v (Temp p)). assert (Di : snd D = (Gamma p + Lambda p) * (1 / 2) - snd (sigma p 0 v)) by (unfold D, G0R_inv; cnorm; ring).
  rewrite (im_inv D Nz), Di. unfold cmul, csub, ci, rc. cbn [fst snd]. f_equal; field.
Qed.
Print Assumptions C59_general.
(** the relation holds for every component in equilibrium *)
Theorem C59_equilibrium c p v g k : equilibrium c = true -> reg c <> 5%Z -> GR c p v = Some g -> GK c p v = Some k -> fdr (Eff_fac c v (Temp p)) g k.
Proof.
  intros E R Hg Hk. unfold GK in Hk. rewrite Hg in Hk. cbn [obind] in Hk. apply Z.eqb_neq in R. rewrite E, R in Hk. injection Hk as <-. unfold fdr, cmul, ci, rc. cbn. f_equal; ring.
Qed.
Print Assumptions C59_equilibrium.
Theorem C59_single_scale c p v s k : equilibrium c = true -> reg c <> 5%Z -> SR c p v = Some s -> SK c p v = Some k -> fdr (Eff_fac c v (Temp p)) s k.
Proof.
  intros E R Hg Hk. unfold SK in Hk. apply Z.eqb_neq in R. rewrite E, R, Hg in Hk. cbn [obind] in Hk. injection Hk as <-. unfold fdr, cmul, ci, rc. cbn. f_equal; ring.
Qed.
Print Assumptions C59_single_scale.
Lemma fdr_conj e r k : fdr e r k <-> k = (rc e * (r - conj r))%C.
Proof. unfold fdr. split; intros ->; destruct r as [a b]; cnorm; f_equal; ring. Qed.
Theorem C59_katanin c p v r k : equilibrium c = true -> reg c <> 5%Z -> fdt_katanin c = false -> fdr (Eff_fac c v (Temp p)) (dsigma p 0 v) (dsigma p 1 v) ->
  Katanin_R c p v = Some r -> Katanin_K c p v = Some k -> fdr (Eff_fac c v (Temp p)) r k.
Proof.
  intros E R Fd F Hr Hk. unfold Katanin_R in Hr. unfold Katanin_K in Hk. rewrite Fd in Hk. cbn [obind] in Hk. destruct (GR c p v) as [g|] eqn:Hg; [|discriminate]. cbn [obind] in *.
  destruct (GK c p v) as [q|] eqn:Hq; [|discriminate]. cbn [obind] in Hk. injection Hr as <-. injection Hk as <-. pose proof (C59_equilibrium c p v g q E R Hg Hq) as Q.
  apply fdr_conj in Q, F. apply fdr_conj. rewrite Q, F, !conj_mul. ring.
Qed.
Print Assumptions C59_katanin.
(** temperature flow: computed from the components, relation at temperature Lambda *)
Theorem C59_temperature c p v g k : equilibrium c = true -> reg c = 5%Z -> fdr (Eff_fac c v (Lambda p)) (sigma p 0 v) (sigma p 1 v) -> GR c p v = Some g -> GK c p v = Some k ->
  fdr (Eff_fac c v (Lambda p)) g k.
Proof.
  intros E R F Hg Hk. unfold GK in Hk. rewrite Hg in Hk. cbn [obind] in Hk. rewrite E, R in Hk. cbn [Z.eqb Pos.eqb] in Hk. injection Hk as <-.
  unfold GR in Hg. rewrite R in Hg. cbn [Z.eqb Pos.eqb] in Hg. unfold GR_REG5 in Hg. apply cquot_inv in Hg. destruct Hg as (Nz & ->).
  set (D := (G0R_inv p v - sigma p 0 v)%C) in *. replace (rc 1 * cinv D)%C with (cinv D) by ring. rewrite F. assert (Di : snd D = Gamma p * (1 / 2) - snd (sigma p 0 v)) by (unfold D, G0R_inv; cnorm; ring).
  unfold fdr. rewrite (im_inv D Nz), Di. unfold cmul, csub, ci, rc. cbn [fst snd]. f_equal; field.
Qed.
Print Assumptions C59_temperature.
Theorem C59_imaginary e r k : fdr e r k -> fst k = 0. Proof. intros ->. reflexivity. Qed.
Print Assumptions C59_imaginary.
(** lesser and greater components are related by the Boltzmann factor *)
Theorem C59_KMS c p v lesser greater : equilibrium c = true -> reg c <> 5%Z -> keldysh c = true -> contour c = true -> zero_t c = false -> Temp p <> 0 ->
  valsmooth c Tg p 1 v = Some lesser -> valsmooth c Tg p 2 v = Some greater ->
  lesser = (rc (- exp (- ((v - mu c) / Temp p))) * greater)%C.
Proof.
  intros E R K C Z HT Hl Hg. unfold valsmooth in *. rewrite K, C in *. cbn [retarded keldysh_comp] in *. destruct (GR c p v) as [g|] eqn:Gg; [|discriminate]. destruct (GK c p v) as [k|] eqn:Gk; [|discriminate].
  cbn [obind rotated] in *. injection Hl as <-. injection Hg as <-. pose proof (C59_equilibrium c p v g k E R Gg Gk) as F. rewrite F. unfold Eff_fac, Fermi_fac. rewrite E, Z, tanh_exp.
  replace (2 * ((v - mu c) / (2 * Temp p))) with ((v - mu c) / Temp p) by (field; exact HT). rewrite exp_Ropp. pose proof (exp_pos ((v - mu c) / Temp p)) as P. set (x := exp ((v - mu c) / Temp p)) in *.
  destruct g as [a b]. cnorm. f_equal; field; lra.
Qed.
Print Assumptions C59_KMS.
(** refuted: off equilibrium, the interaction regulator does not reproduce the relation at zero bias *)
Definition cold (r : Z) : cfg := {| keldysh := true; contour := false; zero_t := true; phs := true; reg := r; equilibrium := true; fdt_katanin := false; mu := 0; bias := 0 |}.
Definition free (l : R) : propagator := {| Lambda := l; epsilon := 0; Gamma := 2; Temp := 1; sigma := fun _ _ => rc 0; dsigma := fun _ _ => rc 0; asymp := rc 0 |}.
Theorem C59_regulators_refuted : fdr (Eff_fac (cold 4) 1 1) (sigma (free (1 / 2)) 0 1) (sigma (free (1 / 2)) 1 1) /\
  exists k k', GK (cold 4) (free (1 / 2)) 1 = Some k /\ GK (off_equilibrium (cold 4)) (free (1 / 2)) 1 = Some k' /\ k <> k'.
Proof.
  split; [unfold fdr, free, rc; cbn; f_equal; ring|]. assert (Hg : forall c, reg c = 4%Z -> GR c (free (1 / 2)) 1 = Some (1 / 4, - (1 / 4))).
  { intros c R. unfold GR. rewrite R. cbn [Z.eqb Pos.eqb]. unfold GR_REG4, G0R_inv. cbn [free epsilon Gamma Lambda asymp sigma]. rewrite cquot_some.
    - cnorm. do 2 f_equal; field.
    - intros E. apply (f_equal fst) in E. cbn in E. lra. }
  assert (F : Eff_fac (cold 4) 1 1 = 1) by (unfold Eff_fac, Fermi_fac, sgn; cbn [equilibrium zero_t cold mu]; destruct (Rle_dec 0 (1 - 0)), (Rle_dec (1 - 0) 0); lra).
  assert (F' : Eff_fac (off_equilibrium (cold 4)) 1 1 = 1) by (rewrite off_fac; [exact F|reflexivity|cbn; intros _; lra]).
  unfold GK. rewrite !Hg by reflexivity. cbn [obind]. change (equilibrium (cold 4)) with true. change (equilibrium (off_equilibrium (cold 4))) with false. change (reg (cold 4)) with 4%Z. cbn [Z.eqb Pos.eqb].
  change (Temp (free (1 / 2))) with 1. rewrite F, F'. do 2 eexists. split; [reflexivity|]. split; [reflexivity|]. cbn [free sigma Gamma Lambda]. cnorm. intros H. injection H as _ H. lra.
Qed.
Print Assumptions C59_regulators_refuted.
Example C59_hyp : equilibrium (std true 2) = true /\ fdr (Eff_fac (std true 2) 1 1) (0, -1) (0, - (2 * Eff_fac (std true 2) 1 1)) /\ (exists g, GR (std true 2) (free 1) 1 = Some g) /\ exists g, GR (std true 5) (free 1) 1 = Some g.
Proof.
  split; [reflexivity|]. split; [unfold fdr; cbn [snd]; f_equal; ring|]. split; unfold GR; cbn [reg std Z.eqb Pos.eqb]; [unfold GR_REG2|unfold GR_REG5]; (rewrite cquot_some; [eexists; reflexivity|]);
    intros E; apply (f_equal snd) in E; cbn in E; lra.
Qed.

(** ** C60: causality *)
Lemma im_quot a D : D <> rc 0 -> snd (rc a * cinv D)%C = - (a * snd D) * norm (cinv D).
Proof. intros N. transitivity (a * snd (cinv D)); [destruct (cinv D) as [x y]; cnorm; ring|]. rewrite (im_inv D N). ring. Qed.
Lemma norm_inv D : D <> rc 0 -> norm (cinv D) = / norm D.
Proof. intros N. apply norm_nz in N. destruct D as [a b]. unfold cinv, norm in *. cbn [fst snd] in *. field. exact N. Qed.
Lemma upper_nz D : 0 < snd D -> D <> rc 0. Proof. intros H E. rewrite E in H. cbn in H. lra. Qed.
Lemma causal_quot a D : 0 < a -> 0 < snd D -> exists g, cquot (rc a) D = Some g /\ snd g < 0 /\ norm g <= a * a / (snd D * snd D).
Proof.
  intros Ha H. pose proof (upper_nz D H) as N. exists (rc a * cinv D)%C. split; [apply cquot_some; exact N|]. pose proof (norm_nz D N) as Nn. pose proof (norm_pos D) as Np.
  assert (Hp : 0 < norm D) by lra. split.
  - rewrite im_quot, norm_inv by exact N. assert (0 < / norm D) by (apply Rinv_0_lt_compat; exact Hp). assert (0 < a * snd D) by (apply Rmult_lt_0_compat; assumption). nra.
  - assert (E : norm (rc a * cinv D)%C = a * a * / norm D) by (rewrite <- norm_inv by exact N; destruct (cinv D) as [x y]; cnorm; ring). rewrite E. unfold Rdiv. apply Rmult_le_compat_l; [nra|].
    apply Rinv_le_contravar; [nra|]. unfold norm. nra.
Qed.
Theorem C60_hybridisation c p v : reg c = 2%Z -> causal p v -> 0 < Gamma p + Lambda p ->
  exists g, GR c p v = Some g /\ snd g < 0 /\ norm g <= Rsqr (2 / (Gamma p + Lambda p)).
Proof.
  intros R H P. unfold GR. rewrite R. cbn [Z.eqb Pos.eqb]. unfold GR_REG2. set (D := (G0R_inv p v + ci * rc (Lambda p * (1 / 2)) - sigma p 0 v)%C).
  assert (Di : snd D = (Gamma p + Lambda p) / 2 - snd (sigma p 0 v)) by (unfold D, G0R_inv; cnorm; field). unfold causal in H.
  destruct (causal_quot 1 D) as (g & Hg & I & B); [lra|rewrite Di; lra|]. exists g. split; [exact Hg|]. split; [exact I|]. eapply Rle_trans; [exact B|]. unfold Rdiv, Rsqr.
  rewrite !Rmult_1_l. replace (2 * / (Gamma p + Lambda p) * (2 * / (Gamma p + Lambda p))) with (/ ((Gamma p + Lambda p) / 2 * ((Gamma p + Lambda p) / 2))) by (field; lra).
  apply Rinv_le_contravar; [apply Rmult_lt_0_compat; lra|]. rewrite Di. apply Rmult_le_compat; lra.
Qed.
Print Assumptions C60_hybridisation.
Theorem C60_temperature c p v : reg c = 5%Z -> causal p v -> 0 < Gamma p -> exists g, GR c p v = Some g /\ snd g < 0.
Proof.
  intros R H P. unfold GR. rewrite R. cbn [Z.eqb Pos.eqb]. unfold GR_REG5. unfold causal in H. destruct (causal_quot 1 (G0R_inv p v - sigma p 0 v)%C) as (g & Hg & I & _); [lra|unfold G0R_inv; cnorm; lra|]. eauto.
Qed.
Print Assumptions C60_temperature.
Theorem C60_interaction c p v : reg c = 4%Z -> causal p v -> snd (asymp p) = 0 -> 0 < Gamma p -> 0 < Lambda p -> exists g, GR c p v = Some g /\ snd g < 0.
Proof.
  intros R H A P L. unfold GR. rewrite R. cbn [Z.eqb Pos.eqb]. unfold GR_REG4. unfold causal in H.
  destruct (causal_quot (Lambda p) (G0R_inv p v - asymp p - rc (Lambda p) * (sigma p 0 v - asymp p))%C) as (g & Hg & I & _); [exact L| |eauto].
  unfold G0R_inv. cnorm. rewrite A. nra.
Qed.
Print Assumptions C60_interaction.
(** frequency regulator: only with the level at zero *)
Lemma reg3_alt c p v : reg c = 3%Z -> v <> 0 -> GR c p v = cquot (rc 1) (G0R_inv p v * (rc 1 + ci * rc (Lambda p / v)) - sigma p 0 v)%C.
Proof.
  intros R N. unfold GR. rewrite R. cbn [Z.eqb Pos.eqb]. unfold GR_REG3. assert (N1 : (rc v + ci * rc (Lambda p))%C <> rc 0) by (intros E; apply (f_equal fst) in E; cbn in E; lra).
  rewrite cquot_some by exact N1. cbn [obind]. pose proof (rc_nz v N) as Nc. set (q := (rc v + ci * rc (Lambda p))%C) in *. set (D := (G0R_inv p v - rc v * cinv q * sigma p 0 v)%C).
  assert (Q : (rc 1 + ci * rc (Lambda p / v))%C = (q * cinv (rc v))%C) by (unfold q; cnorm; f_equal; field; exact N).
  assert (DD : (G0R_inv p v * (rc 1 + ci * rc (Lambda p / v)) - sigma p 0 v)%C = (D * (q * cinv (rc v)))%C) by (rewrite Q; unfold D; field; split; assumption).
  rewrite DD. unfold cquot. assert (Nq : (q * cinv (rc v))%C <> rc 0).
  { intros E. apply N1. transitivity (q * cinv (rc v) * rc v)%C; [field; exact Nc|]. rewrite E. ring. }
  destruct (Req_EM_T (norm D) 0) as [E|E].
  - apply norm_zero in E. rewrite E. destruct (Req_EM_T (norm (rc 0 * (q * cinv (rc v)))%C) 0) as [|X]; [reflexivity|]. exfalso. apply X. replace (rc 0 * (q * cinv (rc v)))%C with (rc 0) by ring. unfold norm, rc. cbn. ring.
  - apply nz_norm in E. destruct (Req_EM_T (norm (D * (q * cinv (rc v)))%C) 0) as [X|X].
    + apply norm_zero in X. exfalso. apply Nq. transitivity (cinv D * (D * (q * cinv (rc v))))%C; [field; split; assumption|]. rewrite X. ring.
    + f_equal. field. repeat split; assumption.
Qed.
Theorem C60_frequency_partial c p v : reg c = 3%Z -> v <> 0 -> epsilon p = 0 -> causal p v -> 0 < Gamma p / 2 + Lambda p -> exists g, GR c p v = Some g /\ snd g < 0.
Proof.
  intros R N E H P. rewrite reg3_alt by assumption. unfold causal in H. destruct (causal_quot 1 (G0R_inv p v * (rc 1 + ci * rc (Lambda p / v)) - sigma p 0 v)%C) as (g & Hg & I & _); [lra| |eauto].
  unfold G0R_inv. rewrite E. cnorm. replace ((v - 0 + (0 * (Gamma p * (1 / 2)) - 1 * 0)) * (0 + (0 * 0 + 1 * (Lambda p / v)))) with (Lambda p) by (field; exact N). lra.
Qed.
Print Assumptions C60_frequency_partial.
(** refuted for the frequency regulator: wrong sign, and even a division by zero *)
Definition level (s : comp) : propagator := {| Lambda := 1; epsilon := 3; Gamma := 1; Temp := 1; sigma := fun _ _ => s; dsigma := fun _ _ => rc 0; asymp := rc 0 |}.
Theorem C60_frequency_refuted : causal (level (rc 0)) 1 /\ (exists g, GR (std true 3) (level (rc 0)) 1 = Some g /\ 0 < snd g) /\ causal (level (-5 / 2, -3 / 2)) 1 /\ GR (std true 3) (level (-5 / 2, -3 / 2)) 1 = None.
Proof.
  split; [unfold causal; cbn; lra|]. split; [|split; [unfold causal; cbn; lra|]]; rewrite reg3_alt by (reflexivity || lra); unfold G0R_inv; cbn [level Lambda epsilon Gamma sigma].
  - rewrite cquot_some; [eexists; split; [reflexivity|]|].
    + cnorm. match goal with |- 0 < ?x => replace x with (3 / 17) by field end. lra.
    + intros E. apply (f_equal snd) in E. cbn in E. lra.
  - unfold cquot. match goal with |- (if Req_EM_T ?x 0 then _ else _) = _ => assert (X : x = 0) by (cnorm; field); destruct (Req_EM_T x 0); [reflexivity|contradiction] end.
Qed.
Print Assumptions C60_frequency_refuted.
Example C60_hyp : causal (free 1) 1 /\ 0 < Gamma (free 1) + Lambda (free 1) /\ epsilon (free 1) = 0 /\ snd (asymp (free 1)) = 0.
Proof. unfold causal. cbn. lra. Qed.

(** ** C61: bases *)
Definition with_contour (b : bool) (c : cfg) : cfg :=
  {| keldysh := keldysh c; contour := b; zero_t := zero_t c; phs := phs c; reg := reg c; equilibrium := equilibrium c; fdt_katanin := fdt_katanin c; mu := mu c; bias := bias c |}.
(** rotating the contour components gives back the Keldysh components, for all four types *)
Theorem C61_rotation c t p v x r k : keldysh c = true -> valsmooth_vectorized (with_contour true c) t p v = Some x ->
  valsmooth (with_contour false c) t p 0 v = Some r -> valsmooth (with_contour false c) t p 1 v = Some k -> to_Keldysh x = (rc 0, conj r, r, k).
Proof.
  intros K V Hr Hk. unfold valsmooth, valsmooth_vectorized in *. cbn [keldysh contour with_contour] in *. rewrite K in *.
  change (retarded (with_contour false c)) with (retarded c) in Hr. change (keldysh_comp (with_contour false c)) with (keldysh_comp c) in Hk.
  change (retarded (with_contour true c)) with (retarded c) in V. change (keldysh_comp (with_contour true c)) with (keldysh_comp c) in V. rewrite Hr, Hk in V. cbn [obind rotated] in V. injection V as <-.
  unfold to_Keldysh. destruct r as [a b], k as [e f]. cnorm. repeat f_equal; field.
Qed.
Print Assumptions C61_rotation.
Theorem C61_redundancy c t p v a b x d : keldysh c = true -> contour c = true -> valsmooth_vectorized c t p v = Some (a, b, x, d) -> (a + d)%C = (b + x)%C.
Proof.
  intros K C V. unfold valsmooth_vectorized in V. rewrite K, C in V. destruct (retarded c t p v) as [r|]; [|discriminate]. destruct (keldysh_comp c t p v) as [k|]; [|discriminate].
  cbn [obind rotated] in V. injection V as <- <- <- <-. ring.
Qed.
Print Assumptions C61_redundancy.
(** single components and vectorised evaluation agree *)
Theorem C61_components c t p v a b x d : keldysh c = true -> valsmooth_vectorized c t p v = Some (a, b, x, d) ->
  if contour c then valsmooth c t p 0 v = Some a /\ valsmooth c t p 1 v = Some b /\ valsmooth c t p 2 v = Some x /\ valsmooth c t p 3 v = Some d
  else a = rc 0 /\ b = conj x /\ valsmooth c t p 0 v = Some x /\ valsmooth c t p 1 v = Some d.
Proof.
  intros K V. unfold valsmooth_vectorized, valsmooth in *. rewrite K in *. destruct (retarded c t p v) as [r|]; [|discriminate]. destruct (keldysh_comp c t p v) as [k|]; [|discriminate]. cbn [obind] in *.
  destruct (contour c).
  - cbn [rotated obind] in *. injection V as <- <- <- <-. auto.
  - destruct (match t with Tg | Ts => negb (equilibrium c) | _ => false end); [discriminate|]. injection V as <- <- <- <-. auto.
Qed.
Print Assumptions C61_components.
(** the rotation loses nothing *)
Theorem C61_injective x y : to_Keldysh x = to_Keldysh y -> x = y.
Proof.
  destruct x as [[[a b] x] d], y as [[[a' b'] x'] d']. unfold to_Keldysh. intros H. injection H as H1 H2 H3 H4 H5 H6 H7 H8.
  destruct a, b, x, d, a', b', x', d'. cbn in *. repeat f_equal; lra.
Qed.
Print Assumptions C61_injective.
Example C61_hyp : keldysh (std true 2) = true /\ exists x r k, valsmooth_vectorized (with_contour true (std true 2)) Tg (free 1) 1 = Some x /\
  valsmooth (with_contour false (std true 2)) Tg (free 1) 0 1 = Some r /\ valsmooth (with_contour false (std true 2)) Tg (free 1) 1 1 = Some k.
Proof.
  split; [reflexivity|]. assert (Hg : exists g, forall b, GR (with_contour b (std true 2)) (free 1) 1 = Some g).
  { eexists. intros b. unfold GR. cbn [reg with_contour std Z.eqb Pos.eqb]. unfold GR_REG2. rewrite cquot_some; [reflexivity|]. intros E. apply (f_equal snd) in E. cbn in E. lra. }
  destruct Hg as (g & Hg). unfold valsmooth_vectorized, valsmooth. cbn [keldysh contour with_contour std retarded keldysh_comp]. unfold GK. rewrite !Hg. cbn. do 3 eexists. repeat split.
Qed.

(** ** C101: Matsubara propagators *)
Lemma sign_opp v : sign (- v) = - sign v. Proof. unfold sign. destruct (Rlt_dec 0 (- v)), (Rlt_dec (- v) 0), (Rlt_dec 0 v), (Rlt_dec v 0); lra. Qed.
Lemma copp_nz x : x <> rc 0 -> (- x)%C <> rc 0. Proof. intros H E. apply H. transitivity (- - x)%C; [ring|]. rewrite E. ring. Qed.
Lemma cquot_opp x y : cquot x (- y)%C = (r <- cquot x y ;; Some (- r)%C).
Proof.
  unfold cquot. replace (norm (- y)%C) with (norm y) by (destruct y; cnorm; ring). destruct (Req_EM_T (norm y) 0) as [|N]; [reflexivity|]. cbn [obind]. f_equal. field.
  split; [apply nz_norm; exact N|]. apply copp_nz, nz_norm, N.
Qed.
(** with particle-hole symmetry: odd in the frequency if the self-energy is *)
Theorem C101_odd c p v : phs c = true -> (reg c = 2 \/ reg c = 4)%Z -> sigma p 0 (- v) = (- sigma p 0 v)%C -> GM c p (- v) = (g <- GM c p v ;; Some (- g)%C).
Proof.
  intros P R S. assert (G : G0M_inv c p (- v) = (- G0M_inv c p v)%C) by (unfold G0M_inv, scaled; rewrite P, sign_opp; destruct (negb (keldysh c) && negb (zero_t c)); cnorm; f_equal; ring).
  unfold GM. destruct R as [-> | ->]; cbn [Z.eqb Pos.eqb].
  - unfold GM_REG2. rewrite P, S, G, sign_opp, <- cquot_opp. f_equal. replace (rc (Lambda p * (1 / 2) * - sign v)) with (- rc (Lambda p * (1 / 2) * sign v))%C by (cnorm; f_equal; ring). ring.
  - unfold GM_REG4. rewrite S, G, <- cquot_opp. f_equal. ring.
Qed.
Print Assumptions C101_odd.
(** finite, with the sign of the frequency and no larger than without self-energy, if the self-energy damps *)
Theorem C101_finite c p v : phs c = true -> keldysh c = false -> reg c = 2%Z -> v <> 0 -> 0 <= Gamma p -> 0 <= Lambda p -> 0 < Temp p ->
  snd (sigma p 0 v) = 0 -> fst (sigma p 0 v) * sign v <= 0 ->
  exists g, GM c p v = Some (rc g) /\ 0 < g * sign v /\ g * sign v <= 1 / ((if zero_t c then Rabs v else Rabs v * (PI * Temp p)) + (Gamma p + Lambda p) / 2).
Proof.
  intros P K R Nv G L HT S0 S1. unfold GM. rewrite R. cbn [Z.eqb Pos.eqb]. unfold GM_REG2, G0M_inv, scaled. rewrite P, K. cbn [negb andb].
  set (w := if zero_t c then Rabs v else Rabs v * (PI * Temp p)). pose proof PI_RGT_0 as Pi.
  assert (Pv : 0 < Rabs v) by (apply Rabs_pos_lt; exact Nv). assert (Pw : 0 < w) by (unfold w; destruct (zero_t c); [exact Pv|apply Rmult_lt_0_compat; [exact Pv|apply Rmult_lt_0_compat; assumption]]).
  assert (Sg : sign v * sign v = 1 /\ v = sign v * Rabs v).
  { unfold sign. destruct (Rlt_dec 0 v) as [A|A], (Rlt_dec v 0) as [B|B]; try lra; [rewrite Rabs_right by lra|rewrite Rabs_left by lra]; lra. }
  destruct Sg as (Sg & Va). set (e := sign v) in *.
  set (x := w + (Gamma p + Lambda p) / 2 - fst (sigma p 0 v) * e). assert (Px : w + (Gamma p + Lambda p) / 2 <= x) by (unfold x; lra). assert (Px0 : 0 < x) by lra.
  assert (Dx : (rc (v * (if negb (zero_t c) then PI * Temp p else 1) + Gamma p * (1 / 2) * e) + rc (Lambda p * (1 / 2) * e) - sigma p 0 v)%C = rc (e * x)).
  { destruct (sigma p 0 v) as [a b]. cbn [fst snd] in *. subst b. cnorm. f_equal; [|ring]. unfold x, w. rewrite Va at 1. destruct (zero_t c); cbn [negb].
    - transitivity (e * Rabs v + Gamma p * (1 / 2) * e + Lambda p * (1 / 2) * e - a * (e * e)); [rewrite Sg; ring|]. field.
    - transitivity (e * Rabs v * (PI * Temp p) + Gamma p * (1 / 2) * e + Lambda p * (1 / 2) * e - a * (e * e)); [rewrite Sg; ring|]. field. }
  rewrite Dx. assert (Ne : e <> 0) by (intros E; rewrite E in Sg; lra). assert (Nx : e * x <> 0) by (apply Rmult_integral_contrapositive; split; lra).
  rewrite cquot_some by (apply rc_nz; exact Nx). exists (e * / x). split; [|split].
  - f_equal. unfold cmul, cinv, rc, norm. cbn [fst snd]. f_equal; [|field; split; assumption || lra].
    transitivity (/ (e * x)); [field; split; [lra|exact Ne]|]. rewrite Rinv_mult. replace (/ e) with e; [reflexivity|]. apply (Rmult_eq_reg_r e); [|exact Ne]. rewrite Rinv_l by exact Ne. exact Sg.
  - replace (e * / x * e) with (/ x) by (transitivity (e * e * / x); [rewrite Sg|]; ring). apply Rinv_0_lt_compat. exact Px0.
  - replace (e * / x * e) with (/ x) by (transitivity (e * e * / x); [rewrite Sg|]; ring). unfold Rdiv. rewrite Rmult_1_l. apply Rinv_le_contravar; [fold w; lra|exact Px].
Qed.
Print Assumptions C101_finite.
(** the real numbers stored with particle-hole symmetry are the complex ones without, up to a factor i *)
Definition without_phs (c : cfg) : cfg :=
  {| keldysh := keldysh c; contour := contour c; zero_t := zero_t c; phs := false; reg := reg c; equilibrium := equilibrium c; fdt_katanin := fdt_katanin c; mu := mu c; bias := bias c |}.
Definition rotate_sigma (p : propagator) : propagator :=
  {| Lambda := Lambda p; epsilon := epsilon p; Gamma := Gamma p; Temp := Temp p; sigma := fun k v => (ci * sigma p k v)%C; dsigma := fun k v => (ci * dsigma p k v)%C; asymp := (ci * asymp p)%C |}.
Lemma cquot_ci x y : cquot x (ci * y)%C = (r <- cquot x y ;; Some (- ci * r)%C).
Proof.
  unfold cquot. replace (norm (ci * y)%C) with (norm y) by (destruct y; cnorm; ring). destruct (Req_EM_T (norm y) 0) as [|N]; [reflexivity|]. cbn [obind]. f_equal.
  apply nz_norm in N. assert (Nc : ci <> rc 0) by (intros E; apply (f_equal snd) in E; cbn in E; lra). transitivity (x * cinv y * cinv ci)%C; [field; split; assumption|].
  replace (cinv ci) with (- ci)%C; [ring|]. unfold cinv, ci, copp, norm. cbn. f_equal; field.
Qed.
Theorem C101_rotation c p v : phs c = true -> epsilon p = 0 -> (reg c = 2 \/ reg c = 4)%Z ->
  GM (without_phs c) (rotate_sigma p) v = (g <- GM c p v ;; Some (- ci * g)%C).
Proof.
  intros P E R. assert (G : G0M_inv (without_phs c) (rotate_sigma p) v = (ci * G0M_inv c p v)%C).
  { unfold G0M_inv. cbn [phs without_phs]. rewrite P. change (scaled (without_phs c) (rotate_sigma p) v) with (scaled c p v). cbn [Gamma epsilon rotate_sigma]. rewrite E. cnorm. f_equal; ring. }
  unfold GM. change (reg (without_phs c)) with (reg c). destruct R as [-> | ->]; cbn [Z.eqb Pos.eqb].
  - unfold GM_REG2. cbn [phs without_phs]. rewrite P, G, <- cquot_ci. cbn [Lambda sigma rotate_sigma]. f_equal. ring.
  - unfold GM_REG4. rewrite G, <- cquot_ci. cbn [Lambda sigma rotate_sigma]. f_equal. ring.
Qed.
Print Assumptions C101_rotation.
Example C101_hyp : phs (std false 2) = true /\ keldysh (std false 2) = false /\ sigma (free 1) 0 (-1) = (- sigma (free 1) 0 1)%C /\ fst (sigma (free 1) 0 1) * sign 1 <= 0 /\ 0 < Temp (free 1).
Proof. repeat split; cbn; try lra. unfold copp, rc. cbn. f_equal; ring. Qed.
