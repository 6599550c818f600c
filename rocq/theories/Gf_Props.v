From Coq Require Import Reals Lra Field.
From Verif Require Import Prelude Gf_Model Gf_Spec Gf_Proofs Gf_Proofs2.
Open Scope R_scope.

(** ** C58: derivatives along the flow *)
Definition with_asymp (c : cfg) (pr : R -> propagator) (L : R) : Prop := reg c = 4%Z -> forall y, asymp (pr y) = asymp (pr L).
(** retarded component, all regulators: derivative of g is k *)
Theorem C58_retarded c pr v L g : flowing pr v L -> with_asymp c pr L -> (reg c = 3%Z -> / 10 ^ 18 <= Rabs v \/ v = 0 /\ L <> 0) ->
  keldysh c = true -> contour c = false -> valsmooth c Tg (pr L) 0 v = Some g ->
  exists d, valsmooth c Tk (pr L) 0 v = Some d /\ derivative_at (fun y => valsmooth c Tg (pr y) 0 v) L d.
Proof.
  intros F A Tn K C H. unfold valsmooth in *. rewrite K, C in *. cbn [retarded] in *. destruct (flow_R c pr v L F g Tn A H) as (d & S & D).
  eexists. split; [|exact D]. unfold Katanin_R, plus. rewrite S, H. reflexivity.
Qed.
Print Assumptions C58_retarded.
Theorem C58_keldysh c pr v L k : flowing pr v L -> with_asymp c pr L -> (reg c = 3%Z -> / 10 ^ 18 <= Rabs v \/ v = 0 /\ L <> 0) ->
  keldysh c = true -> contour c = false -> fdt_katanin c = false ->
  (equilibrium c = true /\ reg c <> 5%Z /\ fdr (Eff_fac c v (Temp (pr L))) (dsigma (pr L) 0 v) (dsigma (pr L) 1 v)
   \/ equilibrium c = true /\ reg c = 5%Z /\ zero_t c = false /\ mu c = 0 /\ L <> 0
   \/ equilibrium c = false /\ reg c = 2%Z) ->
  valsmooth c Tg (pr L) 1 v = Some k ->
  exists d, valsmooth c Tk (pr L) 1 v = Some d /\ derivative_at (fun y => valsmooth c Tg (pr y) 1 v) L d.
Proof.
  intros F A Tn K C Fd Cases H. unfold valsmooth in *. rewrite K, C in *. cbn [keldysh_comp] in *.
  assert (X : exists d e, SK c (pr L) v = Some d /\ Katanin_K c (pr L) v = Some e /\ derivative_at (fun y => GK c (pr y) v) L (d + e)%C).
  { destruct Cases as [(E & R & Fr)|[(E & R & Z & M & NL)|(E & R)]]; [eapply flow_K_eq|eapply flow_K_T|eapply flow_K_neq]; eassumption. }
  destruct X as (d & e & Sd & Ke & D). eexists. split; [|exact D]. unfold plus. rewrite Sd, Ke. reflexivity.
Qed.
Print Assumptions C58_keldysh.
Theorem C58_matsubara c pr v L g iK : flowing pr v L -> v <> 0 -> keldysh c = false -> valsmooth c Tg (pr L) iK v = Some g ->
  exists d, valsmooth c Tk (pr L) iK v = Some d /\ derivative_at (fun y => valsmooth c Tg (pr y) iK v) L d.
Proof.
  intros F N K H. unfold valsmooth in *. rewrite K in *. cbn [matsubara] in *. destruct (flow_M c pr v L F g N H) as (d & S & D).
  eexists. split; [|exact D]. unfold Katanin_M, plus. rewrite S, H. reflexivity.
Qed.
Print Assumptions C58_matsubara.
(** at constant self-energy the derivative is the single-scale propagator *)
Definition still (p : propagator) : propagator :=
  {| Lambda := Lambda p; epsilon := epsilon p; Gamma := Gamma p; Temp := Temp p; sigma := sigma p; dsigma := fun _ _ => rc 0; asymp := asymp p |}.
Definition constant_but_Lambda (pr : R -> propagator) (L : R) : Prop :=
  forall y, Lambda (pr y) = y /\ epsilon (pr y) = epsilon (pr L) /\ Gamma (pr y) = Gamma (pr L) /\ Temp (pr y) = Temp (pr L) /\ sigma (pr y) = sigma (pr L) /\ asymp (pr y) = asymp (pr L).
Lemma still_flowing pr v L : constant_but_Lambda pr L -> flowing (fun y => still (pr y)) v L.
Proof.
  intros H. split; [intros y; destruct (H y) as (A & B & C & D & _); cbn; auto|]. intros k _. apply D_total. cbn.
  apply (cder_ext (fun _ => sigma (pr L) k v)); [intros y; destruct (H y) as (_ & _ & _ & _ & -> & _); reflexivity|apply cder_const].
Qed.
Lemma still_GR c p v : GR c (still p) v = GR c p v. Proof. reflexivity. Qed.
Lemma still_SR c p v : SR c (still p) v = SR c p v. Proof. reflexivity. Qed.
Lemma still_GK c p v : GK c (still p) v = GK c p v. Proof. reflexivity. Qed.
Lemma still_SK c p v : SK c (still p) v = SK c p v. Proof. reflexivity. Qed.
Lemma still_M c p v : GM c (still p) v = GM c p v /\ SM c (still p) v = SM c p v. Proof. split; reflexivity. Qed.
Theorem C58_single_scale c pr v L g iK : constant_but_Lambda pr L -> (reg c = 3%Z -> / 10 ^ 18 <= Rabs v \/ v = 0 /\ L <> 0) ->
  contour c = false -> (keldysh c = false -> v <> 0) ->
  (keldysh c = true -> iK = 1%Z -> equilibrium c = true /\ reg c <> 5%Z \/ equilibrium c = true /\ reg c = 5%Z /\ zero_t c = false /\ mu c = 0 /\ L <> 0 \/ equilibrium c = false /\ reg c = 2%Z) ->
  valsmooth c Tg (pr L) iK v = Some g ->
  exists d, valsmooth c Ts (pr L) iK v = Some d /\ derivative_at (fun y => valsmooth c Tg (pr y) iK v) L d.
Proof.
  intros H Tn C Nv Cases V. pose proof (still_flowing pr v L H) as F. set (c' := {| keldysh := keldysh c; contour := contour c; zero_t := zero_t c; phs := phs c; reg := reg c; equilibrium := equilibrium c; fdt_katanin := false; mu := mu c; bias := bias c |}).
  assert (As : with_asymp c (fun y => still (pr y)) L) by (intros _ y; cbn; apply (H y)).
  unfold valsmooth in *. rewrite C in *. destruct (keldysh c) eqn:K.
  - destruct (Z.eq_dec iK 0) as [->|N0].
    + cbn [retarded] in *. destruct (flow_R c (fun y => still (pr y)) v L F g Tn As V) as (d & S & D). exists d. split; [exact S|].
      eapply D_eq; [exact D|]. cbn [dsigma still]. ring.
    + destruct (Z.eq_dec iK 1) as [->|N1]; [|destruct iK as [|[| |]|]; try discriminate; lia]. cbn [keldysh_comp] in *.
      assert (X : exists d e, SK c' (still (pr L)) v = Some d /\ Katanin_K c' (still (pr L)) v = Some e /\ derivative_at (fun y => GK c' (still (pr y)) v) L (d + e)%C).
      { destruct (Cases eq_refl eq_refl) as [(E & R)|[(E & R & Z & M & NL)|(E & R)]].
        - eapply (flow_K_eq c' (fun y => still (pr y))); try eassumption; [reflexivity|]. unfold fdr. cbn. unfold rc. f_equal; ring.
        - eapply (flow_K_T c' (fun y => still (pr y))); try eassumption. reflexivity.
        - eapply (flow_K_neq c' (fun y => still (pr y))); try eassumption. reflexivity. }
      destruct X as (d & e & Sd & Ke & D). exists d. split; [exact Sd|]. eapply D_eq; [exact D|].
      unfold Katanin_K in Ke. cbn [fdt_katanin c' obind dsigma still] in Ke. destruct (GR c' (still (pr L)) v) as [r|]; [|discriminate]. cbn [obind] in Ke.
      destruct (GK c' (still (pr L)) v) as [q|]; [|discriminate]. cbn [obind] in Ke. injection Ke as <-. rewrite conj_rc. ring.
  - cbn [matsubara] in *. destruct (flow_M c (fun y => still (pr y)) v L F g (Nv eq_refl) V) as (d & S & D). exists d. split; [exact S|]. eapply D_eq; [exact D|]. cbn [dsigma still]. ring.
Qed.
Print Assumptions C58_single_scale.
(** the Katanin extension alone is what the derivative of the self-energy adds *)
Theorem C58_extension c p iK v k : contour c = false -> valsmooth c Tk p iK v = Some k ->
  exists s e, valsmooth c Ts p iK v = Some s /\ valsmooth c Te p iK v = Some e /\ k = cadd s e.
Proof.
  intros C. unfold valsmooth. rewrite C. destruct (keldysh c).
  - destruct iK as [|[| |]|]; try discriminate; cbn [retarded keldysh_comp]; unfold plus; intros H.
    + destruct (SR c p v) as [s|]; [|discriminate]. destruct (Katanin_R c p v) as [e|]; [|discriminate]. injection H as <-. exists s, e. auto.
    + destruct (SK c p v) as [s|]; [|discriminate]. destruct (Katanin_K c p v) as [e|]; [|discriminate]. injection H as <-. exists s, e. auto.
  - cbn [matsubara]. unfold plus. intros H. destruct (SM c p v) as [s|]; [|discriminate]. destruct (Katanin_M c p v) as [e|]; [|discriminate]. injection H as <-. exists s, e. auto.
Qed.
Print Assumptions C58_extension.
(** temperature flow: the differentiated Keldysh self-energy taken from the fluctuation-dissipation relation *)
Theorem C58_sigma_K pr v L : flowing pr v L -> L <> 0 ->
  exists d, diff_Sigma_K_REG5 (pr L) v = Some d /\ derivative_at (fun y => Some (0, 2 * tanh (v / (2 * y)) * snd (sigma (pr y) 0 v))) L d.
Proof.
  intros F NL. unfold diff_Sigma_K_REG5, root_denominator. rewrite (Lp pr v L F). rewrite cquot_some by (apply root_nz; exact NL). cbn [obind]. eexists. split; [reflexivity|].
  apply D_total. destruct (fs pr v L F) as (_ & Di). pose proof (derivable_pt_lim_mult _ _ _ _ _ (dtanh_T v L NL) Di) as M.
  set (q := cosh (v / (2 * L)) * cosh (v / (2 * L))) in *. assert (Nq : q <> 0) by (pose proof (cosh_pos (v / (2 * L))); unfold q; apply Rmult_integral_contrapositive; split; lra).
  replace (L * cosh (v / (2 * L)) * (L * cosh (v / (2 * L)))) with (L * L * q) by (unfold q; ring).
  assert (Cq : cinv (rc (L * L * q)) = rc (/ (L * L * q))) by (unfold cinv, rc, norm; cbn; f_equal; field; split; assumption). rewrite Cq. cbv beta in M. split.
  - match goal with |- derivable_pt_lim _ _ ?l => replace l with 0 end; [exact (dconst 0 L)|]. cnorm. ring.
  - pose proof (dmulc _ _ _ 2 M) as M2. match goal with |- derivable_pt_lim _ _ ?l => match type of M2 with derivable_pt_lim _ _ ?l' => replace l with l' end end.
    + eapply dlim_ext; [|exact M2]. intros y. unfold mult_fct. cbn. ring.
    + cnorm. field. split; assumption.
Qed.
Print Assumptions C58_sigma_K.
Definition std (k : bool) (r : Z) : cfg := {| keldysh := k; contour := false; zero_t := false; phs := true; reg := r; equilibrium := true; fdt_katanin := false; mu := 0; bias := 0 |}.
(** a self-energy that grows with the flow parameter *)
Definition ramp (y : R) : propagator := {| Lambda := y; epsilon := 0; Gamma := 2; Temp := 1; sigma := fun k _ => rc (IZR (1 - k) * y); dsigma := fun k _ => rc (IZR (1 - k)); asymp := rc 0 |}.
Lemma ramp_flowing v L : flowing ramp v L.
Proof.
  split; [intros y; cbn; auto|]. intros k [-> | ->]; apply D_total; cbn.
  - apply (cder_ext (fun y => rc y)); [intros y; rewrite Rmult_1_l; reflexivity|apply cder_lin].
  - apply (cder_ext (fun y => rc 0)); [intros y; rewrite Rmult_0_l; reflexivity|apply cder_const].
Qed.
Example C58_hyp : flowing ramp 1 1 /\ with_asymp (std true 2) ramp 1 /\ fdr (Eff_fac (std true 2) 1 1) (dsigma (ramp 1) 0 1) (dsigma (ramp 1) 1 1) /\
  (exists g, valsmooth (std true 2) Tg (ramp 1) 0 1 = Some g) /\ (exists g, valsmooth (std true 4) Tg (ramp 1) 1 1 = Some g) /\ exists g, valsmooth (std false 3) Tg (ramp 1) 0 1 = Some g.
Proof.
  split; [apply ramp_flowing|]. split; [intros E; discriminate|]. split; [unfold fdr; cbn; unfold rc; f_equal; ring|].
  repeat split.
  - unfold valsmooth. cbn [keldysh contour std retarded]. unfold GR. cbn [reg std Z.eqb Pos.eqb]. unfold GR_REG2. rewrite cquot_some; [eexists; reflexivity|].
    intros E. apply (f_equal snd) in E. cbn in E. lra.
  - unfold valsmooth. cbn [keldysh contour std keldysh_comp]. unfold GK, GR. cbn [reg std Z.eqb Pos.eqb]. unfold GR_REG4. rewrite cquot_some; [eexists; reflexivity|].
    intros E. apply (f_equal snd) in E. cbn in E. lra.
  - unfold valsmooth. cbn [keldysh contour std matsubara]. unfold GM. cbn [reg std Z.eqb Pos.eqb]. unfold GM_REG3. rewrite cquot_some; [|apply rc_nz; cbn; lra]. cbn [obind Lambda ramp].
    assert (E : (rc (1 * 1) * cinv (rc (1 * 1 + 1 * 1)))%C = rc (1 / 2)) by (cnorm; f_equal; field). rewrite E. rewrite cquot_some; [|apply rc_nz; lra]. cbn [obind].
    rewrite cquot_some; [eexists; reflexivity|]. unfold G0M_inv, scaled. cbn [phs std keldysh zero_t negb andb Gamma ramp Temp sigma].
    unfold sign. destruct (Rlt_dec 0 1); [|lra]. destruct (Rlt_dec 1 0); [lra|]. pose proof PI_RGT_0. intros E'. apply (f_equal fst) in E'. unfold csub, cmul, cinv, rc, norm in E'. cbn in E'.
    replace (1 / 2 / (1 / 2 * (1 / 2) + 0 * 0)) with 2 in E' by field. change (IZR (1 - 0)) with 1 in E'. lra.
Qed.
(** refuted: interaction regulator with an asymptotic value that flows as well *)
Definition hartree (y : R) : propagator := {| Lambda := y; epsilon := 0; Gamma := 2; Temp := 1; sigma := fun k _ => rc (IZR (1 - k) * y); dsigma := fun k _ => rc (IZR (1 - k)); asymp := rc y |}.
Lemma derivative_unique f x d d' : derivative_at f x d -> derivative_at f x d' -> d = d'.
Proof.
  intros (g & e & He & G & A & B) (h & e' & He' & H & A' & B').
  assert (E : forall y, Rabs (y - x) < Rmin e e' -> h y = g y).
  { intros y Y. assert (Some (h y) = Some (g y)) by (rewrite <- G, <- H; [reflexivity| |]; (eapply Rlt_le_trans; [exact Y|]); [apply Rmin_r|apply Rmin_l]). congruence. }
  assert (P : 0 < Rmin e e') by (apply Rmin_pos; assumption). destruct d as [a b], d' as [a' b']. cbn [fst snd] in *. f_equal.
  - apply (uniqueness_limite (fun y => fst (g y)) x); [exact A|]. eapply dlim_local; [exact P| |exact A']. intros y Y. cbn. rewrite E by exact Y. reflexivity.
  - apply (uniqueness_limite (fun y => snd (g y)) x); [exact B|]. eapply dlim_local; [exact P| |exact B']. intros y Y. cbn. rewrite E by exact Y. reflexivity.
Qed.
Theorem C58_asymptotic_value_refuted : flowing hartree 0 (1 / 2) /\ exists d d', valsmooth (std true 4) Tk (hartree (1 / 2)) 0 0 = Some d /\
  derivative_at (fun y => valsmooth (std true 4) Tg (hartree y) 0 0) (1 / 2) d' /\ d <> d'.
Proof.
  split. { destruct (ramp_flowing 0 (1 / 2)) as (A & B). split; [intros y; cbn; auto|exact B]. }
  assert (N : (ci - rc (1 / 2))%C <> rc 0) by (intros E; apply (f_equal snd) in E; cbn in E; lra).
  assert (G0 : forall y, (G0R_inv (hartree y) 0 - asymp (hartree y) - rc (Lambda (hartree y)) * (sigma (hartree y) 0 0 - asymp (hartree y)))%C = (ci - rc y)%C).
  { intros y. unfold G0R_inv. cbn [hartree epsilon Gamma asymp Lambda sigma]. change (IZR (1 - 0)) with 1. cnorm. f_equal; field. }
  exists (-13 / 25, -16 / 25), (-16 / 25, -12 / 25). split; [|split].
  - unfold valsmooth. cbn [keldysh contour std retarded]. unfold plus, SR, Katanin_R, GR. cbn [reg std Z.eqb Pos.eqb]. unfold SR_REG4, GR_REG4. rewrite G0, !cquot_some by exact N. cbn [obind]. f_equal.
    unfold G0R_inv. cbn [hartree epsilon Gamma asymp Lambda sigma dsigma]. change (IZR (1 - 0)) with 1. cnorm. f_equal; field.
  - apply (D_ext (fun y => cquot (rc y) (ci - rc y)%C)). { intros y. unfold valsmooth. cbn [keldysh contour std retarded]. unfold GR. cbn [reg std Z.eqb Pos.eqb]. unfold GR_REG4. rewrite G0. reflexivity. }
    eapply D_eq; [apply D_quot; [apply cder_lin|apply cder_csub, cder_lin|exact N]|]. cnorm. f_equal; field.
  - intros E. injection E as E _. lra.
Qed.
Print Assumptions C58_asymptotic_value_refuted.
(** refuted: frequency regulator, frequencies that are tiny but not zero *)
Theorem C58_tiny_frequency_refuted pr v L g : flowing pr v L -> 0 < Rabs v < / 10 ^ 18 -> dsigma (pr L) 0 v = rc 0 -> Gamma (pr L) <> 0 ->
  valsmooth (std true 3) Tg (pr L) 0 v = Some g ->
  valsmooth (std true 3) Ts (pr L) 0 v = Some (rc 0) /\ exists d, derivative_at (fun y => valsmooth (std true 3) Tg (pr y) 0 v) L d /\ d <> rc 0.
Proof.
  intros F V Ds Ng H. unfold valsmooth in *. cbn [keldysh contour std retarded] in *. split.
  - unfold SR. cbn [reg std Z.eqb Pos.eqb]. unfold SR_REG3. destruct (Rlt_dec (Rabs v) (/ 10 ^ 18)); [reflexivity|lra].
  - unfold GR in *. cbn [reg std Z.eqb Pos.eqb] in *. assert (Nv : v <> 0) by (intros ->; rewrite Rabs_R0 in V; lra). pose proof (rc_nz v Nv) as Nc.
    pose proof (flow_R3 (std true 3) pr v L F g eq_refl Nv H) as D. rewrite Ds in D. eexists. split; [exact D|].
    assert (Nm : forall x y, x <> rc 0 -> y <> rc 0 -> (x * y)%C <> rc 0).
    { intros x y X Y E. apply Y. transitivity (cinv x * (x * y))%C; [field; exact X|]. rewrite E. ring. }
    assert (Ni : forall x, x <> rc 0 -> cinv x <> rc 0).
    { intros x X E. assert (O : (x * cinv x)%C = rc 1) by (field; exact X). rewrite E in O. apply (f_equal fst) in O. cbn in O. lra. }
    assert (N1 : (rc v + ci * rc L)%C <> rc 0) by (intros E; apply (f_equal fst) in E; cbn in E; lra).
    assert (Ngg : g <> rc 0).
    { unfold GR_REG3 in H. rewrite (Lp pr v L F), cquot_some in H by exact N1. cbn [obind] in H. apply cquot_inv in H. destruct H as (N2 & ->). apply Nm; [|apply Ni; exact N2]. apply Nm; [exact Nc|]. apply Ni; exact N1. }
    intros E. assert (E' : (- ci * cinv (rc v) * g * G0R_inv (pr L) v * g)%C = rc 0) by (rewrite <- E; ring). revert E'. repeat apply Nm; try exact Ngg.
    + intros X. apply (f_equal snd) in X. cbn in X. lra.
    + apply Ni; exact Nc.
    + intros X. apply (f_equal snd) in X. unfold G0R_inv in X. cbn in X. apply Ng. lra.
Qed.
Print Assumptions C58_tiny_frequency_refuted.
Definition flat (y : R) : propagator := {| Lambda := y; epsilon := 0; Gamma := 2; Temp := 1; sigma := fun _ _ => rc 0; dsigma := fun _ _ => rc 0; asymp := rc 0 |}.
Example C58_tiny_hyp : flowing flat (/ 10 ^ 19) 1 /\ 0 < Rabs (/ 10 ^ 19) < / 10 ^ 18 /\ constant_but_Lambda flat 1 /\ exists g, valsmooth (std true 3) Tg (flat 1) 0 (/ 10 ^ 19) = Some g.
Proof.
  assert (T : 0 < / 10 ^ 19) by (apply Rinv_0_lt_compat, pow_lt; lra).
  split; [split; [intros y; cbn; auto|intros k _; apply D_total; cbn; apply cder_const]|]. split; [|split; [intros y; cbn; auto 10|]].
  - rewrite Rabs_right by lra. split; [exact T|]. apply Rinv_lt_contravar; [apply Rmult_lt_0_compat; apply pow_lt; lra|]. apply Rlt_pow; [lra|lia].
  - set (v := / 10 ^ 19) in *. unfold valsmooth. cbn [keldysh contour std retarded]. unfold GR. cbn [reg std Z.eqb Pos.eqb]. unfold GR_REG3. rewrite cquot_some.
    + cbn [obind]. rewrite cquot_some; [eexists; reflexivity|]. intros E. apply (f_equal snd) in E. unfold G0R_inv in E. cbn in E. lra.
    + intros E. apply (f_equal fst) in E. cbn in E. lra.
Qed.
