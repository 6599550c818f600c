(** Symmetrisation over the frequency sectors reproduces a physical vertex (C120). *)
From Coq Require Import QArith Lqa.
From Verif Require Import Prelude Cplx Keld_Model Util_Model Util_Spec Util_Proofs Sym_Model Sym_Spec Tab_Model Tab_Spec
  Sym_Proofs Sym_Proofs2 Sym_Props Tab_Proofs Tab_Proofs2 Tab_Props Rd_Model Rd_Spec Rd_Proofs.
Open Scope Z_scope.

Lemma legs_change : forall m ch w v v' x x' l, legs_are m ch (w, v, v') l -> exists l', legs_are m ch (w, x, x') l'.
Proof.
  intros m ch w v v' x x' l H. destruct m; unfold legs_are in *.
  - destruct H as (lo & hi & H & _). exists (legs_split ch lo hi x x'), lo, hi. split; [exact H|repeat split; reflexivity].
  - exists (legs_of ch (w, x, x')). repeat split; reflexivity.
Qed.

Section Steps3.
Variables (c : cfg) (G : family).
Hypothesis P : physical c false G.
Hypothesis R : reversible c G.
Hypothesis CB : keldysh c = true -> contour c = false.

Lemma step_Tph : forall k x kl l, keldysh c = true -> phs c = true -> good c x kl l -> exists y, Tph c false x = Some y /\
  good c y kl (minus_f l) /\ (meaning G k x kl l == meaning G k y kl (minus_f l))%C /\
  spin y = spin x /\ channel_rvert y = channel_rvert x.
Proof.
  intros k x kl l K Ph (W & KL & EK & L & Sp).
  destruct (C18_Tph_reverses_frequencies c false K Ph x W) as (y & E & Ly & Sy & Cy & RR).
  destruct (RR kl (proj1 KL) EK) as (R1 & R2).
  assert (F : channel_rvert y = channel_rvert x /\ asymmetry_transform y = asymmetry_transform x).
  { unfold Tph in E. rewrite K, Ph in E. injection E as <-. split; reflexivity. }
  assert (F3 : mf c = false) by (unfold mf; rewrite K; reflexivity).
  destruct F as (F1 & F2). exists y. split; [exact E|]. split.
  { split; [|split; [exact KL|split; [exact (R1 K)|split; [apply Ly; exact L|rewrite Sy; exact Sp]]]].
    split; [intros _; rewrite (R1 K); apply kcode_range; exact (proj1 KL)|congruence]. }
  split; [|auto].
  unfold meaning. rewrite Cy, Sy, F1, F2, R2. unfold conj_sg. rewrite (CB K).
  rewrite <- cj_cj. transitivity (Cscale (conj_factor kl * prefactor x)
     (cj (conjugate x) (Cconj (G (asymmetry_transform x) (channel_rvert x) k (spin x) kl (minus_f l))))).
  2: { apply Cscale_m; [ring|reflexivity]. }
  rewrite <- cscale_scale, <- (cj_scale _ (conj_factor kl)). apply Cscale_m; [reflexivity|]. apply cj_m.
  apply (reversal_keldysh _ _ R K Ph); [exact (proj1 KL)|eapply legs_are_conserved; exact L|exact Sp].
Qed.
Lemma step_TR : forall k x kl l, keldysh c = false -> good c x kl l -> exists y, TR c false x = Some y /\
  good c y kl (minus_f l) /\ (meaning G k x kl l == meaning G k y kl (minus_f l))%C /\
  spin y = spin x /\ channel_rvert y = channel_rvert x.
Proof.
  intros k x kl l K (W & KL & EK & L & Sp).
  destruct (C18_TR_reverses_matsubara_frequencies c false K x W) as (y & E & Ly & Sy & Cy & RR).
  destruct (RR kl (proj1 KL) EK) as (R1 & R2).
  assert (F : channel_rvert y = channel_rvert x /\ asymmetry_transform y = asymmetry_transform x /\ iK y = iK x /\ (w y == - w x)%Q).
  { unfold TR in E. rewrite K in E. obi E. injection E as <-. cbn [w]. repeat split; try reflexivity. ring. }
  destruct F as (F1 & F2 & F3 & F4). exists y. split; [exact E|]. split.
  { split; [|split; [exact KL|split; [congruence|split; [apply Ly; exact L|rewrite Sy; exact Sp]]]].
    split; [rewrite K; discriminate|eapply bos_ext; [right; exact F4|exact (proj2 W)]]. }
  split; [|auto].
  unfold meaning. rewrite Cy, Sy, F1, F2, R2. rewrite <- cj_cj.
  transitivity (Cscale (1 * prefactor x) (cj (conjugate x) (G (asymmetry_transform x) (channel_rvert x) k (spin x) kl l))).
  { apply Cscale_m; [ring|reflexivity]. }
  apply Cscale_m; [reflexivity|]. apply cj_m.
  apply (reversal_matsubara _ _ R K). eapply legs_are_conserved; exact L.
Qed.

Ltac after x M Cy := match goal with H : channel_rvert x = _ |- _ => try rewrite H in M; rewrite H in Cy; cbn [mirror switch_channel] in M, Cy end;
  cbn [obind].
Ltac op1 := match goal with Gd : good _ ?x ?kl ?l, M0 : (meaning _ ?k ?x _ _ == _)%C |- context [T1 _ _ ?x] =>
  let y := fresh "y" in let E := fresh "E" in let Gy := fresh "Gy" in let M := fresh "M" in let Sy := fresh "Sy" in
  let Cy := fresh "Cy" in
  destruct (step_T1 c false G P k x kl l Gd) as (y & E & Gy & M & Sy & Cy & _); cbn [lambda_class] in E |- *; rewrite E;
  after x M Cy; rewrite M in M0; clear Gd M E end.
Ltac op2 := match goal with Gd : good _ ?x ?kl ?l, M0 : (meaning _ ?k ?x _ _ == _)%C |- context [T2 _ _ ?x] =>
  let y := fresh "y" in let E := fresh "E" in let Gy := fresh "Gy" in let M := fresh "M" in let Sy := fresh "Sy" in
  let Cy := fresh "Cy" in
  destruct (step_T2 c false G P k x kl l Gd) as (y & E & Gy & M & Sy & Cy & _); cbn [lambda_class] in E |- *; rewrite E;
  after x M Cy; rewrite M in M0; clear Gd M E end.
Ltac opc := match goal with Gd : good _ ?x ?kl ?l, M0 : (meaning _ ?k ?x _ _ == _)%C |- context [TC _ _ ?x] =>
  let y := fresh "y" in let E := fresh "E" in let Gy := fresh "Gy" in let M := fresh "M" in let Sy := fresh "Sy" in
  let Cy := fresh "Cy" in let kk := fresh "kk" in let ll := fresh "ll" in
  destruct (step_TC c false G P k x kl l CB Gd) as (y & kk & ll & E & Gy & M & Sy & Cy & _); cbn [lambda_class] in E |- *; rewrite E;
  after x M Cy; rewrite M in M0; clear Gd M E end.
Ltac opp K Ph := match goal with Gd : good _ ?x ?kl ?l, M0 : (meaning _ ?k ?x _ _ == _)%C |- context [Tph _ _ ?x] =>
  let y := fresh "y" in let E := fresh "E" in let Gy := fresh "Gy" in let M := fresh "M" in let Sy := fresh "Sy" in
  let Cy := fresh "Cy" in
  destruct (step_Tph k x kl l K Ph Gd) as (y & E & Gy & M & Sy & Cy); rewrite E;
  after x M Cy; rewrite M in M0; clear Gd M E end.
Ltac opr K := match goal with Gd : good _ ?x ?kl ?l, M0 : (meaning _ ?k ?x _ _ == _)%C |- context [TR _ _ ?x] =>
  let y := fresh "y" in let E := fresh "E" in let Gy := fresh "Gy" in let M := fresh "M" in let Sy := fresh "Sy" in
  let Cy := fresh "Cy" in
  destruct (step_TR k x kl l K Gd) as (y & E & Gy & M & Sy & Cy); rewrite E;
  after x M Cy; rewrite M in M0; clear Gd M E end.
Ltac done6 := match goal with Gd : good _ ?y ?kl ?l, M0 : (meaning _ _ ?y _ _ == _)%C |- _ =>
  exists y, kl, l; split; [reflexivity|split; [exact Gd|exact M0]] end.

Lemma code6 : forall x, keldysh c = true -> phs c = true ->
  Ti c false x 6 = Tph c false x /\ Ti c false x 36 = (y <- T3 c false x ;; Tph c false y) /\
  Ti c false x 46 = (y <- TC c false x ;; Tph c false y) /\
  Ti c false x 346 = (y <- Tph c false x ;; z <- TC c false y ;; T3 c false z).
Proof. intros x K Ph. unfold Ti. rewrite K, Ph. repeat split; reflexivity. Qed.
Lemma code7 : forall x, Ti c false x 7 = TR c false x /\ Ti c false x 37 = (y <- TR c false x ;; T3 c false y) /\
  Ti c false x 47 = (y <- TC c false x ;; TR c false y) /\
  Ti c false x 347 = (y <- TR c false x ;; z <- TC c false y ;; T3 c false z).
Proof. intros x. unfold Ti. repeat split; reflexivity. Qed.
Lemma T3_is : forall sb x, T3 c sb x = (y <- T1 c sb x ;; T2 c sb y).
Proof. reflexivity. Qed.

Lemma sector_physical : forall k ch i x kl l z, k <> k2b -> In i (freq_transformations c ch k) ->
  good c x kl l -> channel_rvert x = ch -> (meaning G k x kl l == z)%C ->
  exists y kl' l', Ti c false x i = Some y /\ good c y kl' l' /\ (meaning G k y kl' l' == z)%C.
Proof.
  intros k ch i x kl l z Hk Hi Gx Cx M0. unfold freq_transformations in Hi.
  assert (D : (keldysh c = true /\ phs c = true) \/ (keldysh c = true /\ phs c = false) \/ keldysh c = false)
    by (clear; destruct (keldysh c), (phs c); auto).
  destruct D as [(K & Ph)|[(K & Ph)|K]]; rewrite K in Hi; try rewrite Ph in Hi; destruct k, ch; try congruence; cbn [In] in Hi;
  repeat match goal with H : _ \/ _ |- _ => destruct H as [<-|H] end; try contradiction;
  match goal with |- context [Ti c ?sb x ?t] =>
    lazymatch t with
    | 0 => change (Ti c sb x t) with (Some x)
    | 3 => change (Ti c sb x t) with (y <- T1 c sb x ;; T2 c sb y); op1; op2
    | 4 => change (Ti c sb x t) with (TC c sb x); opc
    | 34 => change (Ti c sb x t) with (y <- TC c sb x ;; T3 c sb y); opc; rewrite T3_is; op1; op2
    | 6 => rewrite (proj1 (code6 x K Ph)); opp K Ph
    | 36 => rewrite (proj1 (proj2 (code6 x K Ph))), T3_is; op1; op2; opp K Ph
    | 46 => rewrite (proj1 (proj2 (proj2 (code6 x K Ph)))); opc; opp K Ph
    | 346 => rewrite (proj2 (proj2 (proj2 (code6 x K Ph)))); opp K Ph; opc; rewrite T3_is; op1; op2
    | 7 => rewrite (proj1 (code7 x)); opr K
    | 37 => rewrite (proj1 (proj2 (code7 x))); opr K; rewrite T3_is; op1; op2
    | 47 => rewrite (proj1 (proj2 (proj2 (code7 x)))); opc; opr K
    | 347 => rewrite (proj2 (proj2 (proj2 (code7 x)))); opr K; opc; rewrite T3_is; op1; op2
    end
  end; done6.
Qed.

Lemma computed_key : forall ch k p, k <> k2b -> computed c ch k (key_of k (start ch p)) = computed c ch k p.
Proof. intros ch [] p H; try congruence; reflexivity. Qed.
Lemma index_listed : forall ch k p i, trafo_index c ch k p = Some i -> In i (freq_transformations c ch k).
Proof.
  intros ch k p i H. unfold trafo_index in H. destruct k; try discriminate; try (eapply nth_error_In; exact H).
  destruct (corr c (kw p)); cbn [obind] in H; [|discriminate]. eapply nth_error_In; exact H.
Qed.
Lemma key_legs : forall k y h kl l, k <> k2b -> klegs_ok kl -> spin y = 0 \/ spin y = 1 -> legs_are (mf c) (channel_rvert y) (freqs y) l ->
  exists l', legs_are (mf c) (channel_rvert y) (kw (key_of k y), kv1 (key_of k y), kv2 (key_of k y)) l' /\
    (G h (channel_rvert y) k (spin y) kl l' == G h (channel_rvert y) k (spin y) kl l)%C.
Proof.
  intros k y h kl l Hk Hkl Sp L. destruct (legs_change _ _ _ _ _ (kv1 (key_of k y)) (kv2 (key_of k y)) _ L) as (l' & L').
  exists l'. split; [exact L'|]. eapply (of_class_freqs _ _ _ P); [exact Hkl|exact Sp|exact L'|exact L|].
  destruct k; try congruence; unfold freqs, key_of; cbn [kw kv1 kv2 same_class_freqs]; repeat split; reflexivity.
Qed.

Lemma entry_physical : forall k ch wl rel d p e kl l, k <> k2b -> causal c G -> proper d -> valid_key c p ->
  holds_sector c G false ch k d ->
  match rel with Some r => holds_sector c G true ch k r | None => holds_sector c G true ch k d end ->
  enforce_step c k ch wl rel d p = Some e -> klegs_for c kl -> kK p = kcode kl ->
  legs_are (mf c) ch (kw p, kv1 p, kv2 p) l ->
  (edge c k wl p = Some false -> (e p == G false ch k (ks p) kl l)%C) /\ (edge c k wl p = Some true -> e p = C0).
Proof.
  intros k ch wl rel d p e kl l Hk Ca Pd Vp Hd Hr He KL EK L.
  destruct (reduces c ch k p Vp Hk) as (i & y & Red).
  destruct (step_spec c k ch wl rel p i y Red Vp) as (zz & (z & eg & Z & Eg & Ez) & S).
  destruct (S d Pd) as (e' & E & _ & V'). rewrite He in E. injection E as <-. clear S.
  specialize (V' p). replace (key_eqb p p) with true in V' by (symmetry; apply keq_refl). unfold V in V'.
  rewrite Eg. destruct eg; [split; [discriminate|intros _; rewrite orb_true_r in Ez; subst zz; exact V']|].
  split; [intros _|discriminate]. rewrite orb_false_r in Ez.
  destruct Vp as (Vk & Vs & Vw). assert (Sp : ks p = 0 \/ ks p = 1) by lia.
  assert (G0 : good c (start ch p) kl l).
  { split; [|split; [exact KL|split; [exact EK|split; [exact L|exact Sp]]]].
    split; [intros K; cbn [start iK]; rewrite K in Vk; exact Vk|exact Vw]. }
  assert (M0 : (meaning G k (start ch p) kl l == G false ch k (ks p) kl l)%C).
  { unfold meaning, start, cj. cbn [prefactor conjugate asymmetry_transform channel_rvert spin].
    split; unfold Cscale; cbn [re im]; ring. }
  destruct Red as (T & TI & Cy & Sy & Ky & I0 & _ & Co & _).
  destruct (sector_physical k ch i (start ch p) kl l _ Hk (index_listed _ _ _ _ T) G0 eq_refl M0) as (y' & kl' & l' & Ty & Gy & My).
  rewrite TI in Ty. injection Ty as <-. destruct Gy as (Wy & KLy & EKy & Ly & Spy).
  destruct zz.
  - rewrite V', <- My. symmetry in Ez. apply Z.ltb_lt in Ez. unfold meaning.
    assert (X : (G (asymmetry_transform y) (channel_rvert y) k (spin y) kl' l' == C0)%C).
    { destruct (keldysh c) eqn:K.
      - apply (Ca K); [exact (proj1 KLy)|exact Spy|]. rewrite Cy.
        destruct (C19_vanishing_components false ch k (spin y) kl' (proj1 KLy) Spy) as (z' & Z' & Hz).
        rewrite EKy, Z' in Z. injection Z as <-. apply Hz. exact Ez.
      - exfalso. assert (z = 0); [|lia]. unfold components in Z. rewrite Ky in Z.
        destruct Spy as [Spy|Spy]; rewrite Spy in Z; destruct k, ch; try congruence; vm_compute in Z; congruence. }
    symmetry. transitivity (Cscale (prefactor y) (cj (conjugate y) C0)); [apply Cscale_m; [reflexivity|apply cj_m; exact X]|].
    destruct (conjugate y); split; unfold cj, Cscale, Cconj, C0; cbn [re im]; ring.
  - destruct (Z.eqb_spec i 0) as [->|Hi].
    + rewrite V'. apply Hd; [|lia|exact KL|exact EK|exact L]. rewrite <- computed_key by exact Hk. rewrite <- (I0 eq_refl). exact Co.
    + rewrite V', <- My. unfold rd, meaning. apply Cscale_m; [reflexivity|].
      destruct (key_legs k y (asymmetry_transform y) kl' l' Hk (proj1 KLy) Spy Ly) as (l'' & L'' & GG).
      match goal with |- context [Cconj ?v] => assert (X : (v == G (asymmetry_transform y) (channel_rvert y) k (spin y) kl' l')%C) end.
      { rewrite <- GG, Cy. rewrite Cy in L''. change (spin y) with (ks (key_of k y)).
        assert (Q : 0 <= ks (key_of k y) < 2) by (cbn [key_of ks]; lia).
        destruct (asymmetry_transform y); [destruct rel|]; [apply Hr|apply Hr|apply Hd]; assumption. }
      unfold cj. destruct (conjugate y); rewrite ?andb_false_r, ?andb_true_r; [|exact X].
      destruct (keldysh c) eqn:K; cbn [orb]; [apply Cconj_m; exact X|].
      destruct (phs c) eqn:Ph; cbn [negb]; [|apply Cconj_m; exact X].
      pose proof (real_matsubara _ _ _ P K Ph (asymmetry_transform y) (channel_rvert y) k (spin y) kl' l') as I.
      destruct X as (X1 & X2). split; unfold Cconj; cbn [re im]; [exact X1|]. rewrite X2, I. reflexivity.
Qed.
End Steps3.
