(** C122: multiloop flow and parquet iteration keep the symmetries of the vertex, Matsubara formalism at finite temperature. *)
From Coq Require Import QArith Lqa.
From Verif Require Import Prelude Cplx Keld_Model Keld_Spec Keld_Proofs Keld_Proofs2 Util_Spec Sym_Model Sym_Spec Sym_Proofs Sym_Proofs2 Tab_Model Tab_Spec
  Rd_Model Rd_Spec Rd_Props Rd_Props2 Dec_Model Bub_Model Bub_Spec Bub_Proofs Bub_Proofs2 Bub_Proofs3 Bub_Props Mbu_Spec Mbu_Proofs Mbu_Props
  Mbt_Model Mbt_Spec Mbt_Proofs Mbt_Proofs2 Mbt_Proofs3 Mbt_Props Sf_Model Sf_Spec Sf_Proofs Sf_Proofs2 Msf_Model Mtf_Model Mtf_Spec Mtf_Proofs Mtf_Proofs2.
From Verif Require Mlp_Model Bse_Model.
Open Scope Z_scope.
Import Mlp_Model (Full, Irreducible, DiffLeft, DiffRight).

Section Flow.
  Variables (c : cfg) (pos : Z) (tails : Q -> (Q -> cplx) -> cplx) (pi T : Q).
  Hypothesis Ht : sum_T tails.
  Notation ph := (phs c).

  Lemma tzero_bare v w : tobeys ph 0 v w -> forall s f, spin01 s -> (irr v s 0 f == C0)%C.
  Proof. intros O s f Sp. pose proof (tobeys_bare _ _ _ _ O false s f Sp) as E. cbn match in E. rewrite E. destruct (s =? 0); reflexivity. Qed.
  Lemma tvzero_bare s f : spin01 s -> (irr vzero s 0 f == C0)%C. Proof. intros. reflexivity. Qed.
  Lemma tzero_obeys : tsymmetric ph 0 vzero.
  Proof.
    assert (Z : forall h ch k s l, on_tlegs vzero vzero h ch k s l = C0).
    { intros h ch k s l. unfold on_tlegs. destruct h, ch, k; reflexivity. }
    split.
    - intros h ch k s w v v' w' y y' _ _ _ _ _ _ _. destruct h, ch, k; reflexivity.
    - split; intros; rewrite !Z; try reflexivity; split; unfold Cneg, Cconj, C0; cbn [re im]; ring.
    - intros h ch k s l _ _. rewrite !Z. split; unfold Cconj, C0; cbn [re im]; ring.
    - intros h s f Sp. destruct h, (s =? 0); reflexivity.
  Qed.
  Lemma tsums_obey v1 v2 w1 w2 : tobeys ph 0 v1 v2 -> tobeys ph 0 w1 w2 -> tobeys ph 0 (vadd v1 w1) (vadd v2 w2).
  Proof. intros A B. apply (tobeys_bare_m ph (0 + 0)%Q 0 _ _); [reflexivity|]. apply tobeys_add; assumption. Qed.
  Lemma tsame_refl v : tsame_vert v v. Proof. split; intros; reflexivity. Qed.
  (** L + C + R is its own mirror image *)
  Lemma tsandwich L C R : tobeys ph 0 L R -> tsymmetric ph 0 C -> tsymmetric ph 0 (vadd (vadd L C) R).
  Proof.
    intros O S. apply (tobeys_ext ph 0 (vadd (vadd L C) R) (vadd (vadd R C) L)); [apply tsame_refl| |].
    - split; intros.
      + rewrite !class_vadd. ring.
      + unfold Mlp_Model.vadd; cbn [Mlp_Model.irr]; unfold dadd. ring.
    - apply tsums_obey; [|apply tobeys_swap; assumption]. apply tsums_obey; assumption.
  Qed.
  Lemma tsum_LR L R : tobeys ph 0 L R -> tsymmetric ph 0 (vadd L R).
  Proof.
    intros O. apply (tobeys_ext ph 0 (vadd L R) (vadd R L)); [apply tsame_refl| |].
    - split; intros.
      + rewrite !class_vadd. ring.
      + unfold Mlp_Model.vadd; cbn [Mlp_Model.irr]; unfold dadd. ring.
    - apply tsums_obey; [|apply tobeys_swap]; assumption.
  Qed.

  Section Multiloop.
    Variables (B : Type) (badd bsub : B -> B -> B) (u : Q) (Psi : vert) (P0 : mpair) (dpi : B -> mpair) (se1 : B).
    Variables (corr : Mlp_Model.operand data -> B) (mix : list ((vert * B) * (vert * B)) -> B) (vnorm : vert -> Mlp_Model.fl)
      (bnorm : B -> Mlp_Model.fl) (brel : B -> B -> Mlp_Model.fl) (reorder : vert -> vert -> vert * vert)
      (tol_abs tol_rel se_abs se_rel : Q) (nmax nloops : Z).
    Hypothesis HPsi : tsymmetric ph u Psi.
    Hypothesis HP0 : tpair_ok ph P0.
    Variable good : B -> Prop.
    Hypothesis Hdpi : forall b, good b -> tpair_ok ph (dpi b).
    Notation dL := (Mlp_Model.dGammaL data dzero mpair (tbubble_of c pos tails pi T) 3 true Psi P0).
    Notation dR := (Mlp_Model.dGammaR data dzero mpair (tbubble_of c pos tails pi T) 3 true Psi P0).
    Lemma tleft_right X : tsymmetric ph 0 X -> tobeys ph 0 (dL (Irreducible _ X Psi)) (dR (Irreducible _ X Psi)).
    Proof.
      intros ST. apply (tbubbles_obey c pos tails pi T Ht vzero vzero 0 u (Irreducible _ X Psi) (Full _ Psi) P0); auto using tvzero_bare.
    Qed.
    Lemma tcentral L R : tobeys ph 0 L R ->
      tsymmetric ph 0 (Mlp_Model.symmetrise data dadd dhalf true
        (Mlp_Model.dGammaC_right data dzero mpair (tbubble_of c pos tails pi T) 3 true Psi P0 (DiffLeft _ L R Psi))
        (Mlp_Model.dGammaC_left data dzero mpair (tbubble_of c pos tails pi T) 3 true Psi P0 (DiffRight _ R L Psi))).
    Proof.
      intros O. apply (tobeys_symmetrise ph).
      apply (tbubbles_obey c pos tails pi T Ht vzero vzero u 0 (Full _ Psi) (DiffLeft _ L R Psi) P0); auto using tvzero_bare.
    Qed.
    Lemma torders_symmetric n : forall i L R X cen tot v z m, tobeys ph 0 L R -> tsymmetric ph 0 X -> tsymmetric ph 0 cen -> tsymmetric ph 0 tot ->
      Mlp_Model.orders data dzero dadd dhalf mpair (tbubble_of c pos tails pi T) 3 true Psi P0 vnorm reorder tol_abs tol_rel n i L R X cen tot = (v, z, m) ->
      tsymmetric ph 0 v /\ tsymmetric ph 0 z.
    Proof.
      induction n as [|n IH]; intros i L R X cen tot v z m O HX Hc Hto E; cbn [Mlp_Model.orders] in E.
      - injection E as <- <- <-. auto.
      - unfold Mlp_Model.reordered in E.
        pose proof (tcentral L R O) as HC. pose proof (tleft_right X HX) as HLR.
        set (C := Mlp_Model.symmetrise _ _ _ _ _ _) in *. set (L' := dL _) in *. set (R' := dR _) in *.
        pose proof (tsandwich L' C R' HLR HC) as HT'. pose proof (tsums_obey _ _ _ _ Hto HT') as Ht'. pose proof (tsums_obey _ _ _ _ Hc HC) as Hc'.
        destruct (Mlp_Model.small _ _ _ _ _ _).
        + injection E as <- <- <-. auto.
        + exact (IH _ _ _ _ _ _ _ _ _ HLR HT' Hc' Ht' E).
    Qed.
    Lemma tvertex_flow_symmetric t dS v z m : tsymmetric ph 0 t -> good dS ->
      Mlp_Model.vertex_flow data dzero dadd dhalf mpair (tbubble_of c pos tails pi T) 3 true B Psi P0 dpi vnorm reorder tol_abs tol_rel nloops t dS = (v, z, m) ->
      tsymmetric ph 0 v /\ tsymmetric ph 0 z.
    Proof.
      intros Htt Hd E. unfold Mlp_Model.vertex_flow in E.
      assert (H1 : tsymmetric ph 0 (Mlp_Model.vertexOneLoopFlow data mpair (tbubble_of c pos tails pi T) 3 true Psi t (dpi dS))).
      { apply (tbubbles_obey c pos tails pi T Ht t t u u (Full _ Psi) (Full _ Psi) (dpi dS)); auto; exact (tzero_bare _ _ Htt). }
      set (tot := Mlp_Model.vertexOneLoopFlow _ _ _ _ _ _ _ _) in *.
      destruct (nloops <? 2).
      - injection E as <- <- <-. split; [exact H1|exact tzero_obeys].
      - unfold Mlp_Model.reordered in E. pose proof (tleft_right tot H1) as HLR. pose proof (tsum_LR _ _ HLR) as HT.
        pose proof (tsums_obey _ _ _ _ H1 HT) as Ht'. exact (torders_symmetric _ _ _ _ _ _ _ _ _ _ HLR HT tzero_obeys Ht' E).
    Qed.
    Hypothesis Hcorr : forall v, tsymmetric ph 0 v -> good (badd se1 (corr (Irreducible _ v Psi))).
    Hypothesis Hmix : forall l, Forall (fun p => good (snd (fst p)) /\ good (snd (snd p))) l -> good (mix l).
    Lemma titerate_symmetric fuel : forall n t dS hist a, tsymmetric ph 0 t -> good dS ->
      Forall (fun p => good (snd (fst p)) /\ good (snd (snd p))) hist ->
      Mlp_Model.iterate data dzero dadd dhalf mpair (tbubble_of c pos tails pi T) 3 true B badd bsub Psi P0 dpi se1 corr mix vnorm bnorm brel reorder
        tol_abs tol_rel se_abs se_rel nmax nloops fuel n t dS hist = Some a ->
      tsymmetric ph 0 (Mlp_Model.a_vertex _ _ a) /\ good (Mlp_Model.a_se _ _ a).
    Proof.
      induction fuel as [|fuel IH]; intros n t dS hist a Htt Hd Hh E; cbn [Mlp_Model.iterate] in E; [discriminate E|].
      destruct (Mlp_Model.vertex_flow _ _ _ _ _ _ _ _ _ _ _ _ _ _ _ _ _ t dS) as ((v, z), m) eqn:F.
      destruct (tvertex_flow_symmetric t dS v z m Htt Hd F) as (Hv & Hz).
      destruct (nloops <? 3).
      - injection E as <-. cbn [Mlp_Model.a_vertex Mlp_Model.a_se]. auto.
      - assert (Hh' : Forall (fun p => good (snd (fst p)) /\ good (snd (snd p))) (hist ++ [((v, badd se1 (corr (Irreducible _ z Psi))), (v, dS))])).
        { apply Forall_app. split; [exact Hh|]. constructor; [|constructor]. cbn [fst snd]. auto. }
        pose proof (Hmix _ Hh') as Hm.
        destruct ((n + 1 <? nmax) && _ && _).
        + exact (IH _ _ _ _ _ Hv Hm Hh' E).
        + injection E as <-. cbn [Mlp_Model.a_vertex Mlp_Model.a_se]. auto.
    Qed.
  End Multiloop.
End Flow.

(** For a symmetric vertex the multiloop right-hand side is a symmetric vertex, at every loop order and after any number of self-energy
    iterations, whatever the norms, tolerances and the mixing are. [good]: what is assumed of derivatives of the self-energy so that the
    differentiated propagators are conjugated when the frequency is reversed (real and odd with particle-hole symmetry). *)
Theorem C122_finite_temperature_multiloop_symmetric : forall c pos tails pi T B badd bsub u Psi P0 dpi se1 corr mix vnorm bnorm brel reorder
    tol_abs tol_rel se_abs se_rel nmax nloops (good : B -> Prop) a,
  sum_T tails -> tsymmetric (phs c) u Psi -> tpair_ok (phs c) P0 ->
  (forall b, good b -> tpair_ok (phs c) (dpi b)) -> good se1 ->
  (forall v, tsymmetric (phs c) 0 v -> good (badd se1 (corr (Irreducible _ v Psi)))) ->
  (forall l, Forall (fun p => good (snd (fst p)) /\ good (snd (snd p))) l -> good (mix l)) ->
  finite_T_rhs c pos tails pi T B badd bsub Psi P0 dpi se1 corr mix vnorm bnorm brel reorder tol_abs tol_rel se_abs se_rel nmax nloops = Some a ->
  tsymmetric (phs c) 0 (Mlp_Model.a_vertex _ _ a) /\ good (Mlp_Model.a_se _ _ a).
Proof.
  intros c pos tails pi T B badd bsub u Psi P0 dpi se1 corr mix vnorm bnorm brel reorder tol_abs tol_rel se_abs se_rel nmax nloops good a
    Ht HPsi HP0 Hd H1 Hc Hm E.
  unfold finite_T_rhs, Mlp_Model.rhs_n_loop_flow in E. destruct (nloops <? 1); [discriminate E|].
  exact (titerate_symmetric c pos tails pi T Ht B badd bsub u Psi P0 dpi se1 corr mix vnorm bnorm brel reorder tol_abs tol_rel se_abs se_rel nmax nloops
    HPsi HP0 good Hd Hc Hm _ _ _ _ _ _ (tzero_obeys c) H1 (Forall_nil _) E).
Qed.
Print Assumptions C122_finite_temperature_multiloop_symmetric.

(** the parquet iteration maps symmetric vertices to symmetric vertices with the bare vertex -U *)
Theorem C122_finite_temperature_parquet_symmetric : forall c pos tails pi T U u v P,
  keldysh c = false -> sum_T tails -> tsymmetric (phs c) u v -> tpair_ok (phs c) P ->
  tsymmetric (phs c) (- U) (finite_T_parquet c pos tails pi T U v P).
Proof.
  intros c pos tails pi T U u v P Kc Ht Hv HP. unfold finite_T_parquet, Bse_Model.parquet_iteration_vertex. rewrite Kc. cbn [andb].
  assert (O : tobeys (phs c) 0 (Bse_Model.bse_left data mpair dzero dadd (tproduct c pos tails pi T) tcross no_mirror true v P)
                         (Bse_Model.bse_right data mpair dzero dadd (tproduct c pos tails pi T) tcross no_mirror true v P)).
  { apply (tbubbles_obey c pos tails pi T Ht vzero vzero u u (Irreducible _ v v) (Full _ v) P); auto using tvzero_bare. }
  pose proof (tobeys_half _ _ _ _ (tsum_LR c _ _ O)) as H.
  fold (Bse_Model.compute_BSE data mpair dzero dadd dhalf (tproduct c pos tails pi T) tcross no_mirror true v P) in H.
  destruct H as [H1 H2 H3 H4]. set (x := Bse_Model.compute_BSE _ _ _ _ _ _ _ _ _ _ _) in *.
  assert (S : tsame (on_tlegs x x) (on_tlegs (Bse_Model.initialize data (lift c) x (- U)) (Bse_Model.initialize data (lift c) x (- U)))).
  { intros h ch k s l _ _. unfold on_tlegs. destruct h, ch; reflexivity. }
  split; [|exact (tsymmetric_ext _ _ _ S H2)|exact (treversible_ext _ _ S H3)|].
  - intros h ch k s w y y' w' z z' Sp A A' A'' X X' X''. specialize (H1 h ch k s w y y' w' z z' Sp A A' A'' X X' X''). destruct h, ch; exact H1.
  - intros h s f Sp. assert (E : (lift c (- U) s 0 f == Cofq (if s =? 0 then - U else - - U))%C).
    { unfold lift, irred_expanded, irred_initialize. rewrite Kc. destruct Sp as [-> | ->]; cbn [Z.eqb Pos.eqb];
      split; unfold Cmul, Cofq; cbn [re im]; ring. }
    destruct h; exact E.
Qed.
Print Assumptions C122_finite_temperature_parquet_symmetric.

(** an example: the vertex with values of a symmetric family, and simple propagators *)
Definition tvert (u : Q) (G : vertex_T) : vert :=
  let x ch := let d k : data := fun s _ f => G false ch k s (legs_T ch f) in Mlp_Model.Build_rvert data (d k1) (d k2) (d k2b) (d k3) in
  Mlp_Model.Build_vertex data (fun s _ _ => Cofq (if s =? 0 then u else - u)) (x Ca) (x Cp) (x Ct).
Lemma tvert_symmetric ph u G : symmetric_T ph G -> reversible_T G -> self_mirror_T G -> tsymmetric ph u (tvert u G).
Proof.
  intros P R M. set (x := tvert u G).
  assert (C : forall (h : bool) ch k s f, class_of (channel_of (if h then x else x) ch) k s 0 f = G false ch k s (legs_T ch f)).
  { intros h ch k s f. destruct h, ch, k; reflexivity. }
  assert (F : tsame G (on_tlegs x x)).
  { intros h ch k s l Sp Ml. unfold on_tlegs. rewrite C.
    transitivity (G false ch k s l); [destruct h; [apply M; assumption|reflexivity]|].
    apply (familyT_m ph G P); auto using natural_legs_T. }
  split.
  - intros h ch k s w v v' w' y y' Sp A A' A'' X X' X''. rewrite !C. apply (familyT_m ph G P); auto.
    + apply legs_T_mats. split; [exact A|split; assumption].
    + apply legs_T_m. repeat (apply Logic.conj); assumption.
  - exact (tsymmetric_ext _ _ _ F P).
  - exact (treversible_ext _ _ F R).
  - intros h s f Sp. destruct h; reflexivity.
Qed.
Definition tdemoS : vertex_T := at_T (both_halves (demo0 matsubara_c)).
Definition tPsi0 : vert := tvert (-1 # 2) tdemoS.
(** derivatives of the self-energy are represented by the single-scale propagator they lead to; POSINTRANGE 1, no tails *)
Definition tflow0 (nloops : Z) : option (Mlp_Model.answer data (Q -> cplx)) :=
  finite_T_rhs finite_c 1 (fun _ _ => C0) (22 # 7) (1 # 2) (Q -> cplx) (fun x _ => x) (fun x _ => x) tPsi0 (mkM false gm gm) (fun s => mkM true gm s) gm (fun _ => gm)
    (fun l => match l with p :: _ => snd (snd p) | [] => gm end) (fun _ => Mlp_Model.Fin 1) (fun _ => Mlp_Model.Fin 0) (fun _ _ => Mlp_Model.Fin 0)
    (fun x y => (x, y)) 0 0 (1 # 2) (1 # 2) 1 nloops.
Example C122_finite_temperature_hyp : tsymmetric false (-1 # 2) tPsi0 /\ sum_T (fun _ _ => C0) /\ tpair_ok false (mkM false gm gm) /\
  (let good s := line_T false s in
   good gm /\ (forall s, good s -> tpair_ok false (mkM true gm s)) /\
   forall l : list ((vert * (Q -> cplx)) * (vert * (Q -> cplx))), Forall (fun p => good (snd (fst p)) /\ good (snd (snd p))) l ->
     good (match l with p :: _ => snd (snd p) | [] => gm end)) /\
  (* four loops: an answer is returned; one loop: class K1 in the channel a; parquet iteration: class K2 in the channel p *)
  (if tflow0 4 then true else false) = true /\
  option_map (fun a => show (class_of (channel_of (Mlp_Model.a_vertex _ _ a) Ca) k1 0 0 (4, 1, 3)%Q)) (tflow0 1) = Some (27076 # 65, 0)%Q /\
  show (class_of (channel_of (finite_T_parquet finite_c 1 (fun _ _ => C0) (22 # 7) (1 # 2) 1 tPsi0 (mkM false gm gm)) Cp) k2 0 0 (2, 1, 3)%Q) = (16507 # 10, 54649 # 40)%Q.
Proof.
  destruct (demo0_physical matsubara_c eq_refl) as (P & R & _). destruct (mboth_physical matsubara_c _ eq_refl P) as (P' & M).
  assert (R' : reversible_T tdemoS).
  { intros h ch k s l _ (Co & _). unfold tdemoS, at_T, both_halves.
    rewrite (reversal_matsubara _ _ R eq_refl false ch k s k1111 l Co) at 1. rewrite (reversal_matsubara _ _ R eq_refl true ch k s k1111 l Co) at 1.
    rewrite conj_add. reflexivity. }
  split; [apply tvert_symmetric; [exact (at_T_symmetric matsubara_c _ eq_refl eq_refl P')|exact R'|intros ch k s l _ _; apply M]|].
  split; [exact no_tails|]. pose proof (line_T_of _ _ gm_ok) as Lg. change (phs matsubara_c) with false in Lg.
  split; [split; exact Lg|].
  split. { cbv zeta. split; [exact Lg|]. split.
    - intros s A. split; [exact Lg|exact A].
    - intros [|p l] H; [exact Lg|]. inversion H as [|? ? Hp _]. apply Hp. }
  split; [vm_compute; reflexivity|]. split; vm_compute; reflexivity.
Qed.
