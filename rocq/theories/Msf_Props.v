(** C122: multiloop flow and parquet iteration keep the symmetries of the vertex, Matsubara formalism at zero temperature. *)
From Coq Require Import QArith Lqa.
From Verif Require Import Prelude Cplx Keld_Model Keld_Spec Keld_Proofs Keld_Proofs2 Util_Spec Sym_Model Sym_Spec Sym_Proofs2 Tab_Model Tab_Spec
  Rd_Model Rd_Spec Rd_Props Rd_Props2 Dec_Model Bub_Model Bub_Spec Bub_Proofs Bub_Proofs2 Bub_Proofs3 Bub_Props Mbu_Model Mbu_Spec Mbu_Proofs Mbu_Proofs2 Mbu_Props
  Sf_Model Sf_Spec Sf_Proofs Sf_Proofs2 Msf_Model Msf_Spec Msf_Proofs Msf_Proofs2.
From Verif Require Mlp_Model Bse_Model.
Open Scope Z_scope.
Import Mlp_Model (Full, Irreducible, DiffLeft, DiffRight).

Section Flow.
  Variables (c : cfg) (J : (Q -> cplx) -> cplx) (pi : Q).
  Hypothesis Kc : keldysh c = false.
  Hypothesis Zc : zero_t c = true.
  Hypothesis HJ : integral J.

  Lemma mzero_bare v w : mobeys c 0 v w -> forall s f, spin01 s -> (irr v s 0 f == C0)%C.
  Proof. intros O s f Sp. pose proof (mobeys_bare _ _ _ _ O false s f Sp) as E. cbn match in E. rewrite E. destruct (s =? 0); reflexivity. Qed.
  Lemma mvzero_bare s f : spin01 s -> (irr vzero s 0 f == C0)%C. Proof. intros. reflexivity. Qed.
  Lemma mzero_obeys : msymmetric c 0 vzero.
  Proof.
    assert (Z : forall h ch k s kl l, on_mlegs vzero vzero h ch k s kl l = C0).
    { intros h ch k s kl l. unfold on_mlegs. destruct ((s =? 0) || (s =? 1)), h, ch, k; reflexivity. }
    split.
    - intros h ch k s f f' _ _. destruct h, ch, k; reflexivity.
    - split; try congruence; intros; rewrite !Z; try (split; unfold Cscale, Cconj, C0; cbn [re im]; ring).
    - split; try congruence; intros; rewrite !Z; split; unfold Cconj, C0; cbn [re im]; ring.
    - intros h s f Sp. destruct h, (s =? 0); reflexivity.
  Qed.
  Lemma msums_obey v1 v2 w1 w2 : mobeys c 0 v1 v2 -> mobeys c 0 w1 w2 -> mobeys c 0 (vadd v1 w1) (vadd v2 w2).
  Proof. intros A B. apply (mobeys_bare_m c (0 + 0)%Q 0 _ _); [reflexivity|]. apply mobeys_add; assumption. Qed.
  Lemma msame_refl v : msame_vert v v. Proof. split; intros; reflexivity. Qed.
  (** L + C + R is its own mirror image *)
  Lemma msandwich L C R : mobeys c 0 L R -> msymmetric c 0 C -> msymmetric c 0 (vadd (vadd L C) R).
  Proof.
    intros O S. apply (mobeys_ext c Kc 0 (vadd (vadd L C) R) (vadd (vadd R C) L)); [apply msame_refl| |].
    - split; intros.
      + rewrite !class_vadd. ring.
      + unfold Mlp_Model.vadd; cbn [Mlp_Model.irr]; unfold dadd. ring.
    - apply msums_obey; [|apply mobeys_swap; assumption]. apply msums_obey; assumption.
  Qed.
  Lemma msum_LR L R : mobeys c 0 L R -> msymmetric c 0 (vadd L R).
  Proof.
    intros O. apply (mobeys_ext c Kc 0 (vadd L R) (vadd R L)); [apply msame_refl| |].
    - split; intros.
      + rewrite !class_vadd. ring.
      + unfold Mlp_Model.vadd; cbn [Mlp_Model.irr]; unfold dadd. ring.
    - apply msums_obey; [|apply mobeys_swap]; assumption.
  Qed.

  Section Multiloop.
    Variables (B : Type) (badd bsub : B -> B -> B) (u : Q) (Psi : vert) (P0 : mpair) (dpi : B -> mpair) (se1 : B).
    Variables (corr : Mlp_Model.operand data -> B) (mix : list ((vert * B) * (vert * B)) -> B) (vnorm : vert -> Mlp_Model.fl)
      (bnorm : B -> Mlp_Model.fl) (brel : B -> B -> Mlp_Model.fl) (reorder : vert -> vert -> vert * vert)
      (tol_abs tol_rel se_abs se_rel : Q) (nmax nloops : Z).
    Hypothesis HPsi : msymmetric c u Psi.
    Hypothesis HP0 : mpair_ok c P0.
    Variable good : B -> Prop.
    Hypothesis Hdpi : forall b, good b -> mpair_ok c (dpi b).
    Notation dL := (Mlp_Model.dGammaL data dzero mpair (mbubble_of c J pi) 3 true Psi P0).
    Notation dR := (Mlp_Model.dGammaR data dzero mpair (mbubble_of c J pi) 3 true Psi P0).
    Lemma mleft_right T : msymmetric c 0 T -> mobeys c 0 (dL (Irreducible _ T Psi)) (dR (Irreducible _ T Psi)).
    Proof.
      intros ST. apply (mbubbles_obey c J pi Kc Zc HJ vzero vzero 0 u (Irreducible _ T Psi) (Full _ Psi) P0); auto using mvzero_bare.
    Qed.
    Lemma mcentral L R : mobeys c 0 L R ->
      msymmetric c 0 (Mlp_Model.symmetrise data dadd dhalf true
        (Mlp_Model.dGammaC_right data dzero mpair (mbubble_of c J pi) 3 true Psi P0 (DiffLeft _ L R Psi))
        (Mlp_Model.dGammaC_left data dzero mpair (mbubble_of c J pi) 3 true Psi P0 (DiffRight _ R L Psi))).
    Proof.
      intros O. apply (mobeys_symmetrise c Kc).
      apply (mbubbles_obey c J pi Kc Zc HJ vzero vzero u 0 (Full _ Psi) (DiffLeft _ L R Psi) P0); auto using mvzero_bare.
    Qed.
    Lemma morders_symmetric n : forall i L R T cen tot v z m, mobeys c 0 L R -> msymmetric c 0 T -> msymmetric c 0 cen -> msymmetric c 0 tot ->
      Mlp_Model.orders data dzero dadd dhalf mpair (mbubble_of c J pi) 3 true Psi P0 vnorm reorder tol_abs tol_rel n i L R T cen tot = (v, z, m) ->
      msymmetric c 0 v /\ msymmetric c 0 z.
    Proof.
      induction n as [|n IH]; intros i L R T cen tot v z m O HT Hc Ht E; cbn [Mlp_Model.orders] in E.
      - injection E as <- <- <-. auto.
      - unfold Mlp_Model.reordered in E.
        pose proof (mcentral L R O) as HC. pose proof (mleft_right T HT) as HLR.
        set (C := Mlp_Model.symmetrise _ _ _ _ _ _) in *. set (L' := dL _) in *. set (R' := dR _) in *.
        pose proof (msandwich L' C R' HLR HC) as HT'. pose proof (msums_obey _ _ _ _ Ht HT') as Ht'. pose proof (msums_obey _ _ _ _ Hc HC) as Hc'.
        destruct (Mlp_Model.small _ _ _ _ _ _).
        + injection E as <- <- <-. auto.
        + exact (IH _ _ _ _ _ _ _ _ _ HLR HT' Hc' Ht' E).
    Qed.
    Lemma mvertex_flow_symmetric t dS v z m : msymmetric c 0 t -> good dS ->
      Mlp_Model.vertex_flow data dzero dadd dhalf mpair (mbubble_of c J pi) 3 true B Psi P0 dpi vnorm reorder tol_abs tol_rel nloops t dS = (v, z, m) ->
      msymmetric c 0 v /\ msymmetric c 0 z.
    Proof.
      intros Ht Hd E. unfold Mlp_Model.vertex_flow in E.
      assert (H1 : msymmetric c 0 (Mlp_Model.vertexOneLoopFlow data mpair (mbubble_of c J pi) 3 true Psi t (dpi dS))).
      { apply (mbubbles_obey c J pi Kc Zc HJ t t u u (Full _ Psi) (Full _ Psi) (dpi dS)); auto; exact (mzero_bare _ _ Ht). }
      set (tot := Mlp_Model.vertexOneLoopFlow _ _ _ _ _ _ _ _) in *.
      destruct (nloops <? 2).
      - injection E as <- <- <-. split; [exact H1|exact mzero_obeys].
      - unfold Mlp_Model.reordered in E. pose proof (mleft_right tot H1) as HLR. pose proof (msum_LR _ _ HLR) as HT.
        pose proof (msums_obey _ _ _ _ H1 HT) as Ht'. exact (morders_symmetric _ _ _ _ _ _ _ _ _ _ HLR HT mzero_obeys Ht' E).
    Qed.
    Hypothesis Hcorr : forall v, msymmetric c 0 v -> good (badd se1 (corr (Irreducible _ v Psi))).
    Hypothesis Hmix : forall l, Forall (fun p => good (snd (fst p)) /\ good (snd (snd p))) l -> good (mix l).
    Lemma miterate_symmetric fuel : forall n t dS hist a, msymmetric c 0 t -> good dS ->
      Forall (fun p => good (snd (fst p)) /\ good (snd (snd p))) hist ->
      Mlp_Model.iterate data dzero dadd dhalf mpair (mbubble_of c J pi) 3 true B badd bsub Psi P0 dpi se1 corr mix vnorm bnorm brel reorder
        tol_abs tol_rel se_abs se_rel nmax nloops fuel n t dS hist = Some a ->
      msymmetric c 0 (Mlp_Model.a_vertex _ _ a) /\ good (Mlp_Model.a_se _ _ a).
    Proof.
      induction fuel as [|fuel IH]; intros n t dS hist a Ht Hd Hh E; cbn [Mlp_Model.iterate] in E; [discriminate E|].
      destruct (Mlp_Model.vertex_flow _ _ _ _ _ _ _ _ _ _ _ _ _ _ _ _ _ t dS) as ((v, z), m) eqn:F.
      destruct (mvertex_flow_symmetric t dS v z m Ht Hd F) as (Hv & Hz).
      destruct (nloops <? 3).
      - injection E as <-. cbn [Mlp_Model.a_vertex Mlp_Model.a_se]. auto.
      - assert (Hh' : Forall (fun p => good (snd (fst p)) /\ good (snd (snd p))) (hist ++ [((v, badd se1 (corr (Irreducible _ z Psi))), (v, dS))])).
        { apply Forall_app. split; [exact Hh|]. constructor; [|constructor]. cbn [fst snd]. auto. }
        pose proof (Hmix _ Hh') as Hm.
        destruct ((n + 1 <? nmax) && _ && _).
        + exact (IH _ _ _ _ _ Hv Hm Hh' E).
        + injection E as <-. cbn [Mlp_Model.a_vertex Mlp_Model.a_se]. auto.
    Qed.
  End Multiloop.
End Flow.

(** For a symmetric vertex the multiloop right-hand side is a symmetric vertex, at every loop order and after any number of self-energy
    iterations, whatever the norms, tolerances and the mixing are. [good]: what is assumed of derivatives of the self-energy so that the
    differentiated propagators are conjugated when the frequency is reversed (real and odd with particle-hole symmetry). *)
Theorem C122_matsubara_multiloop_symmetric : forall c J pi B badd bsub u Psi P0 dpi se1 corr mix vnorm bnorm brel reorder
    tol_abs tol_rel se_abs se_rel nmax nloops (good : B -> Prop) a,
  keldysh c = false -> zero_t c = true -> integral J -> msymmetric c u Psi -> mpair_ok c P0 ->
  (forall b, good b -> mpair_ok c (dpi b)) -> good se1 ->
  (forall v, msymmetric c 0 v -> good (badd se1 (corr (Irreducible _ v Psi)))) ->
  (forall l, Forall (fun p => good (snd (fst p)) /\ good (snd (snd p))) l -> good (mix l)) ->
  matsubara_rhs c J pi B badd bsub Psi P0 dpi se1 corr mix vnorm bnorm brel reorder tol_abs tol_rel se_abs se_rel nmax nloops = Some a ->
  msymmetric c 0 (Mlp_Model.a_vertex _ _ a) /\ good (Mlp_Model.a_se _ _ a).
Proof.
  intros c J pi B badd bsub u Psi P0 dpi se1 corr mix vnorm bnorm brel reorder tol_abs tol_rel se_abs se_rel nmax nloops good a
    Kc Zc HJ HPsi HP0 Hd H1 Hc Hm E.
  unfold matsubara_rhs, Mlp_Model.rhs_n_loop_flow in E. destruct (nloops <? 1); [discriminate E|].
  exact (miterate_symmetric c J pi Kc Zc HJ B badd bsub u Psi P0 dpi se1 corr mix vnorm bnorm brel reorder tol_abs tol_rel se_abs se_rel nmax nloops
    HPsi HP0 good Hd Hc Hm _ _ _ _ _ _ (mzero_obeys c Kc Zc) H1 (Forall_nil _) E).
Qed.
Print Assumptions C122_matsubara_multiloop_symmetric.

(** the parquet iteration maps symmetric vertices to symmetric vertices with the bare vertex -U *)
Theorem C122_matsubara_parquet_symmetric : forall c J pi U u v P,
  keldysh c = false -> zero_t c = true -> integral J -> msymmetric c u v -> mpair_ok c P ->
  msymmetric c (- U) (matsubara_parquet c J pi U v P).
Proof.
  intros c J pi U u v P Kc Zc HJ Hv HP. unfold matsubara_parquet, Bse_Model.parquet_iteration_vertex. rewrite Kc. cbn [andb].
  assert (O : mobeys c 0 (Bse_Model.bse_left data mpair dzero dadd (mproduct c J pi) cross no_mirror true v P)
                         (Bse_Model.bse_right data mpair dzero dadd (mproduct c J pi) cross no_mirror true v P)).
  { apply (mbubbles_obey c J pi Kc Zc HJ vzero vzero u u (Irreducible _ v v) (Full _ v) P); auto using mvzero_bare. }
  pose proof (mobeys_half c Kc _ _ _ (msum_LR c Kc _ _ O)) as H.
  fold (Bse_Model.compute_BSE data mpair dzero dadd dhalf (mproduct c J pi) cross no_mirror true v P) in H.
  destruct H as [H1 H2 H3 H4]. set (x := Bse_Model.compute_BSE _ _ _ _ _ _ _ _ _ _ _) in *.
  assert (S : msame_family (on_mlegs x x) (on_mlegs (Bse_Model.initialize data (lift c) x (- U)) (Bse_Model.initialize data (lift c) x (- U)))).
  { intros h ch k s kl l. unfold on_mlegs. destruct h, ch; reflexivity. }
  split; [|exact (mphysical_ext c Kc _ _ S H2)|exact (mreversible_ext c Kc _ _ S H3)|].
  - intros h ch k s f f' Sp E. specialize (H1 h ch k s f f' Sp E). destruct h, ch; exact H1.
  - intros h s f Sp. assert (E : (lift c (- U) s 0 f == Cofq (if s =? 0 then - U else - - U))%C).
    { unfold lift, irred_expanded, irred_initialize. rewrite Kc. destruct Sp as [-> | ->]; cbn [Z.eqb Pos.eqb];
      split; unfold Cmul, Cofq; cbn [re im]; ring. }
    destruct h; exact E.
Qed.
Print Assumptions C122_matsubara_parquet_symmetric.

(** an example: the vertex with values of a symmetric family, and simple propagators *)
Definition mvert (u : Q) (G : family) : vert :=
  let x ch := let d k : data := fun s _ f => G false ch k s k1111 (legs_of ch f) in Mlp_Model.Build_rvert data (d k1) (d k2) (d k2b) (d k3) in
  Mlp_Model.Build_vertex data (fun s _ _ => Cofq (if s =? 0 then u else - u)) (x Ca) (x Cp) (x Ct).
Lemma mvert_symmetric c u G : keldysh c = false -> zero_t c = true -> physical c false G -> reversible c G -> self_mirror G -> msymmetric c u (mvert u G).
Proof.
  intros Kc Zc P R M. set (x := mvert u G). pose proof (Mc c Kc Zc) as Mf.
  assert (C : forall (h : bool) ch k s f, class_of (channel_of (if h then x else x) ch) k s 0 f = G false ch k s k1111 (legs_of ch f)).
  { intros h ch k s f. destruct h, ch, k; reflexivity. }
  assert (V : forall ch k s f f', spin01 s -> trip_eq f f' -> (G false ch k s k1111 (legs_of ch f) == G false ch k s k1111 (legs_of ch f'))%C).
  { intros ch k s f f' Sp E. apply (mfamily_m c Mf G P); auto using legs_conserved, legs_m. }
  assert (F : forall h ch k s kl l, spin01 s -> conserved l -> (on_mlegs x x h ch k s kl l == G h ch k s k1111 l)%C).
  { intros h ch k s kl l Sp Co. unfold on_mlegs. rewrite C.
    assert (Es : (s =? 0) || (s =? 1) = true) by (destruct Sp as [-> | ->]; reflexivity). rewrite Es.
    transitivity (G false ch k s k1111 l); [|destruct h; [symmetry; apply M|reflexivity]].
    apply (mfamily_m c Mf G P); auto using legs_conserved. pose proof (natural_legs ch l Co) as (N1 & N2 & N3 & N4). repeat (apply Logic.conj); symmetry; assumption. }
  split.
  - intros h ch k s f f' Sp E. rewrite !C. apply V; assumption.
  - destruct P as [P1 P2 P3 _ P5 P6]. split; try congruence.
    + intros h ch k s kl f f' l l' Hk Sp A A' E. unfold on_mlegs. rewrite !C.
      destruct ((s =? 0) || (s =? 1)); [|reflexivity].
      rewrite Mf in A, A'. pose proof (natural_of_legs ch f l A) as N. pose proof (natural_of_legs ch f' l' A') as N'.
      rewrite <- (V ch k s _ _ Sp N), <- (V ch k s _ _ Sp N').
      apply (P1 false ch k s k1111 f f'); auto using k1111_ok; rewrite Mf; apply legs_eq_refl.
    + intros h ch ch' fl k s kl l H Hk Co Sp. rewrite (F h ch) by assumption. rewrite (P2 h ch ch' fl k s k1111 l H k1111_ok Co Sp). apply Cscale_m; [reflexivity|].
      symmetry. apply F; auto using spin01_flip. unfold conserved, swap_in_f in *; cbn [n1' n2' n1 n2] in *. rewrite Co. ring.
    + intros h ch ch' fl k s kl l H Hk Co Sp. rewrite (F h ch) by assumption. rewrite (P3 h ch ch' fl k s k1111 l H k1111_ok Co Sp). apply Cscale_m; [reflexivity|].
      symmetry. apply F; auto using spin01_flip. unfold conserved, swap_out_f in *; cbn [n1' n2' n1 n2] in *. rewrite <- Co. ring.
    + intros _ h ch ch' fl k s kl l H Co Sp. rewrite (F h ch) by assumption. rewrite (P5 Kc h ch ch' fl k s k1111 l H Co Sp). apply Cconj_m.
      symmetry. apply F; auto. unfold conserved, minus_f, in_out_f in *; cbn [n1' n2' n1 n2] in *.
      assert (E : (- (n1' l + n2' l) == - (n1 l + n2 l))%Q) by (rewrite Co; reflexivity).
      transitivity (- (n1 l + n2 l))%Q; [ring|]. rewrite <- E. ring.
    + intros _ Ph h ch k s kl l. unfold on_mlegs. rewrite C. destruct ((s =? 0) || (s =? 1)); [apply (P6 Kc Ph)|reflexivity].
  - split; [congruence|]. intros _ h ch k s kl l Co. destruct ((s =? 0) || (s =? 1)) eqn:Es.
    + apply spin_test in Es. rewrite F by assumption. rewrite (reversal_matsubara _ _ R Kc h ch k s k1111 l Co). apply Cconj_m.
      symmetry. apply F; auto. unfold conserved, minus_f in *; cbn [n1' n2' n1 n2] in *.
      assert (E : (- (n1' l + n2' l) == - (n1 l + n2 l))%Q) by (rewrite Co; reflexivity). transitivity (- (n1' l + n2' l))%Q; [ring|]. rewrite E. ring.
    + unfold on_mlegs. rewrite Es. symmetry. apply conj_0.
  - intros h s f Sp. destruct h; reflexivity.
Qed.
Definition mdemoS : family := both_halves (demo0 matsubara_c).
Definition mPsi0 : vert := mvert (-1 # 2) mdemoS.
(** derivatives of the self-energy are represented by the single-scale propagator they lead to *)
Definition mflow0 (nloops : Z) : option (Mlp_Model.answer data (Q -> cplx)) :=
  matsubara_rhs matsubara_c J2 (22 # 7) (Q -> cplx) (fun x _ => x) (fun x _ => x) mPsi0 (mkM false gm gm) (fun s => mkM true gm s) gm (fun _ => gm)
    (fun l => match l with p :: _ => snd (snd p) | [] => gm end) (fun _ => Mlp_Model.Fin 1) (fun _ => Mlp_Model.Fin 0) (fun _ _ => Mlp_Model.Fin 0)
    (fun x y => (x, y)) 0 0 (1 # 2) (1 # 2) 1 nloops.
Example C122_matsubara_hyp : msymmetric matsubara_c (-1 # 2) mPsi0 /\ integral J2 /\ mpair_ok matsubara_c (mkM false gm gm) /\
  (let good s := line_ok matsubara_c s in
   good gm /\ (forall s, good s -> mpair_ok matsubara_c (mkM true gm s)) /\
   forall l : list ((vert * (Q -> cplx)) * (vert * (Q -> cplx))), Forall (fun p => good (snd (fst p)) /\ good (snd (snd p))) l ->
     good (match l with p :: _ => snd (snd p) | [] => gm end)) /\
  (* four loops: an answer is returned; one loop: class K1 in the channel a *)
  (if mflow0 4 then true else false) = true /\
  option_map (fun a => show (class_of (channel_of (Mlp_Model.a_vertex _ _ a) Ca) k1 0 0 (4, 1, 2)%Q)) (mflow0 1) =
    Some (22253 # 20, 0)%Q.
Proof.
  destruct (demo0_physical matsubara_c eq_refl) as (P & R & _). destruct (mboth_physical matsubara_c _ eq_refl P) as (P' & M).
  assert (R' : reversible matsubara_c mdemoS).
  { split; [discriminate|]. intros K h ch k s kl l Co. unfold mdemoS, both_halves.
    rewrite (reversal_matsubara _ _ R K false ch k s kl l Co) at 1. rewrite (reversal_matsubara _ _ R K true ch k s kl l Co) at 1.
    rewrite conj_add. reflexivity. }
  split; [apply mvert_symmetric; [reflexivity|reflexivity|exact P'|exact R'|exact M]|]. split; [exact J2_integral|].
  split; [split; apply gm_ok|].
  split. { cbv zeta. split; [exact gm_ok|]. split.
    - intros s A. split; [apply gm_ok|exact A].
    - intros [|p l] H; [exact gm_ok|]. inversion H as [|? ? Hp _]. apply Hp. }
  split; vm_compute; reflexivity.
Qed.
