(** C122: multiloop flow and parquet iteration keep the symmetries of the vertex. *)
From Coq Require Import QArith Lqa.
From Verif Require Import Prelude Cplx Keld_Model Keld_Spec Keld_Proofs Util_Spec Sym_Model Sym_Spec Sym_Proofs2 Tab_Model Tab_Spec
  Rd_Model Rd_Spec Rd_Props Rd_Props2 Dec_Model Bub_Model Bub_Spec Bub_Proofs Bub_Proofs2 Bub_Proofs3 Bub_Props Sf_Model Sf_Spec Sf_Proofs Sf_Proofs2.
From Verif Require Mlp_Model Bse_Model.
Open Scope Z_scope.
Import Mlp_Model (Full, Irreducible, DiffLeft, DiffRight).

Section Flow.
  Variables (c : cfg) (J : (Q -> cplx) -> cplx) (pi : Q).
  Hypothesis Kc : keldysh c = true.
  Hypothesis CBc : contour c = false.
  Hypothesis HJ : integral J.
  Hypothesis Hpi : ~ (pi == 0)%Q.
  Notation all_channels := (Mlp_Model.all_channels data pair (bubble_of J pi) 3 true).

  Lemma bare0 s iK : spin01 s -> (irred_expanded (irred_initialize c (Cofq 0)) s iK == C0)%C.
  Proof.
    intros [-> | ->]; unfold irred_expanded, irred_initialize; rewrite Kc, CBc; cbn [Z.eqb Pos.eqb]; destruct (isInList iK odd_Keldysh);
    split; unfold Cofq, Cmul, C0; cbn [re im]; ring.
  Qed.
  Lemma zero_bare v w : obeys c 0 v w -> forall s kl f, klegs_ok kl -> spin01 s -> (irr v s (kcode kl) f == C0)%C.
  Proof. intros O s kl f Hk Sp. pose proof (obeys_bare _ _ _ _ O false s kl f Hk Sp) as E. cbn match in E. rewrite E. apply bare0; exact Sp. Qed.
  Lemma zero_obeys : symmetric c 0 vzero.
  Proof.
    assert (Z : forall (h : bool) ch k s iK f, (class_of (channel_of (if h then vzero else vzero) ch) k s iK f == C0)%C) by (intros h [] []; destruct h; reflexivity).
    split.
    - intros. rewrite !Z. reflexivity.
    - split; try congruence; intros; unfold on_legs; rewrite !Z; try (split; unfold Cscale, Cconj, C0; cbn [re im]; ring).
    - split; try congruence; intros; unfold on_legs; rewrite !Z; try (split; unfold Cscale, Cconj, C0; cbn [re im]; ring).
    - intros h s kl f Hk Sp. rewrite bare0 by exact Sp. destruct h; reflexivity.
  Qed.
  Lemma vzero_bare s kl f : klegs_ok kl -> spin01 s -> (irr vzero s (kcode kl) f == C0)%C. Proof. intros. reflexivity. Qed.

  Lemma sums_obey v1 v2 w1 w2 : obeys c 0 v1 v2 -> obeys c 0 w1 w2 -> obeys c 0 (vadd v1 w1) (vadd v2 w2).
  Proof. intros A B. apply (obeys_bare_m c Kc CBc (0 + 0)%Q 0 _ _); [reflexivity|]. apply obeys_add; assumption. Qed.
  Lemma same_refl v : same_vert v v. Proof. split; intros; reflexivity. Qed.
  (** L + C + R is its own mirror image *)
  Lemma sandwich L C R : obeys c 0 L R -> symmetric c 0 C -> symmetric c 0 (vadd (vadd L C) R).
  Proof.
    intros O S. apply (obeys_ext c Kc 0 (vadd (vadd L C) R) (vadd (vadd R C) L)); [apply same_refl| |].
    - split; intros.
      + rewrite !class_vadd. ring.
      + unfold Mlp_Model.vadd; cbn [Mlp_Model.irr]; unfold dadd. ring.
    - apply sums_obey; [|apply obeys_swap; assumption]. apply sums_obey; assumption.
  Qed.
  Lemma sum_LR L R : obeys c 0 L R -> symmetric c 0 (vadd L R).
  Proof.
    intros O. apply (obeys_ext c Kc 0 (vadd L R) (vadd R L)); [apply same_refl| |].
    - split; intros.
      + rewrite !class_vadd. ring.
      + unfold Mlp_Model.vadd; cbn [Mlp_Model.irr]; unfold dadd. ring.
    - apply sums_obey; [|apply obeys_swap]; assumption.
  Qed.

  Section Multiloop.
    Variables (B : Type) (badd bsub : B -> B -> B) (u : Q) (Psi : vert) (P0 : pair) (dpi : B -> pair) (se1 : B).
    Variables (corr : Mlp_Model.operand data -> B) (mix : list ((vert * B) * (vert * B)) -> B) (vnorm : vert -> Mlp_Model.fl)
      (bnorm : B -> Mlp_Model.fl) (brel : B -> B -> Mlp_Model.fl) (reorder : vert -> vert -> vert * vert)
      (tol_abs tol_rel se_abs se_rel : Q) (nmax nloops : Z).
    Hypothesis HPsi : symmetric c u Psi.
    Hypothesis HP0 : pair_ok c P0.
    Variable good : B -> Prop.
    Hypothesis Hdpi : forall b, good b -> pair_ok c (dpi b).
    Notation dL := (Mlp_Model.dGammaL data dzero pair (bubble_of J pi) 3 true Psi P0).
    Notation dR := (Mlp_Model.dGammaR data dzero pair (bubble_of J pi) 3 true Psi P0).
    Lemma left_right T : symmetric c 0 T -> obeys c 0 (dL (Irreducible _ T Psi)) (dR (Irreducible _ T Psi)).
    Proof.
      intros ST. apply (bubbles_obey c J pi Kc CBc HJ Hpi vzero vzero 0 u (Irreducible _ T Psi) (Full _ Psi) P0); auto using vzero_bare.
    Qed.
    Lemma central L R : obeys c 0 L R ->
      symmetric c 0 (Mlp_Model.symmetrise data dadd dhalf true
        (Mlp_Model.dGammaC_right data dzero pair (bubble_of J pi) 3 true Psi P0 (DiffLeft _ L R Psi))
        (Mlp_Model.dGammaC_left data dzero pair (bubble_of J pi) 3 true Psi P0 (DiffRight _ R L Psi))).
    Proof.
      intros O. apply (obeys_symmetrise c Kc CBc).
      apply (bubbles_obey c J pi Kc CBc HJ Hpi vzero vzero u 0 (Full _ Psi) (DiffLeft _ L R Psi) P0); auto using vzero_bare.
    Qed.
    Lemma orders_symmetric n : forall i L R T cen tot v z m, obeys c 0 L R -> symmetric c 0 T -> symmetric c 0 cen -> symmetric c 0 tot ->
      Mlp_Model.orders data dzero dadd dhalf pair (bubble_of J pi) 3 true Psi P0 vnorm reorder tol_abs tol_rel n i L R T cen tot = (v, z, m) ->
      symmetric c 0 v /\ symmetric c 0 z.
    Proof.
      induction n as [|n IH]; intros i L R T cen tot v z m O HT Hc Ht E; cbn [Mlp_Model.orders] in E.
      - injection E as <- <- <-. auto.
      - unfold Mlp_Model.reordered in E.
        pose proof (central L R O) as HC. pose proof (left_right T HT) as HLR.
        set (C := Mlp_Model.symmetrise _ _ _ _ _ _) in *. set (L' := dL _) in *. set (R' := dR _) in *.
        pose proof (sandwich L' C R' HLR HC) as HT'. pose proof (sums_obey _ _ _ _ Ht HT') as Ht'. pose proof (sums_obey _ _ _ _ Hc HC) as Hc'.
        destruct (Mlp_Model.small _ _ _ _ _ _).
        + injection E as <- <- <-. auto.
        + exact (IH _ _ _ _ _ _ _ _ _ HLR HT' Hc' Ht' E).
    Qed.
    Lemma vertex_flow_symmetric t dS v z m : symmetric c 0 t -> good dS ->
      Mlp_Model.vertex_flow data dzero dadd dhalf pair (bubble_of J pi) 3 true B Psi P0 dpi vnorm reorder tol_abs tol_rel nloops t dS = (v, z, m) ->
      symmetric c 0 v /\ symmetric c 0 z.
    Proof.
      intros Ht Hd E. unfold Mlp_Model.vertex_flow in E.
      assert (H1 : symmetric c 0 (Mlp_Model.vertexOneLoopFlow data pair (bubble_of J pi) 3 true Psi t (dpi dS))).
      { apply (bubbles_obey c J pi Kc CBc HJ Hpi t t u u (Full _ Psi) (Full _ Psi) (dpi dS)); auto; exact (zero_bare _ _ Ht). }
      set (tot := Mlp_Model.vertexOneLoopFlow _ _ _ _ _ _ _ _) in *.
      destruct (nloops <? 2).
      - injection E as <- <- <-. split; [exact H1|exact zero_obeys].
      - unfold Mlp_Model.reordered in E. pose proof (left_right tot H1) as HLR. pose proof (sum_LR _ _ HLR) as HT.
        pose proof (sums_obey _ _ _ _ H1 HT) as Ht'. exact (orders_symmetric _ _ _ _ _ _ _ _ _ _ HLR HT zero_obeys Ht' E).
    Qed.
    Hypothesis Hcorr : forall v, symmetric c 0 v -> good (badd se1 (corr (Irreducible _ v Psi))).
    Hypothesis Hmix : forall l, Forall (fun p => good (snd (fst p)) /\ good (snd (snd p))) l -> good (mix l).
    Lemma iterate_symmetric fuel : forall n t dS hist a, symmetric c 0 t -> good dS ->
      Forall (fun p => good (snd (fst p)) /\ good (snd (snd p))) hist ->
      Mlp_Model.iterate data dzero dadd dhalf pair (bubble_of J pi) 3 true B badd bsub Psi P0 dpi se1 corr mix vnorm bnorm brel reorder
        tol_abs tol_rel se_abs se_rel nmax nloops fuel n t dS hist = Some a ->
      symmetric c 0 (Mlp_Model.a_vertex _ _ a) /\ good (Mlp_Model.a_se _ _ a).
    Proof.
      induction fuel as [|fuel IH]; intros n t dS hist a Ht Hd Hh E; cbn [Mlp_Model.iterate] in E; [discriminate E|].
      destruct (Mlp_Model.vertex_flow _ _ _ _ _ _ _ _ _ _ _ _ _ _ _ _ _ t dS) as ((v, z), m) eqn:F.
      destruct (vertex_flow_symmetric t dS v z m Ht Hd F) as (Hv & Hz).
      destruct (nloops <? 3).
      - injection E as <-. cbn [Mlp_Model.a_vertex Mlp_Model.a_se]. auto.
      - assert (Hh' : Forall (fun p => good (snd (fst p)) /\ good (snd (snd p))) (hist ++ [((v, badd se1 (corr (Irreducible _ z Psi))), (v, dS))])).
        { apply Forall_app. split; [exact Hh|]. constructor; [|constructor]. cbn [fst snd]. auto. }
        pose proof (Hmix _ Hh') as Hm.
        destruct ((n + 1 <? nmax) && _ && _).
        + exact (IH _ _ _ _ _ Hv Hm Hh' E).
        + injection E as <-. cbn [Mlp_Model.a_vertex Mlp_Model.a_se]. auto.
    Qed.
  End Multiloop.
End Flow.

(** For a symmetric vertex the multiloop right-hand side is a symmetric vertex, at every loop order and after any number of self-energy
    iterations, whatever the norms, tolerances and the mixing are. [good]: what is assumed of derivatives of the self-energy so that the
    differentiated propagators have the conjugate advanced component (and particle-hole symmetry). *)
Theorem C122_multiloop_symmetric_partial : forall c J pi B badd bsub u Psi P0 dpi se1 corr mix vnorm bnorm brel reorder
    tol_abs tol_rel se_abs se_rel nmax nloops (good : B -> Prop) a,
  keldysh c = true -> contour c = false -> integral J -> ~ (pi == 0)%Q -> symmetric c u Psi -> pair_ok c P0 ->
  (forall b, good b -> pair_ok c (dpi b)) -> good se1 ->
  (forall v, symmetric c 0 v -> good (badd se1 (corr (Irreducible _ v Psi)))) ->
  (forall l, Forall (fun p => good (snd (fst p)) /\ good (snd (snd p))) l -> good (mix l)) ->
  multiloop_rhs J pi B badd bsub Psi P0 dpi se1 corr mix vnorm bnorm brel reorder tol_abs tol_rel se_abs se_rel nmax nloops = Some a ->
  symmetric c 0 (Mlp_Model.a_vertex _ _ a) /\ good (Mlp_Model.a_se _ _ a).
Proof.
  intros c J pi B badd bsub u Psi P0 dpi se1 corr mix vnorm bnorm brel reorder tol_abs tol_rel se_abs se_rel nmax nloops good a
    Kc CBc HJ Hpi HPsi HP0 Hd H1 Hc Hm E.
  unfold multiloop_rhs, Mlp_Model.rhs_n_loop_flow in E. destruct (nloops <? 1); [discriminate E|].
  exact (iterate_symmetric c J pi Kc CBc HJ Hpi B badd bsub u Psi P0 dpi se1 corr mix vnorm bnorm brel reorder tol_abs tol_rel se_abs se_rel nmax nloops
    HPsi HP0 good Hd Hc Hm _ _ _ _ _ _ (zero_obeys c Kc CBc) H1 (Forall_nil _) E).
Qed.
Print Assumptions C122_multiloop_symmetric_partial.

(** the parquet iteration maps symmetric vertices to symmetric vertices with the bare vertex -U/2 *)
Theorem C122_parquet_symmetric_partial : forall c J pi U u v P,
  keldysh c = true -> contour c = false -> integral J -> ~ (pi == 0)%Q -> symmetric c u v -> pair_ok c P ->
  symmetric c (- U / 2) (parquet_vertex c J pi U v P).
Proof.
  intros c J pi U u v P Kc CBc HJ Hpi Hv HP. unfold parquet_vertex, Bse_Model.parquet_iteration_vertex. rewrite Kc, CBc. cbn [andb negb].
  assert (O : obeys c 0 (Bse_Model.bse_left data pair dzero dadd (product J pi) cross no_mirror true v P)
                        (Bse_Model.bse_right data pair dzero dadd (product J pi) cross no_mirror true v P)).
  { apply (bubbles_obey c J pi Kc CBc HJ Hpi vzero vzero u u (Irreducible _ v v) (Full _ v) P); auto using vzero_bare. }
  pose proof (obeys_half c Kc CBc _ _ _ (sum_LR c Kc CBc _ _ O)) as H.
  fold (Bse_Model.compute_BSE data pair dzero dadd dhalf (product J pi) cross no_mirror true v P) in H.
  destruct H as [H1 H2 H3 H4]. set (x := Bse_Model.compute_BSE _ _ _ _ _ _ _ _ _ _ _) in *.
  assert (S : same_family (on_legs x x) (on_legs (Bse_Model.initialize data (lift c) x (- U / 2)) (Bse_Model.initialize data (lift c) x (- U / 2)))).
  { intros h ch k s kl l Hk Sp. unfold on_legs. destruct h, ch; reflexivity. }
  split; [|exact (physical_ext c _ _ Kc S H2)|exact (reversible_ext c _ _ Kc S H3)|].
  - intros h ch k s kl f f' Hk Sp E. specialize (H1 h ch k s kl f f' Hk Sp E). destruct h, ch; exact H1.
  - intros h s kl f Hk Sp. destruct h; reflexivity.
Qed.
Print Assumptions C122_parquet_symmetric_partial.

(** an example: the vertex with values of a symmetric family, and simple propagators *)
Definition rvert_of (G : family) (ch : chan) : Mlp_Model.rvert data :=
  let d k : data := fun s iK f => G false ch k s (klof iK) (legs_of ch f) in Mlp_Model.Build_rvert data (d k1) (d k2) (d k2b) (d k3).
Definition vert_of (c : cfg) (u : Q) (G : family) : vert := Mlp_Model.Build_vertex data (lift c u) (rvert_of G Ca) (rvert_of G Cp) (rvert_of G Ct).
Lemma vert_symmetric c u G : keldysh c = true -> physical c false G -> reversible c G -> self_mirror G -> symmetric c u (vert_of c u G).
Proof.
  intros Kc P R M. set (x := vert_of c u G).
  assert (L : forall ch l, conserved l -> legs_are (mf c) ch (natural ch l) l).
  { intros ch l Co. unfold legs_are. rewrite (mf_false c Kc). apply natural_legs; exact Co. }
  assert (L' : forall ch f, legs_are (mf c) ch f (legs_of ch f)).
  { intros ch f. unfold legs_are. rewrite (mf_false c Kc). repeat (apply Logic.conj); reflexivity. }
  assert (S0 : forall k f, same_class_freqs k f f).
  { intros k ((w, v), v'). destruct k; repeat (apply Logic.conj); try exact I; reflexivity. }
  assert (C : forall (h : bool) ch k s kl f, klegs_ok kl ->
    class_of (channel_of (if h then x else x) ch) k s (kcode kl) f = G false ch k s kl (legs_of ch f)).
  { intros h ch k s kl f Hk. assert (E : klof (kcode kl) = kl) by (destruct (klof_kcode kl Hk) as (a & b & d & e & ->); rewrite kcode_klof; reflexivity).
    rewrite <- E at 2. destruct h, ch, k; reflexivity. }
  assert (F : forall h ch k s kl l, klegs_ok kl -> spin01 s -> conserved l -> (on_legs x x h ch k s kl l == G h ch k s kl l)%C).
  { intros h ch k s kl l Hk Sp Co. unfold on_legs. rewrite C by exact Hk. transitivity (G false ch k s kl l).
    - apply (of_class_freqs _ _ _ P false ch k s kl (natural ch l) (natural ch l)); auto.
    - destruct h; [symmetry; apply M|reflexivity]. }
  split.
  - intros h ch k s kl f f' Hk Sp E. rewrite !C by exact Hk. apply (of_class_freqs _ _ _ P false ch k s kl f f'); auto.
    destruct f as ((w, v), v'), f' as ((w', y), y'). destruct E as (E1 & E2 & E3). cbn [fst snd] in *. destruct k; repeat (apply Logic.conj); auto.
  - destruct P as [P1 P2 P3 P4 _ _]. split; try congruence.
    + intros h ch k s kl f f' l l' Hk Sp A A' E. unfold on_legs. rewrite !C by exact Hk.
      unfold legs_are in A, A'. rewrite (mf_false c Kc) in A, A'. pose proof (natural_of_legs ch f l A) as N. pose proof (natural_of_legs ch f' l' A') as N'.
      apply (P1 false ch k s kl (natural ch l) (natural ch l')); auto.
      destruct f as ((w, v), v'), f' as ((w', y), y'), (natural ch l) as ((x1, x2), x3), (natural ch l') as ((x4, x5), x6).
      destruct N as (N1 & N2 & N3), N' as (M1 & M2 & M3), E as (E1 & E2). cbn [fst snd] in *.
      split; [rewrite <- N1, <- M1; exact E1|]. destruct k; rewrite <- ?N2, <- ?N3, <- ?M2, <- ?M3; exact E2.
    + intros h ch ch' fl k s kl l H Hk Co Sp. rewrite (F h ch) by assumption. rewrite (P2 h ch ch' fl) by assumption. apply Cscale_m; [reflexivity|].
      symmetry. apply F; auto using klegs_in, spin01_flip. unfold conserved, swap_in_f in *; cbn [n1' n2' n1 n2] in *. rewrite Co. ring.
    + intros h ch ch' fl k s kl l H Hk Co Sp. rewrite (F h ch) by assumption. rewrite (P3 h ch ch' fl) by assumption. apply Cscale_m; [reflexivity|].
      symmetry. apply F; auto using klegs_out, spin01_flip. unfold conserved, swap_out_f in *; cbn [n1' n2' n1 n2] in *. rewrite <- Co. ring.
    + intros _ h ch ch' fl k s kl l H Hk Co Sp. rewrite (F h ch) by assumption. rewrite (P4 Kc h ch ch' fl) by assumption. apply Cscale_m; [reflexivity|]. apply Cconj_m.
      symmetry. apply F; auto using klegs_io. unfold conserved, in_out_f in *; cbn [n1' n2' n1 n2] in *. rewrite Co. ring.
  - split; [|congruence]. intros _ Ph h ch k s kl l Hk Co Sp. rewrite F by assumption. rewrite (reversal_keldysh _ _ R Kc Ph h ch k s kl l) by assumption.
    apply Cscale_m; [reflexivity|]. apply Cconj_m. symmetry. apply F; auto. unfold conserved, minus_f in *; cbn [n1' n2' n1 n2] in *.
    assert (E : (- (n1' l + n2' l) == - (n1 l + n2 l))%Q) by (rewrite Co; reflexivity). transitivity (- (n1' l + n2' l))%Q; [ring|]. rewrite E. ring.
  - intros h s kl f Hk Sp. destruct h; reflexivity.
Qed.
Definition demoS : family := both_halves (demo0 demo_c).
Definition Psi0 : vert := vert_of demo_c (-1 # 2) demoS.
(** derivatives of the self-energy are represented by the single-scale propagator they lead to *)
Definition flow0 (nloops : Z) : option (Mlp_Model.answer data prop) :=
  multiloop_rhs J2 (22 # 7) prop (fun x _ => x) (fun x _ => x) Psi0 (mkP false g1 g1) (fun s => mkP true g1 s) g1 (fun _ => g1)
    (fun l => match l with p :: _ => snd (snd p) | [] => g1 end) (fun _ => Mlp_Model.Fin 1) (fun _ => Mlp_Model.Fin 0) (fun _ _ => Mlp_Model.Fin 0)
    (fun x y => (x, y)) 0 0 (1 # 2) (1 # 2) 1 nloops.
Example C122_hyp : symmetric demo_c (-1 # 2) Psi0 /\ integral J2 /\ pair_ok demo_c (mkP false g1 g1) /\
  (let good s := lines_ok s /\ ph_symmetric s in
   good g1 /\ (forall s, good s -> pair_ok demo_c (mkP true g1 s)) /\
   forall l : list ((vert * prop) * (vert * prop)), Forall (fun p => good (snd (fst p)) /\ good (snd (snd p))) l ->
     good (match l with p :: _ => snd (snd p) | [] => g1 end)) /\
  (* four loops: an answer is returned; one loop: class K1 in the channel a *)
  (if flow0 4 then true else false) = true /\
  option_map (fun a => show (class_of (channel_of (Mlp_Model.a_vertex _ _ a) Ca) k1 0 (kcode (mkK 1 2 2 2)) (4, 1, 2)%Q)) (flow0 1) =
    Some (-171003 # 40, -37009 # 20)%Q.
Proof.
  destruct (demo0_physical demo_c eq_refl) as (P & R & _). destruct (both_physical demo_c _ eq_refl P) as (P' & M).
  assert (R' : reversible demo_c demoS).
  { split; [|discriminate]. intros K Ph h ch k s kl l Hk Co Sp. unfold demoS, both_halves.
    rewrite (reversal_keldysh _ _ R K Ph false ch k s kl l Hk Co Sp) at 1. rewrite (reversal_keldysh _ _ R K Ph true ch k s kl l Hk Co Sp) at 1.
    rewrite conj_add, cscale_add. reflexivity. }
  split; [apply vert_symmetric; [reflexivity|exact P'|exact R'|exact M]|]. split; [exact J2_integral|].
  split; [split; [apply g1_ok|split; [apply g1_ok|intros _; split; apply g1_ok]]|].
  split. { cbv zeta. split; [exact g1_ok|]. split.
    - intros s (A & B). split; [apply g1_ok|]. split; [exact A|]. intros _. split; [apply g1_ok|exact B].
    - intros [|p l] H; [exact g1_ok|]. inversion H as [|? ? Hp _]. apply Hp. }
  split; vm_compute; reflexivity.
Qed.
