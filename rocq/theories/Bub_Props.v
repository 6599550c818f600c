(** C121: a bubble of symmetric vertices is a symmetric vertex. *)
From Coq Require Import QArith Lqa.
From Verif Require Import Prelude Cplx Keld_Model Keld_Spec Keld_Proofs Keld_Proofs2 Util_Spec Sym_Model Sym_Spec Tab_Model Tab_Spec
  Rd_Model Rd_Spec Rd_Props Dec_Model Bub_Model Bub_Spec Bub_Proofs Bub_Proofs2 Bub_Proofs3.
Open Scope Z_scope.

Lemma pref_conj pi ch : ~ (pi == 0)%Q -> (Cconj (bubble_value_prefactor pi ch) == - bubble_value_prefactor pi ch)%C.
Proof.
  intros Hp. unfold bubble_value_prefactor.
  destruct ch; split; unfold Cconj, Cneg, Cscale, Cdiv, Cinv, Cnorm2, Cmul, Cofq, Ci, C1; cbn [re im]; field;
  repeat split; try (intros E; apply Hp); try assumption; try lra.
Qed.
Lemma pref_crossed pi ch : ch <> Cp -> (bubble_value_prefactor pi (crossed_at ch) == - bubble_value_prefactor pi ch)%C.
Proof.
  intros Hc. unfold bubble_value_prefactor. set (z := (C1 / _)%C).
  destruct ch; try congruence; cbn [crossed_at]; split; unfold Cscale, Cneg; cbn [re im]; ring.
Qed.

Section Symmetric.
  Variables (c : cfg) (uL uR : Q) (J : (Q -> cplx) -> cplx) (pi : Q) (diff : bool) (g S0 : prop) (stL stR : symmtype).
  Variables (GL GR : family) (VL VR : bool -> reader).
  Hypothesis Kc : keldysh c = true.
  Hypothesis CBc : contour c = false.
  Hypothesis HJ : integral J.
  Hypothesis Hpi : ~ (pi == 0)%Q.
  Hypothesis Hg : lines_ok g.
  Hypothesis HS : lines_ok S0.
  Hypothesis PL : physical c false GL.
  Hypothesis PR : physical c false GR.
  Hypothesis OL : operand_ok stL GL.
  Hypothesis OR : operand_ok stR GR.
  Hypothesis RL : forall h, reads c uL GL h (VL h).
  Hypothesis RR : forall h, reads c uR GR h (VR h).
  Notation F := (bubble_family J pi diff g S0 stL stR VL VR).
  Notation core := (core c uL uR diff g S0 stL stR GL GR).
  Lemma family_core h ch k s a b d e l : spin01 s ->
    (F h ch k s (klof (code4 a b d e)) l == bubble_value_prefactor pi ch * J (core h k ch s a b d e (natural ch l)))%C.
  Proof.
    intros Sp. rewrite <- (entry_core c uL uR J pi diff g S0 stL stR GL GR VL VR) by assumption.
    unfold bubble_family, entry. rewrite kcode_klof. reflexivity.
  Qed.
  Ltac nat_eq := repeat (apply Logic.conj); cbn [natural swap_in_f swap_out_f in_out_f minus_f n1' n2' n1 n2 fst snd].
  Lemma J_core_m h k ch s a b d e f f' : spin01 s -> trip_eq f f' ->
    (J (core h k ch s a b d e f) == J (core h k ch s a b d e f'))%C.
  Proof. intros Sp E. apply (int_ext _ HJ). intros x. apply core_m; assumption. Qed.
  Lemma J_neg_reflect A B : (forall x, A x == - B (- x)%Q)%C -> (J A == - J B)%C.
  Proof.
    intros H. rewrite (int_ext _ HJ A (fun x => (fun y => - B y)%C (- x)%Q) H).
    rewrite (int_reflect _ HJ (fun y => - B y)%C). apply (int_opp _ HJ).
  Qed.
  Lemma J_neg A B : (forall x, A x == - B x)%C -> (J A == - J B)%C.
  Proof. intros H. rewrite (int_ext _ HJ A (fun x => - B x)%C H). apply (int_opp _ HJ). Qed.
  Lemma J_eps a b d e A B : (forall x, A x == eps4 a b d e * Cconj (B x))%C -> (J A == eps4 a b d e * Cconj (J B))%C.
  Proof.
    intros H. rewrite (int_ext _ HJ _ _ H), <- (int_conj _ HJ).
    assert (E : eps4 a b d e = C1 \/ (forall z, (eps4 a b d e * z == - z)%C) \/ (forall z, (eps4 a b d e * z == z)%C)).
    { right. unfold eps4. destruct a, b, d, e; cbn [eps]; first [left; intros z; ring|right; intros z; ring]. }
    destruct E as [-> | [E | E]].
    - transitivity (J (fun x => Cconj (B x))); [apply (int_ext _ HJ); intros x|]; ring.
    - rewrite E. apply J_neg. intros x. apply E.
    - rewrite E. apply (int_ext _ HJ). intros x. apply E.
  Qed.
  Lemma J_eps_reflect a b d e A B : (forall x, A x == eps4 a b d e * Cconj (B (- x)%Q))%C -> (J A == eps4 a b d e * Cconj (J B))%C.
  Proof. intros H. rewrite (J_eps a b d e A (fun x => B (- x)%Q) H), (int_reflect _ HJ B). reflexivity. Qed.

  Lemma bubble_of_class_freqs h ch k s kl f f' l l' : klegs_ok kl -> spin01 s -> legs_are (mf c) ch f l -> legs_are (mf c) ch f' l' ->
    same_class_freqs k f f' -> (F h ch k s kl l == F h ch k s kl l')%C.
  Proof.
    intros Hk Sp L L' E. unfold legs_are in L, L'. rewrite (mf_false c Kc) in L, L'.
    destruct (klof_kcode kl Hk) as (a & b & d & e & ->). rewrite !family_core by exact Sp.
    apply Cmul_m; [reflexivity|]. apply (int_ext _ HJ). intros x. apply core_class; try assumption.
    destruct f as ((w0, v), v'), f' as ((w1, y), y'). destruct E as (E1 & E2).
    destruct L as (A & B & C & D), L' as (A' & B' & C' & D').
    assert (N : trip_eq (natural ch l) (w0, v, v')).
    { repeat (apply Logic.conj); destruct ch; cbn [natural legs_of fst snd n1' n2' n1 n2] in *; rewrite ?A, ?B, ?C, ?D; field. }
    assert (N' : trip_eq (natural ch l') (w1, y, y')).
    { repeat (apply Logic.conj); destruct ch; cbn [natural legs_of fst snd n1' n2' n1 n2] in *; rewrite ?A', ?B', ?C', ?D'; field. }
    destruct (natural ch l) as ((x1, x2), x3), (natural ch l') as ((x4, x5), x6).
    destruct N as (N1 & N2 & N3), N' as (M1 & M2 & M3). cbn [fst snd] in *. cbn [same_class_freqs].
    split; [rewrite N1, M1; exact E1|]. destruct k; rewrite ?N2, ?N3, ?M2, ?M3; try exact E2; exact I.
  Qed.
  Lemma bubble_exchange_out h ch ch' fl k s kl l : carried swap_out_k ch ch' fl -> klegs_ok kl -> conserved l -> spin01 s ->
    (F h ch k s kl l == - F (xorb h fl) ch' (mirror fl k) (1 - s)%Z (swap_out_k kl) (swap_out_f l))%C.
  Proof.
    intros Ca0 Hk Co Sp. destruct (klof_kcode kl Hk) as (a & b & d & e & ->). rewrite klof_out.
    rewrite !family_core by (auto using spin01_flip). pose proof (spin01_flip s Sp) as Sp'.
    destruct l as [x y z t]. unfold conserved in Co. cbn [n1' n2' n1 n2] in Co.
    assert (H : (ch <> Cp /\ ch' = crossed_at ch \/ ch = Cp /\ ch' = Cp) /\ fl = false).
    { destruct ch, ch', fl; try discriminate Ca0; split; try reflexivity; try (left; split; [discriminate|reflexivity]); right; split; reflexivity. }
    destruct H as ([(Hc & ->) | (-> & ->)] & ->); rewrite Bool.xorb_false_r; cbn [mirror].
    - rewrite pref_crossed by exact Hc.
      rewrite (int_ext _ HJ (core h k ch s a b d e (natural ch (mkLegs x y z t)))
        (core h k (crossed_at ch) (1 - s) b a d e (natural ch (mkLegs x y z t)))).
      2: { intros q. destruct (natural ch (mkLegs x y z t)) as ((w0, v), v'). apply core_out_at; assumption. }
      rewrite (J_core_m h k (crossed_at ch) (1 - s) b a d e (natural ch (mkLegs x y z t))
        (natural (crossed_at ch) (swap_out_f (mkLegs x y z t))) Sp').
      + ring.
      + destruct ch; try congruence; cbn [crossed_at]; nat_eq; reflexivity.
    - rewrite (J_neg (core h k Cp s a b d e (natural Cp (mkLegs x y z t)))
        (core h k Cp (1 - s) b a d e (x + y, - ((x - y) / 2), (z - t) / 2)%Q)).
      2: { intros q. apply core_out_p; assumption. }
      rewrite (J_core_m h k Cp (1 - s) b a d e (x + y, - ((x - y) / 2), (z - t) / 2)%Q (natural Cp (swap_out_f (mkLegs x y z t))) Sp').
      + ring.
      + nat_eq; field.
  Qed.
  Lemma bubble_exchange_in h ch ch' fl k s kl l : carried swap_in_k ch ch' fl -> klegs_ok kl -> conserved l -> spin01 s ->
    (F h ch k s kl l == - F (xorb h fl) ch' (mirror fl k) (1 - s)%Z (swap_in_k kl) (swap_in_f l))%C.
  Proof.
    intros Ca0 Hk Co Sp. destruct (klof_kcode kl Hk) as (a & b & d & e & ->). rewrite klof_in.
    rewrite !family_core by (auto using spin01_flip). pose proof (spin01_flip s Sp) as Sp'.
    destruct l as [x y z t]. unfold conserved in Co. cbn [n1' n2' n1 n2] in Co.
    assert (X : (x == z + t - y)%Q) by (rewrite <- Co; ring).
    assert (H : (ch <> Cp /\ ch' = crossed_at ch /\ fl = true) \/ (ch = Cp /\ ch' = Cp /\ fl = false)).
    { destruct ch, ch', fl; try discriminate Ca0; try (left; split; [discriminate|split; reflexivity]); right; repeat split; reflexivity. }
    destruct H as [(Hc & -> & ->) | (-> & -> & ->)].
    - rewrite Bool.xorb_true_r. rewrite pref_crossed by exact Hc.
      set (f := natural ch (mkLegs x y z t)).
      rewrite (int_ext _ HJ (core h k ch s a b d e f)
        (core (negb h) (mirror true k) (crossed_at ch) (1 - s) a b e d (- fst (fst f), snd f, snd (fst f))%Q)).
      2: { intros q. destruct f as ((w0, v), v'). apply core_in_at; assumption. }
      rewrite (J_core_m (negb h) (mirror true k) (crossed_at ch) (1 - s) a b e d (- fst (fst f), snd f, snd (fst f))%Q
        (natural (crossed_at ch) (swap_in_f (mkLegs x y z t))) Sp').
      + ring.
      + unfold f. destruct ch; try congruence; cbn [crossed_at]; nat_eq; try rewrite X; field.
    - rewrite Bool.xorb_false_r. cbn [mirror].
      rewrite (J_neg_reflect (core h k Cp s a b d e (natural Cp (mkLegs x y z t)))
        (core h k Cp (1 - s) a b e d (x + y, (x - y) / 2, - ((z - t) / 2))%Q)).
      2: { intros q. apply core_in_p; assumption. }
      rewrite (J_core_m h k Cp (1 - s) a b e d (x + y, (x - y) / 2, - ((z - t) / 2))%Q (natural Cp (swap_in_f (mkLegs x y z t))) Sp').
      + ring.
      + nat_eq; field.
  Qed.
  Lemma bubble_conjugation h ch ch' fl k s kl l : carried in_out_k ch ch' fl -> klegs_ok kl -> conserved l -> spin01 s ->
    (F h ch k s kl l == conj_of kl (F (xorb h fl) ch' (mirror fl k) s (in_out_k kl) (in_out_f l)))%C.
  Proof.
    intros Ca0 Hk Co Sp. destruct (klof_kcode kl Hk) as (a & b & d & e & ->). rewrite conj_of_eps, klof_io.
    rewrite !family_core by exact Sp. rewrite conj_mul, pref_conj by exact Hpi.
    destruct l as [x y z t]. unfold conserved in Co. cbn [n1' n2' n1 n2] in Co.
    assert (X : (x == z + t - y)%Q) by (rewrite <- Co; ring).
    assert (H : ch' = ch /\ fl = fl_conj ch) by (destruct ch, ch', fl; try discriminate Ca0; split; reflexivity).
    destruct H as (-> & ->). set (f := natural ch (mkLegs x y z t)).
    set (f' := match ch with Ct => (- fst (fst f), snd (fst f), snd f)%Q | _ => (fst (fst f), snd f, snd (fst f)) end).
    rewrite <- (J_core_m (xorb h (fl_conj ch)) (mirror (fl_conj ch) k) ch s d e a b f' (natural ch (in_out_f (mkLegs x y z t))) Sp).
    2: { unfold f', f. destruct ch; nat_eq; try rewrite X; field. }
    assert (E : (J (core h k ch s a b d e f) == eps4 a b d e *
      Cconj (J (core (xorb h (fl_conj ch)) (mirror (fl_conj ch) k) ch s d e a b f')))%C).
    { unfold f'. destruct f as ((w0, v), v'). cbn [fst snd]. destruct ch; cbn [fl_conj]; rewrite ?Bool.xorb_true_r, ?Bool.xorb_false_r.
      - apply J_eps. intros q. apply core_conj_a; assumption.
      - destruct Sp as [-> | ->].
        + apply J_eps. intros q. etransitivity; [apply core_conj_p; try assumption; left; reflexivity|]. reflexivity.
        + apply J_eps_reflect. intros q. etransitivity; [apply core_conj_p; try assumption; right; reflexivity|]. reflexivity.
      - apply J_eps. intros q. apply core_conj_t; assumption. }
    rewrite E. ring.
  Qed.
  Lemma bubble_reversal h ch k s kl l : reversible c GL -> reversible c GR -> phs c = true -> ph_symmetric g -> ph_symmetric S0 ->
    klegs_ok kl -> conserved l -> spin01 s -> (F h ch k s kl l == conj_of kl (F h ch k s kl (minus_f l)))%C.
  Proof.
    intros R1 R2 Ph Sg SS Hk Co Sp. destruct (klof_kcode kl Hk) as (a & b & d & e & ->). rewrite conj_of_eps.
    rewrite !family_core by exact Sp. rewrite conj_mul, pref_conj by exact Hpi.
    set (f := natural ch l).
    rewrite <- (J_core_m h k ch s a b d e (- fst (fst f), - snd (fst f), - snd f)%Q (natural ch (minus_f l)) Sp).
    2: { unfold f. destruct ch; nat_eq; field. }
    rewrite (J_eps_reflect a b d e (core h k ch s a b d e f) (core h k ch s a b d e (- fst (fst f), - snd (fst f), - snd f)%Q)).
    - ring.
    - intros q. destruct f as ((w0, v), v'). apply core_minus; assumption.
  Qed.
End Symmetric.

(** every bubble of two vertices that obey crossing and complex conjugation obeys them too; the vertices may be full,
    r-irreducible or (from the multiloop expansion) not their own mirror image *)
Theorem C121_bubble_symmetric_partial : forall c uL uR J pi diff g s stL stR GL GR VL VR,
  keldysh c = true -> contour c = false -> integral J -> ~ (pi == 0)%Q -> lines_ok g -> lines_ok s ->
  physical c false GL -> physical c false GR -> operand_ok stL GL -> operand_ok stR GR ->
  (forall h, reads c uL GL h (VL h)) -> (forall h, reads c uR GR h (VR h)) ->
  physical c false (bubble_family J pi diff g s stL stR VL VR).
Proof.
  intros c uL uR J pi diff g s stL stR GL GR VL VR Kc CBc HJ Hpi Hg HS PL PR OL OR RL RR. split.
  - intros. eapply (bubble_of_class_freqs c uL uR J pi diff g s stL stR GL GR VL VR); eassumption.
  - intros h ch ch' fl k sp kl l H Hk Co Sp. 
    rewrite (bubble_exchange_in c uL uR J pi diff g s stL stR GL GR VL VR) with (ch' := ch') (fl := fl) by assumption.
    destruct k; symmetry; apply cscale_neg1.
  - intros h ch ch' fl k sp kl l H Hk Co Sp.
    rewrite (bubble_exchange_out c uL uR J pi diff g s stL stR GL GR VL VR) with (ch' := ch') (fl := fl) by assumption.
    destruct k; symmetry; apply cscale_neg1.
  - intros _ h ch ch' fl k sp kl l H Hk Co Sp.
    rewrite (bubble_conjugation c uL uR J pi diff g s stL stR GL GR VL VR) with (ch' := ch') (fl := fl) by assumption.
    destruct k; reflexivity.
  - congruence.
  - congruence.
Qed.
Print Assumptions C121_bubble_symmetric_partial.
Theorem C121_bubble_reversible_partial : forall c uL uR J pi diff g s stL stR GL GR VL VR,
  keldysh c = true -> contour c = false -> integral J -> ~ (pi == 0)%Q -> lines_ok g -> lines_ok s ->
  physical c false GL -> physical c false GR -> operand_ok stL GL -> operand_ok stR GR ->
  (forall h, reads c uL GL h (VL h)) -> (forall h, reads c uR GR h (VR h)) ->
  ph_symmetric g -> ph_symmetric s -> reversible c GL -> reversible c GR ->
  reversible c (bubble_family J pi diff g s stL stR VL VR).
Proof.
  intros c uL uR J pi diff g s stL stR GL GR VL VR Kc CBc HJ Hpi Hg HS PL PR OL OR RL RR Sg Ss R1 R2. split; [|congruence].
  intros _ Ph h ch k sp kl l Hk Co Sp. apply (bubble_reversal c uL uR J pi diff g s stL stR GL GR VL VR); assumption.
Qed.
Print Assumptions C121_bubble_reversible_partial.
(** the bubble of a vertex with itself is its own mirror image *)
Theorem C121_bubble_mirror_partial : forall c u J pi diff g s st G V,
  keldysh c = true -> contour c = false -> integral J -> lines_ok g -> lines_ok s ->
  self_mirror G -> (forall h, reads c u G h (V h)) ->
  forall ch k sp kl l, klegs_ok kl -> sp = 0 \/ sp = 1 ->
  (bubble_family J pi diff g s st st V V true ch k sp kl l == bubble_family J pi diff g s st st V V false ch k sp kl l)%C.
Proof.
  intros c u J pi diff g s st G V Kc CBc HJ Hg HS M R ch k sp kl l Hk Sp.
  destruct (klof_kcode kl Hk) as (a & b & d & e & ->).
  rewrite !(family_core c u u J pi diff g s st st G G V V HJ Hg HS R R) by exact Sp.
  apply Cmul_m; [reflexivity|]. apply (int_ext _ HJ). intros x. unfold core. apply code_diagram_ext_codes; [exact Sp| | |reflexivity].
  - intros t p q r z Ht. unfold dA. destruct (natural ch l) as ((w0, v), v'). unfold SPL, spec_part, others, total.
    unfold self_mirror in M. destruct (left_dressed k), (is_r_irred st), (is_diff st), ch; rewrite ?M; reflexivity.
  - intros t p q r z Ht. unfold dB. destruct (natural ch l) as ((w0, v), v'). unfold SPR, spec_part, others, total.
    unfold self_mirror in M. destruct (right_dressed k), (is_r_irred st), (is_diff st), ch; rewrite ?M; reflexivity.
Qed.
Print Assumptions C121_bubble_mirror_partial.

(** an example: the sum over two frequencies, simple propagators, a vertex that is its own mirror image on the right *)
Definition J2 (f : Q -> cplx) : cplx := (f 1%Q + f (-1)%Q)%C.
Lemma J2_integral : integral J2.
Proof.
  split; intros; unfold J2.
  - rewrite !H. reflexivity.
  - ring.
  - rewrite !conj_add. reflexivity.
  - change (- (1))%Q with (-1)%Q. change (- (-1))%Q with 1%Q. ring.
Qed.
Definition g1 : prop := Prop_ (fun v => Cplx (v / (v * v + 1)) (- (1 / (v * v + 1)))) (fun v => Cplx 0 (v / (v * v + 1))).
Lemma q1 (v : Q) : ~ (v * v + 1 == 0)%Q.
Proof. intros E. assert (0 <= v * v)%Q by (destruct (Qlt_le_dec v 0); nra). lra. Qed.
Lemma g1_ok : lines_ok g1 /\ ph_symmetric g1.
Proof.
  split; [split; [split|]|].
  - intros x y E. unfold g1; cbn [gR]; split; cbn [re im]; rewrite E; reflexivity.
  - intros x y E. unfold g1; cbn [gK]; split; cbn [re im]; [reflexivity|rewrite E; reflexivity].
  - intros v. reflexivity.
  - intros v. pose proof (q1 v) as N. assert (N' : ~ ((- v) * (- v) + 1 == 0)%Q) by apply q1.
    split; split; unfold g1; cbn [gR gK]; unfold Cneg, Cconj; cbn [re im]; try reflexivity; field; repeat (apply Logic.conj); assumption.
Qed.
Definition both_halves (G : family) : family := fun h ch k s kl l => (G false ch k s kl l + G true ch k s kl l)%C.
Lemma both_physical c G : keldysh c = true -> physical c false G -> physical c false (both_halves G) /\ self_mirror (both_halves G).
Proof.
  intros K [P1 P2 P3 P4 _ _]. split; [split; try congruence|intros ch k s kl l; reflexivity]; unfold both_halves.
  - intros h ch k s kl f f' l l' Hk Sp L L' E. rewrite (P1 false _ _ _ _ _ _ _ _ Hk Sp L L' E), (P1 true _ _ _ _ _ _ _ _ Hk Sp L L' E). reflexivity.
  - intros h ch ch' fl k s kl l H Hk Co Sp. rewrite (P2 false _ _ _ _ _ _ _ H Hk Co Sp), (P2 true _ _ _ _ _ _ _ H Hk Co Sp), cscale_add.
    destruct fl; cbn [xorb]; ring.
  - intros h ch ch' fl k s kl l H Hk Co Sp. rewrite (P3 false _ _ _ _ _ _ _ H Hk Co Sp), (P3 true _ _ _ _ _ _ _ H Hk Co Sp), cscale_add.
    destruct fl; cbn [xorb]; ring.
  - intros _ h ch ch' fl k s kl l H Hk Co Sp. rewrite (P4 K false _ _ _ _ _ _ _ H Hk Co Sp), (P4 K true _ _ _ _ _ _ _ H Hk Co Sp), conj_add, cscale_add.
    destruct fl; cbn [xorb]; ring.
Qed.
Definition reader_of (c : cfg) (u : Q) (G : family) (h : bool) : reader := fun s iK =>
  mkF (irred_expanded (irred_initialize c (Cofq u)) s iK)
    (fun k f => G h Ca k s (kl_of iK) (legs_of Ca f)) (fun k f => G h Cp k s (kl_of iK) (legs_of Cp f))
    (fun k f => G h Ct k s (kl_of iK) (legs_of Ct f)).
Lemma reader_reads c u G h : keldysh c = true -> physical c false G -> reads c u G h (reader_of c u G h).
Proof.
  intros K P. split; [|reflexivity]. intros ch k s kl f l Hk Sp L.
  assert (E : kl_of (kcode kl) = kl).
  { destruct kl as [x y z t]. destruct Hk as (A & B & C & D). cbn [a1' a2' a1 a2] in *.
    destruct A as [-> | ->], B as [-> | ->], C as [-> | ->], D as [-> | ->]; reflexivity. }
  assert (X : (G h ch k s kl (legs_of ch f) == G h ch k s kl l)%C).
  { apply (of_class_freqs _ _ _ P h ch k s kl f f); unfold legs_are, mf; rewrite ?K; cbn [negb andb]; auto.
    - apply legs_eq_refl.
    - destruct f as ((x, y), z). destruct k; repeat (apply Logic.conj); try exact I; reflexivity. }
  destruct ch; cbn [get_r reader_of av pv tv]; rewrite E; exact X.
Qed.
Definition demoL : family := demo demo_c false.
Definition demoR : family := both_halves (demo demo_c false).
Definition show (z : cplx) : Q * Q := (Qred (re z), Qred (im z)).
Definition bubble_demo : family :=
  bubble_family J2 (22 # 7) false g1 g1 non_symmetric_diffleft symmetric_full (reader_of demo_c (-1 # 2) demoL) (reader_of demo_c (-1 # 2) demoR).
Example C121_hyp : integral J2 /\ lines_ok g1 /\ ph_symmetric g1 /\ physical demo_c false demoL /\ ~ self_mirror demoL /\
  physical demo_c false demoR /\ self_mirror demoR /\
  (forall h, reads demo_c (-1 # 2) demoL h (reader_of demo_c (-1 # 2) demoL h)) /\
  (forall h, reads demo_c (-1 # 2) demoR h (reader_of demo_c (-1 # 2) demoR h)) /\
  operand_ok non_symmetric_diffleft demoL /\ operand_ok symmetric_full demoR /\
  (* class K2 of half 1 is the conjugate of class K2' of half 2 *)
  (show (bubble_demo false Cp k2 1 (mkK 1 2 2 2) (legs_of Cp (4, 1, 2)%Q)),
   show (bubble_demo true Cp k2b 1 (mkK 2 2 1 2) (in_out_f (legs_of Cp (4, 1, 2)%Q)))) =
  (-52857 # 55, 9450 # 11, (-52857 # 55, -9450 # 11))%Q.
Proof.
  pose proof (demo_physical demo_c false eq_refl) as PL. destruct (both_physical demo_c _ eq_refl PL) as (PR & MR).
  split; [exact J2_integral|]. split; [apply g1_ok|]. split; [apply g1_ok|]. split; [exact PL|].
  split. { intros M. specialize (M Ca k2 0 (mkK 1 2 2 2) (legs_of Ca (4, 1, 2)%Q)). destruct M as (M & _). vm_compute in M. discriminate M. }
  split; [exact PR|]. split; [exact MR|]. split; [intros h; apply reader_reads; [reflexivity|exact PL]|].
  split; [intros h; apply reader_reads; [reflexivity|exact PR]|]. split; [discriminate|]. split; [intros _; exact MR|].
  vm_compute. reflexivity.
Qed.
