(** Theorems for C120 (symmetrisation over the frequency sectors). *)
From Coq Require Import QArith.
From Verif Require Import Prelude Cplx Keld_Model Util_Model Util_Spec Sym_Model Sym_Spec Tab_Model Tab_Spec
  Tab_Proofs2 Tab_Props Rd_Model Rd_Spec Rd_Proofs Rd_Proofs2 Rd_Proofs3 Rd_Props.
Open Scope Z_scope.

(** if the computed sector holds the values of a vertex with the symmetries, after the symmetrisation every entry that is
    not next to the edge of a finite-temperature Matsubara box is the value of this vertex *)
Theorem C120_symmetrised_vertex_partial : forall c G k ch wl rel ps d,
  (keldysh c = true -> contour c = false) -> physical c false G -> reversible c G -> causal c G ->
  k <> k2b -> proper d -> grid_ok c k wl ps -> distinct ps ->
  holds_sector c G false ch k d ->
  match rel with Some r => holds_sector c G true ch k r | None => holds_sector c G true ch k d end ->
  exists d', enforce c k ch wl rel ps d = Some d' /\
    forall p kl l, In p ps -> klegs_for c kl -> kK p = kcode kl -> legs_are (mf c) ch (kw p, kv1 p, kv2 p) l ->
      edge c k wl p = Some false -> (d' p == G false ch k (ks p) kl l)%C.
Proof.
  intros c G k ch wl rel ps d CB P R Ca Hk Pd Gr Di Hd Hr.
  destruct (C20_entries_from_original_data c k ch wl rel ps d Hk Pd Gr Di) as (d' & E & _ & En & _).
  exists d'. split; [exact E|]. intros p kl l Hp KL EK L Ed. destruct (En p Hp) as (e & Es & ->).
  exact (proj1 (entry_physical c G P R CB k ch wl rel d p e kl l Hk Ca Pd (proj1 (Gr p Hp)) Hd Hr Es KL EK L) Ed).
Qed.
Print Assumptions C120_symmetrised_vertex_partial.
(** next to the edge the entry is dropped, even if it was computed and whatever the vertex is there *)
Theorem C120_dropped_at_edge_refuted : forall c G k ch wl rel ps d p kl l,
  (keldysh c = true -> contour c = false) -> physical c false G -> reversible c G -> causal c G ->
  k <> k2b -> proper d -> grid_ok c k wl ps -> distinct ps ->
  holds_sector c G false ch k d ->
  match rel with Some r => holds_sector c G true ch k r | None => holds_sector c G true ch k d end ->
  In p ps -> klegs_for c kl -> kK p = kcode kl -> legs_are (mf c) ch (kw p, kv1 p, kv2 p) l ->
  edge c k wl p = Some true -> ~ (G false ch k (ks p) kl l == C0)%C ->
  exists d', enforce c k ch wl rel ps d = Some d' /\ d' p = C0 /\ ~ (d' p == G false ch k (ks p) kl l)%C.
Proof.
  intros c G k ch wl rel ps d p kl l CB P R Ca Hk Pd Gr Di Hd Hr Hp KL EK L Ed Nz.
  destruct (C20_entries_from_original_data c k ch wl rel ps d Hk Pd Gr Di) as (d' & E & _ & En & _).
  exists d'. split; [exact E|]. destruct (En p Hp) as (e & Es & ->).
  rewrite (proj2 (entry_physical c G P R CB k ch wl rel d p e kl l Hk Ca Pd (proj1 (Gr p Hp)) Hd Hr Es KL EK L) Ed).
  split; [reflexivity|]. intro H. apply Nz. symmetry. exact H.
Qed.
Print Assumptions C120_dropped_at_edge_refuted.

(** ** examples *)
(** the family of C118 without the components that vanish by causality *)
Definition demo0 (c : cfg) : family := fun h ch k s kl l =>
  if keldysh c && vanishes false ch k kl then C0 else demo c false h ch k s kl l.
Lemma vanishes_moves : forall Q ch ch' fl k kl, klegs_ok kl -> Q = swap_in_k \/ Q = swap_out_k \/ Q = in_out_k ->
  carried Q ch ch' fl -> vanishes false ch' (mirror fl k) (Q kl) = vanishes false ch k kl.
Proof.
  intros Q ch ch' fl k [a b d e] (A & B & C & D) HQ H. cbn [a1' a2' a1 a2] in A, B, C, D.
  destruct HQ as [-> | [-> | ->]]; destruct ch, ch', fl; try discriminate H; destruct k, A, B, C, D; subst; reflexivity.
Qed.
Lemma energy_even : forall h ch k l, (energy h ch k (minus_f l) == energy h ch k l)%Q.
Proof.
  intros h ch k [x y z t]. destruct ch, k, h; unfold energy, sq2, lw, rw, minus_f;
  cbn [transfer left_f right_f fst snd n1' n2' n1 n2]; ring.
Qed.
Lemma demo0_physical : forall c, mf c = false -> physical c false (demo0 c) /\ reversible c (demo0 c) /\ causal c (demo0 c).
Proof.
  intros c M. pose proof (demo_physical c false M) as [P1 P2 P3 P4 P5 P6].
  assert (Z0 : forall q, (C0 == Cscale q C0)%C) by (intro; split; unfold Cscale, C0; cbn [re im]; ring).
  assert (Z1 : forall q, (C0 == Cscale q (Cconj C0))%C) by (intro; split; unfold Cscale, Cconj, C0; cbn [re im]; ring).
  split; [split|split; [split|]].
  - intros h ch k s kl f f' l l' Hk Sp L L' Sm. unfold demo0. destruct (keldysh c && vanishes false ch k kl); [reflexivity|]. eapply P1; eassumption.
  - intros h ch ch' fl k s kl l H Hk Co Sp. unfold demo0. rewrite (vanishes_moves _ _ _ _ k kl Hk (or_introl eq_refl) H).
    destruct (keldysh c && vanishes false ch k kl); [apply Z0|apply P2; assumption].
  - intros h ch ch' fl k s kl l H Hk Co Sp. unfold demo0. rewrite (vanishes_moves _ _ _ _ k kl Hk (or_intror (or_introl eq_refl)) H).
    destruct (keldysh c && vanishes false ch k kl); [apply Z0|apply P3; assumption].
  - intros K h ch ch' fl k s kl l H Hk Co Sp. unfold demo0. rewrite (vanishes_moves _ _ _ _ k kl Hk (or_intror (or_intror eq_refl)) H).
    destruct (keldysh c && vanishes false ch k kl); [apply Z1|apply P4; assumption].
  - intros K h ch ch' fl k s kl l H Co Sp. unfold demo0. rewrite K. cbn [andb]. apply P5; assumption.
  - intros K Ph h ch k s kl l. unfold demo0. rewrite K. cbn [andb]. apply P6; assumption.
  - intros K Ph h ch k s kl l Hk Co _. unfold demo0. destruct (keldysh c && vanishes false ch k kl); [apply Z1|].
    unfold demo. rewrite energy_even. unfold unit_of. rewrite K. cbn [negb orb].
    assert (D : conjugation_sign false k kl = conj_factor kl) by (destruct k; reflexivity). rewrite D.
    assert (D2 : conj_factor kl = 1%Q \/ conj_factor kl = (-1)%Q) by (unfold conj_factor; destruct (Z.even _); auto).
    destruct D2 as [-> | ->]; [change (Qeq_bool 1 1) with true|change (Qeq_bool (-1) 1) with false]; cbv iota;
    split; unfold Cscale, Cconj, C1, Ci; cbn [re im]; ring.
  - intros K h ch k s kl l Co. unfold demo0. rewrite K. cbn [andb]. unfold demo. rewrite energy_even.
    unfold unit_of. rewrite K. cbn [negb orb]. split; unfold Cscale, Cconj, C1; cbn [re im]; ring.
  - intros K h ch k s kl l _ _ V. unfold demo0. rewrite K, V. reflexivity.
Qed.
(** data at the computed points only *)
Definition sector (c : cfg) (h : bool) (ch : chan) (k : kcl) : buffer := fun p =>
  let p := mkKey (kK p) (ks p) (Qred (kw p)) (Qred (kv1 p)) (Qred (kv2 p)) in
  match computed c ch k p with
  | Some true => demo0 c h ch k (ks p) (kl_of (kK p)) (legs_of ch (kw p, kv1 p, kv2 p))
  | _ => C0
  end.
Lemma sign_index_eq : forall x y, (x == y)%Q -> sign_index x = sign_index y.
Proof. intros x y E. unfold sign_index. rewrite E. reflexivity. Qed.
Lemma sector_proper : forall c h ch k, proper (sector c h ch k).
Proof.
  intros c h ch k a b E. apply keq_iff in E. destruct E as (E1 & E2 & E3 & E4 & E5). unfold sector.
  rewrite E1, E2, (Qred_complete _ _ E3), (Qred_complete _ _ E4), (Qred_complete _ _ E5). reflexivity.
Qed.
Lemma computed_eq : forall c ch k p q, mf c = false -> keq p q -> computed c ch k p = computed c ch k q.
Proof.
  intros c ch k p q M E. apply keq_iff in E. destruct E as (_ & _ & E3 & E4 & E5). unfold computed, trafo_index.
  assert (A : sign_index (kv1 p + kv2 p) = sign_index (kv1 q + kv2 q)) by (apply sign_index_eq; rewrite E4, E5; reflexivity).
  assert (B : sign_index (kv1 p - kv2 p) = sign_index (kv1 q - kv2 q)) by (apply sign_index_eq; rewrite E4, E5; reflexivity).
  rewrite B, (sign_index_eq _ _ E3), (sign_index_eq _ _ E4). destruct k; try reflexivity. rewrite A. reflexivity.
Qed.
Lemma sector_holds : forall c h ch k, mf c = false -> holds_sector c (demo0 c) h ch k (sector c h ch k).
Proof.
  intros c h ch k M p kl l Co Hs KL EK L. unfold sector. cbn [kK ks kw kv1 kv2].
  rewrite (computed_eq c ch k _ p M) by (apply keq_iff; cbn [kK ks kw kv1 kv2]; repeat split; apply Qred_correct).
  rewrite Co, EK.
  assert (E : kl_of (kcode kl) = kl).
  { destruct KL as ((A & B & C & D) & _). destruct kl as [x y z t]. cbn [a1' a2' a1 a2] in *.
    destruct A as [-> | ->], B as [-> | ->], C as [-> | ->], D as [-> | ->]; reflexivity. }
  rewrite E. eapply (of_class_freqs _ _ _ (proj1 (demo0_physical c M))).
  - exact (proj1 KL).
  - lia.
  - unfold legs_are. rewrite M. repeat split; reflexivity.
  - exact L.
  - destruct k; cbn [same_class_freqs]; repeat split; apply Qred_correct.
Qed.
Definition demo_ps : list key := [mkKey 6 0 4 3 (-1); mkKey 6 0 (-4) 3 (-1); mkKey 15 0 4 3 1]%Q.
Example C120_hyp : physical demo_c false (demo0 demo_c) /\ reversible demo_c (demo0 demo_c) /\ causal demo_c (demo0 demo_c) /\
  proper (sector demo_c false Ca k3) /\ holds_sector demo_c (demo0 demo_c) false Ca k3 (sector demo_c false Ca k3) /\
  holds_sector demo_c (demo0 demo_c) true Ca k3 (sector demo_c true Ca k3) /\
  grid_ok demo_c k3 0 demo_ps /\ distinct demo_ps /\
  map (sector demo_c false Ca k3) demo_ps = [C0; C0; C0] /\
  option_map (fun d => map (fun p => (Qred (re (d p)), Qred (im (d p)))) demo_ps)
    (enforce demo_c k3 Ca 0 (Some (sector demo_c true Ca k3)) demo_ps (sector demo_c false Ca k3)) = Some [(0, 62); (0, 62); (0, 0)]%Q /\
  (demo0 demo_c false Ca k3 0 (kl_of 6) (legs_of Ca (4, 3, -1)%Q) == Cplx 0 62)%C.
Proof.
  assert (M : mf demo_c = false) by reflexivity. destruct (demo0_physical demo_c M) as (A & B & C).
  split; [exact A|]. split; [exact B|]. split; [exact C|]. split; [apply sector_proper|].
  split; [apply sector_holds; exact M|]. split; [apply sector_holds; exact M|].
  split; [intros p [<-|[<-|[<-|[]]]]; (split; [split; [cbn; lia|split; [cbn; lia|discriminate]]|intro; discriminate])|].
  split; [unfold demo_ps|].
  - repeat (constructor; [intros q Hq H; cbn [In] in Hq;
      repeat match goal with X : _ \/ _ |- _ => destruct X as [<-|X] end; try contradiction; vm_compute in H; discriminate|]). constructor.
  - split; [vm_compute; reflexivity|]. split; [vm_compute; reflexivity|]. split; vm_compute; reflexivity.
Qed.
(** at finite temperature: a family that depends on the transfer frequency, and a point of class K2 next to the edge *)
Definition demo_c2 : cfg := mkCfg false false true false 51.
Definition demo2 : family := fun h ch k s kl l => Cofq ((if s =? 0 then 1 else -1) * (1 + transfer ch l * transfer ch l))%Q.
Lemma transfer_is : forall ch w v v' l, legs_are true ch (w, v, v') l -> (transfer ch l == w)%Q.
Proof.
  intros ch w v v' l (lo & hi & (_ & _ & E & _) & (A & B & C & D)).
  destruct ch; cbn [transfer legs_split n1' n2' n1 n2] in *; rewrite ?A, ?B, ?C, ?D, <- E; ring.
Qed.
Lemma demo2_physical : physical demo_c2 false demo2 /\ reversible demo_c2 demo2 /\ causal demo_c2 demo2.
Proof.
  assert (TM : forall F ch ch' fl l, conserved l ->
    (carried swap_in_k ch ch' fl /\ F = swap_in_f) \/ (carried swap_out_k ch ch' fl /\ F = swap_out_f) \/
    (carried in_out_k ch ch' fl /\ F = (fun l => minus_f (in_out_f l))) ->
    (transfer ch l * transfer ch l == transfer ch' (F l) * transfer ch' (F l))%Q).
  { intros F ch ch' fl [x y z t] Co H. unfold conserved in Co. cbn [n1' n2' n1 n2] in Co.
    assert (X : (x == z + t - y)%Q) by (rewrite <- Co; ring).
    destruct H as [(H & ->) | [(H & ->) | (H & ->)]]; destruct ch, ch', fl; try discriminate H;
    cbn [swap_in_f swap_out_f in_out_f minus_f transfer n1' n2' n1 n2]; try rewrite X; ring. }
  split; [split|split; [split|]]; try discriminate.
  - intros h ch k s kl ((w0, v), v') ((x, y), y') l l' _ _ L L' (E & _). unfold demo2.
    change (mf demo_c2) with true in L, L'. split; unfold Cofq; cbn [re im]; [|reflexivity].
    rewrite (transfer_is _ _ _ _ _ L), (transfer_is _ _ _ _ _ L'), E. reflexivity.
  - intros h ch ch' fl k s kl l H Hk Co Sp. unfold demo2. pose proof (TM swap_in_f ch ch' fl l Co (or_introl (Logic.conj H eq_refl))) as T.
    destruct Sp as [-> | ->], k; split; unfold Cofq, Cscale, exchange_sign; cbn [re im]; change (1 - 1) with 0; change (1 - 0) with 1;
    change (0 =? 0) with true; change (1 =? 0) with false; cbv iota; try rewrite T; ring.
  - intros h ch ch' fl k s kl l H Hk Co Sp. unfold demo2. pose proof (TM swap_out_f ch ch' fl l Co (or_intror (or_introl (Logic.conj H eq_refl)))) as T.
    destruct Sp as [-> | ->], k; split; unfold Cofq, Cscale, exchange_sign; cbn [re im]; change (1 - 1) with 0; change (1 - 0) with 1;
    change (0 =? 0) with true; change (1 =? 0) with false; cbv iota; try rewrite T; ring.
  - intros K h ch ch' fl k s kl l H Co Sp. unfold demo2.
    pose proof (TM (fun l => minus_f (in_out_f l)) ch ch' fl l Co (or_intror (or_intror (Logic.conj H eq_refl)))) as T.
    split; unfold Cofq, Cconj; cbn [re im]; try rewrite T; ring.
  - reflexivity.
  - intros K h ch k s kl [x y z t] Co. unfold demo2. split; unfold Cofq, Cconj, minus_f; cbn [re im]; [|ring].
    destruct ch; cbn [transfer n1' n2' n1 n2]; ring.
Qed.
Definition whole (ch : chan) : buffer := fun p => Cofq ((if ks p =? 0 then 1 else -1) * (1 + Qred (kw p) * Qred (kw p)))%Q.
Lemma whole_holds : forall h ch k, holds_sector demo_c2 demo2 h ch k (whole ch).
Proof.
  intros h ch k p kl l _ _ _ _ L. change (mf demo_c2) with true in L. unfold demo2, whole.
  split; unfold Cofq; cbn [re im]; [|reflexivity]. rewrite (transfer_is _ _ _ _ _ L), !Qred_correct. reflexivity.
Qed.
Example C120_edge_hyp : let p := mkKey 0 0 2 7 0 in
  physical demo_c2 false demo2 /\ reversible demo_c2 demo2 /\ causal demo_c2 demo2 /\
  proper (whole Ca) /\ grid_ok demo_c2 k2 (-7) [p; mkKey 0 0 2 5 0] /\ distinct [p; mkKey 0 0 2 5 0] /\
  holds_sector demo_c2 demo2 false Ca k2 (whole Ca) /\ holds_sector demo_c2 demo2 true Ca k2 (whole Ca) /\
  klegs_for demo_c2 (mkK 1 1 1 1) /\ legs_are true Ca (2, 7, 0)%Q (mkLegs 7 2 0 9) /\
  edge demo_c2 k2 (-7) p = Some true /\ edge demo_c2 k2 (-7) (mkKey 0 0 2 5 0) = Some false /\
  (demo2 false Ca k2 0 (mkK 1 1 1 1) (mkLegs 7 2 0 9) == Cofq 5)%C /\
  option_map (fun d => (Qred (re (d p)), Qred (re (d (mkKey 0 0 2 5 0))))) (enforce demo_c2 k2 Ca (-7) None [p; mkKey 0 0 2 5 0] (whole Ca)) = Some (0, 5)%Q.
Proof.
  cbv zeta. destruct demo2_physical as (A & B & C). split; [exact A|]. split; [exact B|]. split; [exact C|]. split.
  { intros a b E. apply keq_iff in E. destruct E as (E1 & E2 & E3 & _). unfold whole. rewrite E2, (Qred_complete _ _ E3). reflexivity. }
  split.
  { intros p [<-|[<-|[]]]; (split; [split; [reflexivity|split; [cbn; lia|intros _; exists 1; reflexivity]]|intros _; cbn; discriminate]). }
  split.
  { repeat (constructor; [intros q Hq H; cbn [In] in Hq;
      repeat match goal with X : _ \/ _ |- _ => destruct X as [<-|X] end; try contradiction; vm_compute in H; discriminate|]). constructor. }
  split; [apply whole_holds|]. split; [apply whole_holds|].
  split; [split; [repeat split; cbn; unfold is12; lia|reflexivity]|].
  split; [exists 0%Q, 2%Q; split; [|repeat split; reflexivity]|].
  { split; [exists 0; reflexivity|]. split; [exists 1; reflexivity|]. split; [reflexivity|]. repeat split; cbn; discriminate. }
  split; [reflexivity|]. split; [reflexivity|]. split; [split; reflexivity|]. vm_compute. reflexivity.
Qed.
