(** C132: the self-check of the vertex symmetries (check_symmetries). *)
From Coq Require Import QArith Setoid Morphisms.
From Verif Require Import Prelude Cplx Keld_Model Util_Model Util_Spec Sym_Model Sym_Spec Tab_Model Tab_Spec
  Rd_Model Rd_Spec Csy_Model.
From Verif Require Rd_Proofs Csy_Proofs Rd_Props Rd_Props2.
Open Scope Z_scope.

(** No false alarm: a vertex with the symmetries of a physical vertex has no deviations, and zero is printed. *)
Theorem C132_no_false_alarm_partial : forall c G ch k this crossing es,
  (keldysh c = true -> contour c = false) -> physical c false G -> reversible c G ->
  (forall ch k s kl l, (G true ch k s kl l == G false ch k s kl l)%C) ->
  stores c true G false ch this -> stores c true G false (crossed ch) crossing ->
  (forall s iK f, In (s, iK, f) es -> (s = 0 \/ s = 1) /\
     (exists kl l, klegs_for c kl /\ iK = kcode kl /\ legs_are (mf c) ch f l) /\ (mf c = true -> bosonic (fst (fst f)))) ->
  exists devs, check_class c false k this crossing es = Some devs
  /\ Forall (fun d => d == C0)%C devs
  /\ forall vals p, printed2 devs vals = Some p -> (p == 0)%Q.
Proof.
  intros c G ch k this crossing es CB P R HS S1 S2 HE.
  assert (X : exists devs, check_class c false k this crossing es = Some devs /\ Forall (fun d => d == C0)%C devs).
  { unfold check_class. induction es as [|((s, iK), f) es IH].
    - exists []. split; [reflexivity|constructor].
    - destruct IH as (devs & E & F). { intros s' iK' f' H. apply HE. right. exact H. }
      destruct (HE s iK f (or_introl eq_refl)) as (Sp & (kl & l & KL & -> & L) & B).
      destruct (Csy_Proofs.check_zero c G P R CB HS k ch s kl f l this crossing S1 S2 KL Sp L B) as (d & ED & D0).
      exists (d :: devs). cbn [map osequence]. rewrite ED. cbn [obind]. rewrite E. cbn [obind].
      split; [reflexivity|constructor; assumption]. }
  destruct X as (devs & E & F). exists devs. split; [exact E|]. split; [exact F|].
  intros vals p. unfold printed2. destruct (Qle_bool (max2 vals) (1 # 10 ^ 60)); [discriminate|].
  intros H. injection H as <-. rewrite (Csy_Proofs.max2_zero devs F). unfold Qdiv. ring.
Qed.
Print Assumptions C132_no_false_alarm_partial.

(** What is detected: in the channels a and t a vanishing deviation of an entry with spin 1 means that exchange of the
    outgoing legs relates it to spin 0 of the other channel. *)
Theorem C132_exchange_detected_partial : forall c ch k this crossing kl f d,
  keldysh c = true -> ch = Ca \/ ch = Ct -> k <> k2b -> klegs_ok kl ->
  channel this = ch -> channel crossing = crossed ch ->
  check_entry c false k this crossing 1 (kcode kl) f = Some d -> (d == C0)%C ->
  let '(w, v, v') := f in
  match k with
  | k1 => bK1 this 1 (kcode kl) w == - bK1 crossing 0 (kcode (swap_out_k kl)) w
  | k2 => bK2 this 1 (kcode kl) w v == - bK2 crossing 0 (kcode (swap_out_k kl)) w v
  | k2b => True
  | k3 => bK3 this 1 (kcode kl) w v v' == - bK3 crossing 0 (kcode (swap_out_k kl)) w v v'
  end%C.
Proof.
  intros c ch k this crossing kl [[o n] n'] d K HC Hk KL Ct1 Ct2 E D0.
  assert (SW : swap01 (kcode kl) = Some (kcode (swap_out_k kl))).
  { destruct kl as [x y z t], KL as (A & B & C & D). cbn [a1' a2' a1 a2] in *.
    destruct A as [-> | ->], B as [-> | ->], C as [-> | ->], D as [-> | ->]; vm_compute; reflexivity. }
  assert (X : (d == read_value true k (indices_of (expand_input k (kcode kl) 1 (o, n, n')) ch) this
                    + read_value true k (mkI (kcode (swap_out_k kl)) 0 o
                        (in_v1 (expand_input k (kcode kl) 1 (o, n, n'))) (in_v2 (expand_input k (kcode kl) 1 (o, n, n')))
                        0 1 false false ch) crossing)%C).
  { unfold check_entry in E. unfold symmetry_reduce in E.
    rewrite Ct1 in E.
    destruct HC as [-> | ->]; destruct k; try congruence;
    cbn [transformations expand_input in_spin crossed] in *; rewrite ?K in E; cbn [Z.eqb Pos.eqb obind] in E;
    match goal with E : context [Ti c ?sb ?x 2] |- _ => change (Ti c sb x 2) with (T2 c sb x) in E end;
    unfold T2, indices_of in E; cbn [iK spin w v1 v2 iw_r prefactor conjugate asymmetry_transform channel_rvert in_iK in_spin in_w in_v1 in_v2] in E;
    rewrite K, SW in E; cbn [obind lambda_class fst snd asymmetry_transform channel_rvert switch_channel ch_eqb] in E;
    unfold read_symmetryreduced in E; cbn [channel_rvert prefactor conjugate] in E; rewrite ?Ct1, ?Ct2 in E;
    cbn [ch_eqb andb orb obind] in E; rewrite ?andb_false_r in E; cbn [andb] in E; injection E as <-;
    unfold read_value, indices_of; cbn [iK spin w v1 v2 in_iK in_spin in_w in_v1 in_v2 Z.sub Z.add Z.opp Pos.compare];
    change (1 - 1) with 0; unfold Ceq, Cscale, Csub, Cadd; cbn [re im]; split; ring. }
  rewrite D0 in X. clear E D0.
  destruct k; try congruence; unfold read_value, indices_of in X;
  cbn [expand_input iK spin w v1 v2 in_iK in_spin in_w in_v1 in_v2] in X; try exact I;
  match goal with |- (?a == - ?b)%C => setoid_replace a with (a + b - b)%C by ring; rewrite <- X; ring end.
Qed.
Print Assumptions C132_exchange_detected_partial.

(** What is not: a vertex whose component (1'2'|12) = (11|12) of K1 in channel t is not the conjugate of (12|11) passes. *)
Definition wrong (ch : chan) : rv :=
  let z := fun s : Z => if s =? 0 then Ci else (- Ci)%C in
  mkRv ch (fun s _ _ => match ch with Cp => C0 | _ => z s end)
    (fun _ _ _ _ => C0) (fun _ _ _ _ => C0) (fun _ _ _ _ _ => C0).
Lemma z0_read : forall c k y ch, k <> k1 -> channel_rvert y = ch ->
  exists v, read_symmetryreduced c true k y (wrong ch) = Some v /\ (v == C0)%C.
Proof.
  intros c k y ch Hk Ec. unfold read_symmetryreduced, wrong. cbn [channel]. rewrite Ec.
  replace (ch_eqb ch ch) with true by (destruct ch; reflexivity). eexists. split; [reflexivity|].
  destruct k; try congruence; unfold read_value; cbn [bK2 bK2b bK3];
  destruct ((keldysh c || negb (phs c)) && conjugate y); unfold Ceq, Cscale, Cconj, C0; cbn [re im]; split; ring.
Qed.
Definition cK : cfg := mkCfg true false true false 51.
Theorem C132_conjugation_missed_refuted :
  (forall s kl f k, (s = 0 \/ s = 1) -> klegs_ok kl -> exists d,
     check_entry cK false k (wrong Ct) (wrong Ca) s (kcode kl) f = Some d /\ (d == C0)%C)
  /\ ~ (exists G, physical cK false G /\ stores cK true G false Ct (wrong Ct)).
Proof.
  split.
  - intros s kl [[w v] v'] k Sp KL.
    assert (SI : forall q, sign_index q = 0 \/ sign_index q = 1) by (intros q; unfold sign_index; destruct (negb _); auto).
    destruct kl as [x y z t], KL as (A & B & C & D). cbn [a1' a2' a1 a2] in *.
    unfold check_entry, symmetry_reduce, check_index.
    destruct Sp as [-> | ->]; destruct k; cbn [transformations expand_input in_spin in_w in_v1 in_v2 wrong channel keldysh cK Z.eqb Pos.eqb andb obind freq_transformations phs];
    repeat match goal with |- context [sign_index ?q] => destruct (SI q) as [-> | ->] end;
    destruct A as [-> | ->], B as [-> | ->], C as [-> | ->], D as [-> | ->];
    (eexists; split; [vm_compute; reflexivity|vm_compute; split; reflexivity]).
  - intros (G & P & (_ & S1)).
    set (kl := mkK 1 1 1 2). set (kl' := mkK 1 2 1 1).
    assert (KF : klegs_for cK kl /\ klegs_for cK kl').
    { split; (split; [repeat split; cbn; unfold is12; lia|discriminate]). }
    set (l := legs_of Ct (0, 0, 0)%Q).
    assert (L : legs_are (mf cK) Ct (0, 0, 0)%Q l) by (cbn; repeat split; reflexivity).
    destruct (S1 0 kl 0%Q 0%Q 0%Q l (or_introl eq_refl) (proj1 KF) L) as (A & _).
    assert (L' : legs_are (mf cK) Ct (0, 0, 0)%Q (in_out_f l)) by (cbn; repeat split; reflexivity).
    destruct (S1 0 kl' 0%Q 0%Q 0%Q (in_out_f l) (or_introl eq_refl) (proj2 KF) L') as (B & _).
    pose proof (conjugation_keldysh _ _ _ P eq_refl false Ct Ct false k1 0 kl l eq_refl (proj1 (proj1 KF))
      (Rd_Proofs.legs_are_conserved _ _ _ _ L) (or_introl eq_refl)) as C.
    change (xorb false false) with false in C. change (mirror false k1) with k1 in C.
    change (in_out_k kl) with kl' in C. rewrite <- A, <- B in C.
    destruct C as (_ & C). vm_compute in C. discriminate C.
Qed.
Print Assumptions C132_conjugation_missed_refuted.

(** If a class vanishes, the data written for it are not finite. *)
Theorem C132_file_refuted : exists k vals, Forall (fun z => z = C0) vals /\ vals <> [] /\ file_factor2 k vals = None.
Proof. exists k2, [C0; C0]. split; [repeat constructor|]. split; [discriminate|reflexivity]. Qed.
Print Assumptions C132_file_refuted.

(** a vertex that is its own mirror image and obeys all hypotheses *)
Definition both (G : family) : family := fun h ch k s kl l => (G h ch k s kl l + G (negb h) ch k s kl l)%C.
Lemma cscale_plus q a b : (Cscale q (a + b) == Cscale q a + Cscale q b)%C.
Proof. unfold Ceq, Cscale, Cadd; cbn [re im]; split; ring. Qed.
Lemma conj_plus a b : (Cconj (a + b) == Cconj a + Cconj b)%C.
Proof. unfold Ceq, Cconj, Cadd; cbn [re im]; split; ring. Qed.
Lemma nxor h fl : negb (xorb h fl) = xorb (negb h) fl.
Proof. destruct h, fl; reflexivity. Qed.
Lemma both_physical c G : physical c false G -> reversible c G ->
  physical c false (both G) /\ reversible c (both G) /\
  (forall ch k s kl l, (both G true ch k s kl l == both G false ch k s kl l)%C).
Proof.
  intros [P1 P2 P3 P4 P5 P6] [R1 R2]. unfold both.
  split; [split|split; [split|]].
  - intros h ch k s kl f f' l l' A B C D E. rewrite (P1 h ch k s kl f f' l l'), (P1 (negb h) ch k s kl f f' l l') by assumption. reflexivity.
  - intros h ch ch' fl k s kl l A B C D. rewrite (P2 h ch ch' fl), (P2 (negb h) ch ch' fl), cscale_plus, nxor by assumption. reflexivity.
  - intros h ch ch' fl k s kl l A B C D. rewrite (P3 h ch ch' fl), (P3 (negb h) ch ch' fl), cscale_plus, nxor by assumption. reflexivity.
  - intros K h ch ch' fl k s kl l A B C D. rewrite (P4 K h ch ch' fl), (P4 K (negb h) ch ch' fl), conj_plus, cscale_plus, nxor by assumption. reflexivity.
  - intros K h ch ch' fl k s kl l A C D. rewrite (P5 K h ch ch' fl), (P5 K (negb h) ch ch' fl), conj_plus, nxor by assumption. reflexivity.
  - intros K Ph h ch k s kl l. cbn [im Cadd]. unfold Cadd; cbn [im]. rewrite (P6 K Ph), (P6 K Ph). reflexivity.
  - intros K Ph h ch k s kl l A B C. rewrite (R1 K Ph h), (R1 K Ph (negb h)), conj_plus, cscale_plus by assumption. reflexivity.
  - intros K h ch k s kl l A. rewrite (R2 K h), (R2 K (negb h)), conj_plus by assumption. reflexivity.
  - intros ch k s kl l. cbn [negb]. ring.
Qed.
Definition Gd : family := both (Rd_Props2.demo0 Rd_Props.demo_c).
Definition Gd_rv (ch : chan) : rv :=
  let g k s iK w v v' := Gd false ch k s (Rd_Props.kl_of iK) (legs_of ch (w, v, v')) in
  mkRv ch (fun s iK w => g k1 s iK w 0 0)%Q (fun s iK w v => g k2 s iK w v 0)%Q (fun s iK w v' => g k2b s iK w 0 v')%Q
    (g k3).
Lemma Gd_ok : physical Rd_Props.demo_c false Gd /\ reversible Rd_Props.demo_c Gd /\
  (forall ch k s kl l, (Gd true ch k s kl l == Gd false ch k s kl l)%C).
Proof. destruct (Rd_Props2.demo0_physical Rd_Props.demo_c eq_refl) as (A & B & _). exact (both_physical _ _ A B). Qed.
Lemma Gd_stores ch : stores Rd_Props.demo_c true Gd false ch (Gd_rv ch).
Proof.
  split; [reflexivity|]. intros s kl w v v' l Sp ((A & B & C & D) & _) L.
  assert (E : Rd_Props.kl_of (kcode kl) = kl).
  { destruct kl as [x y z t]. cbn [a1' a2' a1 a2] in *.
    destruct A as [-> | ->], B as [-> | ->], C as [-> | ->], D as [-> | ->]; reflexivity. }
  pose proof (of_class_freqs _ _ _ (proj1 Gd_ok)) as F.
  assert (R : forall f, legs_are (mf Rd_Props.demo_c) ch f (legs_of ch f))
    by (intros ((a, b), d); destruct ch; repeat split; reflexivity).
  unfold Gd_rv. cbn [bK1 bK2 bK2b bK3]. rewrite E.
  assert (KO : klegs_ok kl) by (repeat split; assumption).
  assert (Sp' : s = 0 \/ s = 1) by (destruct Sp as [Sp|(_ & Sp)]; auto).
  split; [|split; [|split; [intros _|]]]; (eapply F; [exact KO|exact Sp'|apply R|exact L|]);
  repeat split; reflexivity.
Qed.
Example C132_hyp :
  physical Rd_Props.demo_c false Gd /\ reversible Rd_Props.demo_c Gd /\
  (forall ch, stores Rd_Props.demo_c true Gd false ch (Gd_rv ch)) /\
  map (fun e : Z * Z * (Q * Q * Q) => let '(s, iK, f) := e in
         let z := Gd false Ca k3 s (Rd_Props.kl_of iK) (legs_of Ca f) in (Qred (re z), Qred (im z)))
    [(0, 6, (4, 3, -1)%Q); (1, 7, (4, 3, 1)%Q)] = [(0, 140); (-140, 0)]%Q /\
  option_map (map (fun z => (Qred (re z), Qred (im z))))
    (check_class Rd_Props.demo_c false k3 (Gd_rv Ca) (Gd_rv Ct) [(0, 6, (4, 3, -1)%Q); (1, 7, (4, 3, 1)%Q)]) = Some [(0, 0); (0, 0)]%Q /\
  option_map (map (fun z => (Qred (re z), Qred (im z))))
    (check_class Rd_Props.demo_c false k3 (Gd_rv Ca) (Gd_rv Ca) [(1, 7, (4, 3, 1)%Q)]) = None.
Proof.
  split; [apply Gd_ok|]. split; [apply Gd_ok|]. split; [apply Gd_stores|].
  split; [vm_compute; reflexivity|]. split; vm_compute; reflexivity.
Qed.
(** a vertex whose t-channel part is missing is noticed *)
Example C132_hyp2 :
  option_map (map (fun z => (Qred (re z), Qred (im z))))
    (check_class Rd_Props.demo_c false k3 (Gd_rv Ca)
       (mkRv Ct (fun _ _ _ => C0) (fun _ _ _ _ => C0) (fun _ _ _ _ => C0) (fun _ _ _ _ _ => C0)) [(1, 7, (4, 3, 1)%Q)])
  = Some [(-140, 0)]%Q.
Proof. vm_compute; reflexivity. Qed.
