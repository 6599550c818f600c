(** Theorems for C118 (reading a vertex through its symmetries) and C119 (symmetries of the bare vertex). *)
From Coq Require Import QArith.
From Verif Require Import Prelude Cplx Keld_Model Util_Model Util_Spec Sym_Model Sym_Spec Tab_Model Tab_Spec
  Rd_Model Rd_Spec Rd_Proofs Rd_Proofs2.
Open Scope Z_scope.

(** ** C118 *)
(** reading through the tabulated transformations returns the value of the vertex, for both spins and all classes, with
    the mirror image of the vertex taken where the transformation exchanges its sides *)
Theorem C118_read_by_symmetry_partial : forall c sbe G k ch s kl w v v' l this crossing same switched,
  (keldysh c = true -> contour c = false) -> physical c sbe G ->
  stores c false G false ch this -> stores c false G false (crossed ch) crossing ->
  stores c false G true ch same -> stores c false G true (crossed ch) switched ->
  klegs_for c kl -> s = 0 \/ s = 1 -> legs_are (mf c) ch (w, v, v') l -> (mf c = true -> bosonic w) ->
  exists z, valsmooth c sbe false k this crossing same switched (mkIn (kcode kl) s w v v') = Some z /\
    (z == G false ch k s kl l)%C.
Proof. intros c sbe G k ch s kl w v v' l this crossing same switched CB P. exact (valsmooth_physical c sbe G P k ch s kl w v v' l this crossing same switched CB). Qed.
Print Assumptions C118_read_by_symmetry_partial.
(** a vertex that is its own mirror image *)
Theorem C118_read_symmetric_vertex_partial : forall c sbe G k ch s kl w v v' l this crossing,
  (keldysh c = true -> contour c = false) -> physical c sbe G ->
  (forall ch k s kl l, (G true ch k s kl l == G false ch k s kl l)%C) ->
  stores c false G false ch this -> stores c false G false (crossed ch) crossing ->
  klegs_for c kl -> s = 0 \/ s = 1 -> legs_are (mf c) ch (w, v, v') l -> (mf c = true -> bosonic w) ->
  exists z, valsmooth_symmetric c sbe false k this crossing (mkIn (kcode kl) s w v v') = Some z /\
    (z == G false ch k s kl l)%C.
Proof.
  intros c sbe G k ch s kl w v v' l this crossing CB P HS A B KL Sp L Bo.
  assert (X : forall ch D, stores c false G false ch D -> stores c false G true ch D).
  { intros ch' D (E & H). split; [exact E|]. intros s' kl' w' x x' l' Hs Hk Hl.
    destruct (H s' kl' w' x x' l' Hs Hk Hl) as (H1 & H2 & H3 & H4).
    split; [rewrite HS; exact H1|]. split; [rewrite HS; exact H2|]. split; [discriminate|rewrite HS; exact H4]. }
  exact (valsmooth_physical c sbe G P k ch s kl w v v' l this crossing this crossing CB A B (X _ _ A) (X _ _ B) KL Sp L Bo).
Qed.
Print Assumptions C118_read_symmetric_vertex_partial.
(** with all symmetries switched off every component is stored and read directly, in every basis *)
Theorem C118_read_without_symmetries : forall c sbe G k ch s kl w v v' l this crossing same switched,
  stores c true G false ch this -> klegs_for c kl -> s = 0 \/ s = 1 -> legs_are (mf c) ch (w, v, v') l ->
  exists z, valsmooth c sbe true k this crossing same switched (mkIn (kcode kl) s w v v') = Some z /\
    (z == G false ch k s kl l)%C.
Proof. exact valsmooth_debug. Qed.
Print Assumptions C118_read_without_symmetries.
(** before a bubble in channel B the expanded buffers hold, at (external pair, bubble pair), the value of the vertex *)
Theorem C118_expanded_vertex_partial : forall c sbe dbg G B left k ch s kl w v v' l h1 h2,
  (keldysh c = true -> contour c = false) -> physical c sbe G ->
  stores_full c dbg G false h1 -> stores_full c dbg G true h2 ->
  klegs_for c kl -> s = 0 \/ s = 1 -> legs_are (mf c) ch (w, v, v') l -> (mf c = true -> bosonic w) ->
  exists z, symmetry_expand c sbe dbg B left k ch h1 h2 s (slot B left kl) (Some (w, v, v')) = Some z /\
    (z == G false ch k s kl l)%C.
Proof. exact expand_physical. Qed.
Print Assumptions C118_expanded_vertex_partial.
(** the component with all spins up is the sum of the two others if their buffers have the same frequency grid *)
Theorem C118_expanded_upup_partial : forall c sbe dbg G B left k ch kl w v v' l h1 h2,
  (keldysh c = true -> contour c = false) -> physical c sbe G ->
  stores_full c dbg G false h1 -> stores_full c dbg G true h2 ->
  klegs_for c kl -> legs_are (mf c) ch (w, v, v') l -> (mf c = true -> bosonic w) ->
  exists z, symmetry_expand_upup c sbe dbg B left k ch h1 h2 (slot B left kl) (Some (w, v, v')) (Some (w, v, v')) = Some z /\
    (z == G false ch k 0 kl l + G false ch k 1 kl l)%C.
Proof.
  intros c sbe dbg G B left k ch kl w v v' l h1 h2 CB P H1 H2 KL L Bo.
  destruct (expand_physical c sbe dbg G B left k ch 0 kl w v v' l h1 h2 CB P H1 H2 KL (or_introl eq_refl) L Bo) as (x & X & EX).
  destruct (expand_physical c sbe dbg G B left k ch 1 kl w v v' l h1 h2 CB P H1 H2 KL (or_intror eq_refl) L Bo) as (y & Y & EY).
  exists (x + y)%C. split; [unfold symmetry_expand_upup; rewrite X; cbn [obind]; rewrite Y; reflexivity|]. rewrite EX, EY. reflexivity.
Qed.
Print Assumptions C118_expanded_upup_partial.

(** a family that obeys the hypotheses and depends on all arguments *)
Definition lw (h : bool) : Q := if h then 2%Q else 1%Q.
Definition rw (h : bool) : Q := if h then 1%Q else 2%Q.
Definition sq2 (p : Q * Q) : Q := (fst p * fst p + snd p * snd p)%Q.
Definition left_f (ch : chan) (l : legs) : Q * Q :=
  match ch with Ca => (n1' l, n2 l) | Cp => (n1' l, n2' l) | Ct => (n2' l, n2 l) end.
Definition right_f (ch : chan) (l : legs) : Q * Q :=
  match ch with Ca => (n2' l, n1 l) | Cp => (n1 l, n2 l) | Ct => (n1' l, n1 l) end.
Definition energy (h : bool) (ch : chan) (k : kcl) (l : legs) : Q :=
  (transfer ch l * transfer ch l +
   match k with
   | k1 => 0 | k2 => lw h * sq2 (left_f ch l) | k2b => rw h * sq2 (right_f ch l)
   | k3 => lw h * sq2 (left_f ch l) + rw h * sq2 (right_f ch l)
   end)%Q.
Definition unit_of (c : cfg) (sbe : bool) (k : kcl) (kl : klegs) : cplx :=
  if negb (keldysh c) || Qeq_bool (conjugation_sign sbe k kl) 1 then C1 else Ci.
Definition sign_of (sbe : bool) (k : kcl) (s : Z) : Q :=
  if Qeq_bool (exchange_sign sbe k) 1 then 1%Q else if s =? 0 then 1%Q else (-1)%Q.
Definition demo (c : cfg) (sbe : bool) : family := fun h ch k s kl l =>
  Cscale (sign_of sbe k s * energy h ch k l)%Q (unit_of c sbe k kl).

Lemma cf_swap_in : forall kl, klegs_ok kl -> conj_factor (swap_in_k kl) = conj_factor kl.
Proof. intros [x y z t] _. unfold conj_factor, swap_in_k; cbn [a1' a2' a1 a2]. replace (x + y + t + z) with (x + y + z + t) by lia. reflexivity. Qed.
Lemma cf_swap_out : forall kl, klegs_ok kl -> conj_factor (swap_out_k kl) = conj_factor kl.
Proof. intros [x y z t] _. unfold conj_factor, swap_out_k; cbn [a1' a2' a1 a2]. replace (y + x + z + t) with (x + y + z + t) by lia. reflexivity. Qed.
Lemma cf_in_out : forall kl, conj_factor (in_out_k kl) = conj_factor kl.
Proof. intros [x y z t]. unfold conj_factor, in_out_k; cbn [a1' a2' a1 a2]. replace (z + t + x + y) with (x + y + z + t) by lia. reflexivity. Qed.
Lemma energy_moves : forall P F h ch ch' fl k l, carried P ch ch' fl -> conserved l ->
  (P = swap_in_k /\ F = swap_in_f) \/ (P = swap_out_k /\ F = swap_out_f) \/ (P = in_out_k /\ F = in_out_f) \/
  (P = in_out_k /\ F = (fun l => minus_f (in_out_f l))) ->
  (energy h ch k l == energy (xorb h fl) ch' (mirror fl k) (F l))%Q.
Proof.
  intros P F h ch ch' fl k [x y z t] H Co HP. unfold conserved in Co. cbn [n1' n2' n1 n2] in Co.
  assert (X : (x == z + t - y)%Q) by (rewrite <- Co; ring).
  destruct HP as [(-> & ->) | [(-> & ->) | [(-> & ->) | (-> & ->)]]];
  destruct ch, ch', fl; try discriminate H; destruct k, h; unfold energy, sq2, lw, rw;
  cbn [mirror xorb swap_in_f swap_out_f in_out_f minus_f transfer left_f right_f fst snd n1' n2' n1 n2]; try rewrite X; ring.
Qed.
Lemma demo_physical : forall c sbe, mf c = false -> physical c sbe (demo c sbe).
Proof.
  intros c sbe M.
  assert (ES : forall k fl, exchange_sign sbe (mirror fl k) = exchange_sign sbe k) by (intros [] []; reflexivity).
  assert (CSm : forall k fl kl, conjugation_sign sbe (mirror fl k) kl = conjugation_sign sbe k kl) by (intros [] []; reflexivity).
  assert (SG : forall k s, s = 0 \/ s = 1 -> (sign_of sbe k s == exchange_sign sbe k * sign_of sbe k (1 - s))%Q)
    by (intros [] s [-> | ->]; destruct sbe; reflexivity).
  assert (SGm : forall k fl s, sign_of sbe (mirror fl k) s = sign_of sbe k s) by (intros [] [] s; reflexivity).
  assert (U : forall k fl kl kl', conj_factor kl' = conj_factor kl -> unit_of c sbe (mirror fl k) kl' = unit_of c sbe k kl).
  { intros k fl kl kl' E. unfold unit_of. rewrite CSm. unfold conjugation_sign. rewrite E. reflexivity. }
  split.
  - intros h ch k s kl ((w0, v), v') ((x, y), y') l l' _ _ L L' Sm. unfold legs_are in L, L'. rewrite M in L, L'.
    unfold demo. apply Cscale_m; [|reflexivity]. assert (E : (energy h ch k l == energy h ch k l')%Q).
    { destruct L as (A & B & C & D), L' as (A' & B' & C' & D'), Sm as (S1 & S2).
      unfold energy, sq2. destruct ch, k; cbn [transfer left_f right_f fst snd legs_of n1' n2' n1 n2] in *;
      rewrite ?A, ?B, ?C, ?D, ?A', ?B', ?C', ?D'; rewrite ?S1; try (destruct S2 as (S2 & S3); rewrite ?S2, ?S3); try rewrite ?S2; field. }
    rewrite E. reflexivity.
  - intros h ch ch' fl k s kl l Ca0 Hk Co Sp. unfold demo. rewrite SGm, (U k fl kl _ (cf_swap_in kl Hk)), cscale_scale.
    apply Cscale_m; [|reflexivity]. rewrite <- (energy_moves _ _ h _ _ _ k l Ca0 Co (or_introl (conj eq_refl eq_refl))).
    rewrite (SG k s Sp). ring.
  - intros h ch ch' fl k s kl l Ca0 Hk Co Sp. unfold demo. rewrite SGm, (U k fl kl _ (cf_swap_out kl Hk)), cscale_scale.
    apply Cscale_m; [|reflexivity].
    rewrite <- (energy_moves _ _ h _ _ _ k l Ca0 Co (or_intror (or_introl (conj eq_refl eq_refl)))).
    rewrite (SG k s Sp). ring.
  - intros K h ch ch' fl k s kl l Ca0 Hk Co Sp. unfold demo. rewrite SGm, (U k fl kl _ (cf_in_out kl)).
    rewrite <- (energy_moves _ _ h _ _ _ k l Ca0 Co (or_intror (or_intror (or_introl (conj eq_refl eq_refl))))).
    unfold unit_of. rewrite K. cbn [negb orb].
    assert (D : conjugation_sign sbe k kl = 1%Q \/ conjugation_sign sbe k kl = (-1)%Q).
    { unfold conjugation_sign, conj_factor. destruct k, sbe, (Z.even _); auto. }
    destruct D as [-> | ->]; [change (Qeq_bool 1 1) with true|change (Qeq_bool (-1) 1) with false]; cbv iota;
    split; unfold Cscale, Cconj, C1, Ci; cbn [re im]; ring.
  - intros K h ch ch' fl k s kl l Ca0 Co Sp. unfold demo. rewrite SGm, (U k fl kl kl eq_refl).
    rewrite <- (energy_moves _ (fun l => minus_f (in_out_f l)) h _ _ _ k l Ca0 Co (or_intror (or_intror (or_intror (conj eq_refl eq_refl))))).
    unfold unit_of. rewrite K. cbn [negb orb]. split; unfold Cscale, Cconj, C1; cbn [re im]; ring.
  - intros K _ h ch k s kl l. unfold demo, unit_of. rewrite K. cbn [negb orb]. unfold Cscale, C1. cbn [im]. ring.
Qed.

(** buffers of the example in the Keldysh formalism *)
Definition kl_of (iK : Z) : klegs := mkK (iK / 8 + 1) (iK / 4 mod 2 + 1) (iK / 2 mod 2 + 1) (iK mod 2 + 1).
Definition demo_rv (c : cfg) (sbe h : bool) (ch : chan) : rv :=
  let g k s iK w v v' := demo c sbe h ch k s (kl_of iK) (legs_of ch (w, v, v')) in
  mkRv ch (fun s iK w => g k1 s iK w 0 0)%Q (fun s iK w v => g k2 s iK w v 0)%Q (fun s iK w v' => g k2b s iK w 0 v')%Q
    (g k3).
Lemma demo_stores : forall c sbe dbg h ch, mf c = false -> stores c dbg (demo c sbe) h ch (demo_rv c sbe h ch).
Proof.
  intros c sbe dbg h ch M. split; [reflexivity|]. intros s kl w v v' l Sp ((A & B & C & D) & _) L.
  assert (E : kl_of (kcode kl) = kl).
  { destruct kl as [x y z t]. cbn [a1' a2' a1 a2] in *.
    destruct A as [-> | ->], B as [-> | ->], C as [-> | ->], D as [-> | ->]; reflexivity. }
  pose proof (of_class_freqs _ _ _ (demo_physical c sbe M)) as F.
  assert (R : forall f, legs_are (mf c) ch f (legs_of ch f))
    by (intros ((a, b), d); unfold legs_are; rewrite M; destruct ch; repeat split; reflexivity).
  unfold demo_rv. cbn [bK1 bK2 bK2b bK3]. rewrite E.
  split; [|split; [|split; [intros _|]]]; (eapply F; [exact (conj A (conj B (conj C D)))|destruct Sp as [Sp|(_ & Sp)]; auto|apply R|exact L|]); repeat split; reflexivity.
Qed.
Definition demo_c : cfg := mkCfg true true true false 51.
Definition demo_full (h : bool) : fullvert :=
  mkFv (irred_initialize demo_c (Cofq (-1 # 2))) (demo_rv demo_c false h Ca) (demo_rv demo_c false h Cp) (demo_rv demo_c false h Ct).
Example C118_hyp : physical demo_c false (demo demo_c false) /\
  stores_full demo_c false (demo demo_c false) false (demo_full false) /\
  stores_full demo_c false (demo demo_c false) true (demo_full true) /\
  klegs_for demo_c (mkK 1 2 2 1) /\ slot Ca true (mkK 1 2 2 1) = 3 /\
  (* class K2b with spin 1 in the p channel: conjugation, then exchange; read from half 2 *)
  option_map (fun z => (Qred (re z), Qred (im z)))
    (valsmooth demo_c false false k2b (demo_rv demo_c false false Cp) (demo_rv demo_c false false Cp)
      (demo_rv demo_c false true Cp) (demo_rv demo_c false true Cp) (mkIn (kcode (mkK 1 2 2 1)) 1 4 0 3)) = Some (0, -68)%Q /\
  option_map (fun z => (Qred (re z), Qred (im z)))
    (symmetry_expand demo_c false false Ca true k2b Ct (demo_full false) (demo_full true) 0 3 (Some (4, 0, 3)%Q)) = Some (0, 68)%Q /\
  (demo demo_c false false Ct k2b 0 (mkK 1 2 2 1) (legs_of Ct (4, 0, 3)%Q) == Cplx 0 68)%C.
Proof.
  assert (M : mf demo_c = false) by reflexivity.
  split; [apply demo_physical; exact M|]. split; [split; [|split]; apply demo_stores; exact M|].
  split; [split; [|split]; apply demo_stores; exact M|].
  split; [split; [repeat split; cbn; unfold is12; lia|discriminate]|]. split; [reflexivity|].
  split; [vm_compute; reflexivity|]. split; [vm_compute; reflexivity|]. split; vm_compute; reflexivity.
Qed.

(** ** C119 *)
(** the bare vertex as set up changes its sign when two legs of the same kind are exchanged *)
Theorem C119_bare_exchange : forall c val k s k', klegs_for c k -> s = 0 \/ s = 1 -> k' = swap_in_k k \/ k' = swap_out_k k ->
  exists x y, irred_val (irred_initialize c val) (kcode k) s = Some x /\
    irred_val (irred_initialize c val) (kcode k') (1 - s) = Some y /\ (x == - y)%C.
Proof. intros c val k s k' A B. apply bare_exchange; assumption. Qed.
Print Assumptions C119_bare_exchange.
(** in the Keldysh basis it obeys complex conjugation *)
Theorem C119_bare_conjugation_keldysh_basis_partial : forall c q k s, keldysh c = true -> contour c = false -> klegs_ok k -> s = 0 \/ s = 1 ->
  exists x y, irred_val (irred_initialize c (Cofq q)) (kcode k) s = Some x /\
    irred_val (irred_initialize c (Cofq q)) (kcode (in_out_k k)) s = Some y /\ (x == Cscale (conj_factor k) (Cconj y))%C.
Proof. exact bare_conj_keldysh. Qed.
Print Assumptions C119_bare_conjugation_keldysh_basis_partial.
(** conjugation in the Keldysh basis means, on the contour, exchange of in and out with exchange of the branches; the bare
    vertex obeys this *)
Theorem C119_conjugation_on_contour : forall V,
  (forall k, klegs_ok k -> (V k == Cscale (conj_factor k) (Cconj (V (in_out_k k))))%C) ->
  forall b, klegs_ok b -> (on_contour V b == - Cconj (on_contour V (other_branch (in_out_k b))))%C.
Proof. exact contour_conjugation. Qed.
Print Assumptions C119_conjugation_on_contour.
Theorem C119_bare_conjugation_on_contour : forall c q k s, keldysh c = true -> contour c = true -> klegs_ok k -> s = 0 \/ s = 1 ->
  exists x y, irred_val (irred_initialize c (Cofq q)) (kcode k) s = Some x /\
    irred_val (irred_initialize c (Cofq q)) (kcode (other_branch (in_out_k k))) s = Some y /\ (x == - Cconj y)%C.
Proof. exact bare_conj_contour. Qed.
Print Assumptions C119_bare_conjugation_on_contour.
(** the operation TC keeps the branches: read through it, the bare vertex has the wrong sign *)
Theorem C119_bare_contour_conjugation_refuted : forall c q x, keldysh c = true -> contour c = true -> ~ (q == 0)%Q ->
  iK x = 0 -> spin x = 0 -> prefactor x = 1%Q -> conjugate x = false ->
  exists y u v, TC c false x = Some y /\ irred_val (irred_initialize c (Cofq q)) (iK x) (spin x) = Some u /\
    irred_val (irred_initialize c (Cofq q)) (iK y) (spin y) = Some v /\ conjugate y = true /\
    (Cscale (prefactor y) (Cconj v) == - u)%C /\ ~ (Cscale (prefactor y) (Cconj v) == u)%C.
Proof.
  intros c q x K Cn Hq Ek Es Ep Ec.
  assert (E : exists y, TC c false x = Some y /\ iK y = 0 /\ spin y = 0 /\ prefactor y = (-1)%Q /\ conjugate y = true).
  { unfold TC, conj_sign. rewrite K, Cn, Ek, Ec, Ep, Es. change (swapC 0) with (Some 0). cbn [obind].
    destruct (channel_rvert x); eexists; (split; [reflexivity|]); repeat split. }
  destruct E as (y & E & Y1 & Y2 & Y3 & Y4). exists y, (Cofq q), (Cofq q).
  rewrite Y1, Y2, Y3, Y4, Ek, Es. unfold irred_initialize. rewrite K, Cn.
  split; [exact E|]. split; [reflexivity|]. split; [reflexivity|]. split; [reflexivity|].
  split; [split; unfold Cscale, Cconj, Cofq, Cneg; cbn [re im]; ring|].
  intros (H & _). unfold Cscale, Cconj, Cofq in H. cbn [re] in H. apply Hq.
  assert (D : (q * 2 == 0)%Q) by (setoid_replace (q * 2)%Q with (q - -1 * q)%Q by ring; rewrite H; ring).
  apply Qmult_integral in D. destruct D as [D|D]; [exact D|discriminate].
Qed.
Print Assumptions C119_bare_contour_conjugation_refuted.
(** before a bubble the bare vertex needs no reordering: its value at (external pair, bubble pair) is that of the legs *)
Theorem C119_bare_expanded : forall c val B left k s, klegs_for c k -> s = 0 \/ s = 1 \/ s = 2 ->
  exists x, irred_val (irred_initialize c val) (kcode k) s = Some x /\
    (irred_expanded (irred_initialize c val) s (slot B left k) == x)%C.
Proof. exact bare_expanded. Qed.
Print Assumptions C119_bare_expanded.
Example C119_hyp : let c := mkCfg true false true true 51 in let x := mkI 0 0 3 1 2 0 1 false false Cp in
  keldysh c = true /\ contour c = true /\ klegs_for c (mkK 2 2 2 2) /\
  irred_val (irred_initialize c (Cofq (-3))) 15 0 = Some (Cplx 3 0) /\
  option_map prefactor (TC c false x) = Some (-1)%Q /\
  irred_val (irred_initialize demo_c (Cofq (-3))) (kcode (mkK 1 2 1 1)) 1 = Some (Cplx 3 0) /\ slot Ct false (mkK 1 2 1 1) = 2.
Proof.
  cbv zeta. split; [reflexivity|]. split; [reflexivity|]. split; [split; [repeat split; cbn; unfold is12; lia|discriminate]|].
  repeat split; vm_compute; reflexivity.
Qed.
