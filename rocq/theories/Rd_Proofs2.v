(** Proofs for Rd_Props: expansion before a bubble, bare vertex, contour basis, example family. *)
From Coq Require Import QArith Lqa.
From Verif Require Import Prelude Cplx Keld_Model Util_Model Util_Spec Util_Proofs Sym_Model Sym_Spec Tab_Model Tab_Spec
  Sym_Proofs Sym_Proofs2 Sym_Props Rd_Model Rd_Spec Rd_Proofs.
Open Scope Z_scope.

Lemma rotate_slot : forall B left k, klegs_ok k -> rotate_Keldysh_matrix B left (slot B left k) = Some (kcode k).
Proof.
  intros B left [x y z t] (A & B0 & C & D). cbn [a1' a2' a1 a2] in *.
  destruct A as [-> | ->], B0 as [-> | ->], C as [-> | ->], D as [-> | ->]; destruct B, left; vm_compute; reflexivity.
Qed.

Lemma valsmooth_debug : forall c sbe G k ch s kl w v v' l this crossing same switched,
  stores c true G false ch this -> klegs_for c kl -> s = 0 \/ s = 1 -> legs_are (mf c) ch (w, v, v') l ->
  exists z, valsmooth c sbe true k this crossing same switched (mkIn (kcode kl) s w v v') = Some z /\
    (z == G false ch k s kl l)%C.
Proof.
  intros c sbe G k ch s kl w0 v v' l this crossing same switched (E & H) KL Sp L.
  unfold valsmooth. eexists. split; [reflexivity|].
  destruct (H s kl w0 v v' l) as (A1 & A2 & A3 & A4); [destruct Sp; auto|exact KL|exact L|].
  rewrite E. unfold read_value, indices_of. cbn [spin iK w v1 v2 in_iK in_spin in_w in_v1 in_v2].
  destruct k; auto.
Qed.

(** the legs of the frequencies with zeros in the places a class does not use *)
Definition class_freqs (k : kcl) (f : Q * Q * Q) : Q * Q * Q :=
  let '(w, v, v') := f in
  match k with k1 => (w, 0, 0) | k2 => (w, v, 0) | k2b => (w, 0, v') | k3 => (w, v, v') end%Q.
Lemma class_freqs_same : forall k f, same_class_freqs k f (class_freqs k f).
Proof. intros [] ((a, b), d); cbn; repeat split; reflexivity. Qed.
Lemma legs_any : forall m ch w v v' l v2 v2', legs_are m ch (w, v, v') l -> exists l', legs_are m ch (w, v2, v2') l'.
Proof.
  intros m ch w0 v v' l x x' H. destruct m.
  - destruct H as (lo & hi & H & _). exists (legs_split ch lo hi x x'), lo, hi. split; [exact H|]. repeat split; reflexivity.
  - exists (legs_of ch (w0, x, x')). cbn. destruct ch; repeat split; reflexivity.
Qed.

Lemma expand_physical : forall c sbe dbg G B left k ch s kl w v v' l h1 h2,
  (keldysh c = true -> contour c = false) -> physical c sbe G ->
  stores_full c dbg G false h1 -> stores_full c dbg G true h2 ->
  klegs_for c kl -> s = 0 \/ s = 1 -> legs_are (mf c) ch (w, v, v') l -> (mf c = true -> bosonic w) ->
  exists z, symmetry_expand c sbe dbg B left k ch h1 h2 s (slot B left kl) (Some (w, v, v')) = Some z /\
    (z == G false ch k s kl l)%C.
Proof.
  intros c sbe dbg G B left k ch s kl w0 v v' l h1 h2 CB P (A1 & P1 & T1') (A2 & P2 & T2') KL Sp L Bo.
  set (g := class_freqs k (w0, v, v')).
  assert (Hg : exists x x', g = (w0, x, x') /\ expand_input k (kcode kl) s (w0, v, v') = mkIn (kcode kl) s w0 x x')
    by (destruct k; do 2 eexists; split; reflexivity).
  destruct Hg as (x & x' & Eg & Ei). destruct (legs_any _ _ _ _ _ _ x x' L) as (l' & L').
  assert (E : (G false ch k s kl l' == G false ch k s kl l)%C).
  { symmetry. apply (of_class_freqs _ _ _ P _ _ _ _ _ _ _ _ _ (proj1 KL) Sp L L'). rewrite <- Eg. apply class_freqs_same. }
  unfold symmetry_expand.
  assert (R : forall this crossing same switched, args ch h1 h2 = (this, crossing, same, switched) -> exists z,
    valsmooth c sbe dbg k this crossing same switched (expand_input k (kcode kl) s (w0, v, v')) = Some z /\
    (z == G false ch k s kl l)%C).
  { intros th cr sa sw Ea. rewrite Ei. destruct dbg.
    - destruct (valsmooth_debug c sbe G k ch s kl w0 x x' l' th cr sa sw) as (z & V & Z); auto.
      { destruct ch; injection Ea as <- <- <- <-; assumption. }
      exists z. split; [exact V|]. rewrite Z. exact E.
    - destruct (valsmooth_physical c sbe G P k ch s kl w0 x x' l' th cr sa sw CB) as (z & V & Z); auto;
      try (destruct ch; injection Ea as <- <- <- <-; assumption).
      exists z. split; [exact V|]. rewrite Z. exact E. }
  rewrite (rotate_slot B left kl (proj1 KL)). cbn [obind].
  destruct (args ch h1 h2) as (((th, cr), sa), sw) eqn:Ea. destruct (R th cr sa sw eq_refl) as (z & V & Z).
  exists z. split; [|exact Z]. destruct k; exact V.
Qed.

(** ** bare vertex *)
Lemma bare_exchange : forall c val k s, klegs_for c k -> s = 0 \/ s = 1 -> forall k', k' = swap_in_k k \/ k' = swap_out_k k ->
  exists x y, irred_val (irred_initialize c val) (kcode k) s = Some x /\
    irred_val (irred_initialize c val) (kcode k') (1 - s) = Some y /\ (x == - y)%C.
Proof.
  intros c val [x y z t] s ((A & B & C & D) & M) Sp k' Hk.
  assert (E : irred_initialize c val (kcode k') = irred_initialize c val (kcode (mkK x y z t))).
  { unfold irred_initialize. destruct (keldysh c); [|rewrite (M eq_refl) in Hk |- *; destruct Hk as [-> | ->]; reflexivity].
    cbn [a1' a2' a1 a2] in *.
    destruct A as [-> | ->], B as [-> | ->], C as [-> | ->], D as [-> | ->]; destruct Hk as [-> | ->]; destruct (contour c); reflexivity. }
  destruct Sp as [-> | ->]; unfold irred_val; cbn [Z.eqb Z.sub Z.add Z.opp Z.pos_sub Pos.eqb]; do 2 eexists;
  (split; [reflexivity|split; [reflexivity|]]); rewrite E; split; unfold Cneg; cbn [re im]; ring.
Qed.
Ltac bare_case :=
  unfold irred_val;
  repeat match goal with |- context [kcode ?k] => let v := eval vm_compute in (kcode k) in change (kcode k) with v end;
  try match goal with |- context [conj_factor ?k] => let v := eval vm_compute in (conj_factor k) in change (conj_factor k) with v end;
  unfold isInList, odd_Keldysh; cbn [existsb Z.eqb Pos.eqb orb];
  split; unfold Cconj, Cscale, Cneg, Cofq, C0; cbn [re im]; ring.
Lemma bare_conj_keldysh : forall c q k s, keldysh c = true -> contour c = false -> klegs_ok k -> s = 0 \/ s = 1 ->
  exists x y, irred_val (irred_initialize c (Cofq q)) (kcode k) s = Some x /\
    irred_val (irred_initialize c (Cofq q)) (kcode (in_out_k k)) s = Some y /\ (x == Cscale (conj_factor k) (Cconj y))%C.
Proof.
  intros c q [x y z t] s K Cn (A & B & C & D) Sp. cbn [a1' a2' a1 a2] in *. unfold irred_initialize. rewrite K, Cn.
  destruct Sp as [-> | ->]; do 2 eexists; (split; [reflexivity|split; [reflexivity|]]);
  destruct A as [-> | ->], B as [-> | ->], C as [-> | ->], D as [-> | ->];
  bare_case.
Qed.
Lemma bare_conj_contour : forall c q k s, keldysh c = true -> contour c = true -> klegs_ok k -> s = 0 \/ s = 1 ->
  exists x y, irred_val (irred_initialize c (Cofq q)) (kcode k) s = Some x /\
    irred_val (irred_initialize c (Cofq q)) (kcode (other_branch (in_out_k k))) s = Some y /\ (x == - Cconj y)%C.
Proof.
  intros c q [x y z t] s K Cn (A & B & C & D) Sp. cbn [a1' a2' a1 a2] in *. unfold irred_initialize. rewrite K, Cn.
  destruct Sp as [-> | ->]; do 2 eexists; (split; [reflexivity|split; [reflexivity|]]);
  destruct A as [-> | ->], B as [-> | ->], C as [-> | ->], D as [-> | ->];
  bare_case.
Qed.
Lemma bare_expanded : forall c val B left k s, klegs_for c k -> s = 0 \/ s = 1 \/ s = 2 ->
  exists x, irred_val (irred_initialize c val) (kcode k) s = Some x /\
    (irred_expanded (irred_initialize c val) s (slot B left k) == x)%C.
Proof.
  intros c val B left [x y z t] s ((A & B0 & C & D) & M) Sp.
  assert (E : irred_initialize c val (slot B left (mkK x y z t)) = irred_initialize c val (kcode (mkK x y z t))).
  { unfold irred_initialize. destruct (keldysh c); [|rewrite (M eq_refl); destruct B, left; reflexivity].
    cbn [a1' a2' a1 a2] in *.
    destruct A as [-> | ->], B0 as [-> | ->], C as [-> | ->], D as [-> | ->]; destruct B, left, (contour c); reflexivity. }
  unfold irred_expanded. rewrite E. destruct Sp as [-> | [-> | ->]]; eexists; (split; [reflexivity|]);
  split; unfold Cmul, Cofq, Cneg, C0; cbn [re im Z.eqb Pos.eqb]; ring.
Qed.

(** ** conjugation in the contour basis follows from conjugation in the Keldysh basis *)
Lemma fold16 : forall a b : list cplx, Forall2 Ceq a b -> (fold_right Cadd C0 a == fold_right Cadd C0 b)%C.
Proof. induction 1; cbn; [reflexivity|]. rewrite H, IHForall2. reflexivity. Qed.
Lemma re_add : forall a b, re (a + b)%C = (re a + re b)%Q. Proof. reflexivity. Qed.
Lemma im_add : forall a b, im (a + b)%C = (im a + im b)%Q. Proof. reflexivity. Qed.
Lemma re_scale : forall q a, re (Cscale q a) = (q * re a)%Q. Proof. reflexivity. Qed.
Lemma im_scale : forall q a, im (Cscale q a) = (q * im a)%Q. Proof. reflexivity. Qed.
Lemma re_conj : forall a, re (Cconj a) = re a. Proof. reflexivity. Qed.
Lemma im_conj : forall a, im (Cconj a) = (- im a)%Q. Proof. reflexivity. Qed.
Lemma re_neg : forall a, re (- a)%C = (- re a)%Q. Proof. reflexivity. Qed.
Lemma im_neg : forall a, im (- a)%C = (- im a)%Q. Proof. reflexivity. Qed.
Lemma contour_conjugation : forall V, (forall k, klegs_ok k -> (V k == Cscale (conj_factor k) (Cconj (V (in_out_k k))))%C) ->
  forall b, klegs_ok b -> (on_contour V b == - Cconj (on_contour V (other_branch (in_out_k b))))%C.
Proof.
  intros V H b Hb.
  assert (one : is12 1) by (left; reflexivity). assert (two : is12 2) by (right; reflexivity).
  transitivity (on_contour (fun k => Cscale (conj_factor k) (Cconj (V (in_out_k k)))) b).
  { unfold on_contour. apply fold16. cbn [flat_map map app].
    repeat (apply Forall2_cons; [apply Cscale_m; [reflexivity|apply H; repeat split; assumption]|]). apply Forall2_nil. }
  clear H. destruct b as [p q r s]. destruct Hb as (A & B & C & D). cbn [a1' a2' a1 a2] in *.
  unfold on_contour, in_out_k, other_branch. cbn [flat_map map app fold_right a1' a2' a1 a2].
  repeat match goal with |- context [V ?k] => let v := fresh "v" in set (v := V k); clearbody v end.
  assert (W : forall b, is12 b -> weight b 2 = 1%Q /\ weight (3 - b) 2 = 1%Q /\ weight (3 - b) 1 = (- weight b 1)%Q)
    by (intros b [-> | ->]; repeat split; reflexivity).
  destruct (W p A) as (-> & -> & ->). destruct (W q B) as (-> & -> & ->).
  destruct (W r C) as (-> & -> & ->). destruct (W s D) as (-> & -> & ->).
  repeat match goal with |- context [conj_factor ?k] => let v := eval vm_compute in (conj_factor k) in change (conj_factor k) with v end.
  generalize (weight p 1) (weight q 1) (weight r 1) (weight s 1). intros wp wq wr ws.
  (split; [rewrite re_neg, re_conj, !re_add, !re_scale, !re_conj|rewrite im_neg, im_conj, !im_add, !im_scale, !im_conj];
   unfold C0; cbn [re im]; ring).
Qed.
