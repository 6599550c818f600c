(** Proofs for Bub_Props: moving legs through the internal sums of a bubble diagram. *)
From Coq Require Import QArith.
From Verif Require Import Prelude Cplx Keld_Model Keld_Spec Keld_Proofs Keld_Proofs2 Bub_Spec.
Open Scope Z_scope.

Definition eps (b : bool) : cplx := if b then (- C1)%C else C1.
Definition eps4 (a b c d : bool) : cplx := (eps a * eps b * eps c * eps d)%C.
Lemma conj_add a b : (Cconj (a + b) == Cconj a + Cconj b)%C.
Proof. split; unfold Cconj, Cadd, Cmul, Cneg; cbn [re im]; ring. Qed.
Lemma conj_mul a b : (Cconj (a * b) == Cconj a * Cconj b)%C.
Proof. split; unfold Cconj, Cadd, Cmul, Cneg; cbn [re im]; ring. Qed.
Lemma conj_neg a : (Cconj (- a) == - Cconj a)%C.
Proof. split; unfold Cconj, Cadd, Cmul, Cneg; cbn [re im]; ring. Qed.
Lemma conj_0 : (Cconj C0 == C0)%C. Proof. split; reflexivity. Qed.
Lemma conj_sum4 f : (Cconj (sum4 f) == sum4 (fun a b c d => Cconj (f a b c d)))%C.
Proof. unfold sum4, csum, bits. cbn [fold_right]. rewrite ?conj_add, ?conj_0. reflexivity. Qed.
Lemma sum4_scale x f : (sum4 (fun a b c d => x * f a b c d) == x * sum4 f)%C.
Proof. unfold sum4, csum, bits. cbn [fold_right]. ring. Qed.
Lemma sum4_updown f : (sum4 f == sum4 (fun a b c d => f c d a b))%C.
Proof. unfold sum4, csum, bits; cbn [fold_right]; ring. Qed.
Lemma sum4_reverse f : (sum4 f == sum4 (fun a b c d => f d c b a))%C.
Proof. unfold sum4, csum, bits; cbn [fold_right]; ring. Qed.

(** ** vertices with two spin components, as functions of the code *)
Notation vert := (Z -> Z -> cplx).
Notation pl := (bool -> bool -> bool -> bool -> cplx).
Definition spin01 (s : Z) : Prop := s = 0 \/ s = 1.
Lemma spin01_flip s : spin01 s -> spin01 (1 - s). Proof. intros [-> | ->]; [right|left]; reflexivity. Qed.

(** same component up to the legs: code_diagram only reads components code4 *)
Lemma diagram_ext_codes ch (V V' W W' : Z -> cplx) (P P' : pl) e1' e2' e1 e2 :
  (forall a b c d, (V (code4 a b c d) == V' (code4 a b c d))%C) ->
  (forall a b c d, (W (code4 a b c d) == W' (code4 a b c d))%C) ->
  (forall a b c d, (P a b c d == P' a b c d)%C) ->
  (diagram ch V P W e1' e2' e1 e2 == diagram ch V' P' W' e1' e2' e1 e2)%C.
Proof.
  intros HV HW HP. unfold diagram. apply sum4_ext. intros a b c d.
  destruct ch; cbn [left_legs right_legs]; rewrite HV, HW, HP; reflexivity.
Qed.
Definition crossed_at (ch : chan) : chan := match ch with Ca => Ct | Cp => Cp | Ct => Ca end.
(** exchange of the outgoing legs: a and t *)
Lemma diagram_out_at ch (V V' W W' : Z -> cplx) (P P' : pl) e1' e2' e1 e2 : ch <> Cp ->
  (forall a b c d, (V (code4 a b c d) == - V' (code4 b a c d))%C) ->
  (forall a b c d, (W (code4 a b c d) == - W' (code4 b a c d))%C) ->
  (forall a b c d, (P a b c d == P' a b c d)%C) ->
  (diagram ch V P W e1' e2' e1 e2 == diagram (crossed_at ch) V' P' W' e2' e1' e1 e2)%C.
Proof.
  intros Hc HV HW HP. destruct ch; try congruence; unfold diagram; apply sum4_ext; intros a b c d; cbn [crossed_at]; cbn [left_legs right_legs]; rewrite HV, HW, HP; ring.
Qed.
Lemma diagram_in_at ch (V V' W W' : Z -> cplx) (P P' : pl) e1' e2' e1 e2 : ch <> Cp ->
  (forall a b c d, (V (code4 a b c d) == - W' (code4 a b d c))%C) ->
  (forall a b c d, (W (code4 a b c d) == - V' (code4 a b d c))%C) ->
  (forall a b c d, (P a b c d == P' b a d c)%C) ->
  (diagram ch V P W e1' e2' e1 e2 == diagram (crossed_at ch) V' P' W' e1' e2' e2 e1)%C.
Proof.
  intros Hc HV HW HP. destruct ch; try congruence; unfold diagram; rewrite sum4_swap; apply sum4_ext; intros a b c d; cbn [crossed_at]; cbn [left_legs right_legs];
  rewrite HV, HW, HP; ring.
Qed.
Lemma diagram_out_p (V V' W W' : Z -> cplx) (P P' : pl) e1' e2' e1 e2 :
  (forall a b c d, (V (code4 a b c d) == - V' (code4 b a c d))%C) ->
  (forall a b c d, (W (code4 a b c d) == W' (code4 a b c d))%C) ->
  (forall a b c d, (P a b c d == P' a b c d)%C) ->
  (diagram Cp V P W e1' e2' e1 e2 == - diagram Cp V' P' W' e2' e1' e1 e2)%C.
Proof.
  intros HV HW HP. unfold diagram.
  transitivity (sum4 (fun x3 x4 x3' x4' => (- C1) * (V' (left_legs Cp code4 e2' e1' e1 e2 x3 x4 x3' x4') * P' x3 x4 x3' x4' *
    W' (right_legs Cp code4 e2' e1' e1 e2 x3 x4 x3' x4'))))%C; [|rewrite sum4_scale; ring].
  apply sum4_ext; intros a b c d; cbn [left_legs right_legs]; rewrite HV, HW, HP; ring.
Qed.
Lemma diagram_in_p (V V' W W' : Z -> cplx) (P P' : pl) e1' e2' e1 e2 :
  (forall a b c d, (V (code4 a b c d) == V' (code4 a b c d))%C) ->
  (forall a b c d, (W (code4 a b c d) == - W' (code4 a b d c))%C) ->
  (forall a b c d, (P a b c d == P' a b c d)%C) ->
  (diagram Cp V P W e1' e2' e1 e2 == - diagram Cp V' P' W' e1' e2' e2 e1)%C.
Proof.
  intros HV HW HP. unfold diagram.
  transitivity (sum4 (fun x3 x4 x3' x4' => (- C1) * (V' (left_legs Cp code4 e1' e2' e2 e1 x3 x4 x3' x4') * P' x3 x4 x3' x4' *
    W' (right_legs Cp code4 e1' e2' e2 e1 x3 x4 x3' x4'))))%C; [|rewrite sum4_scale; ring].
  apply sum4_ext; intros a b c d; cbn [left_legs right_legs]; rewrite HV, HW, HP; ring.
Qed.
(** the spin components of a p bubble with spins s1 on the left and s2 on the right *)
Lemma diagram_cross_p (V V' W W' : Z -> cplx) (P P' : pl) e1' e2' e1 e2 :
  (forall a b c d, (V (code4 a b c d) == - V' (code4 a b d c))%C) ->
  (forall a b c d, (W (code4 a b c d) == - W' (code4 b a c d))%C) ->
  (forall a b c d, (P a b c d == P' b a d c)%C) ->
  (diagram Cp V P W e1' e2' e1 e2 == diagram Cp V' P' W' e1' e2' e1 e2)%C.
Proof. intros HV HW HP. apply diagram_p_reversed; intros; auto. Qed.

(** complex conjugation *)
Lemma diagram_conj_ap ch (V V' W W' : Z -> cplx) (P P' : pl) e1' e2' e1 e2 : ch <> Ct ->
  (forall a b c d, (V (code4 a b c d) == - (eps4 a b c d * Cconj (W' (code4 c d a b))))%C) ->
  (forall a b c d, (W (code4 a b c d) == - (eps4 a b c d * Cconj (V' (code4 c d a b))))%C) ->
  (forall a b c d, (P a b c d == eps4 a b c d * Cconj (P' c d a b))%C) ->
  (diagram ch V P W e1' e2' e1 e2 == eps4 e1' e2' e1 e2 * Cconj (diagram ch V' P' W' e1 e2 e1' e2'))%C.
Proof.
  intros Hc HV HW HP. unfold diagram. rewrite conj_sum4, (sum4_updown (fun a b c d => Cconj _)), <- sum4_scale.
  apply sum4_ext; intros a b c d. destruct ch; try congruence; cbn [left_legs right_legs]; rewrite HV, HW, HP, !conj_mul;
  unfold eps4; destruct a, b, c, d; cbn [eps]; ring.
Qed.
Lemma diagram_conj_t (V V' W W' : Z -> cplx) (P P' : pl) e1' e2' e1 e2 :
  (forall a b c d, (V (code4 a b c d) == - (eps4 a b c d * Cconj (V' (code4 c d a b))))%C) ->
  (forall a b c d, (W (code4 a b c d) == - (eps4 a b c d * Cconj (W' (code4 c d a b))))%C) ->
  (forall a b c d, (P a b c d == eps4 a b c d * Cconj (P' d c b a))%C) ->
  (diagram Ct V P W e1' e2' e1 e2 == eps4 e1' e2' e1 e2 * Cconj (diagram Ct V' P' W' e1 e2 e1' e2'))%C.
Proof.
  intros HV HW HP. unfold diagram. rewrite conj_sum4, (sum4_reverse (fun a b c d => Cconj _)), <- sum4_scale.
  apply sum4_ext; intros a b c d. cbn [left_legs right_legs]; rewrite HV, HW, HP, !conj_mul;
  unfold eps4; destruct a, b, c, d; cbn [eps]; ring.
Qed.
(** reversal of the frequencies *)
Lemma diagram_minus ch (V V' W W' : Z -> cplx) (P P' : pl) e1' e2' e1 e2 :
  (forall a b c d, (V (code4 a b c d) == - (eps4 a b c d * Cconj (V' (code4 a b c d))))%C) ->
  (forall a b c d, (W (code4 a b c d) == - (eps4 a b c d * Cconj (W' (code4 a b c d))))%C) ->
  (forall a b c d, (P a b c d == eps4 a b c d * Cconj (P' a b c d))%C) ->
  (diagram ch V P W e1' e2' e1 e2 == eps4 e1' e2' e1 e2 * Cconj (diagram ch V' P' W' e1' e2' e1 e2))%C.
Proof.
  intros HV HW HP. unfold diagram. rewrite conj_sum4, <- sum4_scale.
  apply sum4_ext; intros a b c d. destruct ch; cbn [left_legs right_legs]; rewrite HV, HW, HP, !conj_mul;
  unfold eps4; destruct a, b, c, d; cbn [eps]; ring.
Qed.

(** ** the same with the spin components *)
Local Opaque diagram.
Ltac spins HA HB H0 H1 :=
  try (apply (HA 0 _ _ _ _ H0)); try (apply (HA 1 _ _ _ _ H1)); try (apply (HB 0 _ _ _ _ H0)); try (apply (HB 1 _ _ _ _ H1));
  rewrite ?conj_add, ?(HA 0 _ _ _ _ H0), ?(HA 1 _ _ _ _ H1), ?(HB 0 _ _ _ _ H0), ?(HB 1 _ _ _ _ H1); change (1 - 0) with 1; change (1 - 1) with 0; ring.
Lemma code_diagram_ext_codes ch s (A A' B B' : vert) (P P' : pl) e1' e2' e1 e2 : spin01 s ->
  (forall t a b c d, spin01 t -> (A t (code4 a b c d) == A' t (code4 a b c d))%C) ->
  (forall t a b c d, spin01 t -> (B t (code4 a b c d) == B' t (code4 a b c d))%C) ->
  (forall a b c d, (P a b c d == P' a b c d)%C) ->
  (code_diagram ch s A B P e1' e2' e1 e2 == code_diagram ch s A' B' P' e1' e2' e1 e2)%C.
Proof.
  intros Hs HA HB HP. pose proof (spin01_flip s Hs) as Hs'.
  assert (H0 : spin01 0) by (left; reflexivity). assert (H1 : spin01 1) by (right; reflexivity).
  destruct Hs as [-> | ->]; destruct ch; cbn [code_diagram]; try (match goal with |- (Cadd _ _ == Cadd _ _)%C => apply Cadd_m end); apply diagram_ext_codes; intros;
    rewrite ?HA, ?HB by assumption; try apply HP; reflexivity.
Qed.

Lemma code_out_at ch s (A A' B B' : vert) (P P' : pl) e1' e2' e1 e2 : ch <> Cp -> spin01 s ->
  (forall t a b c d, spin01 t -> (A t (code4 a b c d) == - A' (1 - t)%Z (code4 b a c d))%C) ->
  (forall t a b c d, spin01 t -> (B t (code4 a b c d) == - B' (1 - t)%Z (code4 b a c d))%C) ->
  (forall a b c d, (P a b c d == P' a b c d)%C) ->
  (code_diagram ch s A B P e1' e2' e1 e2 == code_diagram (crossed_at ch) (1 - s) A' B' P' e2' e1' e1 e2)%C.
Proof.
  intros Hc Hs HA HB HP.
  assert (H0 : spin01 0) by (left; reflexivity). assert (H1 : spin01 1) by (right; reflexivity).
  destruct Hs as [-> | ->]; destruct ch; try congruence; cbn [crossed_at]; change (1 - 0) with 1; change (1 - 1) with 0; cbn [code_diagram];
    change (1 - 0) with 1; change (1 - 1) with 0.
  - apply (diagram_out_at Ca); try assumption; intros; spins HA HB H0 H1.
  - apply Cadd_m; apply (diagram_out_at Ct); try assumption; intros; cbv beta; spins HA HB H0 H1.
  - apply Cadd_m; apply (diagram_out_at Ca); try assumption; intros; cbv beta; spins HA HB H0 H1.
  - apply (diagram_out_at Ct); try assumption; intros; spins HA HB H0 H1.
Qed.
(** exchange of the incoming legs: a and t, with the vertices and the lines exchanged *)
Lemma code_in_at ch s (A A' B B' : vert) (P P' : pl) e1' e2' e1 e2 : ch <> Cp -> spin01 s ->
  (forall t a b c d, spin01 t -> (A t (code4 a b c d) == - B' (1 - t)%Z (code4 a b d c))%C) ->
  (forall t a b c d, spin01 t -> (B t (code4 a b c d) == - A' (1 - t)%Z (code4 a b d c))%C) ->
  (forall a b c d, (P a b c d == P' b a d c)%C) ->
  (code_diagram ch s A B P e1' e2' e1 e2 == code_diagram (crossed_at ch) (1 - s) A' B' P' e1' e2' e2 e1)%C.
Proof.
  intros Hc Hs HA HB HP.
  assert (H0 : spin01 0) by (left; reflexivity). assert (H1 : spin01 1) by (right; reflexivity).
  destruct Hs as [-> | ->]; destruct ch; try congruence; cbn [crossed_at]; change (1 - 0) with 1; change (1 - 1) with 0; cbn [code_diagram];
    change (1 - 0) with 1; change (1 - 1) with 0.
  - apply (diagram_in_at Ca); try assumption; intros; spins HA HB H0 H1.
  - rewrite (diagram_in_at Ct _ (A' 1) _ (fun k => B' 1 k + B' 0 k)%C P P') by (try assumption; intros; cbv beta; spins HA HB H0 H1).
    rewrite (diagram_in_at Ct (A 0) (fun k => A' 1 k + A' 0 k)%C _ (B' 1) P P') by (try assumption; intros; cbv beta; spins HA HB H0 H1).
    cbn [crossed_at]. ring.
  - rewrite (diagram_in_at Ca _ (A' 0) _ (fun k => B' 0 k + B' 1 k)%C P P') by (try assumption; intros; cbv beta; spins HA HB H0 H1).
    rewrite (diagram_in_at Ca (A 1) (fun k => A' 0 k + A' 1 k)%C _ (B' 0) P P') by (try assumption; intros; cbv beta; spins HA HB H0 H1).
    cbn [crossed_at]. ring.
  - apply (diagram_in_at Ct); try assumption; intros; spins HA HB H0 H1.
Qed.
(** the p channel: one vertex is touched at a time *)
Lemma code_p s (A B : vert) (P : pl) e1' e2' e1 e2 : spin01 s ->
  code_diagram Cp s A B P e1' e2' e1 e2 = diagram Cp (A s) P (B 0) e1' e2' e1 e2.
Proof. intros [-> | ->]; reflexivity. Qed.
(** exchange of the two internal legs *)
Lemma code_conj_a s (A A' B B' : vert) (P P' : pl) e1' e2' e1 e2 : spin01 s ->
  (forall t a b c d, spin01 t -> (A t (code4 a b c d) == - (eps4 a b c d * Cconj (B' t (code4 c d a b))))%C) ->
  (forall t a b c d, spin01 t -> (B t (code4 a b c d) == - (eps4 a b c d * Cconj (A' t (code4 c d a b))))%C) ->
  (forall a b c d, (P a b c d == eps4 a b c d * Cconj (P' c d a b))%C) ->
  (code_diagram Ca s A B P e1' e2' e1 e2 == eps4 e1' e2' e1 e2 * Cconj (code_diagram Ca s A' B' P' e1 e2 e1' e2'))%C.
Proof.
  intros Hs HA HB HP. assert (H0 : spin01 0) by (left; reflexivity). assert (H1 : spin01 1) by (right; reflexivity).
  assert (Hc : Ca <> Ct) by discriminate.
  destruct Hs as [-> | ->]; cbn [code_diagram]; change (1 - 1) with 0.
  - apply diagram_conj_ap; try assumption; intros; spins HA HB H0 H1.
  - rewrite conj_add.
    rewrite (diagram_conj_ap Ca _ (A' 1) _ (fun k => B' 1 k + B' 0 k)%C P P') by (try assumption; intros; cbv beta; spins HA HB H0 H1).
    rewrite (diagram_conj_ap Ca (A 1) (fun k => A' 1 k + A' 0 k)%C _ (B' 1) P P') by (try assumption; intros; cbv beta; spins HA HB H0 H1).
    ring.
Qed.
Lemma code_conj_t s (A A' B B' : vert) (P P' : pl) e1' e2' e1 e2 : spin01 s ->
  (forall t a b c d, spin01 t -> (A t (code4 a b c d) == - (eps4 a b c d * Cconj (A' t (code4 c d a b))))%C) ->
  (forall t a b c d, spin01 t -> (B t (code4 a b c d) == - (eps4 a b c d * Cconj (B' t (code4 c d a b))))%C) ->
  (forall a b c d, (P a b c d == eps4 a b c d * Cconj (P' d c b a))%C) ->
  (code_diagram Ct s A B P e1' e2' e1 e2 == eps4 e1' e2' e1 e2 * Cconj (code_diagram Ct s A' B' P' e1 e2 e1' e2'))%C.
Proof.
  intros Hs HA HB HP. assert (H0 : spin01 0) by (left; reflexivity). assert (H1 : spin01 1) by (right; reflexivity).
  destruct Hs as [-> | ->]; cbn [code_diagram]; change (1 - 0) with 1.
  - rewrite conj_add.
    rewrite (diagram_conj_t _ (fun k => A' 0 k + A' 1 k)%C _ (B' 0) P P') by (try assumption; intros; cbv beta; spins HA HB H0 H1).
    rewrite (diagram_conj_t (A 0) (A' 0) _ (fun k => B' 0 k + B' 1 k)%C P P') by (try assumption; intros; cbv beta; spins HA HB H0 H1).
    ring.
  - apply diagram_conj_t; try assumption; intros; spins HA HB H0 H1.
Qed.
Lemma code_minus ch s (A A' B B' : vert) (P P' : pl) e1' e2' e1 e2 : spin01 s ->
  (forall t a b c d, spin01 t -> (A t (code4 a b c d) == - (eps4 a b c d * Cconj (A' t (code4 a b c d))))%C) ->
  (forall t a b c d, spin01 t -> (B t (code4 a b c d) == - (eps4 a b c d * Cconj (B' t (code4 a b c d))))%C) ->
  (forall a b c d, (P a b c d == eps4 a b c d * Cconj (P' a b c d))%C) ->
  (code_diagram ch s A B P e1' e2' e1 e2 == eps4 e1' e2' e1 e2 * Cconj (code_diagram ch s A' B' P' e1' e2' e1 e2))%C.
Proof.
  intros Hs HA HB HP. assert (H0 : spin01 0) by (left; reflexivity). assert (H1 : spin01 1) by (right; reflexivity).
  destruct Hs as [-> | ->]; destruct ch; cbn [code_diagram]; change (1 - 0) with 1; change (1 - 1) with 0.
  - apply diagram_minus; try assumption; intros; spins HA HB H0 H1.
  - apply diagram_minus; try assumption; intros; spins HA HB H0 H1.
  - rewrite conj_add.
    rewrite (diagram_minus Ct _ (fun k => A' 0 k + A' 1 k)%C _ (B' 0) P P') by (try assumption; intros; cbv beta; spins HA HB H0 H1).
    rewrite (diagram_minus Ct (A 0) (A' 0) _ (fun k => B' 0 k + B' 1 k)%C P P') by (try assumption; intros; cbv beta; spins HA HB H0 H1).
    ring.
  - rewrite conj_add.
    rewrite (diagram_minus Ca _ (fun k => A' 1 k + A' 0 k)%C _ (B' 1) P P') by (try assumption; intros; cbv beta; spins HA HB H0 H1).
    rewrite (diagram_minus Ca (A 1) (A' 1) _ (fun k => B' 1 k + B' 0 k)%C P P') by (try assumption; intros; cbv beta; spins HA HB H0 H1).
    ring.
  - apply diagram_minus; try assumption; intros; spins HA HB H0 H1.
  - apply diagram_minus; try assumption; intros; spins HA HB H0 H1.
Qed.
