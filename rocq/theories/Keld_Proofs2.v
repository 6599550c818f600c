(** The matrix products over Keldysh indices compute the labelled-leg diagrams (C14, C74). *)
From Coq Require Import QArith Setoid Morphisms Ring.
From Verif Require Import Prelude Idx_Model Cplx Keld_Model Keld_Spec Keld_Proofs.
Open Scope Z_scope.

(** a matrix is only read through its sixteen entries *)
Lemma mmul_mk4_l a b : mmul (mk4 (mget a)) b = mmul a b.
Proof. reflexivity. Qed.
Lemma mmul_mk4_r a b : mmul a (mk4 (mget b)) = mmul a b.
Proof. reflexivity. Qed.

Definition vals (f : Z -> cplx) : list cplx :=
  map f [0; 1; 2; 3; 4; 5; 6; 7; 8; 9; 10; 11; 12; 13; 14; 15].
Definition rotz (ch : chan) (side : bool) (iK : Z) : Z :=
  match rotate_Keldysh_matrix ch side iK with Some r => r | None => 0 end.
Lemma symmetry_expanded_eq ch side V :
  symmetry_expanded ch side V = Some (vals (fun k => V (rotz ch side k))).
Proof. destruct ch, side; vm_compute; reflexivity. Qed.

Definition Lm (ch : chan) (V : Z -> cplx) : mat :=
  mk4 (fun i j => V (rotz ch true (Z.of_nat (i * 4 + j)))).
Definition Rm (ch : chan) (V : Z -> cplx) : mat :=
  mk4 (fun i j => V (rotz ch false (Z.of_nat (j * 4 + i)))).
Lemma load_left_eq ch V : load_left ch V = Some (Lm ch V).
Proof. unfold load_left. rewrite symmetry_expanded_eq. reflexivity. Qed.
Lemma load_right_eq ch V : load_right ch V = Some (Rm ch V).
Proof. unfold load_right. rewrite symmetry_expanded_eq. reflexivity. Qed.

(** the entry of the stored result belonging to given external legs *)
Definition extrow (ch : chan) (e1' e2' e1 e2 : bool) : nat :=
  match ch with
  | Ca => b2n e1' * 2 + b2n e2 | Cp => b2n e1' * 2 + b2n e2' | Ct => b2n e2' * 2 + b2n e2
  end%nat.
Definition extcol (ch : chan) (e1' e2' e1 e2 : bool) : nat :=
  match ch with
  | Ca => b2n e1 * 2 + b2n e2' | Cp => b2n e1 * 2 + b2n e2 | Ct => b2n e1 * 2 + b2n e1'
  end%nat.
Lemma store_result_eq ch m :
  exists l, store_result ch m = Some l /\ length l = 16%nat /\
    forall e1' e2' e1 e2, nth_error l (Z.to_nat (code4 e1' e2' e1 e2))
                          = Some (mget m (extrow ch e1' e2' e1 e2) (extcol ch e1' e2' e1 e2)).
Proof.
  destruct ch; (eexists; split; [cbv -[mget]; reflexivity|]; split; [reflexivity|]);
    intros e1' e2' e1 e2; destruct e1', e2', e1, e2; reflexivity.
Qed.


Lemma product_entry_abs ch VL VR (p : nat -> nat -> cplx) e1' e2' e1 e2 :
  (mget (mmul (mmul (Lm ch VL) (mk4 p)) (Rm ch VR)) (extrow ch e1' e2' e1 e2) (extcol ch e1' e2' e1 e2)
   == diagram ch VL (fun a b c d => p (pirow ch a b c d) (picol ch a b c d)) VR e1' e2' e1 e2)%C.
Proof.
  destruct ch, e1', e2', e1, e2; cbv -[Cadd Cmul C0 Ceq]; ring.
Qed.

Lemma product_entry ch VL VR Pi P e1' e2' e1 e2 :
  (forall a b c d, (mget Pi (pirow ch a b c d) (picol ch a b c d) == P a b c d)%C) ->
  (mget (mmul (mmul (Lm ch VL) Pi) (Rm ch VR)) (extrow ch e1' e2' e1 e2) (extcol ch e1' e2' e1 e2)
   == diagram ch VL P VR e1' e2' e1 e2)%C.
Proof.
  intros H. rewrite <- (mmul_mk4_r (Lm ch VL) Pi), product_entry_abs.
  apply diagram_ext; intros; try reflexivity. apply H.
Qed.

Lemma madd_Lm ch V V' : madd (Lm ch V) (Lm ch V') = Lm ch (fun k => (V k + V' k)%C).
Proof. destruct ch; reflexivity. Qed.
Lemma madd_Rm ch V V' : madd (Rm ch V) (Rm ch V') = Rm ch (fun k => (V k + V' k)%C).
Proof. destruct ch; reflexivity. Qed.
Lemma mget_madd a b ch e1' e2' e1 e2 :
  mget (madd a b) (extrow ch e1' e2' e1 e2) (extcol ch e1' e2' e1 e2)
  = (mget a (extrow ch e1' e2' e1 e2) (extcol ch e1' e2' e1 e2)
     + mget b (extrow ch e1' e2' e1 e2) (extcol ch e1' e2' e1 e2))%C.
Proof. destruct ch, e1', e2', e1, e2; reflexivity. Qed.

(** linearity of the diagram *)
Lemma diagram_add_l ch V V' P W e1' e2' e1 e2 :
  (diagram ch (fun k => V k + V' k) P W e1' e2' e1 e2
   == diagram ch V P W e1' e2' e1 e2 + diagram ch V' P W e1' e2' e1 e2)%C.
Proof. unfold diagram, sum4, csum, bits; cbn [fold_right]; ring. Qed.
Lemma diagram_add_r ch V P W W' e1' e2' e1 e2 :
  (diagram ch V P (fun k => W k + W' k) e1' e2' e1 e2
   == diagram ch V P W e1' e2' e1 e2 + diagram ch V P W' e1' e2' e1 e2)%C.
Proof. unfold diagram, sum4, csum, bits; cbn [fold_right]; ring. Qed.
Lemma diagram_0_l ch P W e1' e2' e1 e2 : (diagram ch (fun _ => C0) P W e1' e2' e1 e2 == C0)%C.
Proof. unfold diagram, sum4, csum, bits; cbn [fold_right]; ring. Qed.
Lemma diagram_0_r ch V P e1' e2' e1 e2 : (diagram ch V P (fun _ => C0) e1' e2' e1 e2 == C0)%C.
Proof. unfold diagram, sum4, csum, bits; cbn [fold_right]; ring. Qed.

(** what the vectorised summation computes, before the interpretation of the spin *)
Definition code_diagram (ch : chan) (spin : Z) (VL VR : Z -> Z -> cplx)
  (P : bool -> bool -> bool -> bool -> cplx) (e1' e2' e1 e2 : bool) : cplx :=
  (match ch, spin with
   | Ct, 0 | Ca, 1 =>
       diagram ch (fun k => VL spin k + VL (1 - spin)%Z k) P (VR spin) e1' e2' e1 e2
       + diagram ch (VL spin) P (fun k => VR spin k + VR (1 - spin)%Z k) e1' e2' e1 e2
   | Cp, 1 => diagram ch (VL spin) P (VR 0) e1' e2' e1 e2
   | _, _ => diagram ch (VL spin) P (VR spin) e1' e2' e1 e2
   end)%C.

Lemma integrand_vectorized_code ch spin VL VR Pi P :
  spin = 0 \/ spin = 1 ->
  (forall a b c d, (mget Pi (pirow ch a b c d) (picol ch a b c d) == P a b c d)%C) ->
  exists l, integrand_vectorized ch spin VL VR Pi = Some l /\ length l = 16%nat /\
    forall e1' e2' e1 e2, exists x,
      nth_error l (Z.to_nat (code4 e1' e2' e1 e2)) = Some x /\
      (x == code_diagram ch spin VL VR P e1' e2' e1 e2)%C.
Proof.
  intros Hs HP. unfold integrand_vectorized, sum_over_internal_vectorized.
  rewrite !load_left_eq, !load_right_eq. cbn [obind]. rewrite madd_Lm, madd_Rm.
  assert (S : forall m, (forall e1' e2' e1 e2,
      (mget m (extrow ch e1' e2' e1 e2) (extcol ch e1' e2' e1 e2)
       == code_diagram ch spin VL VR P e1' e2' e1 e2)%C) ->
      exists l, store_result ch m = Some l /\ length l = 16%nat /\
      forall e1' e2' e1 e2, exists x,
      nth_error l (Z.to_nat (code4 e1' e2' e1 e2)) = Some x /\
      (x == code_diagram ch spin VL VR P e1' e2' e1 e2)%C).
  { intros m Hm. destruct (store_result_eq ch m) as (l & E & L & Hl).
    exists l. split; [exact E|]. split; [exact L|]. intros.
    eexists. split; [apply Hl|]. apply Hm. }
  destruct Hs; subst spin; destruct ch; cbn [obind]; apply S; intros e1' e2' e1 e2;
    cbn [code_diagram]; rewrite ?mget_madd;
    rewrite ?(product_entry _ _ _ Pi P _ _ _ _ HP); reflexivity.
Qed.

(** scalar summation: one external index at a time *)
Lemma mget_mmul3 ch (A B C : mat) e1' e2' e1 e2 :
  mget (mmul (mmul A B) C) (extrow ch e1' e2' e1 e2) (extcol ch e1' e2' e1 e2)
  = vmv (map (mget A (extrow ch e1' e2' e1 e2)) [0; 1; 2; 3]%nat) B
        (map (fun i => mget C i (extcol ch e1' e2' e1 e2)) [0; 1; 2; 3]%nat).
Proof. destruct ch, e1', e2', e1, e2; reflexivity. Qed.

Lemma get_i0_ext ch e1' e2' e1 e2 :
  get_i0_left_right ch (code4 e1' e2' e1 e2)
  = Some (Z.of_nat (extrow ch e1' e2' e1 e2), Z.of_nat (extcol ch e1' e2' e1 e2)).
Proof. destruct ch, e1', e2', e1, e2; vm_compute; reflexivity. Qed.

Lemma row4_left ch V e1' e2' e1 e2 :
  row4 (vals (fun k => V (rotz ch true k))) (Z.of_nat (extrow ch e1' e2' e1 e2) * 4)
  = map (mget (Lm ch V) (extrow ch e1' e2' e1 e2)) [0; 1; 2; 3]%nat.
Proof. destruct ch, e1', e2', e1, e2; vm_compute; reflexivity. Qed.
Lemma row4_right ch V e1' e2' e1 e2 :
  row4 (vals (fun k => V (rotz ch false k))) (Z.of_nat (extcol ch e1' e2' e1 e2) * 4)
  = map (fun i => mget (Rm ch V) i (extcol ch e1' e2' e1 e2)) [0; 1; 2; 3]%nat.
Proof. destruct ch, e1', e2', e1, e2; vm_compute; reflexivity. Qed.

Lemma integrand_scalar_code ch spin VL VR Pi P e1' e2' e1 e2 :
  spin = 0 \/ spin = 1 ->
  (forall a b c d, (mget Pi (pirow ch a b c d) (picol ch a b c d) == P a b c d)%C) ->
  exists x, sum_over_internal_scalar ch spin (code4 e1' e2' e1 e2) VL VR Pi = Some x /\
            (x == code_diagram ch spin VL VR P e1' e2' e1 e2)%C.
Proof.
  intros Hs HP. unfold sum_over_internal_scalar.
  rewrite get_i0_ext. cbn [obind fst snd].
  rewrite !symmetry_expanded_eq. cbn [obind].
  rewrite !row4_left, !row4_right.
  rewrite (row4_left ch (fun k => (VL 0 k + VL 1 k)%C)), (row4_right ch (fun k => (VR 0 k + VR 1 k)%C)).
  destruct Hs; subst spin; destruct ch; cbn [obind];
    (eexists; split; [reflexivity|]); rewrite <- ?mget_mmul3;
    rewrite ?(product_entry _ _ _ Pi P _ _ _ _ HP); cbn [code_diagram]; try reflexivity.
  (* a, spin 1: VL 0 + VL 1 against VL 1 + VL 0 *)
  rewrite !(diagram_add_l Ca (VL 0) (VL 1)), !(diagram_add_r Ca (VL 1) P (VR 0) (VR 1)).
  change (1 - 1) with 0.
  rewrite (diagram_add_l Ca (VL 1) (VL 0)), (diagram_add_r Ca (VL 1) P (VR 1) (VR 0)). ring.
Qed.

(** ** spin sums *)
Lemma full_spin_cases V s1' s2' s1 s2 k :
  (full_spin V s1' s2' s1 s2 k ==
   (if Bool.eqb s1' s1 && Bool.eqb s2' s2 then V 0 k else C0)
   + (if Bool.eqb s1' s2 && Bool.eqb s2' s1 then V 1 k else C0))%C.
Proof. reflexivity. Qed.

Lemma spin_diagram_at ch spin VL VR P e1' e2' e1 e2 :
  spin = 0 \/ spin = 1 -> ch <> Cp ->
  (spin_diagram ch spin VL VR P e1' e2' e1 e2 == code_diagram ch spin VL VR P e1' e2' e1 e2)%C.
Proof.
  intros Hs Hc.
  destruct Hs; subst spin; destruct ch; try congruence; clear Hc;
    unfold spin_diagram, ext_spins, csum, bits; cbn [Z.eqb fold_right left_legs right_legs];
    unfold full_spin; cbn [Bool.eqb andb code_diagram];
    rewrite ?diagram_add_l, ?diagram_add_r, ?diagram_0_l, ?diagram_0_r;
    change (1 - 0) with 1; change (1 - 1) with 0; ring.
Qed.

Lemma spin_diagram_p spin VL VR P e1' e2' e1 e2 :
  spin = 0 \/ spin = 1 ->
  (spin_diagram Cp spin VL VR P e1' e2' e1 e2
   == code_diagram Cp spin VL VR P e1' e2' e1 e2
      + (if spin =? 0 then diagram Cp (VL 1) P (VR 1) e1' e2' e1 e2
         else diagram Cp (VL 0) P (VR 1) e1' e2' e1 e2))%C.
Proof.
  intros Hs.
  destruct Hs; subst spin;
    unfold spin_diagram, ext_spins, csum, bits; cbn [Z.eqb fold_right left_legs right_legs];
    unfold full_spin; cbn [Bool.eqb andb code_diagram];
    rewrite ?diagram_add_l, ?diagram_add_r, ?diagram_0_l, ?diagram_0_r; ring.
Qed.

(** ** summation over the nine listed components and the three spin terms *)
Lemma code_diagram_ext ch spin VL VR P P' e1' e2' e1 e2 :
  (forall a b c d, (P a b c d == P' a b c d)%C) ->
  (code_diagram ch spin VL VR P e1' e2' e1 e2 == code_diagram ch spin VL VR P' e1' e2' e1 e2)%C.
Proof.
  intros H.
  assert (D : forall V W, (diagram ch V P W e1' e2' e1 e2 == diagram ch V P' W e1' e2' e1 e2)%C)
    by (intros; apply diagram_ext; auto; reflexivity).
  unfold code_diagram. destruct ch; destruct spin as [|[|p|]|]; rewrite ?D; reflexivity.
Qed.

Lemma Cofq2 : (Cofq 2 == C1 + C1)%C.
Proof. split; reflexivity. Qed.

Lemma components_sum ch VL VR (Pi : Z -> cplx) P e1' e2' e1 e2 :
  (forall a b c d, (Pi (code4 a b c d) == P a b c d)%C) ->
  (forall a b c d, isInList (code4 a b c d) glb_non_zero_Keldysh_bubble = false -> (P a b c d == C0)%C) ->
  exists x, integrand_by_components ch 0 (code4 e1' e2' e1 e2) VL VR Pi = Some x /\
            (x == code_diagram ch 0 VL VR P e1' e2' e1 e2)%C.
Proof.
  intros HP HZ.
  assert (HP' : forall a b c d, (P a b c d ==
     (fun a b c d => if isInList (code4 a b c d) glb_non_zero_Keldysh_bubble
                     then Pi (code4 a b c d) else C0) a b c d)%C).
  { intros. cbv beta. destruct (isInList _ _) eqn:E; [symmetry; apply HP|auto]. }
  destruct ch, e1', e2', e1, e2;
    (eexists; split; [cbv -[Cadd Cmul C0 C1 Cofq]; reflexivity|]);
    rewrite (code_diagram_ext _ _ _ _ _ _ _ _ _ _ HP');
    rewrite ?Cofq2; cbv -[Cadd Cmul C0 C1 Ceq]; ring.
Qed.

(** ** crossing symmetry in the p channel *)
Lemma sum4_swap f : (sum4 f == sum4 (fun a b c d => f b a d c))%C.
Proof. unfold sum4, csum, bits; cbn [fold_right]; ring. Qed.

Lemma lines_p_reversed diff g s (w v : Q) x3 x4 x3' x4' : prop_ok g -> prop_ok s ->
  (lines Cp diff g s w v x3 x4 x3' x4' == lines Cp diff g s w (- v)%Q x4 x3 x4' x3')%C.
Proof.
  intros Hg Hs.
  assert (E1 : (line1 Cp w (- v)%Q == line2 Cp w v)%Q) by (unfold line1, line2; ring).
  assert (E2 : (line2 Cp w (- v)%Q == line1 Cp w v)%Q) by (unfold line1, line2; ring).
  unfold lines. destruct diff; unfold pair_of_lines, pair_of_lines_diff.
  - rewrite (Gmat_m g _ _ x4 x4' Hg E1), (Gmat_m g _ _ x3 x3' Hg E2),
      (Gmat_m s _ _ x4 x4' Hs E1), (Gmat_m s _ _ x3 x3' Hs E2). ring.
  - rewrite (Gmat_m g _ _ x4 x4' Hg E1), (Gmat_m g _ _ x3 x3' Hg E2). ring.
Qed.

Lemma diagram_p_reversed (VL VR VL' VR' : Z -> cplx) P P' e1' e2' e1 e2 :
  (forall a b, (VL (code4 e1' e2' a b) == - VL' (code4 e1' e2' b a))%C) ->
  (forall a b, (VR (code4 a b e1 e2) == - VR' (code4 b a e1 e2))%C) ->
  (forall a b c d, (P a b c d == P' b a d c)%C) ->
  (diagram Cp VL P VR e1' e2' e1 e2 == diagram Cp VL' P' VR' e1' e2' e1 e2)%C.
Proof.
  intros H1 H2 H3. unfold diagram. rewrite sum4_swap.
  apply sum4_ext. intros a b c d. cbn [left_legs right_legs].
  rewrite H1, H2, H3. ring.
Qed.

Lemma spin_diagram_p_crossing spin (VL VR : Z -> Z -> Q -> cplx) diff g s (w v : Q) e1' e2' e1 e2 :
  spin = 0 \/ spin = 1 -> prop_ok g -> prop_ok s ->
  (forall sp a b u, sp = 0 \/ sp = 1 ->
     (VL (1 - sp)%Z (code4 e1' e2' a b) u == - VL sp (code4 e1' e2' b a) (- u)%Q)%C) ->
  (forall sp a b u, sp = 0 \/ sp = 1 ->
     (VR (1 - sp)%Z (code4 a b e1 e2) u == - VR sp (code4 b a e1 e2) (- u)%Q)%C) ->
  let F u := code_diagram Cp spin (fun sp k => VL sp k u) (fun sp k => VR sp k u)
                          (lines Cp diff g s w u) e1' e2' e1 e2 in
  (spin_diagram Cp spin (fun sp k => VL sp k v) (fun sp k => VR sp k v) (lines Cp diff g s w v) e1' e2' e1 e2
   == F v + F (- v)%Q)%C.
Proof.
  intros Hs Hg Hgs HL HR F. rewrite spin_diagram_p by exact Hs.
  unfold F. apply Cadd_m; [reflexivity|].
  destruct Hs; subst spin; cbn [Z.eqb code_diagram]; apply diagram_p_reversed; intros;
    try (apply lines_p_reversed; assumption).
  - apply (HL 0); auto.
  - apply (HR 0); auto.
  - apply (HL 1); auto.
  - apply (HR 0); auto.
Qed.
