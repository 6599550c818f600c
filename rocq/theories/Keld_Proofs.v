(** Proofs about the Keldysh bookkeeping (properties C13-C16, C74). *)
From Coq Require Import QArith Setoid Morphisms Ring.
From Verif Require Import Prelude Idx_Model Cplx Keld_Model Keld_Spec.
Open Scope Z_scope.

Lemma below16 i : 0 <= i < 16 -> exists a b c d, i = code4 a b c d.
Proof.
  intros H.
  assert (E : exists k, (k < 16)%nat /\ i = Z.of_nat k) by (exists (Z.to_nat i); lia).
  destruct E as [k [L ->]].
  exists (Z.testbit (Z.of_nat k) 3), (Z.testbit (Z.of_nat k) 2),
         (Z.testbit (Z.of_nat k) 1), (Z.testbit (Z.of_nat k) 0).
  do 16 (destruct k as [|k]; [reflexivity|]). lia.
Qed.

Lemma code4_range a b c d : 0 <= code4 a b c d < 16.
Proof. destruct a, b, c, d; cbv; split; congruence. Qed.

Lemma code4_inj a b c d a' b' c' d' :
  code4 a b c d = code4 a' b' c' d' -> a = a' /\ b = b' /\ c = c' /\ d = d'.
Proof. destruct a, b, c, d, a', b', c', d'; cbv; intros H; try discriminate; auto. Qed.

Ltac cases16 i H :=
  let a := fresh in let b := fresh in let c := fresh in let d := fresh in
  destruct (below16 i H) as (a & b & c & d & ->); destruct a, b, c, d.

(** ** C13 *)
Lemma iK_to_alphas_spec a b c d : iK_to_alphas (code4 a b c d) = tuple4 a b c d.
Proof. destruct a, b, c, d; reflexivity. Qed.
Lemma alphas_to_iK_spec a b c d : alphas_to_iK (tuple4 a b c d) = Some (code4 a b c d).
Proof. destruct a, b, c, d; reflexivity. Qed.
Lemma alphas_roundtrip iK : 0 <= iK < 16 -> alphas_to_iK (iK_to_alphas iK) = Some iK.
Proof. intros H. cases16 iK H; reflexivity. Qed.
Lemma iK_roundtrip l :
  length l = 4%nat -> Forall (fun x => x = 1 \/ x = 2) l ->
  exists iK, alphas_to_iK l = Some iK /\ 0 <= iK < 16 /\ iK_to_alphas iK = l.
Proof.
  intros L F.
  destruct l as [|a [|b [|c [|d [|]]]]]; try discriminate L.
  inversion F as [|? ? Ha F1]; subst. inversion F1 as [|? ? Hb F2]; subst.
  inversion F2 as [|? ? Hc F3]; subst. inversion F3 as [|? ? Hd F4]; subst.
  destruct Ha, Hb, Hc, Hd; subst; eexists; (split; [reflexivity|]); split; (lia || reflexivity).
Qed.

(** ** C14: rotations *)
Lemma rotate_unrotate ch side iK : 0 <= iK < 16 ->
  exists r, rotate_Keldysh_matrix ch side iK = Some r /\ 0 <= r < 16 /\
            unrotate_Keldysh_matrix ch side r = Some iK.
Proof.
  intros H. destruct ch, side; cases16 iK H;
    (eexists; split; [vm_compute; reflexivity|]; split; [lia|vm_compute; reflexivity]).
Qed.
Lemma unrotate_rotate ch side iK : 0 <= iK < 16 ->
  exists r, unrotate_Keldysh_matrix ch side iK = Some r /\ 0 <= r < 16 /\
            rotate_Keldysh_matrix ch side r = Some iK.
Proof.
  intros H. destruct ch, side; cases16 iK H;
    (eexists; split; [vm_compute; reflexivity|]; split; [lia|vm_compute; reflexivity]).
Qed.

(** row/column pair of legs at a vertex, in matrix position *)
Lemma rotate_left_spec ch e1' e2' e1 e2 x3 x4 x3' x4' :
  rotate_Keldysh_matrix ch true
    (match ch with
     | Ca => code4 e1' e2 x3 x4'
     | Cp => code4 e1' e2' x3 x4
     | Ct => code4 e2' e2 x3 x4'
     end) = Some (left_legs ch code4 e1' e2' e1 e2 x3 x4 x3' x4').
Proof. destruct ch, e1', e2', e1, e2, x3, x4, x3', x4'; vm_compute; reflexivity. Qed.
Lemma rotate_right_spec ch e1' e2' e1 e2 x3 x4 x3' x4' :
  rotate_Keldysh_matrix ch false
    (match ch with
     | Ca => code4 e1 e2' x3' x4
     | Cp => code4 e1 e2 x3' x4'
     | Ct => code4 e1 e1' x3' x4
     end) = Some (right_legs ch code4 e1' e2' e1 e2 x3 x4 x3' x4').
Proof. destruct ch, e1', e2', e1, e2, x3, x4, x3', x4'; vm_compute; reflexivity. Qed.

Lemma indices_sum_spec ch e1' e2' e1 e2 x3 x4 x3' x4' :
  indices_sum (code4 e1' e2' e1 e2) (code4 x3 x4 x3' x4') ch
  = Some (left_legs ch code4 e1' e2' e1 e2 x3 x4 x3' x4',
          right_legs ch code4 e1' e2' e1 e2 x3 x4 x3' x4').
Proof. destruct ch, e1', e2', e1, e2, x3, x4, x3', x4'; vm_compute; reflexivity. Qed.

Lemma get_i0_left_right_spec ch iK : 0 <= iK < 16 ->
  exists l r, get_i0_left_right ch iK = Some (l, r) /\ 0 <= l < 4 /\ 0 <= r < 4 /\
              rotate_Keldysh_matrix ch true (l * 4 + r) = Some iK.
Proof.
  intros H. destruct ch; cases16 iK H;
    (eexists; eexists; split; [vm_compute; reflexivity|]; split; [lia|]; split; [lia|vm_compute; reflexivity]).
Qed.

(** ** sums *)
Lemma csum_ext {A} (l : list A) f g : (forall a, (f a == g a)%C) -> (csum l f == csum l g)%C.
Proof. intros H. induction l; cbn [csum fold_right]; [reflexivity|]. rewrite H. unfold csum in IHl. rewrite IHl. reflexivity. Qed.
Lemma sum4_ext f g : (forall a b c d, (f a b c d == g a b c d)%C) -> (sum4 f == sum4 g)%C.
Proof. intros H. unfold sum4. repeat (apply csum_ext; intros). apply H. Qed.
Lemma diagram_ext ch VL VL' P P' VR VR' e1' e2' e1 e2 :
  (forall k, (VL k == VL' k)%C) -> (forall a b c d, (P a b c d == P' a b c d)%C) ->
  (forall k, (VR k == VR' k)%C) ->
  (diagram ch VL P VR e1' e2' e1 e2 == diagram ch VL' P' VR' e1' e2' e1 e2)%C.
Proof. intros H1 H2 H3. unfold diagram. apply sum4_ext. intros. rewrite H1, H2, H3. reflexivity. Qed.

(** position of a pair of lines in the 4x4 matrix *)
Definition b2n (b : bool) : nat := if b then 1%nat else 0%nat.
Definition pirow (ch : chan) (x3 x4 x3' x4' : bool) : nat :=
  match ch with Cp => b2n x3 * 2 + b2n x4 | _ => b2n x3 * 2 + b2n x4' end%nat.
Definition picol (ch : chan) (x3 x4 x3' x4' : bool) : nat :=
  match ch with Cp => b2n x3' * 2 + b2n x4' | _ => b2n x3' * 2 + b2n x4 end%nat.

(** ** C15 *)
Lemma bubble_value_spec (diff : bool) g s x3 x4 x3' x4' v1 v2 :
  (bubble_value diff g s (code4 x3 x4 x3' x4') v1 v2 ==
   (if diff then pair_of_lines_diff (Gmat g v1) (Gmat g v2) (Gmat s v1) (Gmat s v2)
    else pair_of_lines (Gmat g v1) (Gmat g v2)) x3 x4 x3' x4')%C.
Proof.
  destruct diff, x3, x4, x3', x4';
    cbv [bubble_value code4 Z.b2z Z.mul Z.add Pos.mul Pos.add pair_of_lines pair_of_lines_diff Gmat];
    ring.
Qed.

Lemma freq1 ch (w v : Q) : (convert_1 ch v w == line1 ch w v)%Q.
Proof. destruct ch; unfold convert_1, line1; field. Qed.

(** Frequencies enter the functions gR, gK; equal rationals written differently are the same
    double, so the functions respect [==]. *)
Definition prop_ok (g : prop) : Prop :=
  (forall x y, (x == y)%Q -> (gR g x == gR g y)%C) /\ (forall x y, (x == y)%Q -> (gK g x == gK g y)%C).

Lemma Gmat_m g x y a b : prop_ok g -> (x == y)%Q -> (Gmat g x a b == Gmat g y a b)%C.
Proof. intros [HR HK] E. destruct a, b; cbn [Gmat]; auto; rewrite ?(HR _ _ E); reflexivity. Qed.

Lemma lines_m g s ch (diff : bool) w v v1 v2 a b c d : prop_ok g -> prop_ok s ->
  (v1 == line1 ch w v)%Q -> (v2 == line2 ch w v)%Q ->
  ((if diff then pair_of_lines_diff (Gmat g v1) (Gmat g v2) (Gmat s v1) (Gmat s v2)
    else pair_of_lines (Gmat g v1) (Gmat g v2)) a b c d
   == lines ch diff g s w v a b c d)%C.
Proof.
  intros Hg Hs E1 E2. unfold lines. destruct diff; unfold pair_of_lines, pair_of_lines_diff.
  - rewrite (Gmat_m g v1 _ a c Hg E1), (Gmat_m g v2 _ b d Hg E2),
      (Gmat_m s v1 _ a c Hs E1), (Gmat_m s v2 _ b d Hs E2). reflexivity.
  - rewrite (Gmat_m g v1 _ a c Hg E1), (Gmat_m g v2 _ b d Hg E2). reflexivity.
Qed.

Lemma bubble_value_ch_spec ch diff g s w v a b c d : prop_ok g -> prop_ok s ->
  (bubble_value_ch diff g s (code4 a b c d) w v ch == lines ch diff g s w v a b c d)%C.
Proof.
  intros Hg Hs. unfold bubble_value_ch.
  destruct ch; rewrite bubble_value_spec; apply lines_m; auto; unfold line1, line2; field.
Qed.

Definition bget (m : mat) (x y : bool) : cplx := mget m (b2n x) (b2n y).
Lemma value_vectorized_mat_spec ch (diff : bool) G1 G2 S1 S2 a b c d :
  (mget (value_vectorized_mat ch diff G1 G2 S1 S2) (pirow ch a b c d) (picol ch a b c d)
   == (if diff then pair_of_lines_diff (bget G1) (bget G2) (bget S1) (bget S2)
       else pair_of_lines (bget G1) (bget G2)) a b c d)%C.
Proof.
  unfold value_vectorized_mat, pair_of_lines, pair_of_lines_diff, bget.
  destruct ch, diff, a, b, c, d; cbn [pirow picol b2n Nat.mul Nat.add];
    unfold mget at 1; cbn [nth]; ring.
Qed.

Lemma bget_vals g v x y : bget (valsmooth_vectorized g v) x y = Gmat g v x y.
Proof. destruct x, y; reflexivity. Qed.

Lemma value_vectorized_spec ch diff g s w v a b c d : prop_ok g -> prop_ok s ->
  (mget (value_vectorized ch diff g s w v) (pirow ch a b c d) (picol ch a b c d)
   == lines ch diff g s w v a b c d)%C.
Proof.
  intros Hg Hs.
  rewrite <- (lines_m g s ch diff w v (convert_1 ch v w) (convert_2 ch v w) a b c d Hg Hs
                (freq1 ch w v)) by (destruct ch; unfold convert_2, line2; field).
  unfold value_vectorized. rewrite value_vectorized_mat_spec.
  destruct diff; unfold pair_of_lines, pair_of_lines_diff; rewrite !bget_vals; reflexivity.
Qed.

(** contour basis *)
Lemma bget_contour g v x y : (bget (valsmooth_vectorized_contour g v) x y == Gcontour g v x y)%C.
Proof.
  destruct x, y; split; cbv -[Qplus Qmult Qopp Qminus Qeq gR gK]; ring.
Qed.
Lemma Gcontour_m g x y a b : prop_ok g -> (x == y)%Q -> (Gcontour g x a b == Gcontour g y a b)%C.
Proof.
  intros Hg E. unfold Gcontour. apply Cscale_m; [reflexivity|].
  apply csum_ext. intros. apply csum_ext. intros. rewrite (Gmat_m g x y _ _ Hg E). reflexivity.
Qed.
Lemma value_vectorized_contour_spec ch diff g s w v a b c d : prop_ok g -> prop_ok s ->
  (mget (value_vectorized_contour ch diff g s w v) (pirow ch a b c d) (picol ch a b c d)
   == lines_contour ch diff g s w v a b c d)%C.
Proof.
  intros Hg Hs.
  assert (E1 : (convert_1 ch v w == line1 ch w v)%Q) by apply freq1.
  assert (E2 : (convert_2 ch v w == line2 ch w v)%Q) by (destruct ch; unfold convert_2, line2; field).
  unfold value_vectorized_contour. rewrite value_vectorized_mat_spec.
  unfold lines_contour, pair_of_lines, pair_of_lines_diff. destruct diff; rewrite !bget_contour.
  - rewrite (Gcontour_m g _ _ a c Hg E1), (Gcontour_m g _ _ b d Hg E2),
      (Gcontour_m s _ _ a c Hs E1), (Gcontour_m s _ _ b d Hs E2). reflexivity.
  - rewrite (Gcontour_m g _ _ a c Hg E1), (Gcontour_m g _ _ b d Hg E2). reflexivity.
Qed.

(** the list of non-zero components *)
Lemma non_zero_list_complete g v1 v2 iK :
  0 <= iK < 16 -> isInList iK glb_non_zero_Keldysh_bubble = false ->
  forall a b c d, iK = code4 a b c d -> (pair_of_lines (Gmat g v1) (Gmat g v2) a b c d == C0)%C.
Proof.
  intros H E a b c d ->. destruct a, b, c, d; vm_compute in E; try discriminate E;
    cbv [pair_of_lines Gmat]; ring.
Qed.
Lemma non_zero_list_sharp iK : In iK glb_non_zero_Keldysh_bubble ->
  exists g, prop_ok g /\ forall a b c d v1 v2, iK = code4 a b c d ->
    ~ (pair_of_lines (Gmat g v1) (Gmat g v2) a b c d == C0)%C.
Proof.
  intros H. exists (Prop_ (fun _ => C1) (fun _ => C1)). split; [split; reflexivity|].
  intros a b c d v1 v2 ->.
  destruct a, b, c, d; vm_compute in H;
    try (exfalso; repeat (destruct H as [H|H]; [discriminate H|]); exact H);
    cbv [pair_of_lines Gmat gR gK]; intros [X _]; vm_compute in X; discriminate X.
Qed.

(** ** C16 *)
Definition prop_line (g s : prop) (t : Q) : prop :=
  Prop_ (fun v => (gR g v + Cscale t (gR s v))%C) (fun v => (gK g v + Cscale t (gK s v))%C).

Lemma Cconj_add a b : (Cconj (a + b) == Cconj a + Cconj b)%C.
Proof. split; cbn [re im Cconj Cadd]; unfold Cconj, Cadd; cbn [re im]; ring. Qed.
Lemma Cconj_scale t a : (Cconj (Cscale t a) == Cscale t (Cconj a))%C.
Proof. split; unfold Cconj, Cscale; cbn [re im]; ring. Qed.
Lemma Cscale_mul t a : (Cscale t a == Cofq t * a)%C.
Proof. split; unfold Cscale, Cmul, Cofq; cbn [re im]; ring. Qed.

Lemma Gmat_line g s t v a b : (Gmat (prop_line g s t) v a b == Gmat g v a b + Cofq t * Gmat s v a b)%C.
Proof.
  destruct a, b; cbn [Gmat prop_line gR gK]; rewrite ?Cconj_add, ?Cconj_scale, ?Cscale_mul; try reflexivity.
  ring.
Qed.

Lemma lines_product_rule ch g s w v t a b c d :
  (lines ch false (prop_line g s t) s w v a b c d ==
   lines ch false g g w v a b c d + Cofq t * lines ch true g s w v a b c d
   + Cofq (t * t) * lines ch false s s w v a b c d)%C.
Proof.
  unfold lines, pair_of_lines, pair_of_lines_diff. rewrite !Gmat_line.
  assert (E : (Cofq (t * t) == Cofq t * Cofq t)%C) by (split; unfold Cofq, Cmul; cbn [re im]; ring).
  rewrite E. ring.
Qed.
