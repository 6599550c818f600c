(** Theorems for C13-C16 (Keldysh indices, bubbles), C74 (spin sums), C75 (single-boson exchange
    products). *)
From Coq Require Import QArith.
From Verif Require Import Prelude Cplx Keld_Model Keld_Spec Keld_Proofs Keld_Proofs2 Keld_Proofs3.
Open Scope Z_scope.

(** ** C13 *)
Theorem C13_keldysh_index_roundtrip : forall iK, 0 <= iK < 16 ->
  alphas_to_iK (iK_to_alphas iK) = Some iK.
Proof. exact alphas_roundtrip. Qed.
Theorem C13_keldysh_tuple_roundtrip : forall l,
  length l = 4%nat -> Forall (fun x => x = 1 \/ x = 2) l ->
  exists iK, alphas_to_iK l = Some iK /\ 0 <= iK < 16 /\ iK_to_alphas iK = l.
Proof. exact iK_roundtrip. Qed.
Theorem C13_keldysh_index_digits : forall a b c d, iK_to_alphas (code4 a b c d) = tuple4 a b c d.
Proof. exact iK_to_alphas_spec. Qed.
Example C13_hyp : iK_to_alphas 6 = [1; 2; 2; 1] /\ alphas_to_iK [1; 2; 2; 1] = Some 6
  /\ Forall (fun x => x = 1 \/ x = 2) [1; 2; 2; 1].
Proof. split; [reflexivity|]. split; [reflexivity|]. repeat (apply Forall_cons; [lia|]). apply Forall_nil. Qed.

(** ** C14 *)
Theorem C14_rotate_then_unrotate : forall ch side iK, 0 <= iK < 16 ->
  exists r, rotate_Keldysh_matrix ch side iK = Some r /\ 0 <= r < 16 /\
            unrotate_Keldysh_matrix ch side r = Some iK.
Proof. exact rotate_unrotate. Qed.
Theorem C14_unrotate_then_rotate : forall ch side iK, 0 <= iK < 16 ->
  exists r, unrotate_Keldysh_matrix ch side iK = Some r /\ 0 <= r < 16 /\
            rotate_Keldysh_matrix ch side r = Some iK.
Proof. exact unrotate_rotate. Qed.
(** the (row, column) position of the left vertex is (external pair, pair at the bubble) *)
Theorem C14_left_vertex_row_column : forall ch e1' e2' e1 e2 x3 x4 x3' x4',
  rotate_Keldysh_matrix ch true
    (match ch with
     | Ca => code4 e1' e2 x3 x4' | Cp => code4 e1' e2' x3 x4 | Ct => code4 e2' e2 x3 x4'
     end) = Some (left_legs ch code4 e1' e2' e1 e2 x3 x4 x3' x4').
Proof. exact rotate_left_spec. Qed.
Theorem C14_right_vertex_row_column : forall ch e1' e2' e1 e2 x3 x4 x3' x4',
  rotate_Keldysh_matrix ch false
    (match ch with
     | Ca => code4 e1 e2' x3' x4 | Cp => code4 e1 e2 x3' x4' | Ct => code4 e1 e1' x3' x4
     end) = Some (right_legs ch code4 e1' e2' e1 e2 x3 x4 x3' x4').
Proof. exact rotate_right_spec. Qed.
Theorem C14_indices_sum_legs : forall ch e1' e2' e1 e2 x3 x4 x3' x4',
  indices_sum (code4 e1' e2' e1 e2) (code4 x3 x4 x3' x4') ch
  = Some (left_legs ch code4 e1' e2' e1 e2 x3 x4 x3' x4',
          right_legs ch code4 e1' e2' e1 e2 x3 x4 x3' x4').
Proof. exact indices_sum_spec. Qed.
Theorem C14_left_right_of_result : forall ch iK, 0 <= iK < 16 ->
  exists l r, get_i0_left_right ch iK = Some (l, r) /\ 0 <= l < 4 /\ 0 <= r < 4 /\
              rotate_Keldysh_matrix ch true (l * 4 + r) = Some iK.
Proof. exact get_i0_left_right_spec. Qed.

(** channel and spin component without spin sum *)
Definition plain (ch : chan) (spin : Z) : Prop :=
  (ch = Ca /\ spin = 0) \/ (ch = Cp /\ spin = 0) \/ (ch = Ct /\ spin = 1).
Theorem C14_vectorised_product_is_diagram : forall ch spin VL VR diff g s w v,
  plain ch spin -> prop_ok g -> prop_ok s ->
  exists l, integrand_vectorized ch spin VL VR (value_vectorized ch diff g s w v) = Some l /\ length l = 16%nat /\
    forall e1' e2' e1 e2, exists x, nth_error l (Z.to_nat (code4 e1' e2' e1 e2)) = Some x /\
      (x == diagram ch (VL spin) (lines ch diff g s w v) (VR spin) e1' e2' e1 e2)%C.
Proof.
  intros ch spin VL VR diff g s w v Hp Hg Hs.
  destruct (integrand_vectorized_code ch spin VL VR (value_vectorized ch diff g s w v)
              (lines ch diff g s w v)) as (l & E & L & H).
  - destruct Hp as [[_ ->]|[[_ ->]|[_ ->]]]; auto.
  - intros. apply value_vectorized_spec; assumption.
  - exists l. split; [exact E|]. split; [exact L|]. intros. destruct (H e1' e2' e1 e2) as (x & Hx & He).
    exists x. split; [exact Hx|]. rewrite He.
    destruct Hp as [[-> ->]|[[-> ->]|[-> ->]]]; reflexivity.
Qed.
(** the summation for one external index gives the same *)
Theorem C14_scalar_product_is_diagram : forall ch spin VL VR diff g s w v e1' e2' e1 e2,
  plain ch spin -> prop_ok g -> prop_ok s ->
  exists x, sum_over_internal_scalar ch spin (code4 e1' e2' e1 e2) VL VR (value_vectorized ch diff g s w v) = Some x /\
    (x == diagram ch (VL spin) (lines ch diff g s w v) (VR spin) e1' e2' e1 e2)%C.
Proof.
  intros ch spin VL VR diff g s w v e1' e2' e1 e2 Hp Hg Hs.
  destruct (integrand_scalar_code ch spin VL VR (value_vectorized ch diff g s w v)
              (lines ch diff g s w v) e1' e2' e1 e2) as (x & E & H).
  - destruct Hp as [[_ ->]|[[_ ->]|[_ ->]]]; auto.
  - intros. apply value_vectorized_spec; assumption.
  - exists x. split; [exact E|]. rewrite H. destruct Hp as [[-> ->]|[[-> ->]|[-> ->]]]; reflexivity.
Qed.
Example C14_hyp : plain Ct 1 /\ prop_ok (Prop_ (fun v => Cplx v 1) (fun v => Cplx 0 v))
  /\ rotate_Keldysh_matrix Ct true 5 = Some 9 /\ unrotate_Keldysh_matrix Ct true 9 = Some 5
  /\ rotate_Keldysh_matrix Ct true 9 <> Some 5.
Proof.
  unfold plain, prop_ok. split; [auto|]. split.
  - split; intros x y H; split; cbn; auto; try exact H; reflexivity.
  - split; [reflexivity|]. split; [reflexivity|]. vm_compute. discriminate.
Qed.

(** ** C15 *)
Theorem C15_component_is_product_of_lines : forall ch diff g s w v a b c d, prop_ok g -> prop_ok s ->
  (bubble_value_ch diff g s (code4 a b c d) w v ch == lines ch diff g s w v a b c d)%C.
Proof. exact bubble_value_ch_spec. Qed.
Theorem C15_unlisted_components_vanish : forall ch diff g s w v iK, prop_ok g -> prop_ok s ->
  0 <= iK < 16 -> isInList iK glb_non_zero_Keldysh_bubble = false ->
  (bubble_value_ch diff g s iK w v ch == C0)%C /\
  forall a b c d, iK = code4 a b c d -> (lines ch diff g s w v a b c d == C0)%C.
Proof.
  intros ch diff g s w v iK Hg Hs R E.
  assert (Z : forall a b c d, iK = code4 a b c d -> (lines ch diff g s w v a b c d == C0)%C).
  { intros a b c d ->. unfold lines.
    destruct diff, a, b, c, d; vm_compute in E; try discriminate E;
      cbv [pair_of_lines pair_of_lines_diff Gmat]; ring. }
  split; [|exact Z].
  destruct (below16 iK R) as (a & b & c & d & Ek). rewrite Ek, bubble_value_ch_spec by assumption.
  apply Z. exact Ek.
Qed.
Theorem C15_listed_components_occur : forall iK, In iK glb_non_zero_Keldysh_bubble ->
  exists g, prop_ok g /\ forall ch w v, ~ (bubble_value_ch false g g iK w v ch == C0)%C.
Proof.
  intros iK H. destruct (non_zero_list_sharp iK H) as (g & Hg & N). exists g. split; [exact Hg|].
  intros ch w v X.
  assert (R : 0 <= iK < 16) by (vm_compute in H; repeat (destruct H as [<-|H]; [lia|]); destruct H).
  destruct (below16 iK R) as (a & b & c & d & Ek).
  apply (N a b c d (line1 ch w v) (line2 ch w v) Ek).
  rewrite Ek, bubble_value_ch_spec in X by assumption. exact X.
Qed.
Theorem C15_scalar_and_vectorised_agree : forall ch diff g s w v a b c d, prop_ok g -> prop_ok s ->
  (mget (value_vectorized ch diff g s w v) (pirow ch a b c d) (picol ch a b c d)
   == bubble_value_ch diff g s (code4 a b c d) w v ch)%C.
Proof.
  intros. rewrite value_vectorized_spec, bubble_value_ch_spec by assumption. reflexivity.
Qed.
(** in the contour basis: the propagator matrix is the rotated one, and the 4x4 matrix holds the
    products of the lines for every pair of matrices *)
Theorem C15_vectorised_contour_basis : forall ch diff g s w v a b c d, prop_ok g -> prop_ok s ->
  (mget (value_vectorized_contour ch diff g s w v) (pirow ch a b c d) (picol ch a b c d)
   == lines_contour ch diff g s w v a b c d)%C.
Proof. exact value_vectorized_contour_spec. Qed.
(** summing over the nine listed components and the separate spin terms gives the same integrand
    as the matrix product *)
Theorem C15_sum_over_listed_components_suffices : forall ch VL VR diff g s w v, prop_ok g -> prop_ok s ->
  exists l, integrand_vectorized ch 0 VL VR (value_vectorized ch diff g s w v) = Some l /\
    forall e1' e2' e1 e2, exists x y,
      nth_error l (Z.to_nat (code4 e1' e2' e1 e2)) = Some x /\
      integrand_by_components ch 0 (code4 e1' e2' e1 e2) VL VR
        (fun i2 => bubble_value_ch diff g s i2 w v ch) = Some y /\ (x == y)%C.
Proof.
  intros ch VL VR diff g s w v Hg Hs.
  destruct (integrand_vectorized_code ch 0 VL VR (value_vectorized ch diff g s w v)
              (lines ch diff g s w v)) as (l & E & L & H); auto.
  { intros. apply value_vectorized_spec; assumption. }
  exists l. split; [exact E|]. intros. destruct (H e1' e2' e1 e2) as (x & Hx & He).
  destruct (components_sum ch VL VR (fun i2 => bubble_value_ch diff g s i2 w v ch) (lines ch diff g s w v)
              e1' e2' e1 e2) as (y & Hy & Hy').
  - intros. apply bubble_value_ch_spec; assumption.
  - intros a b c d Z. eapply C15_unlisted_components_vanish; eauto. apply code4_range.
  - exists x, y. split; [exact Hx|]. split; [exact Hy|]. rewrite He, Hy'. reflexivity.
Qed.
Example C15_hyp : isInList 5 glb_non_zero_Keldysh_bubble = false /\ In 9 glb_non_zero_Keldysh_bubble
  /\ (bubble_value_ch false (Prop_ (fun v => Cplx v 1) (fun v => Cplx 0 v))
                            (Prop_ (fun v => Cplx v 1) (fun v => Cplx 0 v)) 9 2 3 Ca == Cplx 9 2)%C.
Proof. split; [reflexivity|]. split; [cbn; auto 10|]. split; vm_compute; reflexivity. Qed.

(** ** C16: along G + t S the bubble is a polynomial in t whose linear coefficient is the
    differentiated bubble *)
Theorem C16_differentiated_bubble_is_derivative : forall ch g s w v t iK,
  prop_ok g -> prop_ok s -> 0 <= iK < 16 ->
  (bubble_value_ch false (prop_line g s t) s iK w v ch
   == bubble_value_ch false g g iK w v ch + Cofq t * bubble_value_ch true g s iK w v ch
      + Cofq (t * t) * bubble_value_ch false s s iK w v ch)%C.
Proof.
  intros ch g s w v t iK Hg Hs R. destruct (below16 iK R) as (a & b & c & d & ->).
  rewrite !bubble_value_ch_spec; try assumption.
  - apply lines_product_rule.
  - destruct Hg as [A B], Hs as [C D]. split; intros x y E; cbn [prop_line gR gK];
      rewrite ?(A _ _ E), ?(B _ _ E), ?(C _ _ E), ?(D _ _ E); reflexivity.
Qed.
Theorem C16_vectorised_differentiated_bubble_is_derivative : forall ch g s w v t i j,
  prop_ok g -> prop_ok s -> (i < 4)%nat -> (j < 4)%nat ->
  (mget (value_vectorized ch false (prop_line g s t) s w v) i j
   == mget (value_vectorized ch false g g w v) i j + Cofq t * mget (value_vectorized ch true g s w v) i j
      + Cofq (t * t) * mget (value_vectorized ch false s s w v) i j)%C.
Proof.
  intros ch g s w v t i j Hg Hs Hi Hj.
  assert (E : exists a b c d, i = pirow ch a b c d /\ j = picol ch a b c d).
  { destruct i as [|[|[|[|i]]]]; [..|exfalso; lia];
    destruct j as [|[|[|[|j]]]]; try (exfalso; lia); destruct ch;
    match goal with |- exists a b c d, ?x = pirow ?k _ _ _ _ /\ ?y = picol ?k _ _ _ _ =>
      first [ exists false, false, false, false; split; reflexivity
            | exists false, false, false, true; split; reflexivity
            | exists false, false, true, false; split; reflexivity
            | exists false, false, true, true; split; reflexivity
            | exists false, true, false, false; split; reflexivity
            | exists false, true, false, true; split; reflexivity
            | exists false, true, true, false; split; reflexivity
            | exists false, true, true, true; split; reflexivity
            | exists true, false, false, false; split; reflexivity
            | exists true, false, false, true; split; reflexivity
            | exists true, false, true, false; split; reflexivity
            | exists true, false, true, true; split; reflexivity
            | exists true, true, false, false; split; reflexivity
            | exists true, true, false, true; split; reflexivity
            | exists true, true, true, false; split; reflexivity
            | exists true, true, true, true; split; reflexivity ] end. }
  destruct E as (a & b & c & d & -> & ->).
  rewrite !value_vectorized_spec; try assumption.
  - apply lines_product_rule.
  - destruct Hg as [A B], Hs as [C D]. split; intros x y E; cbn [prop_line gR gK];
      rewrite ?(A _ _ E), ?(B _ _ E), ?(C _ _ E), ?(D _ _ E); reflexivity.
Qed.
Example C16_hyp : let g := Prop_ (fun v => Cplx v 1) (fun v => Cplx 0 v) in
  let s := Prop_ (fun v => Cplx 1 v) (fun v => Cplx v v) in
  prop_ok g /\ prop_ok s /\ ~ (bubble_value_ch true g s 7 2 3 Ca == C0)%C.
Proof.
  split; [|split].
  - split; intros x y H; split; cbn; auto; try exact H; reflexivity.
  - split; intros x y H; split; cbn; auto; try exact H; reflexivity.
  - intros [H _]. vm_compute in H. discriminate H.
Qed.

(** ** C74 spin sums *)
Theorem C74_spin_sum_a_t : forall ch spin VL VR diff g s w v,
  ch <> Cp -> spin = 0 \/ spin = 1 -> prop_ok g -> prop_ok s ->
  exists l, integrand_vectorized ch spin VL VR (value_vectorized ch diff g s w v) = Some l /\
    forall e1' e2' e1 e2, exists x, nth_error l (Z.to_nat (code4 e1' e2' e1 e2)) = Some x /\
      (x == spin_diagram ch spin VL VR (lines ch diff g s w v) e1' e2' e1 e2)%C.
Proof.
  intros ch spin VL VR diff g s w v Hc Hsp Hg Hs.
  destruct (integrand_vectorized_code ch spin VL VR (value_vectorized ch diff g s w v)
              (lines ch diff g s w v) Hsp) as (l & E & L & H).
  { intros. apply value_vectorized_spec; assumption. }
  exists l. split; [exact E|]. intros. destruct (H e1' e2' e1 e2) as (x & Hx & He).
  exists x. split; [exact Hx|]. rewrite He, spin_diagram_at by assumption. reflexivity.
Qed.
Theorem C74_spin_sum_scalar_a_t : forall ch spin VL VR diff g s w v e1' e2' e1 e2,
  ch <> Cp -> spin = 0 \/ spin = 1 -> prop_ok g -> prop_ok s ->
  exists x, sum_over_internal_scalar ch spin (code4 e1' e2' e1 e2) VL VR (value_vectorized ch diff g s w v) = Some x /\
      (x == spin_diagram ch spin VL VR (lines ch diff g s w v) e1' e2' e1 e2)%C.
Proof.
  intros ch spin VL VR diff g s w v e1' e2' e1 e2 Hc Hsp Hg Hs.
  destruct (integrand_scalar_code ch spin VL VR (value_vectorized ch diff g s w v)
              (lines ch diff g s w v) e1' e2' e1 e2 Hsp) as (x & E & H).
  { intros. apply value_vectorized_spec; assumption. }
  exists x. split; [exact E|]. rewrite H, spin_diagram_at by assumption. reflexivity.
Qed.
(** p channel: for vertices related by crossing (exchange of the legs joined to the bubble changes
    the sign, the spin component and the sign of the integration frequency) the code's integrand
    at v and at -v add up to the full spin sum, so that it is half of it after integration *)
Theorem C74_spin_sum_p : forall spin (VL VR : Z -> Z -> Q -> cplx) diff g s w v,
  spin = 0 \/ spin = 1 -> prop_ok g -> prop_ok s ->
  (forall sp a b c d u, sp = 0 \/ sp = 1 ->
     (VL (1 - sp)%Z (code4 a b c d) u == - VL sp (code4 a b d c) (- u)%Q)%C) ->
  (forall sp a b c d u, sp = 0 \/ sp = 1 ->
     (VR (1 - sp)%Z (code4 a b c d) u == - VR sp (code4 b a c d) (- u)%Q)%C) ->
  exists l l',
    integrand_vectorized Cp spin (fun sp k => VL sp k v) (fun sp k => VR sp k v)
                         (value_vectorized Cp diff g s w v) = Some l /\
    integrand_vectorized Cp spin (fun sp k => VL sp k (- v)%Q) (fun sp k => VR sp k (- v)%Q)
                         (value_vectorized Cp diff g s w (- v)%Q) = Some l' /\
    forall e1' e2' e1 e2, exists x x',
      nth_error l (Z.to_nat (code4 e1' e2' e1 e2)) = Some x /\
      nth_error l' (Z.to_nat (code4 e1' e2' e1 e2)) = Some x' /\
      (spin_diagram Cp spin (fun sp k => VL sp k v) (fun sp k => VR sp k v)
                    (lines Cp diff g s w v) e1' e2' e1 e2 == x + x')%C.
Proof.
  intros spin VL VR diff g s w v Hsp Hg Hs HL HR.
  destruct (integrand_vectorized_code Cp spin (fun sp k => VL sp k v) (fun sp k => VR sp k v)
     (value_vectorized Cp diff g s w v) (lines Cp diff g s w v) Hsp) as (l & E & _ & H).
  { intros. apply value_vectorized_spec; assumption. }
  destruct (integrand_vectorized_code Cp spin (fun sp k => VL sp k (- v)%Q) (fun sp k => VR sp k (- v)%Q)
     (value_vectorized Cp diff g s w (- v)%Q) (lines Cp diff g s w (- v)%Q) Hsp) as (l' & E' & _ & H').
  { intros. apply value_vectorized_spec; assumption. }
  exists l, l'. split; [exact E|]. split; [exact E'|]. intros.
  destruct (H e1' e2' e1 e2) as (x & Hx & He). destruct (H' e1' e2' e1 e2) as (x' & Hx' & He').
  exists x, x'. split; [exact Hx|]. split; [exact Hx'|]. rewrite He, He'.
  apply (spin_diagram_p_crossing spin VL VR); auto.
Qed.
Example C74_hyp : let VL := fun (sp k : Z) (u : Q) => if sp =? 0 then Cofq u else Cofq u in
  (forall sp a b c d u, sp = 0 \/ sp = 1 ->
     (VL (1 - sp)%Z (code4 a b c d) u == - VL sp (code4 a b d c) (- u)%Q)%C)
  /\ ~ (spin_diagram Cp 0 (fun sp k => VL sp k 1%Q) (fun sp k => VL sp k 1%Q) (fun _ _ _ _ => C1)
          true false true false == C0)%C.
Proof.
  split.
  - intros sp a b c d u [-> | ->]; (split; [symmetry; apply Qopp_involutive|reflexivity]).
  - intros [H _]. vm_compute in H. discriminate H.
Qed.

(** ** C75 single-boson exchange products *)
Theorem C75_sbe_product_joins_legs : forall chb chr side A B,
  exists fa fb l,
    symmetry_expanded chb side A = Some fa /\ symmetry_expanded chb side B = Some fb /\
    combine_SBE chb chr side fa fb = Some l /\ length l = 16%nat /\
    forall iK e1' e2' e1 e2, 0 <= iK < 16 ->
      rotate_Keldysh_matrix chb side iK = Some (code4 e1' e2' e1 e2) ->
      exists x, nth_error l (Z.to_nat iK) = Some x /\ (x == diagram chr A joined B e1' e2' e1 e2)%C.
Proof.
  intros. destruct (combine_SBE_spec chb chr side A B) as (l & E & L & H).
  eexists. eexists. exists l. split; [apply symmetry_expanded_eq|]. split; [apply symmetry_expanded_eq|].
  split; [exact E|]. split; assumption.
Qed.
Example C75_hyp : rotate_Keldysh_matrix Ct false 5 = Some (code4 true false false true)
  /\ (diagram Ca (fun k => Cofq (inject_Z k)) joined (fun k => Cofq (inject_Z (k * k))) true false false true
      == Cofq 1932)%C.
Proof. split; [reflexivity|]. split; vm_compute; reflexivity. Qed.

Print Assumptions C13_keldysh_index_roundtrip.
Print Assumptions C14_vectorised_product_is_diagram.
Print Assumptions C15_sum_over_listed_components_suffices.
Print Assumptions C16_differentiated_bubble_is_derivative.
Print Assumptions C16_vectorised_differentiated_bubble_is_derivative.
Print Assumptions C74_spin_sum_p.
Print Assumptions C75_sbe_product_joins_legs.
