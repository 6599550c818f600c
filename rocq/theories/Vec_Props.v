(** Properties C11, C12, C72, C73: the vector class. *)
From Coq Require Import QArith Qabs.
From Verif Require Import Prelude Cplx Vec_Model Vec_Spec Vec_Proofs.

(** ** C11 *)
(** binary operators on two vectors: element-wise for equal lengths, an exception otherwise *)
Theorem C11_binary_elementwise : forall {A R B} (d : B) (op : A -> R -> B) lhs rhs,
  (length lhs = length rhs -> exists out, elementwise d op lhs rhs = Vok out /\ pointwise2 op lhs rhs out) /\
  (length lhs <> length rhs -> elementwise d op lhs rhs = Vlength_error).
Proof. intros. exact (conj (elementwise_ok d op lhs rhs) (elementwise_mismatch d op lhs rhs)). Qed.
Print Assumptions C11_binary_elementwise.

(** compound assignments *)
Theorem C11_assignment_elementwise : forall {A B} (op : A -> B -> A) lhs rhs,
  (length lhs = length rhs -> exists out, elementwise_map_assign op lhs rhs = Vok out /\ pointwise2 op lhs rhs out) /\
  (length lhs <> length rhs -> elementwise_map_assign op lhs rhs = Vlength_error).
Proof. intros. exact (conj (map_assign_ok op lhs rhs) (map_assign_mismatch op lhs rhs)). Qed.
Print Assumptions C11_assignment_elementwise.

(** also when both operands are the same vector *)
Theorem C11_self_assignment : forall {A} (op : A -> A -> A) v,
  exists out, elementwise_map_assign_self op v = Vok out /\ pointwise (fun a => op a a) v out.
Proof. exact @map_assign_self_ok. Qed.
Print Assumptions C11_self_assignment.

(** operations with a scalar, and functions applied to every element *)
Theorem C11_scalar_elementwise : forall {A R B} (d : B) (op : A -> R -> B) v (r : R),
  exists out, scalar_map d op v r = Vok out /\ pointwise (fun a => op a r) v out.
Proof. exact @scalar_map_ok. Qed.
Print Assumptions C11_scalar_elementwise.

Theorem C11_scalar_assignment : forall {A} (op : A -> A -> A) v (r : A),
  exists out, scalar_map_assign op v (Separate r) = Vok out /\ pointwise (fun a => op a r) v out.
Proof. exact @scalar_assign_ok. Qed.
Print Assumptions C11_scalar_assignment.

Theorem C11_transform : forall {A B} (d : B) (op : A -> B) v,
  exists out, transform_vec d op v = Vok out /\ pointwise op v out.
Proof. exact @transform_vec_ok. Qed.
Print Assumptions C11_transform.

(** sub-vectors; indices outside are undefined behaviour *)
Theorem C11_subvector : forall {A} (v : list A) i1 i2,
  let n := Z.of_nat (length v) in let a := from_end n i1 in let b := from_end n i2 in
  (0 <= a <= b + 1 -> b < n ->
   exists out, subvector v i1 i2 = Vok out /\ Z.of_nat (length out) = b - a + 1 /\
     forall k, 0 <= k < b - a + 1 -> nth_error out (Z.to_nat k) = nth_error v (Z.to_nat (a + k))) /\
  (~ (0 <= a <= b + 1 /\ b < n) -> subvector v i1 i2 = Vub).
Proof. intros. exact (conj (subvector_ok v i1 i2) (subvector_ub v i1 i2)). Qed.
Print Assumptions C11_subvector.

(** differences of neighbours, and their sum *)
Theorem C11_diff : forall (x0 : Q) v, exists out, diff (x0 :: v) = Vok out /\ S (length out) = length (x0 :: v) /\
  (forall i x y, nth_error (x0 :: v) i = Some x -> nth_error (x0 :: v) (S i) = Some y -> nth_error out i = Some (y - x)%Q) /\
  (sum out == last (x0 :: v) x0 - x0)%Q.
Proof.
  intros x0 v. destruct (diff_ok (x0 :: v)) as (out & E & L & H); [discriminate|].
  exact (ex_intro _ out (conj E (conj L (conj H (diff_sum v x0 out E))))).
Qed.
Print Assumptions C11_diff.

Example C11_hyp : subvector [1;2;3;4;5] (-3) (-1) = Vok [3;4;5] /\ subvector [1;2;3;4;5] 1 (-2) = Vok [2;3;4] /\
  elementwise 0 Z.sub [5;7] [1;2] = Vok [4;5] /\ elementwise_map_assign Z.sub [5;7] [1] = Vlength_error /\
  diff [1;4;6#1]%Q = Vok [3;2#1]%Q.
Proof. repeat split. Qed.

(** ** C12 (false) *)
(** multiplying any vector by any complex number gives zeros *)
Theorem C12_complex_factor_refuted :
  (forall lhs z, exists out, mul_vec_comp lhs z = Vok out /\ length out = length lhs /\
     forall i a, nth_error out i = Some a -> (a == C0)%C) /\
  exists lhs z out, mul_vec_comp lhs z = Vok out /\ ~ pointwise2 (fun l r => Cmul (as_comp l) r) lhs (repeat z (length lhs)) out.
Proof.
  split; [exact mul_vec_comp_zero|].
  exists [Real 1], C1, [C0]. split; [vm_compute; reflexivity|].
  intros [_ H]. specialize (H O (Real 1) C1 eq_refl eq_refl). vm_compute in H. discriminate.
Qed.
Print Assumptions C12_complex_factor_refuted.

(** the imaginary part of a real number or vector is the number itself instead of zero *)
Theorem C12_imag_of_real_refuted :
  (forall x, myimag (Real x) = x) /\
  exists v out, vimag v = Vok out /\ Forall (fun s => exists x, s = Real x) v /\ ~ Forall (fun y => (y == 0)%Q) out.
Proof.
  split; [reflexivity|]. exists [Real 2], [2#1]. split; [reflexivity|]. split; [repeat constructor; eauto|].
  intro H. inversion H as [|? ? H1 _]. discriminate H1.
Qed.
Print Assumptions C12_imag_of_real_refuted.

(** what holds: real part, imaginary part of complex vectors and conjugation are element-wise *)
Theorem C12_complex_parts_partial : forall v,
  (exists out, vreal v = Vok out /\ pointwise (fun s => re (as_comp s)) v out) /\
  (exists out, vconj v = Vok out /\ length out = length v /\
     forall i s, nth_error v i = Some s -> exists t, nth_error out i = Some t /\ (as_comp t == Cconj (as_comp s))%C) /\
  (Forall (fun s => exists z, s = Comp z) v -> exists out, vimag v = Vok out /\ pointwise (fun s => im (as_comp s)) v out).
Proof. exact complex_parts. Qed.
Print Assumptions C12_complex_parts_partial.

Example C12_hyp : vimag [Comp (Cplx 1 2); Comp (Cplx 3 4)] = Vok [2#1; 4#1] /\ vreal [Comp (Cplx 1 2); Real 3] = Vok [1; 3#1]%Q.
Proof. split; reflexivity. Qed.

(** ** C72 (false): a compound assignment whose scalar is an element of the vector uses the modified element *)
Theorem C72_own_element_scalar_refuted : exists (v : list Z) k r out,
  nth_error v k = Some r /\ scalar_map_assign Z.mul v (OwnElement k) = Vok out /\ ~ pointwise (fun a => a * r) v out.
Proof.
  exists [2;3], O, 2, [4;12]. split; [reflexivity|]. split; [reflexivity|].
  intros [_ H]. specialize (H 1%nat 3 eq_refl). discriminate H.
Qed.
Print Assumptions C72_own_element_scalar_refuted.

(** it is right if the element is the last one, or if the scalar is a separate object (C11) *)
Theorem C72_last_element_scalar_partial : forall {A} (op : A -> A -> A) l r,
  exists out, scalar_map_assign op (l ++ [r]) (OwnElement (length l)) = Vok out /\ pointwise (fun a => op a r) (l ++ [r]) out.
Proof. exact @scalar_assign_last_ok. Qed.
Print Assumptions C72_last_element_scalar_partial.

Example C72_hyp : scalar_map_assign Z.mul [3;2] (OwnElement 1) = Vok [6;4].
Proof. reflexivity. Qed.

(** ** C73 *)
(** for finite elements the maximum norm is the largest absolute value *)
Theorem C73_max_norm_partial : forall l, exists m, max_norm (map Fin l) = Fin m /\ (0 <= m)%Q /\
  (forall x, In x l -> Qabs x <= m)%Q /\
  ((m == 0)%Q /\ (forall x, In x l -> x == 0)%Q \/ exists x, In x l /\ (m == Qabs x)%Q).
Proof. exact max_norm_ok. Qed.
Print Assumptions C73_max_norm_partial.

(** a NaN element is invisible: every vector has the norm of the vector without its NaN elements *)
Theorem C73_max_norm_hides_nan_refuted :
  (forall l, max_norm l = max_norm (filter (fun x => match x with NaN => false | Fin _ => true end) l)) /\
  max_norm [NaN; Fin 1; NaN] = Fin 1 /\ max_norm [NaN] = Fin 0.
Proof. exact (conj max_norm_drops_nan (conj eq_refl eq_refl)). Qed.
Print Assumptions C73_max_norm_hides_nan_refuted.

Example C73_hyp : max_norm (map Fin [1; -3#1; 2#1]%Q) = Fin 3.
Proof. reflexivity. Qed.
