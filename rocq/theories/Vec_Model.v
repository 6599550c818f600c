(** The vector class of data_structures.hpp:116-441. A vector is the list of its elements. *)
From Coq Require Import QArith Qabs Qminmax.
From Verif Require Import Prelude Cplx.

(** outcome of an operation: a value, the exception std::length_error, or undefined behaviour *)
Inductive vres (A : Type) := Vok (a : A) | Vlength_error | Vub.
Arguments Vok {A} _.
Arguments Vlength_error {A}.
Arguments Vub {A}.

(** data_structures.hpp:155-168 elementwise_map_assign: the loop overwrites the elements one after the other *)
Definition elementwise_map_assign {A B} (op : A -> B -> A) (lhs : list A) (rhs : list B) : vres (list A) :=
  if negb (Nat.eqb (length rhs) (length lhs)) then Vlength_error else
  match fold_left (fun acc i => v <- acc ;; l <- nth_error v i ;; r <- nth_error rhs i ;; oupd v i (op l r))
                  (seq 0 (length lhs)) (Some lhs) with
  | Some v => Vok v
  | None => Vub
  end.

(** the same with the vector itself as right-hand side (v += v): the loop reads the element it is about to overwrite *)
Definition elementwise_map_assign_self {A} (op : A -> A -> A) (lhs : list A) : vres (list A) :=
  match fold_left (fun acc i => v <- acc ;; l <- nth_error v i ;; r <- nth_error v i ;; oupd v i (op l r))
                  (seq 0 (length lhs)) (Some lhs) with
  | Some v => Vok v
  | None => Vub
  end.

(** data_structures.hpp:170-180 scalar_map_assign. The scalar is passed by const reference: it is either a
    separate object or an element of the vector itself (v *= v[k]), which is then read again in every iteration. *)
Inductive sref (R : Type) := Separate (r : R) | OwnElement (k : nat).
Arguments Separate {R} _.
Arguments OwnElement {R} _.

Definition scalar_map_assign {A} (op : A -> A -> A) (lhs : list A) (rhs : sref A) : vres (list A) :=
  match fold_left (fun acc i => v <- acc ;; l <- nth_error v i ;;
                     r <- (match rhs with Separate r => Some r | OwnElement k => nth_error v k end) ;;
                     oupd v i (op l r))
                  (seq 0 (length lhs)) (Some lhs) with
  | Some v => Vok v
  | None => Vub
  end.

(** the loops that fill a fresh vector res(n) element by element *)
Definition fill {B} (dflt : B) (n : nat) (f : nat -> option B) : vres (list B) :=
  match fold_left (fun acc i => v <- acc ;; x <- f i ;; oupd v i x) (seq 0 n) (Some (repeat dflt n)) with
  | Some v => Vok v
  | None => Vub
  end.

(** data_structures.hpp:185-194 scalar_map *)
Definition scalar_map {A R B} (dflt : B) (op : A -> R -> B) (lhs : list A) (rhs : R) : vres (list B) :=
  fill dflt (length lhs) (fun i => l <- nth_error lhs i ;; Some (op l rhs)).

(** data_structures.hpp:197-210 elementwise *)
Definition elementwise {A R B} (dflt : B) (op : A -> R -> B) (lhs : list A) (rhs : list R) : vres (list B) :=
  if negb (Nat.eqb (length lhs) (length rhs)) then Vlength_error else
  fill dflt (length lhs) (fun i => l <- nth_error lhs i ;; r <- nth_error rhs i ;; Some (op l r)).

(** data_structures.hpp:212-221 transform_vec *)
Definition transform_vec {A B} (dflt : B) (op : A -> B) (v : list A) : vres (list B) :=
  fill dflt (length v) (fun i => x <- nth_error v i ;; Some (op x)).

(** construction of a vector from two iterators of the same vector, given by their positions *)
Definition iter_range {A} (v : list A) (b e : Z) : vres (list A) :=
  if (0 <=? b) && (b <=? e) && (e <=? Z.of_nat (length v))
  then Vok (firstn (Z.to_nat (e - b)) (skipn (Z.to_nat b) v)) else Vub.

(** data_structures.hpp:290-296 sub-vector *)
Definition subvector {A} (v : list A) (i1 i2 : Z) : vres (list A) :=
  let n := Z.of_nat (length v) in
  let it1 := if i1 >=? 0 then 0 else n in
  let it2 := if i2 >=? 0 then 0 else n in
  iter_range v (it1 + i1) (it2 + i2 + 1).

(** data_structures.hpp:393-398 diff *)
Definition diff (v : list Q) : vres (list Q) :=
  match iter_range v 1 (Z.of_nat (length v)), iter_range v 0 (Z.of_nat (length v) - 1) with
  | Vok xp, Vok xm => elementwise 0%Q Qminus xp xm
  | _, _ => Vub
  end.

(** data_structures.hpp:401-404 sum *)
Definition sum (v : list Q) : Q := fold_left Qplus v 0%Q.

(** doubles for which a comparison with NaN matters *)
Inductive fl := NaN | Fin (q : Q).
Definition flt (a b : fl) : bool := match a, b with Fin x, Fin y => negb (Qle_bool y x) | _, _ => false end.
(** std::max(a,b) is (a < b) ? b : a *)
Definition std_max (a b : fl) : fl := if flt a b then b else a.
Definition flabs (a : fl) : fl := match a with NaN => NaN | Fin q => Fin (Qabs q) end.

(** data_structures.hpp:383-390 max_norm (also multiarray.hpp:530) *)
Definition max_norm (v : list fl) : fl := fold_left (fun out x => std_max out (flabs x)) v (Fin 0%Q).

(** data_structures.hpp:93-104 real, imaginary part and conjugate of a real or complex number *)
Inductive scalar := Real (x : Q) | Comp (z : cplx).
Definition myreal (x : scalar) : Q := match x with Real r => r | Comp z => re z end.
Definition myimag (x : scalar) : Q := match x with Real r => r | Comp z => im z end.
Definition myconj (x : scalar) : scalar := match x with Real r => Real r | Comp z => Comp (Cconj z) end.

Definition vreal (v : list scalar) := transform_vec 0%Q myreal v.
Definition vimag (v : list scalar) := transform_vec 0%Q myimag v.
Definition vconj (v : list scalar) := transform_vec (Real 0%Q) myconj v.
Definition as_comp (x : scalar) : cplx := match x with Real r => Cofq r | Comp z => z end.

(** data_structures.hpp:431-441 operator*(vec<T>, const comp&): every element of the fresh, zero initialised
    result is multiplied in place by lhs[i]*rhs. (More specialised than the generic operator, hence chosen.) *)
Definition mul_vec_comp (lhs : list scalar) (rhs : cplx) : vres (list cplx) :=
  match fold_left (fun acc i => v <- acc ;; old <- nth_error v i ;; l <- nth_error lhs i ;;
                     oupd v i (Cmul old (Cmul (as_comp l) rhs)))
          (seq 0 (length lhs)) (Some (repeat C0 (length lhs))) with
  | Some v => Vok v
  | None => Vub
  end.
