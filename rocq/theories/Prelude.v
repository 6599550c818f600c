(** Shared conventions: option monad, size_t arithmetic, small list facts. *)
From Coq Require Export ZArith Lia List Bool.
Export ListNotations.
Open Scope Z_scope.

(** [None] stands for undefined behaviour, a failed assertion or a thrown exception
    (each model file says which). *)
Definition obind {A B} (o : option A) (f : A -> option B) : option B :=
  match o with Some a => f a | None => None end.
Notation "x <- e ;; k" := (obind e (fun x => k)) (at level 61, e at next level, right associativity).

(** size_t is a 64 bit unsigned type (LP64); its operations wrap around. *)
Definition w64 : Z := 2 ^ 64.
Definition umul (a b : Z) : Z := (a * b) mod w64.
Definition uadd (a b : Z) : Z := (a + b) mod w64.
Definition usub (a b : Z) : Z := (a - b) mod w64.
(** unsigned division; division by zero is undefined behaviour *)
Definition udiv (a b : Z) : option Z := if b =? 0 then None else Some (a / b).

(** all elements of a list of options are defined *)
Fixpoint osequence {A} (l : list (option A)) : option (list A) :=
  match l with
  | [] => Some []
  | o :: r => a <- o ;; t <- osequence r ;; Some (a :: t)
  end.

(** update of one list element; [None] when the position is out of range *)
Fixpoint oupd {A} (l : list A) (i : nat) (x : A) : option (list A) :=
  match l, i with
  | [], _ => None
  | _ :: r, O => Some (x :: r)
  | a :: r, S j => t <- oupd r j x ;; Some (a :: t)
  end.

Global Arguments Z.mul : simpl never.
Global Arguments Z.add : simpl never.
Global Arguments Z.sub : simpl never.
Global Arguments Z.div : simpl never.
Global Arguments Z.modulo : simpl never.
