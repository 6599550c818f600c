(** What two runs should share when their result files coincide, without reference to the strings. *)
From Coq Require Import QArith Qabs String.
From Verif Require Import Prelude.
Open Scope Z_scope.

(** [n] is a nearest integer of [q], the even one of two *)
Definition nearest (q : Q) (n : Z) : Prop :=
  (Qabs (q - inject_Z n) < 1 # 2)%Q \/ ((Qabs (q - inject_Z n) == 1 # 2)%Q /\ Z.even n = true).

(** equal when written with six decimals *)
Definition same_digits (x y : Q) : Prop :=
  ((x < 0)%Q <-> (y < 0)%Q) /\
  exists n, nearest (Qabs x * (1000000 # 1)) n /\ nearest (Qabs y * (1000000 # 1)) n.

(** a file written by both of two runs *)
Definition shared (a b : list string) : Prop := exists f, In f a /\ In f b.
