(** Specification of row-major storage, independent of the model functions. *)
From Verif Require Import Prelude.

(** number of elements of an array with the given lengths *)
Fixpoint prodZ (ds : list Z) : Z := match ds with [] => 1 | d :: r => d * prodZ r end.

(** all lengths are positive *)
Definition pos_dims (ds : list Z) : Prop := Forall (fun d => 0 < d) ds.

(** an index tuple is inside an array with the given lengths *)
Definition in_range (is ds : list Z) : Prop := Forall2 (fun i d => 0 <= i < d) is ds.

(** the row-major position of a tuple: the last index is the fastest *)
Fixpoint row_major (is ds : list Z) : Z :=
  match is, ds with
  | i :: is', _ :: ds' => i * prodZ ds' + row_major is' ds'
  | _, _ => 0
  end.

(** the tuple (or dimension list) in which dimension [i] has been rotated to the end *)
Definition rot_last {A} (i : nat) (l : list A) : list A := skipn (S i) l ++ firstn (S i) l.

(** the tuple with entries taken in the order given by a permutation *)
Definition gather {A} (d : A) (l : list A) (perm : list nat) : list A := map (fun p => nth p l d) perm.

(** decides [in_range] and [pos_dims] on literals *)
Ltac inrange := unfold in_range, pos_dims; repeat (apply Forall2_cons; [lia|]); repeat (apply Forall_cons; [lia|]);
  first [apply Forall2_nil | apply Forall_nil].
