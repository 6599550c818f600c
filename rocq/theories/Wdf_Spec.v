(** What a reader of the files finds; independent of [Wdf_Model]. *)
From Coq Require Import Ascii String List.
Import ListNotations.

(** the pieces of a text that are ended by a separator, and the rest after the last separator *)
Inductive pieces (sep : ascii) : list ascii -> list (list ascii) -> list ascii -> Prop :=
| pieces_end r : ~ In sep r -> pieces sep r [] r
| pieces_cons p t l r : ~ In sep p -> pieces sep t l r -> pieces sep (p ++ sep :: t) (p :: l) r.
(** a table: lines that end in a newline; in each line, words that end in a space *)
Definition table (t : list ascii) (rows : list (list (list ascii))) : Prop :=
  exists lines, pieces "010"%char t lines [] /\ Forall2 (fun line words => pieces " "%char line words []) lines rows.

(** the named data sets of a file are the given vectors under the given names, and no others *)
Definition holds {A : Type} (f : list (string * list A)) (keys : list string) (vs : list (list A)) : Prop :=
  NoDup (map fst f) /\ forall k v, In (k, v) f <-> exists i, nth_error keys i = Some k /\ nth_error vs i = Some v.
