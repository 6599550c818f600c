(** Finite differences of a table of complex numbers indexed by tuples. *)
From Coq Require Import QArith.
From Verif Require Import Prelude Idx_Spec.
Open Scope Z_scope.

(** a buffer with the shape dims *)
Definition good (dims : list Z) (buf : list Q) : Prop :=
  dims <> [] /\ pos_dims dims /\ prodZ dims < w64 /\ Z.of_nat (length buf) = prodZ dims.
(** the tuple with component p changed by d *)
Definition shift (idx : list Z) (p : nat) (d : Z) : list Z := firstn p idx ++ (nth p idx 0 + d) :: skipn (S p) idx.
(** component p is at least m steps from both ends *)
Definition inside (dims idx : list Z) (p : nat) (m : Z) : Prop := m <= nth p idx 0 < nth p dims 0 - m.
(** value of a table at a tuple *)
Definition at_ (dims : list Z) (buf : list Q) (idx : list Z) : Q := nth (Z.to_nat (row_major idx dims)) buf 0%Q.
Definition diff1 (f : list Z -> Q) (p : nat) (idx : list Z) : Q := ((f (shift idx p 1) - f (shift idx p (-1))) * (1 # 2))%Q.
(** mixed second difference in directions p and q *)
Definition diff2 (f : list Z -> Q) (p q : nat) (idx : list Z) : Q := diff1 (diff1 f p) q idx.
Definition sq2 (u v : Q) : Q := (u * u + v * v)%Q.
(** squared norm of the Hessian (a list of pairs of directions with multiplicities) *)
Definition hessian2 (f g : list Z -> Q) (ps : list (nat * nat * Q)) (idx : list Z) : Q :=
  fold_right (fun e s => let '(p, q, m) := e in (m * sq2 (diff2 f p q idx) (diff2 g p q idx) + s)%Q) 0%Q ps.
Definition gradient2 (f g : list Z -> Q) (ps : list nat) (idx : list Z) : Q :=
  fold_right (fun p s => (sq2 (diff1 f p idx) (diff1 g p idx) + s)%Q) 0%Q ps.
Definition directions (nf pos : nat) : list nat := seq pos nf.
Definition pairs (nf pos : nat) : list (nat * nat * Q) :=
  flat_map (fun i => (i, i, 1%Q) :: map (fun j => (j, i, 2%Q)) (seq (S i) (pos + nf - S i))) (seq pos nf).
(** ** differences of the table read as one long row *)
Definition e_ (buf : list Q) (k : nat) : Q := nth k buf 0%Q.
(** difference of the entries a stride s apart in a linear table of n entries; one-sided only at the two ends of the whole table *)
Definition fdiff (s n : nat) (e : nat -> Q) (k : nat) : Q :=
  (if (k <? s)%nat then e k * (-(3#2)) + e (k + s)%nat * (2#1) + e (k + 2 * s)%nat * (-(1#2))
   else if (n - s <=? k)%nat then e (k - 2 * s)%nat * (1#2) + e (k - s)%nat * (-(2#1)) + e k * (3#2)
   else e (k - s)%nat * (-(1#2)) + e (k + s)%nat * (1#2))%Q.
(** distance of neighbours in direction i *)
Definition stride (dims : list Z) (i : nat) : nat := Z.to_nat (prodZ (skipn (S i) dims)).
Definition flat_hessian2 (dims : list Z) (re im : list Q) (ps : list (nat * nat * Q)) (k : nat) : Q :=
  let d := fun f p q => fdiff (stride dims q) (length re) (fdiff (stride dims p) (length re) f) k in
  fold_right (fun e s => let '(p, q, m) := e in (m * sq2 (d (e_ re) p q) (d (e_ im) p q) + s)%Q) 0%Q ps.
Definition flat_gradient2 (dims : list Z) (re im : list Q) (ps : list nat) (k : nat) : Q :=
  fold_right (fun p s => (sq2 (fdiff (stride dims p) (length re) (e_ re) k) (fdiff (stride dims p) (length re) (e_ im) k) + s)%Q) 0%Q ps.
(** m is the largest of the values f 0, ..., f (n-1) *)
Definition is_maximum (f : nat -> Q) (n : nat) (m : Q) : Prop := (forall k, (k < n)%nat -> (f k <= m)%Q) /\ exists k, (k < n)%nat /\ (f k == m)%Q.
