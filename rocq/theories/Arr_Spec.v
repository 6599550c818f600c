(** What a user of the arrays relies on. *)
From Coq Require Import QArith Qabs.
From Verif Require Import Prelude Idx_Spec Arr_Model.
Open Scope Z_scope.

(** an array as produced by the constructors: positive lengths, size representable in size_t,
    buffer of matching size, strides = products of the later lengths *)
Definition strides (ds : list Z) : list Z := map (fun i => prodZ (skipn (S i) ds)) (seq 0 (length ds)).
Record wf {A} (a : marray A) : Prop := {
  wf_ne : m_length a <> [];
  wf_pos : pos_dims (m_length a);
  wf_size : prodZ (m_length a) < w64;
  wf_buf : Z.of_nat (length (m_elements a)) = prodZ (m_length a);
  wf_cumul : m_cumul a = strides (m_length a) }.

(** the element stored for an index tuple *)
Definition stored {A} (a : marray A) (t : list Z) : option A :=
  nth_error (m_elements a) (Z.to_nat (row_major t (m_length a))).

(** a tuple of the right rank with some entry not below the length of its dimension
    (indices are unsigned, hence never negative) *)
Definition out_of_range (t ds : list Z) : Prop :=
  length t = length ds /\ Forall (fun i => 0 <= i) t /\ ~ in_range t ds.

(** value of the last write to tuple [t] in a history of writes, [d] if there was none *)
Fixpoint last_write {A} (d : A) (ws : list (list Z * A)) (t : list Z) : A :=
  match ws with
  | [] => d
  | (u, v) :: r => last_write (if list_eq_dec Z.eq_dec u t then v else d) r t
  end.

(** performing a history of writes *)
Fixpoint run_writes {A} (ndebug : bool) (a : marray A) (ws : list (list Z * A)) : access (marray A) :=
  match ws with
  | [] => Elem a
  | (u, v) :: r => match set_at ndebug a u v with
                   | Elem a' => run_writes ndebug a' r
                   | AssertFail => AssertFail
                   | OutOfBuffer => OutOfBuffer
                   end
  end.

(** all tuples of {0..s-1}^n in row-major order *)
Fixpoint all_offsets (n s : nat) : list (list Z) :=
  match n with
  | O => [[]]
  | S m => flat_map (fun i => map (cons (Z.of_nat i)) (all_offsets m s)) (seq 0 s)
  end.

Fixpoint add_tuple (a b : list Z) : list Z :=
  match a, b with x :: a', y :: b' => (x + y) :: add_tuple a' b' | _, _ => [] end.

(** [n] consecutive elements of the buffer starting at the element of tuple [t] *)
Definition window {A} (a : marray A) (n : nat) (t : list Z) : list A :=
  firstn n (skipn (Z.to_nat (row_major t (m_length a))) (m_elements a)).

(** second-order finite difference of f along an axis with n points and unit spacing, at position x *)
Definition fd_unit (n : Z) (f : Z -> Q) (x : Z) : Q :=
  if x =? 0 then (- (3#2) * f 0%Z + 2 * f 1%Z - (1#2) * f 2%Z)%Q
  else if x =? n - 1 then ((1#2) * f (n - 3)%Z - 2 * f (n - 2)%Z + (3#2) * f (n - 1)%Z)%Q
  else ((1#2) * (f (x + 1)%Z - f (x - 1)%Z))%Q.

(** a rectangular window [start, start+len) lies inside an array *)
Definition block_inside (start len ds : list Z) : Prop :=
  length start = length ds /\ length len = length ds /\ Forall (fun s => 0 <= s) start /\
  Forall2 (fun sl d => sl <= d) (add_tuple start len) ds.

(** the elements of a fibre: all index tuples with the kept coordinates equal to [t] *)
Definition fibre (dims : list Z) (ks : list nat) (t u : list Z) : Prop := in_range u dims /\ gather 0 u ks = t.

(** the element stored for a tuple (only used for tuples in range) *)
Definition elemQ (a : marray Q) (t : list Z) : Q := match stored a t with Some q => q | None => 0%Q end.

