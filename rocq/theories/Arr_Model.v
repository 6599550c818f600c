(** multidimensional/multiarray.hpp, multidimensional/ranged_view.hpp and the array algorithms of
    utilities/math_utils.hpp (collapse, maxabs, partial_deriv). *)
From Coq Require Import QArith Qabs Qminmax.
From Verif Require Import Prelude Idx_Model.
Open Scope Z_scope.

(** multidimensional/multiarray.hpp:56,65,75 the three data members of class multiarray *)
Record marray (A : Type) : Type := Marray { m_length : list Z; m_cumul : list Z; m_elements : list A }.
Arguments Marray {A}. Arguments m_length {A}. Arguments m_cumul {A}. Arguments m_elements {A}.

(** multidimensional/multiarray.hpp:57-64 get_cumul_length: result[depth-1]=1,
    result[i] = result[i+1]*length[i+1] for decreasing i *)
Fixpoint get_cumul_length (len : list Z) : list Z :=
  match len with
  | [] => []
  | _ :: r => let cr := get_cumul_length r in
              match r, cr with
              | l1 :: _, c :: cs => umul c l1 :: c :: cs
              | _, _ => [1]
              end
  end.

(** multidimensional/multiarray.hpp:578-586 _flat_size *)
Definition flat_size (len : list Z) : Z := fold_left umul len 1.

(** multidimensional/multiarray.hpp:93-97 constructor from lengths and a value *)
Definition mk_marray {A} (len : list Z) (v : A) : marray A :=
  Marray len (get_cumul_length len) (repeat v (Z.to_nat (flat_size len))).

(** multidimensional/multiarray.hpp:99-103,122-126 constructors from lengths and a buffer; the size is
    only checked #if DEBUG (588-598), which is 0 unless set on the command line. *)
Definition mk_marray_buf {A} (len : list Z) (buf : list A) : marray A :=
  Marray len (get_cumul_length len) buf.

(** multidimensional/multiarray.hpp:607-619 multiarray::flat_index *)
Definition flat_index (len index : list Z) : option Z :=
  match index, len with
  | i0 :: is, _ :: ds => Some (fold_left horner_step (combine ds is) i0)
  | _, _ => None
  end.

(** multidimensional/multiarray.hpp:17-19,621-634 check_bounds: compiled in only without NDEBUG *)
Definition check_bounds (ndebug : bool) (len index : list Z) : bool :=
  if ndebug then true else forallb (fun p => snd p <? fst p) (combine len index).

(** outcome of an element access *)
Inductive access (A : Type) : Type :=
| Elem (a : A)           (* the value *)
| AssertFail             (* assert(false) of lines 659/673; the throw behind it is only reached with NDEBUG,
                            where check_bounds never fails *)
| OutOfBuffer.           (* elements.coeffRef outside of the buffer: undefined behaviour *)
Arguments Elem {A}. Arguments AssertFail {A}. Arguments OutOfBuffer {A}.

(** multidimensional/multiarray.hpp:650-677 at, 355-363 flat_at *)
Definition at_ {A} (ndebug : bool) (a : marray A) (index : list Z) : access A :=
  if check_bounds ndebug (m_length a) index then
    match flat_index (m_length a) index with
    | Some k => match nth_error (m_elements a) (Z.to_nat k) with Some e => Elem e | None => OutOfBuffer end
    | None => OutOfBuffer
    end
  else AssertFail.

(** a.at(index) = v *)
Definition set_at {A} (ndebug : bool) (a : marray A) (index : list Z) (v : A) : access (marray A) :=
  if check_bounds ndebug (m_length a) index then
    match flat_index (m_length a) index with
    | Some k => match oupd (m_elements a) (Z.to_nat k) v with
                | Some l => Elem (Marray (m_length a) (m_cumul a) l) | None => OutOfBuffer end
    | None => OutOfBuffer
    end
  else AssertFail.

(** multidimensional/multiarray.hpp:78-85 swap: m_length_cumulative is not exchanged *)
Definition swap {A} (a b : marray A) : marray A * marray A :=
  (Marray (m_length b) (m_cumul a) (m_elements b), Marray (m_length a) (m_cumul b) (m_elements a)).

(** multidimensional/multiarray.hpp:245-251 at_vectorized(flat_idx): segment<vecsize>(flat_idx);
    leaving the buffer is undefined behaviour *)
Definition at_vectorized {A} (vecsize : nat) (a : marray A) (flat : Z) : option (list A) :=
  let s := firstn vecsize (skipn (Z.to_nat flat) (m_elements a)) in
  if (length s =? vecsize)%nat then Some s else None.

(** multidimensional/multiarray.hpp:263-270 get_flatindex_ini<num_first_dims>: the loop includes
    i == num_first_dims *)
Definition get_flatindex_ini (num_first_dims : nat) (index cumul : list Z) : option Z :=
  fold_left (fun acc i => r <- acc ;; x <- nth_error index i ;; c <- nth_error cumul i ;; Some (uadd r (umul x c)))
            (seq 0 (S num_first_dims)) (Some 0).

(** multidimensional/multiarray.hpp:272-307 get_values (the debug assertion of 275-277 is not modelled).
    The columns of the result matrix are returned as a list. *)
Definition get_values {A} (nfreq pos vecsize sample : nat) (a : marray A) (index : list Z) : option (list (list A)) :=
  ini <- get_flatindex_ini (pos + nfreq) index (m_cumul a) ;;
  let S_ := map Z.of_nat (seq 0 sample) in
  match nfreq with
  | 1%nat =>
      c0 <- nth_error (m_cumul a) pos ;;
      osequence (map (fun i => at_vectorized vecsize a (uadd ini (umul c0 i))) S_)
  | 2%nat =>
      c0 <- nth_error (m_cumul a) pos ;; c1 <- nth_error (m_cumul a) (pos + 1) ;;
      osequence (flat_map (fun i => map (fun j =>
          at_vectorized vecsize a (uadd (uadd ini (umul c0 i)) (umul c1 j))) S_) S_)
  | 3%nat =>
      c0 <- nth_error (m_cumul a) pos ;; c1 <- nth_error (m_cumul a) (pos + 1) ;; c2 <- nth_error (m_cumul a) (pos + 2) ;;
      osequence (flat_map (fun i => flat_map (fun j => map (fun l =>
          at_vectorized vecsize a (uadd (uadd (uadd ini (umul c0 i)) (umul c1 j)) (umul c2 l))) S_) S_) S_)
  | _ => None
  end.

(** multidimensional/ranged_view.hpp:48-71 BlockView *)
Record blockview (A : Type) : Type := Blockview { b_data : marray A; b_start : list Z; b_length : list Z; b_stride : list Z }.
Arguments Blockview {A}. Arguments b_data {A}. Arguments b_start {A}. Arguments b_length {A}. Arguments b_stride {A}.

(** multidimensional/ranged_view.hpp:53-62: constructor; [None] = failed assertion (debug builds) *)
Definition mk_blockview {A} (a : marray A) (start len : list Z) : option (blockview A) :=
  if forallb (fun t => fst (fst t) + snd (fst t) <=? snd t) (combine (combine start len) (m_length a))
  then Some (Blockview a start len (m_length a)) else None.

(** multidimensional/ranged_view.hpp:87-97 BlockView::flat_index *)
Definition block_flat_index {A} (b : blockview A) (index : list Z) : option Z :=
  match b_start b, index, b_stride b with
  | s0 :: ss, i0 :: is, _ :: ds =>
      Some (fold_left (fun r t => uadd (umul r (fst t)) (uadd (fst (snd t)) (snd (snd t))))
                      (combine ds (combine ss is)) (uadd s0 i0))
  | _, _, _ => None
  end.

(** multidimensional/ranged_view.hpp:100-111 BlockView::at *)
Definition block_at {A} (ndebug : bool) (b : blockview A) (index : list Z) : access A :=
  if check_bounds ndebug (b_length b) index then
    match block_flat_index b index with
    | Some k => match nth_error (m_elements (b_data b)) (Z.to_nat k) with Some e => Elem e | None => OutOfBuffer end
    | None => OutOfBuffer
    end
  else AssertFail.

(** multidimensional/ranged_view.hpp:114-123 BlockView::get_vec *)
Definition block_get_vec {A} (ndebug : bool) (b : blockview A) : option (list A) :=
  n <- getFlatSize (b_length b) ;;
  osequence (map (fun i => idx <- getMultIndex (Z.of_nat i) (b_length b) ;;
                           match block_at ndebug b idx with Elem e => Some e | _ => None end)
                 (seq 0 (Z.to_nat n))).

(** utilities/math_utils.hpp:738-756 construction of perm_rot in collapse: kept dimensions go to
    their position in i_dims, the others to the end in reverse order. State: (perm_rot, iter_col).
    (iter_new is the last matching j, line 746-748; entries of perm_rot are uninitialised before.) *)
Fixpoint last_match (i : nat) (ks : list nat) (j : nat) : option nat :=
  match ks with
  | [] => None
  | k :: r => match last_match i r (S j) with
              | Some x => Some x
              | None => if (i =? k)%nat then Some j else None
              end
  end.

Definition collapse_perm_step (rank : nat) (i_dims : list nat) (st : option (list nat * nat)) (i : nat)
  : option (list nat * nat) :=
  s <- st ;;
  match last_match i i_dims 0 with
  | Some j => p <- oupd (fst s) j i ;; Some (p, snd s)
  | None => if (rank <=? snd s)%nat then None else
            p <- oupd (fst s) (rank - snd s - 1) i ;; Some (p, S (snd s))
  end.

Definition collapse_perm (rank : nat) (i_dims : list nat) : option (list nat) :=
  s <- fold_left (collapse_perm_step rank i_dims) (seq 0 rank) (Some (repeat O rank, O)) ;; Some (fst s).

(** utilities/math_utils.hpp:731-777 collapse.  [dims_new] is not used by the code. The loops over i are
    independent of each other (OpenMP); each i is a left fold over j. *)
Definition collapse {A} (data : list A) (op : A -> A -> A) (dims_native : list Z) (i_dims : list nat) : option (list A) :=
  kept <- osequence (map (nth_error dims_native) i_dims) ;;
  let dimsflat_new := fold_left umul kept 1 in
  dim_collapse <- udiv (fold_left umul dims_native 1) dimsflat_new ;;
  perm_rot <- collapse_perm (length dims_native) i_dims ;;
  dims_rot <- osequence (map (nth_error dims_native) perm_rot) ;;
  perm_inv <- get_inverse_permutation perm_rot ;;
  let get i j := k <- rotateFlatIndexPerm (uadd (umul i dim_collapse) j) dims_rot perm_inv ;;
                 nth_error data (Z.to_nat k) in
  osequence (map (fun i =>
      r0 <- get (Z.of_nat i) 0 ;;
      fold_left (fun acc j => r <- acc ;; x <- get (Z.of_nat i) (Z.of_nat j) ;; Some (op r x))
                (seq 1 (Z.to_nat dim_collapse - 1)) (Some r0))
    (seq 0 (Z.to_nat dimsflat_new))).

(** utilities/math_utils.hpp:809-819 maxabs along one axis (for real data) *)
Definition maxabs (data : list Q) (dims : list Z) (i_dim : nat) : option (list Q) :=
  d <- nth_error dims i_dim ;;
  if Z.of_nat (length data) =? d then Some (map Qabs data)
  else r <- collapse data (fun l r => Qmax (Qabs l) (Qabs r)) dims [i_dim] ;; Some (map Qabs r).

(** utilities/math_utils.hpp:684-716 partial_deriv of a multiarray (index spacing one).
    Eigen matrices are column major: after resize(dimsL,dimsR) entry (r,c) is element c*dimsL+r.
    The result is built column by column. The asserts of lines 687-688 give [None]. *)
Definition column (m : list Q) (dimsL c : nat) : option (list Q) :=
  let s := firstn dimsL (skipn (c * dimsL) m) in
  if (length s =? dimsL)%nat then Some s else None.

Fixpoint lincomb2 (a b : Q) (x y : list Q) : list Q :=
  match x, y with p :: x', q :: y' => (p * a + q * b)%Q :: lincomb2 a b x' y' | _, _ => [] end.
Fixpoint lincomb3 (a b c : Q) (x y z : list Q) : list Q :=
  match x, y, z with p :: x', q :: y', r :: z' => (p * a + q * b + r * c)%Q :: lincomb3 a b c x' y' z' | _, _, _ => [] end.

Definition partial_deriv (data : marray Q) (i_dim : nat) : option (list Q) :=
  d <- nth_error (m_length data) i_dim ;;
  if d <=? 2 then None else
  flatsize <- getFlatSize (m_length data) ;;
  dimsL_ <- nth_error (m_cumul data) i_dim ;;
  dimsR_ <- udiv flatsize dimsL_ ;;
  let dimsL := Z.to_nat dimsL_ in let dimsR := Z.to_nat dimsR_ in
  let m := m_elements data in
  cols <- osequence (map (fun c =>
      if (c =? 0)%nat then
        x <- column m dimsL 0 ;; y <- column m dimsL 1 ;; z <- column m dimsL 2 ;;
        Some (lincomb3 (-(3#2)) (2#1) (-(1#2)) x y z)
      else if (c =? dimsR - 1)%nat then
        x <- column m dimsL (dimsR - 3) ;; y <- column m dimsL (dimsR - 2) ;; z <- column m dimsL (dimsR - 1) ;;
        Some (lincomb3 (1#2) (-(2#1)) (3#2) x y z)
      else
        x <- column m dimsL (c - 1) ;; y <- column m dimsL (c + 1) ;;
        Some (lincomb2 (-(1#2)) (1#2) x y)) (seq 0 dimsR)) ;;
  Some (concat cols).

(** utilities/math_utils.hpp:782-790 collapse_all: the iterations j=1..n-1 of the OpenMP loop all read and
    write the shared variable [result] without synchronisation. Each iteration is a read of [result] followed by
    a write of op(value read, data[j]); a schedule is a sequence of such events, in which the read of an
    iteration precedes its write (sequentially consistent interleavings only: a data race, formally undefined
    behaviour in C++, has at least these). [None] = not a schedule of this loop. *)
Inductive race_event : Type := Rd (j : nat) | Wr (j : nat).

Fixpoint run_race {A} (op : A -> A -> A) (data : list A) (shared : A) (regs : list (nat * A)) (sch : list race_event) : option A :=
  match sch with
  | [] => Some shared
  | Rd j :: r => run_race op data shared ((j, shared) :: regs) r
  | Wr j :: r =>
      x <- nth_error data j ;;
      v <- option_map snd (find (fun p => (fst p =? j)%nat) regs) ;;
      run_race op data (op v x) regs r
  end.

(** a complete schedule: every iteration 1..n-1 reads exactly once, later writes exactly once *)
Definition event_eqb (a b : race_event) : bool :=
  match a, b with Rd i, Rd j => (i =? j)%nat | Wr i, Wr j => (i =? j)%nat | _, _ => false end.
Fixpoint writes_after_reads (done : list nat) (sch : list race_event) : bool :=
  match sch with
  | [] => true
  | Rd j :: r => writes_after_reads (j :: done) r
  | Wr j :: r => existsb (Nat.eqb j) done && writes_after_reads done r
  end.
Definition complete_schedule (n : nat) (sch : list race_event) : bool :=
  forallb (fun j => (length (filter (event_eqb (Rd j)) sch) =? 1)%nat && (length (filter (event_eqb (Wr j)) sch) =? 1)%nat)
          (seq 1 (n - 1))
  && (length sch =? 2 * (n - 1))%nat && writes_after_reads [] sch.

Definition collapse_all {A} (op : A -> A -> A) (data : list A) (sch : list race_event) : option A :=
  match data with
  | d0 :: _ :: _ => if complete_schedule (length data) sch then run_race op data d0 [] sch else None
  | _ => None
  end.

(** the schedule of a single thread *)
Definition serial_schedule (n : nat) : list race_event := flat_map (fun j => [Rd j; Wr j]) (seq 1 (n - 1)).
