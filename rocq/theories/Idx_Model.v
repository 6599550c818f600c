(** Index arithmetic of utilities/math_utils.hpp and multidimensional/*.hpp.
    Arrays of dimensions / indices are lists; all arrays in one C++ call have the same
    compile-time rank, so the theorems assume equal lengths. *)
From Verif Require Import Prelude.

(** utilities/math_utils.hpp:105-110 getFlatSize.  Rank 0 does not compile (dims[0]); here [None]. *)
Definition getFlatSize (dims : list Z) : option Z :=
  match dims with
  | [] => None
  | d0 :: ds => Some (fold_left umul ds d0)
  end.

(** loop body of utilities/math_utils.hpp:122-125 (result *= dims[it]; result += indx[it]) *)
Definition horner_step (r : Z) (di : Z * Z) : Z := uadd (umul r (fst di)) (snd di).

(** utilities/math_utils.hpp:119-127 getFlatIndex and its rank-1 specialisation, 130-133,
    which returns dims[0]. *)
Definition getFlatIndex (indx dims : list Z) : option Z :=
  match indx, dims with
  | [_], [d0] => Some d0
  | i0 :: is, _ :: ds => Some (fold_left horner_step (combine ds is) i0)
  | _, _ => None
  end.

(** utilities/math_utils.hpp:148-157 math_impl::getFlatIndex with a permutation.
    (For rank 1 this is the generic template, not the specialisation.)
    An entry of the permutation outside the array is undefined behaviour. *)
Definition getFlatIndexPerm (indx dims : list Z) (perm : list nat) : option Z :=
  match perm with
  | [] => None
  | p0 :: ps =>
      i0 <- nth_error indx p0 ;;
      fold_left (fun acc p => r <- acc ;; d <- nth_error dims p ;; i <- nth_error indx p ;;
                              Some (horner_step r (d, i))) ps (Some i0)
  end.

(** loop of utilities/math_utils.hpp:186-190 *)
Fixpoint getMultIndex_loop (dims : list Z) (dimtemp temp : Z) : option (list Z) :=
  match dims with
  | [] => Some []
  | d :: ds =>
      dt <- udiv dimtemp d ;;
      i <- udiv temp dt ;;
      r <- getMultIndex_loop ds dt (usub temp (umul i dt)) ;;
      Some (i :: r)
  end.

(** utilities/math_utils.hpp:175-196 getMultIndex (rank-1 specialisation included). *)
Definition getMultIndex (iflat : Z) (dims : list Z) : option (list Z) :=
  match dims with
  | [] => None
  | [_] => Some [iflat]
  | _ :: ds =>
      let dimtemp := fold_left umul ds 1 in
      i0 <- udiv iflat dimtemp ;;
      r <- getMultIndex_loop ds dimtemp (usub iflat (umul i0 dimtemp)) ;;
      Some (i0 :: r)
  end.

(** utilities/math_utils.hpp:209-236 getMultIndexSkippingOneDimension.
    [idim < rank] is a static_assert. The loops over it in [1,idim) and [idim+1,rank) are one
    pass over the dimensions without the idim-th. *)
Definition getMultIndexSkippingOneDimension (idim : nat) (iflat : Z) (dims : list Z) : option (list Z) :=
  if (length dims <=? idim)%nat then None else
  match idim, dims with
  | O, _ :: after =>
      let dimtemp := fold_left umul after 1 in
      r <- getMultIndex_loop after dimtemp iflat ;;
      Some (0 :: r)
  | S k, _ :: rest =>
      let before := firstn k rest in
      let after := skipn (S k) rest in
      let dimtemp := fold_left umul (before ++ after) 1 in
      i0 <- udiv iflat dimtemp ;;
      r <- getMultIndex_loop (before ++ after) dimtemp (usub iflat (umul i0 dimtemp)) ;;
      Some (i0 :: firstn k r ++ 0 :: skipn k r)
  | _, _ => None
  end.

(** utilities/math_utils.hpp:250-256 rotateFlatIndex with an explicit permutation *)
Definition rotateFlatIndexPerm (iflat : Z) (dims : list Z) (perm : list nat) : option Z :=
  m <- getMultIndex iflat dims ;;
  getFlatIndexPerm m dims perm.

(** utilities/math_utils.hpp:262-282 rotateFlatIndex for one dimension.
    The assertion allows i_dim == rank, for which rank-i_dim-1 wraps around and the loops leave
    the arrays: undefined behaviour, hence [None]. *)
Definition rotateFlatIndex (iflat : Z) (dims_native : list Z) (i_dim : nat) : option Z :=
  let rank := length dims_native in
  if (rank <=? i_dim)%nat then None else
  dims_rot <- osequence (map (fun i => nth_error dims_native (i + 1 + i_dim)) (seq 0 (rank - i_dim - 1))
                      ++ map (fun i => nth_error dims_native (i + 1 + i_dim - rank)) (seq (rank - i_dim - 1) (i_dim + 1))) ;;
  let perm := map (fun i => (i + rank - 1 - i_dim)%nat) (seq 0 (i_dim + 1))
           ++ map (fun i => (i - 1 - i_dim)%nat) (seq (i_dim + 1) (rank - i_dim - 1)) in
  rotateFlatIndexPerm iflat dims_rot perm.

(** utilities/math_utils.hpp:305-316 permuteCyclic.  The result vector is zero initialised and
    filled by two loops of writes. *)
Definition permuteCyclic (arr : list Z) (n_shift : nat) : option (list Z) :=
  let rank := length arr in
  if (rank <=? n_shift)%nat then None else
  fold_left (fun acc i => res <- acc ;; a <- nth_error arr i ;;
                          oupd res (if (i <? rank - n_shift)%nat then i + n_shift else i + n_shift - rank) a)
            (seq 0 rank) (Some (repeat 0 rank)).

(** utilities/math_utils.hpp:324-332 get_inverse_permutation *)
Definition get_inverse_permutation (perm : list nat) : option (list nat) :=
  fold_left (fun acc i => res <- acc ;; p <- nth_error perm i ;; oupd res p i)
            (seq 0 (length perm)) (Some (repeat O (length perm))).
