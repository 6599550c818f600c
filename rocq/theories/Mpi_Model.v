(** Distribution of the work of a bubble over MPI processes and OpenMP threads.
    Model of utilities/mpi_setup.{hpp,c++} and of bubble/bubble_function.hpp:244-300, 606-645
    (calculate_bubble_function, set_external_arguments_for_parallelization).
    Sizes are natural numbers (no overflow). [None] is an access outside a buffer. MPI_Allgather
    concatenates the buffers of the processes; complex numbers are sent as two MPI_COMPLEX each. *)
From Verif Require Import Prelude Idx_Model.
Open Scope nat_scope.

Section Distribution.
Context {X : Type} (zero : X).
(** [W]: number of processes, [M]: n_mpi = number_of_nodes, [D]: number of work items (dims_flat),
    [nv]: n_vectorization; [val t]: the values of work item [t]; [sched i]: the order in which the threads
    execute the iterations of the parallel loop of MPI task [i] *)
Variables (W M D nv : nat) (val : nat -> list X) (sched : nat -> list nat).

(** bubble_function.hpp:629 *)
Definition n_omp : nat := (D + M - 1) / M.
(** mpi_setup.hpp:25-30 and 41-46 *)
Definition initialize_buffer (B : nat) : list X := repeat zero (B * (M / W + 1)).
Definition initialize_result (B : nat) : list X := repeat zero (B * (M - M mod W + W)).

(** bubble_function.hpp:272-275: for k: Buffer[pos + k] = value[k] *)
Fixpoint write (buf : list X) (pos : nat) (vals : list X) : option (list X) :=
  match vals with
  | [] => Some buf
  | x :: r => b <- oupd buf pos x ;; write b (S pos) r
  end.
(** 269-278, iterations in the order [sched i_mpi] *)
Definition omp_step (i_mpi iterator : nat) (acc : option (list X)) (i_omp : nat) : option (list X) :=
  buf <- acc ;;
  if i_mpi * n_omp + i_omp <? D
  then write buf ((iterator * n_omp + i_omp) * nv) (val (i_mpi * n_omp + i_omp))
  else Some buf.
(** 266-281 *)
Fixpoint mpi_loop (rank : nat) (is : list nat) (iterator : nat) (buf : list X) : option (list X) :=
  match is with
  | [] => Some buf
  | i :: r =>
      if i mod W =? rank
      then b <- fold_left (omp_step i iterator) (sched i) (Some buf) ;; mpi_loop rank r (S iterator) b
      else mpi_loop rank r iterator buf
  end.
Definition rank_buffer (rank : nat) : option (list X) :=
  mpi_loop rank (seq 0 M) 0 (initialize_buffer (n_omp * nv)).
(** mpi_setup.c++:15-26: every process contributes B*(M/W+1) elements *)
Definition collect (buffers : list (list X)) (B : nat) : option (list X) :=
  if forallb (fun b => length b =? B * (M / W + 1)) buffers
     && (length (concat buffers) <=? length (initialize_result B))
  then Some (concat buffers ++ skipn (length (concat buffers)) (initialize_result B))
  else None.
(** mpi_setup.hpp:76-95 *)
Definition slice (l : list X) (first n : nat) : option (list X) :=
  if first + n <=? length l then Some (firstn n (skipn first l)) else None.
Definition reorder (result : list X) (B : nat) : option (list X) :=
  a <- osequence (flat_map (fun i => map (fun j => slice result ((j * (M / W + 1) + i) * B) B) (seq 0 W)) (seq 0 (M / W))) ;;
  b <- osequence (map (fun j => slice result ((j * (M / W + 1) + M / W) * B) B)
                      (filter (fun j => j <? M mod W) (seq 0 W))) ;;
  Some (concat a ++ concat b).
(** std::vector::resize *)
Definition resize (l : list X) (n : nat) : list X := firstn n l ++ repeat zero (n - length l).
(** 244-300; the buffers of all processes are computed independently *)
Definition distributed : option (list X) :=
  bufs <- osequence (map rank_buffer (seq 0 W)) ;;
  result <- collect bufs (n_omp * nv) ;;
  ordered <- reorder result (n_omp * nv) ;;
  Some (resize ordered (D * nv)).
(** the work items that process [rank] computes, in order *)
Definition items (rank : nat) : list nat :=
  flat_map (fun i => if i mod W =? rank
                     then filter (fun t => t <? D) (map (fun io => i * n_omp + io) (sched i)) else []) (seq 0 M).
End Distribution.

(** ** storage of vectorised results, bubble_function.hpp:128-166, 272-299, 648-735 *)
Open Scope Z_scope.
(** dimensions with the vectorised ones set to 1, and the vector length *)
Definition reduced_dims (dims : list Z) (vdims : list nat) : list Z :=
  map (fun i => if existsb (Nat.eqb i) vdims then 1 else nth i dims 0) (seq 0 (length dims)).
Definition vector_length (dims : list Z) (vdims : list nat) : Z :=
  fold_left (fun n i => n * nth i dims 0) vdims 1.
(** the external indices for which work item [t] is computed *)
Definition physical_indices (dims : list Z) (vdims : list nat) (t : Z) : option (list Z) :=
  getMultIndex t (reduced_dims dims vdims).
(** the position in the stored array at which element [k] of work item [t] arrives *)
Definition stored_position (dims : list Z) (vdims : list nat) (t k : Z) : Z := t * vector_length dims vdims + k.
(** array shapes, data_structures.hpp:471-497: K1 (spin, omega, keldysh, internal), K2 (spin, omega, nu,
    keldysh, internal), K3 (spin, omega, nu, nup, keldysh, internal); vectorised dimensions *)
Inductive formalism := FKeldysh | FMatsubara.
Inductive vclass := VK1 | VK2 | VK3.
Definition vectorised (f : formalism) (k : vclass) : list nat :=
  match f, k with
  | FKeldysh, VK1 => [2%nat] | FKeldysh, VK2 => [3%nat] | FKeldysh, VK3 => [4%nat]
  | FMatsubara, VK1 => [] | FMatsubara, VK2 => [2%nat] | FMatsubara, VK3 => [2%nat; 3%nat]
  end.
Definition vrank (k : vclass) : nat := match k with VK1 => 4 | VK2 => 5 | VK3 => 6 end%nat.
(** the component that element [k] of a vector-valued result is: the Keldysh index (516-522, C14) or the
    fermionic frequencies (467-472: value[i*N_vp + j]) *)
Definition component (f : formalism) (c : vclass) (dims : list Z) (idx : list Z) (k : Z) : list Z :=
  let set i x l := firstn i l ++ x :: skipn (S i) l in
  match f, c with
  | FMatsubara, VK1 => idx
  | FMatsubara, VK3 => set 2%nat (k / nth 3 dims 0) (set 3%nat (k mod nth 3 dims 0) idx)
  | _, _ => match vectorised f c with [i] => set i k idx | _ => idx end
  end.
