(** Properties C25, C26: distribution of the work of a bubble and storage of its result. *)
From Coq Require Import Permutation.
From Verif Require Import Prelude Idx_Model Idx_Spec Idx_Proofs Mpi_Model Mpi_Proofs.

(** ** C25 *)
(** [W] processes, [M] tasks, [D] work items with [nv] values each, threads in any order: what every process
    holds after gathering and reordering is the concatenation of the values of all items in their order, and no
    buffer is accessed outside its bounds (the outcome is not [None]) *)
Theorem C25_result : forall {X} (zero : X) (W M D nv : nat) (val : nat -> list X) (sched : nat -> list nat),
  (0 < W)%nat -> (0 < M)%nat -> (forall t, length (val t) = nv) ->
  (forall i, Permutation (sched i) (seq 0 ((D + M - 1) / M))) ->
  distributed zero W M D nv val sched = Some (concat (map val (seq 0 D))).
Proof. intros. rewrite <- flat_map_concat_map. apply distributed_spec; assumption. Qed.
Print Assumptions C25_result.
Example C25_result_hyp :
  distributed 0 2 3 7 2 (fun t => [Z.of_nat t; Z.of_nat t + 100]) (fun i => if Nat.even i then [2; 0; 1]%nat else [0; 1; 2]%nat)
  = Some [0; 100; 1; 101; 2; 102; 3; 103; 4; 104; 5; 105; 6; 106].
Proof. vm_compute. reflexivity. Qed.

(** in particular the result does not depend on the number of processes, of tasks, or on the schedule *)
Theorem C25_independent : forall {X} (zero : X) (W W' M M' D nv : nat) (val : nat -> list X) sched sched',
  (0 < W)%nat -> (0 < M)%nat -> (0 < W')%nat -> (0 < M')%nat -> (forall t, length (val t) = nv) ->
  (forall i, Permutation (sched i) (seq 0 ((D + M - 1) / M))) ->
  (forall i, Permutation (sched' i) (seq 0 ((D + M' - 1) / M'))) ->
  distributed zero W M D nv val sched = distributed zero W' M' D nv val sched'.
Proof. intros. rewrite !C25_result by assumption. reflexivity. Qed.
Print Assumptions C25_independent.

(** every work item is computed by exactly one process, once *)
Theorem C25_each_item_once : forall (W M D : nat) (sched : nat -> list nat),
  (0 < W)%nat -> (0 < M)%nat -> (forall i, Permutation (sched i) (seq 0 ((D + M - 1) / M))) ->
  Permutation (flat_map (items W M D sched) (seq 0 W)) (seq 0 D).
Proof. intros. apply items_spec; assumption. Qed.
Print Assumptions C25_each_item_once.
Example C25_each_item_once_hyp : flat_map (items 2 3 7 (fun _ => [0; 1; 2]%nat)) (seq 0 2) = [0; 1; 2; 6; 3; 4; 5]%nat.
Proof. vm_compute. reflexivity. Qed.

(** the elements beyond the work items, which the debug build asserts to be zero, are zero *)
Theorem C25_superfluous_zero : forall {X} (zero : X) (W M D nv : nat) (val : nat -> list X) sched,
  (0 < W)%nat -> (0 < M)%nat -> (forall t, length (val t) = nv) ->
  (forall i, Permutation (sched i) (seq 0 ((D + M - 1) / M))) ->
  exists bufs result ordered,
    osequence (map (rank_buffer zero W M D nv val sched) (seq 0 W)) = Some bufs /\
    collect zero W M bufs (n_omp M D * nv) = Some result /\ reorder W M result (n_omp M D * nv) = Some ordered /\
    length ordered = (M * ((D + M - 1) / M) * nv)%nat /\ (D * nv <= length ordered)%nat /\
    Forall (eq zero) (skipn (D * nv) ordered).
Proof.
  intros X zero W M D nv val sched HW HM Hv Hs.
  eexists; eexists; eexists.
  split; [apply all_buffers; assumption|]. split; [apply collect_spec; assumption|]. split; [apply reorder_spec; assumption|].
  apply superfluous; assumption.
Qed.
Print Assumptions C25_superfluous_zero.
Example C25_superfluous_zero_hyp :
  (b <- osequence (map (rank_buffer 0 2 3 7 1 (fun t => [Z.of_nat t]) (fun _ => [0; 1; 2]%nat)) (seq 0 2)) ;;
   r <- collect 0 2 3 b 3 ;; reorder 2 3 r 3) = Some [0; 1; 2; 3; 4; 5; 6; 0; 0].
Proof. vm_compute. reflexivity. Qed.

(** ** C26 *)
(** refuted: with two internal indices the value computed for Keldysh component 1 and internal index 0 of the
    first frequency is stored where component 0 with internal index 1 belongs (and is read from) *)
Theorem C26_several_internal_refuted : exists dims t idx k,
  dims = [1; 3; 16; 2] /\ physical_indices dims (vectorised FKeldysh VK1) t = Some idx /\
  0 <= k < vector_length dims (vectorised FKeldysh VK1) /\
  in_range (component FKeldysh VK1 dims idx k) dims /\
  stored_position dims (vectorised FKeldysh VK1) t k <> row_major (component FKeldysh VK1 dims idx k) dims /\
  stored_position dims (vectorised FKeldysh VK1) t k = row_major [0; 0; 0; 1] dims.
Proof.
  exists [1; 3; 16; 2], 0, [0; 0; 0; 0], 1. repeat split; try (vm_compute; intros; congruence); try reflexivity.
  vm_compute. repeat constructor; discriminate.
Qed.
Print Assumptions C26_several_internal_refuted.

(** with one internal index: the value is stored under its own indices, for all shapes and K classes *)
Theorem C26_keldysh_partial : forall c dims t,
  length dims = vrank c -> pos_dims dims -> prodZ dims < w64 -> nth (vrank c - 1) dims 0 = 1 ->
  0 <= t < prodZ (reduced_dims dims (vectorised FKeldysh c)) ->
  exists idx, physical_indices dims (vectorised FKeldysh c) t = Some idx /\
  forall k, 0 <= k < nth (vrank c - 2) dims 0 ->
    getFlatIndex (component FKeldysh c dims idx k) dims = Some (stored_position dims (vectorised FKeldysh c) t k) /\
    nth (vrank c - 2) (component FKeldysh c dims idx k) 0 = k /\
    (forall d, (d < vrank c)%nat -> d <> (vrank c - 2)%nat -> nth d (component FKeldysh c dims idx k) 0 = nth d idx 0).
Proof. exact keldysh_storage. Qed.
Print Assumptions C26_keldysh_partial.
Example C26_keldysh_partial_hyp :
  physical_indices [2; 3; 4; 16; 1] (vectorised FKeldysh VK2) 17 = Some [1; 1; 1; 0; 0] /\
  getFlatIndex (component FKeldysh VK2 [2; 3; 4; 16; 1] [1; 1; 1; 0; 0] 5) [2; 3; 4; 16; 1] = Some (17 * 16 + 5).
Proof. split; vm_compute; reflexivity. Qed.

(** finite-temperature Matsubara formalism (one Keldysh component), vectorised over the fermionic frequencies *)
Theorem C26_matsubara_partial : forall c dims t,
  length dims = vrank c -> pos_dims dims -> prodZ dims < w64 -> nth (vrank c - 1) dims 0 = 1 -> nth (vrank c - 2) dims 0 = 1 ->
  0 <= t < prodZ (reduced_dims dims (vectorised FMatsubara c)) ->
  exists idx, physical_indices dims (vectorised FMatsubara c) t = Some idx /\
  forall k, 0 <= k < vector_length dims (vectorised FMatsubara c) ->
    getFlatIndex (component FMatsubara c dims idx k) dims = Some (stored_position dims (vectorised FMatsubara c) t k).
Proof. exact matsubara_storage. Qed.
Print Assumptions C26_matsubara_partial.
Example C26_matsubara_partial_hyp :
  physical_indices [2; 3; 4; 5; 1; 1] (vectorised FMatsubara VK3) 4 = Some [1; 1; 0; 0; 0; 0] /\
  getFlatIndex (component FMatsubara VK3 [2; 3; 4; 5; 1; 1] [1; 1; 0; 0; 0; 0] 13) [2; 3; 4; 5; 1; 1] = Some (4 * 20 + 13).
Proof. split; vm_compute; reflexivity. Qed.

(** both together: after distribution, the array element with the physical index of component [k] of item [t]
    holds what was computed for it *)
Theorem C26_end_to_end_partial : forall {X} (zero : X) W M nv (val : nat -> list X) sched c dims,
  (0 < W)%nat -> (0 < M)%nat -> length dims = vrank c -> pos_dims dims -> prodZ dims < w64 -> nth (vrank c - 1) dims 0 = 1 ->
  Z.of_nat nv = nth (vrank c - 2) dims 0 -> (forall t, length (val t) = nv) ->
  (forall i, Permutation (sched i) (seq 0 ((Z.to_nat (prodZ (reduced_dims dims (vectorised FKeldysh c))) + M - 1) / M))) ->
  exists result, distributed zero W M (Z.to_nat (prodZ (reduced_dims dims (vectorised FKeldysh c)))) nv val sched = Some result /\
  length result = Z.to_nat (prodZ dims) /\
  forall t k, 0 <= t < prodZ (reduced_dims dims (vectorised FKeldysh c)) -> 0 <= k < nth (vrank c - 2) dims 0 ->
  exists idx pos, physical_indices dims (vectorised FKeldysh c) t = Some idx /\
    getFlatIndex (component FKeldysh c dims idx k) dims = Some pos /\
    nth_error result (Z.to_nat pos) = nth_error (val (Z.to_nat t)) (Z.to_nat k).
Proof. intros X. exact (@keldysh_end_to_end X). Qed.
Print Assumptions C26_end_to_end_partial.
