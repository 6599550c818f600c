(** Properties C01-C04: index arithmetic. *)
From Coq Require Import Permutation.
From Verif Require Import Prelude Idx_Model Idx_Spec Idx_Proofs.

(** C01: tuple -> flat index -> tuple *)
Theorem C01_flat_then_multi : forall is ds, (2 <= length ds)%nat -> in_range is ds -> prodZ ds < w64 ->
  exists k, getFlatIndex is ds = Some k /\ 0 <= k < prodZ ds /\ k = row_major is ds /\ getMultIndex k ds = Some is.
Proof. exact flat_then_multi. Qed.
Print Assumptions C01_flat_then_multi.

(** C01: flat index -> tuple -> flat index *)
Theorem C01_multi_then_flat : forall k ds, (2 <= length ds)%nat -> pos_dims ds -> prodZ ds < w64 -> 0 <= k < prodZ ds ->
  exists is, getMultIndex k ds = Some is /\ in_range is ds /\ getFlatIndex is ds = Some k.
Proof. exact multi_then_flat. Qed.
Print Assumptions C01_multi_then_flat.

Theorem C01_flat_size : forall ds, ds <> [] -> pos_dims ds -> prodZ ds < w64 -> getFlatSize ds = Some (prodZ ds).
Proof. exact getFlatSize_prod. Qed.
Print Assumptions C01_flat_size.

Example C01_hyp : (2 <= length [2;201;51;51;16;1])%nat /\ in_range [1;200;3;50;15;0] [2;201;51;51;16;1] /\
  prodZ [2;201;51;51;16;1] < w64 /\ getFlatIndex [1;200;3;50;15;0] [2;201;51;51;16;1] = Some 16691279.
Proof. split; [simpl; lia|split; [inrange|split; reflexivity]]. Qed.

(** C02 is false: for every length and every admissible index the rank-1 flat index is not the index. *)
Theorem C02_rank1_flat_index_refuted : forall d i, 0 <= i < d -> getFlatIndex [i] [d] <> Some i.
Proof. exact rank1_flat_index_wrong. Qed.
Print Assumptions C02_rank1_flat_index_refuted.
Example C02_hyp : 0 <= 2 < 5 /\ getFlatIndex [2] [5] = Some 5.
Proof. split; [lia|reflexivity]. Qed.

(** C03 *)
Theorem C03_permuted_flat_index : forall is ds perm,
  (2 <= length ds)%nat -> in_range is ds -> Permutation perm (seq 0 (length ds)) -> prodZ ds < w64 ->
  getFlatIndexPerm is ds perm = getFlatIndex (gather 0 is perm) (gather 0 ds perm) /\
  getFlatIndexPerm is ds perm = Some (row_major (gather 0 is perm) (gather 0 ds perm)).
Proof. exact permuted_flat_index. Qed.
Print Assumptions C03_permuted_flat_index.

Theorem C03_inverse_permutation : forall perm, Permutation perm (seq 0 (length perm)) ->
  exists inv, get_inverse_permutation perm = Some inv /\ length inv = length perm /\
    (forall i, (i < length perm)%nat -> nth (nth i perm O) inv O = i) /\
    (forall j, (j < length perm)%nat -> nth (nth j inv O) perm O = j) /\
    get_inverse_permutation inv = Some perm.
Proof. exact inverse_permutation. Qed.
Print Assumptions C03_inverse_permutation.

Theorem C03_cyclic_permutation : forall arr n, (n < length arr)%nat ->
  exists r, permuteCyclic arr n = Some r /\ length r = length arr /\
    forall i, (i < length arr)%nat -> nth ((i + n) mod length arr) r 0 = nth i arr 0.
Proof. exact cyclic_permutation. Qed.
Print Assumptions C03_cyclic_permutation.

Example C03_hyp : Permutation [2;0;1]%nat (seq 0 (length [3;4;5])) /\ in_range [1;2;3] [3;4;5] /\
  getFlatIndexPerm [1;2;3] [3;4;5] [2;0;1]%nat = Some 42 /\ get_inverse_permutation [2;0;1]%nat = Some [1;2;0]%nat /\
  permuteCyclic [10;20;30;40] 1 = Some [40;10;20;30].
Proof.
  split; [|split; [inrange|repeat split]].
  simpl. apply Permutation_sym. apply (Permutation_cons_app [2]%nat [1]%nat) with (a := O).
  apply perm_swap.
Qed.

(** C04 *)
Theorem C04_rotate_addresses_rotated_tuple : forall is ds i, (i < length ds)%nat -> in_range is ds -> prodZ ds < w64 ->
  rotateFlatIndex (row_major (rot_last i is) (rot_last i ds)) ds i = Some (row_major is ds).
Proof. exact rotateFlatIndex_spec. Qed.
Print Assumptions C04_rotate_addresses_rotated_tuple.

Theorem C04_rotate_bijection : forall ds i, (i < length ds)%nat -> pos_dims ds -> prodZ ds < w64 ->
  (forall k, 0 <= k < prodZ ds -> exists m, rotateFlatIndex k ds i = Some m /\ 0 <= m < prodZ ds) /\
  (forall k k' m, 0 <= k < prodZ ds -> 0 <= k' < prodZ ds ->
      rotateFlatIndex k ds i = Some m -> rotateFlatIndex k' ds i = Some m -> k = k') /\
  (forall m, 0 <= m < prodZ ds -> exists k, 0 <= k < prodZ ds /\ rotateFlatIndex k ds i = Some m).
Proof. exact rotateFlatIndex_bijection. Qed.
Print Assumptions C04_rotate_bijection.

(** the tuple obtained when one dimension is skipped has 0 there and is the row-major tuple elsewhere *)
Theorem C04_skip_one_dimension : forall idim ds k, (idim < length ds)%nat -> pos_dims ds -> prodZ ds < w64 ->
  0 <= k < prodZ (firstn idim ds ++ skipn (S idim) ds) ->
  exists a b, getMultIndexSkippingOneDimension idim k ds = Some (a ++ 0 :: b) /\
    length a = idim /\ in_range (a ++ b) (firstn idim ds ++ skipn (S idim) ds) /\
    row_major (a ++ b) (firstn idim ds ++ skipn (S idim) ds) = k.
Proof. exact skip_spec. Qed.
Print Assumptions C04_skip_one_dimension.

Example C04_hyp : (1 < length [2;3;4])%nat /\ in_range [1;2;3] [2;3;4] /\ rot_last 1 [1;2;3] = [3;1;2] /\
  rotateFlatIndex 23 [2;3;4] 1 = Some 23 /\ rotateFlatIndex 1 [2;3;4] 1 = Some 4 /\
  getMultIndexSkippingOneDimension 1 5 [2;3;4] = Some [1;0;1].
Proof. split; [simpl; lia|split; [inrange|repeat split]]. Qed.
