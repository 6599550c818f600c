(** Properties C05-C09, C69, C70: multidimensional arrays. *)
From Coq Require Import Permutation QArith Qabs.
From Verif Require Import Prelude Idx_Spec Arr_Model Arr_Spec Arr_Proofs Arr_Proofs2.
Open Scope Z_scope.

(** ** C05 *)
(** every history of in-range writes to a freshly constructed array succeeds, and afterwards reading a
    tuple gives the value last written to it (the initial value if there was no write) *)
Theorem C05_access_history : forall {A} ndebug ds (v : A) ws,
  ds <> [] -> pos_dims ds -> prodZ ds < w64 -> Forall (fun w => in_range (fst w) ds) ws ->
  exists a, run_writes ndebug (mk_marray ds v) ws = Elem a /\
    forall t, in_range t ds -> at_ ndebug a t = Elem (last_write v ws t).
Proof. exact @access_history. Qed.
Print Assumptions C05_access_history.

(** with bounds checking compiled in, every other tuple is rejected *)
Theorem C05_out_of_range_rejected : forall {A} (a : marray A) t v, out_of_range t (m_length a) ->
  at_ false a t = AssertFail /\ set_at false a t v = AssertFail.
Proof. intros A a t v H. exact (conj (at_out_of_range a t H) (set_at_out_of_range a t v H)). Qed.
Print Assumptions C05_out_of_range_rejected.

(** writing to one tuple of any well-formed array changes this element only *)
Theorem C05_write_frame : forall {A} ndebug (a : marray A) t v, wf a -> in_range t (m_length a) ->
  exists a', set_at ndebug a t v = Elem a' /\ wf a' /\ m_length a' = m_length a /\ stored a' t = Some v /\
    (forall u, in_range u (m_length a) -> u <> t -> stored a' u = stored a u).
Proof. exact @set_at_in_range. Qed.
Print Assumptions C05_write_frame.

Example C05_hyp : wf (mk_marray [2;3] 7) /\ in_range [1;2] [2;3] /\ out_of_range [1;3] [2;3] /\
  run_writes false (mk_marray [2;3] 7) [([1;2], 5); ([0;1], 4); ([1;2], 6)]
   = Elem (Marray [2;3] [3;1] [7;4;7;7;7;6]).
Proof.
  split; [apply mk_marray_wf; [discriminate|inrange|reflexivity]|]. split; [inrange|]. split; [|reflexivity].
  split; auto. split; [inrange|]. intro H. inversion H as [|? ? ? ? _ H2]; subst. inversion H2; subst. lia.
Qed.

(** ** C69 (false): in a release build an out-of-range tuple is not rejected; it reads another element *)
Theorem C69_release_access_not_rejected_refuted : exists (a : marray Z) t u,
  wf a /\ out_of_range t (m_length a) /\ in_range u (m_length a) /\ t <> u /\
  at_ true a t = Elem 4 /\ stored a u = Some 4.
Proof.
  exists (mk_marray_buf [2;3] [1;2;3;4;5;6]), [0;3], [1;0].
  split; [apply mk_marray_buf_wf; [discriminate|inrange|reflexivity|reflexivity]|].
  split; [split; auto; split; [inrange|]; intro H; inversion H as [|? ? ? ? _ H2]; subst; inversion H2; subst; lia|].
  split; [inrange|]. split; [discriminate|]. split; reflexivity.
Qed.
Print Assumptions C69_release_access_not_rejected_refuted.

(** ** C06 *)
Theorem C06_block_view_get_vec : forall {A} ndebug (a : marray A) start len,
  wf a -> block_inside start len (m_length a) -> pos_dims len ->
  exists b v, mk_blockview a start len = Some b /\ block_get_vec ndebug b = Some v /\
    Z.of_nat (length v) = prodZ len /\
    forall t, in_range t len -> nth_error v (Z.to_nat (row_major t len)) = stored a (add_tuple start t).
Proof.
  intros A ndebug a start len W B P. exists (Blockview a start len (m_length a)).
  destruct (block_get_vec_spec ndebug a start len W B P) as (v & H).
  exists v. exact (conj (mk_blockview_ok a start len B) H).
Qed.
Print Assumptions C06_block_view_get_vec.

(** neighbourhood read: [pre] fixed leading indices, [f] the first corner of the frequency indices, [k] and
    [post] the remaining indices; column number row_major(o) holds the [vecsize] elements starting at
    f + o, for all offsets o in {0..sample-1}^n in row-major order *)
Theorem C06_neighbourhood_read : forall {A} (a : marray A) (pre f post : list Z) (k : Z) (sample vecsize : nat),
  wf a -> (1 <= length f <= 3)%nat -> (1 <= sample)%nat ->
  in_range (pre ++ f ++ k :: post) (m_length a) ->
  in_range (pre ++ map (fun x => x + (Z.of_nat sample - 1)) f ++ k :: post) (m_length a) ->
  k * prodZ (skipn (S (length pre + length f)) (m_length a)) + Z.of_nat vecsize
                <= prodZ (skipn (length pre + length f) (m_length a)) ->
  get_values (length f) (length pre) vecsize sample a (pre ++ f ++ k :: post) =
  Some (map (fun o => window a vecsize (pre ++ add_tuple f o ++ k :: repeat 0 (length post)))
            (all_offsets (length f) sample)).
Proof. exact @get_values_spec. Qed.
Print Assumptions C06_neighbourhood_read.

Example C06_hyp :
  let a := mk_marray_buf [2;3;3;2] (map Z.of_nat (seq 0 36)) in
  wf a /\ in_range ([1] ++ [1;0] ++ 0 :: []) (m_length a) /\ in_range ([1] ++ [2;1] ++ 0 :: []) (m_length a) /\
  0 * 1 + 2 <= prodZ (skipn 3 (m_length a)) /\
  get_values 2 1 2 2 a [1;1;0;0] = Some [[24;25];[26;27];[30;31];[32;33]] /\
  block_inside [0;1;1;0] [2;2;2;1] (m_length a) /\
  block_get_vec false (Blockview a [0;1;1;0] [2;2;2;1] [2;3;3;2]) = Some [8;10;14;16;26;28;32;34].
Proof.
  split; [apply mk_marray_buf_wf; [discriminate|inrange|reflexivity|reflexivity]|].
  split; [inrange|]. split; [inrange|]. split; [simpl; lia|]. split; [vm_compute; reflexivity|]. split; [|vm_compute; reflexivity].
  split; [auto|split; [auto|split; [inrange|]]]. simpl. inrange.
Qed.

(** ** C07 (false as stated): after a swap of arrays of different lengths the neighbourhood read of the
    swapped array does not answer like the original one *)
Theorem C07_swap_refuted : exists (a b : marray Z), wf a /\ wf b /\
  get_values 1 0 1 2 b [0;0] = Some [[1];[3]] /\
  get_values 1 0 1 2 (fst (swap a b)) [0;0] = Some [[1];[4]].
Proof.
  exists (mk_marray_buf [2;3] [10;20;30;40;50;60]), (mk_marray_buf [3;2] [1;2;3;4;5;6]).
  split; [apply mk_marray_buf_wf; [discriminate|inrange|reflexivity|reflexivity]|].
  split; [apply mk_marray_buf_wf; [discriminate|inrange|reflexivity|reflexivity]|].
  split; vm_compute; reflexivity.
Qed.
Print Assumptions C07_swap_refuted.

(** what holds: single-element access always, and everything for arrays of equal lengths *)
Theorem C07_swap_element_access_partial : forall {A} ndebug (a b : marray A) t,
  at_ ndebug (fst (swap a b)) t = at_ ndebug b t /\ at_ ndebug (snd (swap a b)) t = at_ ndebug a t.
Proof. exact @swap_at. Qed.
Print Assumptions C07_swap_element_access_partial.
Theorem C07_swap_same_lengths_partial : forall {A} (a b : marray A), wf a -> wf b -> m_length a = m_length b -> swap a b = (b, a).
Proof. exact @swap_same_shape. Qed.
Print Assumptions C07_swap_same_lengths_partial.
Example C07_hyp : wf (mk_marray [2;3] 7) /\ wf (mk_marray [2;3] 8) /\ m_length (mk_marray [2;3] 7) = m_length (mk_marray [2;3] 8).
Proof. split; [|split]; try reflexivity; (apply mk_marray_wf; [discriminate|inrange|reflexivity]). Qed.

(** ** C08 *)
(** every entry of the collapsed array is the fold of [op] over all elements whose kept coordinates are the
    given ones, each taken exactly once *)
Theorem C08_collapse : forall {A} (data : list A) (op : A -> A -> A) dims ks,
  dims <> [] -> pos_dims dims -> prodZ dims < w64 -> Z.of_nat (length data) = prodZ dims ->
  NoDup ks -> Forall (fun k => (k < length dims)%nat) ks ->
  exists res, collapse data op dims ks = Some res /\ Z.of_nat (length res) = prodZ (gather 0 dims ks) /\
    forall t, in_range t (gather 0 dims ks) ->
      exists L x0 xs, NoDup L /\ (forall u, In u L <-> fibre dims ks t u) /\
        map (fun u => nth_error data (Z.to_nat (row_major u dims))) L = map Some (x0 :: xs) /\
        nth_error res (Z.to_nat (row_major t (gather 0 dims ks))) = Some (fold_left op xs x0).
Proof. exact @collapse_spec. Qed.
Print Assumptions C08_collapse.

Theorem C08_maxabs : forall data dims i d,
  pos_dims dims -> prodZ dims < w64 -> Z.of_nat (length data) = prodZ dims -> nth_error dims i = Some d ->
  exists res, maxabs data dims i = Some res /\ Z.of_nat (length res) = d /\
    forall x, 0 <= x < d -> exists r, nth_error res (Z.to_nat x) = Some r /\
      (forall u q, in_range u dims -> nth i u 0 = x -> nth_error data (Z.to_nat (row_major u dims)) = Some q -> (Qabs q <= r)%Q) /\
      (exists u q, in_range u dims /\ nth i u 0 = x /\ nth_error data (Z.to_nat (row_major u dims)) = Some q /\ (Qabs q == r)%Q).
Proof. exact maxabs_spec. Qed.
Print Assumptions C08_maxabs.

Example C08_hyp : pos_dims [2;3;2] /\ prodZ [2;3;2] < w64 /\ NoDup [2;0]%nat /\
  collapse [1;2;3;4;5;6;7;8;9;10;11;12] Z.add [2;3;2] [2;0]%nat = Some [9;27;12;30] /\
  maxabs [1;-(5#1);3;4;-(9#2);-(6#1)]%Q [2;3] 1 = Some [4;5;6]%Q.
Proof.
  split; [inrange|]. split; [reflexivity|]. split; [|split; vm_compute; reflexivity].
  constructor; [intros [H|[]]; discriminate|constructor; [intros []|constructor]].
Qed.

(** ** C70 (false): a complete schedule of the parallel reduction that loses an element *)
Theorem C70_parallel_reduction_refuted : exists (sch : list race_event),
  complete_schedule 3 sch = true /\ collapse_all Z.add [1;2;4] sch = Some 5 /\
  fold_left Z.add [2;4] 1 = 7.
Proof. exists [Rd 1; Rd 2; Wr 1; Wr 2]. repeat split. Qed.
Print Assumptions C70_parallel_reduction_refuted.

(** what holds: with one thread the result is the left fold *)
Theorem C70_serial_reduction_partial : forall {A} (op : A -> A -> A) x y xs,
  collapse_all op (x :: y :: xs) (serial_schedule (length (x :: y :: xs))) = Some (fold_left op (y :: xs) x).
Proof. exact @collapse_all_serial. Qed.
Print Assumptions C70_serial_reduction_partial.

(** ** C09 (false): two arrays that differ only in another row give different derivatives in this row *)
Theorem C09_partial_deriv_refuted : exists (a b : marray Q) ra rb,
  wf a /\ wf b /\ m_length a = [2;3] /\ m_length b = [2;3] /\
  (forall x, 0 <= x < 3 -> stored a [0; x] = stored b [0; x]) /\
  partial_deriv a 1 = Some ra /\ partial_deriv b 1 = Some rb /\
  (exists qa qb, nth_error ra 2 = Some qa /\ nth_error rb 2 = Some qb /\ ~ (qa == qb)%Q).
Proof.
  exists (mk_marray_buf [2;3] [0;0;0;0;0;0]%Q), (mk_marray_buf [2;3] [0;0;0;8;0;0]%Q).
  eexists. eexists.
  split; [apply mk_marray_buf_wf; [discriminate|inrange|reflexivity|reflexivity]|].
  split; [apply mk_marray_buf_wf; [discriminate|inrange|reflexivity|reflexivity]|].
  split; [reflexivity|]. split; [reflexivity|]. split.
  { intros x Hx. assert (x = 0 \/ x = 1 \/ x = 2) as [-> | [-> | ->]] by lia; reflexivity. }
  split; [vm_compute; reflexivity|]. split; [vm_compute; reflexivity|].
  eexists. eexists. split; [reflexivity|]. split; [reflexivity|]. discriminate.
Qed.
Print Assumptions C09_partial_deriv_refuted.

(** what holds: if all dimensions before the differentiated one have length 1, the result is the
    second-order finite difference along that dimension *)
Theorem C09_partial_deriv_partial : forall (a : marray Q) i d, wf a -> nth_error (m_length a) i = Some d -> 3 <= d ->
  prodZ (firstn i (m_length a)) = 1 ->
  exists res, partial_deriv a i = Some res /\ length res = length (m_elements a) /\
    forall pre x post, length pre = i -> in_range (pre ++ x :: post) (m_length a) ->
      exists q, nth_error res (Z.to_nat (row_major (pre ++ x :: post) (m_length a))) = Some q /\
        (q == fd_unit d (fun y => elemQ a (pre ++ y :: post)) x)%Q.
Proof. exact partial_deriv_correct. Qed.
Print Assumptions C09_partial_deriv_partial.
Example C09_hyp : wf (mk_marray_buf [1;3;2] [0;1;5;7;2;3]%Q) /\ prodZ (firstn 1 [1;3;2]) = 1 /\
  option_map (map Qred) (partial_deriv (mk_marray_buf [1;3;2] [0;1;5;7;2;3]%Q) 1) = Some [9;11;1;1;-(7);-(9)]%Q.
Proof.
  split; [apply mk_marray_buf_wf; [discriminate|inrange|reflexivity|reflexivity]|]. split; reflexivity.
Qed.
