(** C138: the data files hold the given vectors *)
From Coq Require Import Ascii String Bool ZArith Lia List.
From Verif Require Import Wdf_Model Wdf_Spec Wdf_Proofs.
Import ListNotations.
Open Scope list_scope.

(** the text file is a table of the printed numbers, one line for each vector, and can be read as no other table; ranks other than 0 leave
    the file as it was *)
Theorem C138_text_file_is_table : forall (A : Type) (show : A -> list ascii) rank vs old,
  (forall x, ~ In " "%char (show x) /\ ~ In "010"%char (show x)) ->
  if (rank =? 0)%Z then exists t, write_dat_rvecs A show rank vs old = Some t /\ table t (map (map show) vs) /\ forall rows, table t rows -> rows = map (map show) vs
  else write_dat_rvecs A show rank vs old = old.
Proof.
  intros A show rank vs old H. destruct (Z.eqb_spec rank 0) as [->|N].
  - exists (concat (map (fun v => line A show v ++ [newline]) vs)). pose proof (text_table A show H vs) as T.
    split; [rewrite <- write_eq; reflexivity|]. split; [exact T|]. intros rows R. exact (table_unique _ _ _ R T).
  - unfold write_dat_rvecs. apply Z.eqb_neq in N. rewrite N. reflexivity.
Qed.
Print Assumptions C138_text_file_is_table.

(** the HDF5 file is written without error exactly if there is a name for each vector, these names are distinct, and no vector is empty;
    it then holds the vectors under their names and nothing else, whatever was in the file before *)
Theorem C138_h5_file_holds_vectors : forall (A : Type) keys (vs : list (list A)) old,
  let '(o, f) := write_h5_rvecs A 0 keys vs old in
  (o = Done <-> length vs <= length keys /\ NoDup (firstn (length vs) keys) /\ Forall (fun v => v <> []) vs) /\
  (o = Done -> exists d, f = Some d /\ holds d keys vs) /\
  forall rank, rank <> 0%Z -> write_h5_rvecs A rank keys vs old = (Done, old).
Proof.
  intros A keys vs old. unfold write_h5_rvecs. cbn [Z.eqb]. destruct (write_loop A keys 0 vs []) as [o f] eqn:E. split; [|split].
  - split.
    + intros ->. destruct (loop_done A _ _ _ _ _ E) as (L & Ef & N & Fl). cbn in Ef, L. split; [exact L|]. split; [|exact Fl].
      rewrite <- (map_fst_combine A keys vs L), <- Ef. apply N. constructor.
    + intros (L & N & Fl). destruct (loop_ok A keys vs 0 [] L N Fl) as (f' & E'). rewrite E in E'. congruence.
  - intros ->. destruct (loop_done A _ _ _ _ _ E) as (L & Ef & N & _). cbn in Ef. exists f. split; [reflexivity|]. split; [apply N; constructor|].
    intros k v. rewrite Ef. apply in_combine_nth.
  - intros rank N. apply Z.eqb_neq in N. rewrite N. reflexivity.
Qed.
Print Assumptions C138_h5_file_holds_vectors.

(** the calls of test_write_dat_rvecs and test_write_h5_rvecs with other numbers *)
Definition show_digit (b : bool) : list ascii := if b then ["1"%char] else ["-"%char; "0"%char].
Example C138_text_hyp : (forall x, ~ In " "%char (show_digit x) /\ ~ In "010"%char (show_digit x)) /\
  write_dat_rvecs bool show_digit 0 [[true; false]; []; [true]] (Some ["x"%char]) =
    Some ["1"; " "; "-"; "0"; " "; "010"; "010"; "1"; " "; "010"]%char.
Proof. split; [|reflexivity]. intros []; split; cbn; intros H; repeat destruct H as [H|H]; try discriminate H; exact H. Qed.
Example C138_h5_hyp :
  write_h5_rvecs bool 0 ["x"; "y"; "z"]%string [[true; false]; [true]] (Some [("old"%string, [false])]) =
    (Done, Some [("x"%string, [true; false]); ("y"%string, [true])]) /\
  fst (write_h5_rvecs bool 0 ["x"; "x"]%string [[true; false]; [true]] None) = Exception /\
  fst (write_h5_rvecs bool 0 ["x"]%string [[true; false]; [true]] None) = Undefined.
Proof. repeat split. Qed.
