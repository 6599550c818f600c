(** utilities/write_data2file.c++: data files from lists of vectors of numbers. Simplified: a file on disk is its content (text: characters,
    HDF5: names of one-dimensional data sets in the root group with their values); doubles are of any type [A], [show] prints a double on a
    stream; the content after an exception is that of the calls which were finished. *)
From Coq Require Import Ascii String Bool ZArith List.
Import ListNotations.
Open Scope list_scope.

Section Files.
  Variable A : Type.
  Definition text := list ascii.
  Definition space : ascii := " "%char.
  Definition newline : ascii := "010"%char.
  Variable show : A -> text.
  (** 3-12: only rank 0 writes; [old]: content before the call, None: no such file *)
  Definition write_line (myvec : list A) (file : text) : text :=
    fold_left (fun f x => f ++ show x ++ [space]) myvec file ++ [newline].
  Definition write_dat_rvecs (rank : Z) (rvec_list : list (list A)) (old : option text) : option text :=
    if (rank =? 0)%Z then Some (fold_left (fun f v => write_line v f) rvec_list []) else old.

  Definition h5 := list (string * list A).
  (** a link of this name exists in the file *)
  Fixpoint has (f : h5) (k : string) : bool := match f with [] => false | (k', _) :: f => String.eqb k' k || has f k end.
  (** how the call ends: normally, with an exception of the HDF5 library, or with undefined behaviour *)
  Inductive outcome := Done | Exception | Undefined.
  (** 25-34. keys[i] and myvec[0] are not checked; createDataSet throws for a name which exists *)
  Fixpoint write_loop (keys : list string) (i : nat) (l : list (list A)) (f : h5) : outcome * h5 :=
    match l with
    | [] => (Done, f)
    | myvec :: l =>
        match nth_error keys i with
        | None => (Undefined, f)
        | Some k => if has f k then (Exception, f) else
            match myvec with [] => (Undefined, f ++ [(k, [])]) | _ => write_loop keys (S i) l (f ++ [(k, myvec)]) end
        end
    end.
  (** 19-37: rank 0 truncates the file *)
  Definition write_h5_rvecs (rank : Z) (key_list : list string) (rvec_list : list (list A)) (old : option h5) : outcome * option h5 :=
    if (rank =? 0)%Z then let '(o, f) := write_loop key_list 0 rvec_list [] in (o, Some f) else (Done, old).
End Files.
