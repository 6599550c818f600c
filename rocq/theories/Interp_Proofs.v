(** Proofs about multilinear interpolation. *)
From Coq Require Import Reals Lra.
From Verif Require Import Prelude Idx_Spec Idx_Proofs Arr_Model Arr_Spec Arr_Proofs Grid_Model Grid_Spec Grid_Proofs Grid_Proofs2 Interp_Model Interp_Spec.
Open Scope R_scope.

(** entry number [r] counted from the element with index tuple [t] *)
Definition entry (a : marray R) (r : nat) (t : list Z) : R := nth (Z.to_nat (row_major t (m_length a)) + r) (m_elements a) 0.

Lemma three {A} (l : list A) : (1 <= length l <= 3)%nat -> (exists x, l = [x]) \/ (exists x y, l = [x; y]) \/ (exists x y z, l = [x; y; z]).
Proof.
  destruct l as [|x [|y [|z [|u l]]]]; cbn; intro H; [lia|left; eauto|right; left; eauto|right; right; eauto|lia].
Qed.

Lemma weights_dot ds : (1 <= length ds <= 3)%nat -> exists ws, get_weights ds = Some ws /\
  forall (G : list Z -> list R) r, dot ws (map G (all_offsets (length ds) 2)) r = multilinear ds (fun o => nth r (G o) 0).
Proof.
  intro H. destruct (three ds H) as [(x & ->)|[(x & y & ->)|(x & y & z & ->)]]; (eexists; split; [reflexivity|]); intros G r.
  - cbn. ring.
  - cbn. ring.
  - cbn. ring.
Qed.

Lemma nth_seg {A} (l : list A) d : forall k n r, (r < n)%nat -> nth r (firstn n (skipn k l)) d = nth (k + r) l d.
Proof.
  induction l as [|x l IH]; intros k n r H.
  - rewrite skipn_nil, firstn_nil. destruct (k + r)%nat, r; reflexivity.
  - destruct k as [|k]; [|cbn [skipn Nat.add nth]; apply IH; exact H].
    cbn [skipn Nat.add]. destruct n as [|n]; [lia|]. destruct r as [|r]; [reflexivity|]. cbn [firstn nth].
    exact (IH 0%nat n r ltac:(lia)).
Qed.
Lemma nth_window a n r t : (r < n)%nat -> nth r (window a n t) 0 = entry a r t.
Proof. intro H. unfold window, entry. apply nth_seg. exact H. Qed.

(** ** multilinear *)
Lemma corner_cons z o n : corner o n -> z = 0%Z \/ z = 1%Z -> corner (z :: o) (S n).
Proof. intros [L F] H. split; [cbn; rewrite L; reflexivity|constructor; assumption]. Qed.
Lemma mult_ext ds : forall f g, (forall o, corner o (length ds) -> f o = g o) -> multilinear ds f = multilinear ds g.
Proof.
  induction ds as [|d ds IH]; intros f g H; cbn [multilinear].
  - apply H. split; [reflexivity|constructor].
  - rewrite (IH (fun o => f (0%Z :: o)) (fun o => g (0%Z :: o))), (IH (fun o => f (1%Z :: o)) (fun o => g (1%Z :: o))); [reflexivity| |].
    + intros o Ho. apply H. apply corner_cons; auto.
    + intros o Ho. apply H. apply corner_cons; auto.
Qed.
Lemma mult_between ds : forall f lo hi, Forall (fun d => 0 <= d <= 1) ds ->
  (forall o, corner o (length ds) -> lo <= f o <= hi) -> lo <= multilinear ds f <= hi.
Proof.
  induction ds as [|d ds IH]; intros f lo hi F H; cbn [multilinear].
  - apply H. split; [reflexivity|constructor].
  - inversion F as [|? ? D F']; subst.
    destruct (IH (fun o => f (0%Z :: o)) lo hi F') as [A1 A2]; [intros o Ho; apply H; apply corner_cons; auto|].
    destruct (IH (fun o => f (1%Z :: o)) lo hi F') as [B1 B2]; [intros o Ho; apply H; apply corner_cons; auto|].
    split; nra.
Qed.
Lemma mult_zeros n : forall f, multilinear (repeat 0 n) f = f (repeat 0%Z n).
Proof. induction n as [|n IH]; intro f; cbn [repeat multilinear]; [reflexivity|]. rewrite IH. rewrite IH. ring. Qed.
Lemma mult_plus ds : forall f g, multilinear ds (fun o => f o + g o) = multilinear ds f + multilinear ds g.
Proof. induction ds as [|d ds IH]; intros f g; cbn [multilinear]; [reflexivity|]. rewrite IH, IH. ring. Qed.
Lemma mult_minus ds : forall f g, multilinear ds (fun o => f o - g o) = multilinear ds f - multilinear ds g.
Proof. induction ds as [|d ds IH]; intros f g; cbn [multilinear]; [reflexivity|]. rewrite IH, IH. ring. Qed.
Lemma mult_scale ds c : forall f, multilinear ds (fun o => f o * c) = multilinear ds f * c.
Proof. induction ds as [|d ds IH]; intros f; cbn [multilinear]; [reflexivity|]. rewrite IH, IH. ring. Qed.
Lemma mult_const ds c : multilinear ds (fun _ => c) = c.
Proof. induction ds as [|d ds IH]; cbn [multilinear]; [reflexivity|]. rewrite IH. ring. Qed.

(** one step up in coordinate [k] *)
Fixpoint bump (k : nat) (o : list Z) : list Z :=
  match k, o with
  | _, [] => []
  | O, z :: r => (z + 1)%Z :: r
  | S k', z :: r => z :: bump k' r
  end.
Lemma mult_face l r : forall f, multilinear (l ++ 1 :: r) f = multilinear (l ++ 0 :: r) (fun o => f (bump (length l) o)).
Proof.
  induction l as [|d l IH]; intro f; cbn [app multilinear length bump].
  - change (0 + 1)%Z with 1%Z. ring.
  - rewrite IH, IH. reflexivity.
Qed.
Lemma add_bump c : forall k o, add_tuple c (bump k o) = add_tuple (bump k c) o.
Proof.
  induction c as [|x c IH]; intros k o; [destruct k, o; reflexivity|].
  destruct o as [|z o]; [destruct k; reflexivity|]. destruct k as [|k]; cbn [bump add_tuple].
  - f_equal. ring.
  - f_equal. apply IH.
Qed.

(** coordinates of a corner and of the position *)
Fixpoint pick (o : list Z) (xs ys : list R) : list R :=
  match o, xs, ys with z :: o', x :: xs', y :: ys' => (if (z =? 0)%Z then x else y) :: pick o' xs' ys' | _, _, _ => [] end.
Fixpoint mix (ds xs ys : list R) : list R :=
  match ds, xs, ys with d :: ds', x :: xs', y :: ys' => ((1 - d) * x + d * y) :: mix ds' xs' ys' | _, _, _ => [] end.
Lemma mult_affine F n : multiaffine n F -> forall ds xs ys l, length xs = length ds -> length ys = length ds -> (length l + length ds = n)%nat ->
  multilinear ds (fun o => F (l ++ pick o xs ys)) = F (l ++ mix ds xs ys).
Proof.
  intro M. induction ds as [|d ds IH]; intros xs ys l Hx Hy Hn; [reflexivity|].
  destruct xs as [|x xs]; [discriminate|]. destruct ys as [|y ys]; [discriminate|]. cbn [length] in *.
  assert (Lm : forall ds xs ys, length xs = length ds -> length ys = length ds -> length (mix ds xs ys) = length ds).
  { clear. induction ds as [|d ds IH]; intros xs ys Hx Hy; [reflexivity|]. destruct xs; [discriminate|]. destruct ys; [discriminate|].
    cbn in *. rewrite IH by lia. reflexivity. }
  cbn [multilinear pick mix]. change (0 =? 0)%Z with true. change (1 =? 0)%Z with false. cbv iota.
  rewrite M by (rewrite Lm by lia; lia).
  rewrite (mult_ext ds (fun o => F (l ++ x :: pick o xs ys)) (fun o => F ((l ++ [x]) ++ pick o xs ys))) by (intros; rewrite <- app_assoc; reflexivity).
  rewrite (mult_ext ds (fun o => F (l ++ y :: pick o xs ys)) (fun o => F ((l ++ [y]) ++ pick o xs ys))) by (intros; rewrite <- app_assoc; reflexivity).
  rewrite !IH by (rewrite ?app_length; cbn; lia). rewrite <- !app_assoc. reflexivity.
Qed.

(** ** weights *)
Lemma weights_sum ds ws : get_weights ds = Some ws -> sumR ws = 1.
Proof.
  destruct ds as [|x [|y [|z [|u l]]]]; cbn; intro H; try discriminate; injection H as <-; cbn; ring.
Qed.
Lemma weights_nonneg ds ws : Forall (fun d => 0 <= d <= 1) ds -> get_weights ds = Some ws -> Forall (fun w => 0 <= w) ws.
Proof.
  intros F H.
  assert (P : forall a b, 0 <= a -> 0 <= b -> 0 <= a * b) by (intros; apply Rmult_le_pos; assumption).
  destruct ds as [|x [|y [|z [|u l]]]]; cbn in H; try discriminate; injection H as <-;
    repeat match goal with H : Forall _ (_ :: _) |- _ => inversion H; clear H; subst end;
    repeat (apply Forall_cons || apply Forall_nil); repeat (apply P); lra.
Qed.

(** ** the array *)
Lemma in_range_app t u ds es : length t = length ds -> in_range (t ++ u) (ds ++ es) <-> in_range t ds /\ in_range u es.
Proof.
  revert ds. induction t as [|x t IH]; intros [|d ds] H; try discriminate; cbn.
  - split; [intro K; split; [constructor|exact K]|intros [_ K]; exact K].
  - injection H as H. specialize (IH ds H). split.
    + intro K. inversion K; subst. apply IH in H5. destruct H5. split; [constructor; assumption|assumption].
    + intros [K1 K2]. inversion K1; subst. constructor; [assumption|]. apply IH. split; assumption.
Qed.

Lemma cell_value (a : marray R) (pre f0 cell post : list Z) (k : Z) (ds : list R) (vecsize : nat) :
  wf a -> (1 <= length cell <= 3)%nat -> length f0 = length cell -> length ds = length cell ->
  in_range (pre ++ cell ++ k :: post) (m_length a) ->
  in_range (pre ++ map (fun x => x + 1)%Z cell ++ k :: post) (m_length a) ->
  (k * prodZ (skipn (S (length pre + length cell)) (m_length a)) + Z.of_nat vecsize
                <= prodZ (skipn (length pre + length cell) (m_length a)))%Z ->
  interpolate_cell (length pre) vecsize a (pre ++ f0 ++ k :: post) cell ds =
  Some (map (fun r => multilinear ds (fun o => entry a r (pre ++ add_tuple cell o ++ k :: repeat 0%Z (length post)))) (seq 0 vecsize)).
Proof.
  intros W N L0 Ld R1 R2 K. unfold interpolate_cell.
  destruct (weights_dot ds) as (ws & Hw & Hd); [lia|]. rewrite Hw. cbn [obind].
  rewrite firstn_app, Nat.sub_diag, firstn_O, app_nil_r, firstn_all.
  replace (skipn (length pre + length cell) (pre ++ f0 ++ k :: post)) with (k :: post).
  2:{ rewrite <- L0, skipn_app, skipn_all2 by lia. replace (length pre + length f0 - length pre)%nat with (length f0) by lia.
      rewrite skipn_app, skipn_all, Nat.sub_diag. reflexivity. }
  rewrite (get_values_spec a pre cell post k 2 vecsize W N ltac:(lia) R1).
  2:{ exact R2. } 2:{ exact K. }
  cbn [obind]. f_equal. apply map_ext_in. intros r Hr. apply in_seq in Hr.
  rewrite <- Ld, Hd. apply mult_ext. intros o _. apply nth_window. lia.
Qed.
