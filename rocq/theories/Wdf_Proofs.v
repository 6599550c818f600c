From Coq Require Import Ascii String Bool ZArith Lia List.
From Verif Require Import Wdf_Model Wdf_Spec.
Import ListNotations.
Open Scope list_scope.

Lemma pieces_unique sep t l r : pieces sep t l r -> forall l' r', pieces sep t l' r' -> l = l' /\ r = r'.
Proof.
  assert (C : forall p q t t', ~ In sep p -> ~ In sep q -> p ++ sep :: t = q ++ sep :: t' -> p = q /\ t = t').
  { induction p as [|x p IH]; intros [|y q] u u' Np Nq E; cbn in E.
    - inversion E; auto.
    - inversion E; subst. exfalso. apply Nq. now left.
    - inversion E; subst. exfalso. apply Np. now left.
    - inversion E as [[E1 E2]]; subst. destruct (IH q u u') as (-> & ->); auto; intros H; [apply Np|apply Nq]; now right. }
  induction 1 as [r N|p t l r N P IH]; intros l' r' Q; inversion Q as [r'' N'|p' t' l'' r'' N' P' E]; subst.
  - auto.
  - exfalso. apply N. apply in_or_app. right. now left.
  - exfalso. apply N'. apply in_or_app. right. now left.
  - destruct (C _ _ _ _ N N' (eq_sym E)) as (-> & ->). destruct (IH _ _ P') as (-> & ->). auto.
Qed.
Lemma table_unique t rows rows' : table t rows -> table t rows' -> rows = rows'.
Proof.
  intros (l & P & F) (l' & P' & F'). destruct (pieces_unique _ _ _ _ P _ _ P') as (<- & _). clear P P'.
  revert rows' F'. induction F as [|x y l r H F IH]; intros rows' F'; inversion F' as [|x' y' l' r' H' F'' E1 E2]; subst; [reflexivity|].
  f_equal; [exact (proj1 (pieces_unique _ _ _ _ H _ _ H'))|apply IH; assumption].
Qed.

Section P.
  Variables (A : Type) (show : A -> text).
  Lemma fold_app {B} (g : B -> text) l : forall f, fold_left (fun f x => f ++ g x) l f = f ++ concat (map g l).
  Proof. induction l as [|x l IH]; intros f; cbn; [now rewrite app_nil_r|]. rewrite IH, app_assoc. reflexivity. Qed.
  Definition line (v : list A) : text := concat (map (fun x => show x ++ [space]) v).
  Lemma write_line_eq v f : write_line A show v f = f ++ (line v ++ [newline]).
  Proof. unfold write_line. rewrite (fold_app (fun x => show x ++ [space])). now rewrite app_assoc. Qed.
  Lemma write_eq l : write_dat_rvecs A show 0 l None = Some (concat (map (fun v => line v ++ [newline]) l)).
  Proof.
    unfold write_dat_rvecs. cbn [Z.eqb]. f_equal.
    assert (E : forall f, fold_left (fun f v => write_line A show v f) l f = fold_left (fun f v => f ++ (line v ++ [newline])) l f).
    { induction l as [|v l IH]; intros f; cbn [fold_left]; [reflexivity|]. rewrite write_line_eq. apply IH. }
    rewrite E. exact (fold_app (fun v => line v ++ [newline]) l []).
  Qed.
  Hypothesis Hshow : forall x, ~ In space (show x) /\ ~ In newline (show x).
  Lemma line_words v : pieces space (line v) (map show v) [].
  Proof.
    induction v as [|x v IH]; cbn; [constructor; auto|]. rewrite <- app_assoc. cbn [app]. constructor; [apply Hshow|exact IH].
  Qed.
  Lemma line_no_newline v : ~ In newline (line v).
  Proof.
    intros H. apply in_concat in H. destruct H as (p & Hp & H). apply in_map_iff in Hp. destruct Hp as (x & <- & _).
    apply in_app_or in H. destruct H as [H|[H|[]]]; [exact (proj2 (Hshow x) H)|discriminate H].
  Qed.
  Lemma text_table l : table (concat (map (fun v => line v ++ [newline]) l)) (map (map show) l).
  Proof.
    exists (map line l). split.
    - induction l as [|v l IH]; cbn; [constructor; auto|]. rewrite <- app_assoc. cbn [app]. constructor; [apply line_no_newline|exact IH].
    - induction l as [|v l IH]; cbn; constructor; [apply line_words|exact IH].
  Qed.
End P.

Section H5.
  Variable A : Type.
  Lemma has_in (f : h5 A) k : has A f k = true <-> In k (map fst f).
  Proof.
    induction f as [|(k', v) f IH]; cbn; [split; [discriminate|tauto]|]. rewrite orb_true_iff, IH, String.eqb_eq. reflexivity.
  Qed.
  Lemma nth_skip (keys : list string) i k : nth_error keys i = Some k -> skipn i keys = k :: skipn (S i) keys.
  Proof. revert i. induction keys as [|x keys IH]; intros [|i] E; cbn in E; [discriminate|discriminate|now inversion E|]. cbn. rewrite (IH i E). destruct keys; reflexivity. Qed.
  Lemma loop_done keys l : forall i f f', write_loop A keys i l f = (Done, f') ->
    length l <= length (skipn i keys) /\ f' = f ++ combine (skipn i keys) l /\ (NoDup (map fst f) -> NoDup (map fst f')) /\ Forall (fun v => v <> []) l.
  Proof.
    induction l as [|v l IH]; intros i f f' E; cbn [write_loop] in E.
    - inversion E; subst. cbn. rewrite combine_nil, app_nil_r. repeat split; auto; lia.
    - destruct (nth_error keys i) as [k|] eqn:K; [|discriminate]. destruct (has A f k) eqn:H; [discriminate|]. destruct v as [|x v]; [discriminate|].
      destruct (IH _ _ _ E) as (L & Ef & N & Fl). rewrite (nth_skip _ _ _ K). cbn [length combine]. split; [lia|].
      split; [rewrite Ef, <- app_assoc; reflexivity|]. split; [|constructor; [discriminate|exact Fl]].
      intros Nf. apply N. rewrite map_app. cbn.
      assert (Hk : ~ In k (map fst f)) by (intros X; apply has_in in X; congruence).
      clear - Nf Hk. induction (map fst f) as [|y t IHt]; cbn; [constructor; auto; constructor|]. inversion Nf; subst. constructor.
      + intros X. apply in_app_or in X. destruct X as [X|[<-|[]]]; [auto|]. apply Hk. now left.
      + apply IHt; auto. intros X. apply Hk. now right.
  Qed.
  Lemma loop_ok keys l : forall i f, length l <= length (skipn i keys) -> NoDup (map fst f ++ firstn (length l) (skipn i keys)) ->
    Forall (fun v => v <> []) l -> exists f', write_loop A keys i l f = (Done, f').
  Proof.
    induction l as [|v l IH]; intros i f L N Fl; cbn [write_loop]; [eauto|].
    destruct (nth_error keys i) as [k|] eqn:K.
    2:{ apply nth_error_None in K. rewrite skipn_length in L. cbn in L. lia. }
    rewrite (nth_skip _ _ _ K) in N, L. cbn [length firstn] in N, L. inversion Fl; subst.
    destruct (has A f k) eqn:H.
    - exfalso. apply has_in in H. apply NoDup_remove_2 in N. apply N. apply in_or_app. now left.
    - destruct v as [|x v]; [congruence|]. apply IH; [lia| |assumption].
      rewrite map_app, <- app_assoc. exact N.
  Qed.
  Lemma map_fst_combine (a : list string) (b : list (list A)) : length b <= length a -> map fst (combine a b) = firstn (length b) a.
  Proof. revert b. induction a as [|x a IH]; intros [|y b] L; cbn in *; try reflexivity; try lia. f_equal. apply IH. lia. Qed.
  Lemma in_combine_nth (a : list string) (b : list (list A)) k v : In (k, v) (combine a b) <-> exists i, nth_error a i = Some k /\ nth_error b i = Some v.
  Proof.
    revert b. induction a as [|x a IH]; intros [|y b]; cbn; try (split; [tauto|intros ([|i] & E1 & E2); cbn in *; discriminate]).
    rewrite IH. split.
    - intros [E|(i & E)]; [inversion E; subst; exists 0; auto|exists (S i); exact E].
    - intros ([|i] & E1 & E2); [left; cbn in *; congruence|right; exists i; auto].
  Qed.
End H5.
