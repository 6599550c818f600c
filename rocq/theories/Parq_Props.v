From Coq Require Import QArith Lqa.
From Verif Require Import Prelude Util_Proofs Parq_Model Parq_Spec.
Open Scope Q_scope.

Lemma Qltb_spec x y : Qltb x y = true <-> x < y.
Proof.
  unfold Qltb. destruct (Qle_bool y x) eqn:E; cbn.
  - apply Qle_bool_iff in E. split; [discriminate|intros; exfalso; lra].
  - split; [intros _|reflexivity]. apply Qnot_le_lt. intros H. apply Qle_bool_iff in H. congruence.
Qed.
Lemma Qltb_false x y : Qltb x y = false <-> y <= x.
Proof. unfold Qltb. rewrite Bool.negb_false_iff. apply Qle_bool_iff. Qed.

Section Facts.
  Variable S : Type.
  Variable next : Z -> Q -> S -> S.
  Variable cv cs : S -> S -> xnum.
  Variable acc : Q.
  Variable Nmax : Z.
  Notation loop := (loop S next cv cs acc Nmax).

  Lemma adapt_bounds i m h lo : (lo <= m) -> lo <= mixing_minimum -> 0 < m -> adapt i m h <= m /\ lo <= adapt i m h /\ (mixing_minimum <= m -> mixing_minimum <= adapt i m h).
  Proof.
    intros A B C. unfold adapt. destruct (_ && xlt _ _)%bool eqn:E; [|split; [lra|split; [exact A|auto]]].
    apply andb_prop in E. destruct E as (E & _). apply andb_prop in E. destruct E as (_ & E). apply Qltb_spec in E.
    destruct (Qltb _ mixing_minimum) eqn:F; [apply Qltb_spec in F|apply Qltb_false in F]; unfold mixing_minimum in *; repeat split; intros; lra.
  Qed.
  Lemma layers_grow fuel : forall i m h s w r, loop fuel i m h s w = Some r ->
    exists w', r_layers r = w ++ w' /\ (r_iterations r = i + Z.of_nat (length w') - 1)%Z.
  Proof.
    induction fuel as [|f IH]; intros i m h s w r H; [discriminate|]. cbn in H. set (l := Layer _ _ _ _) in *.
    match type of H with (if ?b then _ else _) = _ => destruct b end.
    - destruct (IH _ _ _ _ _ _ H) as (w' & E & I). exists (l :: w'). rewrite E, <- app_assoc. cbn [app length]. split; [reflexivity|lia].
    - injection H as <-. exists [l]. split; [reflexivity|cbn; lia].
  Qed.
  Lemma loop_count fuel : forall i m h s w r, loop fuel i m h s w = Some r -> (i <= r_iterations r)%Z /\ (r_iterations r <= Z.max i Nmax)%Z /\
    (r_converged r = false -> (Nmax <= r_iterations r)%Z).
  Proof.
    induction fuel as [|f IH]; intros i m h s w r H; [discriminate|]. cbn in H. set (c := is_converged _ _ _) in *.
    destruct (negb c && (i <? Nmax)%Z) eqn:E.
    - apply andb_prop in E. destruct E as (_ & E). apply Z.ltb_lt in E. destruct (IH _ _ _ _ _ _ H) as (A & B & C). repeat split; [lia|lia|exact C].
    - injection H as <-. cbn. repeat split; [lia|lia|]. intros Hc. rewrite Hc in E. cbn in E. apply Z.ltb_ge in E. exact E.
  Qed.
  Lemma loop_ends : forall fuel i m h s w, (Nmax - i < Z.of_nat fuel)%Z -> (fuel <> 0)%nat -> exists r, loop fuel i m h s w = Some r.
  Proof.
    induction fuel as [|f IH]; intros i m h s w H N; [contradiction|]. cbn. set (c := is_converged _ _ _).
    destruct (negb c && (i <? Nmax)%Z) eqn:E; [|eexists; reflexivity]. apply andb_prop in E. destruct E as (_ & E). apply Z.ltb_lt in E.
    apply IH; lia.
  Qed.
  Lemma loop_mixing fuel : forall i m h s w r, mixing_minimum <= m -> loop fuel i m h s w = Some r ->
    mixing_minimum <= r_mixing r /\ r_mixing r <= m /\ exists w', r_layers r = w ++ w' /\ forall l, In l w' -> mixing_minimum <= l_mixing l /\ l_mixing l <= m /\ r_mixing r <= l_mixing l.
  Proof.
    induction fuel as [|f IH]; intros i m h s w r M H; [discriminate|]. cbn in H. set (o := next i m s) in *.
    set (h' := push_history _ _) in *. set (m' := adapt i m h') in *. set (c := is_converged _ _ _) in *.
    destruct (adapt_bounds i m h' mixing_minimum) as (A & B & _); [assumption|lra|unfold mixing_minimum in *; lra|]. fold m' in A, B.
    destruct (negb c && (i <? Nmax)%Z).
    - destruct (IH _ _ _ _ _ _ B H) as (P & Q & w' & E & L). split; [exact P|]. split; [lra|].
      exists (Layer (i mod trigger_adaptation) o m' c :: w'). rewrite E, <- app_assoc. split; [reflexivity|]. intros l [<-|Hl]; [cbn; lra|].
      destruct (L l Hl) as (U & V & W). repeat split; [exact U|lra|exact W].
    - injection H as <-. cbn. split; [exact B|]. split; [exact A|]. eexists. split; [reflexivity|]. intros l [<-|[]]. cbn. repeat split; lra.
  Qed.
  Lemma loop_success fuel : forall i m h s w r, loop fuel i m h s w = Some r -> w <> [] -> l_state (last w (Layer 0 s m false)) = s ->
    exists x y, last_two (r_layers r) = Some (x, y) /\ y = r_state r /\ r_converged r = is_converged acc (cv x y) (cs x y) /\
      l_converged (last (r_layers r) (Layer 0 s m false)) = r_converged r /\ l_index (last (r_layers r) (Layer 0 s m false)) = (r_iterations r mod 5)%Z.
  Proof.
    induction fuel as [|f IH]; intros i m h s w r H W L; [discriminate|]. cbn in H. set (o := next i m s) in *.
    set (h' := push_history _ _) in *. set (m' := adapt i m h') in *. set (c := is_converged _ _ _) in *.
    destruct (negb c && (i <? Nmax)%Z).
    - destruct (IH _ _ _ _ _ _ H) as (x & y & A & B & C & D & E).
      + intros Q. apply app_eq_nil in Q. destruct Q; discriminate.
      + rewrite last_last. reflexivity.
      + exists x, y. split; [exact A|]. split; [exact B|]. split; [exact C|].
        assert (NE : r_layers r <> []) by (intros Q; rewrite Q in A; discriminate).
        assert (LD : forall (l : list (layer S)) d d', l <> [] -> last l d = last l d') by
          (induction l as [|a [|b l] IHl]; intros d d' N; [contradiction|reflexivity|]; cbn in *; apply IHl; discriminate).
        rewrite (LD _ (Layer 0 s m false) (Layer 0 o m' false) NE). auto.
    - injection H as <-. cbn [r_layers r_state r_converged r_iterations]. rewrite last_last. cbn [l_converged l_index].
      exists s, o. split; [|auto]. unfold last_two. rewrite rev_app_distr. cbn [rev app]. destruct (rev w) as [|a l] eqn:R.
      + exfalso. apply W. rewrite <- (rev_involutive w), R. reflexivity.
      + assert (w = rev l ++ [a]) as -> by (rewrite <- (rev_involutive w), R; reflexivity). rewrite last_last in L. rewrite L. reflexivity.
  Qed.
  (** the history holds the changes of the last five iterations *)
  Definition lastn (l : list xnum) : list xnum := skipn (length l - 5) l.
  Lemma push_lastn l x : push_history (lastn l) x = lastn (l ++ [x]).
  Proof.
    unfold push_history, lastn, Nmax_history. rewrite !app_length, skipn_length. cbn [length].
    destruct (le_lt_dec (length l) 4) as [H|H].
    - replace (length l - 5)%nat with 0%nat by lia. replace (length l + 1 - 5)%nat with 0%nat by lia. cbn [skipn]. destruct (Nat.ltb_spec 5 (length l - 0 + 1)); [lia|reflexivity].
    - destruct (Nat.ltb_spec 5 (length l - (length l - 5) + 1)) as [_|G].
      + replace (length l + 1 - 5)%nat with (Datatypes.S (length l - 5)) by lia. rewrite skipn_app. replace (Datatypes.S (length l - 5) - length l)%nat with 0%nat by lia. cbn [skipn].
        assert (T : forall n (u : list xnum), (n < length u)%nat -> tl (skipn n u ++ [x]) = skipn (Datatypes.S n) u ++ [x]).
        { induction n as [|n IHn]; intros u Hu; destruct u as [|a u]; cbn in Hu; try lia; [reflexivity|]. cbn [skipn]. rewrite IHn by lia. reflexivity. }
        apply T. lia.
      + assert (length l = 5 - 0)%nat by lia. lia.
  Qed.
  Lemma nth_lastn l : (5 <= length l)%nat -> hd NaN (lastn l) = nth (length l - 5) l NaN.
  Proof.
    intros H. unfold lastn. assert (G : forall n (u : list xnum), (n < length u)%nat -> hd NaN (skipn n u) = nth n u NaN).
    { induction n as [|n IHn]; intros u Hu; destruct u as [|a u]; cbn in Hu; try lia; [reflexivity|]. cbn [skipn nth]. apply IHn. lia. }
    apply G. lia.
  Qed.
  Lemma last_lastn l x : last (lastn (l ++ [x])) NaN = x.
  Proof.
    unfold lastn. rewrite skipn_app. replace (length (l ++ [x]) - 5 - length l)%nat with 0%nat by (rewrite app_length; cbn; lia). cbn [skipn]. apply last_last.
  Qed.
  Lemma worse_app w l k d : (k < length w)%nat -> worse cv cs (w ++ l) k d = worse cv cs w k d.
  Proof. intros H. unfold worse. rewrite !app_nth1 by lia. reflexivity. Qed.
  Lemma rule_app w l k d : (k < length w)%nat -> follows_rule next cv cs w k d -> follows_rule next cv cs (w ++ l) k d.
  Proof. intros H R. unfold follows_rule in *. rewrite !worse_app by lia. rewrite !app_nth1 by lia. exact R. Qed.
  Lemma loop_rule fuel d : forall i m h s w r, loop fuel (Z.of_nat i) m h s w = Some r -> length w = i -> (1 <= i)%nat ->
    l_state (nth (i - 1) w d) = s -> l_mixing (nth (i - 1) w d) = m -> h = lastn (map (fun k => worse cv cs w k d) (seq 1 (i - 1))) ->
    (forall k, (1 <= k < i)%nat -> follows_rule next cv cs w k d) -> forall k, (1 <= k < length (r_layers r))%nat -> follows_rule next cv cs (r_layers r) k d.
  Proof.
    induction fuel as [|f IH]; intros i m h s w r H W I Es Em Eh F; [discriminate|]. cbn in H. set (o := next (Z.of_nat i) m s) in *.
    set (x := xmax (cs s o) (cv s o)) in *. set (h' := push_history h x) in *. set (m' := adapt (Z.of_nat i) m h') in *. set (c := is_converged _ _ _) in *.
    set (l := Layer (Z.of_nat i mod trigger_adaptation) o m' c) in *.
    assert (N1 : nth i (w ++ [l]) d = l) by (rewrite app_nth2 by lia; replace (i - length w)%nat with 0%nat by lia; reflexivity).
    assert (N0 : nth (i - 1) (w ++ [l]) d = nth (i - 1) w d) by (rewrite app_nth1 by lia; reflexivity).
    assert (X : worse cv cs (w ++ [l]) i d = x) by (unfold worse; rewrite N1, N0, Es; reflexivity).
    assert (D : map (fun k => worse cv cs (w ++ [l]) k d) (seq 1 i) = map (fun k => worse cv cs w k d) (seq 1 (i - 1)) ++ [x]).
    { replace (seq 1 i) with (seq 1 (i - 1) ++ [i]) by (destruct i as [|j]; [lia|]; rewrite seq_S; replace (Datatypes.S j - 1)%nat with j by lia; reflexivity).
      rewrite map_app. cbn [map]. rewrite X. f_equal. apply map_ext_in. intros k Hk. apply in_seq in Hk. apply worse_app. lia. }
    assert (Eh' : h' = lastn (map (fun k => worse cv cs (w ++ [l]) k d) (seq 1 i))) by (unfold h'; rewrite Eh, D; apply push_lastn).
    assert (R : follows_rule next cv cs (w ++ [l]) i d).
    { unfold follows_rule. rewrite N1, N0, Es, Em, X. split; [reflexivity|]. cbn [l_mixing l]. unfold m', adapt.
      replace (Z.of_nat i mod trigger_adaptation =? 0)%Z with (i mod 5 =? 0)%nat.
      2:{ unfold trigger_adaptation. change 5%Z with (Z.of_nat 5). rewrite <- Nat2Z.inj_mod. destruct (Nat.eqb_spec (i mod 5) 0) as [E|E]; [rewrite E; reflexivity|]. symmetry. apply Z.eqb_neq. lia. }
      change (1 # 100) with mixing_minimum. destruct (Nat.eqb_spec (i mod 5) 0) as [E|E]; [|cbn [andb]; reflexivity].
      assert (I5 : (5 <= i)%nat) by (destruct i as [|[|[|[|[|i]]]]]; cbn in E; lia).
      assert (H1 : hd NaN h' = worse cv cs (w ++ [l]) (i - 4) d).
      { rewrite Eh', nth_lastn by (rewrite map_length, seq_length; lia). rewrite map_length, seq_length.
        rewrite (nth_indep _ NaN (worse cv cs (w ++ [l]) 0 d)) by (rewrite map_length, seq_length; lia).
        rewrite (map_nth (fun k => worse cv cs (w ++ [l]) k d) (seq 1 i) 0%nat (i - 5)). rewrite seq_nth by lia. f_equal. lia. }
      assert (H2 : last h' NaN = x) by (rewrite Eh', D; apply last_lastn).
      rewrite H1, H2. cbn [andb]. destruct (Qltb mixing_minimum m); cbn [andb]; [|reflexivity]. destruct (xlt _ x); [|reflexivity]. unfold reduced. change (1 # 100) with mixing_minimum.
      destruct (Qltb ((6 # 10) * m) mixing_minimum) eqn:Q1; unfold Qltb in Q1.
      - apply Bool.negb_true_iff in Q1. rewrite Q1. reflexivity.
      - apply Bool.negb_false_iff in Q1. rewrite Q1. reflexivity. }
    assert (Ful : forall k, (1 <= k < Datatypes.S i)%nat -> follows_rule next cv cs (w ++ [l]) k d).
    { intros k Hk. destruct (Nat.eq_dec k i) as [->|Ne]; [exact R|]. apply rule_app; [lia|]. apply F. lia. }
    match type of H with (if ?b then _ else _) = _ => destruct b end.
    - replace (Z.of_nat i + 1)%Z with (Z.of_nat (Datatypes.S i)) in H by lia.
      apply (IH _ _ _ _ _ _ H).
      + rewrite app_length. cbn. lia.
      + lia.
      + replace (Datatypes.S i - 1)%nat with i by lia. rewrite N1. reflexivity.
      + replace (Datatypes.S i - 1)%nat with i by lia. rewrite N1. reflexivity.
      + replace (Datatypes.S i - 1)%nat with i by lia. exact Eh'.
      + exact Ful.
    - injection H as <-. cbn [r_layers]. intros k Hk. rewrite app_length in Hk. cbn in Hk. apply Ful. lia.
  Qed.
End Facts.

(** ** C52 *)
Theorem C52_iterations : forall S next cv cs acc Nmax nd ov ul file read mix fuel s r,
  parquet_solver S next cv cs acc Nmax nd ov ul file read mix fuel s = Ran r ->
  (1 <= r_iterations r <= Z.max 1 Nmax)%Z /\ (r_converged r = false -> (Nmax <= r_iterations r)%Z) /\ Z.of_nat (length (r_layers r)) = (r_iterations r + 1)%Z.
Proof.
  intros S next cv cs acc Nmax nd ov ul file read mix fuel s r H.
  assert (G : forall s', iterate S next cv cs acc Nmax fuel mix s' = Ran r -> (1 <= r_iterations r <= Z.max 1 Nmax)%Z /\
     (r_converged r = false -> (Nmax <= r_iterations r)%Z) /\ Z.of_nat (length (r_layers r)) = (r_iterations r + 1)%Z).
  { intros s' Q. unfold iterate in Q. destruct (loop _ _ _ _ _ _ _ _ _ _ _ _) as [r'|] eqn:E in Q; [|discriminate]. injection Q as ->.
    destruct (loop_count _ _ _ _ _ _ _ _ _ _ _ _ _ E) as (A & B & C). destruct (layers_grow _ _ _ _ _ _ _ _ _ _ _ _ _ E) as (w' & W & I).
    repeat split; [lia|lia|exact C|]. rewrite W, app_length. cbn. lia. }
  unfold parquet_solver in H. destruct (negb nd && _); [discriminate|]. destruct ov; [apply (G _ H)|].
  destruct (_ || _); [destruct (read _); discriminate|]. destruct (0 <=? _)%Z; [destruct (read _); [|discriminate]|]; apply (G _ H).
Qed.
Print Assumptions C52_iterations.
Theorem C52_terminates : forall S next cv cs acc Nmax nd ov ul file read mix fuel s,
  (Z.max 1 Nmax <= Z.of_nat fuel)%Z -> parquet_solver S next cv cs acc Nmax nd ov ul file read mix fuel s <> Endless.
Proof.
  intros S next cv cs acc Nmax nd ov ul file read mix fuel s F.
  assert (G : forall s', iterate S next cv cs acc Nmax fuel mix s' <> Endless).
  { intros s' Q. unfold iterate in Q. destruct (loop_ends S next cv cs acc Nmax fuel 1 mix [] s' [Layer 0 s' mix false]) as (r & E); [lia|lia|]. rewrite E in Q. discriminate. }
  unfold parquet_solver. destruct (negb nd && _); [discriminate|]. destruct ov; [apply G|].
  destruct (_ || _); [destruct (read _); discriminate|]. destruct (0 <=? _)%Z; [destruct (read _); [|discriminate]|]; apply G.
Qed.
Print Assumptions C52_terminates.
(** with assertions: every mixing factor stored and used lies between the minimum and the start value *)
Theorem C52_mixing : forall S next cv cs acc Nmax ov ul file read mix fuel s r,
  parquet_solver S next cv cs acc Nmax false ov ul file read mix fuel s = Ran r ->
  allowed_mixing mix /\ 1 # 100 <= r_mixing r <= mix /\ forall l, In l (r_layers r) -> 1 # 100 <= l_mixing l <= mix /\ r_mixing r <= l_mixing l.
Proof.
  intros S next cv cs acc Nmax ov ul file read mix fuel s r H. unfold parquet_solver in H. change (negb false) with true in H. rewrite Bool.andb_true_l in H.
  match type of H with (if ?b then _ else _) = _ => destruct b eqn:A end; [discriminate|]. apply Bool.negb_false_iff in A.
  assert (M : allowed_mixing mix).
  { apply Bool.orb_prop in A. destruct A as [A|A]; [left|right; apply Qeq_bool_iff; exact A]. apply andb_prop in A. destruct A as (A & B).
    apply Qle_bool_iff in A, B. auto. }
  assert (M' : 1 # 100 <= mix) by (destruct M as [M|M]; lra).
  assert (G : forall s', iterate S next cv cs acc Nmax fuel mix s' = Ran r -> 1 # 100 <= r_mixing r <= mix /\
     forall l, In l (r_layers r) -> 1 # 100 <= l_mixing l <= mix /\ r_mixing r <= l_mixing l).
  { intros s' Q. unfold iterate in Q. destruct (loop _ _ _ _ _ _ _ _ _ _ _ _) as [r'|] eqn:E in Q; [|discriminate]. injection Q as ->.
    destruct (loop_mixing S next cv cs acc Nmax _ _ _ _ _ _ _ M' E) as (P & Q & w' & W & L). unfold mixing_minimum in *. split; [auto|].
    intros l Hl. rewrite W in Hl. cbn in Hl. destruct Hl as [<-|Hl]; [cbn; split; [split|]; lra|]. destruct (L l Hl) as (U & V & X). auto. }
  split; [exact M|]. clear A. destruct ov; [apply (G _ H)|].
  destruct (_ || _); [destruct (read _); discriminate|]. destruct (0 <=? _)%Z; [destruct (read _); [|discriminate]|]; apply (G _ H).
Qed.
Print Assumptions C52_mixing.
(** every iteration starts from the state and the mixing factor of the previous one; the rule for the mixing factor *)
Theorem C52_rule : forall S next cv cs acc Nmax nd ov ul file read mix fuel s r d, parquet_solver S next cv cs acc Nmax nd ov ul file read mix fuel s = Ran r ->
  forall k, (1 <= k < length (r_layers r))%nat -> follows_rule next cv cs (r_layers r) k d.
Proof.
  intros S next cv cs acc Nmax nd ov ul file read mix fuel s r d H.
  assert (G : forall s', iterate S next cv cs acc Nmax fuel mix s' = Ran r -> forall k, (1 <= k < length (r_layers r))%nat -> follows_rule next cv cs (r_layers r) k d).
  { intros s' Q. unfold iterate in Q. destruct (loop _ _ _ _ _ _ _ _ _ _ _ _) as [r'|] eqn:E in Q; [|discriminate]. injection Q as ->.
    apply (loop_rule S next cv cs acc Nmax fuel d 1 mix [] s' [Layer 0 s' mix false] r E); try reflexivity; lia. }
  unfold parquet_solver in H. destruct (negb nd && _); [discriminate|]. destruct ov; [apply (G _ H)|].
  destruct (_ || _); [destruct (read _); discriminate|]. destruct (0 <=? _)%Z; [destruct (read _); [|discriminate]|]; apply (G _ H).
Qed.
Print Assumptions C52_rule.
(** the last layer written holds the result and the flag; the flag is computed from the last two states *)
Theorem C52_result : forall S next cv cs acc Nmax nd ov ul file read mix fuel s r,
  parquet_solver S next cv cs acc Nmax nd ov ul file read mix fuel s = Ran r ->
  exists x y l, last_two (r_layers r) = Some (x, y) /\ y = r_state r /\ In l (r_layers r) /\ l_state l = y /\ l_converged l = r_converged r /\ l_index l = (r_iterations r mod 5)%Z /\
    (r_converged r = true <-> xlt (Fin acc) (cv x y) = false /\ xlt (Fin acc) (cs x y) = false).
Proof.
  intros S next cv cs acc Nmax nd ov ul file read mix fuel s r H.
  assert (G : forall s', iterate S next cv cs acc Nmax fuel mix s' = Ran r -> exists x y l, last_two (r_layers r) = Some (x, y) /\ y = r_state r /\
    In l (r_layers r) /\ l_state l = y /\ l_converged l = r_converged r /\ l_index l = (r_iterations r mod 5)%Z /\
    (r_converged r = true <-> xlt (Fin acc) (cv x y) = false /\ xlt (Fin acc) (cs x y) = false)).
  { intros s' Q. unfold iterate in Q. destruct (loop _ _ _ _ _ _ _ _ _ _ _ _) as [r'|] eqn:E in Q; [|discriminate]. injection Q as ->.
    destruct (loop_success _ _ _ _ _ _ _ _ _ _ _ _ _ E) as (x & y & A & B & C & D & I); [discriminate|reflexivity|].
    unfold last_two in A. destruct (rev (r_layers r)) as [|b [|a l]] eqn:R; try discriminate.
    assert (EL : r_layers r = rev (a :: l) ++ [b]) by (rewrite <- (rev_involutive (r_layers r)), R; reflexivity).
    rewrite EL, last_last in D, I.
    exists x, y, b. unfold last_two. rewrite R. split; [exact A|]. split; [exact B|]. split; [rewrite EL; apply in_or_app; right; left; reflexivity|].
    split; [injection A; auto|]. split; [exact D|]. split; [exact I|]. rewrite C. unfold is_converged. destruct (xlt _ (cv x y)), (xlt _ (cs x y)); cbn; intuition discriminate. }
  unfold parquet_solver in H. destruct (negb nd && _); [discriminate|]. destruct ov; [apply (G _ H)|].
  destruct (_ || _); [destruct (read _); discriminate|]. destruct (0 <=? _)%Z; [destruct (read _); [|discriminate]|]; apply (G _ H).
Qed.
Print Assumptions C52_result.
(** success means that the changes are not above the accuracy, as long as they are numbers *)
Theorem C52_success_partial : forall S next cv cs acc Nmax nd ov ul file read mix fuel s r,
  parquet_solver S next cv cs acc Nmax nd ov ul file read mix fuel s = Ran r -> r_converged r = true ->
  exists x, last_two (r_layers r) = Some (x, r_state r) /\ (cv x (r_state r) = NaN \/ at_most (cv x (r_state r)) acc) /\ (cs x (r_state r) = NaN \/ at_most (cs x (r_state r)) acc).
Proof.
  intros S next cv cs acc Nmax nd ov ul file read mix fuel s r H C. destruct (C52_result _ _ _ _ _ _ _ _ _ _ _ _ _ _ _ H) as (x & y & l & A & -> & _ & _ & _ & _ & B).
  destruct (proj1 B C) as (P & Q). exists x. split; [exact A|]. split.
  - destruct (cv x (r_state r)) as [| |q]; [left; reflexivity|discriminate|right; cbn; apply Qltb_false; exact P].
  - destruct (cs x (r_state r)) as [| |q]; [left; reflexivity|discriminate|right; cbn; apply Qltb_false; exact Q].
Qed.
Print Assumptions C52_success_partial.
(** changes that are not numbers (for instance 0/0, or a state that is not a number) count as converged at once *)
Theorem C52_nan_refuted : forall S next cs acc Nmax nd ul file read mix fuel s, allowed_mixing mix -> (forall x y, xlt (Fin acc) (cs x y) = false) ->
  exists r, parquet_solver S next (fun _ _ => NaN) cs acc Nmax nd true ul file read mix (Datatypes.S fuel) s = Ran r /\ r_converged r = true /\ r_iterations r = 1%Z.
Proof.
  intros S next cs acc Nmax nd ul file read mix fuel s M H. unfold parquet_solver.
  replace (Qle_bool mixing_minimum mix && Qle_bool mix (1 # 2) || Qeq_bool mix 1)%bool with true.
  2:{ symmetry. apply Bool.orb_true_iff. destruct M as [(A & B)|M]; [left; apply andb_true_intro; split; apply Qle_bool_iff; assumption|right; apply Qeq_bool_iff; exact M]. }
  rewrite Bool.andb_false_r. unfold iterate. cbn [loop]. set (h := push_history [] _). clearbody h. cbv zeta. unfold is_converged at 1. rewrite H. cbn [xlt orb negb andb].
  eexists. split; [reflexivity|]. cbn. split; [|reflexivity]. unfold is_converged. rewrite H. reflexivity.
Qed.
Print Assumptions C52_nan_refuted.

(** ** C94: results of earlier runs *)
Theorem C94_converged_refuted : forall S next cv cs acc Nmax nd ul i read mix fuel s s', allowed_mixing mix -> read i = Some s' ->
  parquet_solver S next cv cs acc Nmax nd false ul (Some (true, i)) read mix fuel s = Loaded false s'.
Proof.
  intros S next cv cs acc Nmax nd ul i read mix fuel s s' M H. unfold parquet_solver.
  replace (Qle_bool mixing_minimum mix && Qle_bool mix (1 # 2) || Qeq_bool mix 1)%bool with true.
  2:{ symmetry. apply Bool.orb_true_iff. destruct M as [(A & B)|M]; [left; apply andb_true_intro; split; apply Qle_bool_iff; assumption|right; apply Qeq_bool_iff; exact M]. }
  rewrite Bool.andb_false_r. cbn [orb]. rewrite H. reflexivity.
Qed.
Print Assumptions C94_converged_refuted.
(** without a file, asking for the last state reads layer -1 instead of starting the iteration *)
Theorem C94_no_file_refuted : forall S next cv cs acc Nmax nd read mix fuel s, allowed_mixing mix ->
  parquet_solver S next cv cs acc Nmax nd false true None read mix fuel s = match read (-1)%Z with Some s' => Loaded false s' | None => NotReadable end.
Proof.
  intros S next cv cs acc Nmax nd read mix fuel s M. unfold parquet_solver.
  replace (Qle_bool mixing_minimum mix && Qle_bool mix (1 # 2) || Qeq_bool mix 1)%bool with true.
  2:{ symmetry. apply Bool.orb_true_iff. destruct M as [(A & B)|M]; [left; apply andb_true_intro; split; apply Qle_bool_iff; assumption|right; apply Qeq_bool_iff; exact M]. }
  rewrite Bool.andb_false_r. reflexivity.
Qed.
Print Assumptions C94_no_file_refuted.
(** an unconverged run is resumed from its last layer, and a last layer with index 0 is resumed even if any last state was asked for *)
Theorem C94_resumed_partial : forall S next cv cs acc Nmax nd ul i read mix fuel s s', allowed_mixing mix -> (0 <= i)%Z -> read i = Some s' -> ul = false \/ i = 0%Z ->
  parquet_solver S next cv cs acc Nmax nd false ul (Some (false, i)) read mix fuel s = parquet_solver S next cv cs acc Nmax nd true ul (Some (false, i)) read mix fuel s'.
Proof.
  intros S next cv cs acc Nmax nd ul i read mix fuel s s' M Hi H U. unfold parquet_solver.
  replace (Qle_bool mixing_minimum mix && Qle_bool mix (1 # 2) || Qeq_bool mix 1)%bool with true.
  2:{ symmetry. apply Bool.orb_true_iff. destruct M as [(A & B)|M]; [left; apply andb_true_intro; split; apply Qle_bool_iff; assumption|right; apply Qeq_bool_iff; exact M]. }
  rewrite Bool.andb_false_r. cbn [orb]. replace (ul && negb (i =? 0)%Z)%bool with false by (destruct U as [U|U]; rewrite U; [reflexivity|destruct ul; reflexivity]).
  replace (0 <=? i)%Z with true by (symmetry; apply Z.leb_le; exact Hi). rewrite H. reflexivity.
Qed.
Print Assumptions C94_resumed_partial.
(** the last state is returned without further iterations if that is asked for and its index is not 0 *)
Theorem C94_last_state_partial : forall S next cv cs acc Nmax nd c i read mix fuel s s', allowed_mixing mix -> (0 < i)%Z -> read i = Some s' ->
  exists b, parquet_solver S next cv cs acc Nmax nd false true (Some (c, i)) read mix fuel s = Loaded b s'.
Proof.
  intros S next cv cs acc Nmax nd c i read mix fuel s s' M Hi H. unfold parquet_solver.
  replace (Qle_bool mixing_minimum mix && Qle_bool mix (1 # 2) || Qeq_bool mix 1)%bool with true.
  2:{ symmetry. apply Bool.orb_true_iff. destruct M as [(A & B)|M]; [left; apply andb_true_intro; split; apply Qle_bool_iff; assumption|right; apply Qeq_bool_iff; exact M]. }
  rewrite Bool.andb_false_r. replace (i =? 0)%Z with false by (symmetry; apply Z.eqb_neq; lia). cbn [negb andb]. rewrite Bool.orb_true_r, H. eexists. reflexivity.
Qed.
Print Assumptions C94_last_state_partial.

(** ** non-trivial cases: halving a number *)
Definition halve (_ : Z) (m x : Q) : Q := Qred (x - m * x * (1 # 2)).
Definition rel (x y : Q) : xnum := if Qeq_bool y 0 then NaN else Fin (Qred (x - y)).
Definition demo := parquet_solver Q halve rel rel (1 # 100) 50 false true false None (fun _ => None) 1 50 1.
Example demo_run : exists r, demo = Ran r /\ r_converged r = true /\ r_iterations r = 7%Z /\ r_state r = 1 # 128.
Proof. unfold demo. vm_compute. eexists. repeat split. Qed.
Example C52_iterations_hyp : exists r, demo = Ran r. Proof. vm_compute. eexists. reflexivity. Qed.
Example C52_terminates_hyp : (Z.max 1 50 <= Z.of_nat 50)%Z /\ parquet_solver Q halve rel rel (1 # 100) 50 false true false None (fun _ => None) 1 3 1 = Endless.
Proof. vm_compute. split; [discriminate|reflexivity]. Qed.
(** a diverging iteration: the mixing factor is reduced *)
Definition grow (_ : Z) (m x : Q) : Q := Qred (x + m * x).
Example C52_mixing_hyp : exists r, parquet_solver Q grow rel (fun y x => rel x y) (1 # 100) 12 false true false None (fun _ => None) 1 50 1 = Ran r /\ r_converged r = false /\
  r_iterations r = 12%Z /\ r_mixing r == 36 # 100.
Proof. vm_compute. eexists. repeat split. Qed.
Example C52_rule_hyp : exists r, parquet_solver Q grow rel (fun y x => rel x y) (1 # 100) 12 false true false None (fun _ => None) 1 50 1 = Ran r /\
  length (r_layers r) = 13%nat /\ reduced (l_mixing (nth 4 (r_layers r) (Layer 0 0 0 false))) (l_mixing (nth 5 (r_layers r) (Layer 0 0 0 false))).
Proof. vm_compute. eexists. repeat split. Qed.
Example C52_result_hyp : exists r, demo = Ran r /\ last_two (r_layers r) = Some (1 # 64, 1 # 128). Proof. vm_compute. eexists. split; reflexivity. Qed.
Example C52_success_partial_hyp : exists r, demo = Ran r /\ r_converged r = true /\ at_most (rel (1 # 64) (1 # 128)) (1 # 100).
Proof. vm_compute. eexists. repeat split. discriminate. Qed.
Example C52_nan_refuted_hyp : allowed_mixing 1 /\ (forall x y : Q, xlt (Fin (1 # 100)) ((fun _ _ => NaN) x y) = false). Proof. split; [right; reflexivity|reflexivity]. Qed.
Example C94_converged_refuted_hyp : allowed_mixing (1 # 2) /\ (fun _ => Some 7) 3%Z = Some (7 : Q). Proof. split; [left; split; vm_compute; discriminate|reflexivity]. Qed.
Example C94_no_file_refuted_hyp : allowed_mixing 1. Proof. right. reflexivity. Qed.
Example C94_resumed_partial_hyp : allowed_mixing 1 /\ (0 <= 0)%Z /\ exists r, parquet_solver Q halve rel rel (1 # 100) 50 false false true (Some (false, 0%Z)) (fun _ => Some (1 # 8)) 1 50 1 = Ran r /\ r_iterations r = 4%Z.
Proof. split; [right; reflexivity|]. split; [lia|]. vm_compute. eexists. split; reflexivity. Qed.
Example C94_last_state_partial_hyp : allowed_mixing 1 /\ (0 < 3)%Z /\ parquet_solver Q halve rel rel (1 # 100) 50 false false true (Some (false, 3%Z)) (fun _ => Some (1 # 8)) 1 50 1 = Loaded false (1 # 8).
Proof. split; [right; reflexivity|]. split; [lia|]. reflexivity. Qed.
