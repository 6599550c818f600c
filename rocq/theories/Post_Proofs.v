From Coq Require Import QArith.
From Verif Require Import Prelude Cplx Post_Model Post_Spec.
Open Scope Z_scope.

Lemma zrange_in n i : In i (zrange n) <-> 0 <= i < n.
Proof.
  unfold zrange. rewrite in_map_iff. split.
  - intros [k [<- H]]. apply in_seq in H. lia.
  - intros H. exists (Z.to_nat i). split; [lia|]. apply in_seq. lia.
Qed.
Lemma zrange_nodup n : NoDup (zrange n).
Proof.
  unfold zrange. generalize (seq_NoDup (Z.to_nat n) 0). generalize (seq 0 (Z.to_nat n)). induction l; cbn; intros H; constructor; inversion H; subst; auto.
  rewrite in_map_iff. intros [k [E I]]. apply Nat2Z.inj in E. subst. auto.
Qed.
Lemma zrange_succ n : 0 <= n -> zrange (n + 1) = zrange n ++ [n].
Proof.
  intros H. unfold zrange. replace (Z.to_nat (n + 1)) with (Z.to_nat n + 1)%nat by lia. rewrite seq_app, map_app. cbn. do 2 f_equal. lia.
Qed.

Section G.
  Variable S : Type.
  Variable st : Z -> S.
  Lemma read_states_ok (d : option (rfile S)) l : (forall i, In i l -> read_state S d i = Some (st i)) -> read_states S d l = Some (map (fun i => (i, st i)) l).
  Proof.
    unfold read_states. induction l; cbn; intros H; auto. rewrite H by auto. cbn. rewrite IHl by auto. cbn. auto.
  Qed.
  Lemma read_states_fail (d : option (rfile S)) l i : In i l -> read_state S d i = None -> read_states S d l = None.
  Proof.
    unfold read_states. induction l; cbn; intros H E; [tauto|]. destruct H as [->|H].
    - rewrite E. auto.
    - rewrite (IHl H E). destruct (read_state S d a); auto.
  Qed.
  Lemma each_map {V} (f : S -> V) n : one_for_each f st n (map (fun '(i, s) => (i, f s)) (map (fun i => (i, st i)) (zrange n))).
  Proof.
    rewrite map_map. split.
    - intros i x. rewrite in_map_iff. split.
      + intros [k [E H]]. inversion E; subst. apply zrange_in in H. auto.
      + intros [H ->]. exists i. split; auto. apply zrange_in; auto.
    - rewrite map_map. cbn. rewrite map_id. apply zrange_nodup.
  Qed.
End G.

Lemma oupd_spec {V} (l : list V) i x : (i < length l)%nat -> exists l', oupd l i x = Some l' /\ length l' = length l /\
  forall k, nth_error l' k = if Nat.eqb k i then Some x else nth_error l k.
Proof.
  revert i. induction l as [|a l IH]; cbn; intros i H; [lia|]. destruct i as [|i]; cbn.
  - eexists. split; [reflexivity|]. split; [reflexivity|]. intros [|k]; reflexivity.
  - destruct (IH i ltac:(lia)) as [l' [E [L N]]]. rewrite E. cbn. eexists. split; [reflexivity|]. split; [cbn; lia|]. intros [|k]; cbn; auto.
Qed.

(** writes inside of the vector *)
Lemma store_spec {V} (w : list (Z * V)) : forall a, (forall i x, In (i, x) w -> 0 <= i < Z.of_nat (length a)) ->
  exists a', store a w = Some a' /\ length a' = length a /\
    (forall i, 0 <= i -> (forall x, ~ In (i, x) w) -> nth_error a' (Z.to_nat i) = nth_error a (Z.to_nat i)) /\
    (forall i x, In (i, x) w -> (forall y, In (i, y) w -> y = x) -> entry a' i x).
Proof.
  induction w as [|[i x] w IH]; intros a H.
  - exists a. cbn. repeat split; auto; intros; tauto.
  - assert (Hi := H i x (or_introl eq_refl)).
    destruct (oupd_spec a (Z.to_nat i) x) as [b [E [L E2]]]; [lia|].
    destruct (IH b) as [c [E' [L' [P1 P2]]]].
    { intros j y Hj. rewrite L. apply (H j y). now right. }
    exists c. cbn [store]. destruct (Z.ltb_spec i 0); [lia|]. rewrite E. cbn [obind]. split; [exact E'|]. split; [lia|]. split.
    + intros j J Hj. rewrite P1; auto.
      2: { intros y Hy. apply (Hj y). now right. }
      rewrite E2. destruct (Nat.eqb_spec (Z.to_nat j) (Z.to_nat i)); auto.
      exfalso. apply (Hj x). left. f_equal. lia.
    + intros j y Hj U. destruct (in_dec Z.eq_dec j (map fst w)) as [I|I].
      * apply in_map_iff in I. destruct I as [[j' z] [Ej I]]. cbn in Ej. subst j'.
        assert (z = y) by (apply U; now right). subst z. apply P2; auto. intros z Hz. apply U. now right.
      * destruct Hj as [Hj|Hj].
        2: { exfalso. apply I. apply in_map_iff. exists (j, y). auto. }
        inversion Hj; subst. split; [lia|]. rewrite P1; [|lia|].
        -- rewrite E2, Nat.eqb_refl. auto.
        -- intros z Hz. apply I. apply in_map_iff. exists (j, z). auto.
Qed.
Lemma zeros_nth {V} (z : V) n i : 0 <= i < n -> nth_error (zeros z n) (Z.to_nat i) = Some z.
Proof.
  intros H. unfold zeros. assert (L : (Z.to_nat i < Z.to_nat n)%nat) by lia. revert L. generalize (Z.to_nat i) (Z.to_nat n). intros a b. revert a.
  induction b; intros a L; [lia|]. destruct a; cbn; auto. apply IHb. lia.
Qed.
Lemma zeros_len {V} (z : V) n : 0 <= n -> Z.of_nat (length (zeros z n)) = n.
Proof. intros. unfold zeros. rewrite repeat_length. lia. Qed.

(** a file all of whose layers up to the last one written can be read *)
Definition complete {S} (f : rfile S) (st : Z -> S) : Prop :=
  0 <= last_it f < nlambda f /\ nlambda f < 2 ^ 31 /\ forall i, layer f i = if (0 <=? i) && (i <=? last_it f) then Some (st i) else None.

Section T.
  Variable S : Type.
  Variable st : Z -> S.
  Variable f : rfile S.
  Hypothesis C : complete f st.
  Let m := last_it f.

  Lemma m_range : 0 <= m /\ m < 2 ^ 31.
  Proof. unfold m. destruct C as [A [B _]]. lia. Qed.
  Lemma read_below n : n <= m + 1 -> read_states S (Some f) (zrange n) = Some (map (fun i => (i, st i)) (zrange n)).
  Proof.
    intros H. apply read_states_ok. intros i Hi. apply zrange_in in Hi. cbn. destruct C as [_ [_ L]]. rewrite L. fold m.
    replace ((0 <=? i) && (i <=? m)) with true; auto. symmetry. apply andb_true_iff. rewrite !Z.leb_le. lia.
  Qed.
  Lemma unsigned_below : below_unsigned m = zrange m.
  Proof. unfold below_unsigned. f_equal. pose proof m_range. apply Z.mod_small. lia. Qed.

  Lemma fdt_ok {V} (cmp : S -> V) : exists w, compare_flow_with_FDTs S cmp (Some f) = Some w /\ one_for_each cmp st m w.
  Proof.
    eexists. unfold compare_flow_with_FDTs. cbn [read_lambdas last_layer obind]. fold m. rewrite unsigned_below, read_below by lia. cbn [obind].
    split; [reflexivity|]. apply each_map.
  Qed.
  Lemma save_ok {V} (x : Z -> V) : forall n w k, 0 < k -> save_layers (k + Z.of_nat n) (Some (k + Z.of_nat n, w)) (map (fun i => (k + Z.of_nat i, x (k + Z.of_nat i))) (seq 0 n))
     = (Some (k + Z.of_nat n, w ++ map (fun i => (k + Z.of_nat i, x (k + Z.of_nat i))) (seq 0 n)), true).
  Proof.
    assert (K : forall (l : list nat) room w k, 0 < k -> (forall i, In i l -> k + Z.of_nat i < room) ->
       save_layers room (Some (room, w)) (map (fun i => (k + Z.of_nat i, x (k + Z.of_nat i))) l) = (Some (room, w ++ map (fun i => (k + Z.of_nat i, x (k + Z.of_nat i))) l), true)).
    { induction l as [|a l IH]; intros room w k K H; cbn.
      - rewrite app_nil_r. auto.
      - assert (Ha := H a (or_introl eq_refl)). destruct (Z.leb_spec room (k + Z.of_nat a)); [lia|]. destruct (Z.ltb_spec 0 (k + Z.of_nat a)); [|lia].
        rewrite IH; auto. 2: intros; apply H; now right. rewrite <- app_assoc. reflexivity. }
    intros n w k H. apply K; auto. intros i Hi. apply in_seq in Hi. lia.
  Qed.
  Lemma susc_ok {V} (chi : S -> V) : exists w, susceptibilities S chi (Some f) = Some (Some (m + 1, w), true) /\ one_for_each chi st (m + 1) w.
  Proof.
    unfold susceptibilities, upto. cbn [last_layer obind]. fold m. rewrite read_below by lia. cbn [obind]. pose proof m_range.
    exists (map (fun '(i, s) => (i, chi s)) (map (fun i => (i, st i)) (zrange (m + 1)))). split; [|apply each_map].
    f_equal. rewrite map_map. unfold zrange. replace (Z.to_nat (m + 1)) with (Datatypes.S (Z.to_nat m)) by lia. cbn [seq map]. rewrite <- seq_shift, !map_map.
    cbn [save_layers]. destruct (Z.leb_spec (m + 1) (Z.of_nat 0)); [lia|]. destruct (Z.ltb_spec 0 (Z.of_nat 0)); [lia|].
    replace (m + 1) with (1 + Z.of_nat (Z.to_nat m)) by lia.
    rewrite (map_ext _ (fun i => (1 + Z.of_nat i, chi (st (1 + Z.of_nat i))))) by (intros i; replace (Z.of_nat (Datatypes.S i)) with (1 + Z.of_nat i) by lia; reflexivity).
    rewrite (save_ok (fun i => chi (st i))) by lia. reflexivity.
  Qed.
  Lemma rule_ok {V} (z : V) (rule : S -> V) : exists l, sum_rule_K1tK S z rule (Some f) = Some l /\ Z.of_nat (length l) = m /\ forall i, 0 <= i < m -> entry l i (rule (st i)).
  Proof.
    unfold sum_rule_K1tK, below. cbn [read_lambdas last_layer obind]. fold m. pose proof m_range. destruct (Z.ltb_spec m 0); [lia|].
    rewrite read_below by lia. cbn [obind]. destruct (each_map S st rule m) as [A B]. remember (map _ (map _ (zrange m))) as w eqn:Ew. clear Ew.
    destruct (store_spec w (zeros z m)) as [a [E [L [P1 P2]]]].
    { intros i x Hx. apply A in Hx. rewrite zeros_len; lia. }
    exists a. split; auto. split; [rewrite L; apply zeros_len; lia|]. intros i Hi. apply P2.
    - apply A. auto.
    - intros y Hy. apply A in Hy. tauto.
  Qed.
  Lemma kk_ok : nlambda f <> 50 -> nlambda f <> 100 -> exists w, check_Kramers_Kronig S (Some f) = Some w /\ one_for_each (fun s => s) st m w.
  Proof.
    intros A B. unfold check_Kramers_Kronig, kk_layers, below. cbn [read_lambdas last_layer obind]. fold m.
    destruct (Z.eqb_spec (nlambda f) 50); [tauto|]. destruct (Z.eqb_spec (nlambda f) 100); [tauto|]. cbn [negb andb]. pose proof m_range.
    destruct (Z.ltb_spec m 0); [lia|]. rewrite read_below by lia. eexists. split; [reflexivity|].
    pose proof (each_map S st (fun s => s) m) as E. rewrite map_map in E. exact E.
  Qed.
  Lemma kk_bad : nlambda f = 50 \/ nlambda f = 100 -> check_Kramers_Kronig S (Some f) = None.
  Proof.
    intros A. destruct C as [R [_ L]]. unfold check_Kramers_Kronig, kk_layers. cbn [read_lambdas last_layer obind].
    destruct A as [A|A]; rewrite A; cbn [Z.eqb Pos.eqb negb andb].
    - apply (read_states_fail S st (Some f) _ 51); [cbn; tauto|]. cbn. rewrite L. destruct (Z.leb_spec 51 (last_it f)); [lia|]. reflexivity.
    - apply (read_states_fail S st (Some f) _ 115); [cbn; tauto|]. cbn. rewrite L. destruct (Z.leb_spec 115 (last_it f)); [lia|]. reflexivity.
  Qed.
End T.
