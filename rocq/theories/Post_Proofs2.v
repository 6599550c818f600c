From Coq Require Import QArith Lqa.
From Verif Require Import Prelude Cplx Post_Model Post_Spec Post_Proofs.
Open Scope Z_scope.

Lemma digits a b a' b' n : 0 <= b < n -> 0 <= b' < n -> a * n + b = a' * n + b' -> a = a' /\ b = b'.
Proof. intros H H' E. assert (a = a') by nia. subst. split; lia. Qed.

Section P.
  Variable S : Type.
  Variable st : Z -> S.
  Variable f : rfile S.
  Hypothesis C : complete f st.
  Let m := last_it f.
  Variable V : Type.
  Variables (zero : V) (nFER n_in : Z).
  Hypotheses (HF : 0 < nFER) (HN : 0 < n_in).

  Lemma points_in iv j : In (iv, j) (points nFER n_in) <-> 0 <= iv < nFER /\ 0 <= j < n_in.
  Proof.
    unfold points, below. rewrite in_flat_map. split.
    - intros [x [A B]]. apply in_map_iff in B. destruct B as [y [E B]]. inversion E; subst. apply zrange_in in A, B. auto.
    - intros [A B]. exists j. split; [apply zrange_in; auto|]. apply in_map_iff. exists iv. split; auto. apply zrange_in; auto.
  Qed.
  Lemma writes_in index (value : S -> Z -> Z -> V) n k x :
    In (k, x) (writes S V nFER n_in index value (map (fun i => (i, st i)) (zrange n))) <->
    exists i iv j, 0 <= i < n /\ 0 <= iv < nFER /\ 0 <= j < n_in /\ k = index i iv j /\ x = value (st i) iv j.
  Proof.
    unfold writes. rewrite in_flat_map. split.
    - intros [[i s] [A B]]. apply in_map_iff in A. destruct A as [i' [E A]]. inversion E; subst. apply zrange_in in A.
      apply in_map_iff in B. destruct B as [[iv j] [E' B]]. inversion E'; subst. apply points_in in B. exists i, iv, j. tauto.
    - intros [i [iv [j [A [B [D [-> ->]]]]]]]. exists (i, st i). split.
      + apply in_map_iff. exists i. split; auto. apply zrange_in; auto.
      + apply in_map_iff. exists (iv, j). split; auto. apply points_in; auto.
  Qed.
  Lemma index_inj i iv j i' iv' j' : 0 <= iv < nFER -> 0 <= iv' < nFER -> 0 <= j < n_in -> 0 <= j' < n_in ->
    index_phi nFER n_in i iv j = index_phi nFER n_in i' iv' j' -> i = i' /\ iv = iv' /\ j = j'.
  Proof.
    unfold index_phi. intros A B D E H.
    destruct (digits (i * nFER + iv) j (i' * nFER + iv') j' n_in) as [P Q]; auto; [lia|]. subst.
    destruct (digits i iv i' iv' nFER) as [P' Q']; auto.
  Qed.
  Lemma phi_store (value : S -> Z -> Z -> V) :
    exists a, store (zeros zero (nlambda f * nFER * n_in)) (writes S V nFER n_in (index_phi nFER n_in) value (map (fun i => (i, st i)) (zrange m))) = Some a /\
      Z.of_nat (length a) = nlambda f * nFER * n_in /\
      forall i iv j, 0 <= i < nlambda f -> 0 <= iv < nFER -> 0 <= j < n_in ->
        entry a (i * nFER * n_in + iv * n_in + j) (if i <? m then value (st i) iv j else zero).
  Proof.
    destruct C as [R [R2 _]]. fold m in R.
    assert (B : forall i iv j, 0 <= i < nlambda f -> 0 <= iv < nFER -> 0 <= j < n_in -> 0 <= index_phi nFER n_in i iv j < nlambda f * nFER * n_in).
    { intros i iv j A B D. unfold index_phi. split; [nia|].
      assert (i * nFER + iv + 1 <= nlambda f * nFER) by nia. nia. }
    destruct (store_spec (writes S V nFER n_in (index_phi nFER n_in) value (map (fun i => (i, st i)) (zrange m))) (zeros zero (nlambda f * nFER * n_in)))
      as [a [E [L [P1 P2]]]].
    { intros k x Hk. apply writes_in in Hk. destruct Hk as [i [iv [j [A1 [A2 [A3 [-> ->]]]]]]]. rewrite zeros_len by (repeat apply Z.mul_nonneg_nonneg; lia). apply B; auto; lia. }
    exists a. split; auto. split; [rewrite L; apply zeros_len; repeat apply Z.mul_nonneg_nonneg; lia|].
    intros i iv j A1 A2 A3. destruct (Z.ltb_spec i m).
    - apply P2.
      + apply writes_in. exists i, iv, j. unfold index_phi. repeat split; auto; lia.
      + intros y Hy. apply writes_in in Hy. destruct Hy as [i' [iv' [j' [B1 [B2 [B3 [E1 ->]]]]]]].
        apply index_inj in E1; auto. destruct E1 as [<- [<- <-]]. auto.
    - assert (Bk := B i iv j A1 A2 A3). unfold index_phi in Bk. split; [lia|]. rewrite P1; [apply zeros_nth; lia|lia|].
      intros x Hx. apply writes_in in Hx. destruct Hx as [i' [iv' [j' [B1 [B2 [B3 [E1 _]]]]]]].
      apply index_inj in E1; auto. lia.
  Qed.
  Variables (freq sigma phi : S -> Z -> Z -> V).
  (** the index of the frequencies and of the self-energy stays inside of the vector *)
  Lemma v_store (value : S -> Z -> Z -> V) :
    exists a, store (zeros zero (nlambda f * nFER * n_in)) (writes S V nFER n_in (index_v nFER n_in) value (map (fun i => (i, st i)) (zrange m))) = Some a.
  Proof.
    destruct C as [R [R2 _]]. fold m in R.
    destruct (store_spec (writes S V nFER n_in (index_v nFER n_in) value (map (fun i => (i, st i)) (zrange m))) (zeros zero (nlambda f * nFER * n_in)))
      as [a [E _]]; eauto.
    intros k x Hk. apply writes_in in Hk. destruct Hk as [i [iv [j [A1 [A2 [A3 [-> ->]]]]]]]. rewrite zeros_len by (repeat apply Z.mul_nonneg_nonneg; lia). unfold index_v.
    split; [nia|]. assert (i * nFER + iv + 1 <= nlambda f * nFER) by nia. nia.
  Qed.
  Lemma phi_ok : exists v s p, compute_Phi_tilde S V zero nFER n_in freq sigma phi (Some f) = Some (v, s, p) /\
      Z.of_nat (length p) = nlambda f * nFER * n_in /\
      forall i iv j, 0 <= i < nlambda f -> 0 <= iv < nFER -> 0 <= j < n_in ->
        entry p (i * nFER * n_in + iv * n_in + j) (if i <? m then phi (st i) iv j else zero) /\
        (n_in = 1 -> entry v (i * nFER * n_in + iv * n_in + j) (if i <? m then freq (st i) iv j else zero) /\
                     entry s (i * nFER * n_in + iv * n_in + j) (if i <? m then sigma (st i) iv j else zero)).
  Proof.
    unfold compute_Phi_tilde. cbn [read_lambdas last_layer obind]. rewrite (unsigned_below S st f C), (read_below S st f C) by lia. cbn [obind]. fold m.
    destruct (v_store freq) as [v Ev]. destruct (v_store sigma) as [s Es]. destruct (phi_store phi) as [p [Ep [Lp Hp]]].
    rewrite Ev, Es, Ep. cbn [obind]. exists v, s, p. split; [reflexivity|]. split; auto. intros i iv j A1 A2 A3. split; [auto|]. intros E1.
    assert (X : forall value, writes S V nFER n_in (index_v nFER n_in) value (map (fun i => (i, st i)) (zrange m)) =
                writes S V nFER n_in (index_phi nFER n_in) value (map (fun i => (i, st i)) (zrange m))).
    { intros value. unfold writes. apply flat_map_ext. intros [i' s']. apply map_ext. intros [iv' j']. unfold index_v, index_phi. f_equal. rewrite E1. lia. }
    rewrite X in Ev, Es. destruct (phi_store freq) as [v' [Ev' [_ Hv]]]. destruct (phi_store sigma) as [s' [Es' [_ Hs]]].
    rewrite Ev in Ev'. rewrite Es in Es'. inversion Ev'; inversion Es'; subst. auto.
  Qed.

  Variables (npts : S -> Z) (value : S -> Z -> Z -> Z -> V).
  Let n := npts (st 0).
  Hypothesis Hn : 0 < n.
  Definition sl_index (i iv ivp iK : Z) : Z := ((i * n + iv) * n + ivp) * 16 + iK.
  Lemma sl_inj i iv ivp iK i' iv' ivp' iK' : 0 <= iv < n -> 0 <= iv' < n -> 0 <= ivp < n -> 0 <= ivp' < n -> 0 <= iK < 16 -> 0 <= iK' < 16 ->
    sl_index i iv ivp iK = sl_index i' iv' ivp' iK' -> i = i' /\ iv = iv' /\ ivp = ivp' /\ iK = iK'.
  Proof.
    unfold sl_index. intros A1 A2 A3 A4 A5 A6 H. apply digits in H; auto. destruct H as [H ->]. apply digits in H; auto. destruct H as [H ->].
    apply digits in H; auto. tauto.
  Qed.
  Lemma sl_bound i iv ivp iK : 0 <= i <= m -> 0 <= iv < n -> 0 <= ivp < n -> 0 <= iK < 16 -> 0 <= sl_index i iv ivp iK < (m + 1) * n * n * 16.
  Proof.
    intros A1 A2 A3 A5. unfold sl_index.
    assert (0 <= i * n + iv) by nia. assert (i * n + iv + 1 <= (m + 1) * n) by nia.
    assert (0 <= (i * n + iv) * n + ivp) by nia. assert ((i * n + iv) * n + ivp + 1 <= (m + 1) * n * n) by nia. lia.
  Qed.
  Lemma slices_ok : exists a, slices S zero npts value (Some f) = Some a /\
    forall i iv ivp iK, 0 <= i <= m -> 0 <= iv < n -> 0 <= ivp < n -> 0 <= iK < 16 ->
      entry a (((i * n + iv) * n + ivp) * 16 + iK) (if iK <? 15 then value (st i) iv ivp iK else zero).
  Proof.
    unfold slices, upto. cbn [read_state last_layer obind]. destruct C as [R [R2 L0]]. fold m in R.
    assert (E0 : layer f 0 = Some (st 0)). { rewrite L0. fold m. destruct (Z.leb_spec 0 m); [reflexivity|lia]. }
    rewrite E0. cbn [obind]. fold n m. rewrite (read_below S st f C) by (fold m; lia). cbn [obind].
    match goal with |- context [store _ ?W] => set (w := W) end.
    assert (I : forall k x, In (k, x) w <-> exists i iv ivp iK, 0 <= i <= m /\ 0 <= iv < n /\ 0 <= ivp < n /\ 0 <= iK < 15 /\ k = sl_index i iv ivp iK /\ x = value (st i) iv ivp iK).
    { intros k x. unfold w. rewrite in_flat_map. split.
      - intros [[i s] [A B]]. apply in_map_iff in A. destruct A as [i' [E A]]. inversion E; subst. apply zrange_in in A.
        apply in_flat_map in B. destruct B as [iv [B1 B]]. apply in_flat_map in B. destruct B as [ivp [B2 B]]. apply in_map_iff in B. destruct B as [iK [B3 B]].
        apply zrange_in in B, B1, B2. inversion B3; subst. exists i, iv, ivp, iK. unfold sl_index. repeat split; auto; lia.
      - intros [i [iv [ivp [iK [A1 [A2 [A3 [A4 [-> ->]]]]]]]]]. exists (i, st i). split.
        { apply in_map_iff. exists i. split; auto. apply zrange_in. lia. }
        apply in_flat_map. exists iv. split; [apply zrange_in; auto|]. apply in_flat_map. exists ivp. split; [apply zrange_in; auto|].
        apply in_map_iff. exists iK. split; [reflexivity|apply zrange_in; auto]. }
    destruct (store_spec w (zeros zero ((m + 1) * n * n * 16))) as [a [E [L [P1 P2]]]].
    { intros k x Hk. apply I in Hk. destruct Hk as [i [iv [ivp [iK [A1 [A2 [A3 [A4 [-> ->]]]]]]]]]. rewrite zeros_len by (repeat apply Z.mul_nonneg_nonneg; lia). apply sl_bound; auto; lia. }
    exists a. split; auto. intros i iv ivp iK A1 A2 A3 A4. fold (sl_index i iv ivp iK). assert (Bk := sl_bound i iv ivp iK A1 A2 A3 A4).
    destruct (Z.ltb_spec iK 15).
    - apply P2.
      + apply I. exists i, iv, ivp, iK. repeat split; auto; lia.
      + intros y Hy. apply I in Hy. destruct Hy as [i' [iv' [ivp' [iK' [B1 [B2 [B3 [B4 [E1 ->]]]]]]]]]. apply sl_inj in E1; auto; try lia.
        destruct E1 as [<- [<- [<- <-]]]. auto.
    - split; [lia|]. rewrite P1; [apply zeros_nth; lia|lia|].
      intros y Hy. apply I in Hy. destruct Hy as [i' [iv' [ivp' [iK' [B1 [B2 [B3 [B4 [E1 ->]]]]]]]]]. apply sl_inj in E1; auto; lia.
  Qed.
End P.

(** *** Ward identity *)
Section W.
  Open Scope Q_scope.
  Variables (w_upper : Q) (grid_index : Q -> Z) (frequency : Z -> Q) (Sigma : Q -> cplx).
  Lemma ward_value Phi v : ward_integrand w_upper grid_index frequency Sigma Phi v ==
    if Qltb (if Qltb v 0 then - v else v) w_upper then 2 * im (Sigma v) else 0.
  Proof.
    unfold ward_integrand. destruct (Qltb _ w_upper); [|reflexivity]. cbv zeta. unfold Cadd, Cofq, Cscale. cbn [im]. ring.
  Qed.
End W.
