(** Lemmas for C25: distribution, collection and reordering. *)
From Coq Require Import Permutation.
From Verif Require Import Prelude Idx_Model Idx_Spec Idx_Proofs Mpi_Model.
Open Scope nat_scope.

Section Lists.
Context {X : Type}.

Lemma flat_map_length_const : forall (f : nat -> list X) B l, (forall i, length (f i) = B) -> length (flat_map f l) = length l * B.
Proof. intros f B l H. induction l as [|a l IH]; cbn; [reflexivity|]. rewrite app_length, H, IH. reflexivity. Qed.
Lemma flat_map_length_in : forall (f : nat -> list X) B l, (forall i, In i l -> length (f i) = B) -> length (flat_map f l) = length l * B.
Proof.
  intros f B l H. induction l as [|a l IH]; cbn; [reflexivity|].
  rewrite app_length, H by (left; reflexivity). rewrite IH; [reflexivity|]. intros i Hi. apply H. right. exact Hi.
Qed.
Lemma flat_map_ext_in : forall (f g : nat -> list X) l, (forall i, In i l -> f i = g i) -> flat_map f l = flat_map g l.
Proof.
  intros f g l H. induction l as [|a l IH]; [reflexivity|]. cbn. rewrite H by (left; reflexivity). f_equal.
  apply IH. intros i Hi. apply H. right. exact Hi.
Qed.
Lemma seq_split : forall a n k, k <= n -> seq a n = seq a k ++ seq (a + k) (n - k).
Proof. intros a n k H. rewrite <- seq_app. f_equal. lia. Qed.

(** nested sequences of blocks *)
Lemma flat_map_nested : forall (g : nat -> nat -> list X) m n, 0 < m ->
  flat_map (fun i => flat_map (fun j => g i j) (seq 0 m)) (seq 0 n) =
  flat_map (fun k => g (k / m) (k mod m)) (seq 0 (n * m)).
Proof.
  intros g m n Hm. induction n as [|n IH]; [reflexivity|].
  rewrite seq_S, flat_map_app, IH. cbn [flat_map]. rewrite app_nil_r.
  replace (S n * m) with (n * m + m) by lia. rewrite seq_app, flat_map_app. f_equal.
  replace (0 + n * m) with (n * m) by lia. replace (0 + n) with n by lia.
  clear IH.
  assert (G : forall m', m' <= m -> flat_map (fun j => g n j) (seq 0 m') = flat_map (fun k => g (k / m) (k mod m)) (seq (n * m) m')).
  { intros m' Hle. induction m' as [|m' IH']; [reflexivity|].
    rewrite !seq_S, !flat_map_app. rewrite IH' by lia. f_equal. cbn [flat_map]. rewrite !app_nil_r.
    assert (E : (n * m + m') / m = n /\ (n * m + m') mod m = m').
    { split; [symmetry; apply (Nat.div_unique _ m n m'); lia|symmetry; apply (Nat.mod_unique _ m n m'); lia]. }
    destruct E as [-> ->]. reflexivity. }
  apply G. lia.
Qed.

Lemma write_spec : forall (vals pre mid post : list X), length mid = length vals ->
  write (pre ++ mid ++ post) (length pre) vals = Some (pre ++ vals ++ post).
Proof.
  induction vals as [|x vals IH]; intros pre mid post H.
  - destruct mid; [|discriminate]. reflexivity.
  - destruct mid as [|y mid]; [discriminate|]. cbn [write].
    assert (E : forall p q, oupd (p ++ y :: q) (length p) x = Some (p ++ x :: q)).
    { induction p as [|a p IHp]; intro q; [reflexivity|]. cbn [app length oupd]. rewrite IHp. reflexivity. }
    cbn [app]. rewrite E. cbn [obind]. change (x :: mid ++ post) with ((x :: mid) ++ post).
    replace (pre ++ (x :: mid) ++ post) with ((pre ++ [x]) ++ mid ++ post) by (rewrite <- app_assoc; reflexivity).
    replace (S (length pre)) with (length (pre ++ [x])) by (rewrite app_length; cbn; lia).
    rewrite IH by (cbn in H; lia). f_equal. rewrite <- app_assoc. reflexivity.
Qed.

Definition fupd (f : nat -> list X) (i : nat) (v : list X) (j : nat) : list X := if j =? i then v else f j.
Lemma flat_map_fupd_out : forall f i v l, ~ In i l -> flat_map (fupd f i v) l = flat_map f l.
Proof.
  intros f i v l H. apply flat_map_ext_in. intros j Hj. unfold fupd. destruct (Nat.eqb_spec j i) as [->|]; [contradiction|reflexivity].
Qed.
Lemma write_block : forall (f : nat -> list X) n B (pre post : list X) i (v : list X), (forall j, length (f j) = B) -> length v = B -> i < n ->
  write (pre ++ flat_map f (seq 0 n) ++ post) (length pre + i * B) v = Some (pre ++ flat_map (fupd f i v) (seq 0 n) ++ post).
Proof.
  intros f n B pre post i v Hf Hv Hi.
  assert (S1 : forall g, flat_map g (seq 0 n) = flat_map g (seq 0 i) ++ (g i : list X) ++ flat_map g (seq (S i) (n - S i))).
  { intro g. rewrite (seq_split 0 n (S i)) by lia. rewrite flat_map_app. rewrite seq_S, flat_map_app. cbn [flat_map].
    rewrite app_nil_r, <- app_assoc. reflexivity. }
  rewrite (S1 f), (S1 (fupd f i v)).
  rewrite !flat_map_fupd_out by (rewrite in_seq; lia).
  replace (fupd f i v i) with v by (unfold fupd; rewrite Nat.eqb_refl; reflexivity).
  replace (length pre + i * B) with (length (pre ++ flat_map f (seq 0 i)))
    by (rewrite app_length, (flat_map_length_const f B) by exact Hf; rewrite seq_length; lia).
  rewrite <- !app_assoc, (app_assoc pre), write_spec by (rewrite Hf, Hv; reflexivity).
  rewrite <- !app_assoc. reflexivity.
Qed.
Lemma slice_block : forall (g : nat -> list X) n B k, (forall j, length (g j : list X) = B) -> k < n ->
  slice (flat_map g (seq 0 n)) (k * B) B = Some (g k).
Proof.
  intros g n B k Hg Hk. unfold slice.
  rewrite (flat_map_length_const g B) by exact Hg. rewrite seq_length.
  replace (k * B + B <=? n * B) with true by (symmetry; apply Nat.leb_le; nia).
  rewrite (seq_split 0 n k) by lia. rewrite flat_map_app.
  replace (k * B) with (length (flat_map g (seq 0 k))) by (rewrite (flat_map_length_const g B) by exact Hg; rewrite seq_length; lia).
  rewrite skipn_app, Nat.sub_diag, skipn_all. cbn [app skipn].
  replace (n - k) with (S (n - S k)) by lia. cbn [seq flat_map plus]. replace (0 + k) with k by lia.
  rewrite firstn_app, Hg, Nat.sub_diag. cbn [firstn]. rewrite app_nil_r. f_equal. rewrite <- (Hg k). apply firstn_all.
Qed.
Lemma osequence_map_some : forall {A B} (f : A -> option B) (g : A -> B) l, (forall a, In a l -> f a = Some (g a)) ->
  osequence (map f l) = Some (map g l).
Proof.
  intros A B f g l H. induction l as [|a l IH]; [reflexivity|]. cbn [map osequence].
  rewrite H by (left; reflexivity). cbn [obind]. rewrite IH by (intros b Hb; apply H; right; exact Hb). reflexivity.
Qed.
Lemma concat_map_flat : forall {A} (g : A -> list X) l, concat (map g l) = flat_map g l.
Proof. intros. symmetry. apply flat_map_concat_map. Qed.
End Lists.

Lemma map_flat_map : forall {A B C} (f : B -> C) (g : A -> list B) l, map f (flat_map g l) = flat_map (fun a => map f (g a)) l.
Proof. intros. induction l as [|a l IH]; [reflexivity|]. cbn. rewrite map_app, IH. reflexivity. Qed.

Lemma filter_lt_all : forall b l, (forall j, In j l -> j < b) -> filter (fun j => j <? b) l = l.
Proof.
  intros b l. induction l as [|a l IH]; intro H; [reflexivity|]. cbn [filter]. replace (a <? b) with true
    by (symmetry; apply Nat.ltb_lt, H; left; reflexivity). f_equal. apply IH. intros j Hj. apply H. right. exact Hj.
Qed.
Lemma filter_lt_none : forall b l, (forall j, In j l -> b <= j) -> filter (fun j => j <? b) l = [].
Proof.
  intros b l. induction l as [|a l IH]; intro H; [reflexivity|]. cbn [filter]. replace (a <? b) with false
    by (symmetry; apply Nat.ltb_ge, H; left; reflexivity). apply IH. intros j Hj. apply H. right. exact Hj.
Qed.

Section Dist.
Context {X : Type} (zero : X).
Variables (W M D nv : nat) (val : nat -> list X) (sched : nat -> list nat).
Hypothesis HW : 0 < W.
Hypothesis HM : 0 < M.
Hypothesis Hval : forall t, length (val t) = nv.
Hypothesis Hsched : forall i, Permutation (sched i) (seq 0 (n_omp M D)).
Notation n := (n_omp M D).
Let Q := M / W.

Definition item (t : nat) : list X := if t <? D then val t else repeat zero nv.
Lemma item_length t : length (item t) = nv.
Proof. unfold item. destruct (t <? D); [apply Hval|apply repeat_length]. Qed.
Definition block (i : nat) : list X := flat_map (fun io => item (i * n + io)) (seq 0 n).
Lemma block_length i : length (block i) = n * nv.
Proof. unfold block. rewrite (flat_map_length_const _ nv) by (intro; apply item_length). rewrite seq_length. reflexivity. Qed.
Lemma enough : D <= M * n.
Proof.
  unfold n_omp. pose proof (Nat.div_mod (D + M - 1) M). pose proof (Nat.mod_upper_bound (D + M - 1) M). nia.
Qed.
Lemma repeat_blocks : forall m k, repeat zero (m * k) = flat_map (fun _ => repeat zero k) (seq 0 m).
Proof.
  intros m k. induction m as [|m IH]; [reflexivity|]. rewrite seq_S, flat_map_app, <- IH. cbn [flat_map]. rewrite app_nil_r, <- repeat_app.
  f_equal. lia.
Qed.
Lemma block_zero i : M <= i -> block i = repeat zero (n * nv).
Proof.
  intro H. rewrite repeat_blocks. unfold block. apply flat_map_ext_in. intros io _. unfold item.
  pose proof enough. replace (i * n + io <? D) with false; [reflexivity|]. symmetry. apply Nat.ltb_ge. nia.
Qed.

(** the parallel loop of one MPI task fills one block, in whatever order *)
Lemma omp_gen : forall i it ios pre post f, length pre = it * n * nv -> (forall j, length (f j) = nv) ->
  (forall j, In j ios -> j < n) ->
  exists f', fold_left (omp_step M D nv val i it) ios (Some (pre ++ flat_map f (seq 0 n) ++ post))
             = Some (pre ++ flat_map f' (seq 0 n) ++ post) /\ (forall j, length (f' j) = nv) /\
    (forall j, (In j ios -> i * n + j < D -> f' j = val (i * n + j)) /\ ((~ In j ios \/ D <= i * n + j) -> f' j = f j)).
Proof.
  intros i it ios. induction ios as [|io ios IH]; intros pre post f Hp Hf Hb.
  - exists f. split; [reflexivity|]. split; [exact Hf|]. intro j. split; [intros []|reflexivity].
  - cbn [fold_left]. unfold omp_step at 2. cbn [obind].
    assert (Hio : io < n) by (apply Hb; left; reflexivity).
    destruct (Nat.ltb_spec (i * n + io) D) as [L|L].
    + replace ((it * n + io) * nv) with (length pre + io * nv) by (rewrite Hp; nia).
      rewrite (write_block f n nv) by (try exact Hf; try apply Hval; exact Hio).
      destruct (IH pre post (fupd f io (val (i * n + io))) Hp) as (f' & E & Hl & Hv).
      { intro j. unfold fupd. destruct (j =? io); [apply Hval|apply Hf]. }
      { intros j Hj. apply Hb. right. exact Hj. }
      exists f'. split; [exact E|]. split; [exact Hl|]. intro j. destruct (Hv j) as [V1 V2]. split.
      * intros Hin Hlt. destruct (in_dec Nat.eq_dec j ios) as [I|I]; [apply V1; assumption|].
        rewrite V2 by (left; exact I). destruct Hin as [<-|Hin]; [|contradiction]. unfold fupd. rewrite Nat.eqb_refl. reflexivity.
      * intros Hn.
        assert (N : j <> io) by (intros ->; destruct Hn as [Hn|Hn]; [apply Hn; left; reflexivity|lia]).
        rewrite V2 by (destruct Hn as [Hn|Hn]; [left; intro; apply Hn; right; assumption|right; exact Hn]).
        unfold fupd. destruct (Nat.eqb_spec j io); [contradiction|reflexivity].
    + destruct (IH pre post f Hp Hf) as (f' & E & Hl & Hv).
      { intros j Hj. apply Hb. right. exact Hj. }
      exists f'. split; [exact E|]. split; [exact Hl|]. intro j. destruct (Hv j) as [V1 V2]. split.
      * intros [<-|Hin] Hlt; [lia|]. apply V1; assumption.
      * intros Hn. destruct (in_dec Nat.eq_dec j ios) as [I|I]; [|apply V2; left; exact I].
        destruct Hn as [Hn|Hn]; [exfalso; apply Hn; right; exact I|apply V2; right; exact Hn].
Qed.
Lemma omp_block : forall i it pre post, length pre = it * n * nv ->
  fold_left (omp_step M D nv val i it) (sched i) (Some (pre ++ repeat zero (n * nv) ++ post)) = Some (pre ++ block i ++ post).
Proof.
  intros i it pre post Hp. rewrite repeat_blocks.
  destruct (omp_gen i it (sched i) pre post (fun _ => repeat zero nv) Hp) as (f' & E & _ & Hv).
  - intro. apply repeat_length.
  - intros j Hj. apply (Permutation_in j (Hsched i)), in_seq in Hj. lia.
  - rewrite E. do 3 f_equal. unfold block. apply flat_map_ext_in. intros j Hj. destruct (Hv j) as [V1 V2]. unfold item.
    destruct (Nat.ltb_spec (i * n + j) D) as [L|L].
    + apply V1; [|exact L]. apply (Permutation_in j (Permutation_sym (Hsched i))). exact Hj.
    + apply V2. right. exact L.
Qed.

(** number of tasks of a process among the first [m] *)
Definition cnt (r m : nat) : nat := (m + W - 1 - r) / W.
Lemma cnt_step : forall r m, r < W ->
  (m mod W = r -> cnt r m = m / W /\ cnt r (S m) = S (m / W)) /\ (m mod W <> r -> cnt r (S m) = cnt r m).
Proof.
  intros r m Hr. unfold cnt. pose proof (Nat.div_mod m W ltac:(lia)) as E. pose proof (Nat.mod_upper_bound m W ltac:(lia)) as B.
  set (q := m / W) in *. set (s := m mod W) in *.
  assert (F : forall x t, t < W -> (q * W + x * W + t) / W = q + x).
  { intros x t Ht. symmetry. apply (Nat.div_unique _ W (q + x) t); [exact Ht|nia]. }
  split; intro H.
  - split.
    + replace (m + W - 1 - r) with (q * W + 0 * W + (W - 1)) by nia. rewrite F by lia. lia.
    + replace (S m + W - 1 - r) with (q * W + 1 * W + 0) by nia. rewrite F by lia. lia.
  - destruct (Nat.lt_ge_cases s r) as [L|L].
    + replace (S m + W - 1 - r) with (q * W + 0 * W + (s + W - r)) by nia.
      replace (m + W - 1 - r) with (q * W + 0 * W + (s + W - 1 - r)) by nia. rewrite !F by lia. reflexivity.
    + replace (S m + W - 1 - r) with (q * W + 1 * W + (s - r)) by nia.
      replace (m + W - 1 - r) with (q * W + 1 * W + (s - 1 - r)) by nia. rewrite !F by lia. reflexivity.
Qed.
Lemma cnt_le : forall r m, m <= M -> r < W -> cnt r m <= Q + 1.
Proof.
  intros r m Hm Hr. unfold cnt, Q. replace (M / W + 1) with ((M + 1 * W) / W) by (rewrite Nat.div_add; lia).
  apply Nat.div_le_mono; lia.
Qed.
Lemma mpi_gen : forall r len m, r < W -> m + len = M ->
  mpi_loop W M D nv val sched r (seq m len) (cnt r m)
    (flat_map (fun it => block (r + it * W)) (seq 0 (cnt r m)) ++ repeat zero ((Q + 1 - cnt r m) * (n * nv)))
  = Some (flat_map (fun it => block (r + it * W)) (seq 0 (cnt r M)) ++ repeat zero ((Q + 1 - cnt r M) * (n * nv))).
Proof.
  intros r len. induction len as [|len IH]; intros m Hr Hm.
  - cbn [seq mpi_loop]. replace m with M by lia. reflexivity.
  - cbn [seq mpi_loop]. destruct (cnt_step r m Hr) as [C1 C2]. destruct (Nat.eqb_spec (m mod W) r) as [E|E].
    + destruct (C1 E) as [A B].
      assert (L : cnt r (S m) <= Q + 1) by (apply cnt_le; lia).
      replace (Q + 1 - cnt r m) with (1 + (Q + 1 - cnt r (S m))) by lia.
      rewrite Nat.mul_add_distr_r, repeat_app, Nat.mul_1_l.
      rewrite omp_block.
      2:{ rewrite (flat_map_length_const _ (n * nv)) by (intro; apply block_length). rewrite seq_length. nia. }
      cbn [obind].
      replace (flat_map (fun it => block (r + it * W)) (seq 0 (cnt r m)) ++ block m ++ repeat zero ((Q + 1 - cnt r (S m)) * (n * nv)))
        with (flat_map (fun it => block (r + it * W)) (seq 0 (cnt r (S m))) ++ repeat zero ((Q + 1 - cnt r (S m)) * (n * nv))).
      2:{ rewrite A, B, seq_S, flat_map_app. cbn [flat_map]. rewrite app_nil_r, <- app_assoc. f_equal. f_equal. f_equal.
          rewrite <- E. pose proof (Nat.div_mod m W ltac:(lia)). lia. }
      replace (S (cnt r m)) with (cnt r (S m)) by lia. apply IH; lia.
    + rewrite <- (C2 E). apply IH; lia.
Qed.
Lemma rank_buffer_spec : forall r, r < W ->
  rank_buffer zero W M D nv val sched r = Some (flat_map (fun it => block (r + it * W)) (seq 0 (Q + 1))).
Proof.
  intros r Hr. unfold rank_buffer, initialize_buffer.
  assert (C0 : cnt r 0 = 0) by (unfold cnt; apply Nat.div_small; lia).
  pose proof (mpi_gen r M 0 Hr eq_refl) as G. rewrite C0 in G. cbn [seq flat_map app] in G. rewrite Nat.sub_0_r in G.
  rewrite (Nat.mul_comm (n * nv)). fold Q. rewrite G. f_equal.
  assert (L : cnt r M <= Q + 1) by (apply cnt_le; lia).
  rewrite (seq_split 0 (Q + 1) (cnt r M)) by exact L. rewrite flat_map_app. f_equal.
  rewrite repeat_blocks. rewrite <- (seq_length (Q + 1 - cnt r M) (0 + cnt r M)) at 1.
  assert (F : forall l, (forall it, In it l -> M <= r + it * W) ->
     flat_map (fun _ => repeat zero (n * nv)) (seq 0 (length l)) = flat_map (fun it => block (r + it * W)) l).
  { induction l as [|a l IH]; intro H; [reflexivity|]. cbn [length seq flat_map]. rewrite <- seq_shift. rewrite block_zero by (apply H; left; reflexivity). f_equal.
    rewrite <- IH by (intros it Hi; apply H; right; exact Hi).
    rewrite !flat_map_concat_map, map_map. reflexivity. }
  apply F. intros it Hi. apply in_seq in Hi.
  assert (cnt r M <= it) by lia. unfold cnt in H.
  pose proof (Nat.div_mod (M + W - 1 - r) W ltac:(lia)). pose proof (Nat.mod_upper_bound (M + W - 1 - r) W ltac:(lia)). nia.
Qed.
Lemma all_buffers : osequence (map (rank_buffer zero W M D nv val sched) (seq 0 W)) =
  Some (map (fun r => flat_map (fun it => block (r + it * W)) (seq 0 (Q + 1))) (seq 0 W)).
Proof. apply osequence_map_some. intros r Hr. apply in_seq in Hr. apply rank_buffer_spec. lia. Qed.
Definition gathered : list X := flat_map (fun k => block (k / (Q + 1) + k mod (Q + 1) * W)) (seq 0 (W * (Q + 1))).
Lemma gathered_length : length gathered = W * (Q + 1) * (n * nv).
Proof. unfold gathered. rewrite (flat_map_length_const _ (n * nv)) by (intro; apply block_length). rewrite seq_length. reflexivity. Qed.
Lemma collect_spec : collect zero W M (map (fun r => flat_map (fun it => block (r + it * W)) (seq 0 (Q + 1))) (seq 0 W)) (n * nv) = Some gathered.
Proof.
  unfold collect.
  assert (E : concat (map (fun r => flat_map (fun it => block (r + it * W)) (seq 0 (Q + 1))) (seq 0 W)) = gathered).
  { rewrite concat_map_flat. unfold gathered. apply (flat_map_nested (fun r it => block (r + it * W))). lia. }
  rewrite E.
  assert (F : forallb (fun b : list X => length b =? n * nv * (M / W + 1)) (map (fun r => flat_map (fun it => block (r + it * W)) (seq 0 (Q + 1))) (seq 0 W)) = true).
  { apply forallb_forall. intros b Hb. apply in_map_iff in Hb. destruct Hb as (r & <- & _). apply Nat.eqb_eq.
    rewrite (flat_map_length_const _ (n * nv)) by (intro; apply block_length). rewrite seq_length. unfold Q. lia. }
  rewrite F. cbn [andb].
  assert (L : length (initialize_result zero W M (n * nv)) = length gathered).
  { unfold initialize_result. rewrite repeat_length, gathered_length. unfold Q.
    pose proof (Nat.div_mod M W ltac:(lia)). pose proof (Nat.mod_upper_bound M W ltac:(lia)).
    replace (M - M mod W + W) with (W * (M / W + 1)) by lia. lia. }
  rewrite L, Nat.leb_refl, <- L, skipn_all, app_nil_r. reflexivity.
Qed.
Lemma slice_gathered : forall j i, j < W -> i < Q + 1 ->
  slice gathered ((j * (Q + 1) + i) * (n * nv)) (n * nv) = Some (block (j + i * W)).
Proof.
  intros j i Hj Hi. unfold gathered.
  rewrite (slice_block (fun k => block (k / (Q + 1) + k mod (Q + 1) * W)) (W * (Q + 1)) (n * nv)); [|intro; apply block_length|nia].
  replace ((j * (Q + 1) + i) / (Q + 1)) with j by (apply (Nat.div_unique _ (Q + 1) j i); lia).
  replace ((j * (Q + 1) + i) mod (Q + 1)) with i by (apply (Nat.mod_unique _ (Q + 1) j i); lia). reflexivity.
Qed.
Lemma reorder_spec : reorder W M gathered (n * nv) = Some (flat_map block (seq 0 M)).
Proof.
  unfold reorder. fold Q.
  assert (A : osequence (flat_map (fun i => map (fun j => slice gathered ((j * (Q + 1) + i) * (n * nv)) (n * nv)) (seq 0 W)) (seq 0 Q))
     = Some (flat_map (fun i => map (fun j => block (j + i * W)) (seq 0 W)) (seq 0 Q))).
  { replace (flat_map (fun i => map (fun j => slice gathered ((j * (Q + 1) + i) * (n * nv)) (n * nv)) (seq 0 W)) (seq 0 Q))
      with (map (fun p : nat * nat => slice gathered ((snd p * (Q + 1) + fst p) * (n * nv)) (n * nv)) (flat_map (fun i => map (fun j => (i, j)) (seq 0 W)) (seq 0 Q))).
    2:{ rewrite map_flat_map. apply flat_map_ext. intro i. rewrite map_map. reflexivity. }
    rewrite (osequence_map_some _ (fun p => block (snd p + fst p * W))).
    - f_equal. rewrite map_flat_map. apply flat_map_ext. intro i. rewrite map_map. reflexivity.
    - intros [i j] Hp. apply in_flat_map in Hp. destruct Hp as (i' & Hi & Hj). apply in_map_iff in Hj. destruct Hj as (j' & Ej & Hj).
      injection Ej as <- <-. apply in_seq in Hi, Hj. cbn [fst snd]. apply slice_gathered; lia. }
  rewrite A. cbn [obind].
  rewrite (osequence_map_some _ (fun j => block (j + Q * W))).
  2:{ intros j Hj. apply filter_In in Hj. destruct Hj as [Hj _]. apply in_seq in Hj. apply slice_gathered; lia. }
  cbn [obind]. f_equal.
  assert (R : filter (fun j => j <? M mod W) (seq 0 W) = seq 0 (M mod W)).
  { pose proof (Nat.mod_upper_bound M W ltac:(lia)) as B. rewrite (seq_split 0 W (M mod W)) by lia. rewrite filter_app.
    rewrite filter_lt_all, filter_lt_none, app_nil_r; [reflexivity| |]; intros j Hj; apply in_seq in Hj; lia. }
  rewrite R, concat_map_flat.
  assert (C : concat (flat_map (fun i => map (fun j => block (j + i * W)) (seq 0 W)) (seq 0 Q)) = flat_map block (seq 0 (Q * W))).
  { transitivity (flat_map (fun i => flat_map (fun j => block (j + i * W)) (seq 0 W)) (seq 0 Q)).
    - clear A. induction (seq 0 Q) as [|a l IH]; [reflexivity|]. cbn [flat_map]. rewrite concat_app, IH, concat_map_flat. reflexivity.
    - rewrite (flat_map_nested (fun i j => block (j + i * W))) by exact HW. apply flat_map_ext_in. intros k _. f_equal.
      pose proof (Nat.div_mod k W ltac:(lia)). lia. }
  rewrite C. rewrite (seq_split 0 M (Q * W)) by (unfold Q; pose proof (Nat.div_mod M W ltac:(lia)); lia).
  rewrite flat_map_app. f_equal.
  replace (M - Q * W) with (M mod W) by (unfold Q; pose proof (Nat.div_mod M W ltac:(lia)); lia).
  replace (0 + Q * W) with (Q * W + 0) by lia. generalize (M mod W) as len. generalize 0 as a.
  intros a len. revert a. induction len as [|len IH]; intro a; [reflexivity|]. cbn [seq flat_map]. rewrite IH.
  replace (a + Q * W) with (Q * W + a) by lia. replace (S (Q * W + a)) with (Q * W + S a) by lia. reflexivity.
Qed.
Lemma blocks_items : flat_map block (seq 0 M) = flat_map item (seq 0 (M * n)).
Proof.
  unfold block. destruct (Nat.eq_dec n 0) as [Z|Z].
    - rewrite Z. rewrite Nat.mul_0_r. induction (seq 0 M) as [|a l IH]; [reflexivity|]. exact IH.
    - rewrite (flat_map_nested (fun i io => item (i * n + io))) by lia. apply flat_map_ext_in. intros k _. f_equal.
      pose proof (Nat.div_mod k n Z). lia.
Qed.
Lemma distributed_spec : distributed zero W M D nv val sched = Some (flat_map val (seq 0 D)).
Proof.
  unfold distributed. rewrite all_buffers. cbn [obind]. rewrite collect_spec. cbn [obind]. rewrite reorder_spec. cbn [obind]. f_equal.
  rewrite blocks_items. unfold resize.
  assert (L : length (flat_map item (seq 0 (M * n))) = M * n * nv)
    by (rewrite (flat_map_length_const _ nv) by (intro; apply item_length); rewrite seq_length; reflexivity).
  rewrite L. pose proof enough. replace (D * nv - M * n * nv) with 0 by nia. cbn [repeat]. rewrite app_nil_r.
  rewrite (seq_split 0 (M * n) D) by lia. rewrite flat_map_app, firstn_app.
  assert (LD : length (flat_map item (seq 0 D)) = D * nv)
    by (rewrite (flat_map_length_const _ nv) by (intro; apply item_length); rewrite seq_length; reflexivity).
  rewrite LD, Nat.sub_diag. cbn [firstn]. rewrite app_nil_r, <- LD, firstn_all.
  apply flat_map_ext_in. intros t Ht. apply in_seq in Ht. unfold item. replace (t <? D) with true by (symmetry; apply Nat.ltb_lt; lia).
  reflexivity.
Qed.

(** every work item is computed exactly once *)
Lemma flat_map_plus : forall (f g : nat -> list nat) l,
  Permutation (flat_map (fun r => f r ++ g r) l) (flat_map f l ++ flat_map g l).
Proof.
  intros f g l. induction l as [|a l IH]; [reflexivity|]. cbn [flat_map].
  rewrite <- !app_assoc. apply Permutation_app_head. rewrite IH, !app_assoc. apply Permutation_app_tail. apply Permutation_app_comm.
Qed.
Lemma pick_one : forall c (h : list nat) a len, a <= c < a + len ->
  flat_map (fun r => if c =? r then h else []) (seq a len) = h.
Proof.
  intros c h a len. revert a. induction len as [|len IH]; intros a H; [lia|]. cbn [seq flat_map].
  destruct (Nat.eqb_spec c a) as [->|N].
  - replace (flat_map (fun r => if a =? r then h else []) (seq (S a) len)) with (@nil nat); [apply app_nil_r|].
    symmetry. clear IH H. assert (H : forall r, In r (seq (S a) len) -> a <> r) by (intros r Hr; apply in_seq in Hr; lia).
    induction (seq (S a) len) as [|b l IHl]; [reflexivity|]. cbn. destruct (Nat.eqb_spec a b) as [E|E]; [exfalso; apply (H b); [left; reflexivity|exact E]|].
    apply IHl. intros r Hr. apply H. right. exact Hr.
  - apply IH. lia.
Qed.
Lemma items_spec : Permutation (flat_map (items W M D sched) (seq 0 W)) (seq 0 D).
Proof.
  unfold items.
  set (h := fun i => filter (fun t => t <? D) (map (fun io => i * n + io) (sched i))).
  assert (P1 : forall l, Permutation (flat_map (fun r => flat_map (fun i => if i mod W =? r then h i else []) l) (seq 0 W)) (flat_map h l)).
  { induction l as [|a l IH].
    - cbn [flat_map]. induction (seq 0 W) as [|b s IHs]; [reflexivity|]. exact IHs.
    - cbn [flat_map]. rewrite flat_map_plus. rewrite pick_one by (pose proof (Nat.mod_upper_bound a W ltac:(lia)); lia).
      apply Permutation_app_head. exact IH. }
  transitivity (flat_map h (seq 0 M)); [exact (P1 (seq 0 M))|].
  assert (P2 : forall l, Permutation (flat_map h l) (flat_map (fun i => filter (fun t => t <? D) (map (fun io => i * n + io) (seq 0 n))) l)).
  { induction l as [|a l IH]; [reflexivity|]. cbn [flat_map]. apply Permutation_app; [|exact IH].
    assert (PF : forall (f : nat -> bool) x y, Permutation x y -> Permutation (filter f x) (filter f y)).
    { intros f x y P. induction P as [|z x y P IHP|z1 z2 x|x y z P1' IH1 P2' IH2]; cbn; [reflexivity|destruct (f z); auto| |etransitivity; eauto].
      destruct (f z1), (f z2); try reflexivity. apply perm_swap. }
    apply PF, Permutation_map, Hsched. }
  rewrite P2.
  assert (E : flat_map (fun i => filter (fun t => t <? D) (map (fun io => i * n + io) (seq 0 n))) (seq 0 M) = seq 0 D).
  { assert (E1 : flat_map (fun i => filter (fun t => t <? D) (map (fun io => i * n + io) (seq 0 n))) (seq 0 M)
               = filter (fun t => t <? D) (flat_map (fun i => map (fun io => i * n + io) (seq 0 n)) (seq 0 M))).
    { induction (seq 0 M) as [|a l IH]; [reflexivity|]. cbn [flat_map]. rewrite filter_app, IH. reflexivity. }
    rewrite E1.
    assert (E2 : flat_map (fun i => map (fun io => i * n + io) (seq 0 n)) (seq 0 M) = seq 0 (M * n)).
    { generalize n as k. intro k. clear. induction M as [|m IH]; [reflexivity|]. rewrite seq_S, flat_map_app. rewrite IH. cbn [flat_map]. rewrite app_nil_r.
      replace (S m * k) with (m * k + k) by lia. rewrite seq_app. f_equal. cbn [plus].
      generalize (m * k) as b. intro b. clear IH. induction k as [|k IHk]; [reflexivity|].
      rewrite !seq_S, map_app, IHk. reflexivity. }
    rewrite E2. pose proof enough. rewrite (seq_split 0 (M * n) D) by lia. rewrite filter_app.
    rewrite filter_lt_all by (intros j Hj; apply in_seq in Hj; lia).
    rewrite filter_lt_none by (intros j Hj; apply in_seq in Hj; lia). apply app_nil_r. }
  rewrite E. reflexivity.
Qed.
End Dist.

Lemma superfluous : forall {X} (zero : X) (M D nv : nat) (val : nat -> list X) (HM : 0 < M) (Hval : forall t, length (val t) = nv),
  length (flat_map (block zero M D nv val) (seq 0 M)) = M * ((D + M - 1) / M) * nv /\
  D * nv <= length (flat_map (block zero M D nv val) (seq 0 M)) /\
  Forall (eq zero) (skipn (D * nv) (flat_map (block zero M D nv val) (seq 0 M))).
Proof.
  intros X zero M D nv val HM Hv.
  assert (L : length (flat_map (block zero M D nv val) (seq 0 M)) = M * ((D + M - 1) / M) * nv).
  { rewrite (flat_map_length_const _ (n_omp M D * nv)) by (intro; apply block_length; assumption). rewrite seq_length. unfold n_omp. lia. }
  split; [exact L|]. rewrite L. pose proof (enough 1 M D ltac:(lia) HM) as N. unfold n_omp in N. split; [nia|].
  rewrite (blocks_items zero 1 M D nv val) by lia. rewrite (seq_split 0 (M * n_omp M D) D) by exact N.
  rewrite flat_map_app.
  replace (D * nv) with (length (flat_map (item zero D nv val) (seq 0 D)))
    by (rewrite (flat_map_length_const _ nv) by (intro; apply item_length; assumption); rewrite seq_length; reflexivity).
  rewrite skipn_app, skipn_all, Nat.sub_diag. cbn [app skipn].
  apply Forall_forall. intros x Hx. apply in_flat_map in Hx. destruct Hx as (t & Ht & Hx). apply in_seq in Ht.
  unfold item in Hx. replace (t <? D) with false in Hx by (symmetry; apply Nat.ltb_ge; lia).
  apply repeat_spec in Hx. symmetry. exact Hx.
Qed.

(** ** storage *)
Open Scope Z_scope.
Lemma keldysh_storage : forall c dims t,
  length dims = vrank c -> pos_dims dims -> prodZ dims < w64 -> nth (vrank c - 1) dims 0 = 1 ->
  0 <= t < prodZ (reduced_dims dims (vectorised FKeldysh c)) ->
  exists idx, physical_indices dims (vectorised FKeldysh c) t = Some idx /\
  forall k, 0 <= k < nth (vrank c - 2) dims 0 ->
    getFlatIndex (component FKeldysh c dims idx k) dims = Some (stored_position dims (vectorised FKeldysh c) t k) /\
    nth (vrank c - 2) (component FKeldysh c dims idx k) 0 = k /\
    (forall d, (d < vrank c)%nat -> d <> (vrank c - 2)%nat -> nth d (component FKeldysh c dims idx k) 0 = nth d idx 0).
Proof.
  intros c dims t L P B I R. unfold physical_indices.
  set (rd := reduced_dims dims (vectorised FKeldysh c)) in *.
  assert (Prd : rd <> [] /\ pos_dims rd /\ prodZ rd * nth (vrank c - 2) dims 0 = prodZ dims).
  { destruct c; cbn [vrank] in *; repeat (destruct dims as [|? dims]; try discriminate); cbn in I; subst;
    repeat match goal with H : pos_dims (_ :: _) |- _ => inversion H; clear H; subst | H : Forall _ (_ :: _) |- _ => inversion H; clear H; subst end;
    unfold rd; cbv [reduced_dims vectorised length seq map existsb Nat.eqb orb nth prodZ vrank Nat.sub];
    (split; [discriminate|]; split; [unfold pos_dims; repeat constructor; lia|ring]). }
  destruct Prd as (N & Pr & Pe).
  assert (K0 : 0 < nth (vrank c - 2) dims 0).
  { apply (proj1 (Forall_forall _ _) P). apply nth_In. rewrite L. destruct c; cbn; lia. }
  assert (Br : prodZ rd < w64) by (pose proof (prodZ_pos rd Pr); nia).
  destruct (getMultIndex_spec rd t N Pr Br R) as (idx & E & Ri & Rm).
  exists idx. split; [exact E|]. intros k Hk.
  assert (C : in_range (component FKeldysh c dims idx k) dims /\
              row_major (component FKeldysh c dims idx k) dims = stored_position dims (vectorised FKeldysh c) t k /\
              nth (vrank c - 2) (component FKeldysh c dims idx k) 0 = k /\
    (forall d, (d < vrank c)%nat -> d <> (vrank c - 2)%nat -> nth d (component FKeldysh c dims idx k) 0 = nth d idx 0)).
  { clear E N Pr Pe Br B. subst t. unfold rd, in_range in *. clear rd.
    destruct c; cbn [vrank] in *; repeat (destruct dims as [|? dims]; try discriminate); cbn in I; subst;
    cbv [reduced_dims vectorised length seq map existsb Nat.eqb orb nth] in Ri;
    repeat match goal with H : Forall2 _ _ (_ :: _) |- _ => inversion H; clear H; subst | H : Forall2 _ _ [] |- _ => inversion H; clear H; subst end;
    cbv [component vectorised firstn skipn app stored_position vector_length fold_left nth Nat.sub] in *;
    cbv [reduced_dims vectorised length seq map existsb Nat.eqb orb nth row_major prodZ];
    (split; [repeat constructor; lia|]; split; [nia|]; split; [reflexivity|]);
    intros d Hd Hn; repeat (destruct d as [|d]; try lia; try reflexivity). }
  destruct C as (C1 & C2 & C3 & C4). split; [|split; [exact C3|exact C4]].
  rewrite <- C2. apply getFlatIndex_row_major; [rewrite L; destruct c; cbn; lia|exact C1|exact B].
Qed.

Lemma matsubara_storage : forall c dims t,
  length dims = vrank c -> pos_dims dims -> prodZ dims < w64 -> nth (vrank c - 1) dims 0 = 1 -> nth (vrank c - 2) dims 0 = 1 ->
  0 <= t < prodZ (reduced_dims dims (vectorised FMatsubara c)) ->
  exists idx, physical_indices dims (vectorised FMatsubara c) t = Some idx /\
  forall k, 0 <= k < vector_length dims (vectorised FMatsubara c) ->
    getFlatIndex (component FMatsubara c dims idx k) dims = Some (stored_position dims (vectorised FMatsubara c) t k).
Proof.
  intros c dims t L P B I J R. unfold physical_indices.
  set (rd := reduced_dims dims (vectorised FMatsubara c)) in *.
  assert (Prd : rd <> [] /\ pos_dims rd /\ prodZ rd * vector_length dims (vectorised FMatsubara c) = prodZ dims
                /\ 0 < vector_length dims (vectorised FMatsubara c)).
  { destruct c; cbn [vrank] in *; repeat (destruct dims as [|? dims]; try discriminate); cbn in I, J; subst;
    repeat match goal with H : pos_dims (_ :: _) |- _ => inversion H; clear H; subst | H : Forall _ (_ :: _) |- _ => inversion H; clear H; subst end;
    unfold rd; cbv [reduced_dims vectorised length seq map existsb Nat.eqb orb nth prodZ vrank Nat.sub vector_length fold_left];
    (split; [discriminate|]; split; [unfold pos_dims; repeat constructor; lia|]; split; [ring|nia]). }
  destruct Prd as (N & Pr & Pe & K0).
  assert (Br : prodZ rd < w64) by (pose proof (prodZ_pos rd Pr); nia).
  destruct (getMultIndex_spec rd t N Pr Br R) as (idx & E & Ri & Rm).
  exists idx. split; [exact E|]. intros k Hk.
  assert (C : in_range (component FMatsubara c dims idx k) dims /\
              row_major (component FMatsubara c dims idx k) dims = stored_position dims (vectorised FMatsubara c) t k).
  { clear E N Pr Pe Br B. subst t. unfold rd, in_range in *. clear rd.
    destruct c; cbn [vrank] in *; repeat (destruct dims as [|? dims]; try discriminate); cbn in I, J; subst;
    cbv [reduced_dims vectorised length seq map existsb Nat.eqb orb nth] in Ri;
    repeat match goal with H : Forall2 _ _ (_ :: _) |- _ => inversion H; clear H; subst | H : Forall2 _ _ [] |- _ => inversion H; clear H; subst end;
    cbv [component vectorised firstn skipn app stored_position vector_length fold_left nth Nat.sub] in *;
    cbv [reduced_dims vectorised length seq map existsb Nat.eqb orb nth row_major prodZ].
    - split; [repeat constructor; lia|nia].
    - split; [repeat constructor; lia|nia].
    - unfold pos_dims in P; repeat match goal with H : Forall _ (_ :: _) |- _ => inversion H; clear H; subst end.
      match goal with |- context [k / ?d] => assert (D0 : 0 < d) by assumption; 
        pose proof (Z.div_mod k d ltac:(lia)); pose proof (Z.mod_pos_bound k d D0);
        assert (0 <= k / d) by (apply Z.div_pos; lia); assert (k / d < k / d + 1) by lia end.
      match goal with |- context [k / ?d] => match type of Hk with _ <= _ < 1 * ?b * _ => assert (k / d < b) by (apply Z.div_lt_upper_bound; lia) end end.
      split; [repeat constructor; lia|nia]. }
  destruct C as (C1 & C2).
  rewrite <- C2. apply getFlatIndex_row_major; [rewrite L; destruct c; cbn; lia|exact C1|exact B].
Qed.

Lemma nth_error_blocks : forall {X} (g : nat -> list X) n B t k, (forall j, length (g j) = B) -> (t < n)%nat -> (k < B)%nat ->
  nth_error (flat_map g (seq 0 n)) (t * B + k) = nth_error (g t) k.
Proof.
  intros X g n B t k Hg Ht Hk. rewrite (seq_split 0 n t) by lia. rewrite flat_map_app.
  assert (L : length (flat_map g (seq 0 t)) = (t * B)%nat) by (rewrite (flat_map_length_const g B) by exact Hg; rewrite seq_length; reflexivity).
  rewrite nth_error_app2 by lia. rewrite L. replace (t * B + k - t * B)%nat with k by lia.
  replace (n - t)%nat with (S (n - S t)) by lia. cbn [seq flat_map]. replace (0 + t)%nat with t by lia.
  apply nth_error_app1. rewrite Hg. exact Hk.
Qed.
Lemma keldysh_end_to_end : forall {X} (zero : X) W M nv (val : nat -> list X) sched c dims,
  (0 < W)%nat -> (0 < M)%nat -> length dims = vrank c -> pos_dims dims -> prodZ dims < w64 -> nth (vrank c - 1) dims 0 = 1 ->
  Z.of_nat nv = nth (vrank c - 2) dims 0 -> (forall t, length (val t) = nv) ->
  (forall i, Permutation (sched i) (seq 0 ((Z.to_nat (prodZ (reduced_dims dims (vectorised FKeldysh c))) + M - 1) / M))) ->
  exists result, distributed zero W M (Z.to_nat (prodZ (reduced_dims dims (vectorised FKeldysh c)))) nv val sched = Some result /\
  length result = Z.to_nat (prodZ dims) /\
  forall t k, 0 <= t < prodZ (reduced_dims dims (vectorised FKeldysh c)) -> 0 <= k < nth (vrank c - 2) dims 0 ->
  exists idx pos, physical_indices dims (vectorised FKeldysh c) t = Some idx /\
    getFlatIndex (component FKeldysh c dims idx k) dims = Some pos /\
    nth_error result (Z.to_nat pos) = nth_error (val (Z.to_nat t)) (Z.to_nat k).
Proof.
  intros X zero W M nv val sched c dims HW HM L P B I V Hv Hs.
  eexists. split; [apply distributed_spec; assumption|].
  assert (VL : vector_length dims (vectorised FKeldysh c) = nth (vrank c - 2) dims 0).
  { destruct c; cbv [vector_length vectorised fold_left vrank Nat.sub]; lia. }
  assert (Pe : prodZ (reduced_dims dims (vectorised FKeldysh c)) * nth (vrank c - 2) dims 0 = prodZ dims).
  { clear - L I. destruct c; cbn [vrank] in *; repeat (destruct dims as [|? dims]; try discriminate); cbn in I; subst;
    cbv [reduced_dims vectorised length seq map existsb Nat.eqb orb nth prodZ vrank Nat.sub]; ring. }
  assert (K0 : 0 < nth (vrank c - 2) dims 0).
  { apply (proj1 (Forall_forall _ _) P). apply nth_In. rewrite L. destruct c; cbn; lia. }
  pose proof (prodZ_pos dims P) as P0.
  split.
  - rewrite (flat_map_length_const val nv) by exact Hv. rewrite seq_length, <- Pe, <- V, Z2Nat.inj_mul by nia. rewrite Nat2Z.id. reflexivity.
  - intros t k Ht Hk. destruct (keldysh_storage c dims t L P B I Ht) as (idx & E & S).
    destruct (S k Hk) as (F & _). exists idx. eexists. split; [exact E|]. split; [exact F|].
    unfold stored_position. rewrite VL, <- V.
    replace (Z.to_nat (t * Z.of_nat nv + k)) with (Z.to_nat t * nv + Z.to_nat k)%nat by nia.
    apply nth_error_blocks; [exact Hv|lia|lia].
Qed.
