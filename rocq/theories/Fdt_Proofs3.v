(** Checks of self-energies and vertices. *)
From Coq Require Import Reals Lra Lia.
From Verif Require Import Prelude Gf_Model Fdt_Model Fdt_Spec Fdt_Alg Fdt_Proofs Fdt_Proofs2.
Open Scope R_scope.

(** ** Stored values *)
Lemma store_ext : forall l p s s' k,
  (forall e, In e l -> s' = s -> k = fst e -> snd e = p s k) -> store p s l s' k = p s' k.
Proof.
  intros l. unfold store. induction l as [|e l IH] using rev_ind; intros p s s' k H; [reflexivity|].
  rewrite fold_left_app. cbn [fold_left]. unfold setvert at 1.
  destruct ((s' =? s)%Z && (k =? fst e)%Z) eqn:B.
  - apply andb_prop in B as [B1 B2]. apply Z.eqb_eq in B1, B2. subst s'.
    apply H; [apply in_or_app; right; left; reflexivity|reflexivity|exact B2].
  - apply IH. intros e' I. apply H, in_or_app. left. exact I.
Qed.
(** a loop over spins leaves alone what agrees with the written values *)
Lemma loop_ext : forall (L : Z -> list (Z * comp)) ss p s' k,
  (forall s e, In s ss -> In e (L s) -> s' = s -> k = fst e -> snd e = p s k) ->
  fold_left (fun q s => store q s (L s)) ss p s' k = p s' k.
Proof.
  intros L ss. induction ss as [|s ss IH]; intros p s' k H; [reflexivity|].
  cbn [fold_left]. rewrite IH.
  - apply store_ext. intros e I. apply H; [left; reflexivity|exact I].
  - intros s1 e I1 I2 -> ->. rewrite (store_ext (L s) p s s1 (fst e)).
    + apply H with (s := s1); auto. right. exact I1.
    + intros e' I' -> E. rewrite (H s e' (or_introl eq_refl) I' eq_refl E). reflexivity.
Qed.
Lemma spins_range : forall n s, In s (spins n) <-> (0 <= s < Z.of_nat n)%Z.
Proof.
  intros n s. unfold spins. rewrite in_map_iff. split.
  - intros (m & <- & I). apply in_seq in I. lia.
  - intros H. exists (Z.to_nat s). split; [lia|]. apply in_seq. lia.
Qed.
Lemma loop_untouched : forall (L : Z -> list (Z * comp)) ss p s' k,
  ~ In s' ss -> fold_left (fun q s => store q s (L s)) ss p s' k = p s' k.
Proof. intros L ss p s' k H. apply loop_ext. intros s e I _ ->. contradiction. Qed.

(** ** Largest deviation *)
Lemma cabs_nonneg : forall z, 0 <= cabs z.
Proof. intro. apply sqrt_pos. Qed.
Lemma fold_Rmax_spec : forall (A : Type) (f : A -> R) l m,
  m <= fold_left (fun a p => Rmax a (f p)) l m /\
  (forall p, In p l -> f p <= fold_left (fun a p => Rmax a (f p)) l m) /\
  (fold_left (fun a p => Rmax a (f p)) l m = m \/ exists p, In p l /\ fold_left (fun a p => Rmax a (f p)) l m = f p).
Proof.
  intros A f l. induction l as [|p l IH]; intros m; cbn [fold_left].
  - split; [lra|]. split; [intros p []|left; reflexivity].
  - destruct (IH (Rmax m (f p))) as (H1 & H2 & H3). pose proof (Rmax_l m (f p)). pose proof (Rmax_r m (f p)).
    split; [lra|]. split.
    + intros q [<-|I]; [lra|apply H2, I].
    + destruct H3 as [E|(q & I & E)].
      * rewrite E. unfold Rmax. destruct (Rle_dec m (f p)); [right; exists p; split; [left; reflexivity|reflexivity]|left; reflexivity].
      * right. exists q. split; [right; exact I|exact E].
Qed.
Lemma cabs_zero : forall z, cabs z = 0 -> z = (0, 0).
Proof.
  intros [x y] H. unfold cabs, norm in H. cbn [fst snd] in H.
  assert (0 <= x * x + y * y) by nra. apply sqrt_eq_0 in H; [|assumption].
  f_equal; nra.
Qed.

(** ** Two fermionic legs *)
Lemma selfenergy_thermal : forall T v vp F, 0 < T -> thermal Ct T 0 v vp [[O1]; [I1]] F ->
  comp2 F true true = imag (2 * tanh (vp / (2 * T)) * snd (comp2 F true false)).
Proof.
  intros T v vp F HT TH.
  set (X := exp (vp / T)). assert (P : 0 < X) by apply exp_pos.
  assert (L : exp (group_energy Ct 0 v vp [O1] / T) = X) by (unfold X; f_equal; energy).
  assert (A : fst (F [true;true]) = - fst (F [false;false])) by kms (kms_re Ct T 0 v vp _ F TH) [false;false].
  assert (B : fst (F [false;true]) = X * fst (F [true;false])) by (rewrite <- L; kms (kms_re Ct T 0 v vp _ F TH) [true;false]).
  assert (A' : snd (F [true;true]) = snd (F [false;false])) by kms (kms_im Ct T 0 v vp _ F TH) [false;false].
  assert (B' : snd (F [false;true]) = - (X * snd (F [true;false]))) by (rewrite <- L; kms (kms_im Ct T 0 v vp _ F TH) [true;false]).
  pose proof (causal_re Ct T 0 v vp _ F TH) as C. pose proof (causal_im Ct T 0 v vp _ F TH) as C'. cbn in C, C'.
  rewrite tanh_exp by exact HT. fold X.
  assert (Z : fst (F [true;false]) = 0) by (apply Rmult_eq_reg_l with (1 + X); [rewrite A, B in C; lra|lra]).
  rewrite A', B' in C'. assert (D : snd (F [false;false]) = (X - 1) / 2 * snd (F [true;false])) by lra.
  apply injective_projections; cbn.
  - rewrite A, B, Z. ring.
  - rewrite A', B', D. field. lra.
Qed.

(** ** Positive values *)
Lemma causality_fold : forall l n m,
  let r := fold_left (fun a x => match x with
      | Some r => if Rlt_dec 0 r then (S (fst a), Rmax (snd a) r) else a
      | None => a end) l (n, m) in
  fst r = (n + length (filter positive l))%nat /\ m <= snd r /\
  (forall x, In (Some x) l -> 0 < x -> x <= snd r) /\ (snd r = m \/ exists x, In (Some x) l /\ 0 < x /\ snd r = x).
Proof.
  induction l as [|[x|] l IH]; intros n m; cbn [fold_left].
  - cbn. split; [lia|]. split; [lra|]. split; [intros x []|left; reflexivity].
  - cbn [filter positive]. destruct (Rlt_dec 0 x) as [P|P].
    + destruct (IH (S n) (Rmax m x)) as (H1 & H2 & H3 & H4). cbn [fst snd]. pose proof (Rmax_l m x). pose proof (Rmax_r m x).
      split; [rewrite H1; cbn [length]; lia|]. split; [lra|]. split.
      * intros y [[= <-]|I] Py; [lra|apply H3; assumption].
      * destruct H4 as [E|(y & I & Py & E)].
        -- rewrite E. unfold Rmax. destruct (Rle_dec m x); [right; exists x; split; [left; reflexivity|split; [exact P|reflexivity]]|left; reflexivity].
        -- right. exists y. split; [right; exact I|split; assumption].
    + destruct (IH n m) as (H1 & H2 & H3 & H4). split; [exact H1|]. split; [exact H2|]. split.
      * intros y [[= <-]|I] Py; [lra|apply H3; assumption].
      * destruct H4 as [E|(y & I & Py & E)]; [left; exact E|right; exists y; split; [right; exact I|split; assumption]].
  - cbn [filter positive]. destruct (IH n m) as (H1 & H2 & H3 & H4). split; [exact H1|]. split; [exact H2|]. split.
    + intros y [D|I] Py; [discriminate D|apply H3; assumption].
    + destruct H4 as [E|(y & I & Py & E)]; [left; exact E|right; exists y; split; [right; exact I|split; assumption]].
Qed.
Lemma filter_nil : forall (A : Type) (f : A -> bool) l, length (filter f l) = 0%nat <-> Forall (fun x => f x = false) l.
Proof.
  intros A f l. induction l as [|x l IH]; cbn [filter]; [split; [constructor|reflexivity]|].
  destruct (f x) eqn:E; cbn [length].
  - split; [discriminate|]. intros H. inversion H. congruence.
  - rewrite IH. split; [intros H; constructor; assumption|intros H; inversion H; assumption].
Qed.
