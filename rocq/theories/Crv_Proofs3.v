(** Exact values of the resolution measures *)
From Coq Require Import QArith Lqa Setoid.
From Verif Require Import Prelude Idx_Model Idx_Spec Idx_Proofs Arr_Model Arr_Spec Arr_Proofs Vec_Model Crv_Model Crv_Spec Crv_Proofs Crv_Proofs2.
Open Scope Z_scope.

Lemma len_im x : okd x -> length (dim x) = length (dre x).
Proof. intros ((_ & _ & _ & A) & (_ & _ & _ & B)). lia. Qed.
Lemma f1 x p : okd x -> (p < length (dd x))%nat -> 3 <= nth p (dd x) 0 -> exists y, cderiv x p = Some y /\ okd y /\ dd y = dd x /\ length (dre y) = length (dre x) /\
  (forall k, (k < length (dre x))%nat -> e_ (dre y) k = fdiff (stride (dd x) p) (length (dre x)) (e_ (dre x)) k /\ e_ (dim y) k = fdiff (stride (dd x) p) (length (dre x)) (e_ (dim x)) k).
Proof.
  intros O Hp Hd. pose proof (len_im x O) as L. destruct O as (G1 & G2).
  destruct (pd_flat _ _ p _ G1 (nth_error_of_nth _ _ Hp) Hd) as (r1 & E1 & L1 & V1). destruct (pd_flat _ _ p _ G2 (nth_error_of_nth _ _ Hp) Hd) as (r2 & E2 & L2 & V2).
  exists (mkD (dd x) r1 r2). unfold cderiv. rewrite E1, E2. cbn [obind dd dre dim]. split; [reflexivity|]. split; [|split; [reflexivity|split; [exact L1|]]].
  - destruct G1 as (A & B & C & D), G2 as (_ & _ & _ & D'). unfold okd, good. cbn [dd dre dim]. repeat split; auto; congruence.
  - intros k Hk. rewrite V1, V2 by lia. rewrite L. split; reflexivity.
Qed.
Lemma p1 x p : okd x -> (p < length (dd x))%nat -> 3 <= nth p (dd x) 0 -> exists y, cderiv x p = Some y /\ length (power2 y) = length (dre x) /\
  forall k, (k < length (dre x))%nat -> (nth k (power2 y) 0 == sq2 (fdiff (stride (dd x) p) (length (dre x)) (e_ (dre x)) k) (fdiff (stride (dd x) p) (length (dre x)) (e_ (dim x)) k))%Q.
Proof.
  intros O Hp Hd. destruct (f1 x p O Hp Hd) as (y & E & Oy & _ & L & V). exists y. split; [exact E|]. pose proof (len_im y Oy) as Ly. split; [unfold power2; rewrite abs2_length; lia|].
  intros k Hk. unfold power2. rewrite abs2_nth by lia. destruct (V k Hk) as [A B]. unfold e_ in A, B at 1. fold (e_ (dim y) k) in *. apply sq2_eq; [rewrite <- (proj1 (V k Hk))|rewrite <- (proj2 (V k Hk))]; reflexivity.
Qed.
Lemma p2 x p q : okd x -> (p < length (dd x))%nat -> 3 <= nth p (dd x) 0 -> (q < length (dd x))%nat -> 3 <= nth q (dd x) 0 ->
  exists y, cderiv2 x p q = Some y /\ length (power2 y) = length (dre x) /\
  forall k, (k < length (dre x))%nat -> (nth k (power2 y) 0 == sq2 (fdiff (stride (dd x) q) (length (dre x)) (fdiff (stride (dd x) p) (length (dre x)) (e_ (dre x))) k)
    (fdiff (stride (dd x) q) (length (dre x)) (fdiff (stride (dd x) p) (length (dre x)) (e_ (dim x))) k))%Q.
Proof.
  intros O Hp Hd Hq Hd2. destruct (f1 x p O Hp Hd) as (y & E & Oy & Ey & L & V). rewrite <- Ey in Hq, Hd2. destruct (p1 y q Oy Hq Hd2) as (z & E2 & Lz & V2).
  exists z. unfold cderiv2. rewrite E. cbn [obind]. split; [exact E2|]. split; [lia|]. intros k Hk. rewrite V2 by lia. rewrite Ey, L.
  destruct (stride_bound (dd x) (dre x) q (proj1 O) ltac:(rewrite <- Ey; exact Hq) ltac:(rewrite <- Ey; exact Hd2)) as (S1 & S2).
  apply sq2_eq; apply fdiff_ext; try assumption; intros j Hj; [rewrite (proj1 (V j Hj))|rewrite (proj2 (V j Hj))]; reflexivity.
Qed.
Lemma maxq_is l f n : length l = n -> (0 < n)%nat -> (forall k, (k < n)%nat -> (nth k l 0 == f k)%Q) -> (forall k, (k < n)%nat -> (0 <= f k)%Q) -> is_maximum f n (maxq l).
Proof.
  intros L Hn V P. assert (U : forall k, (k < n)%nat -> (f k <= maxq l)%Q) by (intros k Hk; rewrite <- V by exact Hk; apply maxq_nth; lia). split; [exact U|].
  destruct (maxq_attained l) as [Z0|I].
  - intros q Hq. apply In_nth with (d := 0%Q) in Hq. destruct Hq as (k & Hk & <-). rewrite V by lia. apply P. lia.
  - exists 0%nat. split; [exact Hn|]. pose proof (U 0%nat Hn). pose proof (P 0%nat Hn). rewrite Z0 in *. apply Qle_antisym; assumption.
  - apply In_nth with (d := 0%Q) in I. destruct I as (k & Hk & E). exists k. split; [lia|]. rewrite <- V by lia. rewrite E. reflexivity.
Qed.
Lemma sq2_nonneg a b : (0 <= sq2 a b)%Q. Proof. unfold sq2. nra. Qed.
Lemma hess_nonneg dims re im nf pos k : (0 <= flat_hessian2 dims re im (pairs nf pos) k)%Q.
Proof.
  unfold flat_hessian2. cbv zeta. assert (H : forall p q m, In (p, q, m) (pairs nf pos) -> (0 <= m)%Q).
  { intros p q m I. unfold pairs in I. apply in_flat_map in I. destruct I as (i & _ & [I|I]); [injection I as <- <- <-; lra|]. apply in_map_iff in I. destruct I as (j & I & _). injection I as <- <- <-. lra. }
  revert H. generalize (pairs nf pos). induction l as [|[[p q] m] l IH]; intros H; cbn [fold_right]; [lra|].
  assert (0 <= m)%Q by (apply (H p q); left; reflexivity). assert (IH' := IH ltac:(intros ? ? ? I; eapply H; right; exact I)).
  match goal with |- (0 <= m * sq2 ?a ?b + _)%Q => pose proof (sq2_nonneg a b) end. assert (forall u v, 0 <= u -> 0 <= v -> 0 <= u * v)%Q by (intros; nra).
  match goal with |- (0 <= m * ?s + _)%Q => pose proof (H2 m s H0 H1) end. lra.
Qed.
Lemma grad_nonneg dims re im ps k : (0 <= flat_gradient2 dims re im ps k)%Q.
Proof. unfold flat_gradient2. induction ps as [|p ps IH]; cbn [fold_right]; [lra|]. match goal with |- (0 <= sq2 ?a ?b + _)%Q => pose proof (sq2_nonneg a b) end. lra. Qed.
Lemma max_scaled f n m K : (0 < K)%Q -> is_maximum f n m -> is_maximum (fun k => f k / K)%Q n (m / K)%Q.
Proof.
  intros HK (U & k & Hk & E). split; [intros j Hj; apply div_le; [exact HK|apply U; exact Hj]|]. exists k. split; [exact Hk|]. rewrite E. reflexivity.
Qed.

Lemma nonempty x : okd x -> (0 < length (dre x))%nat.
Proof. intros ((A & B & C & D) & _). pose proof (prodZ_pos _ B). lia. Qed.

Section Exact.
Variables (x : cdat) (pos nf : nat).
Hypothesis O : okd x.
Hypothesis Hdim : (pos + nf <= length (dd x))%nat.
Hypothesis H3 : forall p, (pos <= p < pos + nf)%nat -> 3 <= nth p (dd x) 0.
Hypothesis K0 : ~ (Kmax2 x == 0)%Q.
Lemma Kp : (0 < Kmax2 x)%Q /\ Qeq_bool (Kmax2 x) 0 = false.
Proof.
  destruct (Qeq_bool (Kmax2 x) 0) eqn:E; [apply Qeq_bool_iff in E; contradiction|]. split; [apply Kmax2_pos; exact E|reflexivity].
Qed.
Lemma curvature_exact : (1 <= nf <= 3)%nat -> exists q, get_curvature_max nf pos x = Some (Fin q) /\
  is_maximum (fun k => flat_hessian2 (dd x) (dre x) (dim x) (pairs nf pos) k / Kmax2 x)%Q (length (dre x)) q.
Proof.
  intros Hn. destruct Kp as [KP EK].
  assert (G : forall p q, (pos <= p < pos + nf)%nat -> (pos <= q < pos + nf)%nat -> exists y, cderiv2 x p q = Some y /\ length (power2 y) = length (dre x) /\
    forall k, (k < length (dre x))%nat -> (nth k (power2 y) 0 == sq2 (fdiff (stride (dd x) q) (length (dre x)) (fdiff (stride (dd x) p) (length (dre x)) (e_ (dre x))) k)
    (fdiff (stride (dd x) q) (length (dre x)) (fdiff (stride (dd x) p) (length (dre x)) (e_ (dim x))) k))%Q).
  { intros p q Hp Hq. apply p2; try assumption; try lia; apply H3; assumption. }
  pose proof (hess_nonneg (dd x) (dre x) (dim x) nf pos) as Nn. unfold pairs in *.
  destruct nf as [|[|[|[|n]]]]; try lia; cbn [get_curvature_max seq flat_map map app] in *.
  - replace (pos + 1 - S pos)%nat with 0%nat in * by lia. cbn [seq map app] in *.
    destruct (G pos pos) as (xx & E1 & L1 & V1); try lia. rewrite E1. cbn [obind]. rewrite EK. eexists. split; [reflexivity|]. apply max_scaled; [exact KP|].
    apply maxq_is; [exact L1|exact (nonempty _ O)| |intros; apply Nn]. intros k Hk. rewrite V1 by exact Hk. unfold flat_hessian2. cbn [fold_right]. ring.
  - replace (pos + 2 - S pos)%nat with 1%nat in * by lia. replace (pos + 2 - S (S pos))%nat with 0%nat in * by lia. cbn [seq map app] in *. replace (pos + 1)%nat with (S pos) by lia.
    destruct (G pos pos) as (xx & E1 & L1 & V1); try lia. destruct (G (S pos) (S pos)) as (yy & E2 & L2 & V2); try lia. destruct (G (S pos) pos) as (xy & E3 & L3 & V3); try lia.
    rewrite E1, E2, E3. cbn [obind]. cbv zeta. rewrite EK. eexists. split; [reflexivity|]. apply max_scaled; [exact KP|].
    apply maxq_is; [rewrite !addl_length; rewrite ?addl_length, ?twice_length; lia|exact (nonempty _ O)| |intros; apply Nn].
    intros k Hk. rewrite addl_nth, addl_nth, twice_nth by (rewrite ?addl_length, ?twice_length; lia). rewrite V1, V2, V3 by exact Hk. unfold flat_hessian2. cbn [fold_right]. ring.
  - replace (pos + 3 - S pos)%nat with 2%nat in * by lia. replace (pos + 3 - S (S pos))%nat with 1%nat in * by lia. replace (pos + 3 - S (S (S pos)))%nat with 0%nat in * by lia.
    cbn [seq map app] in *. replace (pos + 1)%nat with (S pos) by lia. replace (pos + 2)%nat with (S (S pos)) by lia.
    destruct (G pos pos) as (xx & E1 & L1 & V1); try lia. destruct (G (S pos) (S pos)) as (yy & E2 & L2 & V2); try lia. destruct (G (S pos) pos) as (xy & E3 & L3 & V3); try lia.
    destruct (G (S (S pos)) (S (S pos))) as (zz & E4 & L4 & V4); try lia. destruct (G (S (S pos)) pos) as (xz & E5 & L5 & V5); try lia. destruct (G (S (S pos)) (S pos)) as (yz & E6 & L6 & V6); try lia.
    rewrite E1, E2, E3, E4, E5, E6. cbn [obind]. cbv zeta. rewrite EK. eexists. split; [reflexivity|]. apply max_scaled; [exact KP|].
    match goal with |- is_maximum _ _ (maxq (addl ?a ?b)) =>
      assert (La : length a = length (dre x)) by (rewrite !addl_length; rewrite ?addl_length; lia);
      assert (Lb : length b = length (dre x)) by (rewrite twice_length, !addl_length; rewrite ?addl_length; lia) end.
    apply maxq_is; [rewrite addl_length; lia|exact (nonempty _ O)| |intros; apply Nn].
    intros k Hk. rewrite addl_nth by lia. rewrite twice_nth by (rewrite !addl_length; rewrite ?addl_length; lia).
    rewrite addl_nth by (rewrite ?addl_length; lia). rewrite addl_nth by (rewrite ?addl_length; lia). rewrite addl_nth by (rewrite ?addl_length; lia). rewrite addl_nth by (rewrite ?addl_length; lia).
    rewrite V1, V2, V3, V4, V5, V6 by exact Hk. unfold flat_hessian2. cbn [fold_right]. ring.
Qed.
Lemma deriv_exact : (1 <= nf <= 3)%nat -> exists q, get_deriv_max nf pos x = Some (Fin q) /\
  is_maximum (fun k => flat_gradient2 (dd x) (dre x) (dim x) (directions nf pos) k / Kmax2 x)%Q (length (dre x)) q.
Proof.
  intros Hn. destruct Kp as [KP EK].
  assert (G : forall p, (pos <= p < pos + nf)%nat -> exists y, cderiv x p = Some y /\ length (power2 y) = length (dre x) /\
    forall k, (k < length (dre x))%nat -> (nth k (power2 y) 0 == sq2 (fdiff (stride (dd x) p) (length (dre x)) (e_ (dre x)) k) (fdiff (stride (dd x) p) (length (dre x)) (e_ (dim x)) k))%Q).
  { intros p Hp. apply p1; try assumption; try lia. apply H3. assumption. }
  pose proof (grad_nonneg (dd x) (dre x) (dim x) (directions nf pos)) as Nn. unfold directions, get_deriv_max in *.
  destruct nf as [|[|[|[|n]]]]; try lia; cbn [seq] in *.
  - destruct (G pos) as (dx & E1 & L1 & V1); try lia. rewrite E1. cbn [obind]. rewrite EK. eexists. split; [reflexivity|]. apply max_scaled; [exact KP|].
    apply maxq_is; [exact L1|exact (nonempty _ O)| |intros; apply Nn]. intros k Hk. rewrite V1 by exact Hk. unfold flat_gradient2. cbn [fold_right]. ring.
  - replace (pos + 1)%nat with (S pos) by lia. destruct (G pos) as (dx & E1 & L1 & V1); try lia. destruct (G (S pos)) as (dy & E2 & L2 & V2); try lia.
    rewrite E1, E2. cbn [obind]. rewrite EK. eexists. split; [reflexivity|]. apply max_scaled; [exact KP|].
    apply maxq_is; [rewrite addl_length; lia|exact (nonempty _ O)| |intros; apply Nn]. intros k Hk. rewrite addl_nth by lia. rewrite V1, V2 by exact Hk. unfold flat_gradient2. cbn [fold_right]. ring.
  - replace (pos + 1)%nat with (S pos) by lia. replace (pos + 2)%nat with (S (S pos)) by lia.
    destruct (G pos) as (dx & E1 & L1 & V1); try lia. destruct (G (S pos)) as (dy & E2 & L2 & V2); try lia. destruct (G (S (S pos))) as (dz & E3 & L3 & V3); try lia.
    rewrite E1, E2, E3. cbn [obind]. rewrite EK. eexists. split; [reflexivity|]. apply max_scaled; [exact KP|].
    apply maxq_is; [rewrite !addl_length; rewrite ?addl_length; lia|exact (nonempty _ O)| |intros; apply Nn]. intros k Hk. rewrite addl_nth, addl_nth by (rewrite ?addl_length; lia).
    rewrite V1, V2, V3 by exact Hk. unfold flat_gradient2. cbn [fold_right]. ring.
Qed.
End Exact.
