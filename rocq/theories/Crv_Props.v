(** C133: resolution measures *)
From Coq Require Import QArith Lqa.
From Verif Require Import Prelude Idx_Model Idx_Spec Arr_Model Vec_Model Crv_Model Crv_Spec.
From Verif Require Crv_Proofs Crv_Proofs2.
Open Scope Z_scope.

(** M is the largest squared modulus of the table *)
Definition largest (x : cdat) (M : Q) : Prop :=
  (forall k, (k < length (dre x))%nat -> (sq2 (nth k (dre x) 0) (nth k (dim x) 0) <= M)%Q) /\
  (exists k, (k < length (dre x))%nat /\ (sq2 (nth k (dre x) 0) (nth k (dim x) 0) == M)%Q).
Lemma Kmax2_largest x M : good (dd x) (dre x) -> good (dd x) (dim x) -> largest x M -> (Kmax2 x == M)%Q.
Proof.
  intros (_ & _ & _ & A) (_ & _ & _ & B) (U & (k & Hk & E)). assert (L : length (dre x) = length (dim x)) by lia.
  unfold Kmax2, power2. apply Qle_antisym.
  - destruct (Crv_Proofs.maxq_attained (abs2 (dre x) (dim x))) as [Z0|I].
    { intros q Hq. apply In_nth with (d := 0%Q) in Hq. destruct Hq as (j & Hj & <-).
      rewrite Crv_Proofs.abs2_length in Hj by exact L. rewrite Crv_Proofs.abs2_nth by assumption. unfold sq2. nra. }
    + rewrite Z0. rewrite <- E. unfold sq2. nra.
    + apply In_nth with (d := 0%Q) in I. destruct I as (j & Hj & <-).
      rewrite Crv_Proofs.abs2_length in Hj by exact L. rewrite Crv_Proofs.abs2_nth by assumption. apply U. exact Hj.
  - rewrite <- E. rewrite <- Crv_Proofs.abs2_nth by assumption. apply Crv_Proofs.maxq_nth. rewrite Crv_Proofs.abs2_length by exact L. exact Hk.
Qed.

(** Away from the ends of the frequency axes the measures bound the finite differences of the data: no curvature and no
    slope is missed there. Partial: nothing about points near the ends, no upper bound. *)
Theorem C133_bounds_partial : forall x pos nf M,
  good (dd x) (dre x) -> good (dd x) (dim x) -> (1 <= nf <= 3)%nat -> (pos + nf <= length (dd x))%nat ->
  (forall p, (pos <= p < pos + nf)%nat -> 3 <= nth p (dd x) 0) -> largest x M -> (0 < M)%Q ->
  exists cur der, get_curvature_max nf pos x = Some (Fin cur) /\ get_deriv_max nf pos x = Some (Fin der) /\
  (forall idx, in_range idx (dd x) -> (forall p, In p (directions nf pos) -> inside (dd x) idx p 2) ->
     (hessian2 (at_ (dd x) (dre x)) (at_ (dd x) (dim x)) (pairs nf pos) idx / M <= cur)%Q) /\
  (forall idx, in_range idx (dd x) -> (forall p, In p (directions nf pos) -> inside (dd x) idx p 1) ->
     (gradient2 (at_ (dd x) (dre x)) (at_ (dd x) (dim x)) (directions nf pos) idx / M <= der)%Q).
Proof.
  intros x pos nf M G1 G2 Hn Hd H3 HM HP. pose proof (Kmax2_largest x M G1 G2 HM) as K.
  assert (K0 : ~ (Kmax2 x == 0)%Q) by (rewrite K; intros E; lra).
  destruct (Crv_Proofs2.curvature_lower x pos nf (Logic.conj G1 G2) Hd H3 Hn) as (r & E & _ & V).
  destruct (V K0) as (q & -> & W).
  destruct (Crv_Proofs2.deriv_lower x pos nf (Logic.conj G1 G2) Hd H3 Hn) as (q2 & E2 & _ & V2).
  exists q, q2. split; [exact E|]. split; [exact E2|]. split.
  - intros idx R In. rewrite <- K. apply W; assumption.
  - intros idx R In. rewrite <- K. apply (V2 K0); assumption.
Qed.
Print Assumptions C133_bounds_partial.

(** The measures do not change when all data are multiplied by a complex number. *)
Theorem C133_scale_invariant : forall a b x pos nf, ~ (a == 0 /\ b == 0)%Q ->
  good (dd x) (dre x) -> good (dd x) (dim x) -> (1 <= nf <= 3)%nat -> (pos + nf <= length (dd x))%nat ->
  (forall p, (pos <= p < pos + nf)%nat -> 3 <= nth p (dd x) 0) ->
  let y := mkD (dd x) (map (fun p => a * fst p - b * snd p)%Q (combine (dre x) (dim x)))
                      (map (fun p => a * snd p + b * fst p)%Q (combine (dre x) (dim x))) in
  exists c c' d d', get_curvature_max nf pos x = Some c /\ get_curvature_max nf pos y = Some c' /\
    get_deriv_max nf pos x = Some d /\ get_deriv_max nf pos y = Some d' /\
    match c, c' with NaN, NaN => True | Fin p, Fin q => (p == q)%Q | _, _ => False end /\
    match d, d' with NaN, NaN => True | Fin p, Fin q => (p == q)%Q | _, _ => False end.
Proof.
  intros a b x pos nf Hab G1 G2 Hn Hd H3 y.
  assert (Hc : (0 < Crv_Proofs2.c2 a b)%Q).
  { unfold Crv_Proofs2.c2. destruct (Qlt_le_dec 0 (a * a + b * b)) as [L|L]; [exact L|]. exfalso. apply Hab.
    assert (Sa : (0 <= a * a)%Q) by nra. assert (Sb : (0 <= b * b)%Q) by nra.
    assert (A0 : (a * a == 0)%Q) by lra. assert (B0 : (b * b == 0)%Q) by lra.
    apply Qmult_integral in A0. apply Qmult_integral in B0. split; tauto. }
  assert (HS : Crv_Proofs2.scaled a b x y).
  { destruct (G1) as (A1 & A2 & A3 & A4). destruct (G2) as (_ & _ & _ & B4).
    assert (L : length (combine (dre x) (dim x)) = length (dre x)) by (rewrite combine_length; lia).
    split; [split; assumption|]. split.
    { split; (split; [exact A1|]; split; [exact A2|]; split; [exact A3|]); cbn [dre dim dd y]; rewrite map_length, L; exact A4. }
    split; [reflexivity|]. intros k Hk. unfold Crv_Spec.e_. cbn [dre dim y].
    rewrite !(nth_indep (map _ _) 0%Q (a * fst (0, 0) - b * snd (0, 0))%Q) by (rewrite map_length; lia).
    rewrite (map_nth (fun p => a * fst p - b * snd p)%Q).
    rewrite (nth_indep (map _ _) (a * fst (0, 0) - b * snd (0, 0))%Q (a * snd (0, 0) + b * fst (0, 0))%Q) by (rewrite map_length; lia).
    rewrite (map_nth (fun p => a * snd p + b * fst p)%Q).
    rewrite combine_nth by lia. cbn [fst snd]. split; reflexivity. }
  destruct (Crv_Proofs2.curvature_scaled a b x y pos nf Hc HS Hd H3 Hn) as (c & c' & E1 & E2 & V).
  destruct (Crv_Proofs2.deriv_scaled a b x y pos nf Hc HS Hd H3 Hn) as (d & d' & E3 & E4 & W).
  exists c, c', d, d'. repeat (split; [assumption|]). exact W.
Qed.
Print Assumptions C133_scale_invariant.

(** Data that do not depend on the frequency have a curvature, if they differ between two components. *)
Theorem C133_constant_refuted :
  let x := mkD [2; 5] [1; 1; 1; 1; 1; 3; 3; 3; 3; 3]%Q (repeat 0%Q 10) in
  good (dd x) (dre x) /\ good (dd x) (dim x) /\
  (forall s i, 0 <= s < 2 -> 0 <= i < 5 -> at_ (dd x) (dre x) [s; i] = at_ (dd x) (dre x) [s; 0]) /\
  exists c d, get_curvature_max 1 1 x = Some (Fin c) /\ get_deriv_max 1 1 x = Some (Fin d) /\ (0 < c)%Q /\ (0 < d)%Q.
Proof.
  cbv zeta. assert (P : pos_dims [2; 5]) by (repeat constructor).
  split; [split; [discriminate|split; [exact P|split; reflexivity]]|].
  split; [split; [discriminate|split; [exact P|split; reflexivity]]|]. split.
  - intros s i Hs Hi. assert (s = 0 \/ s = 1) as [-> | ->] by lia;
    assert (i = 0 \/ i = 1 \/ i = 2 \/ i = 3 \/ i = 4) as [-> | [-> | [-> | [-> | ->]]]] by lia; reflexivity.
  - eexists. eexists. split; [vm_compute; reflexivity|]. split; [vm_compute; reflexivity|]. split; reflexivity.
Qed.
Print Assumptions C133_constant_refuted.

(** For data that vanish everywhere the curvature is 0/0 with two or three frequencies, and zero with one. *)
Theorem C133_zero_data_refuted : forall x pos nf,
  good (dd x) (dre x) -> good (dd x) (dim x) -> (1 <= nf <= 3)%nat -> (pos + nf <= length (dd x))%nat ->
  (forall p, (pos <= p < pos + nf)%nat -> 3 <= nth p (dd x) 0) -> largest x 0 ->
  get_curvature_max nf pos x = Some (if (nf =? 1)%nat then Fin 0%Q else NaN) /\ get_deriv_max nf pos x = Some (Fin 0%Q).
Proof.
  intros x pos nf G1 G2 Hn Hd H3 HM. pose proof (Kmax2_largest x 0 G1 G2 HM) as K.
  destruct (Crv_Proofs2.curvature_lower x pos nf (Logic.conj G1 G2) Hd H3 Hn) as (r & E & V & _).
  destruct (Crv_Proofs2.deriv_lower x pos nf (Logic.conj G1 G2) Hd H3 Hn) as (q2 & E2 & V2 & _).
  rewrite E, E2, (V K), (V2 K). split; reflexivity.
Qed.
Print Assumptions C133_zero_data_refuted.

(** five points of x^2 + i x with one component *)
Definition parabola : cdat := mkD [1; 5] [0; 1; 4; 9; 16]%Q [0; 1; 2; 3; 4]%Q.
Definition saddle : cdat :=
  mkD [1; 5; 5] (map (fun k => inject_Z ((k / 5 - 2) * (k mod 5 - 1))) (map Z.of_nat (seq 0 25))) (repeat 0%Q 25).
Definition shown (o : option fl) : option Q := match o with Some (Fin q) => Some (Qred q) | _ => None end.
Example C133_hyp :
  good (dd parabola) (dre parabola) /\ good (dd parabola) (dim parabola) /\ largest parabola 272 /\
  3 <= nth 1 (dd parabola) 0 /\ in_range [0; 2] (dd parabola) /\ inside (dd parabola) [0; 2] 1 2 /\
  shown (get_curvature_max 1 1 parabola) = Some (1 # 68)%Q /\
  Qred (hessian2 (at_ (dd parabola) (dre parabola)) (at_ (dd parabola) (dim parabola)) (pairs 1 1) [0; 2]) = 4%Q /\
  shown (get_deriv_max 1 1 parabola) = Some (65 # 272)%Q /\
  Qred (gradient2 (at_ (dd parabola) (dre parabola)) (at_ (dd parabola) (dim parabola)) (directions 1 1) [0; 3]) = 37%Q.
Proof.
  assert (P : pos_dims [1; 5]) by (repeat constructor).
  split; [split; [discriminate|split; [exact P|split; reflexivity]]|].
  split; [split; [discriminate|split; [exact P|split; reflexivity]]|].
  split. { split; [|exists 4%nat; split; [cbn; lia|reflexivity]].
    intros k Hk. cbn [dre parabola length] in Hk. do 5 (destruct k as [|k]; [vm_compute; discriminate|]). lia. }
  split; [discriminate|]. split; [constructor; [lia|constructor; [lia|constructor]]|]. split; [unfold inside; cbn; lia|].
  repeat (split; [vm_compute; reflexivity|]). vm_compute; reflexivity.
Qed.
Example C133_hyp2 :
  good (dd saddle) (dre saddle) /\ shown (get_curvature_max 2 1 saddle) <> None /\ Qred (Kmax2 saddle) = 36%Q /\
  Qred (hessian2 (at_ (dd saddle) (dre saddle)) (at_ (dd saddle) (dim saddle)) (pairs 2 1) [0; 2; 2]) = 2%Q.
Proof.
  split; [split; [discriminate|split; [repeat constructor|split; reflexivity]]|].
  split; [vm_compute; discriminate|]. split; vm_compute; reflexivity.
Qed.
