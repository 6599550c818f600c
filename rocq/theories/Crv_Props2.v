(** C133: exact values of the resolution measures *)
From Coq Require Import QArith Lqa.
From Verif Require Import Prelude Idx_Model Idx_Spec Arr_Model Vec_Model Crv_Model Crv_Spec.
From Verif Require Crv_Proofs3.
From Verif Require Import Crv_Props.
Open Scope Z_scope.

(** The measures are exactly the largest squared norm of the differences relative to the largest squared modulus, where the
    differences are those of the table read as one row. Partial: the row does not stop at the ends of the frequency axes. *)
Theorem C133_exact_partial : forall x pos nf M,
  good (dd x) (dre x) -> good (dd x) (dim x) -> (1 <= nf <= 3)%nat -> (pos + nf <= length (dd x))%nat ->
  (forall p, (pos <= p < pos + nf)%nat -> 3 <= nth p (dd x) 0) -> largest x M -> (0 < M)%Q ->
  exists cur der, get_curvature_max nf pos x = Some (Fin cur) /\ get_deriv_max nf pos x = Some (Fin der) /\
  is_maximum (fun k => flat_hessian2 (dd x) (dre x) (dim x) (pairs nf pos) k / M)%Q (length (dre x)) cur /\
  is_maximum (fun k => flat_gradient2 (dd x) (dre x) (dim x) (directions nf pos) k / M)%Q (length (dre x)) der.
Proof.
  intros x pos nf M G1 G2 Hn Hd H3 HM HP. pose proof (Kmax2_largest x M G1 G2 HM) as K.
  assert (K0 : ~ (Kmax2 x == 0)%Q) by (rewrite K; intros E; lra).
  destruct (Crv_Proofs3.curvature_exact x pos nf (Logic.conj G1 G2) Hd H3 K0 Hn) as (c & E & U & k & Hk & V).
  destruct (Crv_Proofs3.deriv_exact x pos nf (Logic.conj G1 G2) Hd H3 K0 Hn) as (d & E2 & U2 & k2 & Hk2 & V2).
  exists c, d. split; [exact E|]. split; [exact E2|]. split.
  - split; [intros j Hj; rewrite <- K; apply U; exact Hj|]. exists k. split; [exact Hk|]. rewrite <- K. exact V.
  - split; [intros j Hj; rewrite <- K; apply U2; exact Hj|]. exists k2. split; [exact Hk2|]. rewrite <- K. exact V2.
Qed.
Print Assumptions C133_exact_partial.

(** With a single component and one frequency the row is the frequency axis, and the measures are exact. *)
Theorem C133_one_axis : forall n re im M, 3 <= n < w64 -> Z.of_nat (length re) = n -> Z.of_nat (length im) = n ->
  largest (mkD [n] re im) M -> (0 < M)%Q ->
  let d (f : list Q) (k : nat) := fdiff 1 (length re) (fun j => nth j f 0%Q) k in
  let dd2 (f : list Q) (k : nat) := fdiff 1 (length re) (d f) k in
  exists cur der, get_curvature_max 1 0 (mkD [n] re im) = Some (Fin cur) /\ get_deriv_max 1 0 (mkD [n] re im) = Some (Fin der) /\
  is_maximum (fun k => sq2 (dd2 re k) (dd2 im k) / M)%Q (length re) cur /\
  is_maximum (fun k => sq2 (d re k) (d im k) / M)%Q (length re) der.
Proof.
  intros n re im M Hn Lr Li HM HP d dd2. assert (P : pos_dims [n]) by (constructor; [lia|constructor]).
  assert (G : forall l, Z.of_nat (length l) = n -> good [n] l) by (intros l L; split; [discriminate|]; split; [exact P|]; unfold prodZ; cbn [fold_right]; rewrite Z.mul_1_r; split; [apply Hn|exact L]).
  destruct (C133_exact_partial (mkD [n] re im) 0 1 M) as (c & e & E1 & E2 & (U1 & k1 & Hk1 & V1) & (U2 & k2 & Hk2 & V2)); cbn [dd dre dim length] in *; auto; try lia.
  { intros p Hp. assert (p = 0%nat) as -> by lia. cbn [nth]. lia. }
  exists c, e. split; [exact E1|]. split; [exact E2|].
  assert (S1 : stride [n] 0 = 1%nat) by reflexivity.
  assert (A : forall k, (flat_hessian2 [n] re im (pairs 1 0) k == sq2 (dd2 re k) (dd2 im k))%Q).
  { intros k. unfold flat_hessian2, pairs. cbn [seq flat_map map app fold_right Nat.add Nat.sub]. cbv zeta. rewrite S1. change (1 * sq2 (dd2 re k) (dd2 im k) + 0 == sq2 (dd2 re k) (dd2 im k))%Q. ring. }
  assert (B : forall k, (flat_gradient2 [n] re im (directions 1 0) k == sq2 (d re k) (d im k))%Q).
  { intros k. unfold flat_gradient2, directions. cbn [seq fold_right]. rewrite S1. unfold d, e_. ring. }
  split; (split; [intros j Hj|]).
  - rewrite <- A. apply U1. exact Hj.
  - exists k1. split; [exact Hk1|]. rewrite <- A. exact V1.
  - rewrite <- B. apply U2. exact Hj.
  - exists k2. split; [exact Hk2|]. rewrite <- B. exact V2.
Qed.
Print Assumptions C133_one_axis.

(** the largest value is attained at the first and at the last point *)
Example C133_hyp3 :
  good (dd parabola) (dre parabola) /\ good (dd parabola) (dim parabola) /\ largest parabola 272 /\
  map (fun k => Qred (flat_hessian2 (dd parabola) (dre parabola) (dim parabola) (pairs 1 1) k)) (seq 0 5) = [4; 4; 4; 4; 4]%Q /\
  map (fun k => Qred (flat_gradient2 (dd parabola) (dre parabola) (dim parabola) (directions 1 1) k)) (seq 0 5) = [1; 5; 17; 37; 65]%Q /\
  shown (get_curvature_max 1 1 parabola) = Some (1 # 68)%Q /\ shown (get_deriv_max 1 1 parabola) = Some (65 # 272)%Q.
Proof. destruct C133_hyp as (A & B & C & _). split; [exact A|]. split; [exact B|]. split; [exact C|]. repeat (split; [vm_compute; reflexivity|]). vm_compute. reflexivity. Qed.
Example C133_hyp4 : shown (get_curvature_max 1 0 (mkD [5] [0; 1; 4; 9; 16]%Q [0; 1; 2; 3; 4]%Q)) = Some (1 # 68)%Q. Proof. vm_compute. reflexivity. Qed.
