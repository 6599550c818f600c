(** Theorems for C24 (reducible vertex) and C77 (full vertex): completeness of the decomposition. *)
From Coq Require Import QArith.
From Verif Require Import Prelude Cplx Keld_Model Util_Spec Util_Proofs Sym_Model Sym_Spec Tab_Model Sym_Proofs Sym_Proofs2 Dec_Model.
Open Scope Z_scope.

Definition sums_to (total a b : option cplx) : Prop :=
  exists x y z, a = Some x /\ b = Some y /\ total = Some z /\ (z == x + y)%C.

Lemma transfToR_same : forall ch f, transfToR false ch (Bch ch) f = Some f.
Proof. intros ch [[a b] c]. destruct ch; reflexivity. Qed.
Lemma transfToR_same_mf : forall ch f, mats f -> transfToR true ch (Bch ch) f = Some f.
Proof.
  intros ch [[a b] c] (H & _ & _). destruct (half_split_spec a H) as (lo & hi & E & _).
  cbn [transfToR]. rewrite E. cbn [obind]. destruct ch; reflexivity.
Qed.
Definition freq_ok (m : bool) (f : Q * Q * Q) : Prop := m = true -> mats f.
Lemma transfToR_id : forall m ch f, freq_ok m f -> transfToR m ch (Bch ch) f = Some f.
Proof. intros [] ch f H; [apply transfToR_same_mf, H; reflexivity|apply transfToR_same]. Qed.
Lemma transfToR_some : forall m ch b f, freq_ok m f -> exists g, transfToR m ch (Bch b) f = Some g.
Proof.
  intros [] ch b f H.
  - destruct (conv_mf ch b f (H eq_refl)) as (g & E & _). eauto.
  - destruct (conv_legs ch b f) as (g & E & _). eauto.
Qed.
Lemma levels : forall n, 1 <= n <= 3 -> n = 1 \/ n = 2 \/ n = 3.
Proof. lia. Qed.
Ltac ev := cbn [Z.leb Z.ltb Z.eqb Z.compare Pos.compare Pos.compare_cont Pos.eqb].
Ltac fin := unfold sums_to; do 3 eexists; split; [reflexivity|]; split; [reflexivity|]; split; [reflexivity|]; ring.

(** ** C24 *)
Theorem C24_value_is_left_same_plus_left_different : forall m n ch r f, 1 <= n <= 3 -> freq_ok m f ->
  sums_to (r_value m false n ch (Bch ch) r f) (r_left_same false n r f) (r_left_diff false n r f).
Proof.
  intros m n ch r f Hn Hf. unfold r_value, r_left_same, r_left_diff. rewrite transfToR_id by exact Hf. cbn [obind].
  destruct (levels n Hn) as [-> | [-> | ->]]; ev; fin.
Qed.
Print Assumptions C24_value_is_left_same_plus_left_different.
Theorem C24_value_is_right_same_plus_right_different : forall m n ch r f, 1 <= n <= 3 -> freq_ok m f ->
  sums_to (r_value m false n ch (Bch ch) r f) (r_right_same false n r f) (r_right_diff false n r f).
Proof.
  intros m n ch r f Hn Hf. unfold r_value, r_right_same, r_right_diff. rewrite transfToR_id by exact Hf. cbn [obind].
  destruct (levels n Hn) as [-> | [-> | ->]]; ev; fin.
Qed.
Print Assumptions C24_value_is_right_same_plus_right_different.
(** the symmetry-expanded accessors *)
Theorem C24_expanded_decomposition : forall m n ch r q f, 1 <= n <= 3 -> freq_ok m f ->
  sums_to (x_value m false n ch (Bch ch) r q f) (x_left_same false n r f) (x_left_diff false n r f) /\
  sums_to (x_value m false n ch (Bch ch) r q f) (x_right_same false n r f) (x_right_diff false n r f).
Proof.
  intros m n ch r q f Hn Hf. unfold x_value, x_left_same, x_left_diff, x_right_same, x_right_diff.
  rewrite transfToR_id by exact Hf. cbn [obind].
  destruct (levels n Hn) as [-> | [-> | ->]]; ev; split; fin.
Qed.
Print Assumptions C24_expanded_decomposition.
(** which classes are in the parts: the parts called "same" depend on one fermionic frequency less *)
Theorem C24_same_parts_ignore_their_own_frequency : forall n r w v v' u,
  1 <= n <= 3 ->
  (forall x y z z', r k1 (x, y, z) = r k1 (x, y, z')) -> (forall x y y' z, r k1 (x, y, z) = r k1 (x, y', z)) ->
  (forall x y z z', r k2 (x, y, z) = r k2 (x, y, z')) -> (forall x y y' z, r k2b (x, y, z) = r k2b (x, y', z)) ->
  r_left_same false n r (w, v, v') = r_left_same false n r (w, u, v') /\
  r_right_same false n r (w, v, v') = r_right_same false n r (w, v, u).
Proof.
  intros n r w v v' u Hn A B C D. unfold r_left_same, r_right_same.
  destruct (levels n Hn) as [-> | [-> | ->]]; ev;
  (split; [rewrite (B w v u v'), ?(D w v u v') | rewrite (A w v v' u), ?(C w v v' u)]; reflexivity).
Qed.
Print Assumptions C24_same_parts_ignore_their_own_frequency.
Definition demo_r : rvertex := fun k f => match k with k1 => Cplx 1 2 | k2 => Cplx 3 (fst (fst f)) | k2b => Cplx 5 0 | k3 => Cplx 7 1 end.
Example C24_hyp : freq_ok true (2, 3, -5)%Q /\ freq_ok false (1#3, 1#5, 0)%Q /\
  r_value true false 2 Cp (Bch Cp) demo_r (2, 3, -5)%Q = Some (Cplx 1 2 + Cplx 3 2 + Cplx 5 0)%C /\
  r_left_same false 2 demo_r (2, 3, -5)%Q = Some (Cplx 1 2 + Cplx 5 0)%C.
Proof.
  split; [intros _|split; [intro H; discriminate|split; reflexivity]].
  split; [exists 1|split; [exists 1|exists (-3)]]; reflexivity.
Qed.

(** ** C77 *)
Lemma r_value_some : forall m n ch b r f, 1 <= n <= 3 -> freq_ok m f -> exists z, r_value m false n ch (Bch b) r f = Some z.
Proof.
  intros m n ch b r f Hn Hf. unfold r_value. destruct (transfToR_some m ch b f Hf) as (g & ->). cbn [obind].
  destruct (levels n Hn) as [-> | [-> | ->]]; ev; eauto.
Qed.
Lemma parts_total : forall m n ch r f, 1 <= n <= 3 -> freq_ok m f -> exists z x y x' y',
  r_value m false n ch (Bch ch) r f = Some z /\ r_left_same false n r f = Some x /\ r_left_diff false n r f = Some y /\
  r_right_same false n r f = Some x' /\ r_right_diff false n r f = Some y' /\ (z == x + y)%C /\ (z == x' + y')%C.
Proof.
  intros m n ch r f Hn Hf.
  destruct (C24_value_is_left_same_plus_left_different m n ch r f Hn Hf) as (x & y & z & E1 & E2 & E3 & E4).
  destruct (C24_value_is_right_same_plus_right_different m n ch r f Hn Hf) as (x' & y' & z' & E1' & E2' & E3' & E4').
  rewrite E3 in E3'. injection E3' as <-. exists z, x, y, x', y'. auto 8.
Qed.
Lemma Ceq_sum : forall a b c : cplx, (a == b + c)%C -> exists d, a = d /\ (d == b + c)%C.
Proof. eauto. Qed.

(** symmetric vertices: for the full vertex the two parts add up at every truncation *)
Theorem C77_full_vertex_decomposition_partial : forall m n b v f, 1 <= n <= 3 -> freq_ok m f ->
  sums_to (g_value m false n symmetric_full b v f)
          (g_left_same false n symmetric_full b v f) (g_left_diff m false n symmetric_full b v f) /\
  sums_to (g_value m false n symmetric_full b v f)
          (g_right_same false n symmetric_full b v f) (g_right_diff m false n symmetric_full b v f).
Proof.
  intros m n b v f Hn Hf.
  unfold g_value, g_left_same, g_right_same, g_left_diff, g_right_diff, is_r_irred, is_diff,
    f_value, f_left_same, f_left_diff, f_right_same, f_right_diff, gammaRb.
  destruct (parts_total m n b (get_r v b) f Hn Hf) as (z & x & y & x' & y' & E1 & E2 & E3 & E4 & E5 & D1 & D2).
  rewrite E2, E3, E4, E5.
  destruct (r_value_some m n Ca b (av v) f Hn Hf) as (za & Za), (r_value_some m n Cp b (pv v) f Hn Hf) as (zp & Zp),
    (r_value_some m n Ct b (tv v) f Hn Hf) as (zt & Zt).
  destruct b; cbn [get_r] in *; rewrite Za, Zp, Zt; cbn [oadd obind];
  split; unfold sums_to; do 3 eexists; (split; [reflexivity|]; split; [reflexivity|]; split; [reflexivity|]);
  try (rewrite Za in E1); try (rewrite Zp in E1); try (rewrite Zt in E1); injection E1 as ->;
  (rewrite D1 + rewrite D2); ring.
Qed.
Print Assumptions C77_full_vertex_decomposition_partial.
Theorem C77_r_irreducible_decomposition_partial : forall m n b v f, 2 <= n <= 3 -> freq_ok m f ->
  sums_to (g_value m false n symmetric_r_irred b v f)
          (g_left_same false n symmetric_r_irred b v f) (g_left_diff m false n symmetric_r_irred b v f) /\
  sums_to (g_value m false n symmetric_r_irred b v f)
          (g_right_same false n symmetric_r_irred b v f) (g_right_diff m false n symmetric_r_irred b v f).
Proof.
  intros m n b v f Hn Hf.
  unfold g_value, g_left_same, g_right_same, g_left_diff, g_right_diff, is_r_irred,
    f_value, f_left_same, f_left_diff, f_right_same, f_right_diff, gammaRb.
  assert (L : (2 <=? n) = true) by lia. rewrite L.
  destruct (r_value_some m n Ca b (av v) f ltac:(lia) Hf) as (za & Za), (r_value_some m n Cp b (pv v) f ltac:(lia) Hf) as (zp & Zp),
    (r_value_some m n Ct b (tv v) f ltac:(lia) Hf) as (zt & Zt).
  destruct b; cbn [get_r]; rewrite ?Za, ?Zp, ?Zt; cbn [oadd obind]; split; fin.
Qed.
Print Assumptions C77_r_irreducible_decomposition_partial.
(** differentiated non-symmetric vertices: the parts contain the bare vertex and the own channel only;
    the value contains the other channels as well *)
Theorem C77_differentiated_parts_partial : forall m n s b v f, is_diff s = true -> 1 <= n <= 3 -> freq_ok m f ->
  exists ls ld rs rd z g,
    g_left_same false n s b v f = Some ls /\ g_left_diff m false n s b v f = Some ld /\
    g_right_same false n s b v f = Some rs /\ g_right_diff m false n s b v f = Some rd /\
    g_value m false n s b v f = Some z /\ gammaRb m false n b v f = Some g /\
    (z == ls + ld + g)%C /\ (z == rs + rd + g)%C /\
    exists e own, g_value_expanded m false n s b v f = Some e /\ r_value m false n b (Bch b) (get_r v b) f = Some own /\
      (z == e + own)%C.
Proof.
  intros m n s b v f Hs Hn Hf.
  destruct (parts_total m n b (get_r v b) f Hn Hf) as (z & x & y & x' & y' & E1 & E2 & E3 & E4 & E5 & D1 & D2).
  destruct (r_value_some m n Ca b (av v) f Hn Hf) as (za & Za), (r_value_some m n Cp b (pv v) f Hn Hf) as (zp & Zp),
    (r_value_some m n Ct b (tv v) f Hn Hf) as (zt & Zt).
  destruct s; try discriminate;
  unfold g_value, g_left_same, g_right_same, g_left_diff, g_right_diff, g_value_expanded, is_r_irred, is_diff, is_full,
    f_value, f_left_same, f_left_diff, f_right_same, f_right_diff, gammaRb; cbn [negb];
  rewrite E1, E2, E3, E4, E5;
  destruct b; cbn [get_r] in *; rewrite ?Za, ?Zp, ?Zt; cbn [oadd obind];
  try (rewrite Za in E1); try (rewrite Zp in E1); try (rewrite Zt in E1); injection E1 as ->;
  do 6 eexists; do 6 (split; [reflexivity|]);
  (split; [rewrite D1; ring|]); (split; [rewrite D2; ring|]);
  do 2 eexists; (split; [reflexivity|]); (split; [reflexivity|]); ring.
Qed.
Print Assumptions C77_differentiated_parts_partial.
(** truncation at class 1: the part of an r-irreducible vertex with the bubble frequency is uninitialised *)
Theorem C77_r_irreducible_class1_refuted :
  exists b v f, freq_ok false f /\
    (exists z, g_value false false 1 symmetric_r_irred b v f = Some z) /\
    g_left_diff false false 1 symmetric_r_irred b v f = None /\
    g_right_diff false false 1 symmetric_r_irred b v f = None.
Proof.
  exists Ca, (mkF C1 demo_r demo_r demo_r), (1, 0, 0)%Q. split; [intro H; discriminate|].
  split; [eexists; vm_compute; reflexivity|]. split; reflexivity.
Qed.
Print Assumptions C77_r_irreducible_class1_refuted.
Example C77_hyp : exists z ls ld, g_value true false 2 symmetric_full Ct (mkF (Cplx 1 0) demo_r demo_r demo_r) (2, 3, -5)%Q = Some z /\
  g_left_same false 2 symmetric_full Ct (mkF (Cplx 1 0) demo_r demo_r demo_r) (2, 3, -5)%Q = Some ls /\
  g_left_diff true false 2 symmetric_full Ct (mkF (Cplx 1 0) demo_r demo_r demo_r) (2, 3, -5)%Q = Some ld /\
  (z == Cplx 28 16)%C /\ (ls == Cplx 7 2)%C /\ freq_ok true (2, 3, -5)%Q.
Proof.
  do 3 eexists. split; [reflexivity|]. split; [reflexivity|]. split; [reflexivity|].
  split; [split; vm_compute; reflexivity|]. split; [split; vm_compute; reflexivity|].
  intros _. split; [exists 1|split; [exists 1|exists (-3)]]; reflexivity.
Qed.
