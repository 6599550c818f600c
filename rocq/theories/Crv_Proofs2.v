(** Lower bounds and scale invariance of the resolution measures *)
From Coq Require Import QArith Lqa Setoid.
From Verif Require Import Prelude Idx_Model Idx_Spec Idx_Proofs Arr_Model Arr_Spec Arr_Proofs Vec_Model Crv_Model Crv_Spec Crv_Proofs.
Open Scope Z_scope.

Section Lower.
Variables (x : cdat) (pos nf : nat).
Hypothesis O : okd x.
Hypothesis Hdim : (pos + nf <= length (dd x))%nat.
Hypothesis H3 : forall p, (pos <= p < pos + nf)%nat -> 3 <= nth p (dd x) 0.

Lemma d1 p : (pos <= p < pos + nf)%nat -> exists y, cderiv x p = Some y /\ okd y /\ length (power2 y) = length (power2 x) /\
  forall idx, in_range idx (dd x) -> inside (dd x) idx p 1 ->
   (nth (Z.to_nat (row_major idx (dd x))) (power2 y) 0 == sq2 (diff1 (at_ (dd x) (dre x)) p idx) (diff1 (at_ (dd x) (dim x)) p idx))%Q.
Proof.
  intros Hp. destruct (cderiv_interior x p O ltac:(lia) (H3 p Hp)) as (y & E & Ey & Oy & V).
  exists y. split; [exact E|]. split; [exact Oy|]. split; [rewrite !power2_length, Ey by assumption; reflexivity|].
  intros idx R In. destruct (V idx R In) as (A & B). rewrite <- Ey in *. rewrite power2_at by (assumption || congruence).
  apply sq2_eq; assumption.
Qed.
Lemma d2 p q : (pos <= p < pos + nf)%nat -> (pos <= q < pos + nf)%nat ->
  exists y, cderiv2 x p q = Some y /\ okd y /\ length (power2 y) = length (power2 x) /\
  forall idx, in_range idx (dd x) -> inside (dd x) idx p 2 -> inside (dd x) idx q 2 ->
   (nth (Z.to_nat (row_major idx (dd x))) (power2 y) 0 == sq2 (diff2 (at_ (dd x) (dre x)) p q idx) (diff2 (at_ (dd x) (dim x)) p q idx))%Q.
Proof.
  intros Hp Hq. destruct (cderiv2_interior x p q O ltac:(lia) ltac:(lia) (H3 p Hp) (H3 q Hq)) as (y & E & Ey & Oy & V).
  exists y. split; [exact E|]. split; [exact Oy|]. split; [rewrite !power2_length, Ey by assumption; reflexivity|].
  intros idx R I1 I2. destruct (V idx R I1 I2) as (A & B). rewrite <- Ey in *. rewrite power2_at by (assumption || congruence).
  apply sq2_eq; assumption.
Qed.
End Lower.

Lemma klt x (O : okd x) idx : in_range idx (dd x) -> (Z.to_nat (row_major idx (dd x)) < length (power2 x))%nat.
Proof. intros R. pose proof (row_major_range _ _ R). rewrite power2_length by exact O. lia. Qed.
Lemma twice_length u : length (twice u) = length u. Proof. apply map_length. Qed.

Lemma curvature_lower x pos nf : okd x -> (pos + nf <= length (dd x))%nat ->
  (forall p, (pos <= p < pos + nf)%nat -> 3 <= nth p (dd x) 0) -> (1 <= nf <= 3)%nat ->
  exists r, get_curvature_max nf pos x = Some r /\
   ((Kmax2 x == 0)%Q -> r = if (nf =? 1)%nat then Fin 0%Q else NaN) /\
   (~ (Kmax2 x == 0)%Q -> exists q, r = Fin q /\ forall idx, in_range idx (dd x) ->
      (forall p, In p (directions nf pos) -> inside (dd x) idx p 2) ->
      (hessian2 (at_ (dd x) (dre x)) (at_ (dd x) (dim x)) (pairs nf pos) idx / Kmax2 x <= q)%Q).
Proof.
  intros O Hdim H3 Hn.
  assert (KB : ((Kmax2 x == 0)%Q /\ Qeq_bool (Kmax2 x) 0 = true) \/ (~ (Kmax2 x == 0)%Q /\ Qeq_bool (Kmax2 x) 0 = false /\ (0 < Kmax2 x)%Q)).
  { destruct (Qeq_bool (Kmax2 x) 0) eqn:E; [left; split; [apply Qeq_bool_iff; exact E|reflexivity]|].
    right. split; [intros H; apply Qeq_bool_iff in H; congruence|]. split; [reflexivity|apply Kmax2_pos; exact E]. }
  unfold pairs, directions.
  destruct nf as [|[|[|[|nf]]]]; try lia.
  - cbn [get_curvature_max seq flat_map map app]. replace (pos + 1 - S pos)%nat with 0%nat by lia. cbn [seq map app].
    destruct (d2 x pos 1 O Hdim H3 pos pos ltac:(lia) ltac:(lia)) as (xx & E1 & _ & L1 & V1).
    rewrite E1. cbn [obind]. eexists. split; [reflexivity|].
    destruct KB as [(K0 & EK)|(K0 & EK & KP)]; rewrite EK; split; intros HK; try contradiction; [reflexivity|].
    eexists. split; [reflexivity|]. intros idx R In. apply div_le; [exact KP|].
    pose proof (klt x O idx R) as Kl. assert (Ix := In pos ltac:(cbn; auto)).
    unfold hessian2. cbn [fold_right]. pose proof (V1 idx R Ix Ix) as W1.
    rewrite <- W1. pose proof (maxq_nth (power2 xx) (Z.to_nat (row_major idx (dd x))) ltac:(lia)). lra.
  - cbn [get_curvature_max seq flat_map map app].
    replace (pos + 2 - S pos)%nat with 1%nat by lia. replace (pos + 2 - S (S pos))%nat with 0%nat by lia.
    cbn [seq map app]. replace (pos + 1)%nat with (S pos) by lia.
    destruct (d2 x pos 2 O Hdim H3 pos pos ltac:(lia) ltac:(lia)) as (xx & E1 & _ & L1 & V1).
    destruct (d2 x pos 2 O Hdim H3 (S pos) (S pos) ltac:(lia) ltac:(lia)) as (yy & E2 & _ & L2 & V2).
    destruct (d2 x pos 2 O Hdim H3 (S pos) pos ltac:(lia) ltac:(lia)) as (xy & E3 & _ & L3 & V3).
    rewrite E1, E2, E3. cbn [obind]. cbv zeta. eexists. split; [reflexivity|].
    destruct KB as [(K0 & EK)|(K0 & EK & KP)]; rewrite EK; split; intros HK; try contradiction; [reflexivity|].
    eexists. split; [reflexivity|]. intros idx R In. apply div_le; [exact KP|].
    pose proof (klt x O idx R) as Kl. assert (Ix := In pos ltac:(cbn; auto)). assert (Iy := In (S pos) ltac:(cbn; auto)).
    unfold hessian2. cbn [fold_right].
    pose proof (V1 idx R Ix Ix) as W1. pose proof (V2 idx R Iy Iy) as W2. pose proof (V3 idx R Iy Ix) as W3.
    rewrite <- W1, <- W2, <- W3.
    match goal with |- (_ <= maxq ?l)%Q => pose proof (maxq_nth l (Z.to_nat (row_major idx (dd x))) ltac:(rewrite !addl_length by (rewrite ?addl_length, ?twice_length; lia); lia)) as M end.
    rewrite addl_nth, addl_nth, twice_nth in M by (rewrite ?addl_length, ?twice_length; lia). lra.
  - cbn [get_curvature_max seq flat_map map app].
    replace (pos + 3 - S pos)%nat with 2%nat by lia. replace (pos + 3 - S (S pos))%nat with 1%nat by lia.
    replace (pos + 3 - S (S (S pos)))%nat with 0%nat by lia.
    cbn [seq map app]. replace (pos + 1)%nat with (S pos) by lia. replace (pos + 2)%nat with (S (S pos)) by lia.
    destruct (d2 x pos 3 O Hdim H3 pos pos ltac:(lia) ltac:(lia)) as (xx & E1 & _ & L1 & V1).
    destruct (d2 x pos 3 O Hdim H3 (S pos) (S pos) ltac:(lia) ltac:(lia)) as (yy & E2 & _ & L2 & V2).
    destruct (d2 x pos 3 O Hdim H3 (S pos) pos ltac:(lia) ltac:(lia)) as (xy & E3 & _ & L3 & V3).
    destruct (d2 x pos 3 O Hdim H3 (S (S pos)) (S (S pos)) ltac:(lia) ltac:(lia)) as (zz & E4 & _ & L4 & V4).
    destruct (d2 x pos 3 O Hdim H3 (S (S pos)) pos ltac:(lia) ltac:(lia)) as (xz & E5 & _ & L5 & V5).
    destruct (d2 x pos 3 O Hdim H3 (S (S pos)) (S pos) ltac:(lia) ltac:(lia)) as (yz & E6 & _ & L6 & V6).
    rewrite E1, E2, E3, E4, E5, E6. cbn [obind]. cbv zeta. eexists. split; [reflexivity|].
    destruct KB as [(K0 & EK)|(K0 & EK & KP)]; rewrite EK; split; intros HK; try contradiction; [reflexivity|].
    eexists. split; [reflexivity|]. intros idx R In. apply div_le; [exact KP|].
    pose proof (klt x O idx R) as Kl. assert (Ix := In pos ltac:(cbn; auto)). assert (Iy := In (S pos) ltac:(cbn; auto)).
    assert (Iz := In (S (S pos)) ltac:(cbn; auto)).
    unfold hessian2. cbn [fold_right].
    pose proof (V1 idx R Ix Ix) as W1. pose proof (V2 idx R Iy Iy) as W2. pose proof (V3 idx R Iy Ix) as W3.
    pose proof (V4 idx R Iz Iz) as W4. pose proof (V5 idx R Iz Ix) as W5. pose proof (V6 idx R Iz Iy) as W6.
    rewrite <- W1, <- W2, <- W3, <- W4, <- W5, <- W6.
    match goal with |- (_ <= maxq (addl ?a ?b))%Q =>
      assert (La : length a = length (power2 x)) by (rewrite !addl_length by (rewrite ?addl_length; lia); lia);
      assert (Lb : length b = length (power2 x)) by (rewrite twice_length, !addl_length by (rewrite ?addl_length; lia); lia);
      pose proof (maxq_nth (addl a b) (Z.to_nat (row_major idx (dd x))) ltac:(rewrite addl_length by lia; lia)) as M end.
    rewrite addl_nth in M by lia.
    rewrite twice_nth in M by (rewrite !addl_length by (rewrite ?addl_length; lia); lia).
    rewrite addl_nth in M by (rewrite ?addl_length; lia). rewrite addl_nth in M by (rewrite ?addl_length; lia).
    rewrite addl_nth in M by (rewrite ?addl_length; lia). rewrite addl_nth in M by (rewrite ?addl_length; lia). lra.
Qed.

Lemma deriv_lower x pos nf : okd x -> (pos + nf <= length (dd x))%nat ->
  (forall p, (pos <= p < pos + nf)%nat -> 3 <= nth p (dd x) 0) -> (1 <= nf <= 3)%nat ->
  exists q, get_deriv_max nf pos x = Some (Fin q) /\
   ((Kmax2 x == 0)%Q -> q = 0%Q) /\
   (~ (Kmax2 x == 0)%Q -> forall idx, in_range idx (dd x) ->
      (forall p, In p (directions nf pos) -> inside (dd x) idx p 1) ->
      (gradient2 (at_ (dd x) (dre x)) (at_ (dd x) (dim x)) (directions nf pos) idx / Kmax2 x <= q)%Q).
Proof.
  intros O Hdim H3 Hn.
  assert (KB : ((Kmax2 x == 0)%Q /\ Qeq_bool (Kmax2 x) 0 = true) \/ (~ (Kmax2 x == 0)%Q /\ Qeq_bool (Kmax2 x) 0 = false /\ (0 < Kmax2 x)%Q)).
  { destruct (Qeq_bool (Kmax2 x) 0) eqn:E; [left; split; [apply Qeq_bool_iff; exact E|reflexivity]|].
    right. split; [intros H; apply Qeq_bool_iff in H; congruence|]. split; [reflexivity|apply Kmax2_pos; exact E]. }
  unfold directions, get_deriv_max.
  destruct nf as [|[|[|[|nf]]]]; try lia; cbn [seq].
  - destruct (d1 x pos 1 O Hdim H3 pos ltac:(lia)) as (dx & E1 & _ & L1 & V1).
    rewrite E1. cbn [obind]. eexists. split; [reflexivity|].
    destruct KB as [(K0 & EK)|(K0 & EK & KP)]; rewrite EK; split; intros HK; try contradiction; [reflexivity|].
    intros idx R In. apply div_le; [exact KP|].
    pose proof (klt x O idx R) as Kl. pose proof (V1 idx R (In pos ltac:(cbn; auto))) as W1.
    unfold gradient2. cbn [fold_right]. rewrite <- W1.
    pose proof (maxq_nth (power2 dx) (Z.to_nat (row_major idx (dd x))) ltac:(lia)). lra.
  - replace (pos + 1)%nat with (S pos) by lia.
    destruct (d1 x pos 2 O Hdim H3 pos ltac:(lia)) as (dx & E1 & _ & L1 & V1).
    destruct (d1 x pos 2 O Hdim H3 (S pos) ltac:(lia)) as (dy & E2 & _ & L2 & V2).
    rewrite E1, E2. cbn [obind]. eexists. split; [reflexivity|].
    destruct KB as [(K0 & EK)|(K0 & EK & KP)]; rewrite EK; split; intros HK; try contradiction; [reflexivity|].
    intros idx R In. apply div_le; [exact KP|].
    pose proof (klt x O idx R) as Kl. pose proof (V1 idx R (In pos ltac:(cbn; auto))) as W1.
    pose proof (V2 idx R (In (S pos) ltac:(cbn; auto))) as W2.
    unfold gradient2. cbn [fold_right]. rewrite <- W1, <- W2.
    match goal with |- (_ <= maxq ?l)%Q => pose proof (maxq_nth l (Z.to_nat (row_major idx (dd x))) ltac:(rewrite !addl_length by lia; lia)) as M end.
    rewrite addl_nth in M by lia. lra.
  - replace (pos + 1)%nat with (S pos) by lia. replace (pos + 2)%nat with (S (S pos)) by lia.
    destruct (d1 x pos 3 O Hdim H3 pos ltac:(lia)) as (dx & E1 & _ & L1 & V1).
    destruct (d1 x pos 3 O Hdim H3 (S pos) ltac:(lia)) as (dy & E2 & _ & L2 & V2).
    destruct (d1 x pos 3 O Hdim H3 (S (S pos)) ltac:(lia)) as (dz & E3 & _ & L3 & V3).
    rewrite E1, E2, E3. cbn [obind]. eexists. split; [reflexivity|].
    destruct KB as [(K0 & EK)|(K0 & EK & KP)]; rewrite EK; split; intros HK; try contradiction; [reflexivity|].
    intros idx R In. apply div_le; [exact KP|].
    pose proof (klt x O idx R) as Kl. pose proof (V1 idx R (In pos ltac:(cbn; auto))) as W1.
    pose proof (V2 idx R (In (S pos) ltac:(cbn; auto))) as W2. pose proof (V3 idx R (In (S (S pos)) ltac:(cbn; auto))) as W3.
    unfold gradient2. cbn [fold_right]. rewrite <- W1, <- W2, <- W3.
    match goal with |- (_ <= maxq (addl (addl ?a ?b) ?c))%Q =>
      pose proof (maxq_nth (addl (addl a b) c) (Z.to_nat (row_major idx (dd x))) ltac:(rewrite !addl_length by (rewrite ?addl_length; lia); lia)) as M end.
    rewrite addl_nth, addl_nth in M by (rewrite ?addl_length; lia). lra.
Qed.

(** ** scaling by a complex number *)
Section Scale.
Variables a b : Q.
Definition cscale (x : cdat) : cdat :=
  mkD (dd x) (map (fun p => a * fst p - b * snd p)%Q (combine (dre x) (dim x)))
             (map (fun p => a * snd p + b * fst p)%Q (combine (dre x) (dim x))).
Definition scaled (x y : cdat) : Prop := okd x /\ okd y /\ dd y = dd x /\
  forall k, (k < length (dre x))%nat ->
    (e_ (dre y) k == a * e_ (dre x) k - b * e_ (dim x) k)%Q /\ (e_ (dim y) k == a * e_ (dim x) k + b * e_ (dre x) k)%Q.

Lemma fdiff_ext s n e f k : (0 < s)%nat -> (3 * s <= n)%nat -> (k < n)%nat ->
  (forall j, (j < n)%nat -> (e j == f j)%Q) -> (fdiff s n e k == fdiff s n f k)%Q.
Proof.
  intros Hs H3 Hk H. unfold fdiff. destruct (Nat.ltb_spec k s).
  - rewrite (H k), (H (k + s)%nat), (H (k + 2 * s)%nat) by lia. reflexivity.
  - destruct (Nat.leb_spec (n - s) k).
    + rewrite (H k), (H (k - s)%nat), (H (k - 2 * s)%nat) by lia. reflexivity.
    + rewrite (H (k + s)%nat), (H (k - s)%nat) by lia. reflexivity.
Qed.
Lemma stride_bound dims buf i : good dims buf -> (i < length dims)%nat -> 3 <= nth i dims 0 ->
  (0 < stride dims i)%nat /\ (3 * stride dims i <= length buf)%nat.
Proof.
  intros (G1 & G2 & G3 & G4) Hi Hd. unfold stride.
  assert (E : dims = firstn i dims ++ nth i dims 0 :: skipn (S i) dims).
  { clear -Hi. revert i Hi. induction dims as [|z l IH]; intros [|i] Hi; simpl in *; try lia; [reflexivity|].
    f_equal. apply IH. lia. }
  pose proof G2 as P. rewrite E in P. apply Forall_app in P. destruct P as (P1 & P2). assert (P4 : pos_dims (skipn (S i) dims)) by (inversion P2; assumption).
  pose proof (prodZ_pos _ P1). pose proof (prodZ_pos _ P4).
  assert (EP : prodZ dims = prodZ (firstn i dims) * (nth i dims 0 * prodZ (skipn (S i) dims))).
  { rewrite E at 1. rewrite prodZ_app. reflexivity. }
  split; [lia|]. rewrite EP in G4.
  assert (B : 3 * prodZ (skipn (S i) dims) <= Z.of_nat (length buf)); [|lia].
  rewrite G4. set (u := prodZ (firstn i dims)) in *. set (v := prodZ (skipn (S i) dims)) in *. set (d := nth i dims 0) in *.
  clearbody u v d. assert (3 * v <= d * v) by nia. assert (1 * (d * v) <= u * (d * v)) by nia. lia.
Qed.
Lemma cderiv_scaled x y i : scaled x y -> (i < length (dd x))%nat -> 3 <= nth i (dd x) 0 ->
  exists x' y', cderiv x i = Some x' /\ cderiv y i = Some y' /\ scaled x' y' /\ dd x' = dd x.
Proof.
  intros ((G1 & G2) & (G3 & G4) & Ed & V) Hi Hd. rewrite Ed in G3, G4.
  destruct (pd_flat _ _ i _ G1 (nth_error_of_nth _ _ Hi) Hd) as (r1 & E1 & L1 & V1).
  destruct (pd_flat _ _ i _ G2 (nth_error_of_nth _ _ Hi) Hd) as (r2 & E2 & L2 & V2).
  destruct (pd_flat _ _ i _ G3 (nth_error_of_nth _ _ Hi) Hd) as (r3 & E3 & L3 & V3).
  destruct (pd_flat _ _ i _ G4 (nth_error_of_nth _ _ Hi) Hd) as (r4 & E4 & L4 & V4).
  exists (mkD (dd x) r1 r2), (mkD (dd x) r3 r4). unfold cderiv. rewrite Ed, E1, E2, E3, E4. cbn [obind].
  split; [reflexivity|]. split; [reflexivity|]. split; [|reflexivity].
  destruct (stride_bound _ _ i G1 Hi Hd) as (S1 & S2).
  assert (LL : length (dim x) = length (dre x) /\ length (dre y) = length (dre x) /\ length (dim y) = length (dre x)).
  { destruct G1 as (_ & _ & _ & A1), G2 as (_ & _ & _ & A2), G3 as (_ & _ & _ & A3), G4 as (_ & _ & _ & A4). lia. }
  destruct LL as (M2 & M3 & M4).
  assert (GG : forall u v, good (dd x) u -> length v = length u -> good (dd x) v).
  { intros u v (A & B & C & D) E. repeat split; auto. rewrite E. exact D. }
  split; [split; [exact (GG _ _ G1 L1)|exact (GG _ _ G2 L2)]|].
  split; [split; [exact (GG _ _ G3 L3)|exact (GG _ _ G4 L4)]|]. split; [reflexivity|].
  cbn [dre dim dd]. intros k Hk. rewrite L1 in Hk.
  rewrite V1, V2, V3, V4 by lia. rewrite M2, M3, M4. set (n := length (dre x)) in *. set (s := stride (dd x) i) in *.
  split.
  - rewrite (fdiff_ext s n (e_ (dre y)) (fun j => a * e_ (dre x) j - b * e_ (dim x) j)%Q k S1 S2 Hk) by (intros j Hj; apply V; exact Hj).
    unfold fdiff. destruct (k <? s)%nat, (n - s <=? k)%nat; ring.
  - rewrite (fdiff_ext s n (e_ (dim y)) (fun j => a * e_ (dim x) j + b * e_ (dre x) j)%Q k S1 S2 Hk) by (intros j Hj; apply V; exact Hj).
    unfold fdiff. destruct (k <? s)%nat, (n - s <=? k)%nat; ring.
Qed.
Lemma cderiv2_scaled x y i j : scaled x y -> (i < length (dd x))%nat -> 3 <= nth i (dd x) 0 ->
  (j < length (dd x))%nat -> 3 <= nth j (dd x) 0 ->
  exists x' y', cderiv2 x i j = Some x' /\ cderiv2 y i j = Some y' /\ scaled x' y'.
Proof.
  intros H Hi Hd Hj Hd2. destruct (cderiv_scaled x y i H Hi Hd) as (u & v & E1 & E2 & H2 & Eu).
  rewrite <- Eu in Hj, Hd2. destruct (cderiv_scaled u v j H2 Hj Hd2) as (u' & v' & E3 & E4 & H4 & _).
  exists u', v'. unfold cderiv2. rewrite E1, E2. cbn [obind]. auto.
Qed.

Definition c2 : Q := (a * a + b * b)%Q.
Definition times (u v : list Q) : Prop := Forall2 (fun p q => (q == c2 * p)%Q) u v.
Lemma power2_times x y : scaled x y -> times (power2 x) (power2 y).
Proof.
  intros ((G1 & G2) & (G3 & G4) & Ed & V). rewrite Ed in G3, G4.
  destruct G1 as (_ & _ & _ & A1), G2 as (_ & _ & _ & A2), G3 as (_ & _ & _ & A3), G4 as (_ & _ & _ & A4).
  unfold power2, times.
  assert (L2 : length (dim x) = length (dre x)) by lia. assert (L3 : length (dre y) = length (dre x)) by lia.
  assert (L4 : length (dim y) = length (dre x)) by lia. clear A1 A2 A3 A4 Ed. unfold e_ in V.
  revert L2 L3 L4 V. generalize (dim y), (dre y), (dim x), (dre x). clear x y.
  intros l l0 l1 l2. revert l l0 l1. induction l2 as [|p l2 IH]; intros [|r l] [|q l0] [|s l1] L2 L3 L4 V; simpl in *; try lia; constructor.
  - destruct (V 0%nat ltac:(lia)) as (A & B). simpl in A, B. rewrite A, B. unfold c2. ring.
  - apply IH; try lia. intros k Hk. apply (V (S k)). lia.
Qed.
Lemma addl_times u v u' v' : times u u' -> times v v' -> times (addl u v) (addl u' v').
Proof.
  intros H. revert v v'. induction H as [|p q u u' E H IH]; intros v v' H2; [constructor|].
  destruct H2 as [|p2 q2 v v' E2 H2]; [constructor|]. simpl. constructor; [rewrite E, E2; ring|apply IH; exact H2].
Qed.
Lemma twice_times u u' : times u u' -> times (twice u) (twice u').
Proof. induction 1; constructor; [rewrite H; ring|assumption]. Qed.
Lemma maxq_times u v : (0 < c2)%Q -> times u v -> (maxq v == c2 * maxq u)%Q.
Proof.
  intros Hc H. unfold maxq. assert (G : forall m m', (m' == c2 * m)%Q ->
    (fold_left (fun m q => if Qle_bool q m then m else q) v m' == c2 * fold_left (fun m q => if Qle_bool q m then m else q) u m)%Q).
  { induction H as [|p q u v E H IH]; intros m m' Em; cbn [fold_left]; [exact Em|].
    assert (B : Qle_bool q m' = Qle_bool p m).
    { destruct (Qle_bool p m) eqn:E1; [apply Qle_bool_iff; apply Qle_bool_iff in E1; rewrite E, Em; nra|].
      destruct (Qle_bool q m') eqn:E2; [|reflexivity]. apply Qle_bool_iff in E2. rewrite E, Em in E2.
      exfalso. assert (Lt : (m < p)%Q). { destruct (Qlt_le_dec m p); [assumption|]. apply Qle_bool_iff in q0. congruence. }
      nra. }
    rewrite B. destruct (Qle_bool p m); apply IH; assumption. }
  apply G. ring.
Qed.
Lemma Kmax2_times x y : (0 < c2)%Q -> scaled x y -> (Kmax2 y == c2 * Kmax2 x)%Q.
Proof. intros Hc H. apply maxq_times; [exact Hc|]. apply power2_times. exact H. Qed.

Definition same (u v : fl) : Prop := match u, v with NaN, NaN => True | Fin p, Fin q => (p == q)%Q | _, _ => False end.
Lemma ratio x y u v : (0 < c2)%Q -> scaled x y -> times u v ->
  Qeq_bool (Kmax2 y) 0 = Qeq_bool (Kmax2 x) 0 /\ (Qeq_bool (Kmax2 x) 0 = false -> (maxq u / Kmax2 x == maxq v / Kmax2 y)%Q).
Proof.
  intros Hc H T. pose proof (Kmax2_times x y Hc H) as K. split.
  - destruct (Qeq_bool (Kmax2 x) 0) eqn:E.
    + apply Qeq_bool_iff in E. apply Qeq_bool_iff. rewrite K, E. ring.
    + destruct (Qeq_bool (Kmax2 y) 0) eqn:E2; [|reflexivity]. apply Qeq_bool_iff in E2. pose proof (Kmax2_pos x E). rewrite K in E2. nra.
  - intros E. pose proof (Kmax2_pos x E). rewrite K, (maxq_times u v Hc T). field. split; intros Z0; lra.
Qed.

Lemma curvature_scaled x y pos nf : (0 < c2)%Q -> scaled x y -> (pos + nf <= length (dd x))%nat ->
  (forall p, (pos <= p < pos + nf)%nat -> 3 <= nth p (dd x) 0) -> (1 <= nf <= 3)%nat ->
  exists r r', get_curvature_max nf pos x = Some r /\ get_curvature_max nf pos y = Some r' /\ same r r'.
Proof.
  intros Hc HS Hd H3 Hn.
  assert (D : forall i j, (pos <= i < pos + nf)%nat -> (pos <= j < pos + nf)%nat ->
     exists x' y', cderiv2 x i j = Some x' /\ cderiv2 y i j = Some y' /\ times (power2 x') (power2 y')).
  { intros i j Hi Hj. destruct (cderiv2_scaled x y i j HS ltac:(lia) (H3 i Hi) ltac:(lia) (H3 j Hj)) as (x' & y' & A & B & C).
    exists x', y'. split; [exact A|]. split; [exact B|]. apply power2_times. exact C. }
  destruct nf as [|[|[|[|nf]]]]; try lia; cbn [get_curvature_max];
  replace (pos + 1)%nat with (S pos) by lia; replace (pos + 2)%nat with (S (S pos)) by lia.
  - destruct (D pos pos ltac:(lia) ltac:(lia)) as (x1 & y1 & A1 & B1 & T1). rewrite A1, B1. cbn [obind].
    eexists. eexists. split; [reflexivity|]. split; [reflexivity|].
    destruct (ratio x y _ _ Hc HS T1) as (E & R). rewrite E. destruct (Qeq_bool (Kmax2 x) 0); cbn [same]; [reflexivity|apply R; reflexivity].
  - destruct (D pos pos ltac:(lia) ltac:(lia)) as (x1 & y1 & A1 & B1 & T1).
    destruct (D (S pos) (S pos) ltac:(lia) ltac:(lia)) as (x2 & y2 & A2 & B2 & T2).
    destruct (D (S pos) pos ltac:(lia) ltac:(lia)) as (x3 & y3 & A3 & B3 & T3).
    rewrite A1, B1, A2, B2, A3, B3. cbn [obind]. cbv zeta.
    eexists. eexists. split; [reflexivity|]. split; [reflexivity|].
    pose proof (addl_times _ _ _ _ (addl_times _ _ _ _ T1 T2) (twice_times _ _ T3)) as T.
    destruct (ratio x y _ _ Hc HS T) as (E & R). rewrite E. destruct (Qeq_bool (Kmax2 x) 0); cbn [same]; [exact I|apply R; reflexivity].
  - destruct (D pos pos ltac:(lia) ltac:(lia)) as (x1 & y1 & A1 & B1 & T1).
    destruct (D (S pos) (S pos) ltac:(lia) ltac:(lia)) as (x2 & y2 & A2 & B2 & T2).
    destruct (D (S pos) pos ltac:(lia) ltac:(lia)) as (x3 & y3 & A3 & B3 & T3).
    destruct (D (S (S pos)) (S (S pos)) ltac:(lia) ltac:(lia)) as (x4 & y4 & A4 & B4 & T4).
    destruct (D (S (S pos)) pos ltac:(lia) ltac:(lia)) as (x5 & y5 & A5 & B5 & T5).
    destruct (D (S (S pos)) (S pos) ltac:(lia) ltac:(lia)) as (x6 & y6 & A6 & B6 & T6).
    rewrite A1, B1, A2, B2, A3, B3, A4, B4, A5, B5, A6, B6. cbn [obind]. cbv zeta.
    eexists. eexists. split; [reflexivity|]. split; [reflexivity|].
    pose proof (addl_times _ _ _ _ (addl_times _ _ _ _ (addl_times _ _ _ _ T1 T2) T4)
      (twice_times _ _ (addl_times _ _ _ _ (addl_times _ _ _ _ T3 T5) T6))) as T.
    destruct (ratio x y _ _ Hc HS T) as (E & R). rewrite E. destruct (Qeq_bool (Kmax2 x) 0); cbn [same]; [exact I|apply R; reflexivity].
Qed.
Lemma deriv_scaled x y pos nf : (0 < c2)%Q -> scaled x y -> (pos + nf <= length (dd x))%nat ->
  (forall p, (pos <= p < pos + nf)%nat -> 3 <= nth p (dd x) 0) -> (1 <= nf <= 3)%nat ->
  exists r r', get_deriv_max nf pos x = Some r /\ get_deriv_max nf pos y = Some r' /\ same r r'.
Proof.
  intros Hc HS Hd H3 Hn.
  assert (D : forall i, (pos <= i < pos + nf)%nat ->
     exists x' y', cderiv x i = Some x' /\ cderiv y i = Some y' /\ times (power2 x') (power2 y')).
  { intros i Hi. destruct (cderiv_scaled x y i HS ltac:(lia) (H3 i Hi)) as (x' & y' & A & B & C & _).
    exists x', y'. split; [exact A|]. split; [exact B|]. apply power2_times. exact C. }
  unfold get_deriv_max.
  destruct nf as [|[|[|[|nf]]]]; try lia;
  replace (pos + 1)%nat with (S pos) by lia; replace (pos + 2)%nat with (S (S pos)) by lia;
  destruct (D pos ltac:(lia)) as (x1 & y1 & A1 & B1 & T1).
  - rewrite A1, B1. cbn [obind].
    eexists. eexists. split; [reflexivity|]. split; [reflexivity|].
    destruct (ratio x y _ _ Hc HS T1) as (E & R). rewrite E. destruct (Qeq_bool (Kmax2 x) 0); cbn [same]; [reflexivity|apply R; reflexivity].
  - destruct (D (S pos) ltac:(lia)) as (x2 & y2 & A2 & B2 & T2). rewrite A1, B1, A2, B2. cbn [obind].
    eexists. eexists. split; [reflexivity|]. split; [reflexivity|].
    destruct (ratio x y _ _ Hc HS (addl_times _ _ _ _ T2 T1)) as (E & R). rewrite E.
    destruct (Qeq_bool (Kmax2 x) 0); cbn [same]; [reflexivity|apply R; reflexivity].
  - destruct (D (S pos) ltac:(lia)) as (x2 & y2 & A2 & B2 & T2). destruct (D (S (S pos)) ltac:(lia)) as (x3 & y3 & A3 & B3 & T3).
    rewrite A1, B1, A2, B2, A3, B3. cbn [obind].
    eexists. eexists. split; [reflexivity|]. split; [reflexivity|].
    destruct (ratio x y _ _ Hc HS (addl_times _ _ _ _ (addl_times _ _ _ _ T3 T2) T1)) as (E & R). rewrite E.
    destruct (Qeq_bool (Kmax2 x) 0); cbn [same]; [reflexivity|apply R; reflexivity].
Qed.
End Scale.
