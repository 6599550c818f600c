From Coq Require Import QArith Qround Lqa ZArith Lia.
From Verif Require Import Prelude Keld_Model Vec_Model Util_Model Util_Spec.
Open Scope Z_scope.

(** *** integer division *)
Lemma idiv_ceil_spec : forall a b, 0 < b ->
  exists r, integer_division_ceil a b = Some r /\ (r - 1) * b < a <= r * b.
Proof.
  intros a b Hb. unfold integer_division_ceil. rewrite (proj2 (Z.ltb_lt 0 b) Hb).
  destruct (Z.leb_spec 0 a).
  - eexists; split; [reflexivity|]. rewrite Z.quot_div_nonneg by lia.
    pose proof (Z.div_mod (a + b - 1) b ltac:(lia)). pose proof (Z.mod_pos_bound (a + b - 1) b Hb). nia.
  - eexists; split; [reflexivity|]. rewrite Z.quot_div_nonneg by lia.
    pose proof (Z.div_mod (- a) b ltac:(lia)). pose proof (Z.mod_pos_bound (- a) b Hb). nia.
Qed.
Lemma idiv_floor_spec : forall a b, 0 < b ->
  exists r, integer_division_floor a b = Some r /\ r * b <= a < (r + 1) * b.
Proof.
  intros a b Hb. unfold integer_division_floor. rewrite (proj2 (Z.ltb_lt 0 b) Hb).
  destruct (Z.leb_spec 0 a).
  - cbv zeta. rewrite Z.quot_div_nonneg by lia.
    pose proof (Z.div_mod a b ltac:(lia)). pose proof (Z.mod_pos_bound a b Hb).
    destruct (Z.leb_spec (a / b) a); [|exfalso; nia].
    eexists; split; [reflexivity|]. nia.
  - cbv zeta. rewrite Z.quot_div_nonneg by lia.
    pose proof (Z.div_mod (- a + b - 1) b ltac:(lia)). pose proof (Z.mod_pos_bound (- a + b - 1) b Hb).
    destruct (Z.leb_spec (- ((- a + b - 1) / b)) 0); [|exfalso; nia].
    eexists; split; [reflexivity|]. nia.
Qed.
Lemma idiv_nonpos : forall a b, b <= 0 -> integer_division_ceil a b = None /\ integer_division_floor a b = None.
Proof.
  intros a b H. unfold integer_division_ceil, integer_division_floor.
  destruct (Z.ltb_spec 0 b); [lia|]. split; reflexivity.
Qed.

Lemma floor2bfreq_int_spec : forall w, exists n,
  floor2bfreq_int w = Some (2 * n) /\ 2 * n <= w < 2 * n + 2.
Proof.
  intro w. unfold floor2bfreq_int.
  destruct (idiv_floor_spec w 2 ltac:(lia)) as (r & E & H). rewrite E. cbn [obind]. cbv zeta.
  exists r. replace (2 * r) with (r * 2) by lia.
  rewrite (proj2 (Z.leb_le _ _)) by lia. rewrite (proj2 (Z.leb_le _ _)) by lia. cbn [andb].
  split; [reflexivity|lia].
Qed.
Lemma ceil2bfreq_int_spec : forall w, exists n,
  ceil2bfreq_int w = Some (2 * n) /\ 2 * n - 2 < w <= 2 * n.
Proof.
  intro w. unfold ceil2bfreq_int.
  destruct (idiv_ceil_spec w 2 ltac:(lia)) as (r & E & H). rewrite E. cbn [obind]. cbv zeta.
  exists r. replace (2 * r) with (r * 2) by lia.
  rewrite (proj2 (Z.leb_le _ _)) by lia. rewrite (proj2 (Z.leb_le _ _)) by lia. cbn [andb].
  split; [reflexivity|lia].
Qed.

(** *** rationals *)
Ltac qlra := unfold Qdiv in *; change (/ 2)%Q with (1 # 2)%Q in *; lra.
Lemma Qle_boolP : forall a b, reflect (a <= b)%Q (Qle_bool a b).
Proof.
  intros a b. destruct (Qle_bool a b) eqn:E.
  - constructor. now apply Qle_bool_iff.
  - constructor. intro H. apply Qle_bool_iff in H. congruence.
Qed.
Lemma Qfloor_unique : forall x n, (inject_Z n <= x)%Q -> (x < inject_Z (n + 1))%Q -> Qfloor x = n.
Proof.
  intros x n H1 H2. pose proof (Qfloor_le x). pose proof (Qlt_floor x).
  assert (inject_Z n < inject_Z (Qfloor x + 1))%Q by qlra.
  assert (inject_Z (Qfloor x) < inject_Z (n + 1))%Q by qlra.
  rewrite <- Zlt_Qlt in *. lia.
Qed.
Lemma Qceiling_unique : forall x n, (inject_Z (n - 1) < x)%Q -> (x <= inject_Z n)%Q -> Qceiling x = n.
Proof.
  intros x n H1 H2. pose proof (Qle_ceiling x). pose proof (Qceiling_lt x).
  assert (inject_Z (n - 1) < inject_Z (Qceiling x))%Q by qlra.
  assert (inject_Z (Qceiling x - 1) < inject_Z n)%Q by qlra.
  rewrite <- Zlt_Qlt in *. lia.
Qed.
Lemma Qfloor_bounds : forall x, (inject_Z (Qfloor x) <= x)%Q /\ (x < inject_Z (Qfloor x) + 1)%Q.
Proof.
  intro x. split; [apply Qfloor_le|]. pose proof (Qlt_floor x). rewrite inject_Z_plus in H. exact H.
Qed.
Lemma Qceiling_bounds : forall x, (inject_Z (Qceiling x) - 1 < x)%Q /\ (x <= inject_Z (Qceiling x))%Q.
Proof.
  intro x. split; [|apply Qle_ceiling]. pose proof (Qceiling_lt x).
  unfold Z.sub in H. rewrite inject_Z_plus, inject_Z_opp in H. change (inject_Z 1) with 1%Q in H. qlra.
Qed.

Ltac injz := repeat (rewrite ?inject_Z_plus, ?inject_Z_mult, ?inject_Z_opp in * );
  change (inject_Z 2) with 2%Q in *; change (inject_Z 1) with 1%Q in *; change (inject_Z (-1)) with (-1)%Q in *;
  change (inject_Z 0) with 0%Q in *.

(** on integers the double version equals the integer version *)
Lemma floor2bfreq_on_int : forall w z, (w == inject_Z z)%Q ->
  exists r n, floor2bfreq w = Some r /\ (r == inject_Z (2 * n))%Q /\ floor2bfreq_int z = Some (2 * n).
Proof.
  intros w z E. destruct (floor2bfreq_int_spec z) as (n & En & H).
  assert (Hq : (inject_Z (2 * n) <= inject_Z z)%Q /\ (inject_Z z <= inject_Z (2 * n + 1))%Q).
  { rewrite <- !Zle_Qle. lia. }
  injz.
  assert (F : Qfloor (w / 2 + tol8) = n).
  { apply Qfloor_unique; unfold tol8; injz; qlra. }
  unfold floor2bfreq. rewrite F. cbv zeta.
  destruct (Qle_boolP (inject_Z n * 2) w) as [|N]; [|exfalso; apply N; qlra].
  destruct (Qle_boolP (w - 2) (inject_Z n * 2)) as [|N]; [|exfalso; apply N; qlra].
  cbn [andb]. eexists. exists n. split; [reflexivity|]. split; [injz; qlra|exact En].
Qed.
Lemma ceil2bfreq_on_int : forall w z, (w == inject_Z z)%Q ->
  exists r n, ceil2bfreq w = Some r /\ (r == inject_Z (2 * n))%Q /\ ceil2bfreq_int z = Some (2 * n).
Proof.
  intros w z E. destruct (ceil2bfreq_int_spec z) as (n & En & H).
  assert (Hq : (inject_Z (2 * n - 1) <= inject_Z z)%Q /\ (inject_Z z <= inject_Z (2 * n))%Q).
  { rewrite <- !Zle_Qle. lia. }
  unfold Z.sub in *. injz.
  assert (F : Qceiling (w / 2 - tol8) = n).
  { apply Qceiling_unique; unfold tol8, Z.sub; injz; qlra. }
  unfold ceil2bfreq. rewrite F. cbv zeta.
  destruct (Qle_boolP w (inject_Z n * 2)) as [|N]; [|exfalso; apply N; qlra].
  destruct (Qle_boolP (inject_Z n * 2) (w + 2)) as [|N]; [|exfalso; apply N; qlra].
  cbn [andb]. eexists. exists n. split; [reflexivity|]. split; [injz; qlra|exact En].
Qed.

(** both halves of a bosonic frequency *)
Lemma bosonic_half : forall w, bosonic w -> exists z, (w / 2 == inject_Z z)%Q /\ (w == inject_Z (2 * z))%Q.
Proof. intros w (n & E). exists n. split; [|exact E]. rewrite E. injz. field. Qed.

Lemma half_split_spec : forall w, bosonic w ->
  exists lo hi, floor2bfreq (w / 2) = Some lo /\ ceil2bfreq (w / 2) = Some hi /\ half_split w lo hi.
Proof.
  intros w Hb. destruct (bosonic_half w Hb) as (z & Ez & Ew).
  destruct (floor2bfreq_on_int (w / 2) z Ez) as (lo & n & E1 & E2 & E3).
  destruct (ceil2bfreq_on_int (w / 2) z Ez) as (hi & m & F1 & F2 & F3).
  destruct (floor2bfreq_int_spec z) as (n' & En & Hn). rewrite En in E3. injection E3 as E3.
  destruct (ceil2bfreq_int_spec z) as (m' & Em & Hm). rewrite Em in F3. injection F3 as F3.
  assert (n' = n) by lia. assert (m' = m) by lia. subst n' m'. clear E3 F3.
  exists lo, hi. split; [exact E1|]. split; [exact F1|].
  unfold half_split. split; [exists n; exact E2|]. split; [exists m; exact F2|].
  rewrite E2, F2, Ez.
  assert (2 * n + 2 * m = 2 * z) by lia.
  split. { rewrite Ew, <- inject_Z_plus. rewrite H. reflexivity. }
  split; [rewrite <- Zle_Qle; lia|]. split; [rewrite <- Zle_Qle; lia|].
  assert (inject_Z (2 * m) <= inject_Z (2 * n + 2))%Q by (rewrite <- Zle_Qle; lia).
  injz. qlra.
Qed.

Lemma half_split_unique : forall w lo hi lo' hi',
  half_split w lo hi -> half_split w lo' hi' -> (lo == lo' /\ hi == hi')%Q.
Proof.
  intros w lo hi lo' hi' ((n & En) & (m & Em) & S1 & A1 & B1 & D1) ((n' & En') & (m' & Em') & S2 & A2 & B2 & D2).
  assert (n = n').
  { rewrite En, Em in *. rewrite En', Em' in *.
    assert (inject_Z (2 * n) + inject_Z (2 * m) == inject_Z (2 * n') + inject_Z (2 * m'))%Q by qlra.
    rewrite <- !inject_Z_plus in H. unfold inject_Z, Qeq in H. cbn [Qnum Qden] in H.
    assert (inject_Z (2 * m) <= inject_Z (2 * n + 2))%Q by (injz; qlra).
    assert (inject_Z (2 * m') <= inject_Z (2 * n' + 2))%Q by (injz; qlra).
    assert (inject_Z (2 * n) <= inject_Z (2 * m))%Q by qlra.
    assert (inject_Z (2 * n') <= inject_Z (2 * m'))%Q by qlra.
    rewrite <- !Zle_Qle in *. lia. }
  subst n'. rewrite <- En in En'. split; [symmetry; exact En'|]. qlra.
Qed.

Lemma half_split_eq : forall w w' lo hi, (w == w')%Q -> half_split w lo hi -> half_split w' lo hi.
Proof.
  intros w w' lo hi E (A & B & C & D & F & G). repeat (split; [assumption||qlra|]). qlra.
Qed.

(** *** rounding to the next bosonic/fermionic frequency towards zero *)
Lemma Z_even_quot : forall z, exists n, 2 * Z.quot z 2 = 2 * n /\ Z.abs (2 * n) <= Z.abs z < Z.abs (2 * n) + 2
  /\ 0 <= z * n.
Proof. intro z. exists (Z.quot z 2). pose proof (Z.quot_rem z 2 ltac:(lia)).
  pose proof (Z.rem_bound_abs z 2 ltac:(lia)).
  split; [reflexivity|].
  destruct (Z.le_gt_cases 0 z).
  - rewrite Z.quot_div_nonneg in * by lia. pose proof (Z.div_mod z 2 ltac:(lia)).
    pose proof (Z.mod_pos_bound z 2 ltac:(lia)). nia.
  - replace z with (- (- z)) by lia. rewrite Z.quot_opp_l by lia. rewrite (Z.quot_div_nonneg (- z) 2) by lia.
    pose proof (Z.div_mod (- z) 2 ltac:(lia)). pose proof (Z.mod_pos_bound (- z) 2 ltac:(lia)). nia.
Qed.

Lemma sign_cases : forall x, (0 < x /\ sign x == 1)%Q \/ (x < 0 /\ sign x == -1)%Q \/ (x == 0 /\ sign x == 0)%Q.
Proof.
  intro x. unfold sign. destruct (Qle_boolP x 0), (Qle_boolP 0 x); cbn [negb].
  - right; right. split; [qlra|reflexivity].
  - right; left. split; [qlra|reflexivity].
  - left. split; [qlra|reflexivity].
  - qlra.
Qed.

(** the integer that the tolerance of 0.1 selects: truncation of |w| + 0.1 with the sign of w *)
Lemma to_int_tol : forall w, let k := to_int (w + (1 # 10) * sign w) in
  ((0 <= w -> (0 <= k)%Z /\ inject_Z k <= w + (1#10) /\ w + (1#10) < inject_Z k + 1) /\
   (w < 0 -> (k <= 0)%Z /\ - inject_Z k <= - w + (1#10) /\ - w + (1#10) < - inject_Z k + 1))%Q.
Proof.
  intro w. cbv zeta. unfold to_int.
  assert (E : ((w == 0 /\ w + (1 # 10) * sign w == 0) \/ (0 < w /\ w + (1 # 10) * sign w == w + (1#10)) \/
              (w < 0 /\ w + (1 # 10) * sign w == w - (1#10)))%Q).
  { destruct (sign_cases w) as [[A B]|[[A B]|[A B]]]; rewrite B; [right;left|right;right|left]; split; qlra. }
  set (y := (w + (1 # 10) * sign w)%Q) in *. clearbody y.
  destruct E as [[A B]|[[A B]|[A B]]]; destruct (Qle_boolP 0 y); try qlra.
  - assert (F : Qfloor y = 0) by (apply Qfloor_unique; change (inject_Z 0) with 0%Q; change (inject_Z (0+1)) with 1%Q; qlra).
    rewrite F. split; intro; [|qlra]. change (inject_Z 0) with 0%Q. split; [|split]; try qlra; lia.
  - destruct (Qfloor_bounds y). split; intro; [|qlra]. split; [|split]; try qlra.
    assert (inject_Z 0 < inject_Z (Qfloor y + 1))%Q by (injz; qlra). rewrite <- Zlt_Qlt in *.
    lia.
  - destruct (Qceiling_bounds y). split; intro; [qlra|]. split; [|split]; try qlra.
    assert (inject_Z (Qceiling y + -1) < inject_Z 0)%Q by (injz; qlra). rewrite <- Zlt_Qlt in *. lia.
Qed.

Lemma round2bfreq_spec : forall w, let r := round2bfreq w in
  (bosonic r /\ (0 <= w -> 0 <= r /\ r <= w + (1#10) /\ w < r + 2) /\ (w < 0 -> r <= 0 /\ w - (1#10) <= r /\ r < w + 2))%Q.
Proof.
  intro w. cbv zeta. unfold round2bfreq. pose proof (to_int_tol w) as H. cbv zeta in *.
  set (k := to_int _) in *. clearbody k. destruct H as [H1 H2].
  destruct (Z_even_quot k) as (n & E & B & S). assert (n = Z.quot k 2) by lia. subst n. clear E.
  set (n := Z.quot k 2) in *. clearbody n.
  split. { exists n. injz. reflexivity. }
  split; intro Hw.
  - destruct (H1 Hw) as (A1 & A2 & A3).
    assert (0 <= n) by nia. assert (2 * n <= k <= 2 * n + 1) by lia.
    assert (inject_Z 0 <= inject_Z n)%Q by (rewrite <- Zle_Qle; lia).
    assert (inject_Z (2 * n) <= inject_Z k)%Q by (rewrite <- Zle_Qle; lia).
    assert (inject_Z k <= inject_Z (2 * n + 1))%Q by (rewrite <- Zle_Qle; lia).
    injz. split; [|split]; qlra.
  - destruct (H2 Hw) as (A1 & A2 & A3).
    assert (n <= 0) by nia. assert (2 * n - 1 <= k <= 2 * n) by lia.
    assert (inject_Z n <= inject_Z 0)%Q by (rewrite <- Zle_Qle; lia).
    assert (inject_Z k <= inject_Z (2 * n))%Q by (rewrite <- Zle_Qle; lia).
    assert (inject_Z (2 * n + -1) <= inject_Z k)%Q by (rewrite <- Zle_Qle; lia).
    injz. split; [|split]; qlra.
Qed.
Lemma round2ffreq_spec : forall w, let r := round2ffreq w in
  (fermionic r /\ (1 <= w -> 1 <= r /\ r <= w + (1#10) /\ w < r + 2) /\
   (w <= -1 -> r <= -1 /\ w - (1#10) <= r /\ r < w + 2) /\ (-(9#10) < w /\ w < 9#10 -> r == 1))%Q.
Proof.
  intro w. cbv zeta. unfold round2ffreq. pose proof (to_int_tol w) as H. cbv zeta in *.
  set (k := to_int _) in *. clearbody k. destruct H as [H1 H2].
  destruct (Z_even_quot (k - 1)) as (n & E & B & S). assert (n = Z.quot (k - 1) 2) by lia. subst n. clear E.
  set (n := Z.quot (k - 1) 2) in *. clearbody n.
  split. { exists n. injz. reflexivity. }
  split; [|split]; intro Hw.
  - destruct (H1 ltac:(qlra)) as (A1 & A2 & A3).
    assert (inject_Z 0 < inject_Z k)%Q by (change (inject_Z 0) with 0%Q; qlra). rewrite <- Zlt_Qlt in H.
    assert (0 <= n) by nia. assert (2 * n + 1 <= k <= 2 * n + 2) by lia.
    assert (inject_Z 0 <= inject_Z n)%Q by (rewrite <- Zle_Qle; lia).
    assert (inject_Z (2 * n + 1) <= inject_Z k)%Q by (rewrite <- Zle_Qle; lia).
    assert (inject_Z k <= inject_Z (2 * n + 1 + 1))%Q by (rewrite <- Zle_Qle; lia).
    injz. split; [|split]; qlra.
  - destruct (H2 ltac:(qlra)) as (A1 & A2 & A3).
    assert (inject_Z k < inject_Z 0)%Q by (change (inject_Z 0) with 0%Q; qlra). rewrite <- Zlt_Qlt in H.
    assert (n <= -1) by nia. assert (2 * n <= k <= 2 * n + 1) by lia.
    assert (inject_Z n <= inject_Z (-1))%Q by (rewrite <- Zle_Qle; lia).
    assert (inject_Z k <= inject_Z (2 * n + 1))%Q by (rewrite <- Zle_Qle; lia).
    assert (inject_Z (2 * n) <= inject_Z k)%Q by (rewrite <- Zle_Qle; lia).
    injz. split; [|split]; qlra.
  - assert (k = 0).
    { assert (0 <= w \/ w < 0)%Q as [Hp|Hp] by qlra.
      - destruct (H1 Hp) as (A1 & A2 & A3).
        assert (inject_Z k < inject_Z 1)%Q by (change (inject_Z 1) with 1%Q; qlra). rewrite <- Zlt_Qlt in H. lia.
      - destruct (H2 Hp) as (A1 & A2 & A3).
        assert (inject_Z (-1) < inject_Z k)%Q by (change (inject_Z (-1)) with (-1)%Q; qlra). rewrite <- Zlt_Qlt in H. lia. }
    assert (n = 0) by nia. subst n. reflexivity.
Qed.
Lemma round2bfreq_fix : forall w, bosonic w -> (round2bfreq w == w)%Q.
Proof.
  intros w (n & E). destruct (round2bfreq_spec w) as ((m & Em) & P & N).
  assert (n = m); [|subst; rewrite Em, E; reflexivity].
  rewrite Em in *.
  assert (0 <= w \/ w < 0)%Q as [Hw|Hw] by qlra.
  - destruct (P Hw) as (A & B & C).
    assert (inject_Z (2 * m) < inject_Z (2 * n + 1))%Q by (injz; qlra).
    assert (inject_Z (2 * n) < inject_Z (2 * m + 2))%Q by (injz; qlra). rewrite <- !Zlt_Qlt in *. lia.
  - destruct (N Hw) as (A & B & C).
    assert (inject_Z (2 * n) < inject_Z (2 * m + 1))%Q by (injz; qlra).
    assert (inject_Z (2 * m) < inject_Z (2 * n + 2))%Q by (injz; qlra). rewrite <- !Zlt_Qlt in *. lia.
Qed.
Lemma round2ffreq_fix : forall w, fermionic w -> (round2ffreq w == w)%Q.
Proof.
  intros w (n & E). destruct (round2ffreq_spec w) as ((m & Em) & P & N & _).
  assert (n = m); [|subst; rewrite Em, E; reflexivity].
  rewrite Em in *.
  destruct (Z.le_gt_cases 0 n) as [Hn|Hn].
  - assert (1 <= w)%Q by (rewrite E; change 1%Q with (inject_Z 1); rewrite <- Zle_Qle; lia).
    destruct (P H) as (A & B & C).
    assert (inject_Z (2 * m + 1) < inject_Z (2 * n + 1 + 1))%Q by (injz; qlra).
    assert (inject_Z (2 * n + 1) < inject_Z (2 * m + 1 + 2))%Q by (injz; qlra). rewrite <- !Zlt_Qlt in *. lia.
  - assert (w <= -1)%Q by (rewrite E; change (-1)%Q with (inject_Z (-1)); rewrite <- Zle_Qle; lia).
    destruct (N H) as (A & B & C).
    assert (inject_Z (2 * n + 1) < inject_Z (2 * m + 1 + 1))%Q by (injz; qlra).
    assert (inject_Z (2 * m + 1) < inject_Z (2 * n + 1 + 2))%Q by (injz; qlra). rewrite <- !Zlt_Qlt in *. lia.
Qed.

(** *** rounding away from zero / to the next integer with tolerance *)
Lemma round2Infty_spec : forall x, exists n, (round2Infty x == inject_Z n)%Q /\
  ((0 < x -> inject_Z n - 1 < x - tol10 /\ x - tol10 <= inject_Z n) /\
   (x <= 0 -> inject_Z n <= x + tol10 /\ x + tol10 < inject_Z n + 1))%Q.
Proof.
  intro x. unfold round2Infty. destruct (Qle_boolP x 0).
  - eexists. split; [reflexivity|]. destruct (Qfloor_bounds (x + tol10)). split; intro; [qlra|]. split; assumption.
  - eexists. split; [reflexivity|]. destruct (Qceiling_bounds (x - tol10)). split; intro; [|qlra]. split; assumption.
Qed.
Lemma myround_int : forall x n, (inject_Z n - tol10 <= x /\ x <= inject_Z n + tol10)%Q ->
  (myround x == inject_Z n /\ round2Infty x == inject_Z n)%Q.
Proof.
  intros x n [A B].
  assert (F : Qfloor (x + tol10) = n) by (apply Qfloor_unique; unfold tol10 in *; injz; qlra).
  assert (G : Qceiling (x - tol10) = n) by (apply Qceiling_unique; unfold tol10, Z.sub in *; injz; qlra).
  unfold myround, round2Infty. rewrite F, G. split; [destruct (Qle_bool x (- (1#2)))|destruct (Qle_bool x 0)]; reflexivity.
Qed.
(** myround takes half-integers towards plus infinity above -1/2 and towards minus infinity from -1/2 on *)
Lemma myround_between : forall x n, (inject_Z n + tol10 < x /\ x < inject_Z n + 1 - tol10)%Q ->
  (myround x == inject_Z (if Qle_bool x (- (1#2)) then n else n + 1))%Q.
Proof.
  intros x n [A B].
  assert (F : Qfloor (x + tol10) = n) by (apply Qfloor_unique; unfold tol10 in *; injz; qlra).
  assert (G : Qceiling (x - tol10) = n + 1) by (apply Qceiling_unique; unfold tol10, Z.sub in *; injz; qlra).
  unfold myround. rewrite F, G. destruct (Qle_bool x (- (1#2))); reflexivity.
Qed.

(** *** correction when a rounded half frequency changes its sign *)
Lemma signFlip_spec : forall w, bosonic w -> exists c lo lo',
  signFlipCorrection_MF w = Some c /\ floor2bfreq (w / 2) = Some lo /\ floor2bfreq ((- w) / 2) = Some lo' /\
  (lo' == - lo + c)%Q.
Proof.
  intros w Hb. destruct (bosonic_half w Hb) as (z & Ez & Ew).
  assert (Ez' : ((- w) / 2 == inject_Z (- z))%Q) by (rewrite inject_Z_opp, <- Ez; field).
  destruct (floor2bfreq_on_int _ z Ez) as (lo & n & E1 & E2 & E3).
  destruct (floor2bfreq_on_int _ (- z) Ez') as (lo' & m & F1 & F2 & F3).
  destruct (floor2bfreq_int_spec z) as (n' & En & Hn). rewrite En in E3. injection E3 as E3.
  destruct (floor2bfreq_int_spec (- z)) as (m' & Em & Hm). rewrite Em in F3. injection F3 as F3.
  assert (n' = n) by lia. assert (m' = m) by lia. subst n' m'.
  unfold signFlipCorrection_MF, signFlipCorrection_MF_int.
  assert (T : to_int (Qabs' (w / 2)) = Z.abs z).
  { unfold to_int, Qabs'. destruct (Qle_boolP 0 (w / 2)).
    - destruct (Qle_boolP 0 (w / 2)); [|contradiction].
      assert (0 <= z) by (rewrite Zle_Qle; change (inject_Z 0) with 0%Q; qlra).
      rewrite Z.abs_eq by lia. apply Qfloor_unique; injz; qlra.
    - destruct (Qle_boolP 0 (- (w / 2))); [|qlra].
      assert (z < 0) by (rewrite Zlt_Qlt; change (inject_Z 0) with 0%Q; qlra).
      rewrite Z.abs_neq by lia. apply Qfloor_unique; rewrite ?inject_Z_plus, inject_Z_opp; change (inject_Z 1) with 1%Q; qlra. }
  rewrite T. cbv zeta.
  assert (R : Z.rem (- Z.abs z) 2 = - (z mod 2)).
  { rewrite Z.rem_opp_l by lia. f_equal. rewrite Z.rem_mod_nonneg by lia.
    destruct (Z.abs_eq_or_opp z) as [-> | ->]; [reflexivity|].
    pose proof (Z.div_mod z 2 ltac:(lia)). pose proof (Z.mod_pos_bound z 2 ltac:(lia)).
    pose proof (Z.div_mod (- z) 2 ltac:(lia)). pose proof (Z.mod_pos_bound (- z) 2 ltac:(lia)). lia. }
  rewrite R. pose proof (Z.mod_pos_bound z 2 ltac:(lia)) as Bm. pose proof (Z.div_mod z 2 ltac:(lia)) as Dm.
  assert (C : (- (z mod 2) =? 0) || (- (z mod 2) =? -1) = true).
  { apply orb_true_iff. rewrite !Z.eqb_eq. lia. }
  rewrite C. cbn [obind]. eexists _, lo, lo'. split; [reflexivity|]. split; [exact E1|]. split; [exact F1|].
  rewrite E2, F2. assert (2 * m = - (2 * n) + - (z mod 2) * 2) by lia. rewrite H. injz. ring.
Qed.

(** *** natural and bosonic frequencies *)
Lemma switch_roundtrip : forall ch f, trip_eq (switch2naturalFreqs ch (switch2bosonicFreqs ch f)) f.
Proof. intros ch [[w v] v']. destruct ch; unfold trip_eq; cbn; repeat split; ring. Qed.
Lemma switch_roundtrip' : forall ch f, trip_eq (switch2bosonicFreqs ch (switch2naturalFreqs ch f)) f.
Proof. intros ch [[w v] v']. destruct ch; unfold trip_eq; cbn; repeat split; ring. Qed.
Lemma switch_bosonic_is_transfer : forall ch f,
  trip_eq (switch2bosonicFreqs ch f)
    (transfer Ca (legs_of ch f), transfer Cp (legs_of ch f), transfer Ct (legs_of ch f)).
Proof. intros ch [[w v] v']. destruct ch; unfold trip_eq; cbn; repeat split; field. Qed.

(** *** frequencies of the bubble propagators *)
Definition combine (ch : chan) (a b : Q) : Q := match ch with Cp => a + b | _ => b - a end%Q.
Lemma bubble_freqs_T0 : forall ch w vpp, exists a b a' b',
  convert_to_fermionic_frequencies_1 false ch vpp w = Some a /\
  convert_to_fermionic_frequencies_2 false ch vpp w = Some b /\
  bubble_freqs_scalar false ch w vpp = Some (a', b') /\ (a == a' /\ b == b' /\ combine ch a b == w)%Q.
Proof. intros ch w vpp. destruct ch; repeat eexists; cbn; field. Qed.
Lemma bubble_freqs_mf : forall ch w vpp, bosonic w -> fermionic vpp -> exists a b,
  convert_to_fermionic_frequencies_1 true ch vpp w = Some a /\
  convert_to_fermionic_frequencies_2 true ch vpp w = Some b /\
  (exists a' b', bubble_freqs_scalar true ch w vpp = Some (a', b') /\ (a == a' /\ b == b')%Q) /\
  (combine ch a b == w)%Q /\ fermionic a /\ fermionic b.
Proof.
  intros ch w vpp Hw (k & Ek). destruct (half_split_spec w Hw) as (lo & hi & E1 & E2 & (n & En) & (m & Em) & S & _).
  unfold convert_to_fermionic_frequencies_1, convert_to_fermionic_frequencies_2, bubble_freqs_scalar.
  rewrite E1, E2. cbn [obind].
  destruct ch; do 2 eexists; (split; [reflexivity|]; split; [reflexivity|]; split;
    [do 2 eexists; split; [reflexivity|]; split; ring|]; split; [cbn; qlra|]).
  - split; [exists (k - n)|exists (k + m)]; rewrite Ek, ?En, ?Em; unfold Z.sub; injz; ring.
  - split; [exists (k + m)|exists (n - k - 1)]; rewrite Ek, ?En, ?Em; unfold Z.sub; injz; ring.
  - split; [exists (k - n)|exists (k + m)]; rewrite Ek, ?En, ?Em; unfold Z.sub; injz; ring.
Qed.

(** *** binary search *)
Definition fle (y : Q) (x : fl) : Prop := match x with NaN => False | Fin q => (y <= q)%Q end.
Definition fltq (x : fl) (y : Q) : Prop := match x with NaN => False | Fin q => (q < y)%Q end.

Lemma locate_ok : forall k xx x jl ju, 0 <= jl -> jl < ju -> ju <= Z.of_nat (length xx) ->
  ju - jl <= 2 ^ Z.of_nat k ->
  exists j, locate_loop k xx x jl ju = Some (Some j) /\ jl <= j < ju /\
    (forall y, jl < j -> nth_error xx (Z.to_nat j) = Some y -> fle y x) /\
    (forall q y, x = Fin q -> j + 1 < ju -> nth_error xx (Z.to_nat (j + 1)) = Some y -> fltq x y).
Proof.
  induction k; intros xx x jl ju H0 H1 H2 H3.
  - change (2 ^ Z.of_nat 0) with 1 in H3. cbn [locate_loop].
    rewrite Z.gtb_ltb. destruct (Z.ltb_spec 1 (ju - jl)); [lia|].
    exists jl. split; [reflexivity|]. split; [lia|]. split; intros; lia.
  - cbn [locate_loop]. rewrite Z.gtb_ltb. destruct (Z.ltb_spec 1 (ju - jl)).
    2:{ exists jl. split; [reflexivity|]. split; [lia|]. split; intros; lia. }
    cbv zeta. rewrite Z.quot_div_nonneg by lia.
    set (jm := (ju + jl) / 2). assert (Bm : 2 * jm <= ju + jl < 2 * jm + 2).
    { unfold jm. pose proof (Z.div_mod (ju + jl) 2 ltac:(lia)). pose proof (Z.mod_pos_bound (ju + jl) 2 ltac:(lia)). lia. }
    clearbody jm. destruct (Z.ltb_spec jm 0); [lia|].
    rewrite Nat2Z.inj_succ, Z.pow_succ_r in H3 by lia.
    destruct (nth_error xx (Z.to_nat jm)) as [y|] eqn:Ey.
    2:{ apply nth_error_None in Ey. lia. }
    destruct (fge x y) eqn:Eg.
    + destruct (IHk xx x jm ju) as (j & A & B & C & D); [lia..|].
      exists j. split; [exact A|]. split; [lia|]. split; [|exact D].
      intros y' Hj Hy. destruct (Z.eq_dec j jm) as [->|]; [|apply C; [lia|exact Hy]].
      rewrite Ey in Hy. injection Hy as <-. unfold fge in Eg. unfold fle. destruct x; [discriminate|].
      now apply Qle_bool_iff.
    + destruct (IHk xx x jl jm) as (j & A & B & C & D); [lia..|].
      exists j. split; [exact A|]. split; [lia|]. split; [exact C|].
      intros q y' Eq Hj Hy. destruct (Z.eq_dec (j + 1) jm) as [Ejm|]; [|eapply D; [exact Eq|lia|exact Hy]].
      rewrite Ejm, Ey in Hy. injection Hy as <-. subst x. unfold fge in Eg. unfold fltq.
      apply Qnot_le_lt. intro Hle. apply Qle_bool_iff in Hle. congruence.
Qed.

Definition increasing (xx : list Q) : Prop :=
  forall i j a b, (i < j)%nat -> nth_error xx i = Some a -> nth_error xx j = Some b -> (a < b)%Q.

Lemma pow2_ge : forall n : nat, Z.of_nat n <= 2 ^ Z.of_nat n.
Proof.
  induction n; [cbn; lia|]. rewrite Nat2Z.inj_succ, Z.pow_succ_r by lia.
  assert (1 <= 2 ^ Z.of_nat n) by (apply (Z.pow_le_mono_r 2 0); lia). lia.
Qed.

Lemma locate_cell : forall k xx q x0 xn, increasing xx -> (2 <= length xx)%nat ->
  Z.of_nat (length xx) - 1 <= 2 ^ Z.of_nat k ->
  nth_error xx 0 = Some x0 -> nth_error xx (length xx - 1) = Some xn -> (x0 <= q /\ q <= xn)%Q ->
  exists j a b, locate k xx (Fin q) 0 (Z.of_nat (length xx) - 1) = Some (Some (Z.of_nat j)) /\
    (j + 1 < length xx)%nat /\ nth_error xx j = Some a /\ nth_error xx (j + 1) = Some b /\
    (a <= q)%Q /\ (q < b \/ (j + 2 = length xx)%nat /\ (q <= b)%Q)%Q.
Proof.
  intros k xx q x0 xn Hinc Hlen Hk E0 En [Hl Hr].
  destruct (locate_ok k xx (Fin q) 0 (Z.of_nat (length xx) - 1)) as (j & A & B & C & D); [lia..|].
  exists (Z.to_nat j). rewrite Z2Nat.id by lia.
  destruct (nth_error xx (Z.to_nat j)) as [a|] eqn:Ea; [|apply nth_error_None in Ea; lia].
  destruct (nth_error xx (Z.to_nat j + 1)) as [b|] eqn:Eb; [|apply nth_error_None in Eb; lia].
  exists a, b. split; [exact A|]. split; [lia|]. split; [reflexivity|]. split; [reflexivity|].
  split.
  - destruct (Z.eq_dec j 0) as [->|].
    + change (Z.to_nat 0) with 0%nat in Ea. rewrite E0 in Ea. injection Ea as <-. exact Hl.
    + apply (C a); [lia|reflexivity].
  - destruct (Z_lt_le_dec (j + 1) (Z.of_nat (length xx) - 1)) as [Hj|Hj].
    + left. assert (Hx : fltq (Fin q) b).
      { eapply D; [reflexivity|exact Hj|]. replace (Z.to_nat (j + 1)) with (Z.to_nat j + 1)%nat by lia. exact Eb. }
      exact Hx.
    + right. split; [lia|]. replace (Z.to_nat j + 1)%nat with (length xx - 1)%nat in Eb by lia.
      rewrite En in Eb. injection Eb as <-. exact Hr.
Qed.

Lemma locate_member : forall k xx i q, increasing xx -> nth_error xx i = Some q ->
  Z.of_nat (length xx) <= 2 ^ Z.of_nat k ->
  locate k xx (Fin q) 0 (Z.of_nat (length xx)) = Some (Some (Z.of_nat i)).
Proof.
  intros k xx i q Hinc Hi Hk.
  assert (Hi' : (i < length xx)%nat) by (apply nth_error_Some; congruence).
  destruct (locate_ok k xx (Fin q) 0 (Z.of_nat (length xx))) as (j & A & B & C & D); [lia..|].
  unfold locate. rewrite A. do 2 f_equal.
  destruct (nth_error xx (Z.to_nat j)) as [a|] eqn:Ea; [|apply nth_error_None in Ea; lia].
  destruct (Z.lt_trichotomy j (Z.of_nat i)) as [H|[H|H]]; [|exact H|]; exfalso.
  - destruct (nth_error xx (Z.to_nat (j + 1))) as [b|] eqn:Eb; [|apply nth_error_None in Eb; lia].
    pose proof (D q b eq_refl ltac:(lia) eq_refl) as Hb. cbn in Hb.
    destruct (Z.eq_dec (j + 1) (Z.of_nat i)) as [E|].
    + rewrite E, Nat2Z.id, Hi in Eb. injection Eb as <-. qlra.
    + assert (b < q)%Q by (eapply Hinc; [|exact Eb|exact Hi]; lia). qlra.
  - pose proof (C a ltac:(lia) eq_refl) as Ha. cbn in Ha.
    assert (q < a)%Q by (eapply Hinc; [|exact Hi|exact Ea]; lia). qlra.
Qed.

(** the double version away from the tolerance window *)
Lemma floor2bfreq_gen : forall w n, (inject_Z (2 * n) <= w)%Q -> (w < inject_Z (2 * n) + 2 - 2 * tol8)%Q ->
  exists r, floor2bfreq w = Some r /\ (r == inject_Z (2 * n))%Q.
Proof.
  intros w n A B.
  assert (F : Qfloor (w / 2 + tol8) = n) by (apply Qfloor_unique; unfold tol8 in *; injz; qlra).
  unfold floor2bfreq. rewrite F. cbv zeta.
  destruct (Qle_boolP (inject_Z n * 2) w) as [|N]; [|exfalso; apply N; injz; qlra].
  destruct (Qle_boolP (w - 2) (inject_Z n * 2)) as [|N]; [|exfalso; apply N; unfold tol8 in *; injz; qlra].
  eexists; split; [reflexivity|]. injz; qlra.
Qed.
Lemma ceil2bfreq_gen : forall w n, (w <= inject_Z (2 * n))%Q -> (inject_Z (2 * n) - 2 + 2 * tol8 < w)%Q ->
  exists r, ceil2bfreq w = Some r /\ (r == inject_Z (2 * n))%Q.
Proof.
  intros w n A B.
  assert (F : Qceiling (w / 2 - tol8) = n) by (apply Qceiling_unique; unfold tol8, Z.sub in *; injz; qlra).
  unfold ceil2bfreq. rewrite F. cbv zeta.
  destruct (Qle_boolP w (inject_Z n * 2)) as [|N]; [|exfalso; apply N; injz; qlra].
  destruct (Qle_boolP (inject_Z n * 2) (w + 2)) as [|N]; [|exfalso; apply N; unfold tol8 in *; injz; qlra].
  eexists; split; [reflexivity|]. injz; qlra.
Qed.
