From Coq Require Import Reals Lra.
From Verif Require Import Prelude Quad_Model Quad_Spec Quad_Proofs.
Open Scope R_scope.

(** ** C54: degrees of exactness on every interval; [area] is the integral because [primitive] is a primitive *)
Theorem C54_area : forall c x, derivable_pt_lim (primitive c) x (poly c x).
Proof. exact primitive_derivative. Qed.
Print Assumptions C54_area.
Theorem C54_lobatto : forall c a b, (length c <= 6)%nat -> let m := 1 / 2 * (a + b) in let h := 1 / 2 * (b - a) in let f := poly c in
  Gauss_Lobatto_4 h (f a) (f (m - beta * h)) (f (m + beta * h)) (f b) = area c a b.
Proof. intros c a b L. cbv zeta. rewrite <- (lobatto_exact c a b L). apply rule4. Qed.
Print Assumptions C54_lobatto.
Theorem C54_kronrod : forall c a b, (length c <= 10)%nat -> let m := 1 / 2 * (a + b) in let h := 1 / 2 * (b - a) in let f := poly c in
  Gauss_Kronrod_7 h (f a) (f (m - alpha * h)) (f (m - beta * h)) (f m) (f (m + beta * h)) (f (m + alpha * h)) (f b) = area c a b.
Proof. intros c a b L. cbv zeta. rewrite <- (kronrod_exact c a b L). apply rule7; reflexivity. Qed.
Print Assumptions C54_kronrod.
(** the degrees cannot be improved, on any interval *)
Lemma even_power6 m s : (m - s - m) ^ 6 + (m + s - m) ^ 6 = 2 * (s * s) ^ 3. Proof. ring. Qed.
Lemma even_power10 m s : (m - s - m) ^ 10 + (m + s - m) ^ 10 = 2 * (s * s) ^ 5. Proof. ring. Qed.
(** (x - m)^6 and (x - m)^10 with the midpoint m; their integrals are 2 h^7 / 7 and 2 h^11 / 11 *)
Theorem C54_sharp : forall a b, a <> b -> let m := (a + b) / 2 in let h := (b - a) / 2 in
  lobatto4 (fun x => (x - m) ^ 6) a b <> 2 * h ^ 7 / 7 /\ kronrod7 (fun x => (x - m) ^ 10) a b <> 2 * h ^ 11 / 11.
Proof.
  intros a b N m h. assert (H : h <> 0) by (unfold h; lra). unfold lobatto4, kronrod7, at_node. change (sqrt (2 / 3)) with alpha. change (1 / sqrt 5) with beta. fold m. fold h.
  replace (m + - alpha * h) with (m - alpha * h) by ring. replace (m + - beta * h) with (m - beta * h) by ring.
  replace a with (m - h) by (unfold m, h; field). replace b with (m + h) by (unfold m, h; field).
  rewrite !even_power6, !even_power10.
  replace (alpha * h * (alpha * h)) with (2 / 3 * (h * h)) by (rewrite <- alpha_sq; ring). replace (beta * h * (beta * h)) with (1 / 5 * (h * h)) by (rewrite <- beta_sq; ring).
  replace (m - m) with 0 by ring. rewrite (pow_i 10) by lia. replace (m + h - (m - h)) with (2 * h) by ring. clearbody m h. clear a b N.
  assert (P7 : h ^ 7 <> 0) by (apply pow_nonzero; exact H). assert (P11 : h ^ 11 <> 0) by (apply pow_nonzero; exact H). split; intro E.
  - apply P7. replace (2 * h / 12 * (2 * (h * h) ^ 3 + 5 * (2 * (1 / 5 * (h * h)) ^ 3))) with (26 / 75 * h ^ 7) in E by field. lra.
  - apply P11.
    match type of E with ?l = _ => assert (E' : l = (154 + 864 * (2 / 3) ^ 5 + 1250 * (1 / 5) ^ 5) / 1470 * h ^ 11) by field end. rewrite E' in E. lra.
Qed.
Print Assumptions C54_sharp.

(** the 13-point rule: its tabulated weights and nodes integrate polynomials up to degree 19 with an error of 1e-15 per coefficient *)
Definition T13 (f : R -> R) : R := Gauss_Kronrod_13 1 (f (-1)) (f (- x1)) (f (- alpha)) (f (- x2)) (f (- beta)) (f (- x3)) (f 0) (f x3) (f beta) (f x2) (f alpha) (f x1) (f 1).
Lemma thirteen_T13 f a b : let m := (a + b) / 2 in let h := (b - a) / 2 in thirteen f a b = h * T13 (fun t => f (m + t * h)).
Proof.
  cbv zeta. unfold thirteen, T13, Gauss_Kronrod_13.
  replace (1 / 2 * (b + a)) with ((a + b) / 2) by field. replace (1 / 2 * (b - a)) with ((b - a) / 2) by field.
  replace ((a + b) / 2 + -1 * ((b - a) / 2)) with a by field. replace ((a + b) / 2 + 1 * ((b - a) / 2)) with b by field. ring.
Qed.
Lemma T13_even n : T13 (fun t => t ^ (2 * n)) =
  2 * (158271919734802 / 10 ^ 16 + 942738402188500 / 10 ^ 16 * (x1 * x1) ^ n + 155071987336585 / 10 ^ 15 * (2 / 3) ^ n
     + 188821573960182 / 10 ^ 15 * (x2 * x2) ^ n + 199773405226859 / 10 ^ 15 * (1 / 5) ^ n + 224926465333340 / 10 ^ 15 * (x3 * x3) ^ n)
     + 242611071901408 / 10 ^ 15 * 0 ^ n.
Proof.
  unfold T13, Gauss_Kronrod_13. rewrite !pow_mult. rewrite <- alpha_sq, <- beta_sq.
  replace ((-1) ^ 2) with 1 by ring. replace (1 ^ 2) with 1 by ring. replace (0 ^ 2) with 0 by ring. rewrite pow1.
  replace ((- x1) ^ 2) with (x1 * x1) by ring. replace ((- x2) ^ 2) with (x2 * x2) by ring. replace ((- x3) ^ 2) with (x3 * x3) by ring.
  replace ((- alpha) ^ 2) with (alpha * alpha) by ring. replace ((- beta) ^ 2) with (beta * beta) by ring.
  replace (x1 ^ 2) with (x1 * x1) by ring. replace (x2 ^ 2) with (x2 * x2) by ring. replace (x3 ^ 2) with (x3 * x3) by ring.
  replace (alpha ^ 2) with (alpha * alpha) by ring. replace (beta ^ 2) with (beta * beta) by ring. ring.
Qed.
Lemma T13_odd n : T13 (fun t => t ^ (2 * n + 1)) = 0.
Proof.
  assert (P : forall t, (- t) ^ (2 * n + 1) = - t ^ (2 * n + 1)). { intros t. rewrite !pow_add, !pow_mult, !pow_1. replace ((- t) ^ 2) with (t ^ 2) by ring. ring. }
  unfold T13, Gauss_Kronrod_13. rewrite !P. replace (-1) with (- (1)) by ring. rewrite P. rewrite (pow_i (2 * n + 1)) by lia. ring.
Qed.
Definition moment (k : nat) : R := (1 - (-1) ^ S k) / INR (S k).
Lemma T13_moment k : (k < 20)%nat -> Rabs (T13 (fun t => t ^ k) - moment k) <= / 10 ^ 15.
Proof.
  intros K. destruct (Nat.Even_or_Odd k) as [(n & ->)|(n & ->)].
  - rewrite T13_even. unfold moment. replace ((-1) ^ S (2 * n)) with (-1) by (cbn [pow]; rewrite pow_1_even; ring).
    assert (N : (n < 10)%nat) by lia. do 10 (destruct n as [|n]; [apply Rabs_le; unfold x1, x2, x3; cbn [pow INR Nat.mul Nat.add]; lra|]). lia.
  - rewrite T13_odd. unfold moment. replace (S (2 * n + 1)) with (2 * S n)%nat by lia. rewrite pow_1_even. replace (0 - (1 - 1) / INR (2 * S n)) with (- ((1 - 1) * / INR (2 * S n))) by (unfold Rdiv; ring).
    replace (1 - 1) with 0 by ring. rewrite Rmult_0_l, Ropp_0, Rabs_R0. left. apply Rinv_0_lt_compat. apply pow_lt. lra.
Qed.
Lemma T13_lin k c : forall f, T13 (fun t => c * t ^ k + f t) = c * T13 (fun t => t ^ k) + T13 f.
Proof. intros f. unfold T13, Gauss_Kronrod_13. ring. Qed.
Fixpoint norm1 (c : list R) : R := match c with [] => 0 | x :: c' => Rabs x + norm1 c' end.
Lemma T13_ext f g : (forall t, f t = g t) -> T13 f = T13 g. Proof. intros H. unfold T13. rewrite !H. reflexivity. Qed.
Definition area_from (k : nat) (c : list R) : R := 1 ^ k * poly (divided k c) 1 - (-1) ^ k * poly (divided k c) (-1).
Lemma T13_poly c : forall k, (k + length c <= 20)%nat -> Rabs (T13 (fun t => t ^ k * poly c t) - area_from (S k) c) <= / 10 ^ 15 * norm1 c.
Proof.
  assert (Ep : 0 < / 10 ^ 15) by (apply Rinv_0_lt_compat; apply pow_lt; lra).
  induction c as [|x c IH]; intros k L.
  - cbn [poly norm1]. rewrite (T13_ext _ (fun _ => 0)) by (intros; ring). unfold T13, Gauss_Kronrod_13, area_from. cbn [divided poly].
    match goal with |- Rabs ?e <= _ => replace e with 0 by ring end. rewrite Rabs_R0. lra.
  - rewrite (T13_ext _ (fun t => x * t ^ k + t ^ S k * poly c t)) by (intros t; cbn [poly pow]; ring). rewrite T13_lin.
    cbn [length] in L. specialize (IH (S k) ltac:(lia)). pose proof (T13_moment k ltac:(lia)) as M.
    assert (Sp : area_from (S k) (x :: c) = x * moment k + area_from (S (S k)) c).
    { unfold area_from, moment. cbn [divided poly]. rewrite !pow1. replace ((-1) ^ S (S k)) with (- (-1) ^ S k) by (cbn [pow]; ring). field. apply not_0_INR. lia. }
    rewrite Sp. cbn [norm1].
    match goal with |- Rabs ?e <= _ => replace e with (x * (T13 (fun t => t ^ k) - moment k) + (T13 (fun t => t ^ S k * poly c t) - area_from (S (S k)) c)) by ring end.
    eapply Rle_trans; [apply Rabs_triang|]. rewrite Rabs_mult. pose proof (Rabs_pos x). 
    assert (Rabs x * Rabs (T13 (fun t => t ^ k) - moment k) <= Rabs x * / 10 ^ 15) by (apply Rmult_le_compat_l; lra). lra.
Qed.
(** coefficients with respect to the distance from the midpoint in units of the half width *)
Theorem C54_thirteen : forall c a b, (length c <= 20)%nat -> a <= b -> let m := (a + b) / 2 in let h := (b - a) / 2 in
  Rabs (T13 (poly c) - area c (-1) 1) <= / 10 ^ 15 * norm1 c /\
  thirteen (fun x => poly c ((x - m) / h)) a b = (if Req_EM_T h 0 then 0 else h * T13 (poly c)).
Proof.
  intros c a b L O m h. split.
  - pose proof (T13_poly c 0 L) as P. rewrite (T13_ext _ (poly c)) in P by (intros; cbn [pow]; ring).
    replace (area c (-1) 1) with (area_from 1 c); [exact P|]. unfold area_from, area, primitive. rewrite !pow_1. reflexivity.
  - rewrite thirteen_T13. fold m. fold h. destruct (Req_EM_T h 0) as [->|N]; [ring|]. f_equal. apply T13_ext. intros t. f_equal. field. exact N.
Qed.
Print Assumptions C54_thirteen.

(** ** C55 *)
Definition vanishing (f : R -> R) (a b : R) : Prop := Rabs (thirteen f a b) < / 10 ^ 20.
Lemma integrate_cases fuel tol f a b v : a < b -> integrate fuel tol f a b = Some v -> (vanishing f a b /\ v = 0) \/ composed f a b v.
Proof.
  intros H E. unfold integrate in E. cbv zeta in E.
  replace (1 / 2 * (b + a)) with (1 / 2 * (a + b)) in E by ring.
  pose proof (nodes_order a b H) as (O1 & O2 & O3 & O4 & O5 & O6). cbv zeta in *.
  set (m := 1 / 2 * (a + b)) in *. set (h := 1 / 2 * (b - a)) in *.
  replace (m + - alpha * h) with (m - alpha * h) in E by ring. replace (m + - beta * h) with (m - beta * h) in E by ring. replace (m + 0 * h) with m in E by ring.
  destruct (Rlt_dec (Rabs (thirteen f a b)) (/ 10 ^ 20)) as [V|V]; [left; injection E as <-; auto|]. right.
  destruct (Rle_dec b a); [lra|].
  assert (K : Gauss_Kronrod_7 h (f a) (f (m - alpha * h)) (f (m - beta * h)) (f m) (f (m + beta * h)) (f (m + alpha * h)) (f b) = kronrod7 f a b) by (apply rule7; reflexivity).
  rewrite K in E. match type of E with (if ?c then _ else _) = _ => destruct c end; [injection E as <-; apply composed_one; exact H|].
  destruct (Rlt_dec (b - a) tolerance_abs); [injection E as <-; apply composed_one; exact H|].
  match type of E with context [integrate_sub _ _ ?t] => set (tr := t) in E end. clearbody tr. set (is := thirteen f a b) in *.
  destruct (integrate_sub fuel f tr a _ _ _ is) as [s1|] eqn:E1; [|discriminate]. cbn [obind] in E.
  destruct (integrate_sub fuel f tr (m - alpha * h) _ _ _ is) as [s2|] eqn:E2; [|discriminate]. cbn [obind] in E.
  destruct (integrate_sub fuel f tr (m - beta * h) _ _ _ is) as [s3|] eqn:E3; [|discriminate]. cbn [obind] in E.
  destruct (integrate_sub fuel f tr m _ _ _ is) as [s4|] eqn:E4; [|discriminate]. cbn [obind] in E.
  destruct (integrate_sub fuel f tr (m + beta * h) _ _ _ is) as [s5|] eqn:E5; [|discriminate]. cbn [obind] in E.
  destruct (integrate_sub fuel f tr (m + alpha * h) _ _ _ is) as [s6|] eqn:E6; [|discriminate]. cbn [obind] in E. injection E as <-.
  repeat (eapply composed_join; [|eapply sub_composed; [|eassumption]; assumption]). eapply sub_composed; eassumption.
Qed.
(** the result is the composite 7-point rule for a partition of the interval into consecutive subintervals *)
Theorem C55_partition : forall fuel tol f a b v, a < b -> ~ vanishing f a b -> integrate fuel tol f a b = Some v ->
  exists l, partitions a b l /\ v = composite (kronrod7 f) a l.
Proof. intros fuel tol f a b v H N E. destruct (integrate_cases fuel tol f a b v H E) as [(V & _)|C]; [contradiction|exact C]. Qed.
Print Assumptions C55_partition.
(** polynomials up to degree 9 are integrated exactly, whatever the tolerance *)
Theorem C55_polynomials : forall fuel tol c a b v, (length c <= 10)%nat -> a < b -> ~ vanishing (poly c) a b -> integrate fuel tol (poly c) a b = Some v -> v = area c a b.
Proof.
  intros fuel tol c a b v L H N E. destruct (C55_partition fuel tol (poly c) a b v H N E) as (l & (_ & La) & ->).
  rewrite (composite_exact (kronrod7 (poly c)) c) by (intros; apply kronrod_exact; exact L). rewrite La. reflexivity.
Qed.
Print Assumptions C55_polynomials.
(** the recursion ends for every bounded integrand, with an explicit depth *)
Theorem C55_terminates : forall fuel tol f a b M, 0 <= M -> a < b -> bounded f a b M -> 2 * (b - a) * M < tolerance_abs * 4 ^ S fuel -> exists v, integrate (S fuel) tol f a b = Some v.
Proof.
  intros fuel tol f a b M HM H B W. remember (S fuel) as F eqn:EF. unfold integrate. cbv zeta.
  replace (1 / 2 * (b + a)) with (1 / 2 * (a + b)) by ring.
  pose proof (nodes_order a b H) as (O1 & O2 & O3 & O4 & O5 & O6). pose proof (nodes_width a b H) as (W1 & W2 & W3 & W4 & W5 & W6). cbv zeta in *.
  set (m := 1 / 2 * (a + b)) in *. set (h := 1 / 2 * (b - a)) in *.
  replace (m + - alpha * h) with (m - alpha * h) by ring. replace (m + - beta * h) with (m - beta * h) by ring. replace (m + 0 * h) with m by ring.
  destruct (Rlt_dec (Rabs (thirteen f a b)) (/ 10 ^ 20)) as [V|V]; [eexists; reflexivity|].
  destruct (Rle_dec b a); [lra|].
  match goal with |- exists v, (if ?c then _ else _) = _ => destruct c end; [eexists; reflexivity|].
  destruct (Rlt_dec (b - a) tolerance_abs); [eexists; reflexivity|].
  match goal with |- context [integrate_sub _ _ ?t] => set (tr := t) end. clearbody tr. set (is := thirteen f a b) in *.
  assert (G : forall u v, a <= u -> u < v -> v <= b -> v - u <= 1 / 4 * (b - a) -> exists s, integrate_sub F f tr u v (f u) (f v) is = Some s).
  { intros u v U1 U2 U3 U4. subst F. apply (sub_ends f tr is M HM); [exact U2|intros x X; apply B; lra|]. cbn [pow] in W. pose proof (pow4_pos fuel).
    assert ((v - u) * M <= 1 / 4 * (b - a) * M) by (apply Rmult_le_compat_r; lra). lra. }
  destruct (G a (m - alpha * h)) as (s1 & E1); try lra. destruct (G (m - alpha * h) (m - beta * h)) as (s2 & E2); try lra.
  destruct (G (m - beta * h) m) as (s3 & E3); try lra. destruct (G m (m + beta * h)) as (s4 & E4); try lra.
  destruct (G (m + beta * h) (m + alpha * h)) as (s5 & E5); try lra. destruct (G (m + alpha * h) b) as (s6 & E6); try lra.
  rewrite E1. cbn [obind]. rewrite E2. cbn [obind]. rewrite E3. cbn [obind]. rewrite E4. cbn [obind]. rewrite E5. cbn [obind]. rewrite E6. cbn [obind]. eexists. reflexivity.
Qed.
Print Assumptions C55_terminates.
Lemma fuel_exists x : exists n, x < tolerance_abs * 4 ^ S n.
Proof.
  destruct (Pow_x_infinity 4 ltac:(rewrite Rabs_right; lra) (x / tolerance_abs + 1)) as (N & P). specialize (P (S N) ltac:(lia)).
  rewrite (Rabs_right (4 ^ S N)) in P by (left; apply pow4_pos). exists N. pose proof tol_pos. apply Rmult_lt_reg_r with (/ tolerance_abs); [apply Rinv_0_lt_compat; lra|].
  replace (tolerance_abs * 4 ^ S N * / tolerance_abs) with (4 ^ S N) by (field; lra). unfold Rdiv in P. lra.
Qed.
Theorem C55_always_ends : forall tol f a b M, a < b -> bounded f a b M -> exists fuel v, integrate fuel tol f a b = Some v.
Proof.
  intros tol f a b M H B. assert (HM : 0 <= M) by (eapply Rle_trans; [apply Rabs_pos|apply (B a); lra]).
  destruct (fuel_exists (2 * (b - a) * M)) as (n & P). exists (S n). apply (C55_terminates n tol f a b M HM H B P).
Qed.
Print Assumptions C55_always_ends.

(** ** C56 *)
(** a reversed interval always gives zero *)
Theorem C56_reversed_refuted : forall fuel tol f a b, b < a -> integrate fuel tol f a b = Some 0 /\ area [1] a b <> 0.
Proof.
  intros fuel tol f a b H. split.
  - unfold integrate. cbv zeta. destruct (Rlt_dec (Rabs (thirteen f a b)) (/ 10 ^ 20)); [reflexivity|]. destruct (Rle_dec b a); [reflexivity|lra].
  - unfold area, primitive. cbn [divided poly INR]. lra.
Qed.
Print Assumptions C56_reversed_refuted.
(** an integrand whose estimate is below 1e-20 is integrated to zero, for example small constants *)
Lemma vanishing_zero fuel tol f a b : vanishing f a b -> integrate fuel tol f a b = Some 0.
Proof. intros V. unfold integrate. cbv zeta. destruct (Rlt_dec (Rabs (thirteen f a b)) (/ 10 ^ 20)); [reflexivity|contradiction]. Qed.
Lemma thirteen_constant c a b : thirteen (fun _ => c) a b = (b - a) / 2 * (2 + 4 / 10 ^ 16) * c.
Proof. unfold thirteen, Gauss_Kronrod_13. field. Qed.
Theorem C56_small_refuted : forall fuel tol a b c, a < b -> 0 < c -> c * (b - a) * 2 < / 10 ^ 20 -> integrate fuel tol (fun _ => c) a b = Some 0 /\ 0 < area [c] a b.
Proof.
  intros fuel tol a b c H P S. split.
  - apply vanishing_zero. unfold vanishing. rewrite thirteen_constant. 
    assert (Q : 0 < (b - a) * c) by (apply Rmult_lt_0_compat; lra). replace ((b - a) / 2 * (2 + 4 / 10 ^ 16) * c) with ((b - a) * c * (1 + 2 / 10 ^ 16)) by field.
    assert (U : 0 < 2 / 10 ^ 16 < 1) by (split; lra). set (u := 2 / 10 ^ 16) in *. clearbody u. rewrite Rabs_right by nra. nra.
  - unfold area, primitive. cbn [divided poly INR]. replace (b * (c / 1 + b * 0) - a * (c / 1 + a * 0)) with (c * (b - a)) by field. apply Rmult_lt_0_compat; lra.
Qed.
Print Assumptions C56_small_refuted.
(** what remains: an interval without extent gives zero, and the result does not vanish when the estimates of a positive polynomial do not *)
Theorem C56_empty_partial : forall fuel tol f a, integrate fuel tol f a a = Some 0.
Proof.
  intros fuel tol f a. unfold integrate. cbv zeta. destruct (Rlt_dec (Rabs (thirteen f a a)) (/ 10 ^ 20)); [reflexivity|]. destruct (Rle_dec a a); [reflexivity|lra].
Qed.
Print Assumptions C56_empty_partial.
Theorem C56_forward_partial : forall fuel tol c a b v, (length c <= 10)%nat -> a < b -> ~ vanishing (poly c) a b -> integrate fuel tol (poly c) a b = Some v -> v = - area c b a.
Proof. intros fuel tol c a b v L H N E. rewrite (C55_polynomials fuel tol c a b v L H N E). unfold area. ring. Qed.
Print Assumptions C56_forward_partial.

(** ** C96: a vanishing first estimate is not questioned: a plateau of any height between two nodes is lost *)
Definition plateau (l u K x : R) : R := if Rle_dec l x then if Rle_dec x u then K else 0 else 0.
Theorem C96_plateau_refuted : forall a b K, a < b -> exists l u, a < l /\ l < u /\ u < b /\ u - l = (b - a) / 20 /\
  (forall x, l <= x <= u -> plateau l u K x = K) /\ forall fuel tol, integrate fuel tol (plateau l u K) a b = Some 0.
Proof.
  intros a b K H. set (m := 1 / 2 * (b + a)). set (h := 1 / 2 * (b - a)). assert (P : 0 < h) by (unfold h; lra).
  exists (m + h / 10), (m + h / 5). pose proof alpha_bounds as AB. pose proof beta_bounds as BB.
  split; [unfold m, h; lra|]. split; [lra|]. split; [unfold m, h; lra|]. split; [unfold h; field|].
  split. { intros x X. unfold plateau. destruct (Rle_dec (m + h / 10) x); [|lra]. destruct (Rle_dec x (m + h / 5)); [reflexivity|lra]. }
  intros fuel tol. apply vanishing_zero. unfold vanishing.
  assert (N : forall t, t <= 0 \/ 1 / 5 < t -> plateau (m + h / 10) (m + h / 5) K (m + t * h) = 0).
  { intros t T. unfold plateau. destruct (Rle_dec (m + h / 10) (m + t * h)) as [L|]; [|reflexivity]. destruct (Rle_dec (m + t * h) (m + h / 5)) as [U|]; [|reflexivity].
    exfalso. destruct T as [T|T]; nra. }
  unfold thirteen. fold m. fold h.
  rewrite !N by (first [left; unfold x1, x2, x3; lra|right; unfold x1, x2, x3; lra]).
  replace a with (m + -1 * h) by (unfold m, h; field). replace b with (m + 1 * h) by (unfold m, h; field). rewrite !N by lra.
  unfold Gauss_Kronrod_13. match goal with |- Rabs ?e < _ => replace e with 0 by ring end. rewrite Rabs_R0. apply Rinv_0_lt_compat. apply pow_lt. lra.
Qed.
Print Assumptions C96_plateau_refuted.
(** with a different estimate the interval is subdivided or accepted (C55); the zero is only returned for an estimate below 1e-20 *)
Theorem C96_zero_partial : forall fuel tol f a b v, a < b -> integrate fuel tol f a b = Some v -> ~ vanishing f a b -> exists l, partitions a b l /\ v = composite (kronrod7 f) a l.
Proof. intros fuel tol f a b v H E N. apply (C55_partition fuel tol f a b v H N E). Qed.
Print Assumptions C96_zero_partial.

(** ** C97: tails. With a primitive F of the integrand, a primitive of the substituted integrand is known *)
Theorem C97_upper : forall f F b x, (forall y, derivable_pt_lim F y (f y)) -> x <> 0 ->
  derivable_pt_lim (fun t => - F (b + (1 - t) / t)) x (reparametrized_Upper f b x).
Proof.
  intros f F b x HF X. unfold reparametrized_Upper.
  replace (f (b + (1 - x) / x) / (x * x)) with (- (f (b + (1 - x) / x) * (- (1) / (x * x)))) by (field; exact X).
  apply derivable_pt_lim_opp. apply (derivable_pt_lim_comp (fun t => b + (1 - t) / t) F); [|apply HF].
  replace (- (1) / (x * x)) with (0 + ((0 - 1) * x - 1 * (1 - x)) / Rsqr x) by (unfold Rsqr; field; exact X).
  apply derivable_pt_lim_plus; [apply derivable_pt_lim_const|]. 
  apply (derivable_pt_lim_div (fun t => 1 - t) (fun t => t)); [|apply derivable_pt_lim_id|exact X].
  apply derivable_pt_lim_minus; [apply derivable_pt_lim_const|apply derivable_pt_lim_id].
Qed.
Print Assumptions C97_upper.
Theorem C97_lower : forall f F b x, (forall y, derivable_pt_lim F y (f y)) -> x <> 0 ->
  derivable_pt_lim (fun t => F (b - (1 - t) / t)) x (reparametrized_Lower f b x).
Proof.
  intros f F b x HF X. unfold reparametrized_Lower.
  replace (f (b - (1 - x) / x) / (x * x)) with (f (b - (1 - x) / x) * (1 / (x * x))) by (field; exact X).
  apply (derivable_pt_lim_comp (fun t => b - (1 - t) / t) F); [|apply HF].
  replace (1 / (x * x)) with (0 - ((0 - 1) * x - 1 * (1 - x)) / Rsqr x) by (unfold Rsqr; field; exact X).
  apply derivable_pt_lim_minus; [apply derivable_pt_lim_const|].
  apply (derivable_pt_lim_div (fun t => 1 - t) (fun t => t)); [|apply derivable_pt_lim_id|exact X].
  apply derivable_pt_lim_minus; [apply derivable_pt_lim_const|apply derivable_pt_lim_id].
Qed.
Print Assumptions C97_lower.
(** hence the tails end at a distance of 1e14 - 1 from the boundary *)
Theorem C97_range : forall (F : R -> R) b, let e := / 10 ^ 14 in
  (fun t => - F (b + (1 - t) / t)) 1 - (fun t => - F (b + (1 - t) / t)) e = F (b + (10 ^ 14 - 1)) - F b /\
  (fun t => F (b - (1 - t) / t)) 1 - (fun t => F (b - (1 - t) / t)) e = F b - F (b - (10 ^ 14 - 1)).
Proof.
  intros F b e. cbv beta. replace ((1 - 1) / 1) with 0 by field. replace ((1 - e) / e) with (10 ^ 14 - 1) by (unfold e; field; apply pow_nonzero; lra).
  rewrite Rplus_0_r, Rminus_0_r. split; ring.
Qed.
Print Assumptions C97_range.

(** ** non-trivial cases *)
Example C54_lobatto_hyp : (length [1; -2; 3; 0; 5; 7]%R <= 6)%nat /\ area [1; -2; 3; 0; 5; 7] (-1) 3 <> 0.
Proof. split; [cbn; lia|]. unfold area, primitive. cbn [divided poly INR]. lra. Qed.
Example C54_kronrod_hyp : (length [0; 0; 0; 0; 0; 0; 0; 0; 1; 1]%R <= 10)%nat /\ area [0; 0; 0; 0; 0; 0; 0; 0; 1; 1] 0 1 = 19 / 90.
Proof. split; [cbn; lia|]. unfold area, primitive. cbn [divided poly INR]. field. Qed.
Example C54_thirteen_hyp : (length (repeat 1%R 20) <= 20)%nat /\ 0 <= 1. Proof. rewrite repeat_length. split; [lia|lra]. Qed.
Example C54_sharp_hyp : 0 <> 1. Proof. lra. Qed.
Lemma square_estimate : thirteen (poly [0; 0; 1]) (-1) 1 > 1 / 2.
Proof.
  rewrite thirteen_T13. cbv zeta. replace ((1 - -1) / 2) with 1 by field. replace ((-1 + 1) / 2) with 0 by field.
  rewrite (T13_ext _ (fun t => t ^ 2)) by (intros t; cbn [poly pow]; ring). pose proof (T13_moment 2 ltac:(lia)) as M. unfold moment in M. cbn [pow INR] in M. apply Rabs_inv in M.
  assert (/ 10 ^ 15 < 1 / 10) by lra. cbn [pow] in *. lra.
Qed.
Lemma square_visible : ~ vanishing (poly [0; 0; 1]) (-1) 1.
Proof. intros V. unfold vanishing in V. pose proof square_estimate as S. rewrite Rabs_right in V by lra. assert (/ 10 ^ 20 < 1 / 2) by lra. lra. Qed.
Example C55_hyp : -1 < 1 /\ ~ vanishing (poly [0; 0; 1]) (-1) 1 /\ bounded (poly [0; 0; 1]) (-1) 1 1 /\ exists fuel v, integrate fuel (1 / 100) (poly [0; 0; 1]) (-1) 1 = Some v.
Proof.
  assert (B : bounded (poly [0; 0; 1]) (-1) 1 1). { intros x X. cbn [poly]. apply Rabs_le. nra. }
  split; [lra|]. split; [exact square_visible|]. split; [exact B|]. apply (C55_always_ends _ _ _ _ 1); [lra|exact B].
Qed.
Example C55_terminates_hyp : 2 * (1 - -1) * 1 < tolerance_abs * 4 ^ S 27. Proof. unfold tolerance_abs. cbn [pow]. lra. Qed.
Example C56_small_refuted_hyp : 0 < 1 /\ 0 < / 10 ^ 30 /\ / 10 ^ 30 * (1 - 0) * 2 < / 10 ^ 20. Proof. cbn [pow]. lra. Qed.
Example C56_reversed_refuted_hyp : 1 < 2. Proof. lra. Qed.
Example C97_hyp : forall y, derivable_pt_lim (fun t => t * t) y (1 * y + y * 1).
Proof. intros y. apply (derivable_pt_lim_mult (fun t => t) (fun t => t)); apply derivable_pt_lim_id. Qed.
