From Coq Require Import Reals Lra.
From Verif Require Import Prelude Hart_Model Hart_Spec.
Open Scope R_scope.

Definition num (f : R -> R) : R -> option R := fun x => Some (f x).

(** invariant: the residual is not negative at the lower and not positive at the upper end *)
Definition encloses (f : R -> R) (U lo hi : R) : Prop := 0 <= lo /\ lo < hi /\ hi <= 1 /\ lo <= f (U * lo) /\ f (U * hi) <= hi.
(** one step *)
Lemma step_encloses f U lo hi : encloses f U lo hi -> let m := (lo + hi) / 2 in
  (0 < f (U * m) - m -> encloses f U m hi) /\ (f (U * m) - m < 0 -> encloses f U lo m).
Proof. intros (A & B & C & D & E). cbv zeta. unfold encloses. split; intros; repeat split; lra. Qed.
(** what holds on return, with the interval and the number of evaluations *)
Definition returned (f : R -> R) (U thr : R) (v y : R) (k : Z) (lo hi : R) : Prop :=
  v = U * y /\ encloses f U lo hi /\ lo <= y <= hi /\ Rabs (f (U * y) - y) <= Rmax thr 0 /\
  (hi - lo = / 2 ^ Z.to_nat k \/ (1 <= k)%Z /\ hi - lo = 2 * / 2 ^ Z.to_nat k).
Lemma bisection_ok f U thr : forall fuel d x lo hi n, encloses f U lo hi -> (0 <= n)%Z -> hi - lo = / 2 ^ Z.to_nat n ->
  d = f (U * x) - x \/ thr < Rabs d -> lo <= x <= hi ->
  match bisection fuel (num f) U thr d x lo hi n with
  | Found v y k lo' hi' => returned f U thr v y k lo' hi'
  | AssertionFailed => True
  | OutOfFuel lo' hi' => encloses f U lo' hi' /\ hi' - lo' = / 2 ^ (Z.to_nat n + fuel)
  end.
Proof.
  induction fuel as [|fuel IH]; intros d x lo hi n E N W D X.
  - cbn. split; [exact E|]. rewrite Nat.add_0_r. exact W.
  - cbn [bisection]. destruct (Rlt_dec thr (Rabs d)) as [T|T].
    + destruct (n <? 100000)%Z eqn:K; [|exact I]. apply Z.ltb_lt in K. cbv zeta. unfold num at 1.
      pose proof (step_encloses f U lo hi E) as (S1 & S2). cbv zeta in S1, S2. set (m := (lo + hi) / 2) in *.
      assert (W' : / 2 ^ Z.to_nat (n + 1) = (hi - lo) / 2).
      { rewrite Z2Nat.inj_add by lia. change (Z.to_nat 1) with 1%nat. rewrite pow_add, W. cbn. field. apply pow_nonzero. lra. }
      assert (F : (Z.to_nat n + S fuel = Z.to_nat (n + 1) + fuel)%nat) by lia.
      destruct E as (E1 & E2 & E3 & E4 & E5).
      destruct (Rlt_dec 0 (f (U * m) - m)) as [P|P].
      * specialize (IH (f (U * m) - m) m m hi (n + 1)%Z (S1 P) ltac:(lia) ltac:(rewrite W'; unfold m; field) ltac:(left; reflexivity) ltac:(unfold m; lra)).
        destruct (bisection _ _ _ _ _ _ _ _ _); [exact IH|exact I|rewrite F; exact IH].
      * destruct (Rlt_dec (f (U * m) - m) 0) as [Q|Q].
        -- specialize (IH (f (U * m) - m) m lo m (n + 1)%Z (S2 Q) ltac:(lia) ltac:(rewrite W'; unfold m; field) ltac:(left; reflexivity) ltac:(unfold m; lra)).
           destruct (bisection _ _ _ _ _ _ _ _ _); [exact IH|exact I|rewrite F; exact IH].
        -- assert (Z : f (U * m) - m = 0) by lra. repeat split; try assumption; try (unfold m; lra).
           ++ rewrite Z, Rabs_R0. apply Rmax_r.
           ++ right. split; [lia|]. rewrite W'. field.
    + destruct D as [D|D]; [|contradiction]. split; [reflexivity|]. split; [exact E|]. split; [exact X|]. split; [|left; exact W].
      rewrite <- D. apply Rle_trans with thr; [lra|apply Rmax_l].
Qed.

(** the right-hand side is a filling *)
Lemma start_encloses f U : is_filling f U -> encloses f U 0 1.
Proof. intros F. pose proof (F 0 ltac:(lra)). pose proof (F 1 ltac:(lra)). unfold encloses. repeat split; lra. Qed.

(** ** C53 *)
Theorem C53_found : forall fuel f U thr v y k lo hi, is_filling f U -> 0 <= thr < 1 ->
  compute_Hartree_term_bracketing fuel (num f) U thr = Found v y k lo hi ->
  v = U * y /\ 0 <= lo /\ lo <= y <= hi /\ hi <= 1 /\ Rabs (f (U * y) - y) <= thr /\ (1 <= k)%Z /\ (hi - lo = / 2 ^ Z.to_nat k \/ hi - lo = 2 * / 2 ^ Z.to_nat k).
Proof.
  intros fuel f U thr v y k lo hi F T H. unfold compute_Hartree_term_bracketing in H.
  pose proof (bisection_ok f U thr fuel 1 (1 / 2) 0 1 0 (start_encloses f U F) ltac:(lia) ltac:(cbn; field)
    ltac:(right; rewrite Rabs_right; lra) ltac:(lra)) as B. rewrite H in B. destruct B as (V & (E1 & E2 & E3 & E4 & E5) & Y & Res & W).
  rewrite Rmax_left in Res by lra.
  assert (K1 : (1 <= k)%Z).
  { destruct fuel as [|fuel]; [discriminate|]. cbn [bisection] in H. destruct (Rlt_dec thr (Rabs 1)) as [_|Q]; [|rewrite Rabs_right in Q; lra].
    change (0 <? 100000)%Z with true in H. cbv zeta in H. unfold num at 1 in H. cbv beta in H.
    assert (M : forall fuel d x lo hi n v y k lo' hi', bisection fuel (num f) U thr d x lo hi n = Found v y k lo' hi' -> (n <= k)%Z).
    { clear. induction fuel as [|fuel IH]; intros d x lo hi n v y k lo' hi' H; [discriminate|]. cbn [bisection] in H. destruct (Rlt_dec thr (Rabs d)); [|injection H; intros; subst; lia].
      destruct (n <? 100000)%Z; [|discriminate]. cbv zeta in H. unfold num at 1 in H. cbv beta in H.
      destruct (Rlt_dec 0 _); [apply IH in H; lia|]. destruct (Rlt_dec _ 0); [apply IH in H; lia|]. injection H; intros; subst; lia. }
    destruct (Rlt_dec 0 _); [apply M in H; lia|]. destruct (Rlt_dec _ 0); [apply M in H; lia|]. injection H; intros; subst; lia. }
  repeat split; try assumption; try lra.
Qed.
Print Assumptions C53_found.
(** the interval always encloses a solution of the self-consistency equation, whenever the loop is left or interrupted *)
Lemma enclosed_solution f U lo hi : continuous_on_unit f U -> encloses f U lo hi -> exists x, lo <= x <= hi /\ solves f U x.
Proof.
  intros C (E1 & E2 & E3 & E4 & E5). unfold solves.
  assert (G : forall x, lo <= x <= hi -> continuity_pt (fun y => f (U * y) - y) x).
  { intros x X. apply (continuity_pt_minus (fun y => f (U * y)) (fun y => y)); [apply C; lra|]. apply derivable_continuous_pt. apply derivable_pt_id. }
  destruct (Req_dec (f (U * lo)) lo) as [A|A]; [exists lo; split; [lra|exact A]|].
  destruct (Req_dec (f (U * hi)) hi) as [B|B]; [exists hi; split; [lra|exact B]|].
  destruct (Ranalysis5.IVT_interv (fun y => - (f (U * y) - y)) lo hi) as (z & Z & Q).
  - intros x X. apply continuity_pt_opp. apply G. exact X.
  - exact E2.
  - lra.
  - lra.
  - exists z. split; [exact Z|lra].
Qed.
Theorem C53_encloses : forall fuel f U thr, is_filling f U -> continuous_on_unit f U -> thr < 1 ->
  match compute_Hartree_term_bracketing fuel (num f) U thr with
  | Found _ _ _ lo hi => exists x, lo <= x <= hi /\ solves f U x
  | OutOfFuel lo hi => hi - lo = / 2 ^ fuel /\ exists x, lo <= x <= hi /\ solves f U x
  | AssertionFailed => True
  end.
Proof.
  intros fuel f U thr F C T. unfold compute_Hartree_term_bracketing.
  pose proof (bisection_ok f U thr fuel 1 (1 / 2) 0 1 0 (start_encloses f U F) ltac:(lia) ltac:(cbn; field)
    ltac:(right; rewrite Rabs_right; lra) ltac:(lra)) as B.
  destruct (bisection _ _ _ _ _ _ _ _ _); [|exact I|].
  - destruct B as (_ & E & _). apply enclosed_solution; assumption.
  - destruct B as (E & W). split; [exact W|]. apply enclosed_solution; assumption.
Qed.
Print Assumptions C53_encloses.

(** termination: for a Lipschitz continuous right-hand side, once (L + 1) / 2^n is not above the threshold *)
Lemma lipschitz_continuous f U L : 0 <= L -> lipschitz f U L -> forall lo hi, encloses f U lo hi -> exists x, lo <= x <= hi /\ forall m, lo <= m <= hi -> Rabs (f (U * m) - m) <= (L + 1) * (hi - lo).
Proof.
  intros HL Lip lo hi (E1 & E2 & E3 & E4 & E5). exists lo. split; [lra|]. intros m M.
  pose proof (Lip m lo ltac:(lra) ltac:(lra)) as A. pose proof (Lip m hi ltac:(lra) ltac:(lra)) as B.
  rewrite (Rabs_right (m - lo)) in A by lra. rewrite (Rabs_left1 (m - hi)) in B by lra.
  pose proof (Rle_abs (f (U * m) - f (U * hi))) as A1. pose proof (Rle_abs (- (f (U * m) - f (U * lo)))) as B1. rewrite Rabs_Ropp in B1.
  assert (L * (m - lo) <= L * (hi - lo)) by (apply Rmult_le_compat_l; lra). assert (L * - (m - hi) <= L * (hi - lo)) by (apply Rmult_le_compat_l; lra).
  apply Rabs_le. lra.
Qed.
Lemma bisection_ends f U thr L : 0 <= L -> lipschitz f U L -> forall fuel d x lo hi n, encloses f U lo hi -> lo <= x <= hi -> d = f (U * x) - x \/ thr < Rabs d ->
  (0 <= n)%Z -> (n + Z.of_nat fuel <= 100000)%Z -> hi - lo = / 2 ^ Z.to_nat n -> (1 <= fuel)%nat -> (L + 1) * / 2 ^ (Z.to_nat n + fuel - 1) <= thr ->
  (d = f (U * x) - x -> Rabs d <= (L + 1) * (hi - lo)) -> (thr < Rabs d -> (2 <= fuel)%nat) ->
  exists v y k lo' hi', bisection fuel (num f) U thr d x lo hi n = Found v y k lo' hi'.
Proof.
  intros HL Lip. induction fuel as [|fuel IH]; intros d x lo hi n E X D N K W F1 T Dd F2; [lia|].
  cbn [bisection]. destruct (Rlt_dec thr (Rabs d)) as [G|G]; [|do 5 eexists; reflexivity].
  specialize (F2 G). destruct (n <? 100000)%Z eqn:Q; [|apply Z.ltb_ge in Q; lia]. cbv zeta. unfold num at 1.
  pose proof (step_encloses f U lo hi E) as (S1 & S2). cbv zeta in S1, S2. set (m := (lo + hi) / 2) in *.
  assert (W' : / 2 ^ Z.to_nat (n + 1) = (hi - lo) / 2).
  { rewrite Z2Nat.inj_add by lia. change (Z.to_nat 1) with 1%nat. rewrite pow_add, W. cbn. field. apply pow_nonzero. lra. }
  assert (T' : (L + 1) * / 2 ^ (Z.to_nat (n + 1) + fuel - 1) <= thr) by (replace (Z.to_nat (n + 1) + fuel - 1)%nat with (Z.to_nat n + S fuel - 1)%nat by lia; exact T).
  assert (P2 : forall a b, (a <= b)%nat -> / 2 ^ b <= / 2 ^ a).
  { intros a b AB. apply Rinv_le_contravar; [apply pow_lt; lra|]. apply Rle_pow; [lra|exact AB]. }
  pose proof E as (E1 & E2 & E3 & E4 & E5).
  assert (Go : forall lo' hi', encloses f U lo' hi' -> lo' <= m <= hi' -> hi' - lo' = / 2 ^ Z.to_nat (n + 1) ->
     exists v y k a b, bisection fuel (num f) U thr (f (U * m) - m) m lo' hi' (n + 1) = Found v y k a b).
  { intros lo' hi' E' M' Wd. destruct (lipschitz_continuous f U L HL Lip lo' hi' E') as (_ & _ & B). specialize (B m M').
    apply IH; try assumption; try lia; auto.
    intros G'. destruct (Nat.le_gt_cases 2 fuel) as [|Small]; [assumption|exfalso]. assert (fuel = 1)%nat by lia. subst fuel.
    replace (Z.to_nat (n + 1) + 1 - 1)%nat with (Z.to_nat (n + 1)) in T' by lia. rewrite Wd in B. lra. }
  destruct (Rlt_dec 0 (f (U * m) - m)) as [P|P].
  - apply Go; [apply S1; exact P|unfold m; lra|rewrite W'; unfold m; field].
  - destruct (Rlt_dec (f (U * m) - m) 0) as [R|R]; [|do 5 eexists; reflexivity].
    apply Go; [apply S2; exact R|unfold m; lra|rewrite W'; unfold m; field].
Qed.
Theorem C53_terminates : forall f U thr L n, is_filling f U -> 0 <= L -> lipschitz f U L -> (1 <= n)%nat -> (Z.of_nat n < 100000)%Z -> (L + 1) * / 2 ^ n <= thr -> thr < 1 ->
  exists v y k lo hi, compute_Hartree_term_bracketing (S n) (num f) U thr = Found v y k lo hi.
Proof.
  intros f U thr L n F HL Lip N1 N T T1. unfold compute_Hartree_term_bracketing.
  apply (bisection_ends f U thr L HL Lip); try lra; try lia; auto.
  - apply start_encloses. exact F.
  - right. rewrite Rabs_right; lra.
  - cbn. field.
  - cbn [Z.to_nat]. replace (0 + S n - 1)%nat with n by lia. exact T.
  - intros _. rewrite Rabs_right by lra. pose proof (Rle_abs 1). lra.
Qed.
Print Assumptions C53_terminates.
(** a right-hand side that is not a number is taken for an exact solution: the first guess 1/2 is returned *)
Theorem C53_nan_refuted : forall fuel U thr, thr < 1 ->
  compute_Hartree_term_bracketing (S fuel) (fun _ => None) U thr = Found (U * ((0 + 1) / 2)) ((0 + 1) / 2) 1 0 1.
Proof.
  intros fuel U thr T. unfold compute_Hartree_term_bracketing. cbn [bisection]. destruct (Rlt_dec thr (Rabs 1)) as [_|N]; [reflexivity|rewrite Rabs_right in N; lra].
Qed.
Print Assumptions C53_nan_refuted.
(** with a threshold of at least 1 nothing is evaluated *)
Theorem C53_large_threshold : forall fuel oneshot U thr, 1 <= thr -> compute_Hartree_term_bracketing (S fuel) oneshot U thr = Found (U * (1 / 2)) (1 / 2) 0 0 1.
Proof.
  intros fuel oneshot U thr T. unfold compute_Hartree_term_bracketing. cbn [bisection]. destruct (Rlt_dec thr (Rabs 1)) as [N|_]; [rewrite Rabs_right in N; lra|reflexivity].
Qed.
Print Assumptions C53_large_threshold.

(** ** C95: the plain iteration *)
(** what it returns solves the equation up to the threshold and a Lipschitz constant *)
Lemma plain_result f U thr : forall fuel d x v, d = 1 \/ (exists x0, x = f (U * x0) /\ d = x - x0) -> plain fuel (num f) U thr d (U * x) x = Some (Some v) ->
  thr < 1 -> 0 <= thr -> exists x0 x1, x1 = f (U * x0) /\ v = U * x1 /\ Rabs (x1 - x0) <= thr.
Proof.
  induction fuel as [|fuel IH]; intros d x v D H T T0; [discriminate|]. cbn [plain] in H. destruct (Rlt_dec thr (Rabs d)) as [G|G].
  - unfold num at 1 in H. apply (IH _ _ _ (or_intror (ex_intro _ x (conj eq_refl eq_refl))) H T T0).
  - injection H as <-. destruct D as [->|(x0 & E & ->)]; [rewrite Rabs_right in G; lra|]. exists x0, x. repeat split; [exact E|lra].
Qed.
Theorem C95_result_partial : forall fuel f U thr v, 0 <= thr < 1 -> compute_Hartree_term fuel (num f) U thr = Some (Some v) ->
  exists x0 x1, x1 = f (U * x0) /\ v = U * x1 /\ Rabs (f (U * x0) - x0) <= thr.
Proof.
  intros fuel f U thr v (T0 & T) H. destruct (plain_result f U thr fuel 1 (1 / 2) v (or_introl eq_refl) H T T0) as (x0 & x1 & A & B & C).
  exists x0, x1. rewrite <- A. auto.
Qed.
Print Assumptions C95_result_partial.
(** a continuous, decreasing filling for which it never ends *)
Definition swap (h : R) : R := Rmin 1 (5 / 4 - h).
Theorem C95_endless_refuted : is_filling swap 1 /\ continuous_on_unit swap 1 /\ solves swap 1 (5 / 8) /\ forall fuel thr, thr < 1 / 4 -> compute_Hartree_term fuel (num swap) 1 thr = None.
Proof.
  split. { intros x X. unfold swap, Rmin. destruct (Rle_dec 1 (5 / 4 - 1 * x)); lra. }
  split.
  { intros x X eps P. exists eps. split; [exact P|]. intros y (_ & D). cbn in *. unfold R_dist, swap, Rmin in *.
    destruct (Rle_dec 1 (5 / 4 - 1 * y)), (Rle_dec 1 (5 / 4 - 1 * x)); unfold Rabs in *; repeat destruct (Rcase_abs _); lra. }
  split. { unfold solves, swap, Rmin. destruct (Rle_dec 1 (5 / 4 - 1 * (5 / 8))); lra. }
  assert (A : forall fuel thr d, thr < 1 / 4 -> (d = 1 \/ d = 1 / 4 \/ d = - (1 / 4)) ->
     plain fuel (num swap) 1 thr d (1 * (1 / 2)) (1 / 2) = None /\ plain fuel (num swap) 1 thr d (1 * (3 / 4)) (3 / 4) = None).
  { induction fuel as [|fuel IH]; intros thr d T D; [auto|]. cbn [plain].
    destruct (Rlt_dec thr (Rabs d)) as [_|N]; [|exfalso; apply N; unfold Rabs; destruct (Rcase_abs d); lra]. unfold num at 1 3.
    replace (swap (1 * (1 / 2))) with (3 / 4) by (unfold swap, Rmin; destruct (Rle_dec 1 (5 / 4 - 1 * (1 / 2))); lra).
    replace (swap (1 * (3 / 4))) with (1 / 2) by (unfold swap, Rmin; destruct (Rle_dec 1 (5 / 4 - 1 * (3 / 4))); lra).
    split; [apply (IH thr (3 / 4 - 1 / 2) T); lra|apply (IH thr (1 / 2 - 3 / 4) T); lra]. }
  intros fuel thr T. apply (A fuel thr 1 T). auto.
Qed.
Print Assumptions C95_endless_refuted.

(** ** non-trivial cases: the filling 1 - h/2 with U = 1 *)
Definition demo (h : R) : R := 1 - h / 2.
Lemma demo_filling : is_filling demo 1. Proof. intros x X. unfold demo. lra. Qed.
Lemma demo_lipschitz : lipschitz demo 1 (1 / 2).
Proof. intros x y _ _. unfold demo. replace (1 - 1 * x / 2 - (1 - 1 * y / 2)) with (- (1 / 2 * (x - y))) by field. rewrite Rabs_Ropp, Rabs_mult, (Rabs_right (1 / 2)) by lra. lra. Qed.
Example C53_terminates_hyp : is_filling demo 1 /\ lipschitz demo 1 (1 / 2) /\ (1 / 2 + 1) * / 2 ^ 10 <= 1 / 100 /\ 1 / 100 < 1.
Proof. split; [apply demo_filling|]. split; [apply demo_lipschitz|]. lra. Qed.
Example C53_found_hyp : is_filling demo 1 /\ 0 <= 1 / 100 < 1 /\ exists v y k lo hi, compute_Hartree_term_bracketing 11 (num demo) 1 (1 / 100) = Found v y k lo hi.
Proof. split; [apply demo_filling|]. split; [lra|]. apply (C53_terminates demo 1 (1 / 100) (1 / 2) 10); [apply demo_filling|lra|apply demo_lipschitz|lia|lia|lra|lra]. Qed.
Example C53_encloses_hyp : is_filling demo 1 /\ continuous_on_unit demo 1 /\ solves demo 1 (2 / 3).
Proof. split; [apply demo_filling|]. split; [|unfold solves, demo; field]. intros x _. unfold demo. apply derivable_continuous_pt. reg. Qed.
Example C53_nan_refuted_hyp : / 10 ^ 12 < 1. Proof. rewrite <- Rinv_1. apply Rinv_lt_contravar; lra. Qed.
Example C53_large_threshold_hyp : 1 <= 2. Proof. lra. Qed.
Example C95_result_partial_hyp : 0 <= 1 / 5 < 1 /\ compute_Hartree_term 4 (num demo) 1 (1 / 5) = Some (Some (1 * (1 - 1 * (1 - 1 * (1 / 2) / 2) / 2))).
Proof.
  split; [lra|]. unfold compute_Hartree_term. cbn [plain]. unfold num, demo.
  destruct (Rlt_dec (1 / 5) (Rabs 1)) as [_|N]; [|rewrite Rabs_right in N; lra].
  destruct (Rlt_dec (1 / 5) (Rabs (1 - 1 * (1 / 2) / 2 - 1 / 2))) as [_|N]; [|exfalso; apply N; rewrite Rabs_right; lra].
  destruct (Rlt_dec (1 / 5) (Rabs (1 - 1 * (1 - 1 * (1 / 2) / 2) / 2 - (1 - 1 * (1 / 2) / 2)))) as [N|_]; [exfalso; rewrite Rabs_left in N; lra|reflexivity].
Qed.
