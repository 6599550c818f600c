(** Lemmas for C40-C42, C84, C85: instances, checkpoints, trials. *)
From Coq Require Import Reals Lra Psatz Sorting.Sorted.
From Verif Require Import Prelude Grid_Model Grid_Spec Grid_Proofs Grid_Proofs2 Flow_Model Flow_Spec Flow_Proofs Ode_Model Ode_Spec Ode_Proofs.
Open Scope R_scope.

(** ** parametrisations *)
Definition lin_tof (L : R) : num := Some (lin_t_from_lambda L).
Definition lin_lam (t : R) : num := Some (lin_lambda_from_t t).
Definition sqrt_tof (L : R) : num := Some (sqrt_t_from_lambda L).
(** grids/flow_grid.hpp:88; the square root of a negative number is NaN (for t = 1 or -1 the code gives infinity; here also [None]) *)
Definition sqrt_lam (t : R) : num := if Rlt_dec (t * t) 1 then Some (sqrt_lambda_from_t t) else None.
Definition exp_lam (t : R) : num := Some (exp_lambda_from_t t).

Lemma mono_param (f g : R -> R) (tof lam : R -> num) a b :
  (forall L, between a b L -> tof L = Some (f L) /\ lam (f L) = Some L) ->
  (forall s, between (f a) (f b) s -> lam s = Some (g s)) ->
  (forall L, between a b L -> between (f a) (f b) (f L)) ->
  (forall s t, between (f a) (f b) s -> between (f a) (f b) t -> s <= t -> g s <= g t) ->
  param_ok tof lam a b.
Proof.
  intros H1 H2 H3 H4. split.
  - intros L HL. exists (f L). apply H1, HL.
  - intros L L' t t' s HL HL' Et Et' Hs. destruct (H1 L HL) as [E1 E2], (H1 L' HL') as [E1' E2']. rewrite E1 in Et. rewrite E1' in Et'.
    injection Et as <-. injection Et' as <-. pose proof (H3 L HL) as B. pose proof (H3 L' HL') as B'.
    assert (Bs : between (f a) (f b) s). { unfold between, Rmin, Rmax in *. destruct (Rle_dec (f a) (f b)), (Rle_dec (f L) (f L')); lra. }
    exists (g s). split; [apply H2, Bs|]. rewrite (H2 _ B) in E2. rewrite (H2 _ B') in E2'. injection E2 as E2. injection E2' as E2'.
    unfold between in Hs. rewrite <- E2, <- E2'.
    destruct (Rle_dec (f L) (f L')) as [Q|Q].
    + rewrite Rmin_left, Rmax_right in Hs by lra. pose proof (H4 _ _ B Bs (proj1 Hs)). pose proof (H4 _ _ Bs B' (proj2 Hs)).
      unfold between. rewrite Rmin_left, Rmax_right by lra. lra.
    + rewrite Rmin_right, Rmax_left in Hs by lra. pose proof (H4 _ _ B' Bs (proj1 Hs)). pose proof (H4 _ _ Bs B (proj2 Hs)).
      unfold between. rewrite Rmin_right, Rmax_left by lra. lra.
Qed.
Lemma lin_ok a b : param_ok lin_tof lin_lam a b.
Proof. apply (mono_param (fun x => x) (fun x => x)); intros; auto. Qed.
Lemma mono_between (f : R -> R) a b L : (forall x y, x <= y -> f x <= f y) -> between a b L -> between (f a) (f b) (f L).
Proof.
  intros M H. unfold between in *. destruct (Rle_dec a b) as [Q|Q].
  - rewrite Rmin_left, Rmax_right in H by lra. pose proof (M _ _ (proj1 H)). pose proof (M _ _ (proj2 H)). unfold Rmin, Rmax. destruct (Rle_dec (f a) (f b)); lra.
  - rewrite Rmin_right, Rmax_left in H by lra. pose proof (M _ _ (proj1 H)). pose proof (M _ _ (proj2 H)). unfold Rmin, Rmax. destruct (Rle_dec (f a) (f b)); lra.
Qed.
Lemma sqrt_pair : inverse_pair sqrt_t_from_lambda sqrt_lambda_from_t 1 0.
Proof.
  destruct (pair2 5 0 H5) as (P1 & P2 & P3 & P4 & P5 & P6 & P7).
  split; [intro; rewrite sqrt_t_eq; apply P1|]. split; [intro; rewrite sqrt_t_eq, sqrt_lam_eq; apply P2|].
  split; [intros; rewrite sqrt_t_eq, sqrt_lam_eq; apply P3; assumption|]. split; [intros; rewrite !sqrt_t_eq; apply P4; assumption|].
  split; [intros; rewrite !sqrt_lam_eq; apply P5; assumption|]. split; [intro; rewrite !sqrt_t_eq; apply P6|intro; rewrite !sqrt_lam_eq; apply P7].
Qed.
Lemma sq_lt1 t : -1 < t < 1 -> t * t < 1. Proof. nra. Qed.
Lemma sqrt_lam_some t : -1 < t < 1 -> sqrt_lam t = Some (sqrt_lambda_from_t t).
Proof. intro H. unfold sqrt_lam. destruct (Rlt_dec (t * t) 1) as [_|N]; [reflexivity|]. pose proof (sq_lt1 t H). lra. Qed.
Lemma sqrt_ok a b : param_ok sqrt_tof sqrt_lam a b.
Proof.
  destruct sqrt_pair as (P1 & P2 & P3 & P4 & P5 & _).
  assert (Rg : forall s, between (sqrt_t_from_lambda a) (sqrt_t_from_lambda b) s -> -1 < s < 1).
  { intros s Hs. pose proof (P1 a). pose proof (P1 b). unfold between, Rmin, Rmax in Hs. destruct (Rle_dec (sqrt_t_from_lambda a) (sqrt_t_from_lambda b)); lra. }
  assert (Mo : forall x y, x <= y -> sqrt_t_from_lambda x <= sqrt_t_from_lambda y).
  { intros x y H. destruct (Req_dec x y) as [->|N]; [lra|]. apply Rlt_le, P4. lra. }
  apply (mono_param sqrt_t_from_lambda sqrt_lambda_from_t).
  - intros L _. split; [reflexivity|]. rewrite sqrt_lam_some; [rewrite P2; reflexivity|]. pose proof (P1 L). lra.
  - intros s Hs. apply sqrt_lam_some, Rg, Hs.
  - intros L H. apply mono_between; assumption.
  - intros s t Hs Ht H. destruct (Req_dec s t) as [->|N]; [lra|]. apply Rlt_le, P5; pose proof (Rg s Hs); pose proof (Rg t Ht); lra.
Qed.
Lemma exp_ok a b : 0 < a -> 0 < b -> param_ok exp_t_from_lambda exp_lam a b.
Proof.
  intros Ha Hb. pose proof ln10 as Z. apply (mono_param (fun L => ln L / ln 10) exp_lambda_from_t).
  - intros L H. assert (P : 0 < L) by (unfold between, Rmin, Rmax in H; destruct (Rle_dec a b); lra). unfold exp_t_from_lambda.
    destruct (Rlt_dec 0 L); [|lra]. split; [reflexivity|]. unfold exp_lam, exp_lambda_from_t. f_equal.
    replace (ln L / ln 10 * ln 10) with (ln L) by (field; lra). apply exp_ln. exact P.
  - reflexivity.
  - intros L H. assert (M : forall x y, 0 < x -> x <= y -> ln x / ln 10 <= ln y / ln 10).
    { intros x y Hx Hxy. apply Rmult_le_compat_r; [apply Rlt_le, Rinv_0_lt_compat; lra|]. destruct (Req_dec x y) as [->|N]; [lra|]. apply Rlt_le, ln_increasing; lra. }
    unfold between in *. destruct (Rle_dec a b) as [Q|Q].
    + rewrite Rmin_left, Rmax_right in H by lra. pose proof (M a L Ha (proj1 H)). pose proof (M L b ltac:(lra) (proj2 H)). unfold Rmin, Rmax. destruct (Rle_dec (ln a / ln 10) (ln b / ln 10)); lra.
    + rewrite Rmin_right, Rmax_left in H by lra. pose proof (M b L Hb (proj1 H)). pose proof (M L a ltac:(lra) (proj2 H)). unfold Rmin, Rmax. destruct (Rle_dec (ln a / ln 10) (ln b / ln 10)); lra.
  - intros s t _ _ H. unfold exp_lambda_from_t. destruct (Req_dec s t) as [->|N]; [lra|]. apply Rlt_le, exp_increasing. nra.
Qed.

(** ** a step without error, linear parametrisation *)
Lemma next0 t mn mx : t <> 0 -> 0 < mn -> mn <= 2 * Rabs t <= mx -> next_step t (EFin 0) 0 mn mx = 2 * t.
Proof.
  intros T0 Hm H. unfold next_step, grow. cbv zeta. cbn [Nat.ltb Nat.leb]. pose proof thr_pos. destruct (Rlt_dec (Rpower (MAXGROW / SAFETY) PGROW) 0); [lra|].
  unfold MAXGROW. rewrite Rabs_mult, (Rabs_pos_eq 2) by lra. rewrite Rmax_right, Rmin_left by lra.
  destruct (Rtotal_order t 0) as [L|[L|L]]; [|lra|].
  - rewrite sgn_neg, Rabs_left by lra. lra.
  - rewrite sgn_pos, Rabs_pos_eq by lra. lra.
Qed.
Lemma rk_lin0 fuel maxatt L h : h <> 0 -> min_t_step <= 2 * Rabs h <= max_t_step ->
  rkqs (S fuel) lin_tof lin_lam min_t_step max_t_step maxatt (fun _ => EFin 0) (Some L) (Some h) = RDone (Some (L + h)) (Some h) (Some (2 * h)).
Proof.
  intros H0 H. unfold rkqs, lin_tof, lin_lam, lin_t_from_lambda, lin_lambda_from_t. cbn [napp nadd n2 nsub qloop].
  replace (L + h - L) with h by ring. replace (accept (EFin 0) (Some h) min_t_step) with true.
  2:{ symmetry. apply accept_true. left. exists 0. split; [reflexivity|lra]. }
  cbn [n1 napp nadd n2 nsub]. rewrite next0 by (try assumption; unfold min_t_step; lra). f_equal; f_equal; ring.
Qed.

Lemma ode_lin fuel N maxatt Li Lf cps err : ode_solver fuel N lin_tof lin_lam maxatt Li Lf cps err =
  drive (N + length cps) fuel 0 lin_tof lin_lam maxatt Lf cps err
    {| dL := Some Li; dNow := Some Li; dh := Some (Li + (Lf - Li) / INR N - Li); dprev := Some 0; dhit := false |}.
Proof. reflexivity. Qed.
Lemma drive_one k fuel i tof lam maxatt Lf cps err s h h' prev hit L hdid hnext : clip Lf s = Some h -> choose cps s h = (h', prev, hit) ->
  rkqs fuel tof lam min_t_step max_t_step maxatt (err i (dL s)) (dL s) h' = RDone L hdid hnext ->
  drive (S k) fuel i tof lam maxatt Lf cps err s =
  (let '(v, e) := drive k fuel (S i) tof lam maxatt Lf cps err
     {| dL := L; dNow := nadd (dNow s) hdid; dh := if hit then hdid else hnext; dprev := prev; dhit := hit |} in (L :: v, e)).
Proof. intros H1 H2 H3. cbn [drive]. rewrite H1, H2, H3. reflexivity. Qed.
Lemma clip_in Lf L now h prev hit : ~ 0 < (L + h - Lf) * (L + h - now) ->
  clip Lf {| dL := Some L; dNow := Some now; dh := Some h; dprev := prev; dhit := hit |} = Some (Some h).
Proof. intro H. unfold clip. cbn. destruct (Rlt_dec 0 ((L + h - Lf) * (L + h - now))); [contradiction|reflexivity]. Qed.
Lemma clip_out Lf L now h prev hit : 0 < (L + h - Lf) * (L + h - now) -> Lf <> 0 -> ~ Rabs (Lf - L) / Lf < 1 / 100000000 ->
  clip Lf {| dL := Some L; dNow := Some now; dh := Some h; dprev := prev; dhit := hit |} = Some (Some (Lf - L)).
Proof.
  intros H H0 H1. unfold clip. cbn. destruct (Rlt_dec 0 ((L + h - Lf) * (L + h - now))); [|contradiction].
  destruct (Req_EM_T Lf 0); [contradiction|]. destruct (Rlt_dec (Rabs (Lf - L) / Lf) (1 / 100000000)); [contradiction|reflexivity].
Qed.
Lemma clip_end Lf L now h prev hit : 0 < (L + h - Lf) * (L + h - now) -> Lf <> 0 -> Rabs (Lf - L) / Lf < 1 / 100000000 ->
  clip Lf {| dL := Some L; dNow := Some now; dh := Some h; dprev := prev; dhit := hit |} = None.
Proof.
  intros H H0 H1. unfold clip. cbn. destruct (Rlt_dec 0 ((L + h - Lf) * (L + h - now))); [|contradiction].
  destruct (Req_EM_T Lf 0); [contradiction|]. destruct (Rlt_dec (Rabs (Lf - L) / Lf) (1 / 100000000)); [reflexivity|contradiction].
Qed.
Lemma choose_plain L now dh prev h : choose [] {| dL := L; dNow := now; dh := dh; dprev := prev; dhit := false |} h = (h, h, false).
Proof. reflexivity. Qed.
Lemma drive_end k fuel i tof lam maxatt Lf cps err s : clip Lf s = None -> drive (S k) fuel i tof lam maxatt Lf cps err s = ([], Finished).
Proof. intro H. cbn [drive]. rewrite H. reflexivity. Qed.
Lemma qloop_accept fuel mn maxatt err tv t n : small_or_ok (err t) t mn -> qloop (S fuel) mn maxatt err (Some tv) (Some t) n = QDone (Some t) (err t) n.
Proof. intro H. cbn [qloop]. apply accept_true in H. rewrite H. reflexivity. Qed.
Lemma qloop_reject fuel mn maxatt err tv t n s : (0 <= maxatt)%Z -> mn < Rabs t -> (forall x, err t = EFin x -> 1 < x) -> resize (Some t) (err t) mn = Some s -> s <> 0 ->
  qloop (S fuel) mn maxatt err (Some tv) (Some t) n = qloop fuel mn maxatt err (Some tv) (Some s) (S n).
Proof.
  intros Hx Ht He Hs S0. cbn [qloop]. destruct (accept (err t) (Some t) mn) eqn:A.
  - exfalso. apply accept_true in A. destruct A as [(x & E & L)|L]; [specialize (He x E); lra|lra].
  - rewrite (att_false _ Hx), Hs, underflow_false by exact S0. reflexivity.
Qed.
Lemma pow16 : Rpower 16 PSHRINK = 1 / 2.
Proof.
  unfold PSHRINK. rewrite Rpower_Ropp. replace 16 with (Rpower 2 4) by (replace 4 with (INR 4) by (cbn; lra); rewrite Rpower_pow by lra; lra).
  rewrite Rpower_mult. replace (4 * (25 / 100)) with 1 by lra. rewrite Rpower_1 by lra. lra.
Qed.

(** ** checkpoints *)
Lemma find_none now next cps : find_checkpoint (Some now) (Some next) cps = None -> forall c, In c cps -> - (1 / 10000000000) <= (now - c) * (next - c).
Proof.
  induction cps as [|c r IH]; intros H x Hx; [destruct Hx|]. cbn [find_checkpoint nsub nmul n2 nltb] in H.
  destruct (Rlt_dec ((now - c) * (next - c)) (- (1 / 10000000000))) as [L|L]; [discriminate|]. destruct Hx as [<-|Hx]; [lra|]. apply IH; assumption.
Qed.
Lemma find_some now next cps c : decreasing cps -> find_checkpoint (Some now) (Some next) cps = Some c -> next <= now ->
  In c cps /\ next < c < now /\ forall x, In x cps -> - (1 / 10000000000) <= (now - x) * (next - x) \/ x <= c.
Proof.
  induction cps as [|d r IH]; intros D H N; [discriminate|]. cbn [find_checkpoint nsub nmul n2 nltb] in H. unfold decreasing in D. apply ss_cons in D. destruct D as [D F].
  destruct (Rlt_dec ((now - d) * (next - d)) (- (1 / 10000000000))) as [L|L].
  - injection H as <-. split; [left; reflexivity|]. split; [split; nra|]. intros x [<-|Hx]; [right; lra|]. rewrite Forall_forall in F. specialize (F x Hx). right. lra.
  - destruct (IH D H N) as (I1 & I2 & I3). split; [right; exact I1|]. split; [exact I2|]. intros x [<-|Hx]; [left; lra|apply I3, Hx].
Qed.

(** ** trials *)
Lemma trials_bounded : forall fuel maxatt n stepper t dt, (n < maxatt \/ n = 0)%nat -> (Nat.max 1 maxatt - n <= fuel)%nat ->
  exists r k, trials fuel maxatt n stepper t dt = Some (r, k) /\ (k <= Nat.max 1 maxatt)%nat /\ forall d, r = TFail d -> (maxatt <= k)%nat.
Proof.
  induction fuel as [|fuel IH]; intros maxatt n stepper t dt Hn Hf; [lia|]. cbn [trials]. destruct (stepper t dt) as [t' dt'|dt'].
  - exists (TSuccess t' dt'), (S n). split; [reflexivity|]. split; [lia|discriminate].
  - destruct (Nat.ltb_spec (S n) maxatt) as [L|L].
    + apply IH; lia.
    + exists (TFail dt'), (S n). split; [reflexivity|]. split; [lia|]. intros; lia.
Qed.
Definition halving (m : nat) (t d : R) : tres := if Rle_dec d (/ 2 ^ m) then TSuccess (t + d) d else TFail (d / 2).
Lemma trials_halving m maxatt t : (S m <= maxatt)%nat -> forall k j fuel, (j + k = m)%nat -> (k < fuel)%nat ->
  trials fuel maxatt j (halving m) t (/ 2 ^ j) = Some (TSuccess (t + / 2 ^ m) (/ 2 ^ m), S m).
Proof.
  intro Hm. induction k as [|k IH]; intros j fuel E F; (destruct fuel as [|fuel]; [lia|]); cbn [trials]; unfold halving at 1.
  - replace j with m by lia. destruct (Rle_dec (/ 2 ^ m) (/ 2 ^ m)); [reflexivity|lra].
  - destruct (Rle_dec (/ 2 ^ j) (/ 2 ^ m)) as [L|L].
    + exfalso. assert (2 ^ j < 2 ^ m) by (apply Rlt_pow; [lra|lia]). assert (0 < 2 ^ j) by (apply pow_lt; lra).
      apply Rinv_lt_contravar in H; [lra|]. apply Rmult_lt_0_compat; lra.
    + destruct (Nat.ltb_spec (S j) maxatt); [|lia]. replace (/ 2 ^ j / 2) with (/ 2 ^ S j); [apply IH; lia|].
      cbn [pow]. field. apply pow_nonzero. lra.
Qed.
