(** Lemmas for C39-C42, C83, C84. *)
From Coq Require Import Reals Lra Psatz.
From Verif Require Import Prelude Grid_Model Grid_Proofs Ode_Model Ode_Spec.
Open Scope R_scope.

Lemma between_abs t s : shortened t s <-> Rabs s <= Rabs t /\ 0 <= t * s.
Proof.
  unfold shortened, between, Rmin, Rmax, Rabs. destruct (Rle_dec 0 t), (Rcase_abs s), (Rcase_abs t); split; intro H; try nra;
  destruct H as [H1 H2]; split; try nra; destruct (Req_dec t 0); subst; nra.
Qed.
Lemma between_trans a b x y : between a b x -> between a x y -> between a b y.
Proof. unfold between, Rmin, Rmax. destruct (Rle_dec a b), (Rle_dec a x); lra. Qed.
Lemma sgn_sq t : t <> 0 -> sgn t * sgn t = 1.
Proof. intro H. destruct (Rtotal_order t 0) as [L|[L|L]]; [rewrite sgn_neg by lra; lra|lra|rewrite sgn_pos by lra; lra]. Qed.
Lemma abs_sgn_mul t m : t <> 0 -> 0 <= m -> Rabs (sgn t * m) = m /\ sgn (sgn t * m) * sgn t = sgn m /\ 0 <= t * (sgn t * m).
Proof.
  intros H Hm. destruct (Rtotal_order t 0) as [L|[L|L]]; [|lra|].
  - rewrite !(sgn_neg t) by lra. replace (-1 * m) with (- m) by lra. rewrite Rabs_Ropp, sgn_opp, Rabs_pos_eq by lra. split; [lra|]. split; [lra|nra].
  - rewrite !(sgn_pos t) by lra. rewrite !Rmult_1_l, Rabs_pos_eq by lra. split; [lra|]. split; [lra|nra].
Qed.
Lemma rpow_lt1 e p : 1 < e -> p < 0 -> 0 < Rpower e p < 1.
Proof.
  intros He Hp. unfold Rpower. split; [apply exp_pos|]. rewrite <- exp_0. apply exp_increasing.
  assert (0 < ln e) by (rewrite <- ln_1; apply ln_increasing; lra). nra.
Qed.
(** a rejected step is shortened, but not below the minimum, and by at least the safety factor unless the minimum is reached *)
Lemma resize_spec t e mn : 0 < mn -> mn < Rabs t -> (forall x, e = EFin x -> 1 < x) -> e <> ENaN ->
  exists s, resize (Some t) e mn = Some s /\ s <> 0 /\ shortened t s /\ mn <= Rabs s < Rabs t /\ 1 / 10 * Rabs t <= Rabs s /\
    Rabs s <= Rmax mn (8 / 10 * Rabs t).
Proof.
  intros Hm Ht He Hn. assert (T0 : t <> 0) by (intro E; subst t; rewrite Rabs_R0 in Ht; lra).
  assert (A : exists a, 0 <= a < 8 / 10 * Rabs t /\ resize (Some t) e mn = Some (sgn t * Rmax (Rmax a (1 / 10 * Rabs t)) mn)).
  { destruct e as [|x|]; [congruence| |].
    - specialize (He x eq_refl). eexists. split; [|reflexivity]. rewrite !Rabs_mult. unfold SAFETY. rewrite (Rabs_pos_eq (8/10)) by lra.
      destruct (rpow_lt1 x PSHRINK He) as [P1 P2]; [unfold PSHRINK; lra|]. rewrite (Rabs_pos_eq (Rpower x PSHRINK)) by lra. pose proof (Rabs_pos t). split; nra.
    - exists (Rabs 0). split; [rewrite Rabs_R0; lra|reflexivity]. }
  destruct A as (a & Ha & E). exists (sgn t * Rmax (Rmax a (1 / 10 * Rabs t)) mn). split; [exact E|].
  set (m := Rmax (Rmax a (1 / 10 * Rabs t)) mn).
  assert (M : mn <= m /\ m < Rabs t /\ 1 / 10 * Rabs t <= m /\ m <= Rmax mn (8 / 10 * Rabs t)).
  { unfold m. pose proof (Rmax_r (Rmax a (1/10*Rabs t)) mn). pose proof (Rmax_l (Rmax a (1/10*Rabs t)) mn). pose proof (Rmax_r a (1/10*Rabs t)).
    split; [lra|]. split; [repeat apply Rmax_lub_lt; lra|]. split; [lra|].
    apply Rmax_lub; [apply Rmax_lub|apply Rmax_l]; (eapply Rle_trans; [|apply Rmax_r]); lra. }
  destruct (abs_sgn_mul t m T0) as (A1 & A2 & A3); [lra|].
  split; [intro Z; rewrite Z, Rabs_R0 in A1; lra|]. split; [apply between_abs; lra|]. lra.
Qed.
Definition small_or_ok (e : errv) (t mn : R) : Prop := (exists x, e = EFin x /\ x <= 1) \/ Rabs t <= mn.
Lemma accept_true e t mn : accept e (Some t) mn = true <-> small_or_ok e t mn.
Proof.
  unfold accept, small_or_ok. rewrite orb_true_iff. destruct e as [|x|].
  - destruct (Rle_dec (Rabs t) mn); split; intro H; auto; destruct H as [H|H]; try discriminate; try (destruct H as (x & H & _); discriminate); lra.
  - destruct (Rle_dec x 1), (Rle_dec (Rabs t) mn); split; intro H; auto; try (left; exists x; split; [reflexivity|lra]);
      destruct H as [H|H]; try discriminate; try (destruct H as (y & H & L); injection H as <-; lra); lra.
  - destruct (Rle_dec (Rabs t) mn); split; intro H; auto; destruct H as [H|H]; try discriminate; try (destruct H as (x & H & _); discriminate); lra.
Qed.
Lemma accept_false e t mn : accept e (Some t) mn = false -> mn < Rabs t /\ forall x, e = EFin x -> 1 < x.
Proof.
  unfold accept. rewrite orb_false_iff. intros [H1 H2]. destruct (Rle_dec (Rabs t) mn); [discriminate|]. split; [lra|].
  intros x ->. destruct (Rle_dec x 1); [discriminate|lra].
Qed.
Lemma att_false maxatt : (0 <= maxatt)%Z -> (attempts >? maxatt)%Z = false.
Proof. intro H. unfold attempts. destruct (Z.gtb_spec 0 maxatt); [lia|reflexivity]. Qed.
(** NaN as a step: never accepted *)
Lemma qloop_nan : forall fuel mn maxatt err tv n, (0 <= maxatt)%Z -> qloop fuel mn maxatt err tv None n = QFuel.
Proof.
  induction fuel as [|fuel IH]; intros mn maxatt err tv n Hm; [reflexivity|]. cbn [qloop].
  replace (match tv with Some _ => ENaN | None => ENaN end) with ENaN by (destruct tv; reflexivity).
  replace (accept ENaN None mn) with false by reflexivity. rewrite (att_false _ Hm).
  replace (resize None ENaN mn) with (@None R) by reflexivity. replace (underflow tv None) with false by (destruct tv; reflexivity). apply IH, Hm.
Qed.
Lemma qloop_tvnan : forall fuel mn maxatt err t n, (0 <= maxatt)%Z -> (match t with Some x => mn < Rabs x | None => True end) ->
  qloop fuel mn maxatt err None t n = QFuel.
Proof.
  intros fuel mn maxatt err t n Hm Ht. destruct t as [t|]; [|apply qloop_nan; assumption]. destruct fuel as [|fuel]; [reflexivity|]. cbn [qloop].
  unfold accept. destruct (Rle_dec (Rabs t) mn); [lra|]. cbn [orb]. rewrite (att_false _ Hm). cbn [resize underflow]. apply qloop_nan, Hm.
Qed.
Lemma shortened_refl t : shortened t t.
Proof. apply between_abs. split; [lra|nra]. Qed.
Lemma shortened_trans t s r : shortened t s -> shortened s r -> shortened t r.
Proof. unfold shortened. intros H K. eapply between_trans; eassumption. Qed.
Lemma underflow_false tv s : s <> 0 -> underflow tv (Some s) = false.
Proof. intro H. unfold underflow. destruct tv; [|reflexivity]. destruct (Req_EM_T s 0); [contradiction|reflexivity]. Qed.
(** the loop on a number *)
Lemma qloop_spec : forall fuel mn maxatt err tv t n r, 0 < mn -> (0 <= maxatt)%Z -> qloop fuel mn maxatt err (Some tv) (Some t) n = r ->
  r = QFuel \/ exists s k, r = QDone (Some s) (err s) (n + k) /\ small_or_ok (err s) s mn /\ shortened t s /\ (t <> 0 -> s <> 0) /\
    ((0 < k)%nat -> mn <= Rabs s < Rabs t) /\ (k = 0%nat -> s = t).
Proof.
  induction fuel as [|fuel IH]; intros mn maxatt err tv t n r Hm Hx E; [left; symmetry; exact E|]. cbn [qloop] in E.
  destruct (accept (err t) (Some t) mn) eqn:A.
  - right. exists t, 0%nat. rewrite Nat.add_0_r. split; [symmetry; exact E|]. apply accept_true in A. split; [exact A|].
    split; [apply shortened_refl|]. split; [auto|]. split; [lia|auto].
  - rewrite (att_false _ Hx) in E. apply accept_false in A. destruct A as [A1 A2]. destruct (err t) as [|x|] eqn:Er.
    + cbn [resize underflow] in E. rewrite qloop_nan in E by exact Hx. left. symmetry. exact E.
    + destruct (resize_spec t (EFin x) mn Hm A1 A2) as (s & Es & S0 & Ss & Sb & _); [discriminate|]. rewrite Es, underflow_false in E by exact S0.
      destruct (IH mn maxatt err tv s (S n) r Hm Hx E) as [F|(s' & k & E' & G & Sh & N0 & Bk & K0)]; [left; exact F|]. right. exists s', (S k).
      split; [rewrite E'; f_equal; lia|]. split; [exact G|]. split; [eapply shortened_trans; eassumption|]. split; [auto|].
      split; [|discriminate]. intros _. destruct k as [|k]; [rewrite (K0 eq_refl); lra|]. specialize (Bk ltac:(lia)). lra.
    + destruct (resize_spec t EInf mn Hm A1 A2) as (s & Es & S0 & Ss & Sb & _); [discriminate|]. rewrite Es, underflow_false in E by exact S0.
      destruct (IH mn maxatt err tv s (S n) r Hm Hx E) as [F|(s' & k & E' & G & Sh & N0 & Bk & K0)]; [left; exact F|]. right. exists s', (S k).
      split; [rewrite E'; f_equal; lia|]. split; [exact G|]. split; [eapply shortened_trans; eassumption|]. split; [auto|].
      split; [|discriminate]. intros _. destruct k as [|k]; [rewrite (K0 eq_refl); lra|]. specialize (Bk ltac:(lia)). lra.
Qed.
(** termination when the estimate is never NaN *)
Lemma qloop_terminates : forall m mn maxatt err tv t n, 0 < mn -> (0 <= maxatt)%Z -> (forall x, err x <> ENaN) ->
  (8 / 10) ^ m * Rabs t <= mn -> qloop (S m) mn maxatt err (Some tv) (Some t) n <> QFuel.
Proof.
  induction m as [|m IH]; intros mn maxatt err tv t n Hm Hx Hn B E.
  - cbn [qloop] in E. destruct (accept (err t) (Some t) mn) eqn:A; [discriminate|]. apply accept_false in A. cbn in B. lra.
  - remember (S m) as m'. cbn [qloop] in E. subst m'. destruct (accept (err t) (Some t) mn) eqn:A; [discriminate|].
    rewrite (att_false _ Hx) in E. apply accept_false in A. destruct A as [A1 A2].
    destruct (resize_spec t (err t) mn Hm A1 A2 (Hn t)) as (s & Es & S0 & Ss & Sb & _ & Sx). rewrite Es, underflow_false in E by exact S0.
    destruct (Rle_dec (Rabs s) mn) as [L|L].
    + cbn [qloop] in E. replace (accept (err s) (Some s) mn) with true in E; [discriminate|]. symmetry. apply accept_true. right. exact L.
    + apply (IH mn maxatt err tv s (S n) Hm Hx Hn); [|exact E]. cbn [pow] in B.
      assert (0 < (8/10)^m) by (apply pow_lt; lra). unfold Rmax in Sx. destruct (Rle_dec mn (8/10*Rabs t)) as [R1|R1]; [|lra]. nra.
Qed.

(** ** the suggested next step *)
Lemma thr_pos : 0 < Rpower (MAXGROW / SAFETY) PGROW. Proof. apply exp_pos. Qed.
Lemma grow_bound x : Rpower (MAXGROW / SAFETY) PGROW < x -> 0 < Rpower x PGROW < 5 / 2.
Proof.
  intro H. split; [apply exp_pos|]. pose proof thr_pos as T. assert (X : 0 < x) by lra.
  assert (L : ln (Rpower (MAXGROW / SAFETY) PGROW) < ln x) by (apply ln_increasing; lra).
  unfold Rpower in L at 1. rewrite ln_exp in L. replace (MAXGROW / SAFETY) with (5/2) in L by (unfold MAXGROW, SAFETY; field).
  assert (P : 0 < ln (5/2)) by (rewrite <- ln_1; apply ln_increasing; lra).
  unfold Rpower. rewrite <- (exp_ln (5/2)) at 1 by lra. apply exp_increasing. unfold PGROW in *. lra.
Qed.
Lemma grow_spec t e : t <> 0 -> e <> EInf -> exists a, grow t e = t * a /\ 0 < a <= 2.
Proof.
  intros H He. unfold grow. destruct e as [|x|]; [|destruct (Rlt_dec _ x) as [L|L]|congruence].
  - exists 2. unfold MAXGROW. split; [ring|lra].
  - exists (SAFETY * Rpower x PGROW). split; [ring|]. pose proof (grow_bound x L). unfold SAFETY. split; nra.
  - exists 2. unfold MAXGROW. split; [ring|lra].
Qed.
Lemma next_spec t e n mn mx : t <> 0 -> e <> EInf -> 0 < mn -> mn <= mx ->
  0 < t * next_step t e n mn mx /\ mn <= Rabs (next_step t e n mn mx) <= mx /\
  Rabs (next_step t e n mn mx) <= Rmax mn (2 * Rabs t) /\ ((0 < n)%nat -> Rabs (next_step t e n mn mx) <= Rmax mn (Rabs t)).
Proof.
  intros T0 He Hm Hx. destruct (grow_spec t e T0 He) as (a & G & A). pose proof (Rabs_pos_lt t T0) as Tp.
  assert (Ga : Rabs (t * a) = a * Rabs t) by (rewrite Rabs_mult, (Rabs_pos_eq a) by lra; ring).
  set (g := if (0 <? n)%nat then sgn t * Rmin (Rabs (grow t e)) (Rabs t) else grow t e).
  assert (Gs : 0 < t * g /\ Rabs g <= 2 * Rabs t /\ ((0 < n)%nat -> Rabs g <= Rabs t)).
  { unfold g. rewrite G, Ga. destruct (Nat.ltb_spec 0 n) as [L|L].
    - destruct (abs_sgn_mul t (Rmin (a * Rabs t) (Rabs t)) T0) as (A1 & A2 & A3); [apply Rmin_glb; nra|]. rewrite A1.
      assert (0 < Rmin (a * Rabs t) (Rabs t)) by (apply Rmin_glb_lt; nra). pose proof (Rmin_r (a * Rabs t) (Rabs t)).
      split; [|split; [lra|intros _; lra]]. assert (E : t * (sgn t * Rmin (a * Rabs t) (Rabs t)) = Rabs t * Rmin (a * Rabs t) (Rabs t)) by (rewrite <- (sgn_mul_abs t); ring).
      rewrite E. nra.
    - rewrite Ga. split; [|split; [nra|lia]]. assert (0 < t * t) by nra. nra. }
  unfold next_step. cbv zeta. fold g. destruct Gs as (G1 & G2 & G3). assert (g <> 0) by (intro Z; rewrite Z in G1; lra).
  set (m := Rmin (Rmax mn (Rabs g)) mx). pose proof (Rabs_pos_lt g H) as Gp.
  assert (M : mn <= m <= mx /\ m <= Rmax mn (Rabs g)).
  { unfold m. split; [split; [apply Rmin_glb; [apply Rmax_l|exact Hx]|apply Rmin_r]|apply Rmin_l]. }
  destruct (abs_sgn_mul g m H) as (B1 & B2 & B3); [lra|]. rewrite B1.
  split.
  - destruct (Rtotal_order g 0) as [L|[L|L]]; [rewrite sgn_neg by lra|lra|rewrite sgn_pos by lra]; nra.
  - split; [lra|]. assert (K : forall b, Rabs g <= b -> m <= Rmax mn b).
    { intros b Hb. destruct M as [_ M]. unfold Rmax in *. destruct (Rle_dec mn (Rabs g)), (Rle_dec mn b); lra. }
    split; [apply K; exact G2|intro L; apply K, G3, L].
Qed.

(** ** one call of the step routine *)
Lemma rkqs_nan fuel tof lam mn mx maxatt err L : (0 <= maxatt)%Z -> rkqs fuel tof lam mn mx maxatt err L None = RFuel.
Proof. intro H. unfold rkqs. replace (nadd L None) with (@None R) by (destruct L; reflexivity). cbn [napp nsub n2]. rewrite qloop_nan by exact H. reflexivity. Qed.
Lemma between_shift a b s : shortened (b - a) s -> between a b (a + s).
Proof. unfold shortened, between, Rmin, Rmax. destruct (Rle_dec 0 (b - a)), (Rle_dec a b); lra. Qed.
Lemma rkqs_spec fuel tof lam mn mx maxatt err a b L h r : 0 < mn -> (0 <= maxatt)%Z -> param_ok tof lam a b ->
  between a b L -> between a b (L + h) -> rkqs fuel tof lam mn mx maxatt err (Some L) (Some h) = r ->
  r = RFuel \/ exists M hn, r = RDone (Some M) (Some (M - L)) hn /\ between L (L + h) M.
Proof.
  intros Hm Hx [P1 P2] HL Hh E. destruct (P1 L HL) as (t & Et & El). destruct (P1 (L + h) Hh) as (t' & Et' & El').
  unfold rkqs in E. cbn [nadd n2 napp] in E. rewrite Et, Et' in E. cbn [nsub n2] in E.
  destruct (qloop_spec fuel mn maxatt err t (t' - t) 0 _ Hm Hx eq_refl) as [F|(s & k & F & _ & Sh & _)]; rewrite F in E; [left; symmetry; exact E|].
  right. cbn [nadd n2 napp] in E. destruct (P2 L (L + h) t t' (t + s) HL Hh Et Et' (between_shift _ _ _ Sh)) as (M & EM & BM).
  cbn [n1] in E. rewrite EM in E. rewrite El in E. cbn [nsub n2] in E. eexists M, _. split; [symmetry; exact E|exact BM].
Qed.
Lemma between_comm a b x : between a b x -> between b a x.
Proof. unfold between, Rmin, Rmax. destruct (Rle_dec a b), (Rle_dec b a); lra. Qed.
Lemma between_start a b : between a b a. Proof. unfold between, Rmin, Rmax. destruct (Rle_dec a b); lra. Qed.
Lemma outside_false Lf L x : ~ 0 < (x - Lf) * (x - L) -> between L Lf x.
Proof. intro H. unfold between, Rmin, Rmax. destruct (Rle_dec L Lf); split; nra. Qed.
Lemma last_cons {A} (l : list A) : forall x d, last (x :: l) d = last l x.
Proof. induction l as [|y l IH]; intros x d; [reflexivity|]. change (last (x :: y :: l) d) with (last (y :: l) d). rewrite !IH. reflexivity. Qed.
Lemma drive_spec : forall k fuel i tof lam maxatt Lf err s L, (0 <= maxatt)%Z -> 0 < Lf -> dL s = Some L -> dNow s = Some L -> dhit s = false ->
  forall Li, between Li Lf L -> param_ok tof lam Li Lf ->
  exists l e, drive k fuel i tof lam maxatt Lf [] err s = (map Some l, e) /\ approaches Lf L l /\ e <> Threw /\
    (e = Finished -> Rabs (Lf - last l L) < 1 / 100000000 * Lf).
Proof.
  induction k as [|k IH]; intros fuel i tof lam maxatt Lf err s L Hx Hf EL EN Eh Li HL Hp.
  - exists [], Exhausted. split; [reflexivity|]. split; [exact I|]. split; discriminate.
  - cbn [drive]. destruct (clip Lf s) as [h|] eqn:C.
    2:{ exists [], Finished. split; [reflexivity|]. split; [exact I|]. split; [discriminate|]. intros _. cbn [last].
        unfold clip in C. rewrite EL, EN in C. destruct (nltb (Some 0) _); [|discriminate]. destruct (Req_EM_T Lf 0); [lra|].
        cbn [nsub n2 n1 nltb] in C. destruct (Rlt_dec (Rabs (Lf - L) / Lf) (1 / 100000000)) as [Q|]; [|discriminate].
        apply (Rmult_lt_compat_r Lf) in Q; [|exact Hf]. unfold Rdiv in Q at 1. rewrite Rmult_assoc, Rinv_l, Rmult_1_r in Q by lra. exact Q. }
    unfold choose. rewrite Eh, EN. cbn [find_checkpoint].
    assert (Ch : h = None \/ exists x, h = Some x /\ between L Lf (L + x)).
    { unfold clip in C. rewrite EL, EN in C. destruct (dh s) as [d|].
      - cbn [nadd nsub nmul n2 nltb] in C. destruct (Rlt_dec 0 ((L + d - Lf) * (L + d - L))) as [Q|Q].
        + destruct (Req_EM_T Lf 0); [lra|]. cbn [n1 nltb] in C. destruct (Rlt_dec (Rabs (Lf - L) / Lf) (1 / 100000000)); [discriminate|].
          injection C as <-. right. exists (Lf - L). split; [reflexivity|]. replace (L + (Lf - L)) with Lf by ring. apply between_comm, between_start.
        + injection C as <-. right. exists d. split; [reflexivity|]. apply outside_false. exact Q.
      - cbn in C. injection C as <-. left. reflexivity. }
    rewrite EL. destruct Ch as [->|(x & -> & Bx)].
    { rewrite rkqs_nan by exact Hx. exists [], Running. split; [reflexivity|]. split; [exact I|]. split; discriminate. }
    assert (Bx' : between Li Lf (L + x)). { apply between_comm. eapply between_trans; [apply between_comm, HL|]. apply between_comm, Bx. }
    destruct (rkqs_spec fuel tof lam min_t_step max_t_step maxatt (err i (Some L)) Li Lf L x _ ltac:(unfold min_t_step; lra) Hx Hp HL Bx' eq_refl) as [F|(M & hn & F & BM)]; rewrite F.
    { exists [], Running. split; [reflexivity|]. split; [exact I|]. split; discriminate. }
    assert (B1 : between L Lf M) by (eapply between_trans; eassumption).
    assert (B2 : between Li Lf M). { apply between_comm. eapply between_trans; [apply between_comm, HL|]. apply between_comm, B1. }
    set (s' := {| dL := Some M; dNow := nadd (Some L) (Some (M - L)); dh := hn; dprev := Some x; dhit := false |}).
    destruct (IH fuel (S i) tof lam maxatt Lf err s' M Hx Hf eq_refl ltac:(cbn; f_equal; ring) eq_refl Li B2 Hp) as (l & e & E & Ap & Nt & Fi).
    cbv beta iota zeta. fold s'. rewrite E. exists (M :: l), e. split; [reflexivity|]. split; [split; assumption|]. split; [exact Nt|].
    intro Q. specialize (Fi Q). rewrite last_cons. exact Fi.
Qed.
