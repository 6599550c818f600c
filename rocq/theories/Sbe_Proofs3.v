(** * The particle-particle channel, projections and the rebuilding steps *)
From Coq Require Import ZArith Bool List Lia.
From Verif Require Import Tab_Model Sbe_Model Sbe_Spec Sbe_Proofs Sbe_Proofs2.
From Coq Require Import Ncring Ncring_tac.
Import ListNotations.

Section P.
Context {R : Type} `{Rr : Ring R}.
Context {V : Type}.

Section Cross.
Variable I : (V -> R) -> R.
Hypothesis HI : integral_like I.
Variable rho : V -> V.
Hypothesis Hrho : reflection_invariant I rho.
Variables (PL PR : R) (X Y N : vx R V) (Pi : V -> R).
Hypothesis HPi : forall u, Pi (rho u) == Pi u.
Hypothesis HX : sums X.
Hypothesis HY : sums Y.
Hypothesis HPR : forall s, (s = 0 \/ s = 1)%Z -> PR * w_of Y s == w_of Y s.
Hypothesis HPL : forall s, (s = 0 \/ s = 1)%Z -> w_of X s * PL == w_of X s.
Hypothesis Hcross : crossing_right_leg rho X.
Hypothesis Hlam : forall u, K2 Y 0%Z (rho u) == K2 Y 0%Z u.
Hypothesis Hw : w_of Y 1%Z == - w_of Y 0%Z.

Let bs k s v v' := bubble_sbe PL PR I k Cp s (mkArg X N false false) Pi (mkArg Y N false false) v v'.
Let bc k s v v' := bubble_conv I k Cp s (mkArg (usual Cp X) N false false) Pi
                                        (mkArg (usual Cp Y) N false false) v v'.

(** the part that crossing exchanges *)
Let A s v := I (fun u => (K3 X s v u + rest X s v u) * Pi u * (K2 Y 0%Z u + 1)).
Lemma A1 v : A 1%Z v == - A 0%Z v.
Proof.
  unfold A. rewrite (I_opp I HI).
  rewrite <- (Hrho (fun u => - ((K3 X 0%Z v u + rest X 0%Z v u) * Pi u * (K2 Y 0%Z u + 1)))).
  apply (I_ext I HI). intro u. rewrite Hcross, HPi, Hlam. non_commutative_ring.
Qed.

Lemma bs_lam v v' : bs k2 0%Z v v' * w_of Y 1%Z == A 0%Z v * w_of Y 1%Z.
Proof.
  unfold A. rewrite <- (I_proj_r I HI PR (w_of Y 1%Z)
    (fun u => (K3 X 0%Z v u + rest X 0%Z v u) * Pi u * (K2 Y 0%Z u + 1)) (HPR 1%Z (or_intror eq_refl))).
  unfold bs, bubble_sbe. rewrite !(I_mr I HI). apply (I_ext I HI). intro u.
  unfold sum_internal_sbe, load_l, load_r, left_diff, right_same, one_added.
  cbn [paired crossed chan_eqb vX vN vIrr vDif project Z.eqb andb orb negb]. non_commutative_ring.
Qed.

Ltac pushI :=
  repeat first [ rewrite (I_ml I HI) | rewrite (I_mr I HI) | rewrite (I_opp I HI)
               | rewrite (I_add I HI) ].

Ltac unf :=
  unfold sum_internal_conv, sum_internal_sbe,
    load_l, load_r, wv, w_value, left_same, right_same, left_diff, right_diff, one_added, project,
    usual, build_K2, build_K2b, build_K3, cK2, cK2b, cK3;
  change (1 - 1)%Z with 0%Z;
  cbn [paired crossed chan_eqb vX vN vIrr vDif bare K1 K2 K2b K3 rest Z.eqb Pos.eqb andb orb negb Z.sub
       Z.add Z.opp Z.pos_sub Pos.add];
  fold (w_of X 0%Z) (w_of X 1%Z) (w_of X 2%Z) (w_of Y 0%Z) (w_of Y 1%Z) (w_of Y 2%Z).
Ltac finish := apply (I_ext I HI); intro; unf; rewrite ?wz; non_commutative_ring.

Lemma k2_agree1 v v' :
  bc k2 1%Z v v' == build_K2 Cp (K2 X) (with2 (fun s => bs k1 s v v')) 1%Z v
                    + build_K2 Cp (fun s v => with2 (fun s => bs k2 s v v') s) (w_of Y) 1%Z v.
Proof.
  unfold build_K2, cK2, with2; cbn [Z.eqb Pos.eqb]. rewrite bs_lam, Hw.
  transitivity (K2 X 0%Z v * bs k1 1%Z v v' + A 1%Z v * w_of Y 0%Z).
  - unfold bs, bc, bubble_sbe, bubble_conv, A. pushI. finish.
  - rewrite A1. non_commutative_ring.
Qed.

Lemma k3_agree1 v v' :
  bc k3 1%Z v v' == bs k3 1%Z v v'
    + build_K3 Cp (build_K2 Cp (K2 X) (with2 (fun s => bs k1 s v v'))) (K2b Y) 1%Z v v'
    + build_K3 Cp (build_K2 Cp (fun s v => with2 (fun s => bs k2 s v v') s) (w_of Y)) (K2b Y) 1%Z v v'
    + build_K3 Cp (build_K2 Cp (K2 X) (w_of X)) (fun s v' => with2 (fun s => bs k2b s v v') s) 1%Z v v'.
Proof.
  unfold build_K2, build_K3, cK2, cK3, with2; cbn [Z.eqb Pos.eqb]. rewrite bs_lam, Hw.
  rewrite <- (ring_mul_assoc (K2 X 0%Z v) (w_of X 1%Z)).
  transitivity (bs k3 1%Z v v' + K2 X 0%Z v * bs k1 1%Z v v' * K2b Y 0%Z v'
                + A 1%Z v * w_of Y 0%Z * K2b Y 0%Z v'
                + K2 X 0%Z v * (w_of X 1%Z * I (fun u => (K2b X 0%Z u + 1) * Pi u
                                                 * (K3 Y 0%Z u v' + rest Y 0%Z u v')))).
  - unfold bs, bc, bubble_sbe, bubble_conv, A. pushI. finish.
  - rewrite A1.
    assert (E : w_of X 1%Z * bs k2b 0%Z v v'
                == w_of X 1%Z * I (fun u => (K2b X 0%Z u + 1) * Pi u * (K3 Y 0%Z u v' + rest Y 0%Z u v'))).
    { rewrite <- (I_proj_l I HI PL (w_of X 1%Z)
        (fun u => (K2b X 0%Z u + 1) * Pi u * (K3 Y 0%Z u v' + rest Y 0%Z u v')) (HPL 1%Z (or_intror eq_refl))).
      unfold bs, bubble_sbe. rewrite !(I_ml I HI). apply (I_ext I HI). intro u.
      unfold sum_internal_sbe, load_l, load_r, right_diff, left_same, one_added.
      cbn [paired crossed chan_eqb vX vN vIrr vDif project Z.eqb andb orb negb]. non_commutative_ring. }
    rewrite E. non_commutative_ring.
Qed.
End Cross.

(** ** what the projections leave unchanged stays unchanged *)
Lemma kept_l PL PR (P : R) I (HI : integral_like I) ch s (X Y N : vx R V) Pi v v' irrL irrR :
  (s = 0 \/ s = 1)%Z -> sums X ->
  (forall s, (s = 0 \/ s = 1)%Z -> P * wv (mkArg X N irrL false) s == wv (mkArg X N irrL false) s) ->
  P * bubble_sbe PL PR I k1 ch s (mkArg X N irrL false) Pi (mkArg Y N irrR false) v v'
  == bubble_sbe PL PR I k1 ch s (mkArg X N irrL false) Pi (mkArg Y N irrR false) v v'.
Proof.
  intros Hs HX HP. unfold bubble_sbe. rewrite (I_ml I HI). apply (I_ext I HI). intro u.
  assert (H2 : P * wv (mkArg X N irrL false) 2%Z == wv (mkArg X N irrL false) 2%Z).
  { pose proof (wv_sum2 X N irrL HX) as E. unfold sum2 in E. rewrite E, distr, !HP by auto. reflexivity. }
  assert (Hs' : P * wv (mkArg X N irrL false) s == wv (mkArg X N irrL false) s) by (apply HP; exact Hs).
  unfold sum_internal_sbe. destruct (paired ch s), (crossed ch s);
    rewrite ?distr, !ring_mul_assoc, ?H2, ?Hs'; reflexivity.
Qed.
Lemma kept_r PL PR (P : R) I (HI : integral_like I) ch s (X Y N : vx R V) Pi v v' irrL irrR :
  (s = 0 \/ s = 1)%Z -> sums Y ->
  (forall s, (s = 0 \/ s = 1)%Z -> wv (mkArg Y N irrR false) s * P == wv (mkArg Y N irrR false) s) ->
  bubble_sbe PL PR I k1 ch s (mkArg X N irrL false) Pi (mkArg Y N irrR false) v v' * P
  == bubble_sbe PL PR I k1 ch s (mkArg X N irrL false) Pi (mkArg Y N irrR false) v v'.
Proof.
  intros Hs HY HP. unfold bubble_sbe. rewrite (I_mr I HI). apply (I_ext I HI). intro u.
  assert (H2 : wv (mkArg Y N irrR false) 2%Z * P == wv (mkArg Y N irrR false) 2%Z).
  { pose proof (wv_sum2 Y N irrR HY) as E. unfold sum2 in E. rewrite E, distl, !HP by auto. reflexivity. }
  assert (Hs' : wv (mkArg Y N irrR false) s * P == wv (mkArg Y N irrR false) s) by (apply HP; exact Hs).
  assert (Ho : crossed ch s = true ->
               wv (mkArg Y N irrR false) (1 - s)%Z * P == wv (mkArg Y N irrR false) (1 - s)%Z)
    by (intros _; apply HP; lia).
  unfold sum_internal_sbe. destruct (paired ch s), (crossed ch s);
    rewrite ?distl, <- !ring_mul_assoc, ?H2, ?Hs', ?Ho by reflexivity; reflexivity.
Qed.

(** ** symmetry_expand *)
Lemma expand_impl_sums b f1 f2 f2b f3 ch (rst : Z -> V -> V -> R) :
  (forall v v', sum2 (fun s => rst s v v')) ->
  sums (vx_of (expand_impl b f1 f2 f2b f3) ch rst).
Proof.
  intro H. unfold sums, sum2 in *; cbn.
  refine (Logic.conj _ (Logic.conj _ (Logic.conj _ (Logic.conj _ (Logic.conj _ H)))));
    intros; try reflexivity; non_commutative_ring.
Qed.

Lemma spin2_id (f : Z -> V -> R) s v : sum2 (fun s => f s v) -> spin2 f s v == f s v.
Proof. unfold spin2, sum2. destruct (Z.eqb_spec s 2) as [-> | ]; [intro H; symmetry; exact H | reflexivity]. Qed.

Lemma expand_nondiff_channel chb full (B : bufs R V) ch rst s v v' :
  (s = 0 \/ s = 1 \/ s = 2)%Z -> rebuilt chb full ch = true ->
  let E := expand_nondiff chb full B in
  let U := usual ch (vx_of B ch rst) in
  bK2 E ch s v == K2 U s v /\ bK2b E ch s v == K2b U s v
  /\ bK3 E ch s v v' + bK3S E ch s v v' == K3 U s v v'.
Proof.
  intros Hs Hr. cbv zeta.
  unfold expand_nondiff, construct_K2, construct_K2b, construct_K3S, usual, vx_of, spin2.
  cbn [bK2 bK2b bK3 bK3S bK1 bbare K2 K2b K3 fst snd]. rewrite Hr.
  change (w_of {| bare := bbare B; K1 := bK1 B ch; K2 := bK2 B ch; K2b := bK2b B ch; K3 := bK3 B ch; rest := rst |})
    with (bw B ch).
  destruct Hs as [-> | [-> | ->]]; cbn [Z.eqb Pos.eqb];
    (refine (Logic.conj _ (Logic.conj _ _)); [reflexivity | reflexivity |];
     unfold build_K3, build_K2, cK2, cK3; cbn [Z.eqb Pos.eqb]; destruct ch; reflexivity).
Qed.
Lemma expand_nondiff_own chb (B : bufs R V) rst s v v' :
  sums (vx_of B chb rst) ->
  let E := expand_nondiff chb false B in
  bK1 E chb s = bK1 B chb s /\ bK2 E chb s v == bK2 B chb s v /\ bK2b E chb s v == bK2b B chb s v
  /\ bK3 E chb s v v' = bK3 B chb s v v'.
Proof.
  intros (_ & _ & H2 & H2b & _). cbv zeta.
  unfold expand_nondiff, construct_K2, construct_K2b, construct_K3S.
  cbn [bK2 bK2b bK3 bK3S bK1 bbare].
  replace (rebuilt chb false chb) with false by (destruct chb; reflexivity).
  refine (Logic.conj eq_refl (Logic.conj _ (Logic.conj _ eq_refl)));
    apply (spin2_id (fun s v => _ B chb s v)); [exact (H2 v) | exact (H2b v)].
Qed.

(** ** dual numbers are a ring; the differentiated steps are the derivative *)
Ltac dnorm :=
  change (@addition (dual R) _) with (dadd : dual R -> dual R -> dual R) in *;
  change (@multiplication (dual R) (dual R) _) with (dmul : dual R -> dual R -> dual R) in *;
  change (@subtraction (dual R) _) with (dsub : dual R -> dual R -> dual R) in *;
  change (@opposite (dual R) _) with (dopp : dual R -> dual R) in *;
  change (@zero (dual R) _) with (dzero : dual R) in *;
  change (@one (dual R) _) with (done : dual R) in *;
  unfold dadd, dmul, dsub, dopp, dzero, done in *; cbn [d0 d1] in *.
Global Instance dual_ring : @Ring (dual R) _ _ _ _ _ _ _ dual_ops.
Proof.
  assert (Eq : Equivalence (dual_eq : dual R -> dual R -> Prop)).
  { unfold dual_eq. split.
    - intros [a b]; split; reflexivity.
    - intros [a b] [c d] [H1 H2]; split; symmetry; assumption.
    - intros [a b] [c d] [e f] [H1 H2] [H3 H4]; split; etransitivity; eassumption. }
  split; try exact Eq.
  - intros [a b] [a' b'] [H1 H2] [c d] [c' d'] [H3 H4]. cbn [d0 d1] in *.
    split; dnorm; [rewrite H1, H3 | rewrite H2, H4]; reflexivity.
  - intros [a b] [a' b'] [H1 H2] [c d] [c' d'] [H3 H4]. cbn [d0 d1] in *.
    split; dnorm; [rewrite H1, H3 | rewrite H1, H2, H3, H4]; reflexivity.
  - intros [a b] [a' b'] [H1 H2] [c d] [c' d'] [H3 H4]. cbn [d0 d1] in *.
    split; dnorm; [rewrite H1, H3 | rewrite H2, H4]; reflexivity.
  - intros [a b] [a' b'] [H1 H2]. cbn [d0 d1] in *.
    split; dnorm; [rewrite H1 | rewrite H2]; reflexivity.
  - intros [a b]. split; dnorm; non_commutative_ring.
  - intros [a b] [c d]. split; dnorm; non_commutative_ring.
  - intros [a b] [c d] [e f]. split; dnorm; non_commutative_ring.
  - intros [a b]. split; dnorm; non_commutative_ring.
  - intros [a b]. split; dnorm; non_commutative_ring.
  - intros [a b] [c d] [e f]. split; dnorm; non_commutative_ring.
  - intros [a b] [c d] [e f]. split; dnorm; non_commutative_ring.
  - intros [a b] [c d] [e f]. split; dnorm; non_commutative_ring.
  - intros [a b] [c d]. split; dnorm; non_commutative_ring.
  - intros [a b]. split; dnorm; non_commutative_ring.
Qed.

Lemma expand_diff_is_derivative chb full (D B : bufs R V) ch s v v' :
  (s = 0 \/ s = 1 \/ s = 2)%Z ->
  let E := expand_diff chb full D B in
  let W := expand_nondiff chb full (dual_bufs B D) in
  d1 (bK1 W ch s) == bK1 (fst E) ch s
  /\ d1 (bK2 W ch s v) == bK2 (fst E) ch s v /\ d1 (bK2b W ch s v) == bK2b (fst E) ch s v
  /\ d1 (bK3 W ch s v v') == bK3 (fst E) ch s v v' /\ d1 (bK3S W ch s v v') == bK3S (fst E) ch s v v'
  /\ d0 (bK1 W ch s + bbare W s) == bK1 (snd E) ch s + bbare (snd E) s
  /\ d0 (bK2 W ch s v) == bK2 (snd E) ch s v /\ d0 (bK3S W ch s v v') == bK3S (snd E) ch s v v'.
Proof.
  intros Hs. cbv zeta.
  unfold expand_diff, expand_nondiff, construct_K2, construct_K2b, construct_K3S,
    construct_dK2, construct_dK2b, construct_dK3S, dual_bufs, spin2, bw.
  cbn [fst snd bK2 bK2b bK3 bK3S bK1 bbare d0 d1].
  destruct (rebuilt chb full ch); destruct Hs as [-> | [-> | ->]]; cbn [Z.eqb Pos.eqb];
  unfold build_K2, build_K2b, build_K3, build_dK2, build_dK2b, build_dK3, cK2, cK2b, cK3;
  cbn [Z.eqb Pos.eqb]; destruct ch;
  (repeat apply Logic.conj);
  (dnorm; try reflexivity; non_commutative_ring).
Qed.

End P.
