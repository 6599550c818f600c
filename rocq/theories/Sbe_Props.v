(** * C135: the single-boson exchange form of the vertex *)
From Coq Require Import ZArith QArith Bool List Lia.
From Verif Require Import Tab_Model Sbe_Model Sbe_Spec Sbe_Proofs Sbe_Proofs2 Sbe_Proofs3.
From Verif Require Sbe_Keld Cplx.
From Coq Require Import Ncring Ncring_tac Ncring_initial.
Import ListNotations.

(** ** the three implementations of the combination agree *)
Theorem C135_implementations_agree {R V : Type} `{Rr : Ring R} :
  forall k ch s irrL irrR (X Y N : vx R V) Pi v u v',
  (s = 0 \/ s = 1)%Z -> sums X -> sums Y ->
  let L := mkArg X N irrL false in let A := mkArg Y N irrR false in
  let wl := wv L in let wr := wv A in
  let l := load_l true k ch L v u in let r := load_r true k ch A u v' in
  spin_vectorized true k ch s wl l Pi r wr == sum_internal_sbe 1 1 k ch s wl l Pi r wr
  /\ tail_sbe k ch s wl l Pi r wr == sum_internal_sbe 1 1 k ch s wl l Pi r wr
  /\ (forall l r, spin_vectorized false k ch s wl l Pi r wr == sum_internal_conv ch s l Pi r).
Proof.
  intros k ch s irrL irrR X Y N Pi v u v' Hs HX HY. cbv zeta.
  refine (Logic.conj _ (Logic.conj _ _)).
  - apply spin_vectorized_sbe; exact Hs.
  - apply tail_is_sbe; [exact Hs|]. intro Hp.
    refine (Logic.conj _ (Logic.conj _ (Logic.conj _ _)));
      [apply wv_sum2 | apply load_l_sum2 | apply load_r_sum2 | apply wv_sum2]; assumption.
  - intros. apply spin_vectorized_conv; exact Hs.
Qed.
Print Assumptions C135_implementations_agree.

(** ** the eight terms are a sum over three internal spins *)
Theorem C135_spin_sum {R : Type} `{Rr : Ring R} :
  forall k ch s (wl l : Z -> R) Pi r wr, paired ch s = true ->
  sum_internal_sbe 1 1 k ch s wl l Pi r wr
  == match k with
     | k1 => both_spins (fun a => both_spins (fun b => both_spins (fun c =>
               spinmat wl s true a * spinmat l s a b * Pi * spinmat r s b c * spinmat wr s c false)))
     | _ => both_spins (fun b => spinmat l s true b * Pi * spinmat r s b false)
     end.
Proof.
  intros k ch s wl l Pi r wr H. unfold sum_internal_sbe. rewrite H.
  destruct k; unfold both_spins, spinmat, project; cbn [Bool.eqb]; non_commutative_ring.
Qed.
Print Assumptions C135_spin_sum.

(** ** a bubble of two rebuilt vertices is the rebuilt bubble
    [irrL], [irrR]: the vertex without the channel of the bubble is inserted.  The usual classes of the
    product are: K1 the same; K2 = lambda_X K1_new + lambda_new w_Y; K2' = K1_new lambdabar_Y +
    w_X lambdabar_new; K3 = multi-boson part + the products with lambdabar. *)
Section Bubble.
Context {R V : Type} `{Rr : Ring R}.
Variables (I : (V -> R) -> R) (PL PR : R) (ch : chan) (irrL irrR : bool) (X Y N : vx R V) (Pi : V -> R).
Let X' := stripped irrL X.
Let Y' := stripped irrR Y.
Let bs k s v v' := bubble_sbe PL PR I k ch s (mkArg X N irrL false) Pi (mkArg Y N irrR false) v v'.
Let bc k s v v' := bubble_conv I k ch s (mkArg (usual ch X) N irrL false) Pi
                                        (mkArg (usual ch Y) N irrR false) v v'.
Let lam v' := fun s v => with2 (fun s => bs k2 s v v') s.
Let lamb v := fun s v' => with2 (fun s => bs k2b s v v') s.
Let w1 v v' := with2 (fun s => bs k1 s v v').

Theorem C135_bubble_partial :
  forall s v v', (s = 0 \/ s = 1)%Z -> integral_like I -> sums X -> sums Y ->
  (forall s, (s = 0 \/ s = 1)%Z -> PR * w_of Y' s == w_of Y' s /\ w_of X' s * PL == w_of X' s) ->
  (ch = Cp -> s = 1%Z -> exists rho, reflection_invariant I rho /\ (forall u, Pi (rho u) == Pi u)
     /\ crossing_right_leg rho X' /\ (forall u, K2 Y' 0%Z (rho u) == K2 Y' 0%Z u)
     /\ w_of Y' 1%Z == - w_of Y' 0%Z) ->
  bc k1 s v v' == bs k1 s v v'
  /\ bc k2 s v v' == build_K2 ch (K2 X') (w1 v v') s v + build_K2 ch (lam v') (w_of Y') s v
  /\ bc k2b s v v' == build_K2b ch (K2b Y') (w1 v v') s v' + build_K2b ch (lamb v) (w_of X') s v'
  /\ bc k3 s v v' == bs k3 s v v'
       + build_K3 ch (build_K2 ch (K2 X') (w1 v v')) (K2b Y') s v v'
       + build_K3 ch (build_K2 ch (lam v') (w_of Y')) (K2b Y') s v v'
       + build_K3 ch (build_K2 ch (K2 X') (w_of X')) (lamb v) s v v'.
Proof.
  intros s v v' Hs HI HX HY HP Hc.
  assert (HX' : sums X') by (apply strip_sums; exact HX).
  assert (HY' : sums Y') by (apply strip_sums; exact HY).
  assert (HPR : forall s, (s = 0 \/ s = 1)%Z -> PR * w_of Y' s == w_of Y' s) by (intros; apply HP; assumption).
  assert (HPL : forall s, (s = 0 \/ s = 1)%Z -> w_of X' s * PL == w_of X' s) by (intros; apply HP; assumption).
  pose (bs' := fun k s v v' => bubble_sbe PL PR I k ch s (mkArg X' N false false) Pi (mkArg Y' N false false) v v').
  assert (Ebs : forall k s v v', bs k s v v' == bs' k s v v') by (intros; apply strip_bs; exact HI).
  assert (Ebc : forall k s v v', bc k s v v' == bubble_conv I k ch s (mkArg (usual ch X') N false false) Pi
                                        (mkArg (usual ch Y') N false false) v v')
    by (intros; apply strip_bc; exact HI).
  assert (Ew : forall k s v v', with2 (fun s => bs k s v v') s == with2 (fun s => bs' k s v v') s).
  { intros k t a b. unfold with2. destruct (Z.eqb t 2); rewrite !Ebs; reflexivity. }
  assert (E2 : forall (f f' : Z -> V -> R) (g g' : Z -> R) t a, (forall t a, f t a == f' t a) -> (forall t, g t == g' t) ->
               build_K2 ch f g t a == build_K2 ch f' g' t a).
  { intros f f' g g' t a Hf Hg. unfold build_K2, cK2. destruct ch, (Z.eqb t 0), (Z.eqb t 1); rewrite ?Hf, ?Hg; reflexivity. }
  assert (E2b : forall (f f' : Z -> V -> R) (g g' : Z -> R) t a, (forall t a, f t a == f' t a) -> (forall t, g t == g' t) ->
               build_K2b ch f g t a == build_K2b ch f' g' t a).
  { intros f f' g g' t a Hf Hg. unfold build_K2b, cK2b. destruct ch, (Z.eqb t 0), (Z.eqb t 1); rewrite ?Hf, ?Hg; reflexivity. }
  assert (E3 : forall (f f' g g' : Z -> V -> R) t a b, (forall t a, f t a == f' t a) -> (forall t a, g t a == g' t a) ->
               build_K3 ch f g t a b == build_K3 ch f' g' t a b).
  { intros f f' g g' t a b Hf Hg. unfold build_K3, cK3. destruct ch, (Z.eqb t 0), (Z.eqb t 1); rewrite ?Hf, ?Hg; reflexivity. }
  rewrite !Ebc, !Ebs. unfold lam, lamb, w1.
  rewrite !(E2 (K2 X') (K2 X') _ (with2 (fun s => bs' k1 s v v'))) by (intros; first [reflexivity | apply Ew]).
  rewrite !(E2 _ (fun s v => with2 (fun s => bs' k2 s v v') s) (w_of Y') (w_of Y')) by (intros; first [reflexivity | apply Ew]).
  rewrite !(E2b (K2b Y') (K2b Y') _ (with2 (fun s => bs' k1 s v v'))) by (intros; first [reflexivity | apply Ew]).
  rewrite !(E2b _ (fun s v' => with2 (fun s => bs' k2b s v v') s) (w_of X') (w_of X')) by (intros; first [reflexivity | apply Ew]).
  rewrite !(E3 _ (build_K2 ch (K2 X') (with2 (fun s => bs' k1 s v v'))) (K2b Y') (K2b Y') s v v')
    by (intros; first [reflexivity | apply E2; intros; first [reflexivity | apply Ew]]).
  rewrite !(E3 (build_K2 ch (fun s v => with2 (fun s => bs k2 s v v') s) (w_of Y'))
               (build_K2 ch (fun s v => with2 (fun s => bs' k2 s v v') s) (w_of Y')) (K2b Y') (K2b Y') s v v')
    by (intros; first [reflexivity | apply E2; intros; first [reflexivity | apply Ew]]).
  rewrite !(E3 (build_K2 ch (K2 X') (w_of X')) (build_K2 ch (K2 X') (w_of X')) _
               (fun s v' => with2 (fun s => bs' k2b s v v') s) s v v')
    by (intros; first [reflexivity | apply Ew]).
  destruct (crossed ch s) eqn:Ec.
  - assert (Ech : ch = Cp /\ s = 1%Z).
    { destruct ch; cbn in Ec; try discriminate. apply Z.eqb_eq in Ec. auto. }
    destruct Ech as [Ech Es]. destruct (Hc Ech Es) as (rho & R1 & R2 & R3 & R4 & R5).
    unfold bs'. clearbody X' Y'. clear - Rr HI HX' HY' HPR HPL R1 R2 R3 R4 R5 Ech Es Hs.
    rewrite Ech, Es in *.
    refine (Logic.conj _ (Logic.conj _ (Logic.conj _ _))).
    + apply k1_agree0; assumption.
    + apply (k2_agree1 I HI rho); assumption.
    + apply k2b_agree0; assumption.
    + apply (k3_agree1 I HI rho); assumption.
  - refine (Logic.conj _ (Logic.conj _ (Logic.conj _ _)));
      [apply k1_agree0 | apply k2_agree0 | apply k2b_agree0 | apply k3_agree0]; assumption.
Qed.

End Bubble.
Print Assumptions C135_bubble_partial.

(** with the irreducible vertex on the left (Bethe-Salpeter equations): K2 of the channel is the new
    Hedin vertex times w, K3 the new multi-boson part plus lambda w lambdabar *)
Theorem C135_irreducible_left {R V : Type} `{Rr : Ring R} :
  forall (I : (V -> R) -> R) PL PR ch (X Y N : vx R V) Pi s v v', (s = 0 \/ s = 1)%Z ->
  integral_like I -> sums X -> sums Y -> ch <> Cp ->
  (forall s, (s = 0 \/ s = 1)%Z -> PR * w_of Y s == w_of Y s /\ bare X s * PL == bare X s) ->
  let bs k s v v' := bubble_sbe PL PR I k ch s (mkArg X N true false) Pi (mkArg Y N false false) v v' in
  let bc k s v v' := bubble_conv I k ch s (mkArg (usual ch X) N true false) Pi (mkArg (usual ch Y) N false false) v v' in
  let lam := fun s v => with2 (fun s => bs k2 s v v') s in
  bc k1 s v v' == bs k1 s v v'
  /\ bc k2 s v v' == build_K2 ch lam (w_of Y) s v
  /\ bc k3 s v v' == bs k3 s v v' + build_K3 ch (build_K2 ch lam (w_of Y)) (K2b Y) s v v'.
Proof.
  intros I PL PR ch X Y N Pi s v v' Hs HI HX HY Hch HP. cbv zeta.
  destruct (C135_bubble_partial I PL PR ch true false X Y N Pi s v v' Hs HI HX HY) as (E1 & E2 & _ & E3).
  - intros t Ht. destruct (HP t Ht) as [P1 P2]. split; [exact P1|].
    unfold w_of, stripped; cbn [bare K1]. rewrite distl, mul0l, P2. reflexivity.
  - intro; contradiction.
  - refine (Logic.conj E1 (Logic.conj _ _)).
    + rewrite E2. unfold stripped at 1, build_K2, cK2; cbn [K2].
      destruct Hs as [-> | ->], ch; try contradiction; cbn [Z.eqb Pos.eqb stripped K2]; non_commutative_ring.
    + rewrite E3. unfold stripped, build_K3, build_K2, cK2, cK3; cbn [K2].
      destruct Hs as [-> | ->], ch; try contradiction; cbn [Z.eqb Pos.eqb K2]; non_commutative_ring.
Qed.
Print Assumptions C135_irreducible_left.

(** ** the projections of the Keldysh formalism *)
Theorem C135_projections :
  (forall c val, Sbe_Keld.m4eq (Sbe_Keld.m4mul (Sbe_Keld.projection_lambdaBar c) (Sbe_Keld.bare_matrix c val))
                               (Sbe_Keld.bare_matrix c val)
     /\ Sbe_Keld.m4eq (Sbe_Keld.m4mul (Sbe_Keld.bare_matrix c val) (Sbe_Keld.projection_lambda c))
                      (Sbe_Keld.bare_matrix c val))
  /\ (forall c, Sbe_Keld.m4eq (Sbe_Keld.projection_lambda c) (Sbe_Keld.projection_lambdaBar c)
     /\ Sbe_Keld.m4eq (Sbe_Keld.m4mul (Sbe_Keld.projection_lambda c) (Sbe_Keld.projection_lambda c))
                      (Sbe_Keld.projection_lambda c)).
Proof.
  split; [intros c val; split; [apply Sbe_Keld.proj_bare | apply Sbe_Keld.bare_proj]
         | intro c; split; [apply Sbe_Keld.projections_equal | apply Sbe_Keld.proj_idem]].
Qed.
Print Assumptions C135_projections.
(** what holds for the bare vertex is inherited by every K1 that a bubble produces *)
Theorem C135_projection_kept {R V : Type} `{Rr : Ring R} :
  forall (P PL PR : R) (I : (V -> R) -> R) ch s (X Y N : vx R V) Pi v v' irrL irrR,
  (s = 0 \/ s = 1)%Z -> integral_like I -> sums X -> sums Y ->
  (forall s, (s = 0 \/ s = 1)%Z -> P * w_of (stripped irrL X) s == w_of (stripped irrL X) s
                                /\ w_of (stripped irrR Y) s * P == w_of (stripped irrR Y) s) ->
  let K := bubble_sbe PL PR I k1 ch s (mkArg X N irrL false) Pi (mkArg Y N irrR false) v v' in
  P * K == K /\ K * P == K.
Proof.
  intros P PL PR I ch s X Y N Pi v v' irrL irrR Hs HI HX HY HP. cbv zeta. split.
  - apply kept_l; try assumption. intros t Ht. rewrite strip_w. apply HP; exact Ht.
  - apply kept_r; try assumption. intros t Ht. rewrite strip_w. apply HP; exact Ht.
Qed.
Print Assumptions C135_projection_kept.

(** ** symmetry_expand rebuilds the usual classes of every channel but that of the bubble *)
Theorem C135_rebuilt_channels {R V : Type} `{Rr : Ring R} :
  forall b f1 f2 f2b f3 (rst : Z -> V -> V -> R) chb full ch s v v', (s = 0 \/ s = 1 \/ s = 2)%Z ->
  (forall v v', sum2 (fun s => rst s v v')) ->
  let B := expand_impl b f1 f2 f2b f3 in
  let E := expand_nondiff chb full B in
  let X := vx_of B ch rst in
  sums X
  /\ bK1 E ch s = K1 X s /\ bbare E s = bare X s
  /\ (if negb full && chan_eqb chb ch
      then bK2 E ch s v == K2 X s v /\ bK2b E ch s v == K2b X s v /\ bK3 E ch s v v' == K3 X s v v'
      else bK2 E ch s v == K2 (usual ch X) s v /\ bK2b E ch s v == K2b (usual ch X) s v
           /\ bK3 E ch s v v' + bK3S E ch s v v' == K3 (usual ch X) s v v').
Proof.
  intros b f1 f2 f2b f3 rst chb full ch s v v' Hs Hr. cbv zeta.
  pose proof (expand_impl_sums b f1 f2 f2b f3 ch rst Hr) as HX.
  refine (Logic.conj HX (Logic.conj eq_refl (Logic.conj eq_refl _))).
  destruct full; cbn [negb andb].
  - apply expand_nondiff_channel; [exact Hs|]. unfold rebuilt. apply orb_true_r.
  - destruct (chan_eqb chb ch) eqn:Ech.
    + assert (Eq : chb = ch) by (destruct chb, ch; (reflexivity || discriminate Ech)). rewrite Eq.
      destruct (expand_nondiff_own ch (expand_impl b f1 f2 f2b f3) rst s v v' HX) as (_ & H2 & H2b & H3).
      refine (Logic.conj H2 (Logic.conj H2b _)). rewrite H3. reflexivity.
    + apply expand_nondiff_channel; [exact Hs|]. unfold rebuilt. rewrite Ech. reflexivity.
Qed.
Print Assumptions C135_rebuilt_channels.

(** the classes rebuilt for a differentiated vertex are the derivatives (component of eps in dual
    numbers) of the classes rebuilt for the undifferentiated one *)
Theorem C135_differentiated_rebuilding {R V : Type} `{Rr : Ring R} :
  forall chb full (D B : bufs R V) ch s v v', (s = 0 \/ s = 1 \/ s = 2)%Z ->
  let E := expand_diff chb full D B in
  let W := expand_nondiff chb full (dual_bufs B D) in
  d1 (bK1 W ch s) == bK1 (fst E) ch s
  /\ d1 (bK2 W ch s v) == bK2 (fst E) ch s v /\ d1 (bK2b W ch s v) == bK2b (fst E) ch s v
  /\ d1 (bK3 W ch s v v') == bK3 (fst E) ch s v v' /\ d1 (bK3S W ch s v v') == bK3S (fst E) ch s v v'
  /\ d0 (bK1 W ch s + bbare W s) == bK1 (snd E) ch s + bbare (snd E) s
  /\ d0 (bK2 W ch s v) == bK2 (snd E) ch s v /\ d0 (bK3S W ch s v v') == bK3S (snd E) ch s v v'.
Proof. intros. apply expand_diff_is_derivative; assumption. Qed.
Print Assumptions C135_differentiated_rebuilding.

(** ** the value of a rebuilt channel *)
Definition usual_value {R V : Type} `{Rr : Ring R} (ch : chan) (X : vx R V) (s : Z) (v v' : V) : R :=
  K1 (usual ch X) s + K2 (usual ch X) s v + K2b (usual ch X) s v' + K3 (usual ch X) s v v'.

Theorem C135_channel_value_partial {R V : Type} `{Rr : Ring R} :
  forall (B : bufs R V) chb ch rst s v v', (s = 0 \/ s = 1 \/ s = 2)%Z -> chb <> ch ->
  let E := expand_nondiff chb false B in
  let X := vx_of B ch rst in
  channel_value E ch s v v' + build_K3 ch (build_K2 ch (K2 X) (w_of X)) (K2b X) s v v' == usual_value ch X s v v'.
Proof.
  intros B chb ch rst s v v' Hs Hne. cbv zeta.
  assert (Hr : rebuilt chb false ch = true) by (destruct chb, ch; (reflexivity || contradiction)).
  destruct (expand_nondiff_channel chb false B ch rst s v v' Hs Hr) as (H2 & _ & H3).
  destruct (expand_nondiff_channel chb false B ch rst s v' v' Hs Hr) as (_ & H2b & _).
  unfold channel_value, valsmooth_k3_sbe, usual_value. rewrite H2, H2b.
  change (bK1 (expand_nondiff chb false B) ch s) with (K1 (usual ch (vx_of B ch rst)) s).
  change (bK3 (expand_nondiff chb false B) ch s v v') with (bK3 B ch s v v').
  change (K3 (usual ch (vx_of B ch rst)) s v v')
    with (bK3 B ch s v v' + build_K3 ch (build_K2 ch (K2 (vx_of B ch rst)) (w_of (vx_of B ch rst)))
                                     (K2b (vx_of B ch rst)) s v v').
  non_commutative_ring.
Qed.
Print Assumptions C135_channel_value_partial.

(** valsmooth_symmetry_expanded<k3_sbe> returns zero: with lambda = lambdabar = 1, K1 = 0 and the bare
    vertex 1, the a-channel contributes 2 instead of 3 to a bubble in the p channel *)
Definition wit : bufs Z unit := expand_impl 1%Z (fun _ _ => 0%Z) (fun _ _ _ => 1%Z) (fun _ _ _ => 1%Z) (fun _ _ _ _ => 0%Z).
Theorem C135_channel_value_refuted :
  ~ (forall (B : bufs Z unit) chb ch rst s v v', (s = 0 \/ s = 1 \/ s = 2)%Z -> chb <> ch ->
       channel_value (expand_nondiff chb false B) ch s v v' = usual_value ch (vx_of B ch rst) s v v').
Proof.
  intro H.
  specialize (H wit Cp Ca (fun _ _ _ => 0%Z) 0%Z tt tt (or_introl eq_refl)).
  assert (N : Cp <> Ca) by discriminate. specialize (H N). vm_compute in H. discriminate H.
Qed.
Print Assumptions C135_channel_value_refuted.

(** ** examples *)
(** two frequencies, numbers: all hypotheses of the bubble theorem in the p channel *)
Definition exI (f : bool -> Z) : Z := (f true + f false)%Z.
Definition exX : vx Z bool :=
  mkVx (fun s => if Z.eqb s 0 then 3 else if Z.eqb s 1 then -3 else 0)%Z
       (fun s => if Z.eqb s 0 then 2 else if Z.eqb s 1 then -2 else 0)%Z
       (fun (s : Z) (v : bool) => if Z.eqb s 2 then 8 else 4)%Z
       (fun (s : Z) (v : bool) => if Z.eqb s 2 then (if v then 10 else 12) else (if v then 5 else 6))%Z
       (fun (s : Z) (v u : bool) => if Z.eqb s 0 then (if u then 7 else 11) else if Z.eqb s 1 then (if u then -11 else -7)
                     else (if u then -4 else 4))%Z
       (fun (s : Z) (v u : bool) => if Z.eqb s 0 then (if v then 1 else 2) else if Z.eqb s 1 then (if v then -1 else -2) else 0)%Z.
Example C135_hyp :
  integral_like exI /\ sums exX
  /\ (forall s, (s = 0 \/ s = 1)%Z -> (1%Z * w_of (stripped false exX) s == w_of (stripped false exX) s)
                                  /\ w_of (stripped false exX) s * 1%Z == w_of (stripped false exX) s)
  /\ reflection_invariant exI negb /\ crossing_right_leg negb exX
  /\ (forall u, K2 exX 0%Z (negb u) == K2 exX 0%Z u) /\ w_of exX 1%Z == - w_of exX 0%Z
  /\ bubble_sbe 1%Z 1%Z exI k1 Cp 1%Z (mkArg exX exX false false) (fun _ => 1%Z) (mkArg exX exX false false) true true = (-1625)%Z
  /\ bubble_conv exI k2 Cp 1%Z (mkArg (usual Cp exX) exX false false) (fun _ => 1%Z)
                 (mkArg (usual Cp exX) exX false false) true true = (-7000)%Z.
Proof.
  refine (Logic.conj _ (Logic.conj _ (Logic.conj _ (Logic.conj _ (Logic.conj _ (Logic.conj _ (Logic.conj _
    (Logic.conj _ _)))))))).
  - unfold integral_like, exI. refine (Logic.conj _ (Logic.conj _ (Logic.conj _ _))).
    + intros f g H. change (forall u, f u = g u) in H. now rewrite !H.
    + intros. cbv beta delta [addition add_notation multiplication mul_notation equality eq_notation]. ring.
    + intros. cbv beta delta [addition add_notation multiplication mul_notation equality eq_notation]. ring.
    + intros. cbv beta delta [addition add_notation multiplication mul_notation equality eq_notation]. ring.
  - unfold sums, sum2, exX; cbn.
    refine (Logic.conj _ (Logic.conj _ (Logic.conj _ (Logic.conj _ (Logic.conj _ _))))); try reflexivity;
      try (intros v; destruct v; reflexivity); intros v v'; destruct v, v'; reflexivity.
  - intros s [-> | ->]; split; reflexivity.
  - intro f. unfold exI. cbv beta iota delta [negb equality eq_notation]. ring.
  - intros v u. destruct v, u; reflexivity.
  - reflexivity.
  - reflexivity.
  - vm_compute. reflexivity.
  - vm_compute. reflexivity.
Qed.

(** Keldysh matrices: the projections satisfy the hypothesis for w = bare vertex, and products of
    matrices do not commute *)
Definition keX (c : bool) : vx Sbe_Keld.m4 unit :=
  mkVx (fun s => if Z.eqb s 0 then Sbe_Keld.bare_matrix c (Cplx.Cofq (1 # 2))
                 else if Z.eqb s 1 then Sbe_Keld.m4opp (Sbe_Keld.bare_matrix c (Cplx.Cofq (1 # 2))) else Sbe_Keld.m4zero)
       (fun _ => Sbe_Keld.m4zero) (fun _ _ => Sbe_Keld.m4zero) (fun _ _ => Sbe_Keld.m4zero)
       (fun _ _ _ => Sbe_Keld.m4zero) (fun _ _ _ => Sbe_Keld.m4zero).
Example C135_hyp_keldysh : forall c,
  sums (keX c)
  /\ (forall s, (s = 0 \/ s = 1)%Z ->
        Sbe_Keld.projection_lambdaBar c * w_of (stripped false (keX c)) s == w_of (stripped false (keX c)) s
        /\ w_of (stripped false (keX c)) s * Sbe_Keld.projection_lambda c == w_of (stripped false (keX c)) s).
Proof.
  intro c. split.
  - unfold sums, sum2, keX; cbn [bare K1 K2 K2b K3 rest Z.eqb Pos.eqb].
    refine (Logic.conj _ (Logic.conj _ (Logic.conj _ (Logic.conj _ (Logic.conj _ _))))); intros;
      change Sbe_Keld.m4zero with (0 : Sbe_Keld.m4); non_commutative_ring.
  - intros s Hs.
    assert (E : w_of (stripped false (keX c)) s == bare (keX c) s).
    { unfold w_of, stripped, keX; cbn [bare K1]. change Sbe_Keld.m4zero with (0 : Sbe_Keld.m4). non_commutative_ring. }
    rewrite E. pose proof (Sbe_Keld.proj_bare c (Cplx.Cofq (1 # 2))) as P1.
    pose proof (Sbe_Keld.bare_proj c (Cplx.Cofq (1 # 2))) as P2.
    change (Sbe_Keld.projection_lambdaBar c * Sbe_Keld.bare_matrix c (Cplx.Cofq (1 # 2)) == Sbe_Keld.bare_matrix c (Cplx.Cofq (1 # 2))) in P1.
    change (Sbe_Keld.bare_matrix c (Cplx.Cofq (1 # 2)) * Sbe_Keld.projection_lambda c == Sbe_Keld.bare_matrix c (Cplx.Cofq (1 # 2))) in P2.
    destruct Hs as [-> | ->]; cbn [keX bare Z.eqb].
    + split; assumption.
    + set (b := Sbe_Keld.bare_matrix c (Cplx.Cofq (1 # 2))) in *.
      change (Sbe_Keld.m4opp b) with (- b : Sbe_Keld.m4). split.
      * transitivity (- (Sbe_Keld.projection_lambdaBar c * b)); [non_commutative_ring | rewrite P1; reflexivity].
      * transitivity (- (b * Sbe_Keld.projection_lambda c)); [non_commutative_ring | rewrite P2; reflexivity].
Qed.

(** a differentiated vertex: lambda = 2, w = 3, derivatives 5 and 7: (lambda w)' = 5*3 + 2*7 = 29 *)
Example C135_hyp_derivative :
  bK2 (fst (expand_diff Cp false
              (expand_impl 0%Z (fun _ _ => 7%Z) (fun _ _ (_ : unit) => 5%Z) (fun _ _ _ => 0%Z) (fun _ _ _ _ => 0%Z))
              (expand_impl 1%Z (fun _ _ => 2%Z) (fun _ _ (_ : unit) => 2%Z) (fun _ _ _ => 0%Z) (fun _ _ _ _ => 0%Z))))
      Ca 0%Z tt = 29%Z.
Proof. vm_compute. reflexivity. Qed.
