(** * A bubble of rebuilt vertices against the bubble in single-boson exchange form *)
From Coq Require Import ZArith Bool List Lia.
From Verif Require Import Tab_Model Sbe_Model Sbe_Spec Sbe_Proofs.
From Coq Require Import Ncring Ncring_tac.
Import ListNotations.

Section P.
Context {R : Type} `{Rr : Ring R}.
Context {V : Type}.


(** ** a vertex without the channel of the bubble is a vertex with vanishing classes *)
Lemma conv_ext ch s l l' (Pi : R) r r' : (forall s, l s == l' s) -> (forall s, r s == r' s) ->
  sum_internal_conv ch s l Pi r == sum_internal_conv ch s l' Pi r'.
Proof.
  intros Hl Hr. unfold sum_internal_conv. destruct (paired ch s), (crossed ch s); rewrite ?Hl, ?Hr; reflexivity.
Qed.
Lemma sbe_ext PL PR k ch s wl wl' l l' (Pi : R) r r' wr wr' :
  (forall s, wl s == wl' s) -> (forall s, l s == l' s) -> (forall s, r s == r' s) -> (forall s, wr s == wr' s) ->
  sum_internal_sbe PL PR k ch s wl l Pi r wr == sum_internal_sbe PL PR k ch s wl' l' Pi r' wr'.
Proof.
  intros Hwl Hl Hr Hwr. unfold sum_internal_sbe. destruct (paired ch s), (crossed ch s), k; cbn [project];
    rewrite ?Hwl, ?Hl, ?Hr, ?Hwr; reflexivity.
Qed.
Lemma strip_l_conv k ch (X N : vx R V) irr v u s :
  load_l false k ch (mkArg (usual ch X) N irr false) v u s
  == load_l false k ch (mkArg (usual ch (stripped irr X)) N false false) v u s.
Proof.
  destruct irr; [|reflexivity].
  destruct k; unfold load_l, left_same, left_diff, usual, stripped, w_of, build_K2, build_K2b, build_K3, cK2, cK2b, cK3;
    cbn [vX vIrr vDif bare K1 K2 K2b K3 rest]; destruct ch, (Z.eqb s 0), (Z.eqb s 1); non_commutative_ring.
Qed.
Lemma strip_r_conv k ch (X N : vx R V) irr v u s :
  load_r false k ch (mkArg (usual ch X) N irr false) v u s
  == load_r false k ch (mkArg (usual ch (stripped irr X)) N false false) v u s.
Proof.
  destruct irr; [|reflexivity].
  destruct k; unfold load_r, right_same, right_diff, usual, stripped, w_of, build_K2, build_K2b, build_K3, cK2, cK2b, cK3;
    cbn [vX vIrr vDif bare K1 K2 K2b K3 rest]; destruct ch, (Z.eqb s 0), (Z.eqb s 1); non_commutative_ring.
Qed.
Lemma strip_l_sbe k ch (X N : vx R V) irr v u s :
  load_l true k ch (mkArg X N irr false) v u s == load_l true k ch (mkArg (stripped irr X) N false false) v u s.
Proof.
  destruct irr; [|reflexivity].
  destruct k; unfold load_l, left_same, left_diff, stripped; cbn [vX vIrr vDif bare K1 K2 K2b K3 rest];
    try reflexivity; non_commutative_ring.
Qed.
Lemma strip_r_sbe k ch (X N : vx R V) irr v u s :
  load_r true k ch (mkArg X N irr false) v u s == load_r true k ch (mkArg (stripped irr X) N false false) v u s.
Proof.
  destruct irr; [|reflexivity].
  destruct k; unfold load_r, right_same, right_diff, stripped; cbn [vX vIrr vDif bare K1 K2 K2b K3 rest];
    try reflexivity; non_commutative_ring.
Qed.
Lemma strip_w (X N : vx R V) irr s : wv (mkArg X N irr false) s == wv (mkArg (stripped irr X) N false false) s.
Proof. destruct irr; cbn; [non_commutative_ring | reflexivity]. Qed.
Lemma strip_sums (X : vx R V) irr : sums X -> sums (stripped irr X).
Proof.
  destruct irr; [|trivial]. intros (Hb & H1 & H2 & H2b & H3 & Hr).
  unfold sums, sum2, stripped; cbn [bare K1 K2 K2b K3 rest].
  refine (Logic.conj Hb (Logic.conj _ (Logic.conj _ (Logic.conj _ (Logic.conj _ Hr)))));
    intros; non_commutative_ring.
Qed.

Section Bub.
Variable I : (V -> R) -> R.
Hypothesis HI : integral_like I.

Lemma strip_bc k ch s irrL irrR (X Y N : vx R V) Pi v v' :
  bubble_conv I k ch s (mkArg (usual ch X) N irrL false) Pi (mkArg (usual ch Y) N irrR false) v v'
  == bubble_conv I k ch s (mkArg (usual ch (stripped irrL X)) N false false) Pi
                          (mkArg (usual ch (stripped irrR Y)) N false false) v v'.
Proof.
  apply (I_ext I HI). intro u. apply conv_ext; intro; [apply strip_l_conv | apply strip_r_conv].
Qed.
Lemma strip_bs PL PR k ch s irrL irrR (X Y N : vx R V) Pi v v' :
  bubble_sbe PL PR I k ch s (mkArg X N irrL false) Pi (mkArg Y N irrR false) v v'
  == bubble_sbe PL PR I k ch s (mkArg (stripped irrL X) N false false) Pi
                               (mkArg (stripped irrR Y) N false false) v v'.
Proof.
  apply (I_ext I HI). intro u.
  apply sbe_ext; intro; [apply strip_w | apply strip_l_sbe | apply strip_r_sbe | apply strip_w].
Qed.

Variables (PL PR : R) (ch : chan) (X Y N : vx R V) (Pi : V -> R).
Hypothesis HX : sums X.
Hypothesis HY : sums Y.
Hypothesis HPR : forall s, (s = 0 \/ s = 1)%Z -> PR * w_of Y s == w_of Y s.
Hypothesis HPL : forall s, (s = 0 \/ s = 1)%Z -> w_of X s * PL == w_of X s.

Let bs k s v v' := bubble_sbe PL PR I k ch s (mkArg X N false false) Pi (mkArg Y N false false) v v'.
Let bc k s v v' := bubble_conv I k ch s (mkArg (usual ch X) N false false) Pi
                                        (mkArg (usual ch Y) N false false) v v'.

Lemma w2 (Z : vx R V) : sums Z -> w_of Z 2%Z == w_of Z 0%Z + w_of Z 1%Z.
Proof. intros (Hb & H1 & _). unfold w_of, sum2 in *. rewrite Hb, H1. non_commutative_ring. Qed.
Lemma wz (Z : vx R V) s z : bare Z s + (K1 Z s + z) == w_of Z s + z.
Proof. unfold w_of. non_commutative_ring. Qed.

Lemma HPR2 s : (s = 0 \/ s = 1 \/ s = 2)%Z -> PR * w_of Y s == w_of Y s.
Proof.
  intros [-> | [-> | ->]]; [apply HPR; auto | apply HPR; auto |].
  rewrite (w2 Y HY), distr, !HPR by auto. reflexivity.
Qed.
Lemma HPL2 s : (s = 0 \/ s = 1 \/ s = 2)%Z -> w_of X s * PL == w_of X s.
Proof.
  intros [-> | [-> | ->]]; [apply HPL; auto | apply HPL; auto |].
  rewrite (w2 X HX), distl, !HPL by auto. reflexivity.
Qed.

Ltac sumrw :=
  pose proof (w2 X HX) as ?Hw; pose proof (w2 Y HY) as ?Hw;
  destruct HX as (_ & _ & ?H2 & ?H2b & ?H3 & ?Hr);
  destruct HY as (_ & _ & ?H2 & ?H2b & ?H3 & ?Hr); unfold sum2 in *.

(** the integrand without projections *)
Let G k s v v' u := sum_internal_sbe 1 1 k ch s (wv (mkArg X N false false))
  (load_l true k ch (mkArg X N false false) v u) (Pi u)
  (load_r true k ch (mkArg Y N false false) u v') (wv (mkArg Y N false false)).
Lemma bs_k1 s v v' : bs k1 s v v' == I (G k1 s v v').
Proof. apply (I_ext I HI). intro u. unfold G, sum_internal_sbe. destruct (paired ch s), (crossed ch s); reflexivity. Qed.
Lemma bs_k3 s v v' : bs k3 s v v' == I (G k3 s v v').
Proof. apply (I_ext I HI). intro u. unfold G, sum_internal_sbe. destruct (paired ch s), (crossed ch s); reflexivity. Qed.
Lemma bs_k2 s v v' s' : (s' = 0 \/ s' = 1 \/ s' = 2)%Z ->
  bs k2 s v v' * w_of Y s' == I (G k2 s v v') * w_of Y s'.
Proof.
  intro H. rewrite <- (I_proj_r I HI PR (w_of Y s') (G k2 s v v')) by (apply HPR2; exact H).
  unfold bs, bubble_sbe.
  rewrite !(I_mr I HI). apply (I_ext I HI). intro u. unfold G, sum_internal_sbe.
  destruct (paired ch s), (crossed ch s); cbn [project]; non_commutative_ring.
Qed.
Lemma bs_k2b s v v' s' : (s' = 0 \/ s' = 1 \/ s' = 2)%Z ->
  w_of X s' * bs k2b s v v' == w_of X s' * I (G k2b s v v').
Proof.
  intro H. rewrite <- (I_proj_l I HI PL (w_of X s') (G k2b s v v')) by (apply HPL2; exact H).
  unfold bs, bubble_sbe.
  rewrite !(I_ml I HI). apply (I_ext I HI). intro u. unfold G, sum_internal_sbe.
  destruct (paired ch s), (crossed ch s); cbn [project]; non_commutative_ring.
Qed.

Ltac pushI :=
  repeat first [ rewrite (I_ml I HI) | rewrite (I_mr I HI) | rewrite (I_opp I HI)
               | rewrite (I_add I HI) ].

Ltac unf :=
  unfold G, sum_internal_conv, sum_internal_sbe,
    load_l, load_r, wv, w_value, left_same, right_same, left_diff, right_diff, one_added, project,
    usual, build_K2, build_K2b, build_K3, cK2, cK2b, cK3;
  change (1 - 1)%Z with 0%Z;
  cbn [paired crossed chan_eqb vX vN vIrr vDif bare K1 K2 K2b K3 rest Z.eqb Pos.eqb andb orb negb Z.sub
       Z.add Z.opp Z.pos_sub Pos.add];
  fold (w_of X 0%Z) (w_of X 1%Z) (w_of X 2%Z) (w_of Y 0%Z) (w_of Y 1%Z) (w_of Y 2%Z).

Ltac finish :=
  apply (I_ext I HI); intro; unfold G; try match goal with E : ch = _ |- _ => rewrite !E end;
  unf; rewrite ?wz;
  repeat match goal with
  | H : w_of ?a 2%Z == _ |- context [w_of ?a 2%Z] => rewrite H
  | H : forall v, K2 ?x 2%Z v == _ |- context [K2 ?x 2%Z ?v] => rewrite (H v)
  | H : forall v, K2b ?x 2%Z v == _ |- context [K2b ?x 2%Z ?v] => rewrite (H v)
  | H : forall v v', K3 ?x 2%Z v v' == _ |- context [K3 ?x 2%Z ?v ?v'] => rewrite (H v v')
  | H : forall v v', rest ?x 2%Z v v' == _ |- context [rest ?x 2%Z ?v ?v'] => rewrite (H v v')
  end; non_commutative_ring.

Lemma chcases : ch = Ca \/ ch = Cp \/ ch = Ct. Proof. destruct ch; auto. Qed.

Lemma k1_agree0 s v v' : (s = 0%Z \/ s = 1%Z) -> bc k1 s v v' == bs k1 s v v'.
Proof.
  intro Hs. rewrite bs_k1. clear HPR HPL. sumrw.
  destruct Hs as [-> | ->]; destruct ch; unfold bc, bubble_conv; finish.
Qed.

Let lam s v v' := with2 (fun s => bs k2 s v v') s.
Let lamb s v v' := with2 (fun s => bs k2b s v v') s.
Let w1 s v v' := with2 (fun s => bs k1 s v v') s.

Ltac outer :=
  unfold lam, lamb, w1, with2, build_K2, build_K2b, build_K3, cK2, cK2b, cK3;
  cbn [Z.eqb Pos.eqb].

Lemma k2_agree0 s v v' : (s = 0%Z \/ s = 1%Z) -> crossed ch s = false ->
  bc k2 s v v' == build_K2 ch (K2 X) (fun s => w1 s v v') s v
                  + build_K2 ch (fun s v => lam s v v') (w_of Y) s v.
Proof.
  intros Hs Hc.
  destruct Hs as [-> | ->]; destruct chcases as [Ech | [Ech | Ech]]; rewrite ?Ech in Hc |- *;
    try discriminate Hc; clear Hc; outer;
    rewrite ?distl, ?distr, ?bs_k2, ?bs_k1 by auto; pushI; clear HPR HPL; sumrw;
    unfold bc, bubble_conv; finish.
Qed.

Lemma k2b_agree0 s v v' : (s = 0%Z \/ s = 1%Z) ->
  bc k2b s v v' == build_K2b ch (K2b Y) (fun s => w1 s v v') s v'
                   + build_K2b ch (fun s v' => lamb s v v') (w_of X) s v'.
Proof.
  intros Hs.
  destruct Hs as [-> | ->]; destruct chcases as [Ech | [Ech | Ech]]; rewrite ?Ech; outer;
    rewrite ?distl, ?distr, ?bs_k2b, ?bs_k1 by auto; pushI; clear HPR HPL; sumrw;
    unfold bc, bubble_conv; finish.
Qed.

Lemma k3_agree0 s v v' : (s = 0%Z \/ s = 1%Z) -> crossed ch s = false ->
  bc k3 s v v' == bs k3 s v v'
    + build_K3 ch (build_K2 ch (K2 X) (fun s => w1 s v v')) (K2b Y) s v v'
    + build_K3 ch (build_K2 ch (fun s v => lam s v v') (w_of Y)) (K2b Y) s v v'
    + build_K3 ch (build_K2 ch (K2 X) (w_of X)) (fun s v' => lamb s v v') s v v'.
Proof.
  intros Hs Hc.
  destruct Hs as [-> | ->]; destruct chcases as [Ech | [Ech | Ech]]; rewrite ?Ech in Hc |- *;
    try discriminate Hc; clear Hc; outer;
    rewrite ?distl, ?distr, <- ?ring_mul_assoc, ?bs_k2b by auto;
    rewrite ?ring_mul_assoc, ?bs_k2, ?bs_k1, ?bs_k3 by auto;
    pushI; clear HPR HPL; sumrw; unfold bc, bubble_conv; finish.
Qed.

End Bub.
End P.
