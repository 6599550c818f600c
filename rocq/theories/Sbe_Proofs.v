(** * Proofs about the single-boson exchange decomposition *)
From Coq Require Import ZArith Bool List Lia.
From Verif Require Import Tab_Model Sbe_Model Sbe_Spec.
From Coq Require Import Ncring Ncring_tac.
Import ListNotations.

Section P.
Context {R : Type} `{Rr : Ring R}.
Context {V : Type}.

Lemma mul0l (a : R) : 0 * a == 0. Proof. non_commutative_ring. Qed.
Lemma mul0r (a : R) : a * 0 == 0. Proof. non_commutative_ring. Qed.
Lemma distl (a b c : R) : (a + b) * c == a * c + b * c. Proof. non_commutative_ring. Qed.
Lemma distr (a b c : R) : a * (b + c) == a * b + a * c. Proof. non_commutative_ring. Qed.

(** ** the three implementations of the integrand agree *)
Lemma spin_vectorized_sbe k ch s (wl l : Z -> R) Pi r wr :
  (s = 0%Z \/ s = 1%Z) ->
  spin_vectorized true k ch s wl l Pi r wr == sum_internal_sbe 1 1 k ch s wl l Pi r wr.
Proof.
  intros [-> | ->]; destruct ch, k; cbn; non_commutative_ring.
Qed.
Lemma spin_vectorized_conv k ch s (wl l : Z -> R) Pi r wr :
  (s = 0%Z \/ s = 1%Z) ->
  spin_vectorized false k ch s wl l Pi r wr == sum_internal_conv ch s l Pi r.
Proof.
  intros [-> | ->]; destruct ch, k; cbn; non_commutative_ring.
Qed.
Lemma tail_is_sbe k ch s (wl l : Z -> R) Pi r wr :
  (s = 0%Z \/ s = 1%Z) ->
  (ch <> Cp -> sum2 wl /\ sum2 l /\ sum2 r /\ sum2 wr) ->
  tail_sbe k ch s wl l Pi r wr == sum_internal_sbe 1 1 k ch s wl l Pi r wr.
Proof.
  unfold sum2; intros Hs H; destruct ch.
  2: destruct Hs as [-> | ->], k; cbn; non_commutative_ring.
  all: destruct H as (Hwl & Hl & Hr & Hwr); [discriminate|].
  all: destruct Hs as [-> | ->], k; cbn; rewrite ?Hwl, ?Hl, ?Hr, ?Hwr; non_commutative_ring.
Qed.

(** the loaded values have the spin-sum property, including the added identity *)
Lemma load_l_sum2 k ch (X N : vx R V) irr v u :
  ch <> Cp -> sums X -> sum2 (load_l true k ch (mkArg X N irr false) v u).
Proof.
  intros Hch (Hb & H1 & H2 & H2b & H3 & Hr). unfold sum2 in *.
  destruct k; cbn [load_l vIrr vDif vX left_same left_diff]; unfold left_same, left_diff, one_added;
    destruct irr, ch; try congruence; cbn; rewrite ?(H2b u), ?(H3 v u), ?(Hr v u); non_commutative_ring.
Qed.
Lemma load_r_sum2 k ch (X N : vx R V) irr u v' :
  ch <> Cp -> sums X -> sum2 (load_r true k ch (mkArg X N irr false) u v').
Proof.
  intros Hch (Hb & H1 & H2 & H2b & H3 & Hr). unfold sum2 in *.
  destruct k; cbn [load_r vIrr vDif vX]; unfold right_same, right_diff, one_added;
    destruct irr, ch; try congruence; cbn; rewrite ?(H2 u), ?(H3 u v'), ?(Hr u v'); non_commutative_ring.
Qed.
Lemma wv_sum2 (X N : vx R V) irr : sums X -> sum2 (wv (mkArg X N irr false)).
Proof.
  intros (Hb & H1 & _). unfold sum2 in *. destruct irr; cbn; rewrite ?Hb, ?H1; non_commutative_ring.
Qed.

(** ** moving everything under the integral *)
Section Int.
Variable I : (V -> R) -> R.
Hypothesis HI : integral_like I.
Lemma I_ext f g : (forall u, f u == g u) -> I f == I g. Proof. apply HI. Qed.
Lemma I_add f g : I f + I g == I (fun u => f u + g u).
Proof. destruct HI as (_ & H & _). symmetry. apply H. Qed.
Lemma I_ml a f : a * I f == I (fun u => a * f u).
Proof. destruct HI as (_ & _ & H & _). symmetry. apply H. Qed.
Lemma I_mr a f : I f * a == I (fun u => f u * a).
Proof. destruct HI as (_ & _ & _ & H). symmetry. apply H. Qed.
Lemma I_opp f : - I f == I (fun u => - f u).
Proof.
  transitivity ((- (1)) * I f); [non_commutative_ring|]. rewrite I_ml. apply I_ext. intro u. non_commutative_ring.
Qed.
(** projections disappear next to what they leave unchanged *)
Lemma I_proj_r P w f : P * w == w -> I (fun u => f u * P) * w == I f * w.
Proof.
  intro H. rewrite !I_mr. apply I_ext. intro u. rewrite <- ring_mul_assoc, H. reflexivity.
Qed.
Lemma I_proj_l P w f : w * P == w -> w * I (fun u => P * f u) == w * I f.
Proof.
  intro H. rewrite !I_ml. apply I_ext. intro u. rewrite ring_mul_assoc, H. reflexivity.
Qed.

End Int.

End P.

