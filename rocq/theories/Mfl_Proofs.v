(** Propagators and loops at imaginary frequencies keep the symmetries. *)
From Coq Require Import QArith Lqa.
From Verif Require Import Prelude Cplx Keld_Model Sym_Model Sym_Spec Tab_Model Tab_Spec Rd_Model Dec_Model Bub_Model Bub_Proofs Sf_Model Lop_Model Mfl_Model Mfl_Spec.
From Verif Require Mlp_Model Fl_Proofs Fl_Proofs2.
Open Scope Z_scope.

(** values at a frequency and at the reversed one: odd and even *)
Definition odd2 (ph : bool) (a a' : cplx) : Prop := if ph then (im a == 0)%Q /\ (a' == - a)%C else (a' == Cconj a)%C.
Definition even2 (ph : bool) (a a' : cplx) : Prop := if ph then (im a == 0)%Q /\ (a' == a)%C else (a' == Cconj a)%C.
Global Instance im_proper : Proper (Ceq ==> Qeq) im. Proof. intros x y E. apply E. Qed.
Lemma im_mul a b : (im a == 0)%Q -> (im b == 0)%Q -> (im (a * b)%C == 0)%Q.
Proof. intros A B. unfold Cmul; cbn [im]. rewrite A, B. ring. Qed.
Lemma im_inv a : (im a == 0)%Q -> (im (Cinv a) == 0)%Q.
Proof. intros A. unfold Cinv; cbn [im]. rewrite A. unfold Qdiv. ring. Qed.
Lemma odd_odd ph a a' b b' : odd2 ph a a' -> odd2 ph b b' -> even2 ph (a * b) (a' * b').
Proof.
  destruct ph; cbn [odd2 even2]; [intros (A & A') (B & B')|intros A' B']; rewrite A', B'; [split; [apply im_mul; assumption|ring]|symmetry; apply conj_mul].
Qed.
Lemma odd_even ph a a' b b' : odd2 ph a a' -> even2 ph b b' -> odd2 ph (a * b) (a' * b').
Proof.
  destruct ph; cbn [odd2 even2]; [intros (A & A') (B & B')|intros A' B']; rewrite A', B'; [split; [apply im_mul; assumption|ring]|symmetry; apply conj_mul].
Qed.
Lemma even_odd ph a a' b b' : even2 ph a a' -> odd2 ph b b' -> odd2 ph (a * b) (a' * b').
Proof.
  destruct ph; cbn [odd2 even2]; [intros (A & A') (B & B')|intros A' B']; rewrite A', B'; [split; [apply im_mul; assumption|ring]|symmetry; apply conj_mul].
Qed.
Lemma odd_inv ph a a' : odd2 ph a a' -> odd2 ph (Cinv a) (Cinv a').
Proof.
  destruct ph; cbn [odd2]; [intros (A & A')|intros A']; rewrite A'; [split; [apply im_inv, A|apply Fl_Proofs2.inv_neg]|symmetry; apply Fl_Proofs2.conj_inv].
Qed.
Lemma odd_add ph a a' b b' : odd2 ph a a' -> odd2 ph b b' -> odd2 ph (a + b) (a' + b').
Proof.
  destruct ph; cbn [odd2]; [intros (A & A') (B & B')|intros A' B']; rewrite A', B'; [split; [unfold Cadd; cbn [im]; rewrite A, B; ring|ring]|symmetry; apply conj_add].
Qed.
Lemma odd_neg ph a a' : odd2 ph a a' -> odd2 ph (- a) (- a').
Proof.
  destruct ph; cbn [odd2]; [intros (A & A')|intros A']; rewrite A'; [split; [unfold Cneg; cbn [im]; rewrite A; ring|ring]|symmetry; apply conj_neg].
Qed.
Lemma odd_ext ph a a' b b' : (a == b)%C -> (a' == b')%C -> odd2 ph a a' -> odd2 ph b b'.
Proof. intros E E'. destruct ph; cbn [odd2]; rewrite <- E, <- E'; auto. Qed.
Lemma odd_sub ph a a' b b' : odd2 ph a a' -> odd2 ph b b' -> odd2 ph (a - b) (a' - b').
Proof. intros A B. eapply odd_ext; [| |exact (odd_add _ _ _ _ _ A (odd_neg _ _ _ B))]; ring. Qed.
Lemma even_real ph q q' : (q' == q)%Q -> even2 ph (Cofq q) (Cofq q').
Proof. intros E. destruct ph; cbn [even2]; [split; [reflexivity|]|]; split; unfold Cofq, Cconj; cbn [re im]; rewrite ?E; ring. Qed.
Lemma odd_zero ph : odd2 ph C0 C0. Proof. destruct ph; [split|]; try split; unfold C0, Cneg, Cconj; cbn [re im]; ring. Qed.
Lemma even_inv ph a a' : even2 ph a a' -> even2 ph (Cinv a) (Cinv a').
Proof.
  destruct ph; cbn [even2]; [intros (A & A')|intros A']; rewrite A'; [split; [apply im_inv, A|reflexivity]|symmetry; apply Fl_Proofs2.conj_inv].
Qed.

Lemma sign_m x y : (x == y)%Q -> (sign x == sign y)%Q.
Proof.
  intros E. unfold sign. destruct (Qlt_le_dec 0 x), (Qlt_le_dec 0 y), (Qlt_le_dec x 0), (Qlt_le_dec y 0); try reflexivity; exfalso; lra.
Qed.
Lemma sign_opp x : (sign (- x) == - sign x)%Q.
Proof.
  unfold sign. destruct (Qlt_le_dec 0 x), (Qlt_le_dec 0 (- x)), (Qlt_le_dec x 0), (Qlt_le_dec (- x) 0); try reflexivity; exfalso; lra.
Qed.
Global Instance sign_proper : Proper (Qeq ==> Qeq) sign. Proof. exact sign_m. Qed.
Global Instance Cofq_proper : Proper (Qeq ==> Ceq) Cofq. Proof. intros x y E. split; unfold Cofq; cbn [re im]; [exact E|reflexivity]. Qed.

Section Propagators.
  Variables (D : Q -> Prop) (p : mparams).
  Lemma conjugated_iff g : conjugated D (ph p) g <-> (forall x y, D x -> (x == y)%Q -> (g x == g y)%C) /\ forall v, D v -> odd2 (ph p) (g v) (g (- v)%Q).
  Proof. reflexivity. Qed.
  (** the odd real quantities multiply the imaginary unit unless only imaginary parts are kept *)
  Lemma odd_unit q q' : (q' == - q)%Q -> odd2 (ph p) (if ph p then Cofq q else (Ci * Cofq q)%C) (if ph p then Cofq q' else (Ci * Cofq q')%C).
  Proof. intros E. destruct (ph p); cbn [odd2]; [split; [reflexivity|]|]; split; unfold Cofq, Ci, Cmul, Cneg, Cconj; cbn [re im]; rewrite ?E; ring. Qed.
  Lemma G0_odd v : odd2 (ph p) (G0M_inv p v) (G0M_inv p (- v)).
  Proof.
    pose proof (odd_unit (v * unit p + gam p * (1 # 2) * sign v) (- v * unit p + gam p * (1 # 2) * sign (- v))) as H.
    assert (E : (- v * unit p + gam p * (1 # 2) * sign (- v) == - (v * unit p + gam p * (1 # 2) * sign v))%Q) by (rewrite sign_opp; ring).
    specialize (H E). unfold G0M_inv. destruct (ph p); [exact H|]. cbn [odd2] in *.
    revert H. generalize (v * unit p + gam p * (1 # 2) * sign v)%Q (- v * unit p + gam p * (1 # 2) * sign (- v))%Q. intros q q' (H1 & H2).
    split; unfold Csub, Cadd, Cneg, Cconj, Cofq, Ci, Cmul in *; cbn [re im] in *; lra.
  Qed.
  Lemma G0_m x y : (x == y)%Q -> (G0M_inv p x == G0M_inv p y)%C.
  Proof. intros E. unfold G0M_inv. destruct (ph p); rewrite E; reflexivity. Qed.
  Variable S : mself.
  Hypothesis HS : conjugated D (ph p) S.
  Lemma G_ok : conjugated D (ph p) (GM p S).
  Proof.
    destruct HS as (A & B). apply conjugated_iff. split.
    - intros x y Dx E. pose proof (A x y Dx E) as E1. pose proof (G0_m x y E) as E2. unfold GM.
      destruct (reg p =? 2); [destruct (ph p)|destruct (reg p =? 3); [|destruct (reg p =? 4)]]; rewrite ?E1, ?E2; try rewrite E; reflexivity.
    - intros v Dv. pose proof (B v Dv) as O. fold (odd2 (ph p) (S v) (S (- v)%Q)) in O. pose proof (G0_odd v) as O0. unfold GM.
      destruct (reg p =? 2); [|destruct (reg p =? 3); [|destruct (reg p =? 4); [|apply odd_zero]]].
      + pose proof (odd_unit (lam p * (1 # 2) * sign v) (lam p * (1 # 2) * sign (- v))) as H.
        assert (E : (lam p * (1 # 2) * sign (- v) == - (lam p * (1 # 2) * sign v))%Q) by (rewrite sign_opp; ring). specialize (H E).
        destruct (ph p); unfold Cdiv; apply even_odd; try (apply (even_real _ 1 1); reflexivity); apply odd_inv, odd_sub; try exact O; apply odd_add; assumption.
      + unfold Cdiv. apply even_odd; [apply (even_real _ 1 1); reflexivity|]. apply odd_inv, odd_sub; [|exact O]. apply odd_even; [exact O0|].
        apply even_inv, even_real. assert (E : (- v * - v == v * v)%Q) by ring. rewrite E. reflexivity.
      + unfold Cdiv. apply even_odd; [apply even_real; reflexivity|]. apply odd_inv, odd_sub; [exact O0|]. apply even_odd; [apply even_real; reflexivity|exact O].
  Qed.
  Lemma S_ok : conjugated D (ph p) (SM p S).
  Proof.
    destruct HS as (A & B), G_ok as (A' & B'). apply conjugated_iff. split.
    - intros x y Dx E. pose proof (A x y Dx E) as E1. pose proof (G0_m x y E) as E2. pose proof (A' x y Dx E) as E3. unfold SM.
      destruct (reg p =? 2); [destruct (ph p)|destruct (reg p =? 3); [|destruct (reg p =? 4)]]; cbv zeta; rewrite ?E1, ?E2, ?E3; try rewrite E; reflexivity.
    - intros v Dv. pose proof (B v Dv) as O. fold (odd2 (ph p) (S v) (S (- v)%Q)) in O. pose proof (G0_odd v) as O0.
      pose proof (B' v Dv) as OG. fold (odd2 (ph p) (GM p S v) (GM p S (- v)%Q)) in OG. unfold SM.
      destruct (reg p =? 2); [|destruct (reg p =? 3); [|destruct (reg p =? 4); [|apply odd_zero]]].
      + pose proof (odd_unit (sign v) (sign (- v)) (sign_opp v)) as H.
        pose proof (odd_even _ _ _ _ _ H (odd_odd _ _ _ _ _ OG OG)) as K.
        pose proof (even_odd _ _ _ _ _ (even_real (ph p) (- (1 # 2)) (- (1 # 2)) (Qeq_refl _)) K) as F.
        destruct (ph p); (eapply odd_ext; [| |exact F]); ring.
      + assert (E : (- (2) * lam p / (- v * - v) == - (2) * lam p / (v * v))%Q) by (assert (E : (- v * - v == v * v)%Q) by ring; rewrite E; reflexivity).
        pose proof (even_odd _ _ _ _ _ (even_real (ph p) _ _ E) (odd_even _ _ _ _ _ OG (odd_odd _ _ _ _ _ O0 OG))) as F.
        eapply odd_ext; [| |exact F]; ring.
      + cbv zeta.
        assert (OI : odd2 (ph p) (C1 / (G0M_inv p v - Cofq (lam p) * S v)) (C1 / (G0M_inv p (- v) - Cofq (lam p) * S (- v)%Q))).
        { unfold Cdiv. apply even_odd; [apply (even_real _ 1 1); reflexivity|]. apply odd_inv, odd_sub; [exact O0|]. apply even_odd; [apply even_real; reflexivity|exact O]. }
        pose proof (odd_even _ _ _ _ _ O0 (odd_odd _ _ _ _ _ OI OI)) as F. eapply odd_ext; [| |exact F]; ring.
  Qed.
  Variable dS : mself.
  Hypothesis HdS : conjugated D (ph p) dS.
  Lemma e_ok : conjugated D (ph p) (prop_e p S dS).
  Proof.
    destruct HdS as (A & B), G_ok as (A' & B'). apply conjugated_iff. split.
    - intros x y Dx E. unfold prop_e. rewrite (A x y Dx E), (A' x y Dx E). reflexivity.
    - intros v Dv. pose proof (B v Dv) as O. pose proof (B' v Dv) as OG. fold (odd2 (ph p) (dS v) (dS (- v)%Q)) in O. fold (odd2 (ph p) (GM p S v) (GM p S (- v)%Q)) in OG.
      pose proof (odd_even _ _ _ _ _ OG (odd_odd _ _ _ _ _ O OG)) as F. eapply odd_ext; [| |exact F]; unfold prop_e; ring.
  Qed.
  Lemma k_ok : conjugated D (ph p) (prop_k p S dS).
  Proof.
    destruct S_ok as (A & B), e_ok as (A' & B'). apply conjugated_iff. split.
    - intros x y Dx E. specialize (A x y Dx E). specialize (A' x y Dx E). unfold prop_e in A'. unfold prop_k. rewrite A, A'. reflexivity.
    - intros v Dv. exact (odd_add _ _ _ _ _ (B v Dv) (B' v Dv)).
  Qed.
End Propagators.

(** ** loops; [V]: a vertex that is conjugated when its frequencies are reversed *)
Record vertex_conjugated (D : Q -> Prop) (ph : bool) (ch : chan) (V : vertexfn) : Prop := {
  vc_m : forall s x y x' y', s = 0 \/ s = 1 -> D x -> D y -> (x == x')%Q -> (y == y')%Q -> (V ch s 0 x y == V ch s 0 x' y')%C;
  vc_conj : forall s x y, s = 0 \/ s = 1 -> D x -> D y -> (V ch s 0 (- x)%Q (- y)%Q == Cconj (V ch s 0 x y))%C;
  vc_real : ph = true -> forall s x y, s = 0 \/ s = 1 -> D x -> D y -> (im (V ch s 0%Z x y) == 0)%Q }.
Section Loop.
  Variables (D : Q -> Prop) (ph version all_spins : bool) (V : vertexfn) (g : Q -> cplx) (Jl : Q -> (Q -> cplx) -> cplx).
  Hypothesis HV : vertex_conjugated D ph (pick_channel version) V.
  Hypothesis Hg : conjugated D ph g.
  Hypothesis HJ : loop_integral D Jl.
  Lemma real_conj z : (im z == 0)%Q -> (Cconj z == z)%C. Proof. intros E. split; unfold Cconj; cbn [re im]; rewrite ?E; ring. Qed.
  Lemma conj_real z : (Cconj z == z)%C -> (im z == 0)%Q. Proof. intros (_ & E). unfold Cconj in E; cbn [im] in E. lra. Qed.
  Notation W := (vertex_Matsubara version all_spins V).
  Lemma spin_cases (P : cplx -> cplx -> Prop) x y x' y' :
    (forall a b a' b' , P a a' -> P b b' -> P (a + b)%C (a' + b')%C) -> (forall q a a', P a a' -> P (Cscale q a) (Cscale q a')) ->
    (forall s, s = 0 \/ s = 1 -> P (V (pick_channel version) s 0 x y) (V (pick_channel version) s 0 x' y')) -> P (W x y) (W x' y').
  Proof.
    intros Pa Ps Pv. assert (H0 := Pv 0 (or_introl eq_refl)). assert (H1 := Pv 1 (or_intror eq_refl)).
    unfold vertex_Matsubara, spin_component.
    destruct version, all_spins; cbn [pick_channel] in *; change (pick_spin true 0) with 2; change (pick_spin true 1) with 1;
    change (pick_spin false 0) with 0; change (pick_spin false 1) with 1; cbn [Z.eqb Pos.eqb]; auto.
  Qed.
  Lemma W_m x y x' y' : D x -> D y -> (x == x')%Q -> (y == y')%Q -> (W x y == W x' y')%C.
  Proof.
    intros Dx Dy E E'. apply (spin_cases (fun a b => a == b)%C).
    - intros a b a' b' -> ->. reflexivity.
    - intros q a a' ->. reflexivity.
    - intros s Sp. apply (vc_m _ _ _ _ HV); assumption.
  Qed.
  Lemma W_conj x y : D x -> D y -> (W (- x) (- y) == Cconj (W x y))%C.
  Proof.
    intros Dx Dy. apply (spin_cases (fun a b => a == Cconj b)%C).
    - intros a b a' b' -> ->. symmetry. apply conj_add.
    - intros q a a' ->. split; unfold Cscale, Cconj; cbn [re im]; ring.
    - intros s Sp. apply (vc_conj _ _ _ _ HV); assumption.
  Qed.
  Lemma W_real x y : ph = true -> D x -> D y -> (im (W x y) == 0)%Q.
  Proof.
    intros Ph Dx Dy. apply (spin_cases (fun a _ => im a == 0)%Q x y x y).
    - intros a b a' b' A B. unfold Cadd; cbn [im]. rewrite A, B. ring.
    - intros q a a' A. unfold Cscale; cbn [im]. rewrite A. ring.
    - intros s Sp. apply (vc_real _ _ _ _ HV); assumption.
  Qed.
  Hypothesis Dopp : forall x, D x -> D (- x)%Q.
  Hypothesis Dext : forall x y, (x == y)%Q -> D x -> D y.
  Lemma loop_conjugated : conjugated D ph (fun x => Cscale (if version then (-1)%Q else 1%Q) (compute_Matsubara (Jl x) ph version all_spins V g x (fun _ => C0) 0)).
  Proof.
    destruct Hg as (gm & go). pose proof W_m as Wm. pose proof W_conj as Wc. pose proof W_real as Wr.
    assert (X : forall x, compute_Matsubara (Jl x) ph version all_spins V g x (fun _ => C0) 0 = Jl x (Matsubara_value ph version all_spins V g x)) by reflexivity.
    assert (M : forall x y, D x -> (x == y)%Q -> forall vp vp', D vp -> (vp == vp')%Q ->
      (Matsubara_value ph version all_spins V g x vp == Matsubara_value ph version all_spins V g y vp')%C).
    { intros x y Dx E vp vp' Dvp Ev. unfold Matsubara_value. pose proof (Wm vp x vp' y Dvp Dx Ev E) as F. pose proof (gm vp vp' Dvp Ev) as F'.
      destruct ph; rewrite F, F'; reflexivity. }
    assert (Y : forall v, D v -> odd2 ph (Jl v (Matsubara_value ph version all_spins V g v)) (Jl (- v)%Q (Matsubara_value ph version all_spins V g (- v)%Q))).
    { intros v Dv. clear X. destruct ph; cbn [odd2].
      - assert (R : forall vp, D vp -> (im (Matsubara_value true version all_spins V g v vp) == 0)%Q).
        { intros vp Dvp. cbn [Matsubara_value]. unfold Cneg; cbn [im]. rewrite (im_mul _ _ (proj1 (go vp Dvp)) (Wr vp v eq_refl Dvp Dv)). ring. }
        split.
        + apply conj_real. rewrite <- (li_conj _ _ HJ). apply (li_ext _ _ HJ); [exact Dv|reflexivity|]. intros x x' Dx Ex. rewrite (real_conj _ (R x Dx)). apply M; [exact Dv|reflexivity|exact Dx|exact Ex].
        + rewrite <- (li_opp _ _ HJ). apply (li_reflect _ _ HJ); [exact Dv|]. intros x x' Dx Ex. cbn [Matsubara_value].
          assert (Dx' : D x') by (apply (Dext (- x)%Q); [symmetry; exact Ex|apply Dopp, Dx]).
          pose proof (Wc x' v Dx' Dv) as E. rewrite (Wm (- x')%Q (- v)%Q x (- v)%Q) in E; auto; [|rewrite Ex; ring|reflexivity].
          rewrite E. rewrite (real_conj _ (Wr _ _ eq_refl Dx' Dv)).
          rewrite (gm x' (- x)%Q Dx' Ex). rewrite (proj2 (go x Dx)). ring.
      - rewrite <- (li_conj _ _ HJ). apply (li_reflect _ _ HJ); [exact Dv|]. intros x x' Dx Ex. cbn [Matsubara_value].
        assert (Dx' : D x') by (apply (Dext (- x)%Q); [symmetry; exact Ex|apply Dopp, Dx]).
        pose proof (Wc x' v Dx' Dv) as E. rewrite (Wm (- x')%Q (- v)%Q x (- v)%Q) in E; auto; [|rewrite Ex; ring|reflexivity].
        rewrite E, conj_mul. rewrite (gm x' (- x)%Q Dx' Ex). rewrite (go x Dx). rewrite Fl_Proofs.conj_conj. reflexivity. }
    split.
    - intros x y Dx E. rewrite !X. apply Cscale_m; [reflexivity|]. apply (li_ext _ _ HJ); [exact Dx|exact E|]. intros z z' Dz Ez. apply M; assumption.
    - intros v Dv. rewrite !X. specialize (Y v Dv). generalize dependent (Jl v (Matsubara_value ph version all_spins V g v)). 
      generalize (Jl (- v)%Q (Matsubara_value ph version all_spins V g (- v)%Q)). intros a' a Y.
      destruct ph; cbn [odd2] in Y; [destruct Y as (A & B); split|rename Y into B]; rewrite ?B; try (split; unfold Cscale, Cneg, Cconj; cbn [re im]; ring).
      unfold Cscale; cbn [im]. rewrite A. ring.
  Qed.
End Loop.

(** sums of self-energies *)
Lemma add_ok D ph x y : conjugated D ph x -> conjugated D ph y -> conjugated D ph (madd_ x y).
Proof.
  intros (A & B) (A' & B'). split.
  - intros u v Du E. unfold madd_. rewrite (A u v Du E), (A' u v Du E). reflexivity.
  - intros v Dv. exact (odd_add _ _ _ _ _ (B v Dv) (B' v Dv)).
Qed.
Lemma scale_ok D ph q x : conjugated D ph x -> conjugated D ph (mscale_ q x).
Proof.
  intros (A & B). split.
  - intros u v Du E. unfold mscale_. rewrite (A u v Du E). reflexivity.
  - intros v Dv. specialize (B v Dv). unfold mscale_. destruct ph; [destruct B as (B0 & B); split|]; rewrite ?B; try (split; unfold Cscale, Cneg, Cconj; cbn [re im]; ring).
    unfold Cscale; cbn [im]. rewrite B0. ring.
Qed.
Lemma zero_ok D ph : conjugated D ph (fun _ => C0).
Proof. split; [reflexivity|]. intros v _. exact (odd_zero ph). Qed.
Lemma mixed_ok D ph l : forall alpha, Forall (fun q : (Sf_Spec.vert * mself) * (Sf_Spec.vert * mself) => conjugated D ph (snd (fst q)) /\ conjugated D ph (snd (snd q))) l ->
  conjugated D ph (mixed l alpha).
Proof.
  induction l as [|((vn, new), (vo, old)) l IH]; intros alpha H; cbn [mixed]; [apply zero_ok|]. destruct alpha as [|a alpha]; [apply zero_ok|].
  inversion H as [|? ? (A & B) F]. cbn [fst snd] in A, B. apply add_ok; [|apply IH, F]. apply scale_ok, add_ok; apply scale_ok; assumption.
Qed.
