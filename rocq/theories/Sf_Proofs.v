(** Vertices that obey the symmetries are closed under sums and bubbles. *)
From Coq Require Import QArith Lqa.
From Verif Require Import Prelude Cplx Keld_Model Keld_Spec Keld_Proofs Keld_Proofs2 Util_Spec Sym_Model Sym_Spec Sym_Proofs2 Tab_Model Tab_Spec
  Rd_Model Rd_Spec Rd_Props Dec_Model Bub_Model Bub_Spec Bub_Proofs Bub_Proofs2 Bub_Proofs3 Bub_Props Sf_Model Sf_Spec.
From Verif Require Mlp_Model Bse_Model.
Open Scope Z_scope.

Lemma klegs_in kl : klegs_ok kl -> klegs_ok (swap_in_k kl). Proof. intros (A & B & C & D). repeat (apply Logic.conj); assumption. Qed.
Lemma klegs_out kl : klegs_ok kl -> klegs_ok (swap_out_k kl). Proof. intros (A & B & C & D). repeat (apply Logic.conj); assumption. Qed.
Lemma klegs_io kl : klegs_ok kl -> klegs_ok (in_out_k kl). Proof. intros (A & B & C & D). repeat (apply Logic.conj); assumption. Qed.

Definition same_family (G G' : family) : Prop := forall h ch k s kl l, klegs_ok kl -> spin01 s -> (G h ch k s kl l == G' h ch k s kl l)%C.
Lemma physical_ext c G G' : keldysh c = true -> same_family G G' -> physical c false G -> physical c false G'.
Proof.
  intros K E [P1 P2 P3 P4 _ _]. unfold same_family in E. split; try congruence.
  - intros h ch k s kl f f' l l' Hk Sp L L' F. rewrite <- !E by assumption. apply (P1 h ch k s kl f f'); assumption.
  - intros h ch ch' fl k s kl l H Hk Co Sp. rewrite <- !E by auto using klegs_in, spin01_flip. apply P2; assumption.
  - intros h ch ch' fl k s kl l H Hk Co Sp. rewrite <- !E by auto using klegs_out, spin01_flip. apply P3; assumption.
  - intros _ h ch ch' fl k s kl l H Hk Co Sp. rewrite <- !E by auto using klegs_io. apply P4; assumption.
Qed.
Lemma reversible_ext c G G' : keldysh c = true -> same_family G G' -> reversible c G -> reversible c G'.
Proof.
  intros K E [P1 _]. unfold same_family in E. split; try congruence.
  intros _ Ph h ch k s kl l Hk Co Sp. rewrite <- !E by assumption. apply P1; assumption.
Qed.
Lemma physical_add c G G' : keldysh c = true -> physical c false G -> physical c false G' ->
  physical c false (fun h ch k s kl l => (G h ch k s kl l + G' h ch k s kl l)%C).
Proof.
  intros K [P1 P2 P3 P4 _ _] [Q1 Q2 Q3 Q4 _ _]. split; try congruence.
  - intros h ch k s kl f f' l l' Hk Sp L L' F. rewrite (P1 h ch k s kl f f' l l'), (Q1 h ch k s kl f f' l l') by assumption. reflexivity.
  - intros h ch ch' fl k s kl l H Hk Co Sp. rewrite (P2 h ch ch' fl), (Q2 h ch ch' fl), cscale_add by assumption. reflexivity.
  - intros h ch ch' fl k s kl l H Hk Co Sp. rewrite (P3 h ch ch' fl), (Q3 h ch ch' fl), cscale_add by assumption. reflexivity.
  - intros _ h ch ch' fl k s kl l H Hk Co Sp. rewrite (P4 K h ch ch' fl), (Q4 K h ch ch' fl), conj_add, cscale_add by assumption. reflexivity.
Qed.
Lemma reversible_add c G G' : keldysh c = true -> reversible c G -> reversible c G' ->
  reversible c (fun h ch k s kl l => (G h ch k s kl l + G' h ch k s kl l)%C).
Proof.
  intros K [P1 _] [Q1 _]. split; try congruence. intros _ Ph h ch k s kl l Hk Co Sp.
  rewrite (P1 K Ph h ch k s kl l Hk Co Sp) at 1. rewrite (Q1 K Ph h ch k s kl l Hk Co Sp) at 1. rewrite conj_add, cscale_add. reflexivity.
Qed.
Lemma cscale_scale p q z : (Cscale p (Cscale q z) == Cscale q (Cscale p z))%C.
Proof. split; unfold Cscale; cbn [re im]; ring. Qed.
Lemma physical_scale c q G : keldysh c = true -> physical c false G -> physical c false (fun h ch k s kl l => Cscale q (G h ch k s kl l)).
Proof.
  intros K [P1 P2 P3 P4 _ _]. split; try congruence.
  - intros h ch k s kl f f' l l' Hk Sp L L' F. rewrite (P1 h ch k s kl f f' l l') by assumption. reflexivity.
  - intros h ch ch' fl k s kl l H Hk Co Sp. rewrite (P2 h ch ch' fl) by assumption. apply cscale_scale.
  - intros h ch ch' fl k s kl l H Hk Co Sp. rewrite (P3 h ch ch' fl) by assumption. apply cscale_scale.
  - intros _ h ch ch' fl k s kl l H Hk Co Sp. rewrite (P4 K h ch ch' fl), Cconj_scale by assumption. apply cscale_scale.
Qed.
Lemma reversible_scale c q G : keldysh c = true -> reversible c G -> reversible c (fun h ch k s kl l => Cscale q (G h ch k s kl l)).
Proof.
  intros K [P1 _]. split; try congruence. intros _ Ph h ch k s kl l Hk Co Sp.
  rewrite (P1 K Ph h ch k s kl l Hk Co Sp) at 1. rewrite Cconj_scale. apply cscale_scale.
Qed.
Lemma physical_halves c G : physical c false G -> keldysh c = true -> physical c false (fun h => G (negb h)).
Proof.
  intros [P1 P2 P3 P4 _ _] K. split; try congruence.
  - intros h ch k s kl f f' l l' Hk Sp L L' F. apply (P1 (negb h) ch k s kl f f' l l'); assumption.
  - intros h ch ch' fl k s kl l H Hk Co Sp. rewrite (P2 (negb h) ch ch' fl), Bool.negb_xorb_l by assumption. reflexivity.
  - intros h ch ch' fl k s kl l H Hk Co Sp. rewrite (P3 (negb h) ch ch' fl), Bool.negb_xorb_l by assumption. reflexivity.
  - intros _ h ch ch' fl k s kl l H Hk Co Sp. rewrite (P4 K (negb h) ch ch' fl), Bool.negb_xorb_l by assumption. reflexivity.
Qed.

(** ** vertices *)
Notation vadd := (Mlp_Model.vadd data dadd). Notation vhalf := (Mlp_Model.vhalf data dhalf). Notation vzero := (Mlp_Model.vzero data dzero).
Notation irr := (Mlp_Model.irr data).
Definition same_vert (v v' : vert) : Prop :=
  (forall ch k s kl f, klegs_ok kl -> spin01 s -> (class_of (channel_of v ch) k s (kcode kl) f == class_of (channel_of v' ch) k s (kcode kl) f)%C) /\
  (forall s kl f, klegs_ok kl -> spin01 s -> (irr v s (kcode kl) f == irr v' s (kcode kl) f)%C).
Section Closure.
  Variable c : cfg.
  Hypothesis Kc : keldysh c = true.
  Hypothesis CBc : contour c = false.
  Lemma obeys_ext u v1 v2 w1 w2 : same_vert v1 w1 -> same_vert v2 w2 -> obeys c u v1 v2 -> obeys c u w1 w2.
  Proof.
    intros (E1 & F1) (E2 & F2) [N P R B].
    assert (S : same_family (on_legs v1 v2) (on_legs w1 w2)).
    { intros h ch k s kl l Hk Sp. unfold on_legs. destruct h; auto. }
    split.
    - intros h ch k s kl f f' Hk Sp E. specialize (N h ch k s kl f f' Hk Sp E).
      destruct h; [rewrite <- !E2 by assumption|rewrite <- !E1 by assumption]; exact N.
    - exact (physical_ext c _ _ Kc S P).
    - exact (reversible_ext c _ _ Kc S R).
    - intros h s kl f Hk Sp. specialize (B h s kl f Hk Sp). destruct h; [rewrite <- F2 by assumption|rewrite <- F1 by assumption]; exact B.
  Qed.
  Lemma obeys_swap u v1 v2 : obeys c u v1 v2 -> obeys c u v2 v1.
  Proof.
    intros [N P R B].
    assert (S : same_family (fun h => on_legs v1 v2 (negb h)) (on_legs v2 v1)).
    { intros h ch k s kl l Hk Sp. unfold on_legs. destruct h; reflexivity. }
    split.
    - intros h ch k s kl f f' Hk Sp E. specialize (N (negb h) ch k s kl f f' Hk Sp E). destruct h; exact N.
    - apply (physical_ext c _ _ Kc S). apply (physical_halves c _ P Kc).
    - apply (reversible_ext c _ _ Kc S). split; [|congruence]. intros _ Ph h. exact (reversal_keldysh _ _ R Kc Ph (negb h)).
    - intros h s kl f Hk Sp. specialize (B (negb h) s kl f Hk Sp). destruct h; exact B.
  Qed.
  Lemma bare_add u u' s iK : spin01 s ->
    (irred_expanded (irred_initialize c (Cofq (u + u'))) s iK ==
     irred_expanded (irred_initialize c (Cofq u)) s iK + irred_expanded (irred_initialize c (Cofq u')) s iK)%C.
  Proof.
    intros [-> | ->]; unfold irred_expanded, irred_initialize; rewrite Kc, CBc; cbn [Z.eqb Pos.eqb]; destruct (isInList iK odd_Keldysh);
    split; unfold Cofq, Cadd, Cmul, C0; cbn [re im]; ring.
  Qed.
  Lemma bare_scale q u s iK : spin01 s ->
    (irred_expanded (irred_initialize c (Cofq (q * u))) s iK == Cscale q (irred_expanded (irred_initialize c (Cofq u)) s iK))%C.
  Proof.
    intros [-> | ->]; unfold irred_expanded, irred_initialize; rewrite Kc, CBc; cbn [Z.eqb Pos.eqb]; destruct (isInList iK odd_Keldysh);
    split; unfold Cofq, Cscale, Cmul, C0; cbn [re im]; ring.
  Qed.
  Lemma class_vadd v w ch k s iK f :
    class_of (channel_of (vadd v w) ch) k s iK f = (class_of (channel_of v ch) k s iK f + class_of (channel_of w ch) k s iK f)%C.
  Proof. destruct ch, k; reflexivity. Qed.
  Lemma class_vhalf v ch k s iK f : class_of (channel_of (vhalf v) ch) k s iK f = Cscale (1 # 2) (class_of (channel_of v ch) k s iK f).
  Proof. destruct ch, k; reflexivity. Qed.
  Lemma obeys_add u u' v1 v2 w1 w2 : obeys c u v1 v2 -> obeys c u' w1 w2 -> obeys c (u + u') (vadd v1 w1) (vadd v2 w2).
  Proof.
    intros [N P R B] [N' P' R' B'].
    assert (S : same_family (fun h ch k s kl l => (on_legs v1 v2 h ch k s kl l + on_legs w1 w2 h ch k s kl l)%C) (on_legs (vadd v1 w1) (vadd v2 w2))).
    { intros h ch k s kl l Hk Sp. unfold on_legs. destruct h; rewrite class_vadd; reflexivity. }
    split.
    - intros h ch k s kl f f' Hk Sp E. specialize (N h ch k s kl f f' Hk Sp E). specialize (N' h ch k s kl f f' Hk Sp E).
      destruct h; rewrite !class_vadd, N, N'; reflexivity.
    - apply (physical_ext c _ _ Kc S), physical_add; assumption.
    - apply (reversible_ext c _ _ Kc S), reversible_add; assumption.
    - intros h s kl f Hk Sp. rewrite (bare_add u u') by assumption. rewrite <- (B h s kl f), <- (B' h s kl f) by assumption. destruct h; reflexivity.
  Qed.
  Lemma obeys_half u v1 v2 : obeys c u v1 v2 -> obeys c ((1 # 2) * u) (vhalf v1) (vhalf v2).
  Proof.
    intros [N P R B].
    assert (S : same_family (fun h ch k s kl l => Cscale (1 # 2) (on_legs v1 v2 h ch k s kl l)) (on_legs (vhalf v1) (vhalf v2))).
    { intros h ch k s kl l Hk Sp. unfold on_legs. destruct h; rewrite class_vhalf; reflexivity. }
    split.
    - intros h ch k s kl f f' Hk Sp E. specialize (N h ch k s kl f f' Hk Sp E).
      destruct h; rewrite !class_vhalf, N; reflexivity.
    - apply (physical_ext c _ _ Kc S), physical_scale; assumption.
    - apply (reversible_ext c _ _ Kc S), reversible_scale; assumption.
    - intros h s kl f Hk Sp. rewrite (bare_scale (1 # 2) u) by assumption. rewrite <- (B h s kl f) by assumption. destruct h; reflexivity.
  Qed.
  Lemma bare_m u u' s iK : (u == u')%Q -> spin01 s ->
    (irred_expanded (irred_initialize c (Cofq u)) s iK == irred_expanded (irred_initialize c (Cofq u')) s iK)%C.
  Proof.
    intros E [-> | ->]; unfold irred_expanded, irred_initialize; rewrite Kc, CBc; cbn [Z.eqb Pos.eqb]; destruct (isInList iK odd_Keldysh);
    split; unfold Cofq, Cmul, C0; cbn [re im]; rewrite ?E; reflexivity.
  Qed.
  Lemma obeys_bare_m u u' v1 v2 : (u == u')%Q -> obeys c u v1 v2 -> obeys c u' v1 v2.
  Proof. intros E [N P R B]. split; try assumption. intros h s kl f Hk Sp. rewrite <- (bare_m u u') by assumption. apply B; assumption. Qed.
  (** central contributions: K2 of the first and K2' of the second half *)
  Lemma obeys_symmetrise cr cl : obeys c 0 cr cl -> symmetric c 0 (Mlp_Model.symmetrise data dadd dhalf true cr cl).
  Proof.
    intros [N P R B].
    set (avg := fun h => on_legs cr cl h).
    set (G := fun (_ : bool) ch k s kl l => match k with
      | k2 => on_legs cr cl false ch k2 s kl l | k2b => on_legs cr cl true ch k2b s kl l
      | _ => Cscale (1 # 2) (on_legs cr cl false ch k s kl l + on_legs cr cl true ch k s kl l)%C end).
    set (x := Mlp_Model.symmetrise data dadd dhalf true cr cl).
    assert (D : forall z, (Cscale (1 # 2) (z + z) == z)%C) by (intros z; split; unfold Cscale, Cadd; cbn [re im]; ring).
    assert (X : forall ch k s iK f, (class_of (channel_of x ch) k s iK f == match k with
      | k2 => class_of (channel_of cr ch) k2 s iK f | k2b => class_of (channel_of cl ch) k2b s iK f
      | _ => Cscale (1 # 2) (class_of (channel_of cr ch) k s iK f + class_of (channel_of cl ch) k s iK f) end)%C).
    { intros ch k s iK f. unfold x, Mlp_Model.symmetrise. rewrite class_vhalf, class_vadd.
      destruct ch, k; cbn [class_of channel_of Mlp_Model.va Mlp_Model.vp Mlp_Model.vt Mlp_Model.set_K2 Mlp_Model.set_K2b Mlp_Model.K1 Mlp_Model.K2 Mlp_Model.K2b Mlp_Model.K3];
      rewrite ?D; reflexivity. }
    assert (S : same_family G (on_legs x x)).
    { intros h ch k s kl l Hk Sp. unfold on_legs. replace (if h then x else x) with x by (destruct h; reflexivity). rewrite X.
      unfold G, on_legs. destruct k; reflexivity. }
    destruct P as [P1 P2 P3 P4 _ _]. split.
    - intros h ch k s kl f f' Hk Sp E. replace (if h then x else x) with x by (destruct h; reflexivity). rewrite !X.
      pose proof (N false ch k s kl f f' Hk Sp E) as A. pose proof (N true ch k s kl f f' Hk Sp E) as A'. cbn match in A, A'.
      destruct k; rewrite ?A, ?A'; reflexivity.
    - apply (physical_ext c _ _ Kc S). unfold G. split; try congruence.
      + intros h ch k s kl f f' l l' Hk Sp L L' F.
        destruct k; rewrite ?(P1 false ch _ s kl f f' l l'), ?(P1 true ch _ s kl f f' l l') by assumption; reflexivity.
      + intros h ch ch' fl k s kl l H Hk Co Sp. 
        destruct fl, k; cbn [mirror]; rewrite ?(P2 false ch ch' _ _ _ _ _ H), ?(P2 true ch ch' _ _ _ _ _ H) by assumption; cbn [xorb mirror exchange_sign];
        rewrite <- ?cscale_add; try reflexivity; rewrite cscale_scale; apply Cscale_m; try reflexivity; apply Cscale_m; try reflexivity; ring.
      + intros h ch ch' fl k s kl l H Hk Co Sp.
        destruct fl, k; cbn [mirror]; rewrite ?(P3 false ch ch' _ _ _ _ _ H), ?(P3 true ch ch' _ _ _ _ _ H) by assumption; cbn [xorb mirror exchange_sign];
        rewrite <- ?cscale_add; try reflexivity; rewrite cscale_scale; apply Cscale_m; try reflexivity; apply Cscale_m; try reflexivity; ring.
      + intros _ h ch ch' fl k s kl l H Hk Co Sp.
        destruct fl, k; cbn [mirror]; rewrite ?(P4 Kc false ch ch' _ _ _ _ _ H), ?(P4 Kc true ch ch' _ _ _ _ _ H) by assumption; cbn [xorb mirror conjugation_sign];
        rewrite <- ?cscale_add; try reflexivity; rewrite cscale_scale; apply Cscale_m; try reflexivity;
        rewrite Cconj_scale; apply Cscale_m; try reflexivity; rewrite conj_add; ring.
    - apply (reversible_ext c _ _ Kc S). unfold G. split; [|congruence]. intros _ Ph h ch k s kl l Hk Co Sp.
      pose proof (reversal_keldysh _ _ R Kc Ph false ch k s kl l Hk Co Sp) as A.
      pose proof (reversal_keldysh _ _ R Kc Ph true ch k s kl l Hk Co Sp) as A'.
      destruct k; try exact A; try exact A'; rewrite A at 1; rewrite A' at 1; rewrite <- cscale_add, cscale_scale, Cconj_scale, conj_add; reflexivity.
    - intros h s kl f Hk Sp. pose proof (B false s kl f Hk Sp) as A. pose proof (B true s kl f Hk Sp) as A'. cbn match in A, A'.
      replace (if h then x else x) with x by (destruct h; reflexivity).
      change (irr x s (kcode kl) f) with (Cscale (1 # 2) (irr cr s (kcode kl) f + irr cl s (kcode kl) f)%C). rewrite A, A'. apply D.
  Qed.
End Closure.
