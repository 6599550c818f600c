(** Vertices that obey the symmetries of the Matsubara formalism are closed under sums and bubbles. *)
From Coq Require Import QArith Lqa.
From Verif Require Import Prelude Cplx Keld_Model Keld_Spec Keld_Proofs Keld_Proofs2 Util_Spec Sym_Model Sym_Spec Sym_Proofs2 Tab_Model Tab_Spec
  Rd_Model Rd_Spec Rd_Props Dec_Model Bub_Model Bub_Spec Bub_Proofs Bub_Proofs2 Bub_Proofs3 Bub_Props Mbu_Model Mbu_Spec Mbu_Proofs Mbu_Proofs2 Mbu_Props
  Sf_Model Sf_Spec Sf_Proofs Sf_Proofs2 Msf_Model Msf_Spec.
From Verif Require Mlp_Model Bse_Model.
Open Scope Z_scope.
Import Mlp_Model (Full, Irreducible, DiffLeft, DiffRight).

Definition msame_family (G G' : family) : Prop := forall h ch k s kl l, (G h ch k s kl l == G' h ch k s kl l)%C.
Section Families.
  Variable c : cfg.
  Hypothesis K : keldysh c = false.
  Lemma mphysical_ext G G' : msame_family G G' -> physical c false G -> physical c false G'.
  Proof.
    intros E [P1 P2 P3 _ P5 P6]. unfold msame_family in E. split; try congruence.
    - intros h ch k s kl f f' l l' Hk Sp L L' F. rewrite <- !E. apply (P1 h ch k s kl f f'); assumption.
    - intros h ch ch' fl k s kl l H Hk Co Sp. rewrite <- !E. apply P2; assumption.
    - intros h ch ch' fl k s kl l H Hk Co Sp. rewrite <- !E. apply P3; assumption.
    - intros _ h ch ch' fl k s kl l H Co Sp. rewrite <- !E. apply P5; assumption.
    - intros _ Ph h ch k s kl l. destruct (E h ch k s kl l) as (_ & I). rewrite <- I. apply P6; assumption.
  Qed.
  Lemma mreversible_ext G G' : msame_family G G' -> reversible c G -> reversible c G'.
  Proof. intros E [_ P]. unfold msame_family in E. split; try congruence. intros _ h ch k s kl l Co. rewrite <- !E. apply P; assumption. Qed.
  Lemma mphysical_add G G' : physical c false G -> physical c false G' ->
    physical c false (fun h ch k s kl l => (G h ch k s kl l + G' h ch k s kl l)%C).
  Proof.
    intros [P1 P2 P3 _ P5 P6] [Q1 Q2 Q3 _ Q5 Q6]. split; try congruence.
    - intros h ch k s kl f f' l l' Hk Sp L L' F. rewrite (P1 h ch k s kl f f' l l'), (Q1 h ch k s kl f f' l l') by assumption. reflexivity.
    - intros h ch ch' fl k s kl l H Hk Co Sp. rewrite (P2 h ch ch' fl), (Q2 h ch ch' fl), cscale_add by assumption. reflexivity.
    - intros h ch ch' fl k s kl l H Hk Co Sp. rewrite (P3 h ch ch' fl), (Q3 h ch ch' fl), cscale_add by assumption. reflexivity.
    - intros _ h ch ch' fl k s kl l H Co Sp. rewrite (P5 K h ch ch' fl), (Q5 K h ch ch' fl), conj_add by assumption. reflexivity.
    - intros _ Ph h ch k s kl l. unfold Cadd. cbn [im]. rewrite (P6 K Ph), (Q6 K Ph). reflexivity.
  Qed.
  Lemma mreversible_add G G' : reversible c G -> reversible c G' -> reversible c (fun h ch k s kl l => (G h ch k s kl l + G' h ch k s kl l)%C).
  Proof.
    intros [_ P] [_ Q]. split; try congruence. intros _ h ch k s kl l Co.
    rewrite (P K h ch k s kl l Co) at 1. rewrite (Q K h ch k s kl l Co) at 1. rewrite conj_add. reflexivity.
  Qed.
  Lemma mphysical_scale q G : physical c false G -> physical c false (fun h ch k s kl l => Cscale q (G h ch k s kl l)).
  Proof.
    intros [P1 P2 P3 _ P5 P6]. split; try congruence.
    - intros h ch k s kl f f' l l' Hk Sp L L' F. rewrite (P1 h ch k s kl f f' l l') by assumption. reflexivity.
    - intros h ch ch' fl k s kl l H Hk Co Sp. rewrite (P2 h ch ch' fl) by assumption. apply cscale_scale.
    - intros h ch ch' fl k s kl l H Hk Co Sp. rewrite (P3 h ch ch' fl) by assumption. apply cscale_scale.
    - intros _ h ch ch' fl k s kl l H Co Sp. rewrite (P5 K h ch ch' fl), Cconj_scale by assumption. reflexivity.
    - intros _ Ph h ch k s kl l. unfold Cscale. cbn [im]. rewrite (P6 K Ph). ring.
  Qed.
  Lemma mreversible_scale q G : reversible c G -> reversible c (fun h ch k s kl l => Cscale q (G h ch k s kl l)).
  Proof.
    intros [_ P]. split; try congruence. intros _ h ch k s kl l Co. rewrite (P K h ch k s kl l Co) at 1. rewrite Cconj_scale. reflexivity.
  Qed.
  Lemma mphysical_halves G : physical c false G -> physical c false (fun h => G (negb h)).
  Proof.
    intros [P1 P2 P3 _ P5 P6]. split; try congruence.
    - intros h ch k s kl f f' l l' Hk Sp L L' F. apply (P1 (negb h) ch k s kl f f' l l'); assumption.
    - intros h ch ch' fl k s kl l H Hk Co Sp. rewrite (P2 (negb h) ch ch' fl), Bool.negb_xorb_l by assumption. reflexivity.
    - intros h ch ch' fl k s kl l H Hk Co Sp. rewrite (P3 (negb h) ch ch' fl), Bool.negb_xorb_l by assumption. reflexivity.
    - intros _ h ch ch' fl k s kl l H Co Sp. rewrite (P5 K (negb h) ch ch' fl), Bool.negb_xorb_l by assumption. reflexivity.
    - intros _ Ph h. apply (P6 K Ph).
  Qed.

  Definition msame_vert (v v' : vert) : Prop :=
    (forall ch k s f, spin01 s -> (class_of (channel_of v ch) k s 0 f == class_of (channel_of v' ch) k s 0 f)%C) /\
    (forall s f, spin01 s -> (irr v s 0 f == irr v' s 0 f)%C).
  Lemma spin_test s : (s =? 0) || (s =? 1) = true -> spin01 s.
  Proof. intros E. apply Bool.orb_true_iff in E. destruct E as [E | E]; apply Z.eqb_eq in E; [left|right]; exact E. Qed.
  Lemma mobeys_ext u v1 v2 w1 w2 : msame_vert v1 w1 -> msame_vert v2 w2 -> mobeys c u v1 v2 -> mobeys c u w1 w2.
  Proof.
    intros (E1 & F1) (E2 & F2) [N P R B].
    assert (S : msame_family (on_mlegs v1 v2) (on_mlegs w1 w2)).
    { intros h ch k s kl l. unfold on_mlegs. destruct ((s =? 0) || (s =? 1)) eqn:Es; [|reflexivity]. apply spin_test in Es. destruct h; auto. }
    split.
    - intros h ch k s f f' Sp E. specialize (N h ch k s f f' Sp E).
      destruct h; [rewrite <- !E2 by assumption|rewrite <- !E1 by assumption]; exact N.
    - exact (mphysical_ext _ _ S P).
    - exact (mreversible_ext _ _ S R).
    - intros h s f Sp. specialize (B h s f Sp). destruct h; [rewrite <- F2 by assumption|rewrite <- F1 by assumption]; exact B.
  Qed.
  Lemma mobeys_swap u v1 v2 : mobeys c u v1 v2 -> mobeys c u v2 v1.
  Proof.
    intros [N P R B].
    assert (S : msame_family (fun h => on_mlegs v1 v2 (negb h)) (on_mlegs v2 v1)).
    { intros h ch k s kl l. unfold on_mlegs. destruct h; reflexivity. }
    split.
    - intros h ch k s f f' Sp E. specialize (N (negb h) ch k s f f' Sp E). destruct h; exact N.
    - apply (mphysical_ext _ _ S). apply (mphysical_halves _ P).
    - apply (mreversible_ext _ _ S). split; [congruence|]. intros _ h. exact (reversal_matsubara _ _ R K (negb h)).
    - intros h s f Sp. specialize (B (negb h) s f Sp). destruct h; exact B.
  Qed.
  Lemma mobeys_add u u' v1 v2 w1 w2 : mobeys c u v1 v2 -> mobeys c u' w1 w2 -> mobeys c (u + u') (vadd v1 w1) (vadd v2 w2).
  Proof.
    intros [N P R B] [N' P' R' B'].
    assert (S : msame_family (fun h ch k s kl l => (on_mlegs v1 v2 h ch k s kl l + on_mlegs w1 w2 h ch k s kl l)%C) (on_mlegs (vadd v1 w1) (vadd v2 w2))).
    { intros h ch k s kl l. unfold on_mlegs. destruct ((s =? 0) || (s =? 1)); [destruct h; rewrite class_vadd; reflexivity|ring]. }
    split.
    - intros h ch k s f f' Sp E. specialize (N h ch k s f f' Sp E). specialize (N' h ch k s f f' Sp E).
      destruct h; rewrite !class_vadd, N, N'; reflexivity.
    - apply (mphysical_ext _ _ S), mphysical_add; assumption.
    - apply (mreversible_ext _ _ S), mreversible_add; assumption.
    - intros h s f Sp. transitivity (Cofq (if s =? 0 then u else - u) + Cofq (if s =? 0 then u' else - u'))%C.
      + rewrite <- (B h s f), <- (B' h s f) by assumption. destruct h; reflexivity.
      + destruct (s =? 0); split; unfold Cadd, Cofq; cbn [re im]; ring.
  Qed.
  Lemma mobeys_half u v1 v2 : mobeys c u v1 v2 -> mobeys c ((1 # 2) * u) (vhalf v1) (vhalf v2).
  Proof.
    intros [N P R B].
    assert (S : msame_family (fun h ch k s kl l => Cscale (1 # 2) (on_mlegs v1 v2 h ch k s kl l)) (on_mlegs (vhalf v1) (vhalf v2))).
    { intros h ch k s kl l. unfold on_mlegs. destruct ((s =? 0) || (s =? 1)); [destruct h; rewrite class_vhalf; reflexivity|].
      split; unfold Cscale, C0; cbn [re im]; ring. }
    split.
    - intros h ch k s f f' Sp E. specialize (N h ch k s f f' Sp E). destruct h; rewrite !class_vhalf, N; reflexivity.
    - apply (mphysical_ext _ _ S), mphysical_scale; assumption.
    - apply (mreversible_ext _ _ S), mreversible_scale; assumption.
    - intros h s f Sp. transitivity (Cscale (1 # 2) (Cofq (if s =? 0 then u else - u)))%C.
      + rewrite <- (B h s f) by assumption. destruct h; reflexivity.
      + destruct (s =? 0); split; unfold Cscale, Cofq; cbn [re im]; ring.
  Qed.
  Lemma mobeys_bare_m u u' v1 v2 : (u == u')%Q -> mobeys c u v1 v2 -> mobeys c u' v1 v2.
  Proof.
    intros E [N P R B]. split; try assumption. intros h s f Sp. rewrite (B h s f Sp). destruct (s =? 0); split; unfold Cofq; cbn [re im]; rewrite ?E; reflexivity.
  Qed.
  (** central contributions: K2 of the first and K2' of the second half *)
  Lemma mobeys_symmetrise cr cl : mobeys c 0 cr cl -> msymmetric c 0 (Mlp_Model.symmetrise data dadd dhalf true cr cl).
  Proof.
    intros [N P R B].
    set (G := fun (_ : bool) ch k s kl l => match k with
      | k2 => on_mlegs cr cl false ch k2 s kl l | k2b => on_mlegs cr cl true ch k2b s kl l
      | _ => Cscale (1 # 2) (on_mlegs cr cl false ch k s kl l + on_mlegs cr cl true ch k s kl l)%C end).
    set (x := Mlp_Model.symmetrise data dadd dhalf true cr cl).
    assert (D : forall z, (Cscale (1 # 2) (z + z) == z)%C) by (intros z; split; unfold Cscale, Cadd; cbn [re im]; ring).
    assert (X : forall ch k s iK f, (class_of (channel_of x ch) k s iK f == match k with
      | k2 => class_of (channel_of cr ch) k2 s iK f | k2b => class_of (channel_of cl ch) k2b s iK f
      | _ => Cscale (1 # 2) (class_of (channel_of cr ch) k s iK f + class_of (channel_of cl ch) k s iK f) end)%C).
    { intros ch k s iK f. unfold x, Mlp_Model.symmetrise. rewrite class_vhalf, class_vadd.
      destruct ch, k; cbn [class_of channel_of Mlp_Model.va Mlp_Model.vp Mlp_Model.vt Mlp_Model.set_K2 Mlp_Model.set_K2b Mlp_Model.K1 Mlp_Model.K2 Mlp_Model.K2b Mlp_Model.K3];
      rewrite ?D; reflexivity. }
    assert (S : msame_family G (on_mlegs x x)).
    { intros h ch k s kl l. unfold on_mlegs, G. replace (if h then x else x) with x by (destruct h; reflexivity). unfold on_mlegs.
      destruct ((s =? 0) || (s =? 1)); [rewrite X; destruct k; reflexivity|]. destruct k; rewrite ?D; reflexivity. }
    destruct P as [P1 P2 P3 _ P5 P6]. split.
    - intros h ch k s f f' Sp E. replace (if h then x else x) with x by (destruct h; reflexivity). rewrite !X.
      pose proof (N false ch k s f f' Sp E) as A. pose proof (N true ch k s f f' Sp E) as A'. cbn match in A, A'.
      destruct k; rewrite ?A, ?A'; reflexivity.
    - apply (mphysical_ext _ _ S). unfold G. split; try congruence.
      + intros h ch k s kl f f' l l' Hk Sp L L' F.
        destruct k; rewrite ?(P1 false ch _ s kl f f' l l'), ?(P1 true ch _ s kl f f' l l') by assumption; reflexivity.
      + intros h ch ch' fl k s kl l H Hk Co Sp. 
        destruct fl, k; cbn [mirror]; rewrite ?(P2 false ch ch' _ _ _ _ _ H), ?(P2 true ch ch' _ _ _ _ _ H) by assumption; cbn [xorb mirror exchange_sign];
        rewrite <- ?cscale_add; try reflexivity; rewrite cscale_scale; apply Cscale_m; try reflexivity; apply Cscale_m; try reflexivity; ring.
      + intros h ch ch' fl k s kl l H Hk Co Sp.
        destruct fl, k; cbn [mirror]; rewrite ?(P3 false ch ch' _ _ _ _ _ H), ?(P3 true ch ch' _ _ _ _ _ H) by assumption; cbn [xorb mirror exchange_sign];
        rewrite <- ?cscale_add; try reflexivity; rewrite cscale_scale; apply Cscale_m; try reflexivity; apply Cscale_m; try reflexivity; ring.
      + intros _ h ch ch' fl k s kl l H Co Sp.
        destruct fl, k; cbn [mirror]; rewrite ?(P5 K false ch ch' _ _ _ _ _ H), ?(P5 K true ch ch' _ _ _ _ _ H) by assumption; cbn [xorb mirror];
        rewrite ?Cconj_scale, ?conj_add; try reflexivity; apply Cscale_m; try reflexivity; ring.
      + intros _ Ph h ch k s kl l. destruct k; unfold Cscale, Cadd; cbn [im]; rewrite ?(P6 K Ph); reflexivity.
    - apply (mreversible_ext _ _ S). unfold G. split; [congruence|]. intros _ h ch k s kl l Co.
      pose proof (reversal_matsubara _ _ R K false ch k s kl l Co) as A.
      pose proof (reversal_matsubara _ _ R K true ch k s kl l Co) as A'.
      destruct k; try exact A; try exact A'; rewrite A at 1; rewrite A' at 1; rewrite Cconj_scale, conj_add; reflexivity.
    - intros h s f Sp. pose proof (B false s f Sp) as A. pose proof (B true s f Sp) as A'. cbn match in A, A'.
      replace (if h then x else x) with x by (destruct h; reflexivity).
      change (irr x s 0 f) with (Cscale (1 # 2) (irr cr s 0 f + irr cl s 0 f)%C). rewrite A, A'. apply D.
  Qed.
End Families.
