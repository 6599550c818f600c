(** Vertices that obey the symmetries of the Matsubara formalism at finite temperature are closed under sums. *)
From Coq Require Import QArith Lqa.
From Verif Require Import Prelude Cplx Keld_Model Keld_Spec Keld_Proofs Keld_Proofs2 Util_Spec Sym_Model Sym_Spec Sym_Proofs Sym_Proofs2 Tab_Model Tab_Spec
  Rd_Model Rd_Spec Rd_Props Dec_Model Bub_Model Bub_Spec Bub_Proofs Bub_Proofs2 Bub_Proofs3 Bub_Props Mbt_Model Mbt_Spec Mbt_Proofs Mbt_Proofs2 Mbt_Proofs3 Mbt_Props
  Sf_Model Sf_Spec Sf_Proofs Sf_Proofs2 Msf_Model Mtf_Model Mtf_Spec.
From Verif Require Mlp_Model Bse_Model Msf_Proofs.
Open Scope Z_scope.
Import Mlp_Model (Full, Irreducible, DiffLeft, DiffRight).

Definition tsame (G G' : vertex_T) : Prop := forall h ch k s l, spin01 s -> matsubara_legs l -> (G h ch k s l == G' h ch k s l)%C.
Global Hint Resolve mats_swap_in mats_swap_out mats_conj mats_minus spin01_flip : mf.
Section Families.
  Variable ph : bool.
  Lemma tsymmetric_ext G G' : tsame G G' -> symmetric_T ph G -> symmetric_T ph G'.
  Proof.
    intros E [P1 P2 P3 P4 P5]. unfold tsame in E. split.
    - intros h ch k s f f' l l' Sp M M' L L' F. rewrite <- !E by assumption. apply (P1 h ch k s f f'); assumption.
    - intros h ch ch' fl k s l H M Sp. rewrite <- !E by auto with mf. apply P2; assumption.
    - intros h ch ch' fl k s l H M Sp. rewrite <- !E by auto with mf. apply P3; assumption.
    - intros h ch ch' fl k s l H M Sp. rewrite <- !E by auto with mf. apply P4; assumption.
    - intros Ph h ch k s l Sp M. destruct (E h ch k s l Sp M) as (_ & I). rewrite <- I. apply P5; assumption.
  Qed.
  Lemma treversible_ext G G' : tsame G G' -> reversible_T G -> reversible_T G'.
  Proof. intros E P h ch k s l Sp M. unfold tsame in E. rewrite <- !E by auto with mf. apply P; assumption. Qed.
  Lemma tsymmetric_add G G' : symmetric_T ph G -> symmetric_T ph G' -> symmetric_T ph (fun h ch k s l => (G h ch k s l + G' h ch k s l)%C).
  Proof.
    intros [P1 P2 P3 P4 P5] [Q1 Q2 Q3 Q4 Q5]. split.
    - intros h ch k s f f' l l' Sp M M' L L' F. rewrite (P1 h ch k s f f' l l'), (Q1 h ch k s f f' l l') by assumption. reflexivity.
    - intros h ch ch' fl k s l H M Sp. rewrite (P2 h ch ch' fl), (Q2 h ch ch' fl) by assumption. ring.
    - intros h ch ch' fl k s l H M Sp. rewrite (P3 h ch ch' fl), (Q3 h ch ch' fl) by assumption. ring.
    - intros h ch ch' fl k s l H M Sp. rewrite (P4 h ch ch' fl), (Q4 h ch ch' fl), conj_add by assumption. reflexivity.
    - intros Ph h ch k s l Sp M. unfold Cadd. cbn [im]. rewrite (P5 Ph), (Q5 Ph) by assumption. reflexivity.
  Qed.
  Lemma treversible_add G G' : reversible_T G -> reversible_T G' -> reversible_T (fun h ch k s l => (G h ch k s l + G' h ch k s l)%C).
  Proof. intros P Q h ch k s l Sp M. rewrite (P h ch k s l Sp M) at 1. rewrite (Q h ch k s l Sp M) at 1. rewrite conj_add. reflexivity. Qed.
  Lemma cscale_opp q z : (Cscale q (- z) == - Cscale q z)%C. Proof. split; unfold Cscale, Cneg; cbn [re im]; ring. Qed.
  Lemma tsymmetric_scale q G : symmetric_T ph G -> symmetric_T ph (fun h ch k s l => Cscale q (G h ch k s l)).
  Proof.
    intros [P1 P2 P3 P4 P5]. split.
    - intros h ch k s f f' l l' Sp M M' L L' F. rewrite (P1 h ch k s f f' l l') by assumption. reflexivity.
    - intros h ch ch' fl k s l H M Sp. rewrite (P2 h ch ch' fl) by assumption. apply cscale_opp.
    - intros h ch ch' fl k s l H M Sp. rewrite (P3 h ch ch' fl) by assumption. apply cscale_opp.
    - intros h ch ch' fl k s l H M Sp. rewrite (P4 h ch ch' fl), Cconj_scale by assumption. reflexivity.
    - intros Ph h ch k s l Sp M. unfold Cscale. cbn [im]. rewrite (P5 Ph) by assumption. ring.
  Qed.
  Lemma treversible_scale q G : reversible_T G -> reversible_T (fun h ch k s l => Cscale q (G h ch k s l)).
  Proof. intros P h ch k s l Sp M. rewrite (P h ch k s l Sp M) at 1. rewrite Cconj_scale. reflexivity. Qed.
  Lemma tsymmetric_halves G : symmetric_T ph G -> symmetric_T ph (fun h => G (negb h)).
  Proof.
    intros [P1 P2 P3 P4 P5]. split.
    - intros h ch k s f f' l l' Sp M M' L L' F. apply (P1 (negb h) ch k s f f' l l'); assumption.
    - intros h ch ch' fl k s l H M Sp. rewrite (P2 (negb h) ch ch' fl), Bool.negb_xorb_l by assumption. reflexivity.
    - intros h ch ch' fl k s l H M Sp. rewrite (P3 (negb h) ch ch' fl), Bool.negb_xorb_l by assumption. reflexivity.
    - intros h ch ch' fl k s l H M Sp. rewrite (P4 (negb h) ch ch' fl), Bool.negb_xorb_l by assumption. reflexivity.
    - intros Ph h. apply (P5 Ph).
  Qed.

  (** equal at the Matsubara frequencies *)
  Definition tsame_vert (v v' : vert) : Prop :=
    (forall ch k s f, spin01 s -> (class_of (channel_of v ch) k s 0 f == class_of (channel_of v' ch) k s 0 f)%C) /\
    (forall s f, spin01 s -> (irr v s 0 f == irr v' s 0 f)%C).
  Lemma tobeys_ext u v1 v2 w1 w2 : tsame_vert v1 w1 -> tsame_vert v2 w2 -> tobeys ph u v1 v2 -> tobeys ph u w1 w2.
  Proof.
    intros (E1 & F1) (E2 & F2) [N P R B].
    assert (S : tsame (on_tlegs v1 v2) (on_tlegs w1 w2)).
    { intros h ch k s l Sp M. unfold on_tlegs. destruct h; auto. }
    split.
    - intros h ch k s w v v' w' y y' Sp A A' A'' X X' X''. specialize (N h ch k s w v v' w' y y' Sp A A' A'' X X' X'').
      destruct h; [rewrite <- !E2 by assumption|rewrite <- !E1 by assumption]; exact N.
    - exact (tsymmetric_ext _ _ S P).
    - exact (treversible_ext _ _ S R).
    - intros h s f Sp. specialize (B h s f Sp). destruct h; [rewrite <- F2 by assumption|rewrite <- F1 by assumption]; exact B.
  Qed.
  Lemma tobeys_swap u v1 v2 : tobeys ph u v1 v2 -> tobeys ph u v2 v1.
  Proof.
    intros [N P R B].
    assert (S : tsame (fun h => on_tlegs v1 v2 (negb h)) (on_tlegs v2 v1)).
    { intros h ch k s l Sp M. unfold on_tlegs. destruct h; reflexivity. }
    split.
    - intros h. specialize (N (negb h)). destruct h; exact N.
    - apply (tsymmetric_ext _ _ S). apply (tsymmetric_halves _ P).
    - apply (treversible_ext _ _ S). intros h. exact (R (negb h)).
    - intros h s f Sp. specialize (B (negb h) s f Sp). destruct h; exact B.
  Qed.
  Lemma tobeys_add u u' v1 v2 w1 w2 : tobeys ph u v1 v2 -> tobeys ph u' w1 w2 -> tobeys ph (u + u') (vadd v1 w1) (vadd v2 w2).
  Proof.
    intros [N P R B] [N' P' R' B'].
    assert (S : tsame (fun h ch k s l => (on_tlegs v1 v2 h ch k s l + on_tlegs w1 w2 h ch k s l)%C) (on_tlegs (vadd v1 w1) (vadd v2 w2))).
    { intros h ch k s l Sp M. unfold on_tlegs. destruct h; rewrite class_vadd; reflexivity. }
    split.
    - intros h ch k s w v v' w' y y' Sp A A' A'' X X' X''. specialize (N h ch k s w v v' w' y y' Sp A A' A'' X X' X'').
      specialize (N' h ch k s w v v' w' y y' Sp A A' A'' X X' X''). destruct h; rewrite !class_vadd, N, N'; reflexivity.
    - apply (tsymmetric_ext _ _ S), tsymmetric_add; assumption.
    - apply (treversible_ext _ _ S), treversible_add; assumption.
    - intros h s f Sp. transitivity (Cofq (if s =? 0 then u else - u) + Cofq (if s =? 0 then u' else - u'))%C.
      + rewrite <- (B h s f), <- (B' h s f) by assumption. destruct h; reflexivity.
      + destruct (s =? 0); split; unfold Cadd, Cofq; cbn [re im]; ring.
  Qed.
  Lemma tobeys_half u v1 v2 : tobeys ph u v1 v2 -> tobeys ph ((1 # 2) * u) (vhalf v1) (vhalf v2).
  Proof.
    intros [N P R B].
    assert (S : tsame (fun h ch k s l => Cscale (1 # 2) (on_tlegs v1 v2 h ch k s l)) (on_tlegs (vhalf v1) (vhalf v2))).
    { intros h ch k s l Sp M. unfold on_tlegs. destruct h; rewrite class_vhalf; reflexivity. }
    split.
    - intros h ch k s w v v' w' y y' Sp A A' A'' X X' X''. specialize (N h ch k s w v v' w' y y' Sp A A' A'' X X' X'').
      destruct h; rewrite !class_vhalf, N; reflexivity.
    - apply (tsymmetric_ext _ _ S), tsymmetric_scale; assumption.
    - apply (treversible_ext _ _ S), treversible_scale; assumption.
    - intros h s f Sp. transitivity (Cscale (1 # 2) (Cofq (if s =? 0 then u else - u)))%C.
      + rewrite <- (B h s f) by assumption. destruct h; reflexivity.
      + destruct (s =? 0); split; unfold Cscale, Cofq; cbn [re im]; ring.
  Qed.
  Lemma tobeys_bare_m u u' v1 v2 : (u == u')%Q -> tobeys ph u v1 v2 -> tobeys ph u' v1 v2.
  Proof.
    intros E [N P R B]. split; try assumption. intros h s f Sp. rewrite (B h s f Sp). destruct (s =? 0); split; unfold Cofq; cbn [re im]; rewrite ?E; reflexivity.
  Qed.
  (** central contributions: K2 of the first and K2' of the second half *)
  Lemma tobeys_symmetrise cr cl : tobeys ph 0 cr cl -> tsymmetric ph 0 (Mlp_Model.symmetrise data dadd dhalf true cr cl).
  Proof.
    intros [N P R B].
    set (G := fun (_ : bool) ch k s l => match k with
      | k2 => on_tlegs cr cl false ch k2 s l | k2b => on_tlegs cr cl true ch k2b s l
      | _ => Cscale (1 # 2) (on_tlegs cr cl false ch k s l + on_tlegs cr cl true ch k s l)%C end).
    set (x := Mlp_Model.symmetrise data dadd dhalf true cr cl).
    assert (D : forall z, (Cscale (1 # 2) (z + z) == z)%C) by (intros z; split; unfold Cscale, Cadd; cbn [re im]; ring).
    assert (X : forall ch k s iK f, (class_of (channel_of x ch) k s iK f == match k with
      | k2 => class_of (channel_of cr ch) k2 s iK f | k2b => class_of (channel_of cl ch) k2b s iK f
      | _ => Cscale (1 # 2) (class_of (channel_of cr ch) k s iK f + class_of (channel_of cl ch) k s iK f) end)%C).
    { intros ch k s iK f. unfold x, Mlp_Model.symmetrise. rewrite class_vhalf, class_vadd.
      destruct ch, k; cbn [class_of channel_of Mlp_Model.va Mlp_Model.vp Mlp_Model.vt Mlp_Model.set_K2 Mlp_Model.set_K2b Mlp_Model.K1 Mlp_Model.K2 Mlp_Model.K2b Mlp_Model.K3];
      rewrite ?D; reflexivity. }
    assert (S : tsame G (on_tlegs x x)).
    { intros h ch k s l Sp M. unfold on_tlegs, G. replace (if h then x else x) with x by (destruct h; reflexivity). unfold on_tlegs.
      rewrite X; destruct k; reflexivity. }
    destruct P as [P1 P2 P3 P4 P5]. split.
    - intros h ch k s w v v' w' y y' Sp A A' A'' Y Y' Y''. replace (if h then x else x) with x by (destruct h; reflexivity). rewrite !X.
      pose proof (N false ch k s w v v' w' y y' Sp A A' A'' Y Y' Y'') as Z. pose proof (N true ch k s w v v' w' y y' Sp A A' A'' Y Y' Y'') as Z'. cbn match in Z, Z'.
      destruct k; rewrite ?Z, ?Z'; reflexivity.
    - apply (tsymmetric_ext _ _ S). unfold G. split.
      + intros h ch k s f f' l l' Sp M M' L L' F.
        destruct k; rewrite ?(P1 false ch _ s f f' l l'), ?(P1 true ch _ s f f' l l') by assumption; reflexivity.
      + intros h ch ch' fl k s l H M Sp.
        destruct fl, k; cbn [mirror]; rewrite ?(P2 false ch ch' _ _ _ _ H), ?(P2 true ch ch' _ _ _ _ H) by assumption; cbn [xorb mirror];
        rewrite <- ?cscale_opp; try reflexivity; apply Cscale_m; try reflexivity; ring.
      + intros h ch ch' fl k s l H M Sp.
        destruct fl, k; cbn [mirror]; rewrite ?(P3 false ch ch' _ _ _ _ H), ?(P3 true ch ch' _ _ _ _ H) by assumption; cbn [xorb mirror];
        rewrite <- ?cscale_opp; try reflexivity; apply Cscale_m; try reflexivity; ring.
      + intros h ch ch' fl k s l H M Sp.
        destruct fl, k; cbn [mirror]; rewrite ?(P4 false ch ch' _ _ _ _ H), ?(P4 true ch ch' _ _ _ _ H) by assumption; cbn [xorb mirror];
        rewrite ?Cconj_scale, ?conj_add; try reflexivity; apply Cscale_m; try reflexivity; ring.
      + intros Ph h ch k s l Sp M. destruct k; unfold Cscale, Cadd; cbn [im]; rewrite ?(P5 Ph) by assumption; reflexivity.
    - apply (treversible_ext _ _ S). unfold G. intros h ch k s l Sp M.
      pose proof (R false ch k s l Sp M) as A. pose proof (R true ch k s l Sp M) as A'.
      destruct k; try exact A; try exact A'; rewrite A at 1; rewrite A' at 1; rewrite Cconj_scale, conj_add; reflexivity.
    - intros h s f Sp. pose proof (B false s f Sp) as A. pose proof (B true s f Sp) as A'. cbn match in A, A'.
      replace (if h then x else x) with x by (destruct h; reflexivity).
      change (irr x s 0 f) with (Cscale (1 # 2) (irr cr s 0 f + irr cl s 0 f)%C). rewrite A, A'. apply D.
  Qed.
End Families.
