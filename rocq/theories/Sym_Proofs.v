(** Proofs about the symmetry operations (C17, C18). *)
From Coq Require Import QArith Lqa.
From Verif Require Import Prelude Keld_Model Keld_Proofs Util_Model Util_Spec Util_Proofs Sym_Model Sym_Spec.
Open Scope Z_scope.

Lemma signFlip_value : forall w n, (w == inject_Z (2 * n))%Q ->
  signFlipCorrection_MF w = Some (inject_Z (Z.rem (- Z.abs n) 2) * 2)%Q.
Proof.
  intros w n E. unfold signFlipCorrection_MF, signFlipCorrection_MF_int.
  assert (H : to_int (Qabs' (w / 2)) = Z.abs n).
  { unfold to_int, Qabs'. assert (E2 : (w / 2 == inject_Z n)%Q) by (rewrite E; injz; field).
    destruct (Qle_boolP 0 (w / 2)) as [L|L].
    - assert (0 <= n). { rewrite Zle_Qle. rewrite <- E2. exact L. }
      destruct (Qle_boolP 0 (w / 2)) as [_|N]; [|contradiction].
      rewrite Z.abs_eq by lia. apply Qfloor_unique; rewrite E2; injz; lra.
    - assert (n < 0). { rewrite Zlt_Qlt. rewrite <- E2. apply Qnot_le_lt. exact L. }
      destruct (Qle_boolP 0 (- (w / 2))) as [_|N].
      + rewrite Z.abs_neq by lia. apply Qfloor_unique; rewrite E2; injz; lra.
      + exfalso. apply N. assert (w / 2 < 0)%Q by (apply Qnot_le_lt; exact L). lra. }
  rewrite H.
  assert (R : Z.rem (- Z.abs n) 2 = 0 \/ Z.rem (- Z.abs n) 2 = -1).
  { rewrite Z.rem_opp_l by lia. rewrite Z.rem_mod_nonneg by lia.
    pose proof (Z.mod_pos_bound (Z.abs n) 2 ltac:(lia)). lia. }
  destruct R as [R|R]; rewrite R; reflexivity.
Qed.

Lemma corr_ex : forall c x, (mf c = true -> bosonic x) ->
  exists r, forall y, (y == x \/ y == - x)%Q -> corr c y = Some r.
Proof.
  intros c x H. unfold corr. destruct (mf c).
  - destruct (H eq_refl) as (n & E). exists (inject_Z (Z.rem (- Z.abs n) 2) * 2)%Q. intros y [Ey|Ey].
    + apply signFlip_value. rewrite Ey. exact E.
    + rewrite <- Z.abs_opp. apply signFlip_value. rewrite Ey, E. injz. ring.
  - exists 0%Q. reflexivity.
Qed.

(** the group generated by the exchange of index pairs *)
Lemma swap_group : forall k, 0 <= k < 16 -> exists x23 x01 x3 y y23 y01 y3,
  (swap23 k = Some x23 /\ swap23 x23 = Some k /\ swap23 x01 = Some x3 /\ swap23 x3 = Some x01 /\
   swap23 y = Some y23 /\ swap23 y23 = Some y /\ swap23 y01 = Some y3 /\ swap23 y3 = Some y01) /\
  (swap01 k = Some x01 /\ swap01 x01 = Some k /\ swap01 x23 = Some x3 /\ swap01 x3 = Some x23 /\
   swap01 y = Some y01 /\ swap01 y01 = Some y /\ swap01 y23 = Some y3 /\ swap01 y3 = Some y23) /\
  (swapC k = Some y /\ swapC y = Some k /\ swapC x23 = Some y01 /\ swapC y01 = Some x23 /\
   swapC x01 = Some y23 /\ swapC y23 = Some x01 /\ swapC x3 = Some y3 /\ swapC y3 = Some x3) /\
  (forall z, In z [x23; x01; x3; y; y23; y01; y3] ->
     0 <= z < 16 /\ isInList z odd_Keldysh = isInList k odd_Keldysh).
Proof.
  intros k H.
  pose (g := fun o : option Z => match o with Some z => z | None => 0 end).
  exists (g (swap23 k)), (g (swap01 k)), (g (swap01 (g (swap23 k)))), (g (swapC k)), (g (swap23 (g (swapC k)))),
    (g (swap01 (g (swapC k)))), (g (swap01 (g (swap23 (g (swapC k)))))).
  cases16 k H; subst g; cbv beta;
    (split; [repeat split; vm_compute; reflexivity|];
     split; [repeat split; vm_compute; reflexivity|];
     split; [repeat split; vm_compute; reflexivity|];
     apply Forall_forall; repeat (apply Forall_cons; [vm_compute; repeat split; discriminate|]); apply Forall_nil).
Qed.

Ltac fin :=
  match goal with |- oieq _ _ => unfold oieq; do 2 eexists; split; [reflexivity|split; [reflexivity|]] end;
  unfold ieq; cbn [iK spin w v1 v2 iw_r prefactor conjugate asymmetry_transform channel_rvert switch_channel];
  repeat apply conj;
  match goal with
  | |- _ = _ => first [reflexivity | lia | rewrite ?negb_involutive; reflexivity]
  | _ => idtac
  end.
Ltac red_ops :=
  unfold T3, T1, T2, TC, Tph, TR;
  cbn [obind iK spin w v1 v2 iw_r prefactor conjugate asymmetry_transform channel_rvert switch_channel
       keldysh phs contour nBOS3 zero_t andb].
Ltac srw :=
  repeat (first
    [ match goal with H : swap23 ?a = Some _ |- context [swap23 ?a] => rewrite H end
    | match goal with H : swap01 ?a = Some _ |- context [swap01 ?a] => rewrite H end
    | match goal with H : swapC ?a = Some _ |- context [swapC ?a] => rewrite H end
    | match goal with H : forall y, _ -> corr ?c y = Some _ |- context [corr ?c ?z] =>
        rewrite (H z) by (solve [left; ring | right; ring]) end ];
    cbn [obind iK spin w v1 v2 iw_r prefactor conjugate asymmetry_transform channel_rvert switch_channel
         keldysh phs contour nBOS3 zero_t andb]).
Ltac law :=
  let c := fresh "c" in let sbe := fresh "sbe" in let x := fresh "x" in
  intros c sbe x [Hk Hw]; destruct c as [[] zt ph co nb]; destruct x as [k s w0 a b iwr pf cj asy ch];
  cbn [keldysh iK w] in Hk, Hw;
  [ destruct (swap_group k (Hk eq_refl)) as
      (x23 & x01 & x3 & y & y23 & y01 & y3 & (?&?&?&?&?&?&?&?) & (?&?&?&?&?&?&?&?) & (?&?&?&?&?&?&?&?) & Hodd);
    assert (Ho : Forall (fun z => isInList z odd_Keldysh = isInList k odd_Keldysh) [x23; x01; x3; y; y23; y01; y3])
      by (apply Forall_forall; intros z Hz; apply Hodd; exact Hz);
    repeat match goal with H : Forall _ (_ :: _) |- _ => inversion H; clear H; subst end
  | ];
  destruct (corr_ex _ w0 Hw) as (r & Hr);
  try (assert (Hr0 : r = 0%Q) by
    (pose proof (Hr w0 (or_introl (Qeq_refl _))) as Hr0; unfold corr, mf in Hr0; cbn [keldysh negb andb] in Hr0;
     congruence); subst r);
  destruct ph, ch; red_ops; srw; fin;
  [ .. ];
  unfold conj_sign; cbn [contour];
  repeat match goal with H : isInList ?a odd_Keldysh = _ |- context [isInList ?a odd_Keldysh] => rewrite H end;
  destruct sbe; try (destruct co, (isInList k odd_Keldysh)); ring.

Lemma T1_involutive : forall c sbe x, wf c x -> oieq (y <- T1 c sbe x ;; T1 c sbe y) (Some x).
Proof. law. Qed.
Lemma T2_involutive : forall c sbe x, wf c x -> oieq (y <- T2 c sbe x ;; T2 c sbe y) (Some x).
Proof. law. Qed.
Lemma TC_involutive : forall c sbe x, wf c x -> oieq (y <- TC c sbe x ;; TC c sbe y) (Some x).
Proof. law. Qed.
Lemma T3_involutive : forall c sbe x, wf c x -> oieq (y <- T3 c sbe x ;; T3 c sbe y) (Some x).
Proof. law. Qed.
Lemma Tph_involutive : forall c sbe x, wf c x -> oieq (y <- Tph c sbe x ;; Tph c sbe y) (Some x).
Proof. law. Qed.
Lemma TR_involutive : forall c sbe x, wf c x -> oieq (y <- TR c sbe x ;; TR c sbe y) (Some x).
Proof. law. Qed.
Lemma T1_T2_commute : forall c sbe x, wf c x ->
  oieq (y <- T1 c sbe x ;; T2 c sbe y) (y <- T2 c sbe x ;; T1 c sbe y).
Proof. law. Qed.
Lemma T1_TC : forall c sbe x, wf c x ->
  oieq (y <- T1 c sbe x ;; TC c sbe y) (y <- TC c sbe x ;; T2 c sbe y).
Proof. law. Qed.
Lemma T2_TC : forall c sbe x, wf c x ->
  oieq (y <- T2 c sbe x ;; TC c sbe y) (y <- TC c sbe x ;; T1 c sbe y).
Proof. law. Qed.
Lemma T3_TC : forall c sbe x, wf c x ->
  oieq (y <- T3 c sbe x ;; TC c sbe y) (y <- TC c sbe x ;; T3 c sbe y).
Proof. law. Qed.
Lemma Tph_T1 : forall c sbe x, wf c x ->
  oieq (y <- Tph c sbe x ;; T1 c sbe y) (y <- T1 c sbe x ;; Tph c sbe y).
Proof. law. Qed.
Lemma Tph_T2 : forall c sbe x, wf c x ->
  oieq (y <- Tph c sbe x ;; T2 c sbe y) (y <- T2 c sbe x ;; Tph c sbe y).
Proof. law. Qed.
Lemma Tph_TC : forall c sbe x, wf c x ->
  oieq (y <- Tph c sbe x ;; TC c sbe y) (y <- TC c sbe x ;; Tph c sbe y).
Proof. law. Qed.
Lemma TR_T1 : forall c sbe x, wf c x ->
  oieq (y <- TR c sbe x ;; T1 c sbe y) (y <- T1 c sbe x ;; TR c sbe y).
Proof. law. Qed.
Lemma TR_T2 : forall c sbe x, wf c x ->
  oieq (y <- TR c sbe x ;; T2 c sbe y) (y <- T2 c sbe x ;; TR c sbe y).
Proof. law. Qed.
Lemma TR_TC : forall c sbe x, wf c x ->
  oieq (y <- TR c sbe x ;; TC c sbe y) (y <- TC c sbe x ;; TR c sbe y).
Proof. law. Qed.

(** composite operations *)
Lemma ieq_refl : forall x, ieq x x.
Proof. intro x. unfold ieq. repeat split; reflexivity. Qed.

Lemma compose_346 : forall c sbe x, wf c x ->
  oieq (y <- Tph c sbe x ;; z <- TC c sbe y ;; T3 c sbe z) (y <- T3 c sbe x ;; z <- TC c sbe y ;; Tph c sbe z).
Proof. law. Qed.
Lemma compose_347 : forall c sbe x, wf c x ->
  oieq (y <- TR c sbe x ;; z <- TC c sbe y ;; T3 c sbe z) (y <- T3 c sbe x ;; z <- TC c sbe y ;; TR c sbe z).
Proof. law. Qed.
Lemma compose_37 : forall c sbe x, wf c x ->
  oieq (y <- TR c sbe x ;; T3 c sbe y) (y <- T3 c sbe x ;; TR c sbe y).
Proof. law. Qed.
Lemma T3_TC' : forall c sbe x, wf c x ->
  oieq (y <- TC c sbe x ;; T3 c sbe y) (y <- T3 c sbe x ;; TC c sbe y).
Proof. law. Qed.
(** every operation is defined on valid input *)
Lemma T1_some : forall c sbe x, wf c x -> oieq (T1 c sbe x) (T1 c sbe x).
Proof. law. Qed.
Lemma T2_some : forall c sbe x, wf c x -> oieq (T2 c sbe x) (T2 c sbe x).
Proof. law. Qed.
Lemma T3_some : forall c sbe x, wf c x -> oieq (T3 c sbe x) (T3 c sbe x).
Proof. law. Qed.
Lemma TC_some : forall c sbe x, wf c x -> oieq (TC c sbe x) (TC c sbe x).
Proof. law. Qed.
Lemma Tph_some : forall c sbe x, wf c x -> oieq (Tph c sbe x) (Tph c sbe x).
Proof. law. Qed.
Lemma TR_some : forall c sbe x, wf c x -> oieq (TR c sbe x) (TR c sbe x).
Proof. law. Qed.
Lemma compose_14 : forall c sbe x, wf c x ->
  oieq (y <- T1 c sbe x ;; TC c sbe y) (y <- T1 c sbe x ;; TC c sbe y).
Proof. law. Qed.
Lemma compose_24 : forall c sbe x, wf c x ->
  oieq (y <- T2 c sbe x ;; TC c sbe y) (y <- T2 c sbe x ;; TC c sbe y).
Proof. law. Qed.
Lemma compose_41 : forall c sbe x, wf c x ->
  oieq (y <- TC c sbe x ;; T1 c sbe y) (y <- TC c sbe x ;; T1 c sbe y).
Proof. law. Qed.
Lemma compose_43 : forall c sbe x, wf c x ->
  oieq (y <- TC c sbe x ;; T3 c sbe y) (y <- TC c sbe x ;; T3 c sbe y).
Proof. law. Qed.
Lemma compose_16 : forall c sbe x, wf c x ->
  oieq (y <- T1 c sbe x ;; Tph c sbe y) (y <- T1 c sbe x ;; Tph c sbe y).
Proof. law. Qed.
Lemma compose_26 : forall c sbe x, wf c x ->
  oieq (y <- T2 c sbe x ;; Tph c sbe y) (y <- T2 c sbe x ;; Tph c sbe y).
Proof. law. Qed.
Lemma compose_36 : forall c sbe x, wf c x ->
  oieq (y <- T3 c sbe x ;; Tph c sbe y) (y <- T3 c sbe x ;; Tph c sbe y).
Proof. law. Qed.
Lemma compose_46 : forall c sbe x, wf c x ->
  oieq (y <- TC c sbe x ;; Tph c sbe y) (y <- TC c sbe x ;; Tph c sbe y).
Proof. law. Qed.
Lemma compose_146 : forall c sbe x, wf c x ->
  oieq (y <- T1 c sbe x ;; z <- TC c sbe y ;; Tph c sbe z) (y <- T1 c sbe x ;; z <- TC c sbe y ;; Tph c sbe z).
Proof. law. Qed.
Lemma compose_246 : forall c sbe x, wf c x ->
  oieq (y <- T2 c sbe x ;; z <- TC c sbe y ;; Tph c sbe z) (y <- T2 c sbe x ;; z <- TC c sbe y ;; Tph c sbe z).
Proof. law. Qed.
Lemma compose_47 : forall c sbe x, wf c x ->
  oieq (y <- TC c sbe x ;; TR c sbe y) (y <- TC c sbe x ;; TR c sbe y).
Proof. law. Qed.

Lemma obind_some : forall A (o : option A), (y <- o ;; Some y) = o.
Proof. intros A [a|]; reflexivity. Qed.
Lemma obind_assoc : forall A B C (o : option A) (f : A -> option B) (g : B -> option C),
  (z <- (y <- o ;; f y) ;; g z) = (y <- o ;; z <- f y ;; g z).
Proof. intros A B C [a|] f g; reflexivity. Qed.
Lemma obind_ext : forall A B (o : option A) (f g : A -> option B), (forall a, f a = g a) ->
  (y <- o ;; f y) = (y <- o ;; g y).
Proof. intros A B [a|] f g H; [apply H|reflexivity]. Qed.

Lemma compose1 : forall c sbe d x, compose c sbe [d] x = elementary c sbe d x.
Proof. intros. cbn [compose]. apply obind_some. Qed.
Lemma compose2 : forall c sbe d e x, compose c sbe [d; e] x = (y <- elementary c sbe d x ;; elementary c sbe e y).
Proof. intros. cbn [compose]. apply obind_ext. intro y. apply obind_some. Qed.
Lemma compose3 : forall c sbe d e f x, compose c sbe [d; e; f] x =
  (y <- elementary c sbe d x ;; z <- elementary c sbe e y ;; elementary c sbe f z).
Proof. intros. cbn [compose]. apply obind_ext. intro y. apply obind_ext. intro z. apply obind_some. Qed.

Lemma Ti_digits : forall c sbe x i, wf c x -> In i (codes c) ->
  oieq (Ti c sbe x i) (compose c sbe (digits i) x).
Proof.
  intros c sbe x i H Hi. unfold codes in Hi. apply in_app_or in Hi. destruct Hi as [Hi|Hi].
  - cbn [In] in Hi.
    repeat match goal with H : _ \/ _ |- _ => destruct H as [<-|H] end; [..|contradiction];
    match goal with |- oieq (Ti _ _ _ ?n) (compose _ _ (digits ?n) _) =>
      let d := eval vm_compute in (digits n) in change (digits n) with d end;
    unfold Ti; cbn [Z.eqb Pos.eqb andb]; rewrite ?compose1, ?compose2, ?compose3;
    unfold elementary; cbn [Z.eqb Pos.eqb compose];
    first [ solve [exists x, x; auto using ieq_refl]
          | apply T1_some; exact H | apply T2_some; exact H | apply T3_some; exact H | apply TC_some; exact H
          | apply compose_14; exact H | apply compose_24; exact H | apply compose_41; exact H
          | apply compose_43; exact H | apply T3_TC'; exact H | apply TR_some; exact H
          | apply compose_37; exact H | apply compose_47; exact H | apply compose_347; exact H ].
  - destruct (keldysh c && phs c) eqn:E; [|contradiction]. cbn [In] in Hi.
    repeat match goal with H : _ \/ _ |- _ => destruct H as [<-|H] end; [..|contradiction];
    match goal with |- oieq (Ti _ _ _ ?n) (compose _ _ (digits ?n) _) =>
      let d := eval vm_compute in (digits n) in change (digits n) with d end;
    unfold Ti; rewrite E; cbn [Z.eqb Pos.eqb andb]; rewrite ?compose1, ?compose2, ?compose3;
    unfold elementary; cbn [Z.eqb Pos.eqb compose];
    first [ apply Tph_some; exact H | apply compose_16; exact H | apply compose_26; exact H
          | apply compose_36; exact H | apply compose_46; exact H | apply compose_146; exact H
          | apply compose_246; exact H | apply compose_346; exact H ].
Qed.
Lemma Ti_other : forall c sbe x i, ~ In i (codes c) -> Ti c sbe x i = None.
Proof.
  intros c sbe x i H. unfold Ti. unfold codes in H.
  destruct (keldysh c && phs c); rewrite ?andb_false_r, ?andb_true_r;
  repeat match goal with |- context [i =? ?n] =>
    destruct (Z.eqb_spec i n) as [->|?]; [exfalso; apply H; cbn; tauto|] end; reflexivity.
Qed.
