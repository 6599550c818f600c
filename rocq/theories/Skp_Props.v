(** C124: summing over the internal Keldysh indices outside of the integral gives the same bubble, although for vertices of the first
    class (MAX_DIAG_CLASS 1) further components are left out. *)
From Coq Require Import QArith Lqa.
From Verif Require Import Prelude Cplx Keld_Model Keld_Spec Keld_Proofs Keld_Proofs2 Keld_Props Skp_Model Skp_Spec.
Open Scope Z_scope.

Section Sum.
  Variables (J : (Q -> cplx) -> cplx) (ch : chan) (diff : bool) (g s : prop) (VL VR : Q -> Z -> Z -> cplx) (w : Q) (i0 : Z).
  Hypothesis HJ : linear J.
  Lemma J_zero : (J (fun _ => C0) == C0)%C.
  Proof.
    destruct HJ as (Ext & _ & Sc). rewrite (Ext _ (fun x => C0 * (fun _ => C0) x)%C) by (intros; ring). rewrite (Sc C0). ring.
  Qed.
  Definition term (p : Z * Z) (vpp : Q) : option cplx := integrand_term ch 0 (snd p) i0 (fst p) (VL vpp) (VR vpp) (bubble_value_ch diff g s (fst p) w vpp ch).
  Lemma fold_out l : (forall p vpp, In p l -> exists x, term p vpp = Some x) -> forall a,
    (fold_left (fun acc p => (acc + J (fun vpp => oval (term p vpp)))%C) l (J a) ==
     J (fun vpp => oval (fold_left (fun acc p => y <- acc ;; t <- term p vpp ;; Some (y + t)%C) l (Some (a vpp)))))%C.
  Proof.
    destruct HJ as (Ext & Ad & _). 
    assert (Mo : forall (l : list (Z * Z)) x y, (x == y)%C -> (fold_left (fun acc p => (acc + J (fun vpp => oval (term p vpp)))%C) l x ==
      fold_left (fun acc p => (acc + J (fun vpp => oval (term p vpp)))%C) l y)%C).
    { clear l. intros l. induction l as [|p l' IH]; intros x y E; cbn [fold_left]; [exact E|]. apply IH. rewrite E. reflexivity. }
    induction l as [|p l' IH]; intros H a; cbn [fold_left].
    - apply Ext. intros vpp. reflexivity.
    - rewrite (Mo l' _ (J (fun vpp => a vpp + oval (term p vpp))%C)) by (symmetry; apply Ad).
      rewrite IH by (intros q vpp Hq; apply H; right; exact Hq). apply Ext. intros vpp. destruct (H p vpp (or_introl eq_refl)) as (x & E).
      rewrite E. cbn [obind oval]. reflexivity.
  Qed.
End Sum.

Lemma term_some ch e1' e2' e1 e2 diff g s VL VR w p vpp : In p (list_prod glb_non_zero_Keldysh_bubble (n_spin_sum ch 0)) ->
  exists x, term ch diff g s VL VR w (code4 e1' e2' e1 e2) p vpp = Some x.
Proof.
  intros H. unfold term, integrand_term. destruct ch; cbn [n_spin_sum list_prod glb_non_zero_Keldysh_bubble map app In] in H;
  repeat (destruct H as [<-|H]; [cbn [fst snd]; destruct e1', e2', e1, e2; eexists; reflexivity|]); destruct H.
Qed.
Lemma fold_terms (F H : Z * Z -> cplx) l : (forall p, In p l -> (F p == H p)%C) -> forall a b, (a == b)%C ->
  (fold_left (fun acc p => (acc + F p)%C) l a == fold_left (fun acc p => (acc + H p)%C) l b)%C.
Proof.
  induction l as [|p l IH]; intros E a b Ea; cbn [fold_left]; [exact Ea|]. apply IH; [intros q Hq; apply E; right; exact Hq|].
  rewrite Ea, (E p (or_introl eq_refl)). reflexivity.
Qed.
Lemma fold_ext J (f h : Z * Z -> Q -> option cplx) l : linear J -> (forall p vpp, In p l -> (oval (f p vpp) == oval (h p vpp))%C) ->
  (fold_left (fun acc p => (acc + J (fun vpp => oval (f p vpp)))%C) l C0 == fold_left (fun acc p => (acc + J (fun vpp => oval (h p vpp)))%C) l C0)%C.
Proof. intros (Ext & _) E. apply (fold_terms (fun p => J (fun vpp => oval (f p vpp))) (fun p => J (fun vpp => oval (h p vpp)))); [|reflexivity]. intros p Hp. apply Ext. intros vpp. apply E; exact Hp. Qed.
Lemma outer_plain J ch diff g s VL VR w e1' e2' e1 e2 : linear J ->
  (fold_left (fun acc p => (acc + J (fun vpp => oval (term ch diff g s VL VR w (code4 e1' e2' e1 e2) p vpp)))%C)
     (list_prod glb_non_zero_Keldysh_bubble (n_spin_sum ch 0)) C0 ==
   J (fun vpp => oval (integrand_by_components ch 0 (code4 e1' e2' e1 e2) (VL vpp) (VR vpp) (fun i2 => bubble_value_ch diff g s i2 w vpp ch))))%C.
Proof.
  intros HJ. pose proof (fold_out J ch diff g s VL VR w (code4 e1' e2' e1 e2) HJ _ (fun p vpp => term_some ch e1' e2' e1 e2 diff g s VL VR w p vpp) (fun _ => C0)) as F.
  unfold integrand_by_components, term in *. etransitivity; [|exact F].
  generalize (list_prod glb_non_zero_Keldysh_bubble (n_spin_sum ch 0)). intros l. pose proof (J_zero J HJ) as Z.
  revert Z. generalize (J (fun _ => C0)). generalize C0 at 1 2.
  induction l as [|p l IH]; intros x y E; cbn [fold_left]; [symmetry; exact E|]. apply IH. rewrite E. reflexivity.
Qed.

(** K2 and K3 in memory, or a differentiated bubble: any vertices *)
Theorem C124_outer_sum_is_inner_sum : forall J max_diag_class ch diff g s VL VR w e1' e2' e1 e2,
  linear J -> prop_ok g -> prop_ok s -> 2 <= max_diag_class \/ diff = true ->
  exists entry,
    (forall vpp, exists l, integrand_vectorized ch 0 (VL vpp) (VR vpp) (value_vectorized ch diff g s w vpp) = Some l /\
       nth_error l (Z.to_nat (code4 e1' e2' e1 e2)) = Some (entry vpp)) /\
    (outer_sum J max_diag_class ch diff g s VL VR w (code4 e1' e2' e1 e2) == J entry)%C.
Proof.
  intros J m ch diff g s VL VR w e1' e2' e1 e2 HJ Hg Hs Hm.
  assert (N0 : forall i0 i2, case_always_has_to_be_zero m diff ch i0 i2 = false).
  { intros i0 i2. unfold case_always_has_to_be_zero. destruct Hm as [Hm| ->]; [|destruct (m <=? 1); reflexivity].
    destruct (Z.leb_spec m 1); [lia|reflexivity]. }
  set (entry vpp := match integrand_vectorized ch 0 (VL vpp) (VR vpp) (value_vectorized ch diff g s w vpp) with
    Some l => nth (Z.to_nat (code4 e1' e2' e1 e2)) l C0 | None => C0 end).
  assert (P : forall vpp, exists l y, integrand_vectorized ch 0 (VL vpp) (VR vpp) (value_vectorized ch diff g s w vpp) = Some l /\
    nth_error l (Z.to_nat (code4 e1' e2' e1 e2)) = Some (entry vpp) /\
    integrand_by_components ch 0 (code4 e1' e2' e1 e2) (VL vpp) (VR vpp) (fun i2 => bubble_value_ch diff g s i2 w vpp ch) = Some y /\ (entry vpp == y)%C).
  { intros vpp. destruct (C15_sum_over_listed_components_suffices ch (VL vpp) (VR vpp) diff g s w vpp Hg Hs) as (l & E & H).
    destruct (H e1' e2' e1 e2) as (x & y & Ex & Ey & Exy). exists l, y.
    assert (En : entry vpp = x) by (unfold entry; rewrite E; apply nth_error_nth; exact Ex). rewrite En. auto. }
  exists entry. split; [intros vpp; destruct (P vpp) as (l & y & A & B & _); exists l; auto|].
  unfold outer_sum. pose proof (outer_plain J ch diff g s VL VR w e1' e2' e1 e2 HJ) as O. unfold integrand_at. 
  transitivity (J (fun vpp => oval (integrand_by_components ch 0 (code4 e1' e2' e1 e2) (VL vpp) (VR vpp) (fun i2 => bubble_value_ch diff g s i2 w vpp ch)))).
  - rewrite <- O. apply fold_ext; [exact HJ|]. intros p vpp _. rewrite N0. reflexivity.
  - apply HJ. intros vpp. destruct (P vpp) as (l & y & _ & _ & E & Ey). rewrite E. cbn [oval]. symmetry. exact Ey.
Qed.
Print Assumptions C124_outer_sum_is_inner_sum.

(** vertices of the first class *)
Lemma term_shape ch e1' e2' e1 e2 diff g s VL VR w p : In p (list_prod glb_non_zero_Keldysh_bubble (n_spin_sum ch 0)) ->
  exists q sl sr kl kr, indices_sum (code4 e1' e2' e1 e2) (fst p) ch = Some (kl, kr) /\
    forall vpp, (oval (term ch diff g s VL VR w (code4 e1' e2' e1 e2) p vpp) ==
                 q * VL vpp sl kl * VR vpp sr kr * bubble_value_ch diff g s (fst p) w vpp ch)%C.
Proof.
  intros H. destruct (indices_sum (code4 e1' e2' e1 e2) (fst p) ch) as [(kl, kr)|] eqn:E.
  - exists (match ch, snd p with Ct, 0 => Cofq 2 | _, _ => C1 end), (match ch, snd p with Ct, 2 => 1 | _, _ => 0 end), (match ch, snd p with Ct, 1 => 1 | _, _ => 0 end), kl, kr.
    split; [reflexivity|]. intros vpp. unfold term, integrand_term. rewrite E. cbn [obind fst snd].
    destruct ch; cbn [n_spin_sum] in H; [ring_simplify; cbn [oval]; ring|cbn [oval]; ring|].
    apply in_prod_iff in H || idtac. destruct p as (i2, i). cbn [fst snd] in *.
    apply in_prod_iff in H. destruct H as (_ & [<-|[<-|[<-|[]]]]); cbn [oval]; change (1 - 0) with 1; ring.
  - exfalso. destruct p as (i2, i). cbn [fst] in E. apply in_prod_iff in H. destruct H as (H & _). cbn [glb_non_zero_Keldysh_bubble In] in H.
    repeat (destruct H as [<-|H]; [destruct ch, e1', e2', e1, e2; discriminate E|]). destruct H.
Qed.
(** a vertex that does not appear, or two lines that are analytic in the same half plane *)
Definition quiet (ch : chan) (k : Z) : bool :=
  existsb (fun t => let '(a, b, c, d) := t in (code4 a b c d =? k) && left_even ch a b c d && right_even ch a b c d)
    (map (fun i => (Z.testbit i 3, Z.testbit i 2, Z.testbit i 1, Z.testbit i 0)) [0; 1; 2; 3; 4; 5; 6; 7; 8; 9; 10; 11; 12; 13; 14; 15]).
Definition same_side (ch : chan) (i2 : Z) : bool := match ch with Cp => (i2 =? 6) || (i2 =? 9) | _ => (i2 =? 3) || (i2 =? 12) end.
Lemma skipped_reason m ch e1' e2' e1 e2 i2 kl kr : In i2 glb_non_zero_Keldysh_bubble ->
  case_always_has_to_be_zero m false ch (code4 e1' e2' e1 e2) i2 = true -> indices_sum (code4 e1' e2' e1 e2) i2 ch = Some (kl, kr) ->
  quiet ch kl || quiet ch kr || same_side ch i2 = true.
Proof.
  intros H S E. unfold case_always_has_to_be_zero in S. destruct (m <=? 1); [|discriminate S]. cbn [negb] in S.
  cbn [glb_non_zero_Keldysh_bubble In] in H.
  repeat (destruct H as [<-|H]; [destruct ch, e1', e2', e1, e2; first [discriminate S|injection E as <- <-; reflexivity]|]). destruct H.
Qed.
Lemma quiet_zero ch V k x s : first_class ch V -> quiet ch k = true -> (V x s k == C0)%C.
Proof.
  intros (_ & H) Qk. unfold quiet in Qk. apply existsb_exists in Qk. destruct Qk as ((((a, b), c), d) & _ & E).
  apply andb_true_iff in E. destruct E as (E & E3). apply andb_true_iff in E. destruct E as (E1 & E2). apply Z.eqb_eq in E1. subst k. apply H; assumption.
Qed.
Lemma same_side_zero J ch g s w i2 : linear J -> prop_ok g -> closes J ch g w -> same_side ch i2 = true ->
  (J (fun x => bubble_value_ch false g s i2 w x ch) == C0)%C.
Proof.
  intros (Ext & _) (Rm & _) Cl H. unfold same_side in H.
  assert (X : forall x y, (x == y)%Q -> (Cconj (gR g x) == Cconj (gR g y))%C) by (intros x y E; rewrite (Rm x y E); reflexivity).
  destruct ch; apply orb_true_iff in H; destruct H as [H|H]; apply Z.eqb_eq in H; subst i2; cbn [closes] in Cl; unfold bubble_value_ch, bubble_value; cbn [line1 line2] in Cl;
  destruct Cl as (C1' & C2'); [exact C2'|exact C1'| | |exact C2'|exact C1'].
  - rewrite <- C2'. apply Ext. intros x. rewrite (X (w / 2 + x) (x + w / 2))%Q by ring. reflexivity.
  - rewrite <- C1'. apply Ext. intros x. rewrite (Rm (w / 2 + x) (x + w / 2))%Q by ring. reflexivity.
Qed.
Theorem C124_left_out_components_vanish : forall J max_diag_class ch g s VL VR w e1' e2' e1 e2,
  linear J -> prop_ok g -> prop_ok s -> first_class ch VL -> first_class ch VR -> closes J ch g w ->
  exists entry,
    (forall vpp, exists l, integrand_vectorized ch 0 (VL vpp) (VR vpp) (value_vectorized ch false g s w vpp) = Some l /\
       nth_error l (Z.to_nat (code4 e1' e2' e1 e2)) = Some (entry vpp)) /\
    (outer_sum J max_diag_class ch false g s VL VR w (code4 e1' e2' e1 e2) == J entry)%C.
Proof.
  intros J m ch g s VL VR w e1' e2' e1 e2 HJ Hg Hs HL HR Cl.
  destruct (C124_outer_sum_is_inner_sum J 2 ch false g s VL VR w e1' e2' e1 e2 HJ Hg Hs) as (entry & A & B); [left; lia|].
  exists entry. split; [exact A|]. rewrite <- B. unfold outer_sum. pose proof HJ as (Ext & _ & Sc).
  apply (fold_terms (fun p => J (fun vpp => oval (integrand_at m ch false g s VL VR w (code4 e1' e2' e1 e2) (fst p) (snd p) vpp)))
    (fun p => J (fun vpp => oval (integrand_at 2 ch false g s VL VR w (code4 e1' e2' e1 e2) (fst p) (snd p) vpp)))); [|reflexivity].
  intros p Hp. transitivity (J (fun vpp => oval (term ch false g s VL VR w (code4 e1' e2' e1 e2) p vpp))); [|reflexivity].
  unfold integrand_at. destruct (case_always_has_to_be_zero m false ch (code4 e1' e2' e1 e2) (fst p)) eqn:S; [|reflexivity].
  cbn [oval]. rewrite (J_zero J HJ). symmetry.
  destruct (term_shape ch e1' e2' e1 e2 false g s VL VR w p Hp) as (q & sl & sr & kl & kr & E & T).
  assert (I2 : In (fst p) glb_non_zero_Keldysh_bubble) by (destruct p as (i2, i); apply in_prod_iff in Hp; apply Hp).
  pose proof (skipped_reason m ch e1' e2' e1 e2 (fst p) kl kr I2 S E) as R.
  rewrite (Ext _ (fun vpp => (q * VL 0%Q sl kl * VR 0%Q sr kr) * bubble_value_ch false g s (fst p) w vpp ch)%C).
  2:{ intros vpp. rewrite T, (proj1 HL vpp 0%Q sl kl), (proj1 HR vpp 0%Q sr kr). reflexivity. }
  rewrite Sc. apply orb_true_iff in R. destruct R as [R|R]; [apply orb_true_iff in R; destruct R as [R|R]|].
  - rewrite (quiet_zero ch VL kl 0%Q sl HL R). ring.
  - rewrite (quiet_zero ch VR kr 0%Q sr HR R). ring.
  - rewrite (same_side_zero J ch g s w (fst p) HJ Hg Cl R). ring.
Qed.
Print Assumptions C124_left_out_components_vanish.

(** an example *)
Definition Jd (f : Q -> cplx) : cplx := (f 1%Q - f (-1)%Q)%C.
Lemma Jd_linear : linear Jd.
Proof.
  unfold Jd. split; [|split].
  - intros f h E. rewrite (E 1%Q), (E (-1)%Q). reflexivity.
  - intros f h. ring.
  - intros z f. ring.
Qed.
Definition gd : prop := Prop_ (fun _ => Cplx 2 (-1)) (fun v => Cplx 0 v).
Lemma gd_ok : prop_ok gd.
Proof. split; intros x y E; cbn [gd gR gK]; [reflexivity|]. split; cbn [re im]; [reflexivity|exact E]. Qed.
Definition Vd (ch : chan) : Q -> Z -> Z -> cplx := fun _ s k => if quiet ch k then C0 else Cplx (inject_Z (k + s)) (inject_Z (k * k)).
Lemma Vd_first ch : first_class ch (Vd ch).
Proof.
  split; [reflexivity|]. intros x s a b c d A B. unfold Vd. replace (quiet ch (code4 a b c d)) with true; [reflexivity|].
  destruct ch, a, b, c, d; first [discriminate A|discriminate B|reflexivity].
Qed.
Lemma Jd_closes ch w : closes Jd ch gd w.
Proof. destruct ch; cbn [closes gd gR]; unfold Jd; split; ring. Qed.
Definition show1 (z : cplx) : Q * Q := (Qred (re z), Qred (im z)).
Example C124_hyp : linear Jd /\ prop_ok gd /\ (forall ch, first_class ch (Vd ch)) /\ (forall ch w, closes Jd ch gd w) /\
  map (fun ch => show1 (outer_sum Jd 1 ch false gd gd (Vd ch) (Vd ch) 2 1)) [Ca; Cp; Ct] = [(2492, -14056); (156, -2392); (542, -36178)]%Q.
Proof.
  split; [exact Jd_linear|]. split; [exact gd_ok|]. split; [exact Vd_first|]. split; [exact Jd_closes|]. vm_compute. reflexivity.
Qed.
