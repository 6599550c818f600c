(** Proofs about check_symmetries. *)
From Coq Require Import QArith Setoid Morphisms.
From Verif Require Import Prelude Cplx Keld_Model Util_Model Util_Spec Sym_Model Sym_Spec Sym_Proofs Tab_Model Tab_Spec
  Rd_Model Rd_Spec Rd_Proofs Rd_Proofs3 Csy_Model.
Open Scope Z_scope.

Lemma Tph_channel c sb x y : Tph c sb x = Some y -> channel_rvert y = channel_rvert x.
Proof. unfold Tph. destruct (keldysh c && phs c); intros H; injection H as <-; reflexivity. Qed.
Lemma TR_channel c sb x y : TR c sb x = Some y -> channel_rvert y = channel_rvert x.
Proof.
  unfold TR. destruct (keldysh c); [intros H; injection H as <-; reflexivity|].
  destruct (corr c (w x * -1)); cbn [obind]; [|discriminate]. intros H; injection H as <-; reflexivity.
Qed.
Lemma switch_twice ch : switch_channel (switch_channel ch) = ch.
Proof. destruct ch; reflexivity. Qed.
Lemma T3_channel c sb x y : T3 c sb x = Some y -> channel_rvert y = channel_rvert x.
Proof.
  unfold T3. destruct (T1 c sb x) as [u|] eqn:E; cbn [obind]; [|discriminate]. intros H.
  apply T1_flags in E. apply T2_flags in H. rewrite (proj1 H), (proj1 E). apply switch_twice.
Qed.
Lemma TC_channel c sb x y : TC c sb x = Some y -> channel_rvert y = channel_rvert x.
Proof. intros H. apply TC_flags in H. apply H. Qed.
Lemma bind_channel (A B : indices -> option indices) x y :
  (forall x y, A x = Some y -> channel_rvert y = channel_rvert x) ->
  (forall x y, B x = Some y -> channel_rvert y = channel_rvert x) ->
  obind (A x) B = Some y -> channel_rvert y = channel_rvert x.
Proof.
  intros HA HB. destruct (A x) as [u|] eqn:E; cbn [obind]; [|discriminate]. intros H.
  rewrite (HB _ _ H). apply HA. exact E.
Qed.
Lemma trafo_keeps_channel c ch k i x y : In i (freq_transformations c ch k) -> Ti c false x i = Some y ->
  channel_rvert y = channel_rvert x.
Proof.
  intros Hi H.
  assert (N : In i [0; 3; 4; 34; 6; 36; 46; 346; 7; 37; 47; 347]).
  { clear H. unfold freq_transformations in Hi.
    destruct (keldysh c), (phs c), k, ch; cbn [In] in Hi |- *; intuition lia. }
  clear Hi. unfold Ti in H. cbn [In] in N.
  repeat match goal with N : _ \/ _ |- _ => destruct N as [<-|N] end; try contradiction;
  cbn [Z.eqb Pos.eqb andb] in H; try (destruct (keldysh c && phs c); [|discriminate H]).
  - injection H as <-; reflexivity.
  - apply (T3_channel _ _ _ _ H).
  - apply (TC_channel _ _ _ _ H).
  - revert H. apply bind_channel; [apply TC_channel|apply T3_channel].
  - apply (Tph_channel _ _ _ _ H).
  - revert H. apply bind_channel; [apply T3_channel|apply Tph_channel].
  - revert H. apply bind_channel; [apply TC_channel|apply Tph_channel].
  - revert H. apply bind_channel; [apply Tph_channel|]. intros u z. apply bind_channel; [apply TC_channel|apply T3_channel].
  - apply (TR_channel _ _ _ _ H).
  - revert H. apply bind_channel; [apply TR_channel|apply T3_channel].
  - revert H. apply bind_channel; [apply TC_channel|apply TR_channel].
  - revert H. apply bind_channel; [apply TR_channel|]. intros u z. apply bind_channel; [apply TC_channel|apply T3_channel].
Qed.

Section Check.
Variables (c : cfg) (G : family).
Hypothesis P : physical c false G.
Hypothesis R : reversible c G.
Hypothesis CB : keldysh c = true -> contour c = false.
Hypothesis HS : forall ch k s kl l, (G true ch k s kl l == G false ch k s kl l)%C.

Lemma stores_weaker ch D h : stores c true G false ch D -> stores c false G h ch D.
Proof.
  intros (E & H). split; [exact E|]. intros s kl w v v' l Hs Hk Hl.
  assert (Hs' : s = 0 \/ (true = true /\ s = 1)) by (destruct Hs as [Hs|(X & _)]; [left; exact Hs|discriminate]).
  destruct (H s kl w v v' l Hs' Hk Hl) as (H1 & H2 & _ & H4).
  destruct h; [|split; [exact H1|split; [exact H2|split; [discriminate|exact H4]]]].
  split; [rewrite HS; exact H1|]. split; [rewrite HS; exact H2|]. split; [discriminate|rewrite HS; exact H4].
Qed.

(** reading a vertex that stores both spins *)
Lemma read_both D y k kl l : stores c true G false (channel_rvert y) D -> good c y kl l ->
  exists v, read_symmetryreduced c true k y D = Some v /\ (v == meaning G k y kl l)%C.
Proof.
  intros (ED & HD) (W & KL & EK & L & Sp). unfold read_symmetryreduced. rewrite ED.
  replace (ch_eqb (channel_rvert y) (channel_rvert y)) with true by (destruct (channel_rvert y); reflexivity).
  eexists. split; [reflexivity|].
  assert (Sp' : spin y = 0 \/ (true = true /\ spin y = 1)) by tauto.
  assert (V : (read_value true k y D == G (asymmetry_transform y) (channel_rvert y) k (spin y) kl l)%C).
  { destruct (HD (spin y) kl (w y) (v1 y) (v2 y) l Sp' KL L) as (A1 & A2 & A2b & A3).
    assert (V0 : (read_value true k y D == G false (channel_rvert y) k (spin y) kl l)%C).
    { unfold read_value. rewrite EK. destruct k; [exact A1|exact A2|exact (A2b eq_refl)|exact A3]. }
    destruct (asymmetry_transform y); [rewrite HS|]; exact V0. }
  unfold meaning. apply Cscale_m; [reflexivity|]. unfold cj.
  destruct (conjugate y); rewrite ?andb_false_r, ?andb_true_r; [|exact V].
  destruct (keldysh c) eqn:K; cbn [orb]; [apply Cconj_m; exact V|].
  destruct (phs c) eqn:Ph; cbn [negb]; [|apply Cconj_m; exact V].
  pose proof (real_matsubara _ _ _ P K Ph (asymmetry_transform y) (channel_rvert y) k (spin y) kl l) as I.
  destruct V as (V1 & V2). split; unfold Cconj; cbn [re im]; [exact V1|]. rewrite V2, I. reflexivity.
Qed.

Lemma read_same k y r : read_symmetryreduced c true (match k with k2b => k2 | _ => k end) y r = read_symmetryreduced c false k y r.
Proof. destruct k; reflexivity. Qed.

Definition dims (k : kcl) (f : Q * Q * Q) : Q * Q * Q :=
  let '(w, v, v') := f in
  match k with k1 => (w, 0, 0) | k2 => (w, v, 0) | k2b => (w, 0, v') | k3 => (w, v, v') end%Q.
Lemma expand_dims k iK s f : expand_input k iK s f =
  let '(w, v, v') := dims k f in mkIn iK s w v v'.
Proof. destruct f as [[w v] v']. destruct k; reflexivity. Qed.

Lemma check_zero k ch s kl f l this crossing :
  stores c true G false ch this -> stores c true G false (crossed ch) crossing ->
  klegs_for c kl -> s = 0 \/ s = 1 -> legs_are (mf c) ch f l -> (mf c = true -> bosonic (fst (fst f))) ->
  exists d, check_entry c false k this crossing s (kcode kl) f = Some d /\ (d == C0)%C.
Proof.
  intros S1 S2 KL Sp L0 B0. unfold check_entry. rewrite expand_dims. destruct f as [[w0 v0] v0'].
  cbn [fst] in B0. destruct (dims k (w0, v0, v0')) as [[w v] v'] eqn:ED.
  assert (Ew : w = w0) by (destruct k; cbn [dims] in ED; injection ED as <- _ _; reflexivity).
  assert (L1 : exists l1, legs_are (mf c) ch (w, v, v') l1).
  { subst w. apply (legs_change _ _ _ v0 v0' v v' _ L0). }
  destruct L1 as (l1 & L). rewrite <- Ew in B0. clear l L0.
  rewrite (proj1 S1). set (x := indices_of (mkIn (kcode kl) s w v v') ch).
  destruct (start_good c G k ch s kl w v v' l1 KL Sp L B0) as (G0 & M0). fold x in G0, M0.
  destruct (read_both this x k kl l1 S1 G0) as (vd & RD & VD).
  rewrite RD. cbn [obind].
  destruct (valsmooth_physical c false G P k ch s kl w v v' l1 this crossing this crossing CB
    (stores_weaker _ _ false S1) (stores_weaker _ _ false S2) (stores_weaker _ _ true S1) (stores_weaker _ _ true S2)
    KL Sp L B0) as (z & VS & EZ).
  unfold valsmooth in VS. cbv iota in VS.
  destruct (symmetry_reduce c false k this crossing this crossing (mkIn (kcode kl) s w v v')) as [yr|]; cbn [obind] in VS |- *; [|discriminate].
  rewrite read_same, VS. cbn [obind].
  destruct (transformations (keldysh c) ch k s) as [t|] eqn:ET; cbn [obind].
  2:{ exfalso. clear - ET Sp. unfold transformations in ET. destruct Sp as [-> | ->]; destruct ch, k; discriminate ET. }
  assert (D0 : ((vd - z) == C0)%C) by (rewrite VD, EZ, M0; ring).
  destruct ((t =? 0) && match k with k2b => false | _ => true end) eqn:ET0.
  2:{ exists (vd - z)%C. split; [reflexivity|exact D0]. }
  apply andb_true_iff in ET0. destruct ET0 as (_ & NK).
  assert (Hk : k <> k2b) by (intros ->; discriminate NK).
  assert (IX : exists i, check_index c ch k (mkIn (kcode kl) s w v v') = Some i /\ In i (freq_transformations c ch k)).
  { assert (SI : forall q, sign_index q = 0 \/ sign_index q = 1) by (intros q; unfold sign_index; destruct (negb _); auto).
    unfold check_index. cbn [in_w in_v1 in_v2].
    assert (X : forall n, (n < length (freq_transformations c ch k))%nat ->
       exists i, nth_error (freq_transformations c ch k) n = Some i /\ In i (freq_transformations c ch k)).
    { intros n Hn. destruct (nth_error (freq_transformations c ch k) n) as [i|] eqn:E.
      - exists i. split; [reflexivity|]. eapply nth_error_In; exact E.
      - apply nth_error_None in E. lia. }
    destruct (SI w) as [-> | ->]; destruct k; try congruence;
    try (destruct (SI v) as [-> | ->]); try (destruct (SI (v + v')%Q) as [-> | ->]; destruct (SI (v - v')%Q) as [-> | ->]);
    apply X; unfold freq_transformations; destruct (keldysh c), (phs c), ch; cbn; lia. }
  destruct IX as (i & EI & LI). rewrite EI. cbn [obind].
  destruct ((i =? 0) && match k with k1 => true | _ => false end).
  { exists (vd - z)%C. split; [reflexivity|exact D0]. }
  destruct (sector_physical c G P R CB k ch i x kl l1 _ Hk LI G0 eq_refl M0) as (y & kl' & l' & TY & GY & MY).
  replace (match k with k2 => false | _ => false end) with false by (destruct k; reflexivity).
  fold x. rewrite TY. cbn [obind].
  pose proof (trafo_keeps_channel c ch k i x y LI TY) as CY. change (channel_rvert x) with ch in CY.
  assert (SY : stores c true G false (channel_rvert y) this) by (rewrite CY; exact S1).
  destruct (read_both this y k kl' l' SY GY) as (vf & RF & VF).
  rewrite RF. cbn [obind]. exists (vd - vf)%C. split; [reflexivity|]. rewrite VD, VF, M0, MY. ring.
Qed.
End Check.

Lemma max2_zero l : Forall (fun z => z == C0)%C l -> (max2 l == 0)%Q.
Proof.
  unfold max2. assert (X : forall m, (m == 0)%Q -> Forall (fun z => z == C0)%C l ->
    (fold_left (fun m z => if Qle_bool (Cnorm2 z) m then m else Cnorm2 z) l m == 0)%Q).
  { induction l as [|z l IH]; intros m Hm F; cbn [fold_left]; [exact Hm|]. inversion F as [|? ? F1 F2]; subst.
    apply IH; [|exact F2]. destruct (Qle_bool (Cnorm2 z) m); [exact Hm|]. apply Cnorm2_zero. exact F1. }
  intros F. apply X; [reflexivity|exact F].
Qed.
