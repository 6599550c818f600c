From Coq Require Import Reals Lra.
From Verif Require Import Prelude Idx_Spec Idx_Model Idx_Proofs Arr_Model Arr_Spec Grid_Model Grid_Spec Grid_Proofs2 Interp_Model Interp_Spec Interp_Proofs Interp_Proofs2 Interp_Proofs3 Interp_Props Interp_Props2 Ugr_Model.
From Verif Require Idx_Props.
Open Scope Z_scope.

Lemma osequence_map {A B} (f : A -> option B) (g : A -> B) l : (forall x, In x l -> f x = Some (g x)) -> osequence (map f l) = Some (map g l).
Proof. induction l; cbn; intros H; auto. rewrite H by auto. cbn. rewrite IHl by auto. reflexivity. Qed.
Lemma osequence_some {A B} (f : A -> option B) l : (forall x, In x l -> exists y, f x = Some y) -> exists r, osequence (map f l) = Some r /\
  length r = length l /\ forall n x, nth_error l n = Some x -> nth_error r n = f x.
Proof.
  induction l as [|a l IH]; intros H.
  - exists []. cbn. repeat split. intros [|n] x E; discriminate.
  - destruct (H a (or_introl eq_refl)) as [y Ey]. destruct IH as (r & E & L & P). { intros x Hx. apply H. now right. }
    exists (y :: r). cbn [map osequence]. rewrite Ey. cbn [obind]. rewrite E. cbn [obind length]. split; [reflexivity|]. split; [lia|].
    intros [|n] x Ex; cbn in *; [congruence|auto].
Qed.
Lemma osequence_none {A} (l : list (option A)) : In None l -> osequence l = None.
Proof.
  induction l as [|[a|] l IH]; cbn; intros H; [tauto| |reflexivity]. destruct H as [H|H]; [discriminate|]. rewrite (IH H). reflexivity.
Qed.

Lemma osequence_locates axs ws cells : osequence (map (fun p => locate (fst p) (snd p)) (combine axs ws)) = Some cells -> locates axs ws cells.
Proof.
  unfold locates. revert cells. induction (combine axs ws) as [|p l IH]; cbn; intros cells H; [injection H as <-; constructor|].
  destruct (locate _ _) eqn:E; [|discriminate]. cbn in H. destruct (osequence _); [|discriminate]. injection H as <-. constructor; auto.
Qed.

Section U.
  Variables (gold gnew : list elias) (a : marray R) (dpre : list Z) (dk : Z) (dpost : list Z).
  Hypothesis W : wf a.
  Hypothesis LG : (1 <= length gold <= 3)%nat.
  Hypothesis LN : length gnew = length gold.
  Hypothesis D : m_length a = dpre ++ map Z.of_nat (map e_N gold) ++ dk :: dpost.

  Lemma rank : (2 <= length (m_length a))%nat.
  Proof. rewrite D, !app_length, !map_length. cbn [length]. lia. Qed.
  (** the element with a given index *)
  Lemma update_value_at idx : in_range idx (m_length a) ->
    update_value gold gnew (length dpre) a (row_major idx (m_length a)) =
    (r <- interpolate (map elias_axis gold) (length dpre) 1 a (freqs_of gnew (firstn (length gnew) (skipn (length dpre) idx))) idx ;; nth_error r 0).
  Proof.
    intros H. destruct (Idx_Props.C01_flat_then_multi idx (m_length a) rank H (wf_size a W)) as (k & _ & _ & -> & E).
    unfold update_value. rewrite E. reflexivity.
  Qed.
  Lemma every_flat i : (i < length (m_elements a))%nat -> exists idx, in_range idx (m_length a) /\ row_major idx (m_length a) = Z.of_nat i.
  Proof.
    intros H. pose proof (wf_buf a W) as B.
    destruct (Idx_Props.C01_multi_then_flat (Z.of_nat i) (m_length a) rank (wf_pos a W) (wf_size a W)) as (idx & E & R & F); [lia|].
    exists idx. split; auto. destruct (Idx_Props.C01_flat_then_multi idx (m_length a) rank R (wf_size a W)) as (k & F' & _ & K & _). congruence.
  Qed.
  Lemma update_ok : (forall idx, in_range idx (m_length a) -> exists v, update_value gold gnew (length dpre) a (row_major idx (m_length a)) = Some v) ->
    exists b, update_grid gold gnew (length dpre) a = Some b /\ wf b /\ m_length b = m_length a /\
      forall idx, in_range idx (m_length a) -> stored b idx = update_value gold gnew (length dpre) a (row_major idx (m_length a)).
  Proof.
    intros H. unfold update_grid.
    destruct (osequence_some (fun i => update_value gold gnew (length dpre) a (Z.of_nat i)) (seq 0 (length (m_elements a)))) as (els & E & L & P).
    { intros i Hi. apply in_seq in Hi. destruct (every_flat i ltac:(lia)) as (idx & R & <-). auto. }
    rewrite E. cbn [obind]. eexists. split; [reflexivity|]. rewrite seq_length in L. split; [|split; [reflexivity|]].
    - destruct W. constructor; cbn; auto. rewrite L. auto.
    - intros idx R. unfold stored. cbn [m_elements m_length].
      destruct (Idx_Props.C01_flat_then_multi idx (m_length a) rank R (wf_size a W)) as (k & _ & B & K & _). rewrite <- K.
      pose proof (wf_buf a W). rewrite (P (Z.to_nat k) (Z.to_nat k)); [rewrite Z2Nat.id by lia; reflexivity|].
      rewrite (nth_error_nth' _ 0%nat) by (rewrite seq_length; lia). rewrite seq_nth by lia. reflexivity.
  Qed.
  Lemma update_stored b : update_grid gold gnew (length dpre) a = Some b -> forall idx, in_range idx (m_length a) ->
    stored b idx = update_value gold gnew (length dpre) a (row_major idx (m_length a)).
  Proof.
    intros E idx R. destruct (update_ok) as (b' & E' & _ & _ & P); [|rewrite E in E'; injection E' as <-; auto].
    intros idx' R'. destruct (Idx_Props.C01_flat_then_multi idx' (m_length a) rank R' (wf_size a W)) as (k & _ & B & K & _).
    unfold update_grid in E. destruct (osequence _) as [els|] eqn:Eo; [|discriminate]. pose proof (wf_buf a W).
    destruct (update_value gold gnew (length dpre) a (row_major idx' (m_length a))) as [v|] eqn:Ev; [eauto|]. exfalso.
    rewrite osequence_none in Eo; [discriminate|]. apply in_map_iff. exists (Z.to_nat k). rewrite Z2Nat.id by lia. rewrite K. split; [exact Ev|]. apply in_seq. lia.
  Qed.
  Lemma update_none idx : in_range idx (m_length a) -> update_value gold gnew (length dpre) a (row_major idx (m_length a)) = None ->
    update_grid gold gnew (length dpre) a = None.
  Proof.
    intros R H. unfold update_grid. rewrite osequence_none; [reflexivity|]. apply in_map_iff.
    destruct (Idx_Props.C01_flat_then_multi idx (m_length a) rank R (wf_size a W)) as (k & _ & B & K & _).
    pose proof (wf_buf a W). exists (Z.to_nat k). rewrite Z2Nat.id by lia. rewrite K. split; [exact H|]. apply in_seq. lia.
  Qed.
End U.
