(** C137: what the number printed by the self-check of the self-energy says. *)
From Coq Require Import QArith Lqa.
From Verif Require Import Prelude Cplx Sck_Model.
Open Scope Q_scope.

(** particle-hole symmetry of the retarded self-energy at one frequency: the part beyond the asymptotic value A is odd up to conjugation (A is the Hartree term, a real number) *)
Definition phs_at (S : nat -> Q -> option cplx) (A : cplx) (j : nat) (v : Q) : Prop :=
  exists a b, S j v = Some a /\ S j (- v) = Some b /\ Ceq (a - A)%C (Cneg (Cconj (b - A)%C)).

Lemma norm2_nonneg z : 0 <= Cnorm2 z.
Proof. unfold Cnorm2. nra. Qed.
Lemma norm2_zero z : Cnorm2 z == 0 -> Ceq z C0.
Proof. unfold Cnorm2, Ceq, C0. cbn. intros H. split; nra. Qed.
Lemma max_norm2_spec l : 0 <= max_norm2 l /\ (forall z, In (Some z) l -> Cnorm2 z <= max_norm2 l) /\
  (max_norm2 l == 0 \/ exists z, In (Some z) l /\ Cnorm2 z = max_norm2 l).
Proof.
  unfold max_norm2. set (f := fun _ _ => _).
  assert (G : forall l o, 0 <= o -> o <= fold_left f l o /\ (forall z, In (Some z) l -> Cnorm2 z <= fold_left f l o) /\
    (fold_left f l o = o \/ exists z, In (Some z) l /\ Cnorm2 z = fold_left f l o)).
  { clear l. induction l as [|[a|] l IH]; intros o Ho; cbn [fold_left].
    - split; [lra|]. split; [intros z []|left; reflexivity].
    - assert (S : o <= f o (Some a) /\ Cnorm2 a <= f o (Some a) /\ (f o (Some a) = o \/ f o (Some a) = Cnorm2 a)).
      { unfold f. destruct (Qle_bool (Cnorm2 a) o) eqn:E.
        - apply Qle_bool_iff in E. repeat split; [lra|exact E|left; reflexivity].
        - assert (~ Cnorm2 a <= o) by (intro K; apply Qle_bool_iff in K; congruence). repeat split; [lra|lra|right; reflexivity]. }
      destruct S as (S1 & S2 & S3). destruct (IH (f o (Some a))) as (A & B & D); [lra|]. split; [lra|]. split.
      + intros z [E|E]; [injection E as <-; lra|apply B, E].
      + destruct D as [D|(z & I & D)].
        * destruct S3 as [S3|S3]; [left; congruence|right; exists a; split; [left; reflexivity|congruence]].
        * right. exists z. split; [right; exact I|exact D].
    - destruct (IH o Ho) as (A & B & D). split; [exact A|]. split.
      + intros z [E|E]; [discriminate|apply B, E].
      + destruct D as [D|(z & I & D)]; [left; exact D|right; exists z; split; [right; exact I|exact D]]. }
  destruct (G l 0) as (A & B & D); [lra|]. split; [exact A|]. split; [exact B|]. destruct D as [D|D]; [left; rewrite D; reflexivity|right; exact D].
Qed.
Lemma dev_entry_last S A n v : dev_entry S A (Datatypes.S n) v = phs_deviation S A v n.
Proof. unfold dev_entry. rewrite seq_S, fold_left_app. reflexivity. Qed.
Lemma deviation_zero S A v j z : im A == 0 -> phs_deviation S A v j = Some z -> (Ceq z C0 <-> phs_at S A j v).
Proof.
  intros HA. unfold phs_deviation, phs_at. destruct (S j v) as [a|]; [|discriminate]. destruct (S j (- v)) as [b|]; [|discriminate].
  cbn [oadd option_map]. intros E. injection E as <-. destruct a as [a1 a2], b as [b1 b2], A as [r1 r2].
  unfold Ceq, Cadd, Csub, Cneg, Cconj, Cscale, C0. cbn [re im] in *. split.
  - intros (X & Y). eexists (Cplx a1 a2), (Cplx b1 b2). cbn [re im]. repeat split; try reflexivity; lra.
  - intros (a & b & Ea & Eb & X & Y). injection Ea as <-. injection Eb as <-. cbn [re im] in *. split; lra.
Qed.

(** no false alarm: 0 is printed if the relation holds at all points of the grid (at least one internal index) *)
Theorem C137_no_false_alarm : forall S A n_in freqs, im A == 0 -> (forall v j, In v freqs -> (j < n_in)%nat -> phs_at S A j v) ->
  exists d, check_symmetries S A true n_in freqs = Some d /\ d == 0.
Proof.
  intros S A n_in freqs HA H. unfold check_symmetries. eexists. split; [reflexivity|].
  destruct (max_norm2_spec (map (dev_entry S A n_in) freqs)) as (_ & _ & [D|(z & I & D)]); [exact D|]. rewrite <- D.
  apply in_map_iff in I as (v & E & Iv). destruct n_in as [|n].
  - unfold dev_entry in E. cbn in E. injection E as <-. reflexivity.
  - rewrite dev_entry_last in E. pose proof (H v n Iv (Nat.lt_succ_diag_r n)) as P. apply (deviation_zero S A v n z HA E) in P.
    destruct z as [z1 z2]. unfold Ceq, C0 in P. cbn [re im] in P. destruct P as (P1 & P2). unfold Cnorm2. cbn [re im]. rewrite P1, P2. reflexivity.
Qed.
Print Assumptions C137_no_false_alarm.

(** One internal index, finite values: the printed number bounds every deviation, and 0 means that the relation holds at all points.
    Missing: more than one internal index, values that are not numbers (both refuted below). *)
Theorem C137_detects_partial : forall S A freqs d, im A == 0 -> (forall v, In v freqs -> S 0%nat v <> None /\ S 0%nat (- v) <> None) ->
  check_symmetries S A true 1 freqs = Some d ->
  (forall v z, In v freqs -> phs_deviation S A v 0 = Some z -> Cnorm2 z <= d) /\
  (d == 0 -> forall v, In v freqs -> phs_at S A 0 v) /\
  (d == 0 \/ exists v z, In v freqs /\ phs_deviation S A v 0 = Some z /\ Cnorm2 z = d).
Proof.
  intros S A freqs d HA F E. unfold check_symmetries in E. injection E as <-.
  destruct (max_norm2_spec (map (dev_entry S A 1) freqs)) as (_ & B & D).
  assert (B' : forall v z, In v freqs -> phs_deviation S A v 0 = Some z -> Cnorm2 z <= max_norm2 (map (dev_entry S A 1) freqs)).
  { intros v z I E. apply B. apply in_map_iff. exists v. split; [rewrite dev_entry_last; exact E|exact I]. }
  split; [exact B'|]. split.
  - intros Z v I. destruct (F v I) as (F1 & F2). destruct (phs_deviation S A v 0) as [z|] eqn:E.
    + apply (deviation_zero S A v 0 z HA E). apply norm2_zero. pose proof (B' v z I E). pose proof (norm2_nonneg z). lra.
    + unfold phs_deviation in E. destruct (S 0%nat v); [|congruence]. destruct (S 0%nat (- v)); [|congruence]. discriminate.
  - destruct D as [D|(z & I & D)]; [left; exact D|right]. apply in_map_iff in I as (v & E & Iv). rewrite dev_entry_last in E. exists v, z. auto.
Qed.
Print Assumptions C137_detects_partial.

Definition se_ok : nat -> Q -> option cplx := fun _ v => Some (Cplx (1 + v) 0).
Definition se_bad : nat -> Q -> option cplx := fun _ v => Some (Cplx (1 + v * v) 0).
Example C137_hyp : im (Cplx 1 0) == 0 /\ (forall v j, In v [1; 0; -1] -> (j < 2)%nat -> phs_at se_ok (Cplx 1 0) j v) /\
  check_symmetries se_bad (Cplx 1 0) true 1 [1; 0; -2] = Some 64.
Proof.
  split; [reflexivity|]. split; [|vm_compute; reflexivity]. intros v j _ _. unfold phs_at, se_ok. do 2 eexists.
  split; [reflexivity|]. split; [reflexivity|]. unfold Ceq, Csub, Cadd, Cneg, Cconj. cbn [re im]. split; lra.
Qed.
(** Two internal indices: the deviation of the first is overwritten, 0 is printed although the relation is violated at every point. *)
Theorem C137_first_index_refuted : exists S A freqs d, im A == 0 /\
  (forall j v, S j v <> None) /\ check_symmetries S A true 2 freqs = Some d /\ d == 0 /\ freqs <> [] /\
  forall v, In v freqs -> ~ phs_at S A 0 v.
Proof.
  exists (fun j v => if Nat.eqb j 0 then se_bad j v else se_ok j v), (Cplx 1 0), [1; 2], 0.
  split; [reflexivity|]. split. { intros j v. destruct (Nat.eqb j 0); discriminate. }
  split; [vm_compute; reflexivity|]. split; [reflexivity|]. split; [discriminate|].
  intros v I (a & b & Ea & Eb & X & _). cbn [Nat.eqb se_bad] in Ea, Eb. injection Ea as <-. injection Eb as <-.
  unfold Csub, Cadd, Cneg, Cconj in X. cbn [re im] in X. destruct I as [<-|[<-|[]]]; lra.
Qed.
(** A self-energy that is nowhere a number is reported as perfectly symmetric. *)
Theorem C137_nan_refuted : forall A n_in freqs, exists d, check_symmetries (fun _ _ => None) A true (Datatypes.S n_in) freqs = Some d /\ d == 0.
Proof.
  intros A n freqs. unfold check_symmetries. eexists. split; [reflexivity|].
  destruct (max_norm2_spec (map (dev_entry (fun _ _ => None) A (Datatypes.S n)) freqs)) as (_ & _ & [D|(z & I & D)]); [exact D|].
  apply in_map_iff in I as (v & E & _). rewrite dev_entry_last in E. discriminate.
Qed.
Print Assumptions C137_first_index_refuted.
Print Assumptions C137_nan_refuted.
