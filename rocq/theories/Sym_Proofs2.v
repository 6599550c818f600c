(** Proofs about legs: the symmetry operations permute legs (C18), channel conversions keep them (C21-C23). *)
From Coq Require Import QArith Qround Lqa.
From Verif Require Import Prelude Keld_Model Keld_Proofs Util_Model Util_Spec Util_Proofs Sym_Model Sym_Spec Sym_Proofs.
Open Scope Z_scope.

Lemma bosonic_opp : forall x, bosonic x -> bosonic (- x).
Proof. intros x (n & E). exists (- n). rewrite E. injz. ring. Qed.
Lemma bosonic_ext : forall x y, (x == y)%Q -> bosonic x -> bosonic y.
Proof. intros x y E (n & En). exists n. rewrite <- E. exact En. Qed.
Lemma bosonic_add : forall x y, bosonic x -> bosonic y -> bosonic (x + y).
Proof. intros x y (n & E) (m & F). exists (n + m). rewrite E, F. injz. ring. Qed.
Lemma half_split_bosonic : forall x lo hi, half_split x lo hi -> bosonic x.
Proof.
  intros x lo hi ((n & En) & (m & Em) & S & _). exists (n + m).
  rewrite <- S, En, Em. injz. ring.
Qed.
Lemma half_split_opp : forall x y lo hi, (y == - x)%Q -> half_split x lo hi -> half_split y (- hi) (- lo).
Proof.
  intros x y lo hi E (A & B & C & D & F & G).
  split; [apply bosonic_opp; exact B|]. split; [apply bosonic_opp; exact A|].
  repeat (split; [qlra|]). qlra.
Qed.
Lemma floor_split : forall x lo hi, half_split x lo hi -> exists f, floor2bfreq (x / 2) = Some f /\ (f == lo)%Q.
Proof.
  intros x lo hi H. destruct (half_split_spec x (half_split_bosonic _ _ _ H)) as (l & h & E & _ & S).
  exists l. split; [exact E|]. apply (half_split_unique x l h lo hi S H).
Qed.
Lemma signFlip_split : forall x lo hi, half_split x lo hi ->
  exists r, signFlipCorrection_MF x = Some r /\ (r == lo - hi)%Q.
Proof.
  intros x lo hi H. destruct (signFlip_spec x (half_split_bosonic _ _ _ H)) as (r & l & l' & E & F & F' & D).
  destruct (floor_split x lo hi H) as (f & Ef & Ef').
  destruct (floor_split (- x) (- hi) (- lo) (half_split_opp x (- x) lo hi (Qeq_refl _) H)) as (g & Eg & Eg').
  exists r. split; [exact E|]. rewrite F in Ef. injection Ef as ->. rewrite F' in Eg. injection Eg as ->. lra.
Qed.
Lemma corr_mf : forall c x lo hi, mf c = true -> half_split x lo hi ->
  exists r, (forall y, (y == x \/ y == - x)%Q -> corr c y = Some r) /\ (r == lo - hi)%Q.
Proof.
  intros c x lo hi M H. destruct (corr_ex c x (fun _ => half_split_bosonic _ _ _ H)) as (r & Hr).
  exists r. split; [exact Hr|]. pose proof (Hr x (or_introl (Qeq_refl _))) as E. unfold corr in E. rewrite M in E.
  destruct (signFlip_split x lo hi H) as (r' & E' & D). rewrite E' in E. injection E as ->. exact D.
Qed.
Lemma corr_not_mf : forall c x, mf c = false -> corr c x = Some 0%Q.
Proof. intros c x E. unfold corr. rewrite E. reflexivity. Qed.

(** *** Keldysh indices of legs *)
Lemma kcode_range : forall k, klegs_ok k -> 0 <= kcode k < 16.
Proof. intros k H. unfold klegs_ok, is12, kcode in *. lia. Qed.
Lemma swap23_kcode : forall k, klegs_ok k -> swap23 (kcode k) = Some (kcode (swap_in_k k)).
Proof. intros [a b c d] H. unfold klegs_ok, is12 in H. cbn in H. destruct H as ([->| ->] & [->| ->] & [->| ->] & [->| ->]); reflexivity. Qed.
Lemma swap01_kcode : forall k, klegs_ok k -> swap01 (kcode k) = Some (kcode (swap_out_k k)).
Proof. intros [a b c d] H. unfold klegs_ok, is12 in H. cbn in H. destruct H as ([->| ->] & [->| ->] & [->| ->] & [->| ->]); reflexivity. Qed.
Lemma swapC_kcode : forall k, klegs_ok k -> swapC (kcode k) = Some (kcode (in_out_k k)).
Proof. intros [a b c d] H. unfold klegs_ok, is12 in H. cbn in H. destruct H as ([->| ->] & [->| ->] & [->| ->] & [->| ->]); reflexivity. Qed.
Lemma odd_kcode : forall k, klegs_ok k ->
  isInList (kcode k) odd_Keldysh = negb (Z.even (a1' k + a2' k + a1 k + a2 k)).
Proof. intros [a b c d] H. unfold klegs_ok, is12 in H. cbn in H. destruct H as ([->| ->] & [->| ->] & [->| ->] & [->| ->]); reflexivity. Qed.
Lemma odd_kcode_swapC : forall k, klegs_ok k ->
  isInList (kcode (in_out_k k)) odd_Keldysh = negb (Z.even (a1' k + a2' k + a1 k + a2 k)).
Proof. intros [a b c d] H. unfold klegs_ok, is12 in H. cbn in H. destruct H as ([->| ->] & [->| ->] & [->| ->] & [->| ->]); reflexivity. Qed.

Definition freqs (x : indices) : Q * Q * Q := (w x, v1 x, v2 x).

(** the leg frequencies of the result, in all formalisms *)
Ltac legs_tac :=
  let H := fresh in
  intros l H; unfold legs_are, freqs in *;
  cbn [w v1 v2 channel_rvert switch_channel] in *.
Ltac unfold_ops :=
  unfold T1, T2, TC, Tph, TR;
  cbn [obind iK spin w v1 v2 iw_r prefactor conjugate asymmetry_transform channel_rvert switch_channel].

Lemma swaps_some : forall c x, wf c x ->
  exists k1 k2 k3, (if keldysh c then swap23 (iK x) else Some (iK x)) = Some k1 /\
    (if keldysh c then swap01 (iK x) else Some (iK x)) = Some k2 /\
    (if keldysh c then swapC (iK x) else Some (iK x)) = Some k3.
Proof.
  intros c x [Hk _]. destruct (keldysh c).
  - destruct (swap_group _ (Hk eq_refl)) as (a & b & d & e & ? & ? & ? & (?&_) & (?&_) & (?&_) & _). eauto 6.
  - eauto 6.
Qed.

Definition acts_on_legs (op : indices -> option indices) (m : bool) (x : indices) (g : legs -> legs) : Prop :=
  exists y, op x = Some y /\
    forall l, legs_are m (channel_rvert x) (freqs x) l -> legs_are m (channel_rvert y) (freqs y) (g l).

Ltac mf_case lo hi HS :=
  first [ exists lo, hi; split; [exact HS|]
        | exists lo, hi; split; [eapply half_split_eq; [|exact HS]; ring|]
        | exists (- hi)%Q, (- lo)%Q; split; [eapply half_split_opp; [|exact HS]; ring|] ].

Lemma T1_legs : forall c sbe x, wf c x -> acts_on_legs (T1 c sbe) (mf c) x swap_in_f.
Proof.
  intros c sbe x H. destruct (swaps_some c x H) as (k1 & k2 & k3 & E1 & E2 & E3).
  destruct x as [k s w0 a b iwr pf cj asy ch].
  destruct (corr_ex c w0 (proj2 H)) as (r & Hr).
  unfold acts_on_legs. cbn [iK] in *. unfold_ops. rewrite E1. cbn [obind].
  destruct (mf c) eqn:M.
  - destruct ch; rewrite ?(Hr w0) by (left; ring); cbn [obind]; eexists; (split; [reflexivity|]); legs_tac;
    destruct H0 as (lo & hi & HS & L); destruct (corr_mf c w0 lo hi M HS) as (r' & Hr' & D);
    pose proof (Hr w0 (or_introl (Qeq_refl _))) as E; rewrite (Hr' w0 (or_introl (Qeq_refl _))) in E;
    injection E as ->; unfold legs_mf;
    mf_case lo hi HS;
    unfold legs_eq, swap_in_f, legs_split in *; cbn in *;
    repeat apply conj; lra.
  - rewrite corr_not_mf by exact M. cbn [obind].
    destruct ch; eexists; (split; [reflexivity|]); legs_tac;
    unfold legs_eq, swap_in_f, legs_of in *; cbn [n1' n2' n1 n2] in *;
    repeat apply conj; unfold Qdiv in *; change (/2)%Q with (1#2)%Q in *; lra.
Qed.

Lemma T2_legs : forall c sbe x, wf c x -> acts_on_legs (T2 c sbe) (mf c) x swap_out_f.
Proof.
  intros c sbe x H. destruct (swaps_some c x H) as (k1 & k2 & k3 & E1 & E2 & E3).
  destruct x as [k s w0 a b iwr pf cj asy ch].
  destruct (corr_ex c w0 (proj2 H)) as (r & Hr).
  unfold acts_on_legs. cbn [iK] in *. unfold_ops. rewrite E2. cbn [obind].
  destruct (mf c) eqn:M.
  - destruct ch; rewrite ?(Hr w0) by (left; ring); cbn [obind]; eexists; (split; [reflexivity|]); legs_tac;
    destruct H0 as (lo & hi & HS & L); destruct (corr_mf c w0 lo hi M HS) as (r' & Hr' & D);
    pose proof (Hr w0 (or_introl (Qeq_refl _))) as E; rewrite (Hr' w0 (or_introl (Qeq_refl _))) in E;
    injection E as ->; unfold legs_mf;
    mf_case lo hi HS;
    unfold legs_eq, swap_out_f, legs_split in *; cbn in *;
    repeat apply conj; lra.
  - rewrite corr_not_mf by exact M. cbn [obind].
    destruct ch; eexists; (split; [reflexivity|]); legs_tac;
    unfold legs_eq, swap_out_f, legs_of in *; cbn [n1' n2' n1 n2] in *;
    repeat apply conj; unfold Qdiv in *; change (/2)%Q with (1#2)%Q in *; lra.
Qed.

Lemma TC_legs : forall c sbe x, wf c x -> acts_on_legs (TC c sbe) (mf c) x (fun l => if keldysh c then in_out_f l else minus_f (in_out_f l)).
Proof.
  intros c sbe x H. destruct (swaps_some c x H) as (k1 & k2 & k3 & E1 & E2 & E3).
  destruct x as [k s w0 a b iwr pf cj asy ch].
  destruct (corr_ex c w0 (proj2 H)) as (r & Hr).
  unfold acts_on_legs. cbn [iK] in *. unfold_ops. rewrite ?E3. cbn [obind].
  destruct (mf c) eqn:M.
  - assert (EK : keldysh c = false) by (unfold mf in M; destruct (keldysh c); [discriminate|reflexivity]).
    rewrite ?EK. cbn [andb].
    destruct ch; repeat match goal with |- context [corr c ?z] => rewrite (Hr z) by (solve [left; ring|right; ring]) end;
    cbn [obind]; eexists; (split; [reflexivity|]); legs_tac;
    destruct H0 as (lo & hi & HS & L); destruct (corr_mf c w0 lo hi M HS) as (r' & Hr' & D);
    pose proof (Hr w0 (or_introl (Qeq_refl _))) as E; rewrite (Hr' w0 (or_introl (Qeq_refl _))) in E;
    injection E as ->; unfold legs_mf;
    mf_case lo hi HS;
    unfold legs_eq, swap_in_f, in_out_f, minus_f, legs_split in *; cbn in *;
    repeat apply conj; lra.
  - destruct ch, (keldysh c), (phs c); cbn [andb];
    repeat match goal with |- context [corr c ?z] => rewrite (corr_not_mf c z) by exact M end; cbn [obind]; eexists; (split; [reflexivity|]); legs_tac;
    unfold legs_eq, in_out_f, minus_f, legs_of in *; cbn [n1' n2' n1 n2] in *;
    repeat apply conj; unfold Qdiv in *; change (/2)%Q with (1#2)%Q in *; lra.
Qed.

Lemma Tph_legs : forall c sbe x, wf c x -> acts_on_legs (Tph c sbe) (mf c) x (fun l => if keldysh c && phs c then minus_f l else l).
Proof.
  intros c sbe x H. destruct (swaps_some c x H) as (k1 & k2 & k3 & E1 & E2 & E3).
  destruct x as [k s w0 a b iwr pf cj asy ch].
  destruct (corr_ex c w0 (proj2 H)) as (r & Hr).
  unfold acts_on_legs. cbn [iK] in *. unfold_ops. rewrite ?E3. cbn [obind].
  destruct (mf c) eqn:M.
  - assert (EK : keldysh c = false) by (unfold mf in M; destruct (keldysh c); [discriminate|reflexivity]).
    rewrite ?EK. cbn [andb].
    destruct ch; repeat match goal with |- context [corr c ?z] => rewrite (Hr z) by (solve [left; ring|right; ring]) end;
    cbn [obind]; eexists; (split; [reflexivity|]); legs_tac;
    destruct H0 as (lo & hi & HS & L); destruct (corr_mf c w0 lo hi M HS) as (r' & Hr' & D);
    pose proof (Hr w0 (or_introl (Qeq_refl _))) as E; rewrite (Hr' w0 (or_introl (Qeq_refl _))) in E;
    injection E as ->; unfold legs_mf;
    mf_case lo hi HS;
    unfold legs_eq, swap_in_f, in_out_f, minus_f, legs_split in *; cbn in *;
    repeat apply conj; lra.
  - destruct ch, (keldysh c), (phs c); cbn [andb];
    repeat match goal with |- context [corr c ?z] => rewrite (corr_not_mf c z) by exact M end; cbn [obind]; eexists; (split; [reflexivity|]); legs_tac;
    unfold legs_eq, in_out_f, minus_f, legs_of in *; cbn [n1' n2' n1 n2] in *;
    repeat apply conj; unfold Qdiv in *; change (/2)%Q with (1#2)%Q in *; lra.
Qed.

Lemma TR_legs : forall c sbe x, wf c x -> acts_on_legs (TR c sbe) (mf c) x (fun l => if keldysh c then l else minus_f l).
Proof.
  intros c sbe x H. destruct (swaps_some c x H) as (k1 & k2 & k3 & E1 & E2 & E3).
  destruct x as [k s w0 a b iwr pf cj asy ch].
  destruct (corr_ex c w0 (proj2 H)) as (r & Hr).
  unfold acts_on_legs. cbn [iK] in *. unfold_ops. rewrite ?E3. cbn [obind].
  destruct (mf c) eqn:M.
  - assert (EK : keldysh c = false) by (unfold mf in M; destruct (keldysh c); [discriminate|reflexivity]).
    rewrite ?EK. cbn [andb].
    destruct ch; repeat match goal with |- context [corr c ?z] => rewrite (Hr z) by (solve [left; ring|right; ring]) end;
    cbn [obind]; eexists; (split; [reflexivity|]); legs_tac;
    destruct H0 as (lo & hi & HS & L); destruct (corr_mf c w0 lo hi M HS) as (r' & Hr' & D);
    pose proof (Hr w0 (or_introl (Qeq_refl _))) as E; rewrite (Hr' w0 (or_introl (Qeq_refl _))) in E;
    injection E as ->; unfold legs_mf;
    mf_case lo hi HS;
    unfold legs_eq, swap_in_f, in_out_f, minus_f, legs_split in *; cbn in *;
    repeat apply conj; lra.
  - destruct ch, (keldysh c), (phs c); cbn [andb];
    repeat match goal with |- context [corr c ?z] => rewrite (corr_not_mf c z) by exact M end; cbn [obind]; eexists; (split; [reflexivity|]); legs_tac;
    unfold legs_eq, in_out_f, minus_f, legs_of in *; cbn [n1' n2' n1 n2] in *;
    repeat apply conj; unfold Qdiv in *; change (/2)%Q with (1#2)%Q in *; lra.
Qed.

(** *** channel conversions *)
Lemma legs_of_inj : forall ch f g, legs_eq (legs_of ch f) (legs_of ch g) -> trip_eq f g.
Proof.
  intros ch [[a b] c] [[d e] f] H. destruct ch; unfold legs_eq, trip_eq, legs_of in *; cbn [n1' n2' n1 n2 fst snd] in *;
  unfold Qdiv in *; change (/2)%Q with (1#2)%Q in *; repeat apply conj; lra.
Qed.
Lemma conv_legs : forall ch ch' f, exists g, transfToR false ch (Bch ch') f = Some g /\ legs_eq (legs_of ch g) (legs_of ch' f).
Proof.
  intros ch ch' [[a b] c]. destruct ch, ch'; cbn [transfToR]; eexists; (split; [reflexivity|]);
  unfold legs_eq, legs_of; cbn [n1' n2' n1 n2]; unfold Qdiv; change (/2)%Q with (1#2)%Q; repeat apply conj; ring.
Qed.
Lemma conv_from_legs : forall ch l, conserved l ->
  exists g, transfToR false ch Bf (n1' l, n2' l, n1 l) = Some g /\ legs_eq (legs_of ch g) l.
Proof.
  intros ch [a b c d] H. unfold conserved in H. cbn [n1' n2' n1 n2] in H.
  destruct ch; cbn [transfToR n1' n2' n1 n2]; eexists; (split; [reflexivity|]);
  unfold legs_eq, legs_of; cbn [n1' n2' n1 n2]; unfold Qdiv; change (/2)%Q with (1#2)%Q; repeat apply conj; lra.
Qed.
Lemma legs_eq_sym : forall a b, legs_eq a b -> legs_eq b a.
Proof. intros a b (H1 & H2 & H3 & H4). repeat apply conj; symmetry; assumption. Qed.
Lemma legs_eq_trans : forall a b c, legs_eq a b -> legs_eq b c -> legs_eq a c.
Proof.
  intros a b c (H1 & H2 & H3 & H4) (G1 & G2 & G3 & G4).
  repeat apply conj; etransitivity; eassumption.
Qed.
Lemma conv_back : forall ch ch' f, exists g h,
  transfToR false ch (Bch ch') f = Some g /\ transfToR false ch' (Bch ch) g = Some h /\ trip_eq h f.
Proof.
  intros ch ch' f. destruct (conv_legs ch ch' f) as (g & E & L). destruct (conv_legs ch' ch g) as (h & E' & L').
  exists g, h. repeat (split; [assumption|]). apply (legs_of_inj ch'). eapply legs_eq_trans; eassumption.
Qed.
Lemma conv_via : forall ch ch' ch'' f, exists g h k,
  transfToR false ch' (Bch ch) f = Some g /\ transfToR false ch'' (Bch ch') g = Some h /\
  transfToR false ch'' (Bch ch) f = Some k /\ trip_eq h k.
Proof.
  intros ch ch' ch'' f. destruct (conv_legs ch' ch f) as (g & E & L). destruct (conv_legs ch'' ch' g) as (h & E' & L').
  destruct (conv_legs ch'' ch f) as (k & E2 & L2).
  exists g, h, k. repeat (split; [assumption|]). apply (legs_of_inj ch'').
  eapply legs_eq_trans; [exact L'|]. eapply legs_eq_trans; [exact L|]. apply legs_eq_sym. exact L2.
Qed.

(** finite-temperature Matsubara *)
Lemma legs_mf_inj : forall ch f g l, legs_mf ch f l -> legs_mf ch g l -> trip_eq f g.
Proof.
  intros ch [[a b] c] [[d e] f] l (lo & hi & S & L) (lo' & hi' & S' & L').
  assert (W : (a == d)%Q).
  { destruct S as (_ & _ & S & _), S' as (_ & _ & S' & _). destruct ch; unfold legs_eq, legs_split in *;
    cbn [n1' n2' n1 n2] in *; lra. }
  destruct (half_split_unique d lo hi lo' hi') as [E1 E2]; [eapply half_split_eq; eassumption|exact S'|].
  destruct ch; unfold legs_eq, trip_eq, legs_split in *; cbn [n1' n2' n1 n2 fst snd] in *; repeat apply conj; lra.
Qed.
Definition mats (f : Q * Q * Q) : Prop := let '(w, v, v') := f in bosonic w /\ fermionic v /\ fermionic v'.
Lemma fermionic_ext : forall x y, (x == y)%Q -> fermionic x -> fermionic y.
Proof. intros x y E (n & En). exists n. rewrite <- E. exact En. Qed.

Lemma bb_add : forall x y, bosonic x -> bosonic y -> bosonic (x + y)%Q. Proof. exact bosonic_add. Qed.
Lemma bb_sub : forall x y, bosonic x -> bosonic y -> bosonic (x - y)%Q.
Proof. intros x y H G. apply bosonic_add; [exact H|apply bosonic_opp; exact G]. Qed.
Lemma fb_add : forall x y, fermionic x -> bosonic y -> fermionic (x + y)%Q.
Proof. intros x y (n & E) (m & F). exists (n + m). rewrite E, F. injz. ring. Qed.
Lemma fb_sub : forall x y, fermionic x -> bosonic y -> fermionic (x - y)%Q.
Proof. intros x y H G. apply fb_add; [exact H|apply bosonic_opp; exact G]. Qed.
Lemma bf_add : forall x y, bosonic x -> fermionic y -> fermionic (x + y)%Q.
Proof. intros x y H G. apply (fermionic_ext (y + x)); [ring|]. apply fb_add; assumption. Qed.
Lemma f_opp : forall x, fermionic x -> fermionic (- x)%Q.
Proof. intros x (n & E). exists (- n - 1). rewrite E. unfold Z.sub. injz. ring. Qed.
Lemma bf_sub : forall x y, bosonic x -> fermionic y -> fermionic (x - y)%Q.
Proof. intros x y H G. apply bf_add; [exact H|apply f_opp; exact G]. Qed.
Lemma ff_add : forall x y, fermionic x -> fermionic y -> bosonic (x + y)%Q.
Proof. intros x y (n & E) (m & F). exists (n + m + 1). rewrite E, F. injz. ring. Qed.
Lemma ff_sub : forall x y, fermionic x -> fermionic y -> bosonic (x - y)%Q.
Proof. intros x y H G. apply ff_add; [exact H|apply f_opp; exact G]. Qed.
Lemma b_2 : forall x, bosonic x -> bosonic (2 * x)%Q.
Proof. intros x (n & E). exists (2 * n). rewrite E. injz. ring. Qed.
Create HintDb par.
Global Hint Resolve bb_add bb_sub fb_add fb_sub bf_add bf_sub ff_add ff_sub b_2 f_opp bosonic_opp : par.

Lemma conv_mf : forall ch ch' f, mats f -> exists g, transfToR true ch (Bch ch') f = Some g /\ mats g /\
  forall l, legs_mf ch' f l -> legs_mf ch g l.
Proof.
  intros ch ch' [[w0 v] v'] (Hw & Hv & Hv').
  destruct (half_split_spec w0 Hw) as (lo & hi & E & _ & S).
  pose proof S as (Hlo & Hhi & _). cbn [transfToR]. rewrite E. cbn [obind].
  assert (Same : forall ch, exists g, Some (w0, v, v') = Some g /\ mats g /\
            (forall l, legs_mf ch (w0, v, v') l -> legs_mf ch g l))
    by (intro; eexists; split; [reflexivity|]; split; [repeat split; assumption|auto]).
  destruct ch, ch'; try apply Same;
  match goal with |- context [floor2bfreq (?x / 2)] =>
    let Hx := fresh "Hx" in assert (Hx : bosonic x) by auto 8 with par;
    let lo' := fresh "lo'" in let hi' := fresh "hi'" in let E' := fresh "E'" in let S' := fresh "S'" in
    destruct (half_split_spec x Hx) as (lo' & hi' & E' & _ & S'); rewrite E'; cbn [obind];
    pose proof S' as (Hlo' & Hhi' & Sum' & _)
  end;
  (eexists; split; [reflexivity|]; split; [repeat apply conj; auto 10 with par|]);
  intros l (lo0 & hi0 & S0 & L);
  destruct (half_split_unique w0 lo hi lo0 hi0 S S0) as [D1 D2];
  exists lo', hi'; (split; [exact S'|]);
  destruct S as (_ & _ & Sum & _);
  unfold legs_eq, legs_split in *; cbn [n1' n2' n1 n2] in *; repeat apply conj; lra.
Qed.
Lemma conv_mf_back : forall ch ch' f, mats f -> exists g h,
  transfToR true ch (Bch ch') f = Some g /\ transfToR true ch' (Bch ch) g = Some h /\ trip_eq h f.
Proof.
  intros ch ch' f M. destruct (conv_mf ch ch' f M) as (g & E & Mg & L).
  destruct (conv_mf ch' ch g Mg) as (h & E' & Mh & L').
  exists g, h. repeat (split; [assumption|]).
  destruct f as [[w0 v] v']. destruct (half_split_spec w0 (proj1 M)) as (lo & hi & _ & _ & S).
  assert (F : legs_mf ch' (w0, v, v') (legs_split ch' lo hi v v')).
  { exists lo, hi. split; [exact S|]. repeat apply conj; reflexivity. }
  eapply legs_mf_inj; [apply L', L; exact F|exact F].
Qed.
Lemma conv_mf_via : forall ch ch' ch'' f, mats f -> exists g h k,
  transfToR true ch' (Bch ch) f = Some g /\ transfToR true ch'' (Bch ch') g = Some h /\
  transfToR true ch'' (Bch ch) f = Some k /\ trip_eq h k.
Proof.
  intros ch ch' ch'' f M. destruct (conv_mf ch' ch f M) as (g & E & Mg & L).
  destruct (conv_mf ch'' ch' g Mg) as (h & E' & Mh & L'). destruct (conv_mf ch'' ch f M) as (k & E2 & Mk & L2).
  exists g, h, k. repeat (split; [assumption|]).
  destruct f as [[w0 v] v']. destruct (half_split_spec w0 (proj1 M)) as (lo & hi & _ & _ & S).
  assert (F : legs_mf ch (w0, v, v') (legs_split ch lo hi v v')).
  { exists lo, hi. split; [exact S|]. repeat apply conj; reflexivity. }
  eapply legs_mf_inj; [apply L', L; exact F|apply L2; exact F].
Qed.

(** from leg frequencies *)
Definition mats_legs (l : legs) : Prop := fermionic (n1' l) /\ fermionic (n2' l) /\ fermionic (n1 l) /\ fermionic (n2 l).


Lemma floor_fermionic : forall x, fermionic x -> exists f, floor2bfreq (x / 2) = Some f.
Proof.
  intros x (n & E).
  assert (B : exists m b, 0 <= b <= 1 /\ n = 2 * m + b).
  { exists (n / 2), (n mod 2). pose proof (Z.div_mod n 2). pose proof (Z.mod_pos_bound n 2). lia. }
  destruct B as (m & b & Hb & ->).
  unfold floor2bfreq.
  assert (F : Qfloor (x / 2 / 2 + tol8) = m).
  { apply Qfloor_unique; unfold Qdiv; change (/2)%Q with (1#2)%Q; rewrite E; unfold tol8; injz;
    assert (0 <= inject_Z b <= 1)%Q by (change 0%Q with (inject_Z 0); change 1%Q with (inject_Z 1);
      rewrite <- !Zle_Qle; lia); lra. }
  rewrite F. assert (0 <= inject_Z b <= 1)%Q by (change 0%Q with (inject_Z 0); change 1%Q with (inject_Z 1);
      rewrite <- !Zle_Qle; lia).
  assert (L1 : Qle_bool (inject_Z m * 2) (x / 2) = true).
  { apply Qle_bool_iff. unfold Qdiv; change (/2)%Q with (1#2)%Q; rewrite E; injz; lra. }
  assert (L2 : Qle_bool (x / 2 - 2) (inject_Z m * 2) = true).
  { apply Qle_bool_iff. unfold Qdiv; change (/2)%Q with (1#2)%Q; rewrite E; injz; lra. }
  rewrite L1, L2. eexists; reflexivity.
Qed.
Lemma conv_mf_from_legs : forall ch l, ch <> Ca \/ (n2' l - n1 l == 0 \/ n2' l - n1 l == 2)%Q ->
  mats_legs l -> conserved l ->
  exists g, transfToR true ch Bf (n1' l, n2' l, n1 l) = Some g /\ mats g /\ legs_mf ch g l.
Proof.
  intros ch [a b c d] Hch (Ha & Hb & Hc & Hd) H. unfold conserved in H. cbn [n1' n2' n1 n2] in *.
  cbn [transfToR]. destruct (floor_fermionic a Ha) as (f0 & E0). rewrite E0. cbn [obind].
  destruct ch;
  match goal with |- context [floor2bfreq (?x / 2)] =>
    let Hx := fresh "Hx" in assert (Hx : bosonic x) by auto 8 with par;
    destruct (half_split_spec x Hx) as (lo' & hi' & E' & _ & S'); rewrite E'; cbn [obind];
    pose proof S' as (Hlo' & Hhi' & Sum' & B1 & B2 & B3)
  end;
  (eexists; split; [reflexivity|]; split; [repeat apply conj; auto 10 with par|]);
  exists lo', hi'; (split; [exact S'|]);
  unfold legs_eq, legs_split in *; cbn [n1' n2' n1 n2] in *.
  - assert (Z : (lo' == 0)%Q).
    { destruct Hlo' as (n & En), Hhi' as (m & Em). rewrite En, Em in *.
      destruct Hch as [Hch|[Hch|Hch]]; [congruence| |]; rewrite Hch in *.
      - assert (n + m = 0) by (apply inject_Z_injective; injz; lra).
        assert (inject_Z (2 * n) <= inject_Z 0)%Q by (injz; qlra). rewrite <- Zle_Qle in H1.
        assert (inject_Z (2 * m) <= inject_Z (2 * n + 2))%Q by (injz; qlra). rewrite <- Zle_Qle in H2.
        assert (n = 0) by lia. subst n. reflexivity.
      - assert (n + m = 1) by (apply inject_Z_injective; injz; lra).
        assert (inject_Z (2 * n) <= inject_Z 1)%Q by (injz; qlra). rewrite <- Zle_Qle in H1.
        assert (inject_Z (2 * m) <= inject_Z (2 * n + 2))%Q by (injz; qlra). rewrite <- Zle_Qle in H2.
        assert (n = 0) by lia. subst n. reflexivity. }
    repeat apply conj; lra.
  - repeat apply conj; lra.
  - repeat apply conj; lra.
Qed.
(** in the a channel the conversion is wrong for every other transfer frequency *)
Lemma conv_mf_from_legs_a : forall l, mats_legs l -> conserved l ->
  ~ (n2' l - n1 l == 0 \/ n2' l - n1 l == 2)%Q ->
  exists g, transfToR true Ca Bf (n1' l, n2' l, n1 l) = Some g /\ ~ legs_mf Ca g l.
Proof.
  intros [a b c d] (Ha & Hb & Hc & Hd) H N. unfold conserved in H. cbn [n1' n2' n1 n2] in *.
  cbn [transfToR]. destruct (floor_fermionic a Ha) as (f0 & E0). rewrite E0. cbn [obind].
  assert (Hx : bosonic (b - c)) by auto with par.
  destruct (half_split_spec _ Hx) as (lo' & hi' & E' & _ & S'). rewrite E'. cbn [obind].
  eexists; split; [reflexivity|]. intros (lo & hi & S & L).
  destruct (half_split_unique _ _ _ _ _ S' S) as [D1 D2].
  unfold legs_eq, legs_split in L; cbn [n1' n2' n1 n2] in L.
  assert (Z : (lo' == 0)%Q) by lra.
  destruct S' as ((n & En) & (m & Em) & Sum & B1 & B2 & B3).
  assert (inject_Z (2 * m) <= inject_Z 2)%Q by (injz; qlra). rewrite <- Zle_Qle in H0.
  assert (inject_Z 0 <= inject_Z (2 * m))%Q by (injz; qlra). rewrite <- Zle_Qle in H1.
  apply N. assert (m = 0 \/ m = 1) as [-> | ->] by lia; [left|right];
  [change (inject_Z (2 * 0)) with 0%Q in Em|change (inject_Z (2 * 1)) with 2%Q in Em]; lra.
Qed.
