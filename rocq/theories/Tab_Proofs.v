(** Proofs about the symmetry tables (C19) and the reduction to the stored frequency sector (C20). *)
From Coq Require Import QArith Lqa.
From Verif Require Import Prelude Cplx Keld_Model Keld_Proofs Util_Model Util_Spec Util_Proofs Sym_Model Sym_Spec
  Sym_Proofs Sym_Proofs2 Tab_Model Tab_Spec.
Open Scope Z_scope.

Ltac klegs_cases k H :=
  let a := fresh in let b := fresh in let c := fresh in let d := fresh in
  destruct k as [a b c d]; unfold klegs_ok, is12 in H; cbn in H;
  destruct H as ([->| ->] & [->| ->] & [->| ->] & [->| ->]).

Lemma vanishing_rule : forall sbe ch c s k, klegs_ok k -> s = 0 \/ s = 1 ->
  exists z, components true sbe ch c s (kcode k) = Some z /\ (z < 0 <-> vanishes sbe ch c k = true).
Proof.
  intros sbe ch c s k H Hs.
  destruct Hs as [-> | ->], sbe, ch, c; klegs_cases k H;
  (eexists; split; [vm_compute; reflexivity|]; vm_compute; split; congruence).
Qed.

(** labels agree exactly within orbits *)
Definition in_orbit (ch : chan) (c : kcl) (k k' : klegs) : bool :=
  existsb (fun q => (a1' q =? a1' k') && (a2' q =? a2' k') && (a1 q =? a1 k') && (a2 q =? a2 k')) (orbit ch c k).
Lemma in_orbit_spec : forall ch c k k', in_orbit ch c k k' = true <-> In k' (orbit ch c k).
Proof.
  intros. unfold in_orbit. rewrite existsb_exists. split.
  - intros (q & Hq & E). rewrite !andb_true_iff, !Z.eqb_eq in E. destruct q, k'; cbn in E.
    destruct E as (((-> & ->) & ->) & ->). exact Hq.
  - intro H. exists k'. split; [exact H|]. rewrite !Z.eqb_refl. reflexivity.
Qed.
Definition all_klegs : list klegs :=
  flat_map (fun a => flat_map (fun b => flat_map (fun c => map (fun d => mkK a b c d) [1; 2]) [1; 2]) [1; 2]) [1; 2].
Lemma all_klegs_spec : forall k, klegs_ok k -> In k all_klegs.
Proof. intros k H. klegs_cases k H; vm_compute; tauto. Qed.
Definition label_check (sbe : bool) (ch : chan) (c : kcl) (s : Z) : bool :=
  forallb (fun k => forallb (fun k' =>
    match components true sbe ch c s (kcode k), components true sbe ch c s (kcode k') with
    | Some z, Some z' => (z <? 0) || (z' <? 0) || Bool.eqb (z =? z') (in_orbit ch c k k')
    | _, _ => false end) all_klegs) all_klegs.
Lemma label_orbit : forall sbe ch c s k k', klegs_ok k -> klegs_ok k' -> s = 0 \/ s = 1 ->
  exists z z', components true sbe ch c s (kcode k) = Some z /\ components true sbe ch c s (kcode k') = Some z' /\
    (0 <= z -> 0 <= z' -> (z = z' <-> In k' (orbit ch c k))).
Proof.
  intros sbe ch c s k k' H H' Hs.
  assert (E : label_check sbe ch c s = true) by (destruct Hs as [-> | ->], sbe, ch, c; vm_compute; reflexivity).
  unfold label_check in E. rewrite forallb_forall in E. specialize (E k (all_klegs_spec k H)).
  cbv beta in E. rewrite forallb_forall in E. specialize (E k' (all_klegs_spec k' H')). cbv beta in E.
  destruct (components true sbe ch c s (kcode k)) as [z|]; [|discriminate].
  destruct (components true sbe ch c s (kcode k')) as [z'|]; [|discriminate].
  exists z, z'. split; [reflexivity|]. split; [reflexivity|]. intros P P'.
  rewrite (proj2 (Z.ltb_ge z 0) P), (proj2 (Z.ltb_ge z' 0) P') in E. cbn [orb] in E.
  apply eqb_prop in E. rewrite <- in_orbit_spec, <- E. symmetry. apply Z.eqb_eq.
Qed.

(** every spin component is read from spin component 0 of the stored class *)
Lemma table_trafo : forall c sbe sbe' ch k s k0 w0 x1 x2 iwr,
  s = 0 \/ s = 1 ->
  (if keldysh c then 0 <= k0 < 16 else k0 = 0) ->
  (mf c = true -> bosonic w0) ->
  exists i y z, transformations (keldysh c) ch k s = Some i /\
    Ti c sbe' (mkI k0 s w0 x1 x2 iwr 1 false false ch) i = Some y /\ spin y = 0 /\
    components (keldysh c) sbe ch k s k0 = Some z /\
    components (keldysh c) sbe (channel_rvert y) (stored_class k) 0 (iK y) = Some z /\
    (k <> k1 -> v1 y == (match k with k2b => x2 | _ => x1 end) \/
       (keldysh c = false /\ exists r, corr c w0 = Some r /\ v1 y == - x2 + r))%Q.
Proof.
  intros c sbe sbe' ch k s k0 w0 x1 x2 iwr Hs Hk Hw.
  destruct (corr_ex c w0 Hw) as (r & Hr).
  destruct c as [[] zt ph co nb]; cbn [keldysh] in *.
  - assert (HC : forall y, corr (mkCfg true zt ph co nb) y = Some 0%Q) by reflexivity.
    destruct sbe, Hs as [-> | ->], k, ch; cases16 k0 Hk;
    (cbn [transformations Z.eqb Pos.eqb]; do 3 eexists; split; [reflexivity|];
     unfold Ti; cbn [Z.eqb Pos.eqb andb]; red_ops;
     repeat (cbn [swap23 swap01 swapC obind];
       match goal with
       | |- context [swap23 ?z] => let e := eval vm_compute in (swap23 z) in change (swap23 z) with e
       | |- context [swap01 ?z] => let e := eval vm_compute in (swap01 z) in change (swap01 z) with e
       | |- context [swapC ?z] => let e := eval vm_compute in (swapC z) in change (swapC z) with e
       end); cbn [obind channel_rvert switch_channel iK spin w v1 v2]; rewrite ?HC; cbn [obind]; red_ops;
     split; [reflexivity|];
     cbn [obind channel_rvert switch_channel iK spin w v1 v2 stored_class];
     split; [reflexivity|]; split; [vm_compute; reflexivity|];
     split; [vm_compute; reflexivity|]; intros; left; ring).
  - subst k0. destruct Hs as [-> | ->], k, ch;
    (cbn [transformations Z.eqb Pos.eqb]; do 3 eexists; split; [reflexivity|];
     unfold Ti; cbn [Z.eqb Pos.eqb andb]; red_ops; srw;
     split; [reflexivity|];
     cbn [obind channel_rvert switch_channel iK spin w v1 v2 stored_class];
     split; [reflexivity|]; split; [vm_compute; reflexivity|];
     split; [vm_compute; reflexivity|]; intros; first [left; ring | congruence |
        right; split; [reflexivity|]; exists r; split; [first [reflexivity|apply Hr; left; reflexivity]|ring]]).
Qed.
