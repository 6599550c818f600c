(** Theorems for C19 (symmetry tables) and C20 (frequency sectors). *)
From Coq Require Import QArith Lqa.
From Verif Require Import Prelude Cplx Keld_Model Util_Model Util_Spec Util_Proofs Sym_Model Sym_Spec Tab_Model Tab_Spec
  Sym_Proofs Sym_Proofs2 Tab_Proofs Tab_Proofs2.
Open Scope Z_scope.

(** ** C19 *)
(** vanishing components are exactly those required by causality *)
Theorem C19_vanishing_components : forall sbe ch c s k, klegs_ok k -> s = 0 \/ s = 1 ->
  exists z, components true sbe ch c s (kcode k) = Some z /\ (z < 0 <-> vanishes sbe ch c k = true).
Proof. exact vanishing_rule. Qed.
Print Assumptions C19_vanishing_components.
(** two non-vanishing components carry the same label exactly if a symmetry relates them *)
Theorem C19_labels_are_orbits : forall sbe ch c s k k', klegs_ok k -> klegs_ok k' -> s = 0 \/ s = 1 ->
  exists z z', components true sbe ch c s (kcode k) = Some z /\ components true sbe ch c s (kcode k') = Some z' /\
    (0 <= z -> 0 <= z' -> (z = z' <-> In k' (orbit ch c k))).
Proof. exact label_orbit. Qed.
Print Assumptions C19_labels_are_orbits.
(** the tabulated spin transformation leads to spin 0, to the stored class and to the same label *)
Theorem C19_transformations_lead_to_stored_data : forall c sbe sbe' ch k s k0 w0 x1 x2 iwr,
  s = 0 \/ s = 1 -> (if keldysh c then 0 <= k0 < 16 else k0 = 0) -> (mf c = true -> bosonic w0) ->
  exists i y z, transformations (keldysh c) ch k s = Some i /\
    Ti c sbe' (mkI k0 s w0 x1 x2 iwr 1 false false ch) i = Some y /\ spin y = 0 /\
    components (keldysh c) sbe ch k s k0 = Some z /\
    components (keldysh c) sbe (channel_rvert y) (stored_class k) 0 (iK y) = Some z /\
    (k <> k1 -> v1 y == (match k with k2b => x2 | _ => x1 end) \/
       (keldysh c = false /\ exists r, corr c w0 = Some r /\ v1 y == - x2 + r))%Q.
Proof. exact table_trafo. Qed.
Print Assumptions C19_transformations_lead_to_stored_data.
Example C19_hyp : let k := mkK 1 2 2 1 in klegs_ok k /\
  vanishes false Ca k1 k = true /\ vanishes false Cp k1 k = false /\
  components true false Ca k1 0 (kcode k) = Some (-1) /\ components true false Cp k1 0 (kcode k) = Some 1 /\
  In (mkK 2 1 2 1) (orbit Cp k1 k) /\ transformations true Ca k2 1 = Some 2.
Proof.
  cbv zeta. split; [unfold klegs_ok, is12; cbn; lia|]. repeat (split; [vm_compute; reflexivity|]).
  split; [apply in_orbit_spec; vm_compute; reflexivity|vm_compute; reflexivity].
Qed.

(** ** C20 *)
(** every point is mapped into the sector that is computed; a second lookup there is the identity *)
Theorem C20_point_reduces_to_stored_sector : forall c ch k p, valid_key c p -> k <> k2b ->
  exists i y, trafo_index c ch k p = Some i /\ Ti c false (start ch p) i = Some y /\
    channel_rvert y = ch /\ spin y = ks p /\
    trafo_index c ch k (key_of k y) = Some 0 /\ computed c ch k (key_of k y) = Some true.
Proof.
  intros c ch k p Hp Hk. destruct (reduces c ch k p Hp Hk) as (i & y & A & B & C & D & _ & _ & E & F & _).
  exists i, y. auto 8.
Qed.
Print Assumptions C20_point_reduces_to_stored_sector.
(** the symmetrisation loop computes every entry from the original data, whatever the order *)
Theorem C20_entries_from_original_data : forall c k ch wl rel ps d, k <> k2b -> proper d -> grid_ok c k wl ps -> distinct ps ->
  exists d', enforce c k ch wl rel ps d = Some d' /\ proper d' /\
    (forall p, In p ps -> exists e, enforce_step c k ch wl rel d p = Some e /\ d' p = e p) /\
    (forall q, (forall p, In p ps -> ~ keq q p) -> d' q = d q).
Proof. exact enforce_spec. Qed.
Print Assumptions C20_entries_from_original_data.
Theorem C20_order_independent : forall c k ch wl rel ps ps' d, k <> k2b -> proper d -> grid_ok c k wl ps -> distinct ps ->
  distinct ps' -> (forall p, In p ps' <-> In p ps) ->
  exists d1 d2, enforce c k ch wl rel ps d = Some d1 /\ enforce c k ch wl rel ps' d = Some d2 /\ forall q, d1 q = d2 q.
Proof. exact enforce_order. Qed.
Print Assumptions C20_order_independent.
Theorem C20_idempotent : forall c k ch wl rel ps ps' d d', k <> k2b -> proper d -> grid_ok c k wl ps -> distinct ps ->
  distinct ps' -> (forall p, In p ps' <-> In p ps) ->
  enforce c k ch wl rel ps d = Some d' ->
  exists d'', enforce c k ch wl rel ps' d' = Some d'' /\ forall q, d'' q = d' q.
Proof. exact enforce_idem. Qed.
Print Assumptions C20_idempotent.
(** the value written at a point is determined by the sector's representative: sign, conjugation and the
    representative's frequencies *)
Theorem C20_entry_value : forall c k ch wl rel p d, valid_key c p -> k <> k2b -> proper d ->
  exists i y zz d', trafo_index c ch k p = Some i /\ Ti c false (start ch p) i = Some y /\ zeroed c k ch wl p y zz /\
    enforce_step c k ch wl rel d p = Some d' /\
    (zz = true -> d' p = C0) /\
    (zz = false -> i <> 0 ->
       let source := if asymmetry_transform y then match rel with Some e => e | None => d end else d in
       d' p = Cscale (prefactor y) (if (keldysh c || negb (phs c)) && conjugate y then Cconj (source (key_of k y)) else source (key_of k y))) /\
    (zz = false -> i = 0 -> d' p = d p).
Proof.
  intros c k ch wl rel p d Hp Hk Pd. destruct (reduces c ch k p Hp Hk) as (i & y & R).
  destruct (step_spec c k ch wl rel p i y R Hp) as (zz & Z & S).
  destruct (S d Pd) as (d' & E & _ & V'). exists i, y, zz, d'.
  split; [apply R|]. split; [apply R|]. split; [exact Z|]. split; [exact E|].
  specialize (V' p). replace (key_eqb p p) with true in V' by (symmetry; apply keq_refl).
  unfold V, rd in V'. split; [intros ->; exact V'|]. split.
  - intros -> Ni. replace (i =? 0) with false in V' by (symmetry; apply Z.eqb_neq; exact Ni). exact V'.
  - intros -> ->. exact V'.
Qed.
Print Assumptions C20_entry_value.
Definition demo_cfg := mkCfg false false true false 51.
Definition demo_p := mkKey 0 0 2 3 5.
Definition demo_q := mkKey 0 0 (-2) 3 5.
Example C20_hyp : valid_key demo_cfg demo_p /\ valid_key demo_cfg demo_q /\ distinct [demo_p; demo_q] /\
  grid_ok demo_cfg k3 (-9) [demo_p; demo_q] /\ proper (fun p => if key_eqb p demo_p then C1 else C0) /\
  trafo_index demo_cfg Ca k3 demo_p = Some 4.
Proof.
  assert (Vp : valid_key demo_cfg demo_p) by (split; [reflexivity|split; [cbn; lia|intros _; exists 1; reflexivity]]).
  assert (Vq : valid_key demo_cfg demo_q) by (split; [reflexivity|split; [cbn; lia|intros _; exists (-1); reflexivity]]).
  assert (N : ~ keq demo_p demo_q) by (intro H; vm_compute in H; discriminate).
  split; [exact Vp|]. split; [exact Vq|]. split.
  - constructor; [intros q [<-|[]]; exact N|constructor; [intros q []|constructor]].
  - split.
    + intros p [<-|[<-|[]]]; (split; [assumption|intros _; cbn; lra]).
    + split; [|vm_compute; reflexivity].
      intros a b H. destruct (key_eqb a demo_p) eqn:A, (key_eqb b demo_p) eqn:B; try reflexivity; exfalso.
      * assert (keq b demo_p) by (eapply keq_trans; [apply keq_sym; exact H|exact A]). unfold keq in *. congruence.
      * assert (keq a demo_p) by (eapply keq_trans; [exact H|exact B]). unfold keq in *. congruence.
Qed.
