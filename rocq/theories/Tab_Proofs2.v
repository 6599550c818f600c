(** Reduction to the stored frequency sector and the symmetrisation loop (C20). *)
From Coq Require Import QArith Lqa Permutation.
From Verif Require Import Prelude Cplx Keld_Model Keld_Proofs Util_Model Util_Spec Util_Proofs Sym_Model Sym_Spec
  Sym_Proofs Sym_Proofs2 Tab_Model Tab_Spec Tab_Proofs.
Open Scope Z_scope.

Lemma sidx : forall x, ((x <= tol10)%Q /\ sign_index x = 0) \/ ((tol10 < x)%Q /\ sign_index x = 1).
Proof.
  intro x. unfold sign_index. destruct (Qle_boolP x tol10) as [H|H]; [left|right]; split; try reflexivity; try exact H.
  apply Qnot_le_lt. exact H.
Qed.
Lemma sidx0 : forall x, (x <= tol10)%Q -> sign_index x = 0.
Proof. intros x H. destruct (sidx x) as [[_ E]|[L _]]; [exact E|]. exfalso. lra. Qed.

Lemma corr_neg : forall c x, (mf c = true -> bosonic x) ->
  exists r, (r <= 0)%Q /\ forall y, (y == x \/ y == - x)%Q -> corr c y = Some r.
Proof.
  intros c x H. unfold corr. destruct (mf c).
  - destruct (H eq_refl) as (n & E). exists (inject_Z (Z.rem (- Z.abs n) 2) * 2)%Q. split.
    + assert (R : Z.rem (- Z.abs n) 2 = 0 \/ Z.rem (- Z.abs n) 2 = -1).
      { rewrite Z.rem_opp_l by lia. rewrite Z.rem_mod_nonneg by lia.
        pose proof (Z.mod_pos_bound (Z.abs n) 2 ltac:(lia)). lia. }
      destruct R as [R|R]; rewrite R; apply Qle_bool_iff; reflexivity.
    + intros y [Ey|Ey].
      * apply signFlip_value. rewrite Ey. exact E.
      * rewrite <- Z.abs_opp. apply signFlip_value. rewrite Ey, E. injz. ring.
  - exists 0%Q. split; [apply Qle_refl|reflexivity].
Qed.

Ltac sgn_cases :=
  repeat match goal with |- context [sign_index ?x] =>
    let L := fresh "L" in let E := fresh "E" in
    destruct (sidx x) as [[L E]|[L E]]; rewrite E; clear E end.
Ltac sgn_new :=
  repeat match goal with |- context [sign_index ?x] =>
    first [ rewrite (sidx0 x) by (unfold tol10 in *; lra)
          | let L := fresh "L" in let E := fresh "E" in
            destruct (sidx x) as [[L E]|[L E]]; rewrite E; clear E ] end.
Ltac tonat :=
  repeat match goal with |- context [Z.to_nat ?e] =>
    let v := eval vm_compute in (Z.to_nat e) in change (Z.to_nat e) with v end; cbn [nth_error obind].
Ltac fld := cbn [obind iK spin w v1 v2 iw_r prefactor conjugate asymmetry_transform channel_rvert switch_channel
         keldysh phs contour nBOS3 zero_t andb kK ks kw kv1 kv2 key_of].
Ltac corr_rw := repeat match goal with H : forall y, _ -> corr ?c y = Some _ |- context [corr ?c ?z] =>
        rewrite (H z) by (solve [left; ring | right; ring]) end; cbn [obind].

(** everything needed about the point a grid point is read from *)
Definition reduced (c : cfg) (ch : chan) (k : kcl) (p : key) (i : Z) (y : indices) : Prop :=
  trafo_index c ch k p = Some i /\ Ti c false (start ch p) i = Some y /\
  channel_rvert y = ch /\ spin y = ks p /\ (if keldysh c then 0 <= iK y < 16 else iK y = 0) /\
  (i = 0 -> y = start ch p) /\
  trafo_index c ch k (key_of k y) = Some 0 /\ computed c ch k (key_of k y) = Some true /\
  (mf c = true -> bosonic (w y) /\ exists r, corr c (kw p) = Some r /\ corr c (w y) = Some r /\ (r <= 0)%Q /\
     (k = k2 -> (v1 y == kv1 p \/ v1 y == - kv1 p + r)%Q) /\
     (k = k3 -> (v1 y == kv1 p /\ v2 y == kv2 p \/ v1 y == kv2 p /\ v2 y == kv1 p \/
                v1 y == - kv1 p + r /\ v2 y == - kv2 p + r \/ v1 y == - kv2 p + r /\ v2 y == - kv1 p + r)%Q)).
Lemma reduces : forall c ch k p, valid_key c p -> k <> k2b -> exists i y, reduced c ch k p i y.
Proof.
  intros c ch k p (Hk & Hs & Hw) Hb. destruct p as [k0 s w0 x1 x2]. cbn [kK ks kw] in *.
  destruct (corr_neg c w0 Hw) as (r & Rneg & Hr). unfold reduced, start, computed, trafo_index.
  destruct c as [[] zt ph co nb]; cbn [keldysh] in *.
  - pose proof (Hr w0 (or_introl (Qeq_refl _))) as R0. injection R0 as <-.
    change (mf (mkCfg true zt ph co nb)) with false.
    destruct (swap_group k0 Hk) as
      (x23 & x01 & x3 & y & y23 & y01 & y3 & (?&?&?&?&?&?&?&?) & (?&?&?&?&?&?&?&?) & (?&?&?&?&?&?&?&?) & Hodd).
    assert (Ho : Forall (fun z => 0 <= z < 16) [x23; x01; x3; y; y23; y01; y3])
      by (apply Forall_forall; intros z Hz; apply Hodd; exact Hz).
    repeat match goal with H : Forall _ (_ :: _) |- _ => inversion H; clear H; subst end.
    destruct ph, k, ch; try congruence; unfold freq_transformations; fld; corr_rw; sgn_cases; tonat;
    (do 2 eexists; split; [reflexivity|]; unfold Ti; cbn [Z.eqb Pos.eqb andb keldysh phs]; red_ops; srw;
     split; [reflexivity|]; fld;
     split; [reflexivity|]; split; [lia|]; split; [assumption|];
     split; [first [reflexivity | discriminate]|];
     corr_rw; sgn_new; (tonat; split; [reflexivity|]; split; [reflexivity|discriminate])).
  - subst k0.
    destruct k, ch; try congruence; unfold freq_transformations; fld; corr_rw;
    destruct (mf (mkCfg false zt ph co nb)) eqn:M; sgn_cases; tonat;
    (do 2 eexists; split; [reflexivity|]; unfold Ti; cbn [Z.eqb Pos.eqb andb keldysh phs]; red_ops; srw;
     split; [reflexivity|]; fld;
     split; [reflexivity|]; split; [lia|]; split; [reflexivity|];
     split; [first [reflexivity | discriminate]|];
     corr_rw; sgn_new; (tonat; split; [reflexivity|]; split; [reflexivity|];
     first [discriminate | intros _; split;
       [first [ apply (bosonic_ext w0); [ring|apply Hw; reflexivity]
             | apply (bosonic_ext (- w0)); [ring|apply bosonic_opp, Hw; reflexivity] ]
       | exists r; split; [first [reflexivity|apply Hr; left; reflexivity]|];
         split; [first [reflexivity|apply Hr; solve [left; ring|right; ring]]|]; split; [exact Rneg|];
         split; intro; try discriminate;
         solve [ left; ring | right; ring | left; split; ring | right; left; split; ring
               | right; right; left; split; ring | right; right; right; split; ring ] ]])).
Qed.

(** *** keys up to equality of rationals *)
Definition keq (a b : key) : Prop := key_eqb a b = true.
Lemma keq_iff : forall a b, keq a b <->
  kK a = kK b /\ ks a = ks b /\ (kw a == kw b)%Q /\ (kv1 a == kv1 b)%Q /\ (kv2 a == kv2 b)%Q.
Proof.
  intros. unfold keq, key_eqb. rewrite !andb_true_iff, !Z.eqb_eq, !Qeq_bool_iff. tauto.
Qed.
Lemma keq_refl : forall a, keq a a.
Proof. intro. apply keq_iff. repeat split; reflexivity. Qed.
Lemma keq_sym : forall a b, keq a b -> keq b a.
Proof. intros a b H. apply keq_iff in H. apply keq_iff. destruct H as (? & ? & ? & ? & ?). repeat split; symmetry; assumption. Qed.
Lemma keq_trans : forall a b c, keq a b -> keq b c -> keq a c.
Proof.
  intros a b c H G. apply keq_iff in H, G. apply keq_iff. destruct H as (? & ? & ? & ? & ?), G as (? & ? & ? & ? & ?).
  repeat split; etransitivity; eassumption.
Qed.
Definition proper (d : buffer) : Prop := forall a b, keq a b -> d a = d b.
Lemma upd_proper : forall d p x, proper d -> proper (upd d p x).
Proof.
  intros d p x H a b E. unfold upd.
  destruct (key_eqb a p) eqn:A, (key_eqb b p) eqn:B; try reflexivity.
  - exfalso. assert (keq b p) by (eapply keq_trans; [apply keq_sym; exact E|exact A]). unfold keq in *. congruence.
  - exfalso. assert (keq a p) by (eapply keq_trans; [exact E|exact B]). unfold keq in *. congruence.
  - apply H. exact E.
Qed.
Lemma sign_index_m : forall x y, (x == y)%Q -> sign_index x = sign_index y.
Proof.
  intros x y E. destruct (sidx x) as [[L ->]|[L ->]], (sidx y) as [[L' ->]|[L' ->]]; try reflexivity; exfalso; lra.
Qed.
Lemma trafo_index_m : forall c ch k p q, keq p q -> (mf c = true -> bosonic (kw p)) ->
  trafo_index c ch k p = trafo_index c ch k q.
Proof.
  intros c ch k p q H Hb. apply keq_iff in H. destruct H as (_ & _ & W & V1 & V2).
  destruct (corr_ex c (kw p) Hb) as (r & Hr). unfold trafo_index.
  rewrite (Hr (kw p)) by (left; reflexivity). rewrite (Hr (kw q)) by (left; symmetry; exact W). cbn [obind].
  rewrite (sign_index_m _ _ W), (sign_index_m _ _ V1).
  rewrite (sign_index_m (kv1 p - kv2 p) (kv1 q - kv2 q)) by lra.
  destruct (mf c).
  - rewrite (sign_index_m (kv1 p + kv2 p - r * (1 # 2)) (kv1 q + kv2 q - r * (1 # 2))) by lra. reflexivity.
  - rewrite (sign_index_m (kv1 p + kv2 p) (kv1 q + kv2 q)) by lra. reflexivity.
Qed.
Lemma below_iff : forall a b, negb (Qle_bool a b) = true <-> (b < a)%Q.
Proof.
  intros. destruct (Qle_boolP a b) as [H|H]; cbn [negb]; split; intro G; try discriminate; try reflexivity.
  - exfalso. lra.
  - apply Qnot_le_lt. exact H.
Qed.
(** the points inside the frequency box *)
Definition in_box (c : cfg) (k : kcl) (wlower : Q) (p : key) : Prop :=
  mf c = true -> match k with k2 => wlower <= kv1 p | k3 => wlower <= kv1 p /\ wlower <= kv2 p | _ => True end%Q.
Lemma edge_defined : forall c k wl p, (mf c = true -> bosonic (kw p)) -> exists e, edge c k wl p = Some e.
Proof.
  intros c k wl p H. unfold edge. destruct (mf c) eqn:M; [|eauto].
  destruct (corr_ex c (kw p)) as (r & Hr); [rewrite M; exact H|].
  rewrite (Hr (kw p)) by (left; reflexivity). eexists. reflexivity.
Qed.
Lemma edge_source : forall c ch k wl p i y q, reduced c ch k p i y -> in_box c k wl p -> keq q (key_of k y) ->
  edge c k wl q = Some true -> edge c k wl p = Some true.
Proof.
  intros c ch k wl p i y q (_ & _ & _ & _ & _ & _ & _ & _ & Hm) Box Q E.
  apply keq_iff in Q. destruct Q as (_ & _ & W & V1 & V2). unfold edge, in_box in *.
  destruct (mf c) eqn:M; [|discriminate]. specialize (Box eq_refl).
  destruct (Hm eq_refl) as (B & r & Rp & Ry & Rn & H2 & H3). cbn [key_of kw kv1 kv2] in *.
  destruct (corr_ex c (w y)) as (r' & Hr'); [intros _; exact B|].
  pose proof (Hr' (w y) (or_introl (Qeq_refl _))) as T. rewrite Ry in T. injection T as <-.
  rewrite (Hr' (kw q)) in E by (left; exact W). rewrite Rp. cbn [obind] in *.
  f_equal. injection E as E. destruct k; try discriminate.
  - apply below_iff in E. apply below_iff. destruct (H2 eq_refl); lra.
  - apply orb_true_iff in E. rewrite !below_iff in E. apply orb_true_iff. rewrite !below_iff.
    destruct (H3 eq_refl) as [[]|[[]|[[]|[]]]]; destruct E; try (left; lra); right; lra.
Qed.
Lemma components_defined : forall (b sbe : bool) ch k s i, 0 <= s < 2 -> (if b then 0 <= i < 16 else i = 0) ->
  exists z, components b sbe ch k s i = Some z.
Proof.
  intros b sbe ch k s i Hs Hi. unfold components.
  assert (E : (0 <=? s) && (s <? 2) && (0 <=? i) = true).
  { rewrite !andb_true_iff, Z.ltb_lt, !Z.leb_le. destruct b; lia. }
  rewrite E. destruct b.
  - assert (N : (Z.to_nat i < 16)%nat) by lia.
    match goal with |- exists z, nth_error ?l _ = _ =>
      assert (LE : length l = 16%nat) by (destruct k; [destruct ch|destruct sbe, ch|destruct sbe, ch|
        unfold comp_K3; destruct (s =? 0)]; reflexivity); destruct (nth_error l (Z.to_nat i)) eqn:EN end; [eauto|].
    apply nth_error_None in EN. lia.
  - subst i. eexists. reflexivity.
Qed.

(** *** one iteration *)
Definition rd (c : cfg) (k : kcl) (related : option buffer) (y : indices) (d : buffer) : cplx :=
  let value := (if asymmetry_transform y then match related with Some e => e | None => d end else d) (key_of k y) in
  Cscale (prefactor y) (if (keldysh c || negb (phs c)) && conjugate y then Cconj value else value).
Definition zeroed (c : cfg) (k : kcl) (ch : chan) (wl : Q) (p : key) (y : indices) (zz : bool) : Prop :=
  exists z e, components (keldysh c) false ch k (spin y) (iK y) = Some z /\ edge c k wl p = Some e /\
    zz = ((z <? 0) || e).
Definition V (c : cfg) (k : kcl) (rel : option buffer) (i : Z) (y : indices) (zz : bool) (d : buffer) (p : key) : cplx :=
  if zz then C0 else if i =? 0 then d p else rd c k rel y d.
Lemma step_spec : forall c k ch wl rel p i y, reduced c ch k p i y -> valid_key c p ->
  exists zz, zeroed c k ch wl p y zz /\ forall d, proper d ->
    exists d', enforce_step c k ch wl rel d p = Some d' /\ proper d' /\
      forall q, d' q = if key_eqb q p then V c k rel i y zz d p else d q.
Proof.
  intros c k ch wl rel p i y R (Hk & Hs & Hw).
  pose proof R as (Ei & Ey & Ec & Es & Er & _).
  destruct (components_defined (keldysh c) false ch k (spin y) (iK y)) as (z & Ez); [lia|exact Er|].
  destruct (edge_defined c k wl p Hw) as (e & Ee).
  exists ((z <? 0) || e). split; [exists z, e; auto|]. intros d Pd.
  unfold enforce_step. rewrite Ei. cbn [obind]. rewrite Ey. cbn [obind]. rewrite Ez, Ee.
  unfold read_reduced. rewrite Ec.
  replace (match ch with Ca => match ch with Ca => true | _ => false end | Cp => match ch with Cp => true | _ => false end
    | Ct => match ch with Ct => true | _ => false end end) with true by (destruct ch; reflexivity).
  cbn [obind].
  set (r := Cscale _ _). assert (Hr : r = rd c k rel y d) by reflexivity. clearbody r.
  unfold V. destruct (i =? 0); cbn [obind]; eexists; (split; [reflexivity|]);
  (split; [destruct (z <? 0), e; repeat apply upd_proper; exact Pd|]);
  intro q; destruct (key_eqb q p) eqn:Q; destruct (z <? 0), e; cbn [orb]; unfold upd; rewrite ?Q; try reflexivity;
  try (symmetry; exact Hr); try exact Hr; apply Pd; exact Q.
Qed.

(** *** the loop *)
Inductive distinct : list key -> Prop :=
| distinct_nil : distinct []
| distinct_cons : forall p ps, (forall q, In q ps -> ~ keq p q) -> distinct ps -> distinct (p :: ps).
Definition grid_ok (c : cfg) (k : kcl) (wl : Q) (ps : list key) : Prop :=
  forall p, In p ps -> valid_key c p /\ in_box c k wl p.

(** the data used for point [p] are the same in [d] and in [d0] *)
Definition agrees (c : cfg) (k : kcl) (ch : chan) (wl : Q) (rel : option buffer) (done : list key) (d d0 : buffer) : Prop :=
  (forall q, (forall p, In p done -> ~ keq q p) -> d q = d0 q) /\
  (forall p i y zz, In p done -> reduced c ch k p i y -> zeroed c k ch wl p y zz -> d p = V c k rel i y zz d0 p).
Lemma in_keq_dec : forall q ps, (exists p, In p ps /\ keq q p) \/ (forall p, In p ps -> ~ keq q p).
Proof.
  intros q ps. induction ps as [|a ps IH]; [right; intros p []|].
  destruct (key_eqb q a) eqn:E; [left; exists a; split; [left; reflexivity|exact E]|].
  destruct IH as [(p & I & K)|N]; [left; exists p; split; [right; exact I|exact K]|].
  right. intros p [<-|I]; [unfold keq; congruence|auto].
Qed.
Lemma source_value : forall c k ch wl rel done d d0 p i y zz, k <> k2b ->
  agrees c k ch wl rel done d d0 -> proper d -> proper d0 -> grid_ok c k wl done ->
  valid_key c p -> in_box c k wl p -> reduced c ch k p i y -> zeroed c k ch wl p y zz ->
  zz = false -> d (key_of k y) = d0 (key_of k y).
Proof.
  intros c k ch wl rel done d d0 p i y zz Nb [A1 A2] Pd Pd0 G Vp Bp R Z Zf.
  destruct (in_keq_dec (key_of k y) done) as [(p' & I & K)|N]; [|apply A1; exact N].
  destruct (G p' I) as [Vp' Bp'].
  destruct (reduces c ch k p' Vp' Nb) as (i' & y' & R').
  destruct (step_spec c k ch wl rel p' i' y' R' Vp') as (zz' & Z' & _).
  rewrite (Pd _ _ K), (Pd0 _ _ K). rewrite (A2 p' i' y' zz' I R' Z').
  assert (Ei : i' = 0).
  { destruct R' as (Ei' & _). destruct R as (_ & _ & _ & _ & _ & _ & S0 & _ & Hm).
    rewrite (trafo_index_m c ch k (key_of k y) p' K) in S0 by (intro M; exact (proj1 (Hm M))). congruence. }
  assert (Ey : y' = start ch p') by (apply R'; exact Ei).
  unfold V. rewrite Ei. cbn [Z.eqb].
  assert (Zf' : zz' = false); [|rewrite Zf'; reflexivity].
  destruct zz'; [exfalso|reflexivity].
  destruct Z as (z & e & Cz & Ee & E). destruct Z' as (z' & e' & Cz' & Ee' & E').
  symmetry in E'. apply orb_true_iff in E'. rewrite Zf in E. symmetry in E. apply orb_false_iff in E.
  destruct E as [Ez He]. destruct E' as [E'|E'].
  - rewrite Ey in Cz'. cbn [start spin iK] in Cz'. apply keq_iff in K. destruct K as (KK & KS & _).
    cbn [key_of kK ks] in KK, KS. rewrite <- KK, <- KS in Cz'. rewrite Cz in Cz'. injection Cz' as <-.
    rewrite E' in Ez. discriminate.
  - rewrite E' in Ee'. pose proof (edge_source c ch k wl p i y p' R Bp (keq_sym _ _ K) Ee') as T.
    rewrite Ee in T. injection T as ->. discriminate.
Qed.
Lemma V_same : forall c k ch wl rel done d d0 p i y zz, k <> k2b ->
  agrees c k ch wl rel done d d0 -> proper d -> proper d0 -> grid_ok c k wl done ->
  valid_key c p -> in_box c k wl p -> reduced c ch k p i y -> zeroed c k ch wl p y zz ->
  (forall q, In q done -> ~ keq p q) ->
  V c k rel i y zz d p = V c k rel i y zz d0 p.
Proof.
  intros c k ch wl rel done d d0 p i y zz Nb A Pd Pd0 G Vp Bp R Z F.
  unfold V. destruct zz; [reflexivity|]. destruct (i =? 0); [apply A; exact F|].
  unfold rd.
  assert (E : (if asymmetry_transform y then match rel with Some e => e | None => d end else d) (key_of k y) =
    (if asymmetry_transform y then match rel with Some e => e | None => d0 end else d0) (key_of k y)).
  { destruct (asymmetry_transform y), rel; try reflexivity;
    exact (source_value c k ch wl _ done d d0 p i y false Nb A Pd Pd0 G Vp Bp R Z eq_refl). }
  rewrite E. reflexivity.
Qed.
Lemma enforce_gen : forall c k ch wl rel, k <> k2b -> forall ps done d d0,
  proper d -> proper d0 -> agrees c k ch wl rel done d d0 -> grid_ok c k wl (done ++ ps) -> distinct ps ->
  (forall p q, In p ps -> In q done -> ~ keq p q) ->
  exists d', enforce c k ch wl rel ps d = Some d' /\ proper d' /\ agrees c k ch wl rel (ps ++ done) d' d0.
Proof.
  intros c k ch wl rel Nb. induction ps as [|p ps IH]; intros done d d0 Pd Pd0 A G D F.
  - exists d. cbn [enforce app]. auto.
  - inversion D as [|? ? D1 D2]; subst.
    assert (Ip : In p (done ++ p :: ps)) by (apply in_or_app; right; left; reflexivity).
    destruct (G p Ip) as [Vp Bp].
    destruct (reduces c ch k p Vp Nb) as (i & y & R).
    destruct (step_spec c k ch wl rel p i y R Vp) as (zz & Z & S).
    destruct (S d Pd) as (d1 & E1 & P1 & H1).
    assert (Gd : grid_ok c k wl done) by (intros q Hq; apply G, in_or_app; left; exact Hq).
    assert (Fp : forall q, In q done -> ~ keq p q) by (intros q Hq; apply F; [left; reflexivity|exact Hq]).
    assert (A1 : agrees c k ch wl rel (p :: done) d1 d0).
    { split.
      - intros q Nq. rewrite H1. destruct (key_eqb q p) eqn:Q; [exfalso; exact (Nq p (or_introl eq_refl) Q)|].
        apply A. intros p' I. apply Nq. right. exact I.
      - intros p' i' y' zz' [<-|I] R' Z'.
        + rewrite H1. change (key_eqb p p) with (key_eqb p p). rewrite (keq_refl p).
          rewrite (V_same c k ch wl rel done d d0 p i y zz Nb A Pd Pd0 Gd Vp Bp R Z Fp).
          assert (i' = i /\ y' = y /\ zz' = zz) as (-> & -> & ->); [|reflexivity].
          destruct R as (Ei & Ey & _), R' as (Ei' & Ey' & _). rewrite Ei in Ei'. injection Ei' as <-.
          rewrite Ey in Ey'. injection Ey' as <-. split; [reflexivity|]. split; [reflexivity|].
          destruct Z as (z & e & C1 & C2 & ->), Z' as (z' & e' & C1' & C2' & ->). congruence.
        + rewrite H1. destruct (key_eqb p' p) eqn:Q.
          * exfalso. exact (Fp p' I (keq_sym _ _ Q)).
          * exact (proj2 A p' i' y' zz' I R' Z'). }
    destruct (IH (p :: done) d1 d0 P1 Pd0 A1) as (d' & E' & P' & A').
    + intros q Hq. apply G. apply in_app_or in Hq. apply in_or_app. cbn [In] in *. tauto.
    + exact D2.
    + intros a b Ha [<-|Hb] Q; [exact (D1 a Ha (keq_sym _ _ Q))|exact (F a b (or_intror Ha) Hb Q)].
    + exists d'. cbn [enforce]. rewrite E1. cbn [obind]. split; [exact E'|]. split; [exact P'|].
      destruct A' as [B1 B2]. split.
      * intros q Nq. apply B1. intros p' I. apply Nq. apply in_app_or in I. cbn [app In]. rewrite in_app_iff. cbn [In] in I. tauto.
      * intros p' i' y' zz' I. apply B2. cbn [app In] in I. rewrite in_app_iff in *. cbn [In]. tauto.
Qed.

(** the loop in any order computes every entry from the original data *)
Lemma enforce_spec : forall c k ch wl rel ps d, k <> k2b -> proper d -> grid_ok c k wl ps -> distinct ps ->
  exists d', enforce c k ch wl rel ps d = Some d' /\ proper d' /\
    (forall p, In p ps -> exists e, enforce_step c k ch wl rel d p = Some e /\ d' p = e p) /\
    (forall q, (forall p, In p ps -> ~ keq q p) -> d' q = d q).
Proof.
  intros c k ch wl rel ps d Nb Pd G D.
  destruct (enforce_gen c k ch wl rel Nb ps [] d d Pd Pd) as (d' & E & P' & A1 & A2).
  - split; [reflexivity|]. intros p ? ? ? [].
  - exact G.
  - exact D.
  - intros ? ? ? [].
  - rewrite app_nil_r in A1, A2. exists d'. split; [exact E|]. split; [exact P'|]. split; [|exact A1].
    intros p I. destruct (G p I) as [Vp Bp].
    destruct (reduces c ch k p Vp Nb) as (i & y & R).
    destruct (step_spec c k ch wl rel p i y R Vp) as (zz & Z & S).
    destruct (S d Pd) as (e & Ee & _ & H). exists e. split; [exact Ee|].
    rewrite (A2 p i y zz I R Z), H, (keq_refl p). reflexivity.
Qed.
(** a second pass changes nothing *)
Lemma enforce_idem : forall c k ch wl rel ps ps' d d', k <> k2b -> proper d -> grid_ok c k wl ps -> distinct ps ->
  distinct ps' -> (forall p, In p ps' <-> In p ps) ->
  enforce c k ch wl rel ps d = Some d' ->
  exists d'', enforce c k ch wl rel ps' d' = Some d'' /\ forall q, d'' q = d' q.
Proof.
  intros c k ch wl rel ps ps' d d' Nb Pd G D D' Same E0.
  destruct (enforce_gen c k ch wl rel Nb ps [] d d Pd Pd) as (d1 & E & P' & A).
  - split; [reflexivity|]. intros p ? ? ? [].
  - exact G.
  - exact D.
  - intros ? ? ? [].
  - rewrite E0 in E. injection E as <-. rewrite app_nil_r in A.
    assert (G' : grid_ok c k wl ps') by (intros p I; apply G, Same, I).
    destruct (enforce_spec c k ch wl rel ps' d' Nb P' G' D') as (d2 & E2 & P2 & H1 & H2).
    exists d2. split; [exact E2|]. intro q.
    destruct (in_keq_dec q ps') as [(p & I & K)|N]; [|apply H2; exact N].
    rewrite (P2 _ _ K), (P' _ _ K). destruct (H1 p I) as (e & Ee & ->).
    destruct (G' p I) as [Vp Bp].
    destruct (reduces c ch k p Vp Nb) as (i & y & R).
    destruct (step_spec c k ch wl rel p i y R Vp) as (zz & Z & S).
    destruct (S d' P') as (e' & Ee' & _ & He). rewrite Ee in Ee'. injection Ee' as <-.
    rewrite He, (keq_refl p).
    pose proof (proj2 A p i y zz (proj1 (Same p) I) R Z) as Vd.
    unfold V in *. destruct zz; [symmetry; exact Vd|]. destruct (i =? 0); [reflexivity|].
    rewrite Vd. unfold rd. assert (Gs : grid_ok c k wl ps) by exact G.
    assert (X : (if asymmetry_transform y then match rel with Some e => e | None => d' end else d') (key_of k y) =
      (if asymmetry_transform y then match rel with Some e => e | None => d end else d) (key_of k y)).
    { destruct (asymmetry_transform y), rel; try reflexivity;
      exact (source_value c k ch wl _ ps d' d p i y false Nb A P' Pd Gs Vp Bp R Z eq_refl). }
    rewrite X. reflexivity.
Qed.
Lemma enforce_order : forall c k ch wl rel ps ps' d, k <> k2b -> proper d -> grid_ok c k wl ps -> distinct ps ->
  distinct ps' -> (forall p, In p ps' <-> In p ps) ->
  exists d1 d2, enforce c k ch wl rel ps d = Some d1 /\ enforce c k ch wl rel ps' d = Some d2 /\ forall q, d1 q = d2 q.
Proof.
  intros c k ch wl rel ps ps' d Nb Pd G D D' Same.
  assert (G' : grid_ok c k wl ps') by (intros p I; apply G, Same, I).
  destruct (enforce_spec c k ch wl rel ps d Nb Pd G D) as (d1 & E1 & P1 & A1 & B1).
  destruct (enforce_spec c k ch wl rel ps' d Nb Pd G' D') as (d2 & E2 & P2 & A2 & B2).
  exists d1, d2. split; [exact E1|]. split; [exact E2|]. intro q.
  destruct (in_keq_dec q ps) as [(p & I & K)|N].
  - rewrite (P1 _ _ K), (P2 _ _ K). destruct (A1 p I) as (e & Ee & ->).
    destruct (A2 p (proj2 (Same p) I)) as (e' & Ee' & ->). congruence.
  - rewrite (B1 q N). symmetry. apply B2. intros p I. apply N, Same, I.
Qed.
