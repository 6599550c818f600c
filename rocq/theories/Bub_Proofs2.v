(** Proofs for Bub_Props: the lines, and the parts of symmetric vertices. *)
From Coq Require Import QArith Lqa.
From Verif Require Import Prelude Cplx Keld_Model Keld_Spec Keld_Proofs Keld_Proofs2 Util_Spec Sym_Model Sym_Spec Sym_Proofs Sym_Proofs2
  Tab_Model Tab_Spec Rd_Model Rd_Spec Dec_Model Bub_Model Bub_Spec Bub_Proofs.
Open Scope Z_scope.

(** ** lines *)
Lemma ok_prop g : lines_ok g -> prop_ok g. Proof. intros [H _]. exact H. Qed.
Lemma Gmat_conj g v x y : lines_ok g -> (Gmat g v x y == - (eps x * eps y * Cconj (Gmat g v y x)))%C.
Proof.
  intros [_ H]. specialize (H v). destruct x, y; cbn [Gmat eps].
  - split; unfold Cconj, Cmul, Cneg, C1; cbn [re im]; try rewrite H; ring.
  - split; unfold Cconj, Cmul, Cneg, C1; cbn [re im]; ring.
  - split; unfold Cconj, Cmul, Cneg, C1; cbn [re im]; ring.
  - split; unfold Cconj, Cmul, Cneg, C1, C0; cbn [re im]; ring.
Qed.
Lemma Gmat_minus g v x y : ph_symmetric g -> antihermitian g ->
  (Gmat g v x y == eps x * eps y * Cconj (Gmat g (- v)%Q x y))%C.
Proof.
  intros H A. destruct (H v) as (HR & HK). specialize (A v).
  destruct x, y; cbn [Gmat eps]; rewrite ?HR, ?HK.
  - split; unfold Cconj, Cmul, Cneg, C1; cbn [re im]; try rewrite A; ring.
  - split; unfold Cconj, Cmul, Cneg, C1; cbn [re im]; ring.
  - split; unfold Cconj, Cmul, Cneg, C1; cbn [re im]; ring.
  - split; unfold Cconj, Cmul, Cneg, C1, C0; cbn [re im]; ring.
Qed.
Section Lines.
  Variables (diff : bool) (g s : prop).
  Hypotheses (Hg : lines_ok g) (Hs : lines_ok s).
  Let Pg := ok_prop g Hg. Let Ps := ok_prop s Hs.
  Lemma lines_w ch ch' (w w' v v' : Q) a b c d : (line1 ch w v == line1 ch' w' v')%Q -> (line2 ch w v == line2 ch' w' v')%Q ->
    (lines ch diff g s w v a b c d == lines ch' diff g s w' v' a b c d)%C.
  Proof.
    intros E1 E2. unfold lines. destruct diff; unfold pair_of_lines, pair_of_lines_diff;
    rewrite (Gmat_m g _ _ _ _ Pg E1), (Gmat_m g _ _ _ _ Pg E2); [|reflexivity].
    rewrite (Gmat_m s _ _ _ _ Ps E1), (Gmat_m s _ _ _ _ Ps E2). reflexivity.
  Qed.
  Lemma lines_exchanged ch ch' (w w' v v' : Q) a b c d : (line1 ch w v == line2 ch' w' v')%Q -> (line2 ch w v == line1 ch' w' v')%Q ->
    (lines ch diff g s w v a b c d == lines ch' diff g s w' v' b a d c)%C.
  Proof.
    intros E1 E2. unfold lines. destruct diff; unfold pair_of_lines, pair_of_lines_diff;
    rewrite (Gmat_m g _ _ _ _ Pg E1), (Gmat_m g _ _ _ _ Pg E2); [|ring].
    rewrite (Gmat_m s _ _ _ _ Ps E1), (Gmat_m s _ _ _ _ Ps E2). ring.
  Qed.
  Lemma lines_conj ch (w v : Q) a b c d :
    (lines ch diff g s w v a b c d == eps4 a b c d * Cconj (lines ch diff g s w v c d a b))%C.
  Proof.
    unfold lines, eps4. destruct diff; unfold pair_of_lines, pair_of_lines_diff; rewrite ?conj_add, ?conj_mul;
    rewrite (Gmat_conj g _ a c Hg), (Gmat_conj g _ b d Hg).
    - rewrite (Gmat_conj s _ a c Hs), (Gmat_conj s _ b d Hs). ring.
    - ring.
  Qed.
  Lemma lines_minus ch (w w' v v' : Q) a b c d : ph_symmetric g -> ph_symmetric s ->
    (w' == - w)%Q -> (v' == - v)%Q ->
    (lines ch diff g s w v a b c d == eps4 a b c d * Cconj (lines ch diff g s w' v' a b c d))%C.
  Proof.
    intros Sg Ss Ew Ev.
    assert (E1 : (line1 ch w' v' == - line1 ch w v)%Q) by (destruct ch; unfold line1; rewrite Ew, Ev; field).
    assert (E2 : (line2 ch w' v' == - line2 ch w v)%Q) by (destruct ch; unfold line2; rewrite Ew, Ev; field).
    pose proof (ok_conjugate _ Hg) as Ag. pose proof (ok_conjugate _ Hs) as As.
    unfold lines, eps4. destruct diff; unfold pair_of_lines, pair_of_lines_diff; rewrite ?conj_add, ?conj_mul;
    rewrite (Gmat_m g _ _ _ _ Pg E1), (Gmat_m g _ _ _ _ Pg E2);
    rewrite (Gmat_minus g _ a c Sg Ag), (Gmat_minus g _ b d Sg Ag).
    - rewrite (Gmat_m s _ _ _ _ Ps E1), (Gmat_m s _ _ _ _ Ps E2).
      rewrite (Gmat_minus s _ a c Ss As), (Gmat_minus s _ b d Ss As). ring.
    - ring.
  Qed.
End Lines.

(** ** frequencies *)
Lemma natural_legs ch l : conserved l -> legs_eq l (legs_of ch (natural ch l)).
Proof.
  unfold conserved, legs_eq. destruct l as [x y z t]. cbn [n1' n2' n1 n2]. intros H.
  assert (X : (x == z + t - y)%Q) by (rewrite <- H; ring).
  destruct ch; cbn [natural legs_of n1' n2' n1 n2]; repeat (apply Logic.conj); try rewrite X; field.
Qed.
Lemma legs_of_conserved ch f : conserved (legs_of ch f).
Proof. destruct f as ((w0, v), v'). unfold conserved. destruct ch; cbn [legs_of n1' n2' n1 n2]; field. Qed.
Lemma legs_eq_conserved l l' : conserved l -> legs_eq l l' -> conserved l'.
Proof. unfold conserved. intros H (A & B & C & D). rewrite <- A, <- B, <- C, <- D. exact H. Qed.
Lemma legs_eq_refl l : legs_eq l l. Proof. repeat (apply Logic.conj); reflexivity. Qed.
Lemma legs_of_m ch f f' : trip_eq f f' -> legs_eq (legs_of ch f) (legs_of ch f').
Proof.
  destruct f as ((a, b), d), f' as ((a', b'), d'). intros (A & B & C). cbn [fst snd] in A, B, C.
  destruct ch; cbn [legs_of]; repeat (apply Logic.conj); cbn [n1' n2' n1 n2]; rewrite A, ?B, ?C; reflexivity.
Qed.

(** ** parts of a vertex *)
Definition klof (iK : Z) : klegs := mkK (iK / 8 + 1) (iK / 4 mod 2 + 1) (iK / 2 mod 2 + 1) (iK mod 2 + 1).
Lemma klof_ok a b c d : klegs_ok (klof (code4 a b c d)).
Proof. destruct a, b, c, d; vm_compute; intuition. Qed.
Lemma kcode_klof a b c d : kcode (klof (code4 a b c d)) = code4 a b c d.
Proof. destruct a, b, c, d; reflexivity. Qed.
Lemma klof_kcode kl : klegs_ok kl -> exists a b c d, kl = klof (code4 a b c d).
Proof.
  destruct kl as [x y z t]. intros (A & B & C & D). cbn [a1' a2' a1 a2] in *.
  exists (x =? 2), (y =? 2), (z =? 2), (t =? 2).
  destruct A as [-> | ->], B as [-> | ->], C as [-> | ->], D as [-> | ->]; reflexivity.
Qed.

Section Parts.
  Variables (c : cfg) (u : Q).
  Hypothesis Kc : keldysh c = true.
  Hypothesis CBc : contour c = false.
  Definition bare (s : Z) (kl : klegs) : cplx := irred_expanded (irred_initialize c (Cofq u)) s (kcode kl).
  Definition total (G : family) (h : bool) (ch : chan) (s : Z) (kl : klegs) (l : legs) : cplx :=
    (G h ch k1 s kl l + G h ch k2 s kl l + G h ch k2b s kl l + G h ch k3 s kl l)%C.
  Definition others (G : family) (h : bool) (ch : chan) (s : Z) (kl : klegs) (l : legs) : cplx :=
    (match ch with
     | Ca => total G h Cp s kl l + total G h Ct s kl l
     | Cp => total G h Ca s kl l + total G h Ct s kl l
     | Ct => total G h Ca s kl l + total G h Cp s kl l
     end)%C.
  Definition spec_part (right : bool) (st : symmtype) (dressed : bool) (G : family) (h : bool) (ch : chan)
      (s : Z) (kl : klegs) (l : legs) : cplx :=
    (if dressed then (if is_r_irred st then C0 else G h ch (mirror right k2) s kl l + G h ch k3 s kl l)
                     + (if is_diff st then C0 else others G h ch s kl l)
     else bare s kl + (if is_r_irred st then C0 else G h ch k1 s kl l + G h ch (mirror right k2b) s kl l))%C.

  Lemma reads_value G h V ch ch' s kl f l : reads c u G h V -> klegs_ok kl -> spin01 s -> legs_are false ch' f l ->
    exists z, r_value false false 3 ch (Bch ch') (get_r (V s (kcode kl)) ch) f = Some z /\ (z == total G h ch s kl l)%C.
  Proof.
    intros (R & _) Hk Sp L. destruct (conv_legs ch ch' f) as (g & T & E). unfold r_value. rewrite T. cbn [obind].
    change (2 <=? 3) with true. change (3 <=? 3) with true. cbv iota. eexists. split; [reflexivity|].
    assert (L' : legs_are false ch g l).
    { destruct L as (A & B & C & D), E as (A' & B' & C' & D'). repeat (apply Logic.conj);
      rewrite ?A', ?B', ?C', ?D'; assumption. }
    unfold total. rewrite !(R ch _ s kl g l Hk Sp L'). reflexivity.
  Qed.
  Lemma gammaRb_others G h V ch s kl f l : reads c u G h V -> klegs_ok kl -> spin01 s -> legs_are false ch f l ->
    exists z, gammaRb false false 3 ch (V s (kcode kl)) f = Some z /\ (z == others G h ch s kl l)%C.
  Proof.
    intros R Hk Sp L. unfold gammaRb.
    destruct (reads_value G h V Ca ch s kl f l R Hk Sp L) as (za & Ea & Za).
    destruct (reads_value G h V Cp ch s kl f l R Hk Sp L) as (zp & Ep & Zp).
    destruct (reads_value G h V Ct ch s kl f l R Hk Sp L) as (zt & Et & Zt).
    destruct ch; rewrite ?Ea, ?Ep, ?Et; cbn [oadd obind others]; eexists; (split; [reflexivity|]);
    rewrite ?Za, ?Zp, ?Zt; reflexivity.
  Qed.
  Lemma left_part_reads G h V k st ch s kl f l : reads c u G h V -> klegs_ok kl -> spin01 s -> legs_are false ch f l ->
    (left_part k st ch V s (kcode kl) f == spec_part false st (left_dressed k) G h ch s kl l)%C.
  Proof.
    intros R Hk Sp L. destruct (gammaRb_others G h V ch s kl f l R Hk Sp L) as (zo & Eo & Zo).
    destruct R as (R & RB). assert (Rk : forall k, (get_r (V s (kcode kl)) ch k f == G h ch k s kl l)%C) by (intros; apply R; assumption).
    specialize (RB s kl Hk Sp).
    unfold left_part, spec_part. destruct (left_dressed k).
    - unfold g_left_diff, f_left_diff, r_left_diff. rewrite Eo. destruct st;
      repeat match goal with |- context [3 =? ?n] => change (3 =? n) with false || change (3 =? n) with true end;
      change (2 <=? 3) with true; cbn [is_r_irred is_diff oadd obind or0 mirror]; rewrite ?Rk, ?Zo; ring.
    - unfold g_left_same, f_left_same, r_left_same. destruct st;
      change (3 =? 1) with false; change (1 <? 3) with true; cbn [is_r_irred oadd obind or0 mirror]; rewrite ?Rk, ?RB; unfold bare; ring.
  Qed.
  Lemma right_part_reads G h V k st ch s kl f l : reads c u G h V -> klegs_ok kl -> spin01 s -> legs_are false ch f l ->
    (right_part k st ch V s (kcode kl) f == spec_part true st (right_dressed k) G h ch s kl l)%C.
  Proof.
    intros R Hk Sp L. destruct (gammaRb_others G h V ch s kl f l R Hk Sp L) as (zo & Eo & Zo).
    destruct R as (R & RB). assert (Rk : forall k, (get_r (V s (kcode kl)) ch k f == G h ch k s kl l)%C) by (intros; apply R; assumption).
    specialize (RB s kl Hk Sp).
    unfold right_part, spec_part. destruct (right_dressed k).
    - unfold g_right_diff, f_right_diff, r_right_diff. rewrite Eo. destruct st;
      repeat match goal with |- context [3 =? ?n] => change (3 =? n) with false || change (3 =? n) with true end;
      change (2 <=? 3) with true; cbn [is_r_irred is_diff oadd obind or0 mirror]; rewrite ?Rk, ?Zo; ring.
    - unfold g_right_same, f_right_same, r_right_same. destruct st;
      change (3 =? 1) with false; change (1 <? 3) with true; cbn [is_r_irred oadd obind or0 mirror]; rewrite ?Rk, ?RB; unfold bare; ring.
  Qed.

  (** parts depend on the legs up to equality of the frequencies, and an undressed part only on the inner ones *)
  Section Family.
    Variable G : family.
    Hypothesis PG : physical c false G.
    Lemma mf_false : mf c = false. Proof. unfold mf. rewrite Kc. reflexivity. Qed.
    Lemma family_m h ch k s kl l l' : klegs_ok kl -> spin01 s -> conserved l -> legs_eq l l' -> (G h ch k s kl l == G h ch k s kl l')%C.
    Proof.
      intros Hk Sp Co E. apply (of_class_freqs _ _ _ PG h ch k s kl (natural ch l) (natural ch l)); rewrite ?mf_false; try assumption.
      - apply natural_legs, Co.
      - pose proof (natural_legs ch l Co) as (A & B & C & D). destruct E as (A' & B' & C' & D').
        repeat (apply Logic.conj); rewrite <- ?A', <- ?B', <- ?C', <- ?D'; assumption.
      - destruct (natural ch l) as ((x, y), z). destruct k; repeat (apply Logic.conj); try exact I; reflexivity.
    Qed.
    Lemma total_m h ch s kl l l' : klegs_ok kl -> spin01 s -> conserved l -> legs_eq l l' -> (total G h ch s kl l == total G h ch s kl l')%C.
    Proof. intros Hk Sp Co E. unfold total. rewrite !(family_m h ch _ s kl l l' Hk Sp Co E). reflexivity. Qed.
    Lemma spec_part_m right st d h ch s kl l l' : klegs_ok kl -> spin01 s -> conserved l -> legs_eq l l' ->
      (spec_part right st d G h ch s kl l == spec_part right st d G h ch s kl l')%C.
    Proof.
      intros Hk Sp Co E. unfold spec_part. destruct d, (is_r_irred st), (is_diff st), ch; cbn [others];
      rewrite ?(total_m h _ s kl l l' Hk Sp Co E), ?(family_m h _ _ s kl l l' Hk Sp Co E); reflexivity.
    Qed.
    Lemma left_same_m st h ch s kl w v x v' : klegs_ok kl -> spin01 s ->
      (spec_part false st false G h ch s kl (legs_of ch (w, v, x)) == spec_part false st false G h ch s kl (legs_of ch (w, v', x)))%C.
    Proof.
      intros Hkl Sp. unfold spec_part. destruct (is_r_irred st); [reflexivity|].
      assert (E : forall k, k = k1 \/ k = k2b -> (G h ch k s kl (legs_of ch (w, v, x)) == G h ch k s kl (legs_of ch (w, v', x)))%C).
      { intros k Hk. apply (of_class_freqs _ _ _ PG h ch k s kl (w, v, x) (w, v', x)); rewrite ?mf_false; try assumption.
        - apply legs_eq_refl.
        - apply legs_eq_refl.
        - destruct Hk as [-> | ->]; split; try exact I; reflexivity. }
      rewrite (E k1), (E (mirror false k2b)) by (cbn [mirror]; auto). reflexivity.
    Qed.
    Lemma right_same_m st h ch s kl w v x v' : klegs_ok kl -> spin01 s ->
      (spec_part true st false G h ch s kl (legs_of ch (w, x, v)) == spec_part true st false G h ch s kl (legs_of ch (w, x, v')))%C.
    Proof.
      intros Hkl Sp. unfold spec_part. destruct (is_r_irred st); [reflexivity|].
      assert (E : forall k, k = k1 \/ k = k2 -> (G h ch k s kl (legs_of ch (w, x, v)) == G h ch k s kl (legs_of ch (w, x, v')))%C).
      { intros k Hk. apply (of_class_freqs _ _ _ PG h ch k s kl (w, x, v) (w, x, v')); rewrite ?mf_false; try assumption.
        - apply legs_eq_refl.
        - apply legs_eq_refl.
        - destruct Hk as [-> | ->]; split; try exact I; reflexivity. }
      rewrite (E k1), (E (mirror true k2b)) by (cbn [mirror]; auto). reflexivity.
    Qed.

    (** an operation on the legs: all parts transform alike *)
    Variables (Phi : klegs -> cplx -> cplx) (P : klegs -> klegs) (F : legs -> legs) (sp : Z -> Z) (img : chan -> chan) (fl : chan -> bool).
    Hypothesis Phi_add : forall kl x y, (Phi kl (x + y) == Phi kl x + Phi kl y)%C.
    Hypothesis Phi_0 : forall kl, (Phi kl C0 == C0)%C.
    Hypothesis Phi_m : forall kl x y, (x == y)%C -> (Phi kl x == Phi kl y)%C.
    Hypothesis img_ok : (forall ch, img ch = ch) \/ (forall ch, img ch = crossed_at ch).
    Hypothesis law : forall h ch k s kl l, klegs_ok kl -> conserved l -> spin01 s ->
      (G h ch k s kl l == Phi kl (G (xorb h (fl ch)) (img ch) (mirror (fl ch) k) (sp s) (P kl) (F l)))%C.
    Hypothesis law_bare : forall s kl, klegs_ok kl -> spin01 s -> (bare s kl == Phi kl (bare (sp s) (P kl)))%C.
    Lemma total_law h ch s kl l : klegs_ok kl -> conserved l -> spin01 s ->
      (total G h ch s kl l == Phi kl (total G (xorb h (fl ch)) (img ch) (sp s) (P kl) (F l)))%C.
    Proof.
      intros Hk Co Sp. unfold total. rewrite !Phi_add. rewrite !(law h ch _ s kl l Hk Co Sp).
      destruct (fl ch); cbn [mirror]; ring.
    Qed.
    Lemma total_mirror : self_mirror G -> forall h h' ch s kl l, (total G h ch s kl l == total G h' ch s kl l)%C.
    Proof. intros S0 h h' ch s kl l. unfold self_mirror in S0. destruct h, h'; unfold total; rewrite ?S0; reflexivity. Qed.
    Lemma others_law h ch s kl l h' : self_mirror G -> klegs_ok kl -> conserved l -> spin01 s ->
      (others G h ch s kl l == Phi kl (others G h' (img ch) (sp s) (P kl) (F l)))%C.
    Proof.
      intros S0 Hk Co Sp.
      assert (T : forall r, (total G h r s kl l == Phi kl (total G h' (img r) (sp s) (P kl) (F l)))%C).
      { intros r. rewrite (total_law h r s kl l Hk Co Sp). apply Phi_m, total_mirror, S0. }
      destruct img_ok as [I | I]; destruct ch; rewrite I; cbn [others crossed_at]; rewrite Phi_add, !T, !I; cbn [crossed_at]; ring.
    Qed.
    Lemma spec_part_law right st d h ch s kl l : operand_ok st G -> klegs_ok kl -> conserved l -> spin01 s ->
      (spec_part right st d G h ch s kl l ==
       Phi kl (spec_part (xorb right (fl ch)) st d G (xorb h (fl ch)) (img ch) (sp s) (P kl) (F l)))%C.
    Proof.
      intros Ok Hk Co Sp.
      assert (M : forall k, (G h ch (mirror right k) s kl l ==
         Phi kl (G (xorb h (fl ch)) (img ch) (mirror (xorb right (fl ch)) k) (sp s) (P kl) (F l)))%C).
      { intros k. rewrite (law h ch (mirror right k) s kl l Hk Co Sp). destruct right, (fl ch), k; reflexivity. }
      assert (M3 : (G h ch k3 s kl l == Phi kl (G (xorb h (fl ch)) (img ch) k3 (sp s) (P kl) (F l)))%C).
      { rewrite (law h ch k3 s kl l Hk Co Sp). destruct (fl ch); reflexivity. }
      assert (M1 : (G h ch k1 s kl l == Phi kl (G (xorb h (fl ch)) (img ch) k1 (sp s) (P kl) (F l)))%C).
      { rewrite (law h ch k1 s kl l Hk Co Sp). destruct (fl ch); reflexivity. }
      unfold spec_part. destruct d.
      - rewrite Phi_add. apply Cadd_m.
        + destruct (is_r_irred st); [rewrite Phi_0; reflexivity|]. rewrite Phi_add, (M k2), M3. reflexivity.
        + destruct (is_diff st) eqn:D; [rewrite Phi_0; reflexivity|]. apply others_law; auto.
      - rewrite Phi_add. apply Cadd_m; [apply law_bare; assumption|].
        destruct (is_r_irred st); [rewrite Phi_0; reflexivity|]. rewrite Phi_add, (M k2b), M1. reflexivity.
    Qed.
  End Family.
End Parts.
