(** Proofs for Mbt_Props: the halves of the transfer frequency, the lines, the parts of the vertices. *)
From Coq Require Import QArith Qround Lqa.
From Verif Require Import Prelude Cplx Keld_Model Util_Model Util_Spec Util_Proofs Sym_Model Sym_Spec Sym_Proofs Sym_Proofs2
  Tab_Model Tab_Spec Rd_Model Rd_Spec Dec_Model Bub_Model Bub_Spec Bub_Proofs Bub_Proofs2 Bub_Proofs3 Mbu_Proofs Mbt_Model Mbt_Spec.
From Verif Require Mbu_Model.
Open Scope Z_scope.

(** ** halves of the transfer frequency *)
Lemma lo_hi w : bosonic w -> half_split w (lo w) (hi w).
Proof.
  intros (n & E).
  assert (B : exists m b, 0 <= b <= 1 /\ n = 2 * m + b).
  { exists (n / 2), (n mod 2). pose proof (Z.div_mod n 2). pose proof (Z.mod_pos_bound n 2). lia. }
  destruct B as (m & b & Hb & ->).
  assert (F : Qfloor (w / 4) = m).
  { assert (E' : (w / 4 == (2 * m + b) # 2)%Q). { rewrite E. unfold Qeq, Qdiv, Qmult, Qinv, inject_Z. cbn. lia. }
    rewrite (Qfloor_comp _ _ E'). unfold Qfloor. symmetry. apply (Z.div_unique _ 2 m b); lia. }
  unfold hi, lo. rewrite F.
  assert (Bq : (b = 0 \/ b = 1)%Z) by lia.
  unfold half_split. split; [exists m; reflexivity|]. split; [exists (m + b); rewrite E; unfold Qeq, inject_Z; cbn; lia|].
  split; [ring|]. destruct Bq as [-> | ->]; repeat (apply Logic.conj); rewrite E; unfold Qle, Qdiv, Qminus, Qplus, Qmult, Qinv, Qopp, inject_Z; cbn; lia.
Qed.
Lemma lo_m w w' : (w == w')%Q -> (lo w == lo w')%Q.
Proof.
  intros E. assert (F : (w / 4 == w' / 4)%Q) by (apply Qdiv_comp; [exact E|reflexivity]). unfold lo. rewrite (Qfloor_comp _ _ F). reflexivity.
Qed.
Lemma hi_m w w' : (w == w')%Q -> (hi w == hi w')%Q.
Proof. intros E. unfold hi. pose proof (lo_m _ _ E). lra. Qed.
Lemma half_split_opp w l h : half_split w l h -> half_split (- w) (- h) (- l).
Proof.
  intros (A & B & C & D & E & F). split; [apply bosonic_opp, B|]. split; [apply bosonic_opp, A|].
  split; [lra|]. split; [|split]; try lra.
  - assert (X : (- w / 2 == - (w / 2))%Q) by field. rewrite X. lra.
  - assert (X : (- w / 2 == - (w / 2))%Q) by field. rewrite X. lra.
Qed.
Lemma lo_opp w : bosonic w -> (lo (- w) == - hi w)%Q.
Proof.
  intros B. apply (half_split_unique (- w) (lo (- w)) (hi (- w)) (- hi w) (- lo w)); [apply lo_hi, bosonic_opp, B|apply half_split_opp, lo_hi, B].
Qed.
Lemma hi_opp w : bosonic w -> (hi (- w) == - lo w)%Q.
Proof.
  intros B. apply (half_split_unique (- w) (lo (- w)) (hi (- w)) (- hi w) (- lo w)); [apply lo_hi, bosonic_opp, B|apply half_split_opp, lo_hi, B].
Qed.
Lemma lo_bosonic w : bosonic (lo w). Proof. exists (Qfloor (w / 4)). reflexivity. Qed.
Lemma hi_bosonic w : bosonic w -> bosonic (hi w). Proof. intros B. unfold hi. apply bb_sub; [exact B|apply lo_bosonic]. Qed.
Global Hint Resolve lo_bosonic hi_bosonic : par.

Definition legs_T (ch : chan) (f : Q * Q * Q) : legs := let '(w, v, v') := f in legs_split ch (lo w) (hi w) v v'.
Lemma legs_T_mats ch f : mats f -> matsubara_legs (legs_T ch f).
Proof.
  destruct f as ((w, v), v'). intros (Bw & Fv & Fv').
  destruct ch; unfold matsubara_legs, conserved, legs_T; cbn [legs_split n1' n2' n1 n2]; (split; [ring|]); auto 8 with par.
Qed.
Lemma legs_T_mf ch f : mats f -> legs_mf ch f (legs_T ch f).
Proof.
  destruct f as ((w, v), v'). intros (Bw & Fv & Fv'). exists (lo w), (hi w). split; [apply lo_hi, Bw|]. apply legs_eq_refl.
Qed.
Lemma legs_T_m ch f f' : trip_eq f f' -> legs_eq (legs_T ch f) (legs_T ch f').
Proof.
  destruct f as ((w, v), v'), f' as ((w', y), y'). intros (E1 & E2 & E3). cbn [fst snd] in *.
  pose proof (lo_m _ _ E1) as L. pose proof (hi_m _ _ E1) as H.
  destruct ch; repeat (apply Logic.conj); cbn [legs_T legs_split n1' n2' n1 n2]; rewrite ?L, ?H, ?E2, ?E3; reflexivity.
Qed.
Lemma mf_mats ch f l : matsubara_legs l -> legs_mf ch f l -> mats f.
Proof.
  destruct f as ((w, v), v'). intros (Co & F1 & F2 & F3 & F4) (a & b & S & E1 & E2 & E3 & E4).
  pose proof S as (Ba & Bb & Sw & _).
  assert (Bw : bosonic w). { destruct (bb_add _ _ Ba Bb) as (n & E). exists n. rewrite <- Sw. exact E. }
  split; [exact Bw|].
  destruct ch; cbn [legs_split n1' n2' n1 n2] in *.
  - split; [apply (fermionic_ext (n1' l + a)); [rewrite E1; ring|auto with par]|apply (fermionic_ext (n1 l + a)); [rewrite E3; ring|auto with par]].
  - split; [apply (fermionic_ext (a - n2' l)); [rewrite E2; ring|auto with par]|apply (fermionic_ext (a - n2 l)); [rewrite E4; ring|auto with par]].
  - split; [apply (fermionic_ext (n2' l + a)); [rewrite E2; ring|auto with par]|apply (fermionic_ext (n1 l + a)); [rewrite E3; ring|auto with par]].
Qed.
Lemma transfer_bosonic ch l : matsubara_legs l -> bosonic (transfer ch l).
Proof. intros (_ & F1 & F2 & F3 & F4). destruct ch; cbn [transfer]; auto with par. Qed.
Lemma natural_mats ch l : matsubara_legs l -> mats (natural_T ch l).
Proof.
  intros M. pose proof (transfer_bosonic ch l M) as B. destruct M as (Co & F1 & F2 & F3 & F4).
  destruct ch; cbn [natural_T]; (split; [exact B|]); auto with par.
Qed.
Lemma natural_mf ch l : matsubara_legs l -> legs_mf ch (natural_T ch l) l.
Proof.
  intros M. pose proof (transfer_bosonic ch l M) as B. pose proof (lo_hi _ B) as S. destruct M as (Co & _).
  unfold conserved in Co.
  destruct ch; cbn [natural_T]; (eexists; eexists; split; [exact S|]);
  destruct S as (_ & _ & S & _); cbn [transfer] in *; repeat (apply Logic.conj); cbn [legs_split n1' n2' n1 n2]; lra.
Qed.
Lemma legs_mf_eq ch f l l' : legs_eq l l' -> legs_mf ch f l -> legs_mf ch f l'.
Proof.
  destruct f as ((w, v), v'). intros (A & B & C & D) (a & b & S & E1 & E2 & E3 & E4). exists a, b. split; [exact S|].
  repeat (apply Logic.conj); rewrite <- ?A, <- ?B, <- ?C, <- ?D; assumption.
Qed.
Lemma matsubara_legs_eq l l' : legs_eq l l' -> matsubara_legs l -> matsubara_legs l'.
Proof.
  intros (A & B & C & D) (Co & F1 & F2 & F3 & F4). unfold matsubara_legs, conserved in *. split; [rewrite <- A, <- B, <- C, <- D; exact Co|].
  repeat split; eapply fermionic_ext; eauto.
Qed.
Lemma mats_swap_in l : matsubara_legs l -> matsubara_legs (swap_in_f l).
Proof. intros (Co & F1 & F2 & F3 & F4). unfold matsubara_legs, conserved in *. cbn [swap_in_f n1' n2' n1 n2]. split; [lra|auto]. Qed.
Lemma mats_swap_out l : matsubara_legs l -> matsubara_legs (swap_out_f l).
Proof. intros (Co & F1 & F2 & F3 & F4). unfold matsubara_legs, conserved in *. cbn [swap_out_f n1' n2' n1 n2]. split; [lra|auto]. Qed.
Lemma mats_conj l : matsubara_legs l -> matsubara_legs (minus_f (in_out_f l)).
Proof. intros (Co & F1 & F2 & F3 & F4). unfold matsubara_legs, conserved in *. cbn [minus_f in_out_f n1' n2' n1 n2]. split; [lra|auto with par]. Qed.
Lemma mats_minus l : matsubara_legs l -> matsubara_legs (minus_f l).
Proof. intros (Co & F1 & F2 & F3 & F4). unfold matsubara_legs, conserved in *. cbn [minus_f n1' n2' n1 n2]. split; [lra|auto with par]. Qed.

(** ** lines *)
Definition c1 (ch : chan) (x w : Q) : Q := (match ch with Cp => x + hi w | _ => x - lo w end)%Q.
Definition c2 (ch : chan) (x w : Q) : Q := (match ch with Cp => lo w - x | _ => x + hi w end)%Q.
Lemma c1_f ch x w : bosonic w -> fermionic x -> fermionic (c1 ch x w). Proof. intros; destruct ch; unfold c1; auto with par. Qed.
Lemma c2_f ch x w : bosonic w -> fermionic x -> fermionic (c2 ch x w). Proof. intros; destruct ch; unfold c2; auto with par. Qed.
Section Lines.
  Variables (c : cfg) (diff : bool) (g s : Q -> cplx).
  Hypotheses (Hg : line_T (phs c) g) (Hs : line_T (phs c) s).
  Definition pair_T (ch : chan) (w x : Q) : cplx :=
    let v1 := c1 ch x w in let v2 := c2 ch x w in
    let result := if diff then (g v1 * s v2 + s v1 * g v2)%C else (g v1 * g v2)%C in
    if phs c then Cscale (-1) result else result.
  Lemma pairT_w ch ch' (w w' v v' : Q) : bosonic w -> fermionic v -> (c1 ch v w == c1 ch' v' w')%Q -> (c2 ch v w == c2 ch' v' w')%Q ->
    (pair_T ch w v == pair_T ch' w' v')%C.
  Proof.
    intros Bw Fv E1 E2. pose proof (c1_f ch v w Bw Fv) as F1. pose proof (c2_f ch v w Bw Fv) as F2.
    destruct Hg as (Eg & _), Hs as (Es & _). unfold pair_T. cbv zeta.
    destruct diff, (phs c); rewrite (Eg _ _ F1 E1), (Eg _ _ F2 E2), ?(Es _ _ F1 E1), ?(Es _ _ F2 E2); reflexivity.
  Qed.
  Lemma pairT_exchanged ch ch' (w w' v v' : Q) : bosonic w -> fermionic v -> (c1 ch v w == c2 ch' v' w')%Q -> (c2 ch v w == c1 ch' v' w')%Q ->
    (pair_T ch w v == pair_T ch' w' v')%C.
  Proof.
    intros Bw Fv E1 E2. pose proof (c1_f ch v w Bw Fv) as F1. pose proof (c2_f ch v w Bw Fv) as F2.
    destruct Hg as (Eg & _), Hs as (Es & _). unfold pair_T. cbv zeta.
    destruct diff, (phs c); rewrite (Eg _ _ F1 E1), (Eg _ _ F2 E2), ?(Es _ _ F1 E1), ?(Es _ _ F2 E2);
    try apply Cscale_m; try reflexivity; ring.
  Qed.
  Lemma odd_real_T (f : Q -> cplx) v v' : line_T (phs c) f -> fermionic v -> phs c = true -> (v == - v')%Q -> (f v == - Cconj (f v'))%C.
  Proof.
    intros (Ef & H) Fv Ph E. rewrite (Ef _ _ Fv E).
    assert (Fv' : fermionic v') by (apply (fermionic_ext (- v)); [lra|auto with par]).
    specialize (H v' Fv'). rewrite Ph in H. destruct H as (I & ->).
    split; unfold Cneg, Cconj; cbn [re im]; try rewrite I; ring.
  Qed.
  Lemma conj_even_T (f : Q -> cplx) v v' : line_T (phs c) f -> fermionic v -> phs c = false -> (v == - v')%Q -> (f v == Cconj (f v'))%C.
  Proof.
    intros (Ef & H) Fv Ph E. rewrite (Ef _ _ Fv E).
    assert (Fv' : fermionic v') by (apply (fermionic_ext (- v)); [lra|auto with par]).
    specialize (H v' Fv'). rewrite Ph in H. exact H.
  Qed.
  (** both lines at the opposite frequencies, in the same order or exchanged *)
  Lemma pairT_minus ch ch' (w w' v v' : Q) : bosonic w -> fermionic v ->
    (c1 ch v w == - c1 ch' v' w')%Q -> (c2 ch v w == - c2 ch' v' w')%Q -> (pair_T ch w v == Cconj (pair_T ch' w' v'))%C.
  Proof.
    intros Bw Fv E1 E2. pose proof (c1_f ch v w Bw Fv) as F1. pose proof (c2_f ch v w Bw Fv) as F2.
    unfold pair_T. cbv zeta. destruct (phs c) eqn:Ph.
    - rewrite cscale_conj. apply Cscale_m; [reflexivity|]. rewrite <- Ph in Hg, Hs.
      destruct diff; rewrite ?conj_add, ?conj_mul;
      rewrite (odd_real_T g _ _ Hg F1 Ph E1), (odd_real_T g _ _ Hg F2 Ph E2), ?(odd_real_T s _ _ Hs F1 Ph E1), ?(odd_real_T s _ _ Hs F2 Ph E2); ring.
    - rewrite <- Ph in Hg, Hs. destruct diff; rewrite ?conj_add, ?conj_mul;
      rewrite (conj_even_T g _ _ Hg F1 Ph E1), (conj_even_T g _ _ Hg F2 Ph E2), ?(conj_even_T s _ _ Hs F1 Ph E1), ?(conj_even_T s _ _ Hs F2 Ph E2); ring.
  Qed.
  Lemma pairT_minus_exchanged ch ch' (w w' v v' : Q) : bosonic w -> fermionic v ->
    (c1 ch v w == - c2 ch' v' w')%Q -> (c2 ch v w == - c1 ch' v' w')%Q -> (pair_T ch w v == Cconj (pair_T ch' w' v'))%C.
  Proof.
    intros Bw Fv E1 E2. pose proof (c1_f ch v w Bw Fv) as F1. pose proof (c2_f ch v w Bw Fv) as F2.
    unfold pair_T. cbv zeta. destruct (phs c) eqn:Ph.
    - rewrite cscale_conj. apply Cscale_m; [reflexivity|]. rewrite <- Ph in Hg, Hs.
      destruct diff; rewrite ?conj_add, ?conj_mul;
      rewrite (odd_real_T g _ _ Hg F1 Ph E1), (odd_real_T g _ _ Hg F2 Ph E2), ?(odd_real_T s _ _ Hs F1 Ph E1), ?(odd_real_T s _ _ Hs F2 Ph E2); ring.
    - rewrite <- Ph in Hg, Hs. destruct diff; rewrite ?conj_add, ?conj_mul;
      rewrite (conj_even_T g _ _ Hg F1 Ph E1), (conj_even_T g _ _ Hg F2 Ph E2), ?(conj_even_T s _ _ Hs F1 Ph E1), ?(conj_even_T s _ _ Hs F2 Ph E2); ring.
  Qed.
  Lemma pairT_real ch (w v : Q) : phs c = true -> bosonic w -> fermionic v -> (Cconj (pair_T ch w v) == pair_T ch w v)%C.
  Proof.
    intros Ph Bw Fv. pose proof (c1_f ch v w Bw Fv) as F1. pose proof (c2_f ch v w Bw Fv) as F2.
    unfold pair_T. cbv zeta. rewrite Ph, cscale_conj. apply Cscale_m; [reflexivity|].
    assert (R : forall f, line_T (phs c) f -> forall x, fermionic x -> (Cconj (f x) == f x)%C).
    { intros f (_ & H) x Fx. specialize (H x Fx). rewrite Ph in H. destruct H as (I & _). split; unfold Cconj; cbn [re im]; [reflexivity|rewrite I; reflexivity]. }
    destruct diff; rewrite ?conj_add, ?conj_mul, ?(R g Hg _ F1), ?(R g Hg _ F2), ?(R s Hs _ F1), ?(R s Hs _ F2); reflexivity.
  Qed.
  Lemma value_pair ch w x : bosonic w -> fermionic x ->
    exists z, value_Matsubara c ch diff g s w x = Some z /\ (z == pair_T ch w x)%C.
  Proof.
    intros Bw Fx. destruct (half_split_spec w Bw) as (a & b & Ea & Eb & S).
    destruct (half_split_unique w a b (lo w) (hi w) S (lo_hi w Bw)) as (Ha & Hb).
    pose proof S as (Fa & Fb & _). destruct Hg as (Eg & _), Hs as (Es & _).
    unfold value_Matsubara, convert_to_fermionic_frequencies_1, convert_to_fermionic_frequencies_2. cbv iota.
    destruct ch; rewrite ?Ea, ?Eb; cbn [obind]; eexists; (split; [reflexivity|]); unfold pair_T, c1, c2; cbv zeta.
    1,3: (assert (E1 : (x - a == x - lo w)%Q) by (rewrite Ha; reflexivity); assert (E2 : (x + b == x + hi w)%Q) by (rewrite Hb; reflexivity);
      assert (F1 : fermionic (x - a)) by auto with par; assert (F2 : fermionic (x + b)) by auto with par;
      destruct diff, (phs c); rewrite (Eg _ _ F1 E1), (Eg _ _ F2 E2), ?(Es _ _ F1 E1), ?(Es _ _ F2 E2); reflexivity).
    assert (E1 : (x + b == x + hi w)%Q) by (rewrite Hb; reflexivity); assert (E2 : (a - x == lo w - x)%Q) by (rewrite Ha; reflexivity).
    assert (F1 : fermionic (x + b)) by auto with par; assert (F2 : fermionic (a - x)) by auto with par.
    destruct diff, (phs c); rewrite (Eg _ _ F1 E1), (Eg _ _ F2 E2), ?(Es _ _ F1 E1), ?(Es _ _ F2 E2); reflexivity.
  Qed.
End Lines.

(** ** parts of a vertex *)
Definition bareT (u : Q) (s : Z) : cplx := Cofq (if s =? 0 then u else - u)%Q.
Definition totalT (G : vertex_T) (h : bool) (ch : chan) (s : Z) (l : legs) : cplx :=
  (G h ch k1 s l + G h ch k2 s l + G h ch k2b s l + G h ch k3 s l)%C.
Definition othersT (G : vertex_T) (h : bool) (ch : chan) (s : Z) (l : legs) : cplx :=
  (match ch with
   | Ca => totalT G h Cp s l + totalT G h Ct s l
   | Cp => totalT G h Ca s l + totalT G h Ct s l
   | Ct => totalT G h Ca s l + totalT G h Cp s l
   end)%C.
Definition partT (u : Q) (right : bool) (st : symmtype) (dressed : bool) (G : vertex_T) (h : bool) (ch : chan) (s : Z) (l : legs) : cplx :=
  (if dressed then (if is_r_irred st then C0 else G h ch (mirror right k2) s l + G h ch k3 s l)
                   + (if is_diff st then C0 else othersT G h ch s l)
   else bareT u s + (if is_r_irred st then C0 else G h ch k1 s l + G h ch (mirror right k2b) s l))%C.
Section Parts.
  Variable u : Q.
  Section Reading.
    Variables (G : vertex_T) (h : bool) (V : reader) (s : Z).
    Hypothesis RV : reads_T u G h V.
    Hypothesis Sp : spin01 s.
    Lemma readsT_value ch ch' f l : matsubara_legs l -> legs_mf ch' f l ->
      exists z, r_value true false 3 ch (Bch ch') (get_r (V s 0) ch) f = Some z /\ (z == totalT G h ch s l)%C.
    Proof.
      intros M L. destruct (RV s Sp) as (R & _). destruct (conv_mf ch ch' f (mf_mats _ _ _ M L)) as (g & T & _ & E). unfold r_value. rewrite T. cbn [obind].
      change (2 <=? 3) with true. change (3 <=? 3) with true. cbv iota. eexists. split; [reflexivity|].
      unfold totalT. rewrite !(R ch _ g l M (E l L)). reflexivity.
    Qed.
    Lemma readsT_others ch f l : matsubara_legs l -> legs_mf ch f l ->
      exists z, gammaRb true false 3 ch (V s 0) f = Some z /\ (z == othersT G h ch s l)%C.
    Proof.
      intros M L. unfold gammaRb.
      destruct (readsT_value Ca ch f l M L) as (za & Ea & Za).
      destruct (readsT_value Cp ch f l M L) as (zp & Ep & Zp).
      destruct (readsT_value Ct ch f l M L) as (zt & Et & Zt).
      destruct ch; rewrite ?Ea, ?Ep, ?Et; cbn [oadd obind othersT]; eexists; (split; [reflexivity|]);
      rewrite ?Za, ?Zp, ?Zt; reflexivity.
    Qed.
    Lemma leftT_reads k st ch f l : matsubara_legs l -> legs_mf ch f l ->
      (Mbt_Model.left_part k st ch V s f == partT u false st (left_dressed k) G h ch s l)%C.
    Proof.
      intros M L. destruct (readsT_others ch f l M L) as (zo & Eo & Zo).
      destruct (RV s Sp) as (R & RB). assert (Rk : forall k, (get_r (V s 0) ch k f == G h ch k s l)%C) by (intros; apply R; assumption).
      unfold Mbt_Model.left_part, partT, bareT. destruct (left_dressed k).
      - unfold g_left_diff, f_left_diff, r_left_diff. rewrite Eo. destruct st;
        repeat match goal with |- context [3 =? ?n] => change (3 =? n) with false || change (3 =? n) with true end;
        change (2 <=? 3) with true; cbn [is_r_irred is_diff oadd obind or0 mirror]; rewrite ?Rk, ?Zo; ring.
      - unfold g_left_same, f_left_same, r_left_same. destruct st;
        change (3 =? 1) with false; change (1 <? 3) with true; cbn [is_r_irred oadd obind or0 mirror]; rewrite ?Rk, ?RB; ring.
    Qed.
    Lemma rightT_reads k st ch f l : matsubara_legs l -> legs_mf ch f l ->
      (Mbt_Model.right_part k st ch V s f == partT u true st (right_dressed k) G h ch s l)%C.
    Proof.
      intros M L. destruct (readsT_others ch f l M L) as (zo & Eo & Zo).
      destruct (RV s Sp) as (R & RB). assert (Rk : forall k, (get_r (V s 0) ch k f == G h ch k s l)%C) by (intros; apply R; assumption).
      unfold Mbt_Model.right_part, partT, bareT. destruct (right_dressed k).
      - unfold g_right_diff, f_right_diff, r_right_diff. rewrite Eo. destruct st;
        repeat match goal with |- context [3 =? ?n] => change (3 =? n) with false || change (3 =? n) with true end;
        change (2 <=? 3) with true; cbn [is_r_irred is_diff oadd obind or0 mirror]; rewrite ?Rk, ?Zo; ring.
      - unfold g_right_same, f_right_same, r_right_same. destruct st;
        change (3 =? 1) with false; change (1 <? 3) with true; cbn [is_r_irred oadd obind or0 mirror]; rewrite ?Rk, ?RB; ring.
    Qed.
  End Reading.

  Section Family.
    Variables (ph : bool) (G : vertex_T).
    Hypothesis PG : symmetric_T ph G.
    Lemma familyT_m h ch k s l l' : spin01 s -> matsubara_legs l -> legs_eq l l' -> (G h ch k s l == G h ch k s l')%C.
    Proof.
      intros Sp M E. apply (T_class_freqs _ _ PG h ch k s (natural_T ch l) (natural_T ch l)); try assumption.
      - eapply matsubara_legs_eq; eassumption.
      - apply natural_mf, M.
      - eapply legs_mf_eq; [exact E|]. apply natural_mf, M.
      - destruct (natural_T ch l) as ((x, y), z). destruct k; repeat (apply Logic.conj); try exact I; reflexivity.
    Qed.
    Lemma totalT_m h ch s l l' : spin01 s -> matsubara_legs l -> legs_eq l l' -> (totalT G h ch s l == totalT G h ch s l')%C.
    Proof. intros Sp M E. unfold totalT. rewrite !(familyT_m h ch _ s l l' Sp M E). reflexivity. Qed.
    Lemma partT_m right st d h ch s l l' : spin01 s -> matsubara_legs l -> legs_eq l l' ->
      (partT u right st d G h ch s l == partT u right st d G h ch s l')%C.
    Proof.
      intros Sp M E. unfold partT. destruct d, (is_r_irred st), (is_diff st), ch; cbn [othersT];
      rewrite ?(totalT_m h _ s l l' Sp M E), ?(familyT_m h _ _ s l l' Sp M E); reflexivity.
    Qed.
    Lemma leftT_same_m st h ch s w v x v' : spin01 s -> mats (w, v, x) -> fermionic v' ->
      (partT u false st false G h ch s (legs_T ch (w, v, x)) == partT u false st false G h ch s (legs_T ch (w, v', x)))%C.
    Proof.
      intros Sp M F. unfold partT. destruct (is_r_irred st); [reflexivity|].
      assert (M' : mats (w, v', x)) by (destruct M as (B & _ & D); repeat (apply Logic.conj); assumption).
      assert (E : forall k, k = k1 \/ k = k2b -> (G h ch k s (legs_T ch (w, v, x)) == G h ch k s (legs_T ch (w, v', x)))%C).
      { intros k Hk. apply (T_class_freqs _ _ PG h ch k s (w, v, x) (w, v', x)); auto using legs_T_mats, legs_T_mf.
        destruct Hk as [-> | ->]; split; try exact I; reflexivity. }
      rewrite (E k1), (E (mirror false k2b)) by (cbn [mirror]; auto). reflexivity.
    Qed.
    Lemma rightT_same_m st h ch s w v x v' : spin01 s -> mats (w, x, v) -> fermionic v' ->
      (partT u true st false G h ch s (legs_T ch (w, x, v)) == partT u true st false G h ch s (legs_T ch (w, x, v')))%C.
    Proof.
      intros Sp M F. unfold partT. destruct (is_r_irred st); [reflexivity|].
      assert (M' : mats (w, x, v')) by (destruct M as (B & D & _); repeat (apply Logic.conj); assumption).
      assert (E : forall k, k = k1 \/ k = k2 -> (G h ch k s (legs_T ch (w, x, v)) == G h ch k s (legs_T ch (w, x, v')))%C).
      { intros k Hk. apply (T_class_freqs _ _ PG h ch k s (w, x, v) (w, x, v')); auto using legs_T_mats, legs_T_mf.
        destruct Hk as [-> | ->]; split; try exact I; reflexivity. }
      rewrite (E k1), (E (mirror true k2b)) by (cbn [mirror]; auto). reflexivity.
    Qed.

    (** an operation [op] with a permutation of channels, spins and legs *)
    Lemma partT_law (op : cplx -> cplx) (Lf : legs -> legs) (Sf : Z -> Z) (P : chan -> chan) (fl : chan -> bool) :
      (forall x y, (op (x + y) == op x + op y)%C) -> (op C0 == C0)%C -> (forall x y, (x == y)%C -> (op x == op y)%C) ->
      (P = crossed_at \/ P = fun ch => ch) -> (forall s, spin01 s -> spin01 (Sf s)) -> (forall l, matsubara_legs l -> matsubara_legs (Lf l)) ->
      (forall h ch k s l, matsubara_legs l -> spin01 s ->
         (G h ch k s l == op (G (xorb h (fl ch)) (P ch) (mirror (fl ch) k) (Sf s) (Lf l)))%C) ->
      (forall s, spin01 s -> (bareT u s == op (bareT u (Sf s)))%C) ->
      forall right st d h ch s l, operand_T st G -> matsubara_legs l -> spin01 s ->
      (partT u right st d G h ch s l == op (partT u (xorb right (fl ch)) st d G (xorb h (fl ch)) (P ch) (Sf s) (Lf l)))%C.
    Proof.
      intros Oadd O0 Om HP HS HL HG HB right st d h ch s l Ok M Sp.
      assert (HT : forall ch', (totalT G h ch' s l == op (totalT G (xorb h (fl ch')) (P ch') (Sf s) (Lf l)))%C).
      { intros ch'. unfold totalT. rewrite !Oadd, <- (HG h ch' k1) || idtac.
        rewrite (HG h ch' k1 s l M Sp), (HG h ch' k2 s l M Sp), (HG h ch' k2b s l M Sp), (HG h ch' k3 s l M Sp), ?Oadd.
        destruct (fl ch'); cbn [mirror]; ring. }
      assert (HR : forall k, (G h ch k s l == op (G (xorb h (fl ch)) (P ch) (mirror (fl ch) k) (Sf s) (Lf l)))%C) by (intros; apply HG; assumption).
      assert (HO : is_diff st = false -> (othersT G h ch s l == op (othersT G (xorb h (fl ch)) (P ch) (Sf s) (Lf l)))%C).
      { intros D. specialize (Ok D).
        assert (Mi : forall a b ch', (totalT G a ch' (Sf s) (Lf l) == totalT G b ch' (Sf s) (Lf l))%C).
        { intros a b ch'. unfold totalT. destruct a, b; rewrite ?(fun k => Ok ch' k (Sf s) (Lf l) (HS s Sp) (HL l M)); reflexivity. }
        assert (HT' : forall ch', (totalT G h ch' s l == op (totalT G (xorb h (fl ch)) (P ch') (Sf s) (Lf l)))%C).
        { intros ch'. rewrite (HT ch'). apply Om. apply Mi. }
        destruct HP as [-> | ->]; destruct ch; unfold othersT; cbn [crossed_at]; rewrite !HT', Oadd; cbn [crossed_at]; ring. }
      unfold partT. destruct d.
      - rewrite Oadd. apply Cadd_m.
        + destruct (is_r_irred st); [symmetry; exact O0|]. rewrite Oadd, !HR.
          destruct right, (fl ch); cbn [xorb mirror]; reflexivity.
        + destruct (is_diff st) eqn:D; [symmetry; exact O0|]. apply HO. reflexivity.
      - rewrite Oadd. apply Cadd_m; [apply HB, Sp|].
        destruct (is_r_irred st); [symmetry; exact O0|]. rewrite Oadd, !HR.
        destruct right, (fl ch); cbn [xorb mirror]; reflexivity.
    Qed.
    Lemma bareT_flip s : spin01 s -> (bareT u s == - bareT u (1 - s))%C.
    Proof. intros [-> | ->]; unfold bareT; bares; split; unfold Cneg, Cofq; cbn [re im]; ring. Qed.
    Lemma bareT_real s : (bareT u s == Cconj (bareT u s))%C.
    Proof. split; unfold bareT, Cconj, Cofq; cbn [re im]; ring. Qed.
    Lemma partT_in right st d h ch s l : operand_T st G -> matsubara_legs l -> spin01 s ->
      (partT u right st d G h ch s l ==
       - partT u (xorb right (fl_in ch)) st d G (xorb h (fl_in ch)) (crossed_at ch) (1 - s)%Z (swap_in_f l))%C.
    Proof.
      apply (partT_law Cneg swap_in_f (fun s => 1 - s) crossed_at fl_in); auto using spin01_flip, mats_swap_in, bareT_flip.
      all: try (intros; ring); try (intros x y E; rewrite E; reflexivity).
      all: intros h' ch' k s' l' M Sp; apply (T_exchange_in _ _ PG); try assumption; destruct ch'; reflexivity.
    Qed.
    Lemma partT_out right st d h ch s l : operand_T st G -> matsubara_legs l -> spin01 s ->
      (partT u right st d G h ch s l == - partT u right st d G h (crossed_at ch) (1 - s)%Z (swap_out_f l))%C.
    Proof.
      intros Ok M Sp.
      rewrite (partT_law Cneg swap_out_f (fun s => 1 - s) crossed_at (fun _ => false)); auto using spin01_flip, mats_swap_out, bareT_flip.
      { rewrite !Bool.xorb_false_r. reflexivity. }
      all: try (intros; ring); try (intros x y E; rewrite E; reflexivity).
      all: intros h' ch' k s' l' M' Sp'; apply (T_exchange_out _ _ PG); try assumption; destruct ch'; reflexivity.
    Qed.
    Lemma conj_laws : (forall x y, (Cconj (x + y) == Cconj x + Cconj y)%C) /\ (Cconj C0 == C0)%C /\
      (forall x y, (x == y)%C -> (Cconj x == Cconj y)%C).
    Proof. split; [intros; apply conj_add|]. split; [apply conj_0|]. intros x y E; rewrite E; reflexivity. Qed.
    Lemma partT_conj right st d h ch s l : operand_T st G -> matsubara_legs l -> spin01 s ->
      (partT u right st d G h ch s l ==
       Cconj (partT u (xorb right (fl_conj ch)) st d G (xorb h (fl_conj ch)) ch s (minus_f (in_out_f l))))%C.
    Proof.
      destruct conj_laws as (L1 & L2 & L3).
      apply (partT_law Cconj (fun l => minus_f (in_out_f l)) (fun s => s) (fun ch => ch) fl_conj); auto using mats_conj, bareT_real.
      intros h' ch' k s' l' M Sp. apply (T_conjugation _ _ PG); try assumption; destruct ch'; reflexivity.
    Qed.
    Lemma partT_minus right st d h ch s l : reversible_T G -> operand_T st G -> matsubara_legs l -> spin01 s ->
      (partT u right st d G h ch s l == Cconj (partT u right st d G h ch s (minus_f l)))%C.
    Proof.
      intros RG Ok M Sp. destruct conj_laws as (L1 & L2 & L3).
      rewrite (partT_law Cconj minus_f (fun s => s) (fun ch => ch) (fun _ => false)); auto using mats_minus, bareT_real.
      - rewrite !Bool.xorb_false_r. reflexivity.
      - intros h' ch' k s' l' M' Sp'. rewrite Bool.xorb_false_r. cbn [mirror]. apply RG; assumption.
    Qed.
    Lemma partT_real right st d h ch s l : ph = true -> spin01 s -> matsubara_legs l ->
      (partT u right st d G h ch s l == Cconj (partT u right st d G h ch s l))%C.
    Proof.
      intros Ph Sp M.
      assert (R : forall h ch k, (Cconj (G h ch k s l) == G h ch k s l)%C).
      { intros h' ch' k. pose proof (T_real _ _ PG Ph h' ch' k s l Sp M) as I. split; unfold Cconj; cbn [re im]; [reflexivity|rewrite I; reflexivity]. }
      unfold partT, othersT, totalT. destruct d, (is_r_irred st), (is_diff st), ch;
      rewrite ?conj_add, ?conj_0, ?R, <- ?bareT_real; reflexivity.
    Qed.
  End Family.
End Parts.
