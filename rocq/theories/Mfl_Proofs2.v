(** Loops over vertices that obey the symmetries of the Matsubara formalism. *)
From Coq Require Import QArith Qround Lqa.
From Verif Require Import Prelude Cplx Keld_Model Keld_Spec Keld_Proofs Util_Spec Sym_Model Sym_Spec Sym_Proofs Sym_Proofs2 Tab_Model Tab_Spec
  Rd_Model Rd_Spec Rd_Props Dec_Model Bub_Model Bub_Spec Bub_Proofs Bub_Proofs2 Bub_Proofs3 Bub_Props Mbu_Spec Mbu_Proofs
  Mbt_Model Mbt_Spec Mbt_Proofs Mbt_Proofs2 Mbt_Proofs3 Sf_Model Sf_Spec Sf_Proofs Sf_Proofs2 Msf_Model Msf_Spec Mtf_Model Mtf_Spec Mtf_Proofs Mtf_Proofs2 Lop_Model
  Mfl_Model Mfl_Spec Mfl_Proofs.
From Verif Require Mbe_Model Mlp_Model Fl_Model Fl_Proofs Msf_Proofs Msf_Proofs2.
Open Scope Z_scope.

(** ** the values read by a loop, for both conversions of the frequencies *)
Section Read.
  Variables (D : Q -> Prop) (ph finite : bool) (v : vert) (b : chan) (legsof : Q * Q * Q -> legs) (F : chan -> kcl -> Z -> legs -> cplx)
    (L : legs -> Prop) (q : Z -> Q).
  Hypothesis read : forall ch s x y, spin01 s -> D x -> D y -> exists g, transfToR finite ch (Bch b) (0, x, y)%Q = Some g /\
    forall k, (class_of (channel_of v ch) k s 0 g == F ch k s (legsof (0, x, y)%Q))%C.
  Hypothesis legs_ok : forall x y, D x -> D y -> L (legsof (0, x, y)%Q).
  Hypothesis F_m : forall ch k s l l', spin01 s -> L l -> legs_eq l l' -> (F ch k s l == F ch k s l')%C.
  Hypothesis F_conj : forall ch k s l, spin01 s -> L l -> (F ch k s l == Cconj (F ch k s (minus_f l)))%C.
  Hypothesis F_real : ph = true -> forall ch k s l, spin01 s -> L l -> (im (F ch k s l) == 0)%Q.
  Hypothesis legsof_m : forall x y x' y', (x == x')%Q -> (y == y')%Q -> legs_eq (legsof (0, x, y)%Q) (legsof (0, x', y')%Q).
  Hypothesis legsof_opp : forall x y, legs_eq (legsof (0, - x, - y)%Q) (minus_f (legsof (0, x, y)%Q)).
  Hypothesis Dopp : forall x, D x -> D (- x)%Q.
  Hypothesis bare : forall s, spin01 s -> (Mlp_Model.irr _ v s 0 (0, 0, 0)%Q == Cofq (q s))%C.
  Definition part (ch : chan) (s : Z) (l : legs) : cplx := (F ch k1 s l + F ch k2 s l + F ch k2b s l + F ch k3 s l)%C.
  Definition total (st : symmtype) (s : Z) (l : legs) : cplx :=
    let x ch := if Fl_Proofs.present st b ch then part ch s l else C0 in (Cofq (q s) + x Ca + x Cp + x Ct)%C.
  Lemma part_m ch s l l' : spin01 s -> L l -> legs_eq l l' -> (part ch s l == part ch s l')%C.
  Proof. intros Sp H E. unfold part. rewrite !(F_m ch _ s l l' Sp H E). reflexivity. Qed.
  Lemma total_m st s l l' : spin01 s -> L l -> legs_eq l l' -> (total st s l == total st s l')%C.
  Proof.
    intros Sp H E. unfold total. destruct (Fl_Proofs.present st b Ca), (Fl_Proofs.present st b Cp), (Fl_Proofs.present st b Ct);
    rewrite ?(part_m _ s l l' Sp H E); reflexivity.
  Qed.
  Lemma part_conj ch s l : spin01 s -> L l -> (part ch s l == Cconj (part ch s (minus_f l)))%C.
  Proof. intros Sp H. unfold part. rewrite !conj_add. rewrite <- !(F_conj ch _ s l Sp H). reflexivity. Qed.
  Lemma conj_cofq x : (Cconj (Cofq x) == Cofq x)%C. Proof. split; unfold Cconj, Cofq; cbn [re im]; ring. Qed.
  Lemma total_conj st s l : spin01 s -> L l -> (total st s l == Cconj (total st s (minus_f l)))%C.
  Proof.
    intros Sp H. unfold total. rewrite !conj_add, conj_cofq.
    destruct (Fl_Proofs.present st b Ca), (Fl_Proofs.present st b Cp), (Fl_Proofs.present st b Ct);
    rewrite ?conj_0, <- ?(part_conj _ s l Sp H); reflexivity.
  Qed.
  Lemma total_real st s l : ph = true -> spin01 s -> L l -> (im (total st s l) == 0)%Q.
  Proof.
    intros Ph Sp H. assert (P : forall ch, (im (part ch s l) == 0)%Q).
    { intros ch. unfold part, Cadd; cbn [im]. rewrite !(F_real Ph ch _ s l Sp H). ring. }
    unfold total. destruct (Fl_Proofs.present st b Ca), (Fl_Proofs.present st b Cp), (Fl_Proofs.present st b Ct);
    unfold Cadd, Cofq, C0; cbn [im]; rewrite ?P; ring.
  Qed.
  Lemma value_total st s x y : spin01 s -> D x -> D y -> (loop_vertex finite st v b s 0 x y == total st s (legsof (0, x, y)%Q))%C.
  Proof.
    intros Sp Dx Dy. destruct (read Ca s x y Sp Dx Dy) as (ga & Ta & Ea). destruct (read Cp s x y Sp Dx Dy) as (gp & Tp & Ep).
    destruct (read Ct s x y Sp Dx Dy) as (gt & Tt & Et). pose proof (bare s Sp) as B.
    unfold loop_vertex, g_value_expanded, total, part, Fl_Proofs.present, f_value, gammaRb, r_value.
    destruct st, b; cbn [is_full negb orb Fl_Model.expanded irred av pv tv get_r Fl_Proofs.chan_eqb];
    rewrite ?Ta, ?Tp, ?Tt; cbn [obind oadd]; change (2 <=? 3) with true; change (3 <=? 3) with true; cbv iota; cbn [oadd obind or0];
    rewrite ?Ea, ?Ep, ?Et, B; ring.
  Qed.
  Hypothesis Dext : forall x y, (x == y)%Q -> D x -> D y.
  Lemma read_conjugated st : vertex_conjugated D ph b (loop_vertex finite st v).
  Proof.
    split.
    - intros s x y x' y' Sp Dx Dy E E'. rewrite !value_total by eauto. apply total_m; auto.
    - intros s x y Sp Dx Dy. rewrite !value_total by auto.
      rewrite (total_m st s _ _ Sp (legs_ok _ _ (Dopp x Dx) (Dopp y Dy)) (legsof_opp x y)).
      rewrite (total_conj st s _ Sp (legs_ok x y Dx Dy)). rewrite Fl_Proofs.conj_conj. reflexivity.
    - intros Ph s x y Sp Dx Dy. rewrite value_total by assumption. apply total_real; auto.
  Qed.
End Read.

(** ** zero temperature *)
Lemma mloop_vertex c u v st b : keldysh c = false -> zero_t c = true -> msymmetric c u v ->
  vertex_conjugated all_frequencies (phs c) b (loop_vertex false st v).
Proof.
  intros Kc Zc Sy. pose proof (Msf_Proofs2.mreads_obeys c u v v Sy false) as R. cbn match in R.
  assert (Es : forall s, spin01 s -> (s =? 0) || (s =? 1) = true) by (intros s [-> | ->]; reflexivity).
  apply (read_conjugated all_frequencies (phs c) false v b (legs_of b) (fun ch k s l => on_mlegs v v false ch k s k1111 l) conserved (fun s => if s =? 0 then u else (- u)%Q)).
  - intros ch s x y Sp _ _. destruct (conv_legs ch b (0, x, y)%Q) as (g & T & E). exists g. split; [exact T|]. intros k.
    rewrite <- get_rdr. apply (R s Sp). destruct E as (A & B & C & D). repeat (apply Logic.conj); symmetry; assumption.
  - intros x y _ _. apply Msf_Proofs2.legs_conserved.
  - intros ch k s l l' Sp Co E. unfold on_mlegs. rewrite (Es s Sp). exact (mof_values _ _ _ _ Sy false ch k s _ _ Sp (Fl_Proofs.natural_m ch l l' E)).
  - intros ch k s l Sp Co. apply (reversal_matsubara _ _ (mobeys_reversible _ _ _ _ Sy) Kc); assumption.
  - intros Ph ch k s l Sp Co. apply (real_matsubara _ _ _ (mobeys_physical _ _ _ _ Sy) Kc Ph).
  - intros x y x' y' E E'. apply Msf_Proofs2.legs_m. repeat (apply Logic.conj); cbn [fst snd]; auto. reflexivity.
  - intros x y. destruct b; repeat (apply Logic.conj); unfold minus_f; cbn [legs_of n1' n2' n1 n2]; field.
  - trivial.
  - intros s Sp. exact (mobeys_bare _ _ _ _ Sy false s (0, 0, 0)%Q Sp).
  - trivial.
Qed.
(** ** finite temperature *)
Lemma tloop_vertex ph u v st b : tsymmetric ph u v -> vertex_conjugated fermionic ph b (loop_vertex true st v).
Proof.
  intros Sy. assert (B0 : bosonic 0) by (exists 0; reflexivity).
  assert (R : reads_T u (on_tlegs v v) false (rdr v)).
  { exact (treads_obeys (mkCfg false false ph false 0) u v v Sy false). }
  apply (read_conjugated fermionic ph true v b (legs_T b) (fun ch k s l => on_tlegs v v false ch k s l) matsubara_legs (fun s => if s =? 0 then u else (- u)%Q)).
  - intros ch s x y Sp Dx Dy. assert (M : mats (0, x, y)%Q) by (split; [exact B0|split; assumption]).
    destruct (conv_mf ch b (0, x, y)%Q M) as (g & T & Mg & E). exists g. split; [exact T|]. intros k.
    rewrite <- get_rdr. apply (R s Sp); [apply legs_T_mats, M|apply E, legs_T_mf, M].
  - intros x y Dx Dy. apply legs_T_mats. split; [exact B0|split; assumption].
  - intros ch k s l l' Sp M E. apply (familyT_m ph _ (tobeys_symmetric _ _ _ _ Sy)); assumption.
  - intros ch k s l Sp M. apply (tobeys_reversible _ _ _ _ Sy); assumption.
  - intros Ph ch k s l Sp M. apply (T_real _ _ (tobeys_symmetric _ _ _ _ Sy) Ph); assumption.
  - intros x y x' y' E E'. apply legs_T_m. repeat (apply Logic.conj); cbn [fst snd]; auto. reflexivity.
  - intros x y. unfold legs_T. assert (L0 : (lo 0 == 0)%Q) by reflexivity. assert (H0 : (hi 0 == 0)%Q) by reflexivity.
    destruct b; repeat (apply Logic.conj); unfold minus_f; cbn [legs_split n1' n2' n1 n2]; rewrite ?L0, ?H0; ring.
  - intros x (n & E). exists (- n - 1). rewrite E. unfold Qeq, inject_Z, Qopp; cbn [Qnum Qden]. lia.
  - intros s Sp. exact (tobeys_bare _ _ _ _ Sy false s (0, 0, 0)%Q Sp).
  - exact fermionic_ext.
Qed.
Lemma loop_sum_integral pos T : loop_integral fermionic (loop_sum pos T).
Proof.
  assert (E : forall f, matsubarasum f (- pos) (- - pos - 1) = frequency_sum pos 0 f).
  { intros f. unfold frequency_sum. change (Qround.Qfloor 0) with 0. unfold Mbe_Model.sum_min, Mbe_Model.sum_max. f_equal; cbn; lia. }
  pose proof (frequency_sum_T pos) as H. unfold loop_sum. split.
  - intros v v' f g _ _ X. rewrite !E. rewrite (T_ext _ H 0%Q f g); [reflexivity|]. intros x Fx. apply X; [exact Fx|reflexivity].
  - intros v f. rewrite !E, (T_opp _ H). ring.
  - intros v f. rewrite !E, (T_conj _ H). rewrite conj_neg, conj_mul. rewrite conj_cofq. reflexivity.
  - intros v f g _ X. rewrite !E. rewrite (T_reflect _ H 0%Q 0%Q 0%Q f g); [reflexivity| |].
    + apply (lo_hi 0). exists 0. reflexivity.
    + intros x x' Fx Ex. assert (E' : (x' == - x)%Q) by (rewrite Ex; ring). apply X; assumption.
Qed.
