(** The loop over a bubble is the diagram of the Schwinger-Dyson equation. *)
From Coq Require Import QArith Lqa.
From Verif Require Import Prelude Cplx Keld_Model Keld_Spec Keld_Proofs Keld_Proofs2 Util_Spec Sym_Model Sym_Spec Sym_Proofs2 Tab_Model Tab_Spec
  Rd_Model Rd_Spec Rd_Props Dec_Model Bub_Model Bub_Spec Bub_Proofs Bub_Proofs2 Bub_Proofs3 Bub_Props Sf_Model Sf_Spec Sf_Proofs Sf_Proofs2 Sf_Props
  Lop_Model Fl_Model Fl_Spec Fl_Proofs Sde_Model Sde_Spec Sde_Proofs Sde_Proofs2.
From Verif Require Mlp_Model Bse_Model Lop_Spec Lop_Proofs Lop_Proofs2 Skp_Spec.
Open Scope Z_scope.
Import Lop_Spec (vertex_legs, vertex_ok, conj_symmetric, exchange_symmetric, integral_ok, integral_imaginary, contraction, component, leg_freqs, closed).

(** ** sums over Keldysh indices *)
Lemma sums_in (z : bool -> bool -> cplx) (f : bool -> bool -> bool -> bool -> bool -> bool -> cplx) :
  (csum bits (fun y => csum bits (fun y' => z y y' * sum4 (f y y'))) ==
   sum4 (fun x3 x4 x3' x4' => csum bits (fun y => csum bits (fun y' => z y y' * f y y' x3 x4 x3' x4'))))%C.
Proof. unfold sum4, csum, bits; cbn [fold_right]. ring. Qed.
Lemma sums_p (f : bool -> bool -> bool -> bool -> bool -> bool -> cplx) :
  (sum4 (fun x3 x4 x3' x4' => csum bits (fun y => csum bits (fun y' => f y y' x3 x4 x3' x4'))) ==
   sum4 (fun x3 y x3' y' => csum bits (fun x4 => csum bits (fun x4' => f y y' x3 x4 x3' x4'))))%C.
Proof. unfold sum4, csum, bits; cbn [fold_right]. ring. Qed.
Lemma sums_t (f : bool -> bool -> bool -> bool -> bool -> bool -> cplx) :
  (sum4 (fun x3 x4 x3' x4' => csum bits (fun y => csum bits (fun y' => f y y' x3 x4 x3' x4'))) ==
   sum4 (fun y x4 y' x4' => csum bits (fun x3 => csum bits (fun x3' => f y y' x3 x4 x3' x4'))))%C.
Proof. unfold sum4, csum, bits; cbn [fold_right]. ring. Qed.
Lemma csum2_ext (f h : bool -> bool -> cplx) : (forall y y', (f y y' == h y y')%C) ->
  (csum bits (fun y => csum bits (fun y' => f y y')) == csum bits (fun y => csum bits (fun y' => h y y')))%C.
Proof. intros E. unfold csum, bits; cbn [fold_right]. rewrite !E. reflexivity. Qed.

Section Diagrams.
  Variables (g : prop).
  Hypothesis Hg : lines_ok g.
  Lemma G_m x y a b : (x == y)%Q -> (Gmat g x a b == Gmat g y a b)%C.
  Proof. intros E. apply Gmat_m; [apply ok_prop; exact Hg|exact E]. Qed.
  Variables (A B : vertex_legs).
  Hypothesis HA : vertex_ok A.
  Hypothesis HB : vertex_ok B.
  Lemma A_m s l l' a b d e : spin01 s -> legs_eq l l' -> (A s l (code4 a b d e) == A s l' (code4 a b d e))%C. Proof. apply HA. Qed.
  Lemma B_m s l l' a b d e : spin01 s -> legs_eq l l' -> (B s l (code4 a b d e) == B s l' (code4 a b d e))%C. Proof. apply HB. Qed.
  (** left and right vertex of a bubble in channel ch at natural frequencies f, internal frequency vpp *)
  Definition at_left (ch : chan) (f : Q * Q * Q) (vpp : Q) (t k : Z) : cplx := let '(w, v, v') := f in A t (legs_of ch (w, v, vpp)) k.
  Definition at_right (ch : chan) (f : Q * Q * Q) (vpp : Q) (t k : Z) : cplx := let '(w, v, v') := f in B t (legs_of ch (w, vpp, v')) k.
  Definition bubble_diagram (ch : chan) (s : Z) (f : Q * Q * Q) (vpp : Q) (a b d e : bool) : cplx :=
    code_diagram ch s (at_left ch f vpp) (at_right ch f vpp) (lines ch false g g (fst (fst f)) vpp) a b d e.
  Lemma spin0 : spin01 0. Proof. left; reflexivity. Qed.
  Lemma spin1 : spin01 1. Proof. right; reflexivity. Qed.

  Lemma close_a x vp vpp a' a :
    (csum bits (fun y => csum bits (fun y' => Gmat g vp y y' * bubble_diagram Ca 0 (natural Ca (leg_freqs false x vp)) vpp a' y' a y)) ==
     sde_diagram g A B x a' a (vpp - (vp - x) / 2) vp)%C.
  Proof.
    unfold leg_freqs, closed. cbn [natural n1' n2' n1 n2].
    transitivity (csum bits (fun y => csum bits (fun y' => Gmat g vp y y' * sum4 (fun x3 x4 x3' x4' =>
      (A 0 (mkLegs x (back x (vpp - (vp - x) / 2) vp) (vpp - (vp - x) / 2) vp)%Q (code4 a' x4' x3 y) *
       (Gmat g (vpp - (vp - x) / 2) x3 x3' * Gmat g (back x (vpp - (vp - x) / 2) vp) x4 x4') *
       B 0 (mkLegs (vpp - (vp - x) / 2) vp x (back x (vpp - (vp - x) / 2) vp))%Q (code4 x3' y' a x4))))))%C.
    - apply csum2_ext. intros y y'. apply Cmul_m; [reflexivity|]. unfold bubble_diagram. cbn [code_diagram at_left at_right fst snd].
      unfold diagram. apply sum4_ext. intros x3 x4 x3' x4'. cbn [left_legs right_legs]. unfold lines, pair_of_lines, line1, line2.
      apply Cmul_m; [apply Cmul_m; [apply A_m; [exact spin0|]|apply Cmul_m; [reflexivity|apply G_m; unfold back; field]]|apply B_m; [exact spin0|]];
      unfold back; repeat (apply Logic.conj); cbn [legs_of n1' n2' n1 n2]; field.
    - rewrite sums_in. unfold sde_diagram. apply sum4_ext. intros x3 x4 x3' x4'. apply csum2_ext. intros y y'. ring.
  Qed.
  Lemma close_p x vp vpp a' a :
    (csum bits (fun y => csum bits (fun y' => Gmat g vp y y' * bubble_diagram Cp 0 (natural Cp (leg_freqs false x vp)) vpp a' y' a y)) ==
     sde_diagram g A B x a' a (vpp + (x + vp) / 2) ((x + vp) / 2 - vpp))%C.
  Proof.
    unfold leg_freqs, closed. cbn [natural n1' n2' n1 n2].
    set (f3 := (vpp + (x + vp) / 2)%Q). set (fL := ((x + vp) / 2 - vpp)%Q).
    assert (Eb : (back x f3 fL == vp)%Q) by (unfold back, f3, fL; field).
    transitivity (csum bits (fun y => csum bits (fun y' => Gmat g vp y y' * sum4 (fun x3 x4 x3' x4' =>
      (A 0 (mkLegs x (back x f3 fL) f3 fL)%Q (code4 a' y' x3 x4) * (Gmat g f3 x3 x3' * Gmat g fL x4 x4') *
       B 0 (mkLegs f3 fL x (back x f3 fL))%Q (code4 x3' x4' a y))))))%C.
    - apply csum2_ext. intros y y'. apply Cmul_m; [reflexivity|]. unfold bubble_diagram. cbn [code_diagram at_left at_right fst snd].
      unfold diagram. apply sum4_ext. intros x3 x4 x3' x4'. cbn [left_legs right_legs]. unfold lines, pair_of_lines, line1, line2.
      apply Cmul_m; [apply Cmul_m; [apply A_m; [exact spin0|]|reflexivity]|apply B_m; [exact spin0|]];
      unfold f3, fL, back; repeat (apply Logic.conj); cbn [legs_of n1' n2' n1 n2]; field.
    - rewrite sums_in, sums_p. unfold sde_diagram. apply sum4_ext. intros x3 x4 x3' x4'. apply csum2_ext. intros y y'.
      rewrite (G_m (back x f3 fL) vp _ _ Eb). ring.
  Qed.
  (** channel t: the spin sum of the code reduces to one term if one of the vertices is bare *)
  Definition opposite (V : vertex_legs) : Prop := forall l a b d e, (V 1 l (code4 a b d e) == - V 0 l (code4 a b d e))%C.
  Lemma spin_sum_t f vpp a b d e : opposite A \/ opposite B ->
    (bubble_diagram Ct 0 f vpp a b d e + bubble_diagram Ct 1 f vpp a b d e ==
     diagram Ct (at_left Ct f vpp 0) (lines Ct false g g (fst (fst f)) vpp) (at_right Ct f vpp 0) a b d e)%C.
  Proof.
    intros H. unfold bubble_diagram. cbn [code_diagram]. change (1 - 0) with 1.
    rewrite diagram_add_l, diagram_add_r. set (Pi := lines _ _ _ _ _ _). destruct f as ((w, v), v'). cbn [at_left at_right].
    set (L := fun t => at_left Ct (w, v, v') vpp t). set (R := fun t => at_right Ct (w, v, v') vpp t).
    destruct H as [H | H].
    - rewrite (diagram_ext_codes Ct (L 1) (fun k => - L 0 k)%C (R 0) (R 0) Pi Pi) by (intros; try reflexivity; apply H).
      rewrite (diagram_ext_codes Ct (L 1) (fun k => - L 0 k)%C (R 1) (R 1) Pi Pi) by (intros; try reflexivity; apply H).
      rewrite !diagram_neg_l. generalize (diagram Ct (L 0) Pi (R 0) a b d e) (diagram Ct (L 0) Pi (R 1) a b d e). intros. ring.
    - rewrite (diagram_ext_codes Ct (L 0) (L 0) (R 1) (fun k => - R 0 k)%C Pi Pi) by (intros; try reflexivity; apply H).
      rewrite (diagram_ext_codes Ct (L 1) (L 1) (R 1) (fun k => - R 0 k)%C Pi Pi) by (intros; try reflexivity; apply H).
      rewrite !diagram_neg_r. generalize (diagram Ct (L 0) Pi (R 0) a b d e) (diagram Ct (L 1) Pi (R 0) a b d e). intros. ring.
  Qed.
  Lemma close_t x vp vpp a' a : opposite A \/ opposite B -> exchange_symmetric A ->
    (csum bits (fun y => csum bits (fun y' => Gmat g vp y y' *
       (bubble_diagram Ct 0 (natural Ct (leg_freqs true x vp)) vpp y' a' a y + bubble_diagram Ct 1 (natural Ct (leg_freqs true x vp)) vpp y' a' a y))) ==
     sde_diagram g A B x a' a vp (vpp - (vp - x) / 2))%C.
  Proof.
    intros H Hx. set (fL := (vpp - (vp - x) / 2)%Q).
    transitivity (csum bits (fun y => csum bits (fun y' => Gmat g vp y y' * sum4 (fun x3 x4 x3' x4' =>
      (A 0 (mkLegs x (back x vp fL) vp fL)%Q (code4 a' x4' y x3) * (Gmat g fL x3 x3' * Gmat g (back x vp fL) x4 x4') *
       B 0 (mkLegs vp fL x (back x vp fL))%Q (code4 y' x3' a x4))))))%C.
    - apply csum2_ext. intros y y'. apply Cmul_m; [reflexivity|]. rewrite spin_sum_t by exact H.
      unfold leg_freqs, closed. cbn [natural n1' n2' n1 n2 at_left at_right fst snd].
      unfold diagram. apply sum4_ext. intros x3 x4 x3' x4'. cbn [left_legs right_legs]. unfold lines, pair_of_lines, line1, line2. fold fL.
      apply Cmul_m; [apply Cmul_m; [|apply Cmul_m; [reflexivity|apply G_m; unfold back, fL; field]]|apply B_m; [exact spin0|];
        unfold fL, back; repeat (apply Logic.conj); cbn [legs_of n1' n2' n1 n2]; field].
      rewrite <- (Hx 0 (mkLegs x (back x vp fL) vp fL)%Q a' x4' y x3 spin0) by (unfold conserved, back; cbn [n1' n2' n1 n2]; ring).
      apply A_m; [exact spin0|]. unfold fL, back, Lop_Spec.particle_exchange; repeat (apply Logic.conj); cbn [legs_of n1' n2' n1 n2]; field.
    - rewrite sums_in, sums_t. unfold sde_diagram. apply sum4_ext. intros x3 x4 x3' x4'. apply csum2_ext. intros y y'. ring.
  Qed.
End Diagrams.
