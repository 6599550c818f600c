(** Bubbles as diagrams with whole vertices. *)
From Coq Require Import QArith Lqa.
From Verif Require Import Prelude Cplx Keld_Model Keld_Spec Keld_Proofs Keld_Proofs2 Util_Spec Sym_Model Sym_Spec Sym_Proofs2 Tab_Model Tab_Spec
  Rd_Model Rd_Spec Rd_Props Dec_Model Bub_Model Bub_Spec Bub_Proofs Bub_Proofs2 Bub_Proofs3 Bub_Props Sf_Model Sf_Spec Sf_Proofs Sf_Proofs2 Sf_Props
  Lop_Model Fl_Model Fl_Spec Fl_Proofs Sde_Model Sde_Spec.
From Verif Require Mlp_Model Bse_Model Lop_Spec Lop_Proofs Lop_Proofs2 Skp_Spec.
Open Scope Z_scope.
Import Lop_Spec (vertex_legs, vertex_ok, conj_symmetric, exchange_symmetric).
Import Mlp_Model (Full, Irreducible, DiffLeft, DiffRight).

(** ** linearity of diagrams *)
Lemma diagram_add_l ch V V' P W e1' e2' e1 e2 :
  (diagram ch (fun k => V k + V' k) P W e1' e2' e1 e2 == diagram ch V P W e1' e2' e1 e2 + diagram ch V' P W e1' e2' e1 e2)%C.
Proof. unfold diagram, sum4, csum, bits; cbn [fold_right]; ring. Qed.
Lemma diagram_add_r ch V P W W' e1' e2' e1 e2 :
  (diagram ch V P (fun k => W k + W' k) e1' e2' e1 e2 == diagram ch V P W e1' e2' e1 e2 + diagram ch V P W' e1' e2' e1 e2)%C.
Proof. unfold diagram, sum4, csum, bits; cbn [fold_right]; ring. Qed.
Lemma diagram_neg_l ch V P W e1' e2' e1 e2 : (diagram ch (fun k => - V k) P W e1' e2' e1 e2 == - diagram ch V P W e1' e2' e1 e2)%C.
Proof. unfold diagram, sum4, csum, bits; cbn [fold_right]; ring. Qed.
Lemma diagram_neg_r ch V P W e1' e2' e1 e2 : (diagram ch V P (fun k => - W k) e1' e2' e1 e2 == - diagram ch V P W e1' e2' e1 e2)%C.
Proof. unfold diagram, sum4, csum, bits; cbn [fold_right]; ring. Qed.
Local Opaque diagram.
Definition vsum (A B : Z -> Z -> cplx) : Z -> Z -> cplx := fun s k => (A s k + B s k)%C.
Lemma diagram_sum_l ch V V' V'' P W e1' e2' e1 e2 : (forall a b c d, (V (code4 a b c d) == V' (code4 a b c d) + V'' (code4 a b c d))%C) ->
  (diagram ch V P W e1' e2' e1 e2 == diagram ch V' P W e1' e2' e1 e2 + diagram ch V'' P W e1' e2' e1 e2)%C.
Proof. intros E. rewrite <- diagram_add_l. apply diagram_ext_codes; intros; try reflexivity; apply E. Qed.
Lemma diagram_sum_r ch V P W W' W'' e1' e2' e1 e2 : (forall a b c d, (W (code4 a b c d) == W' (code4 a b c d) + W'' (code4 a b c d))%C) ->
  (diagram ch V P W e1' e2' e1 e2 == diagram ch V P W' e1' e2' e1 e2 + diagram ch V P W'' e1' e2' e1 e2)%C.
Proof. intros E. rewrite <- diagram_add_r. apply diagram_ext_codes; intros; try reflexivity; apply E. Qed.
Ltac one_spin_l := match goal with |- (diagram _ _ _ _ _ _ _ _ == Cadd (diagram _ ?V' _ _ _ _ _ _) (diagram _ ?V'' _ _ _ _ _ _))%C => apply (diagram_sum_l _ _ V' V''); intros; reflexivity end.
Ltac one_spin_r := match goal with |- (diagram _ _ _ _ _ _ _ _ == Cadd (diagram _ _ _ ?V' _ _ _ _) (diagram _ _ _ ?V'' _ _ _ _))%C => apply (diagram_sum_r _ _ _ _ V' V''); intros; reflexivity end.
Lemma code_sum_l ch s (A A' B : Z -> Z -> cplx) P e1' e2' e1 e2 : spin01 s ->
  (code_diagram ch s (vsum A A') B P e1' e2' e1 e2 == code_diagram ch s A B P e1' e2' e1 e2 + code_diagram ch s A' B P e1' e2' e1 e2)%C.
Proof.
  intros [-> | ->]; destruct ch; cbn [code_diagram]; unfold vsum; try one_spin_l; change (1 - 0) with 1; change (1 - 1) with 0;
  rewrite !diagram_add_l; generalize (diagram Ca) (diagram Ct); intros; ring.
Qed.
Lemma code_sum_r ch s (A B B' : Z -> Z -> cplx) P e1' e2' e1 e2 : spin01 s ->
  (code_diagram ch s A (vsum B B') P e1' e2' e1 e2 == code_diagram ch s A B P e1' e2' e1 e2 + code_diagram ch s A B' P e1' e2' e1 e2)%C.
Proof.
  intros [-> | ->]; destruct ch; cbn [code_diagram]; unfold vsum; try one_spin_r; change (1 - 0) with 1; change (1 - 1) with 0;
  rewrite !diagram_add_r; generalize (diagram Ca) (diagram Ct); intros; ring.
Qed.
Lemma code_0_l ch s (A B : Z -> Z -> cplx) P e1' e2' e1 e2 : spin01 s -> (forall t a b c d, spin01 t -> (A t (code4 a b c d) == C0)%C) ->
  (code_diagram ch s A B P e1' e2' e1 e2 == C0)%C.
Proof.
  intros Sp E. assert (X : (code_diagram ch s A B P e1' e2' e1 e2 == code_diagram ch s (vsum A A) B P e1' e2' e1 e2)%C).
  { apply code_diagram_ext_codes; intros; try reflexivity; auto. unfold vsum. rewrite !E by assumption. ring. }
  rewrite code_sum_l in X by exact Sp. set (z := code_diagram _ _ _ _ _ _ _ _ _) in *. destruct X as (X1 & X2). split; unfold Cadd, C0 in *; cbn [re im] in *; lra.
Qed.
Lemma code_0_r ch s (A B : Z -> Z -> cplx) P e1' e2' e1 e2 : spin01 s -> (forall t a b c d, spin01 t -> (B t (code4 a b c d) == C0)%C) ->
  (code_diagram ch s A B P e1' e2' e1 e2 == C0)%C.
Proof.
  intros Sp E. assert (X : (code_diagram ch s A B P e1' e2' e1 e2 == code_diagram ch s A (vsum B B) P e1' e2' e1 e2)%C).
  { apply code_diagram_ext_codes; intros; try reflexivity; auto. unfold vsum. rewrite !E by assumption. ring. }
  rewrite code_sum_r in X by exact Sp. set (z := code_diagram _ _ _ _ _ _ _ _ _) in *. destruct X as (X1 & X2). split; unfold Cadd, C0 in *; cbn [re im] in *; lra.
Qed.

Section Bubbles.
  Variables (c : cfg) (J : (Q -> cplx) -> cplx) (pi : Q).
  Hypothesis Kc : keldysh c = true.
  Hypothesis CBc : contour c = false.
  Hypothesis HL : Skp_Spec.linear J.
  Lemma J_ext f h : (forall x, (f x == h x)%C) -> (J f == J h)%C. Proof. apply HL. Qed.
  Lemma J_add f h : (J (fun x => f x + h x) == J f + J h)%C. Proof. apply HL. Qed.
  Lemma J_scale z f : (J (fun x => z * f x) == z * J f)%C. Proof. apply HL. Qed.
  Lemma J_0 f : (forall x, (f x == C0)%C) -> (J f == C0)%C.
  Proof. intros E. rewrite (J_ext f (fun x => C0 * (fun _ => C0) x)%C) by (intros; rewrite E; ring). rewrite (J_scale C0). ring. Qed.

  (** ** one entry of a bubble *)
  Definition connected (P : pair) (ch : chan) (L R : data) (s : Z) (a b d e : bool) (f : Q * Q * Q) : cplx :=
    let '(w, v, vp) := f in
    (bubble_value_prefactor pi ch * J (fun vpp => code_diagram ch s (fun t k => L t k (w, v, vpp)) (fun t k => R t k (w, vpp, vp))
       (lines ch (p_diff P) (p_g P) (p_s P) w vpp) a b d e))%C.
  Lemma product_connected P ch L R s a b d e f : spin01 s -> lines_ok (p_g P) -> lines_ok (p_s P) ->
    (product J pi P (chr ch) L R s (code4 a b d e) f == connected P ch L R s a b d e f)%C.
  Proof.
    intros Sp Hg Hs. destruct f as ((w, v), vp). unfold product, connected. rewrite chan_chr. apply Cmul_m; [reflexivity|]. apply J_ext. intros x.
    destruct (integrand_vectorized_code ch s (fun sp i => L sp i (w, v, x)) (fun sp i => R sp i (w, x, vp))
      (value_vectorized ch (p_diff P) (p_g P) (p_s P) w x) (lines ch (p_diff P) (p_g P) (p_s P) w x) Sp) as (l1 & E1 & _ & H1).
    { intros. apply value_vectorized_spec; apply ok_prop; assumption. }
    rewrite E1. cbn [obind]. destruct (H1 a b d e) as (z1 & N1 & Z1). rewrite N1. exact Z1.
  Qed.
  Definition same_data (L L' : data) : Prop := forall t a b d e f, spin01 t -> (L t (code4 a b d e) f == L' t (code4 a b d e) f)%C.
  Lemma connected_ext P ch L L' R R' s a b d e f : spin01 s -> same_data L L' -> same_data R R' ->
    (connected P ch L R s a b d e f == connected P ch L' R' s a b d e f)%C.
  Proof.
    intros Sp EL ER. destruct f as ((w, v), vp). unfold connected. apply Cmul_m; [reflexivity|]. apply J_ext. intros x.
    apply code_diagram_ext_codes; [exact Sp| | |reflexivity]; intros; auto.
  Qed.
  Lemma connected_add_l P ch L L' R s a b d e f : spin01 s ->
    (connected P ch (dadd L L') R s a b d e f == connected P ch L R s a b d e f + connected P ch L' R s a b d e f)%C.
  Proof.
    intros Sp. destruct f as ((w, v), vp). unfold connected.
    rewrite (J_ext _ (fun x => code_diagram ch s (fun t k => L t k (w, v, x)) (fun t k => R t k (w, x, vp)) (lines ch (p_diff P) (p_g P) (p_s P) w x) a b d e +
      code_diagram ch s (fun t k => L' t k (w, v, x)) (fun t k => R t k (w, x, vp)) (lines ch (p_diff P) (p_g P) (p_s P) w x) a b d e)%C)
      by (intros; apply (code_sum_l ch s (fun t k => L t k (w, v, x)) (fun t k => L' t k (w, v, x))); exact Sp).
    rewrite J_add. ring.
  Qed.
  Lemma connected_add_r P ch L R R' s a b d e f : spin01 s ->
    (connected P ch L (dadd R R') s a b d e f == connected P ch L R s a b d e f + connected P ch L R' s a b d e f)%C.
  Proof.
    intros Sp. destruct f as ((w, v), vp). unfold connected.
    rewrite (J_ext _ (fun x => code_diagram ch s (fun t k => L t k (w, v, x)) (fun t k => R t k (w, x, vp)) (lines ch (p_diff P) (p_g P) (p_s P) w x) a b d e +
      code_diagram ch s (fun t k => L t k (w, v, x)) (fun t k => R' t k (w, x, vp)) (lines ch (p_diff P) (p_g P) (p_s P) w x) a b d e)%C)
      by (intros; apply (code_sum_r ch s _ (fun t k => R t k (w, x, vp)) (fun t k => R' t k (w, x, vp))); exact Sp).
    rewrite J_add. ring.
  Qed.
  Lemma connected_0_l P ch L R s a b d e f : spin01 s -> same_data L dzero -> (connected P ch L R s a b d e f == C0)%C.
  Proof.
    intros Sp E. destruct f as ((w, v), vp). unfold connected. rewrite J_0; [ring|]. intros x. apply code_0_l; [exact Sp|]. intros. apply E; assumption.
  Qed.
  Lemma connected_0_r P ch L R s a b d e f : spin01 s -> same_data R dzero -> (connected P ch L R s a b d e f == C0)%C.
  Proof.
    intros Sp E. destruct f as ((w, v), vp). unfold connected. rewrite J_0; [ring|]. intros x. apply code_0_r; [exact Sp|]. intros. apply E; assumption.
  Qed.

  (** ** the whole vertex: all channels, or ([only]) the bare vertex and one channel *)
  Definition op (only : bool) (v : vert) : operand := if only then DiffLeft _ v v v else Full _ v.
  Definition whole (only : bool) (ch : chan) (v : vert) : vertex_legs := fun s l k =>
    if only then (irr v s k (0, 0, 0)%Q + part v ch s l k)%C else total symmetric_full Ca v s l k.
  Definition whole_data (only : bool) (ch : chan) (v : vert) : data := fun s k f => whole only ch v s (legs_of ch f) k.
  Section OneVertex.
    Variables (u : Q) (v : vert).
    Hypothesis Sy : symmetric c u v.
    Lemma legs_self ch f : legs_are false ch f (legs_of ch f).
    Proof. unfold legs_are. destruct f as ((w, x), y). destruct ch; repeat (apply Logic.conj); cbn [legs_of n1' n2' n1 n2]; reflexivity. Qed.
    Lemma own_class ch k s a b d e f : spin01 s ->
      (class_of (channel_of v ch) k s (code4 a b d e) f == class_of (channel_of v ch) k s (code4 a b d e) (natural ch (legs_of ch f)))%C.
    Proof. intros Sp. apply (value_m c u v Sy); [exact Sp|]. apply natural_of_legs, legs_self. Qed.
    Lemma cross_part ch ch' s a b d e f : spin01 s ->
      (cross (chr ch) (chr ch') (Bse_Model.value data dzero dadd no_mirror true v v (chr ch)) s (code4 a b d e) f == part v ch s (legs_of ch' f) (code4 a b d e))%C.
    Proof.
      intros Sp. destruct (cross_total v ch ch' s (code4 a b d e) f) as (g & T & E). destruct (part_conv c u v Sy ch ch' s a b d e f Sp) as (g' & T' & E').
      rewrite T in T'. injection T' as <-. rewrite E. exact E'.
    Qed.
    Lemma bare_anywhere s a b d e f : spin01 s -> (irr v s (code4 a b d e) f == irr v s (code4 a b d e) (0, 0, 0)%Q)%C.
    Proof. intros Sp. pose proof (proj1 (obeys_const c u v v Sy) s (klof (code4 a b d e)) f (klof_ok a b d e) Sp) as H. rewrite kcode_klof in H. exact H. Qed.
    Lemma left_whole only ch : same_data (dadd (left_data k1 (op only v) (chr ch)) (left_data k2 (op only v) (chr ch))) (whole_data only ch v).
    Proof.
      intros s a b d e f Sp. unfold dadd, left_data, whole_data, whole, op. cbn [left_dressed].
      pose proof (own_class ch k1 s a b d e f Sp) as E1. pose proof (own_class ch k2 s a b d e f Sp) as E2.
      pose proof (own_class ch k2b s a b d e f Sp) as E3. pose proof (own_class ch k3 s a b d e f Sp) as E4. cbn [class_of] in E1, E2, E3, E4.
      destruct only; cbn [Bse_Model.left_diff Bse_Model.left_same]; unfold Bse_Model.read_K2b, dadd; rewrite !get_chr.
      - unfold part; cbn [class_of]. rewrite (bare_anywhere s a b d e f Sp), E1, E2, E3, E4. ring.
      - unfold total, present; cbn [is_full orb]. rewrite (bare_anywhere s a b d e f Sp), E1, E2, E3, E4.
        pose proof (cross_part Ca ch s a b d e f Sp) as Xa. pose proof (cross_part Cp ch s a b d e f Sp) as Xp. pose proof (cross_part Ct ch s a b d e f Sp) as Xt.
        unfold Bse_Model.gammaRb. destruct ch; cbn [chr] in *; unfold dadd; rewrite ?Xa, ?Xp, ?Xt;
        [set (pp := part v Cp s _ _)|set (pp := part v Ca s _ _)|set (pp := part v Ca s _ _)]; [set (pt := part v Ct s _ _)|set (pt := part v Ct s _ _)|set (pt := part v Cp s _ _)];
        unfold part; cbn [class_of]; ring.
    Qed.
    Lemma right_whole only ch : same_data (dadd (right_data k1 (op only v) (chr ch)) (right_data k3 (op only v) (chr ch))) (whole_data only ch v).
    Proof.
      intros s a b d e f Sp. unfold dadd, right_data, whole_data, whole, op. cbn [right_dressed].
      pose proof (own_class ch k1 s a b d e f Sp) as E1. pose proof (own_class ch k2 s a b d e f Sp) as E2.
      pose proof (own_class ch k2b s a b d e f Sp) as E3. pose proof (own_class ch k3 s a b d e f Sp) as E4. cbn [class_of] in E1, E2, E3, E4.
      destruct only; cbn [Bse_Model.right_diff Bse_Model.right_same]; unfold Bse_Model.read_K2b, dadd; rewrite !get_chr.
      - unfold part; cbn [class_of]. rewrite (bare_anywhere s a b d e f Sp), E1, E2, E3, E4. ring.
      - unfold total, present; cbn [is_full orb]. rewrite (bare_anywhere s a b d e f Sp), E1, E2, E3, E4.
        pose proof (cross_part Ca ch s a b d e f Sp) as Xa. pose proof (cross_part Cp ch s a b d e f Sp) as Xp. pose proof (cross_part Ct ch s a b d e f Sp) as Xt.
        unfold Bse_Model.gammaRb. destruct ch; cbn [chr] in *; unfold dadd; rewrite ?Xa, ?Xp, ?Xt;
        [set (pp := part v Cp s _ _)|set (pp := part v Ca s _ _)|set (pp := part v Ca s _ _)]; [set (pt := part v Ct s _ _)|set (pt := part v Ct s _ _)|set (pt := part v Cp s _ _)];
        unfold part; cbn [class_of]; ring.
    Qed.
    Lemma whole_ok only ch : vertex_ok (whole only ch v).
    Proof.
      intros s l l' p q d e Sp E. unfold whole. destruct only; [|apply (total_ok c u v Sy); assumption].
      rewrite (part_m c u v Sy ch s p q d e l l' Sp E). reflexivity.
    Qed.
    Lemma whole_exchange only ch : exchange_symmetric (whole only ch v).
    Proof.
      intros s l p q d e Sp Co. unfold whole. destruct only; [|apply (total_exchange c u v Kc CBc Sy); assumption].
      rewrite (proj2 (proj2 (bare_conj c u v Kc CBc Sy s p q d e Sp))), <- (part_exchange c u v Sy ch s p q d e l Sp Co). reflexivity.
    Qed.
  End OneVertex.

  (** ** all classes of a bubble *)
  Lemma all_classes u1 u2 v1 v2 o1 o2 P ch s a b d e f : symmetric c u1 v1 -> symmetric c u2 v2 -> spin01 s -> lines_ok (p_g P) -> lines_ok (p_s P) ->
    let x k := bubble_of J pi P (chr ch) (kcr k) (op o1 v1) (op o2 v2) s (code4 a b d e) f in
    (x k1 + x k2 + x k2b + x k3 == connected P ch (whole_data o1 ch v1) (whole_data o2 ch v2) s a b d e f)%C.
  Proof.
    intros S1 S2 Sp Hg Hs x. unfold x.
    rewrite <- (connected_ext P ch _ _ _ _ s a b d e f Sp (left_whole u1 v1 S1 o1 ch) (right_whole u2 v2 S2 o2 ch)).
    rewrite connected_add_l, !connected_add_r by exact Sp. rewrite !bubble_of_data, !product_connected by assumption.
    change (right_data k2 (op o2 v2) (chr ch)) with (right_data k1 (op o2 v2) (chr ch)).
    change (left_data k2b (op o1 v1) (chr ch)) with (left_data k1 (op o1 v1) (chr ch)).
    change (right_data k2b (op o2 v2) (chr ch)) with (right_data k3 (op o2 v2) (chr ch)).
    change (left_data k3 (op o1 v1) (chr ch)) with (left_data k2 (op o1 v1) (chr ch)). ring.
  Qed.
End Bubbles.
