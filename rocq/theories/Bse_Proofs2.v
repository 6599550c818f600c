(** Solutions of the parquet equations, susceptibilities, and the multiloop flow as derivative of the Bethe-Salpeter equations. *)
From Coq Require Import QArith.
From Verif Require Import Prelude Mlp_Model Mlp_Spec Mlp_Proofs Bse_Model Bse_Spec Bse_Proofs.
Open Scope list_scope.
Open Scope Z_scope.

Section Proofs.
  Variables (A P : Type).
  Variables (zero : A) (add sub : A -> A -> A) (half : A -> A).
  Variables (prod : P -> channel -> A -> A -> A) (cross : channel -> channel -> A -> A) (mirror : channel -> A -> A) (lift : Q -> A).
  Hypothesis HR : rules A P zero add sub half prod cross.
  Let comm := add_comm _ _ _ _ _ _ _ _ HR.
  Let assoc := add_assoc _ _ _ _ _ _ _ _ HR.
  Let unit := add_zero _ _ _ _ _ _ _ _ HR.
  Notation bubble := (bubble A P zero add prod cross mirror).
  Notation reducible := (reducible A zero add).
  Notation others := (others A zero add cross).
  Notation irreducible := (irreducible A zero add cross).
  Notation full := (full A zero add cross).
  Notation classes := (classes A zero).
  Notation starts_bare := (starts_bare A zero add). Notation ends_bare := (ends_bare A zero add).
  Notation starts_else := (starts_else A zero add cross). Notation ends_else := (ends_else A zero add cross).
  Notation completed := (completed A mirror).
  Ltac msum := sums add zero comm assoc unit.
  Ltac expand := repeat first [rewrite (prod_add_l _ _ _ _ _ _ _ _ HR) | rewrite (prod_add_r _ _ _ _ _ _ _ _ HR) | rewrite (prod_zero_l _ _ _ _ _ _ _ _ HR)
    | rewrite (prod_zero_r _ _ _ _ _ _ _ _ HR) | rewrite (prod_assoc _ _ _ _ _ _ _ _ HR)].
  Notation twice := (half_twice _ _ _ _ _ _ _ _ HR).

  Lemma seen_debug v : seen A mirror true v v = v.
  Proof. reflexivity. Qed.
  Lemma seen_completed v : seen A mirror false v v = completed v.
  Proof. reflexivity. Qed.

  (** class-wise solutions solve the equations of the reducible vertex *)
  Lemma sum_left p w r x1 x2 y : add (add (prod p r x1 (ends_bare w r)) (prod p r x2 (ends_bare w r))) (add (prod p r x1 (ends_else w r)) (prod p r x2 (ends_else w r))) = y ->
    prod p r (add x1 x2) (full w r) = y.
  Proof. intros <-. rewrite <- (parts_of_full' A P zero add sub half prod cross HR). expand. msum. Qed.
  Lemma sum_right p w r x1 x2 y : add (add (prod p r (starts_bare w r) x1) (prod p r (starts_else w r) x1)) (add (prod p r (starts_bare w r) x2) (prod p r (starts_else w r) x2)) = y ->
    prod p r (full w r) (add x1 x2) = y.
  Proof. intros <-. rewrite <- (parts_of_full A P zero add sub half prod cross HR). expand. msum. Qed.
  Lemma left_solution_bs p w r : left_solution A P zero add prod cross p w -> physical r -> reducible w r = prod p r (irreducible w r) (full w r).
  Proof. intros H Hr. unfold Bse_Spec.irreducible. symmetry. apply sum_left. unfold Bse_Spec.reducible. rewrite (H r Hr). reflexivity. Qed.
  Lemma right_solution_bs p w r : right_solution A P zero add prod cross p w -> physical r -> reducible w r = prod p r (full w r) (irreducible w r).
  Proof. intros H Hr. unfold Bse_Spec.irreducible. symmetry. apply sum_right. unfold Bse_Spec.reducible. rewrite (H r Hr). reflexivity. Qed.

  (** *** what the iteration returns *)
  Lemma half_sum4 a b c d : add (add (half a) (half b)) (add (half c) (half d)) = half (add (add a b) (add c d)).
  Proof. rewrite !(half_add _ _ _ _ _ _ _ _ HR). reflexivity. Qed.
  Lemma bse_total p w r x : classes x r = bse_classes A P zero add half prod cross true p w r ->
    reducible x r = half (add (prod p r (irreducible w r) (full w r)) (prod p r (full w r) (irreducible w r))).
  Proof.
    intro H. unfold Bse_Spec.reducible. rewrite H. unfold bse_classes, four. cbv zeta. cbn [K1 K2 K2b K3]. rewrite half_sum4. f_equal.
    unfold Bse_Spec.irreducible. rewrite (sum_left p w r (irr A w) (others w r) _ eq_refl), (sum_right p w r (irr A w) (others w r) _ eq_refl). msum.
  Qed.

  (** *** mirror images *)
  Hypothesis HM : mirrored A P zero add half prod mirror.
  Notation symmetric := (symmetric A zero add cross mirror).
  Ltac mirr := repeat first [rewrite (mirror_add _ _ _ _ _ _ _ HM) | rewrite (mirror_half _ _ _ _ _ _ _ HM) | rewrite (mirror_prod _ _ _ _ _ _ _ HM)].
  Lemma mirror_ends_bare w r : symmetric w -> physical r -> mirror r (ends_bare w r) = starts_bare w r.
  Proof. intros H Hr. destruct (H r Hr) as (E0 & E1 & E2 & E3 & E4 & E5). unfold Bse_Spec.ends_bare, Bse_Spec.starts_bare. mirr. rewrite E0, E1, E2. reflexivity. Qed.
  Lemma mirror_starts_else w r : symmetric w -> physical r -> mirror r (starts_else w r) = ends_else w r.
  Proof. intros H Hr. destruct (H r Hr) as (E0 & E1 & E2 & E3 & E4 & E5). unfold Bse_Spec.ends_else, Bse_Spec.starts_else. mirr. rewrite E5, E2, E4. reflexivity. Qed.
  Lemma classes_completed v r : physical r -> classes (completed v) r = four A (K1 _ (classes v r)) (K2 _ (classes v r)) (mirror r (K2 _ (classes v r))) (K3 _ (classes v r)).
  Proof. unfold physical. destruct r; try reflexivity. congruence. Qed.
  Lemma bse_completed v p r : symmetric (completed v) -> physical r ->
    classes (completed (compute_BSE A P zero add half prod cross mirror false v p)) r = bse_classes A P zero add half prod cross true p (completed v) r.
  Proof.
    intros H Hr. rewrite classes_completed, <- !get_classes by exact Hr. rewrite (bse_by_class A P zero add sub half prod cross mirror false HR) by exact Hr.
    rewrite seen_completed. unfold bse_classes, four. cbn [K1 K2 K2b K3]. f_equal.
    mirr. rewrite mirror_ends_bare, mirror_starts_else by assumption. destruct (H r Hr) as (E0 & _ & _ & _ & _ & E5). rewrite E0, E5. f_equal. apply comm.
  Qed.

  (** *** fixed points *)
  Lemma solution_classes p w r : solution A P zero add prod cross p w -> physical r -> bse_classes A P zero add half prod cross true p w r = classes w r.
  Proof.
    intros (HL & HRt) Hr. pose proof (HL r Hr) as EL. pose proof (HRt r Hr) as ER. unfold bse_classes. unfold four in *.
    rewrite EL in ER. injection ER as E1 E2 E3 E4. rewrite <- E1, <- E2, <- E3, <- E4, !twice. symmetry. exact EL.
  Qed.
  Lemma vertex_ext (x y : vertex A) : irr _ x = irr _ y -> (forall r, physical r -> classes x r = classes y r) -> x = y.
  Proof.
    intros H0 H. destruct x, y. pose proof (H Ca ltac:(discriminate)) as H1. pose proof (H Cp ltac:(discriminate)) as H2. pose proof (H Ct ltac:(discriminate)) as H3.
    cbn in *. congruence.
  Qed.
  Lemma fixed_debug v p q : solution A P zero add prod cross p v -> irr _ v = lift q -> initialize A lift (compute_BSE A P zero add half prod cross mirror true v p) q = v.
  Proof.
    intros Hs H0. apply vertex_ext; [symmetry; exact H0|]. intros r Hr. transitivity (get A zero (compute_BSE A P zero add half prod cross mirror true v p) r);
      [destruct r; reflexivity|]. rewrite (bse_by_class A P zero add sub half prod cross mirror true HR) by exact Hr. rewrite seen_debug. apply solution_classes; assumption.
  Qed.
  Lemma fixed_reduced v p q : solution A P zero add prod cross p (completed v) -> (forall r, K2b _ (classes v r) = zero) -> irr _ v = lift q ->
    initialize A lift (compute_BSE A P zero add half prod cross mirror false v p) q = v.
  Proof.
    intros Hs Hb H0. apply vertex_ext; [symmetry; exact H0|]. intros r Hr. transitivity (get A zero (compute_BSE A P zero add half prod cross mirror false v p) r);
      [destruct r; reflexivity|]. rewrite (bse_by_class A P zero add sub half prod cross mirror false HR) by exact Hr. rewrite seen_completed.
    pose proof (solution_classes p (completed v) r Hs Hr) as E. rewrite classes_completed in E by exact Hr. unfold bse_classes, four in *.
    pose proof (f_equal (K1 A) E) as E1. pose proof (f_equal (K2 A) E) as E2. pose proof (f_equal (K3 A) E) as E4. cbn [K1 K2 K3] in E1, E2, E4.
    rewrite E1, E2, E4. specialize (Hb r). destruct (classes v r). cbn in *. congruence.
  Qed.

  (** *** susceptibilities *)
  Notation bare q := (initialize A lift (vzero A zero) q).
  Lemma bare_class q r : get A zero (bare q) r = rzero A zero.
  Proof. destruct r; reflexivity. Qed.
  Lemma bare_K2b dbg q r : read_K2b A zero mirror dbg (bare q) (bare q) r = zero.
  Proof. unfold read_K2b. rewrite bare_class. destruct dbg; [reflexivity | apply (mirror_zero _ _ _ _ _ _ _ HM)]. Qed.
  Lemma cross0 r s : cross r s zero = zero.
  Proof. apply (cross_zero _ _ _ _ _ _ _ _ HR). Qed.
  Lemma bare_value dbg q r : value A zero add mirror dbg (bare q) (bare q) r = zero.
  Proof. unfold value. rewrite bare_K2b, bare_class. cbn [K1 K2 K3 rzero]. rewrite !unit. reflexivity. Qed.
  Lemma bare_others dbg q r : gammaRb A zero add cross mirror dbg (bare q) (bare q) r = zero.
  Proof. destruct r; cbn [gammaRb]; rewrite ?bare_value, ?cross0, ?unit; reflexivity. Qed.
  Lemma bare_left_same dbg q r : left_same A zero add mirror dbg (Full _ (bare q)) r = lift q.
  Proof. cbn [left_same]. rewrite bare_K2b, bare_class. cbn. rewrite !unit. reflexivity. Qed.
  Lemma bare_right_same q r : right_same A zero add (Full _ (bare q)) r = lift q.
  Proof. cbn [right_same]. rewrite bare_class. cbn. rewrite !unit. reflexivity. Qed.
  Lemma bare_left_diff dbg q r : left_diff A zero add cross mirror dbg (Full _ (bare q)) r = zero.
  Proof. cbn [left_diff]. rewrite bare_others, bare_class. cbn. rewrite !unit. reflexivity. Qed.
  Lemma bare_right_diff dbg q r : right_diff A zero add cross mirror dbg (Full _ (bare q)) r = zero.
  Proof. cbn [right_diff]. rewrite bare_others, bare_K2b, bare_class. cbn. rewrite !unit. reflexivity. Qed.

  Notation susceptibility dbg := (susceptibility A P zero add half prod cross mirror dbg).
  Lemma susceptibility_value dbg q v p r : physical r -> (dbg = false -> mirror r (lift q) = lift q /\ symmetric (completed v)) ->
    K1 _ (get A zero (susceptibility dbg (bare q) v p r) r) =
    add (prod p r (lift q) (lift q)) (prod p r (lift q) (prod p r (full (if dbg then v else completed v) r) (lift q))).
  Proof.
    intros Hr Hd. set (w := if dbg then v else completed v).
    assert (Ew : seen A mirror dbg v v = w) by (unfold w; destruct dbg; reflexivity).
    unfold Bse_Model.susceptibility. rewrite get_vadd, get_vhalf, get_vadd by exact Hr. cbn [radd rhalf K1].
    rewrite !(bubble_class A P zero add prod cross mirror dbg) by exact Hr. unfold product, four. cbn [K1].
    rewrite bare_left_same, bare_right_same. cbn [left_same right_same]. rewrite !bubble_irr. cbn [irr vzero]. unfold read_K2b.
    rewrite !(bubble_class A P zero add prod cross mirror dbg) by exact Hr. unfold product, four. cbn [K1 K2 K2b].
    rewrite bare_left_same, bare_right_same.
    pose proof (full_left A zero add mirror dbg v r Hr) as F1. pose proof (full_right A zero add mirror dbg v r) as F2.
    pose proof (full_left_diff A P zero add sub half prod cross mirror dbg HR v r) as F3. pose proof (full_right_diff A P zero add sub half prod cross mirror dbg HR v r Hr) as F4.
    rewrite Ew in F1, F2, F3, F4. rewrite F1, F2, F3, F4.
    assert (EL : add zero (add (prod p r (lift q) (ends_bare w r)) (if dbg then (if dbg then prod p r (lift q) (ends_else w r) else zero) else mirror r (prod p r (starts_else w r) (lift q)))) =
                 prod p r (lift q) (full w r)).
    { rewrite <- (parts_of_full' A P zero add sub half prod cross HR). rewrite (prod_add_r _ _ _ _ _ _ _ _ HR).
      unfold w. destruct dbg; [msum|]. destruct (Hd eq_refl) as (Hq & Hs). rewrite (mirror_prod _ _ _ _ _ _ _ HM), mirror_starts_else, Hq by assumption. msum. }
    assert (ER : add zero (add (prod p r (starts_bare w r) (lift q)) (prod p r (starts_else w r) (lift q))) = prod p r (full w r) (lift q)).
    { rewrite <- (parts_of_full A P zero add sub half prod cross HR). rewrite (prod_add_l _ _ _ _ _ _ _ _ HR). msum. }
    rewrite EL, ER. rewrite (prod_assoc _ _ _ _ _ _ _ _ HR), twice. reflexivity.
  Qed.
  Lemma solution_K1 p w r : solution A P zero add prod cross p w -> physical r ->
    K1 _ (classes w r) = add (prod p r (irr _ w) (irr _ w)) (prod p r (irr _ w) (prod p r (full w r) (irr _ w))).
  Proof.
    intros (HL & HRt) Hr. pose proof (f_equal (K1 A) (HRt r Hr)) as ER. cbn [K1 four] in ER. rewrite ER. unfold Bse_Spec.starts_bare.
    pose proof (f_equal (K1 A) (HL r Hr)) as E1. pose proof (f_equal (K2b A) (HL r Hr)) as E2. cbn [K1 K2b four] in E1, E2. rewrite E1, E2.
    rewrite <- (parts_of_full' A P zero add sub half prod cross HR). expand. msum.
  Qed.
  Notation post dbg := (susceptibilities_postprocessing A P zero add sub half prod cross mirror lift dbg).
  Lemma post_K1 dbg contour U v p chi diff r : physical r ->
    let x := K1 _ (get A zero (susceptibility dbg (bare (if negb contour then - U / 2 else - U)%Q) v p r) r) in
    K1 _ (get A zero (fst (post dbg contour U v p chi diff)) r) = x /\ K1 _ (get A zero (snd (post dbg contour U v p chi diff)) r) = sub (K1 _ (get A zero v r)) x.
  Proof. intro Hr. unfold physical in Hr. destruct r; try congruence; cbv zeta; split; reflexivity. Qed.
  Lemma post_kept dbg contour U v p chi diff :
    let post' := post dbg contour U v p chi diff in
    (irr _ (fst post') = irr _ chi /\ irr _ (snd post') = irr _ diff) /\
    forall r, K2 _ (get A zero (fst post') r) = K2 _ (get A zero chi r) /\ K2b _ (get A zero (fst post') r) = K2b _ (get A zero chi r) /\ K3 _ (get A zero (fst post') r) = K3 _ (get A zero chi r) /\
      K2 _ (get A zero (snd post') r) = K2 _ (get A zero diff r) /\ K2b _ (get A zero (snd post') r) = K2b _ (get A zero diff r) /\ K3 _ (get A zero (snd post') r) = K3 _ (get A zero diff r).
  Proof. cbv zeta. split; [split; reflexivity|]. intro r. destruct r; repeat split; reflexivity. Qed.
End Proofs.

(** *** multiloop flow *)
Section Multiloop.
  Variables (A P : Type).
  Variables (zero : A) (add sub : A -> A -> A) (half : A -> A).
  Variables (prod : P -> channel -> A -> A -> A) (cross : channel -> channel -> A -> A) (mirror : channel -> A -> A).
  Hypothesis HR : rules A P zero add sub half prod cross.
  Let comm := add_comm _ _ _ _ _ _ _ _ HR.
  Let assoc := add_assoc _ _ _ _ _ _ _ _ HR.
  Let unit := add_zero _ _ _ _ _ _ _ _ HR.
  Variables (Psi : vertex A) (pi dpi : P) (reorder : vertex A -> vertex A -> vertex A * vertex A).
  Notation bub := (bub A P zero add prod cross mirror true).
  Notation bubbles := (Mlp_Spec.bubbles A zero P bub 3 true).
  Notation level := (level A zero add half P bub 3 true Psi pi reorder dpi).
  Notation vertex_to := (vertex_to A zero add half P bub 3 true Psi pi reorder dpi).
  Notation reducible := (reducible A zero add).
  Notation others := (others A zero add cross).
  Notation irreducible := (irreducible A zero add cross).
  Notation full := (full A zero add cross).
  Notation classes := (classes A zero).
  Ltac msum := sums add zero comm assoc unit.
  Ltac expand := repeat first [rewrite (prod_add_l _ _ _ _ _ _ _ _ HR) | rewrite (prod_add_r _ _ _ _ _ _ _ _ HR) | rewrite (prod_zero_l _ _ _ _ _ _ _ _ HR)
    | rewrite (prod_zero_r _ _ _ _ _ _ _ _ HR) | rewrite (prod_assoc _ _ _ _ _ _ _ _ HR)].

  Lemma bubbles_class p o1 o2 r : physical r -> classes (bubbles zero p o1 o2) r = product A P zero add prod cross mirror true p r o1 o2.
  Proof. unfold physical. destruct r; try congruence; intros _; reflexivity. Qed.
  Lemma plus_reducible x y r : reducible (plus A zero add x y) r = add (reducible x r) (reducible y r).
  Proof. unfold Bse_Spec.reducible. destruct r; cbn; msum. Qed.
  Lemma plus_others x y r : others (plus A zero add x y) r = add (others x r) (others y r).
  Proof. destruct r; cbn [Bse_Spec.others]; rewrite ?plus_reducible, ?(cross_add _ _ _ _ _ _ _ _ HR); msum. Qed.

  Definition sum_l (o : operand A) (r : channel) : A := add (left_same A zero add mirror true o r) (left_diff A zero add cross mirror true o r).
  Definition sum_r (o : operand A) (r : channel) : A := add (right_same A zero add o r) (right_diff A zero add cross mirror true o r).
  Lemma bubbles_reducible p o1 o2 r : physical r -> reducible (bubbles zero p o1 o2) r = prod p r (sum_l o1 r) (sum_r o2 r).
  Proof. intro Hr. unfold Bse_Spec.reducible. rewrite bubbles_class by exact Hr. unfold product, four, sum_l, sum_r. cbv zeta. cbn [K1 K2 K2b K3]. expand. msum. Qed.
  Lemma sum_l_full v r : physical r -> sum_l (Full _ v) r = full v r.
  Proof.
    intro Hr. unfold sum_l. rewrite (full_left A zero add mirror true), (full_left_diff A P zero add sub half prod cross mirror true HR) by exact Hr.
    apply (parts_of_full A P zero add sub half prod cross HR).
  Qed.
  Lemma sum_r_full v r : physical r -> sum_r (Full _ v) r = full v r.
  Proof.
    intro Hr. unfold sum_r. rewrite (full_right A zero add mirror true), (full_right_diff A P zero add sub half prod cross mirror true HR) by exact Hr.
    apply (parts_of_full' A P zero add sub half prod cross HR).
  Qed.
  Lemma sum_l_irr v b r : sum_l (Irreducible _ v b) r = irreducible v r.
  Proof. unfold sum_l. cbn [left_same left_diff]. rewrite (gammaRb_seen A P zero add sub half prod cross mirror true HR). reflexivity. Qed.
  Lemma sum_r_irr v b r : sum_r (Irreducible _ v b) r = irreducible v r.
  Proof. unfold sum_r. cbn [right_same right_diff]. rewrite (gammaRb_seen A P zero add sub half prod cross mirror true HR). reflexivity. Qed.
  Lemma sum_l_diff h1 h2 b r : irr _ h1 = zero -> sum_l (DiffRight _ h1 h2 b) r = reducible h1 r.
  Proof. intro H. unfold sum_l, Bse_Spec.reducible. cbn [left_same left_diff]. unfold read_K2b. rewrite H, get_classes. cbv zeta. msum. Qed.
  Lemma sum_r_diff h1 h2 b r : irr _ h1 = zero -> sum_r (DiffLeft _ h1 h2 b) r = reducible h1 r.
  Proof. intro H. unfold sum_r, Bse_Spec.reducible. cbn [right_same right_diff]. unfold read_K2b. rewrite H, get_classes. cbv zeta. msum. Qed.

  (** both ways to insert a central part agree class by class *)
  Definition inserted (x : A) (r : channel) : rvert A :=
    let F1 := left_same A zero add mirror true (Full _ Psi) r in let F2 := left_diff A zero add cross mirror true (Full _ Psi) r in
    let E1 := right_same A zero add (Full _ Psi) r in let E2 := right_diff A zero add cross mirror true (Full _ Psi) r in
    four A (prod pi r F1 (prod pi r x E1)) (prod pi r F2 (prod pi r x E1)) (prod pi r F1 (prod pi r x E2)) (prod pi r F2 (prod pi r x E2)).
  Lemma insert_right h2 o r : physical r -> classes (bubbles zero pi (Full _ Psi) (DiffLeft _ (bubbles zero pi o (Full _ Psi)) h2 Psi)) r = inserted (sum_l o r) r.
  Proof.
    intro Hr. rewrite bubbles_class by exact Hr. unfold product, inserted, sum_l.
    assert (E1 : right_same A zero add (DiffLeft _ (bubbles zero pi o (Full _ Psi)) h2 Psi) r = prod pi r (sum_l o r) (right_same A zero add (Full _ Psi) r)).
    { set (X := right_same A zero add (Full _ Psi) r). cbn [right_same]. subst X. rewrite get_classes, bubbles_class by exact Hr. cbn [Mlp_Spec.bubbles irr tabulate]. unfold product, four, sum_l. cbn [K1 K2 K2b K3]. expand. msum. }
    assert (E2 : right_diff A zero add cross mirror true (DiffLeft _ (bubbles zero pi o (Full _ Psi)) h2 Psi) r = prod pi r (sum_l o r) (right_diff A zero add cross mirror true (Full _ Psi) r)).
    { set (X := right_diff A zero add cross mirror true (Full _ Psi) r). cbn [right_diff]. unfold read_K2b. subst X. rewrite get_classes, bubbles_class by exact Hr. cbn [Mlp_Spec.bubbles irr tabulate]. unfold product, four, sum_l. cbn [K1 K2 K2b K3]. expand. msum. }
    rewrite E1, E2. reflexivity.
  Qed.
  Lemma insert_left h2 o r : physical r -> classes (bubbles zero pi (DiffRight _ (bubbles zero pi (Full _ Psi) o) h2 Psi) (Full _ Psi)) r = inserted (sum_r o r) r.
  Proof.
    intro Hr. rewrite bubbles_class by exact Hr. unfold product, inserted, sum_r.
    assert (E1 : left_same A zero add mirror true (DiffRight _ (bubbles zero pi (Full _ Psi) o) h2 Psi) r = prod pi r (left_same A zero add mirror true (Full _ Psi) r) (sum_r o r)).
    { set (X := left_same A zero add mirror true (Full _ Psi) r). cbn [left_same]. unfold read_K2b. subst X. rewrite get_classes, bubbles_class by exact Hr. cbn [Mlp_Spec.bubbles irr tabulate]. unfold product, four, sum_r. cbn [K1 K2 K2b K3]. expand. msum. }
    assert (E2 : left_diff A zero add cross mirror true (DiffRight _ (bubbles zero pi (Full _ Psi) o) h2 Psi) r = prod pi r (left_diff A zero add cross mirror true (Full _ Psi) r) (sum_r o r)).
    { set (X := left_diff A zero add cross mirror true (Full _ Psi) r). cbn [left_diff]. subst X. rewrite get_classes, bubbles_class by exact Hr. cbn [Mlp_Spec.bubbles irr tabulate]. unfold product, four, sum_r. cbn [K1 K2 K2b K3]. expand. msum. }
    rewrite E1, E2. unfold four. f_equal; apply (prod_assoc _ _ _ _ _ _ _ _ HR).
  Qed.
  Lemma inserted_sum x r : physical r -> (let y := inserted x r in add (add (K1 _ y) (K2 _ y)) (add (K2b _ y) (K3 _ y))) = prod pi r (full Psi r) (prod pi r x (full Psi r)).
  Proof.
    intro Hr. pose proof (sum_l_full Psi r Hr) as E1. pose proof (sum_r_full Psi r Hr) as E2. unfold sum_l, sum_r in E1, E2. rewrite <- E1 at 1. rewrite <- E2.
    unfold inserted, four. cbv zeta. cbn [K1 K2 K2b K3]. expand. msum.
  Qed.
  Lemma central_reducible h h' o r : physical r -> sum_l o r = sum_r o r ->
    reducible (central A zero add half true (bubbles zero pi (Full _ Psi) (DiffLeft _ (bubbles zero pi o (Full _ Psi)) h Psi))
                                            (bubbles zero pi (DiffRight _ (bubbles zero pi (Full _ Psi) o) h' Psi) (Full _ Psi))) r
    = prod pi r (full Psi r) (prod pi r (sum_l o r) (full Psi r)).
  Proof.
    intros Hr Ho. set (cr := bubbles zero pi (Full _ Psi) _). set (cl := bubbles zero pi (DiffRight _ _ _ _) _).
    pose proof (insert_right h o r Hr : classes cr r = _) as E1. pose proof (insert_left h' o r Hr : classes cl r = _) as E2. rewrite <- Ho in E2.
    rewrite <- (inserted_sum (sum_l o r) r Hr). unfold Bse_Spec.reducible. cbv zeta.
    assert (E : classes (central A zero add half true cr cl) r =
      four A (half (add (K1 _ (classes cr r)) (K1 _ (classes cl r)))) (K2 _ (classes cr r)) (K2b _ (classes cl r)) (half (add (K3 _ (classes cr r)) (K3 _ (classes cl r))))).
    { unfold physical in Hr. destruct r; try congruence; reflexivity. }
    rewrite E, E1, E2. unfold four. cbn [K1 K2 K2b K3]. rewrite !(half_twice _ _ _ _ _ _ _ _ HR). reflexivity.
  Qed.

  (** *** the orders *)
  Definition d (n : nat) (r : channel) : A := others (o_total _ (level n)) r.
  Lemma level_irr n : irr _ (o_total _ (level n)) = zero.
  Proof.
    assert (Z0 : add zero zero = zero) by apply unit. assert (Zh : half zero = zero) by (rewrite <- Z0 at 1; apply (half_twice _ _ _ _ _ _ _ _ HR)).
    destruct n as [|[|n]]; cbn; rewrite ?Z0, ?Zh, ?Z0; reflexivity.
  Qed.
  Lemma irreducible_level n r : irreducible (o_total _ (level n)) r = d n r.
  Proof. unfold Bse_Spec.irreducible, d. rewrite level_irr. rewrite comm. apply unit. Qed.
  Lemma level_left n : o_left _ (level (S n)) = bubbles zero pi (Irreducible _ (o_total _ (level n)) Psi) (Full _ Psi).
  Proof. destruct n; reflexivity. Qed.
  Lemma level_right n : o_right _ (level (S n)) = bubbles zero pi (Full _ Psi) (Irreducible _ (o_total _ (level n)) Psi).
  Proof. destruct n; reflexivity. Qed.
  Lemma red0 r : physical r -> reducible (o_total _ (level 0)) r = prod dpi r (full Psi r) (full Psi r).
  Proof. intro Hr. cbn [Mlp_Spec.level o_total]. rewrite bubbles_reducible, sum_l_full, sum_r_full by exact Hr. reflexivity. Qed.
  Lemma red_left n r : physical r -> reducible (o_left _ (level (S n))) r = prod pi r (d n r) (full Psi r).
  Proof. intro Hr. rewrite level_left, bubbles_reducible, sum_l_irr, sum_r_full, irreducible_level by exact Hr. reflexivity. Qed.
  Lemma red_right n r : physical r -> reducible (o_right _ (level (S n))) r = prod pi r (full Psi r) (d n r).
  Proof. intro Hr. rewrite level_right, bubbles_reducible, sum_r_irr, sum_l_full, irreducible_level by exact Hr. reflexivity. Qed.
  Lemma red1 r : physical r -> reducible (o_total _ (level 1)) r = add (prod pi r (d 0 r) (full Psi r)) (prod pi r (full Psi r) (d 0 r)).
  Proof.
    intro Hr. rewrite <- (red_left 0 r Hr), <- (red_right 0 r Hr), <- plus_reducible. reflexivity.
  Qed.
  Lemma red2 n r : physical r -> reducible (o_total _ (level (S (S n)))) r =
    add (add (prod pi r (d (S n) r) (full Psi r)) (prod pi r (full Psi r) (prod pi r (d n r) (full Psi r)))) (prod pi r (full Psi r) (d (S n) r)).
  Proof.
    intro Hr. rewrite <- (red_left (S n) r Hr), <- (red_right (S n) r Hr).
    assert (E : o_total _ (level (S (S n))) = plus A zero add (plus A zero add (o_left _ (level (S (S n)))) (o_central _ (level (S (S n))))) (o_right _ (level (S (S n))))) by reflexivity.
    rewrite E, !plus_reducible. f_equal. f_equal.
    assert (Ec : o_central _ (level (S (S n))) = central A zero add half true (bubbles zero pi (Full _ Psi) (DiffLeft _ (o_left _ (level (S n))) (o_right _ (level (S n))) Psi))
       (bubbles zero pi (DiffRight _ (o_right _ (level (S n))) (o_left _ (level (S n))) Psi) (Full _ Psi))) by reflexivity.
    rewrite Ec. rewrite !(level_left n), !(level_right n). rewrite central_reducible; [|exact Hr|rewrite sum_l_irr, sum_r_irr; reflexivity].
    rewrite sum_l_irr, irreducible_level. reflexivity.
  Qed.

  (** *** the sum, and what the orders left out would add *)
  Definition before (n : nat) (r : channel) : A := match n with O => zero | S n => d n r end.
  Definition missing (n : nat) (r : channel) : A :=
    let F := full Psi r in add (add (prod pi r (d n r) F) (prod pi r F (d n r))) (prod pi r F (prod pi r (add (before n r) (d n r)) F)).
  Lemma others_to n r : others (vertex_to (S n)) r = add (others (vertex_to n) r) (d (S n) r).
  Proof. cbn [Mlp_Spec.vertex_to]. rewrite plus_others. reflexivity. Qed.
  Lemma sum_to n r : physical r -> let F := full Psi r in let D := others (vertex_to n) r in
    add (reducible (vertex_to n) r) (missing n r) =
    add (add (prod dpi r F F) (add (prod pi r D F) (prod pi r F D))) (prod pi r F (prod pi r D F)).
  Proof.
    intro Hr. cbv zeta. induction n as [|n IH].
    - cbn [Mlp_Spec.vertex_to]. rewrite red0 by exact Hr. unfold missing, before. fold (d 0 r). cbv zeta. expand. msum.
    - rewrite others_to. cbn [Mlp_Spec.vertex_to]. rewrite plus_reducible.
      transitivity (add (add (reducible (vertex_to n) r) (missing n r))
        (add (add (prod pi r (d (S n) r) (full Psi r)) (prod pi r (full Psi r) (d (S n) r))) (prod pi r (full Psi r) (prod pi r (d (S n) r) (full Psi r))))).
      + unfold missing, before. cbv zeta. destruct n as [|n]; [rewrite red1 by exact Hr | rewrite red2 by exact Hr]; expand; msum.
      + rewrite IH. expand. msum.
  Qed.
  Lemma derivative n r : bethe_salpeter A P zero add prod cross pi Psi -> physical r ->
    let di := others (vertex_to n) r in let dg := add (reducible (vertex_to n) r) (missing n r) in
    derived_left A P zero add prod cross pi dpi Psi r di dg /\ derived_right A P zero add prod cross pi dpi Psi r di dg.
  Proof.
    intros HB Hr. cbv zeta. destruct (HB r Hr) as (HL & HRt). rewrite sum_to by exact Hr. cbv zeta. unfold derived_left, derived_right.
    set (D := others (vertex_to n) r). set (I := irreducible Psi r) in *.
    assert (EF : full Psi r = add I (reducible Psi r)) by reflexivity.
    set (F := full Psi r) in *. set (G := reducible Psi r) in *.
    split.
    - assert (E : forall x p, prod p r F x = add (prod p r I x) (prod pi r I (prod p r F x))).
      { intros x p. rewrite EF at 1. rewrite HL. expand. reflexivity. }
      rewrite (E F dpi) at 1. rewrite (E D pi) at 1. rewrite (E (prod pi r D F) pi) at 1. expand. msum.
    - assert (E : forall x p, prod p r x F = add (prod p r x I) (prod p r x (prod pi r F I))).
      { intros x p. rewrite EF at 1. rewrite HRt. expand. reflexivity. }
      rewrite (E F dpi) at 1. rewrite (E D pi) at 1 2. expand. msum.
  Qed.
End Multiloop.
