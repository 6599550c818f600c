(** Lemmas about bubbles and the multiloop right-hand side. *)
From Coq Require Import QArith Lqa.
From Verif Require Import Prelude Mlp_Model Mlp_Spec.
Open Scope list_scope.
Open Scope Z_scope.

Lemma Qle_bool_lt p q : negb (Qle_bool p q) = true <-> (q < p)%Q.
Proof.
  rewrite negb_true_iff. split; intro H.
  - apply Qnot_le_lt. intro K. apply Qle_bool_iff in K. congruence.
  - destruct (Qle_bool p q) eqn:E; [apply Qle_bool_iff in E; exfalso; exact (Qlt_not_le _ _ H E) | reflexivity].
Qed.
Lemma flt_iff x q : flt x q = true <-> below x q.
Proof. destruct x; cbn [flt below]; [apply Qle_bool_lt | split; [discriminate | tauto] | split; [discriminate | tauto]]. Qed.
Lemma fgt_iff x q : fgt x q = true <-> above x q.
Proof. destruct x; cbn [fgt above]; [apply Qle_bool_lt | tauto | split; [discriminate | tauto]]. Qed.
Lemma ratio_iff x y q : flt (fdiv x y) q = true <-> ratio_below x y q.
Proof.
  rewrite flt_iff. destruct x as [p | |], y as [t | |]; cbn [fdiv below ratio_below]; try tauto.
  destruct (Qeq_bool t 0) eqn:E.
  - apply Qeq_bool_iff in E. destruct (Qeq_bool p 0); cbn [below]; tauto.
  - cbn [below]. split; [intro H; split; [intro K; apply Qeq_bool_iff in K; congruence | exact H] | tauto].
Qed.

Lemma computed_iff max_class dbg tbc k : computed max_class dbg tbc k = true <-> asked tbc k /\ exists_class max_class dbg k.
Proof.
  destruct tbc as [[b1 b2] b3]. destruct k; cbn [computed asked exists_class fst snd]; rewrite ?andb_true_iff, ?Z.leb_le; tauto.
Qed.

Section Calls.
  Variables (A : Type) (zero : A) (P : Type).
  Variable bub : P -> channel -> kclass -> operand A -> operand A -> A.
  Variables (max_class : Z) (dbg : bool).

  Definition exec (v : vertex A) (c : call A P) : vertex A := bubble_function A P bub max_class dbg v (c_left _ _ c) (c_right _ _ c) (c_bubble _ _ c) (c_channel _ _ c) (c_classes _ _ c).
  Definition value (c : call A P) (k : kclass) : A := bub (c_bubble _ _ c) (c_channel _ _ c) k (c_left _ _ c) (c_right _ _ c).

  Lemma exec_part v c r k :
    r <> Cother ->
    part A zero (exec v c) r k =
    if computed max_class dbg (c_classes _ _ c) k then (match c_channel _ _ c, r with Ca, Ca | Cp, Cp | Ct, Ct => value c k | _, _ => part A zero v r k end)
    else part A zero v r k.
  Proof.
    intro Hr. unfold exec, value, bubble_function. destruct c as [l rr Pi ch tbc]. cbn [c_left c_right c_bubble c_channel c_classes].
    destruct ch, r; try congruence; destruct k; cbn [part va vp vt K1 K2 K2b K3 write_out];
      match goal with |- context [computed ?m ?d ?t ?k] => destruct (computed m d t k); reflexivity end.
  Qed.
  Lemma exec_touch v c r k : touches A max_class dbg c r k -> part A zero (exec v c) r k = value c k.
  Proof.
    intros (Hc & Hr & Ha & He). rewrite exec_part by exact Hr. rewrite (proj2 (computed_iff _ _ _ _) (conj Ha He)), Hc. destruct r; congruence.
  Qed.
  Lemma exec_keep v c r k : r <> Cother -> ~ touches A max_class dbg c r k -> part A zero (exec v c) r k = part A zero v r k.
  Proof.
    intros Hr Hn. rewrite exec_part by exact Hr. destruct (computed max_class dbg (c_classes _ _ c) k) eqn:E; [|reflexivity].
    apply computed_iff in E. destruct (c_channel _ _ c) eqn:Ec, r; try reflexivity; exfalso; apply Hn; repeat split; tauto || congruence.
  Qed.
  Lemma exec_irr v c : irr _ (exec v c) = irr _ v.
  Proof. unfold exec, bubble_function. destruct (c_channel _ _ c); reflexivity. Qed.
  Lemma execs_irr l : forall v, irr _ (fold_left exec l v) = irr _ v.
  Proof. induction l as [|c l IH]; intro v; [reflexivity|]. cbn [fold_left]. rewrite IH. apply exec_irr. Qed.
  Lemma execs_keep l r k : r <> Cother -> Forall (fun c => ~ touches A max_class dbg c r k) l -> forall v, part A zero (fold_left exec l v) r k = part A zero v r k.
  Proof.
    intros Hr H. induction H as [|c l Hc Hl IH]; intro v; [reflexivity|]. cbn [fold_left]. rewrite IH. apply exec_keep; assumption.
  Qed.
  (** the last call decides *)
  Lemma execs_last l c l' r k :
    touches A max_class dbg c r k -> Forall (fun c => ~ touches A max_class dbg c r k) l' -> forall v, part A zero (fold_left exec (l ++ c :: l') v) r k = value c k.
  Proof.
    intros Hc H v. rewrite fold_left_app. cbn [fold_left]. rewrite execs_keep; [apply exec_touch; exact Hc | destruct Hc as (_ & Hr & _); exact Hr | exact H].
  Qed.
End Calls.

Section Flow.
  Variables (A : Type) (zero : A) (add : A -> A -> A) (half : A -> A) (P : Type).
  Variable bub : P -> channel -> kclass -> operand A -> operand A -> A.
  Variables (max_class : Z) (dbg : bool).
  Variable add_zero : add zero zero = zero.
  Variable half_twice : forall x, half (add x x) = x.

  (** nothing in the components that do not exist *)
  Definition clean (v : vertex A) : Prop := irr _ v = zero /\ forall r k, r <> Cother -> ~ exists_class max_class dbg k -> part A zero v r k = zero.
  Lemma vertex_eq (x y : vertex A) : irr _ x = irr _ y -> (forall r k, r <> Cother -> part A zero x r k = part A zero y r k) -> x = y.
  Proof.
    intros Hi H. destruct x as [i [a1 a2 a3 a4] [b1 b2 b3 b4] [c1 c2 c3 c4]], y as [j [d1 d2 d3 d4] [e1 e2 e3 e4] [f1 f2 f3 f4]].
    cbn [irr] in Hi.
    pose proof (H Ca k1 ltac:(discriminate)) as Q1. pose proof (H Ca k2 ltac:(discriminate)) as Q2. pose proof (H Ca k2b ltac:(discriminate)) as Q3. pose proof (H Ca k3 ltac:(discriminate)) as Q4.
    pose proof (H Cp k1 ltac:(discriminate)) as Q5. pose proof (H Cp k2 ltac:(discriminate)) as Q6. pose proof (H Cp k2b ltac:(discriminate)) as Q7. pose proof (H Cp k3 ltac:(discriminate)) as Q8.
    pose proof (H Ct k1 ltac:(discriminate)) as Q9. pose proof (H Ct k2 ltac:(discriminate)) as Q10. pose proof (H Ct k2b ltac:(discriminate)) as Q11. pose proof (H Ct k3 ltac:(discriminate)) as Q12.
    cbn [part va vp vt K1 K2 K2b K3] in *. clear half_twice add_zero H. subst. reflexivity.
  Qed.
  Lemma part_tabulate i f r k : r <> Cother -> part A zero (tabulate A i f) r k = f r k.
  Proof. intro H. destruct r; [| | |exfalso; apply H; reflexivity]; destruct k; reflexivity. Qed.
  Lemma class_dec k : {exists_class max_class dbg k} + {~ exists_class max_class dbg k}.
  Proof.
    destruct k; cbn [exists_class]; [left; exact I | apply Z_le_dec | | apply Z_le_dec].
    destruct (Z_le_dec 2 max_class); destruct dbg; [left; auto | right | right | right]; intros [? ?]; discriminate || contradiction.
  Qed.
  Lemma in_class_yes k x : exists_class max_class dbg k -> in_class A zero max_class dbg k x = x.
  Proof.
    destruct k; cbn [exists_class in_class]; intro H; try reflexivity.
    - destruct (Z_le_dec 2 max_class); [reflexivity | contradiction].
    - destruct H as [H H']. rewrite H'. destruct (Z_le_dec 2 max_class); [reflexivity | contradiction].
    - destruct (Z_le_dec 3 max_class); [reflexivity | contradiction].
  Qed.
  Lemma in_class_no k x : ~ exists_class max_class dbg k -> in_class A zero max_class dbg k x = zero.
  Proof.
    destruct k; cbn [exists_class in_class]; intro H; try tauto.
    - destruct (Z_le_dec 2 max_class); [contradiction | reflexivity].
    - destruct (Z_le_dec 2 max_class); [|reflexivity]. destruct dbg; [exfalso; apply H; auto | reflexivity].
    - destruct (Z_le_dec 3 max_class); [contradiction | reflexivity].
  Qed.
  Lemma clean_bubbles Pi l r : clean (bubbles A zero P bub max_class dbg zero Pi l r).
  Proof.
    split; [reflexivity|]. intros c k Hc Hk. unfold bubbles. rewrite part_tabulate by exact Hc. apply in_class_no. exact Hk.
  Qed.
  Lemma clean_zero : clean (vnull A zero).
  Proof. split; [reflexivity|]. intros c k Hc _. unfold vnull. apply part_tabulate. exact Hc. Qed.
  Lemma clean_plus x y : clean x -> clean y -> clean (plus A zero add x y).
  Proof.
    intros [Hx Kx] [Hy Ky]. split; [cbn; rewrite Hx, Hy; exact add_zero|].
    intros c k Hc Hk. unfold plus. rewrite part_tabulate by exact Hc. rewrite Kx, Ky by assumption. exact add_zero.
  Qed.
  Lemma all_channels_clean g Pi l r : clean g -> all_channels A P bub max_class dbg g l r Pi = bubbles A zero P bub max_class dbg zero Pi l r.
  Proof.
    intros [Hg Kg]. apply vertex_eq.
    - cbn. exact Hg.
    - intros c k Hc. unfold bubbles. rewrite part_tabulate by exact Hc. unfold all_channels. cbn [fold_left].
      destruct (class_dec k) as [Y | N].
      + rewrite in_class_yes by exact Y.
        assert (computed max_class dbg everything k = true) as E by (apply (proj2 (computed_iff max_class dbg everything k)); split; [destruct k; reflexivity | exact Y]).
        destruct c; [| | |exfalso; apply Hc; reflexivity]; destruct k; cbn [bubble_function part va vp vt write_out K1 K2 K2b K3]; rewrite E; reflexivity.
      + rewrite in_class_no by exact N. pose proof (Kg c k Hc N) as G.
        assert (computed max_class dbg everything k = false) as E by (apply not_true_iff_false; intro E; apply (proj1 (computed_iff max_class dbg everything k)) in E; destruct E as [_ E]; exact (N E)).
        destruct c; [| | |exfalso; apply Hc; reflexivity]; destruct k; cbn [bubble_function part va vp vt write_out K1 K2 K2b K3] in G |- *; rewrite E; exact G.
  Qed.
  Lemma vzero_null : vzero A zero = vnull A zero.
  Proof. reflexivity. Qed.
  Lemma vadd_plus x y : vadd A add x y = plus A zero add x y.
  Proof. reflexivity. Qed.
  Lemma symmetrise_central cr cl : symmetrise A add half dbg cr cl = central A zero add half dbg cr cl.
  Proof.
    apply vertex_eq; [unfold symmetrise, central; destruct dbg; reflexivity|]. intros c k Hc. unfold central. rewrite part_tabulate by exact Hc.
    unfold symmetrise. destruct dbg; (destruct c; [| | |exfalso; apply Hc; reflexivity]); destruct k; cbn [vhalf rhalf vadd radd set_K2 set_K2b part va vp vt K1 K2 K2b K3]; rewrite ?half_twice; reflexivity.
  Qed.
  Lemma half_zero : half zero = zero.
  Proof. rewrite <- add_zero at 1. apply half_twice. Qed.
  Lemma clean_central x y : clean x -> clean y -> clean (central A zero add half dbg x y).
  Proof.
    intros [Hx Kx] [Hy Ky]. split; [cbn; rewrite Hx, Hy; apply half_twice|].
    intros c k Hc Hk. unfold central. rewrite part_tabulate by exact Hc. rewrite Kx, Ky by assumption. rewrite half_twice. destruct k; try reflexivity. destruct dbg; reflexivity.
  Qed.

  Variables (Psi : vertex A) (pi : P) (reorder : vertex A -> vertex A -> vertex A * vertex A).
  Variables (vnorm : vertex A -> fl) (tol_abs tol_rel : Q).
  Notation level := (level A zero add half P bub max_class dbg Psi pi reorder).
  Notation vertex_to := (vertex_to A zero add half P bub max_class dbg Psi pi reorder).
  Notation central_to := (central_to A zero add half P bub max_class dbg Psi pi reorder).
  Notation contribution := (contribution A zero add half P bub max_class dbg Psi pi reorder).
  Notation vertex_up_to := (vertex_up_to A zero add half P bub max_class dbg Psi pi reorder).
  Notation negligible := (negligible A vnorm tol_abs tol_rel).
  Lemma small_iff T total : small A vnorm tol_abs tol_rel T total = true <-> negligible T total.
  Proof. unfold small, Mlp_Spec.negligible. rewrite orb_true_iff, flt_iff, ratio_iff. reflexivity. Qed.
  Lemma dGammaL_eq d : dGammaL A zero P bub max_class dbg Psi pi d = bubbles A zero P bub max_class dbg zero pi d (Full _ Psi).
  Proof. apply all_channels_clean. rewrite vzero_null. apply clean_zero. Qed.
  Lemma dGammaR_eq d : dGammaR A zero P bub max_class dbg Psi pi d = bubbles A zero P bub max_class dbg zero pi (Full _ Psi) d.
  Proof. apply all_channels_clean. rewrite vzero_null. apply clean_zero. Qed.
  Lemma dGammaC_right_eq d : dGammaC_right A zero P bub max_class dbg Psi pi d = bubbles A zero P bub max_class dbg zero pi (Full _ Psi) d.
  Proof. apply all_channels_clean. rewrite vzero_null. apply clean_zero. Qed.
  Lemma dGammaC_left_eq d : dGammaC_left A zero P bub max_class dbg Psi pi d = bubbles A zero P bub max_class dbg zero pi d (Full _ Psi).
  Proof. apply all_channels_clean. rewrite vzero_null. apply clean_zero. Qed.
  Lemma clean_level dPi n : clean (o_total _ (level dPi n)).
  Proof.
    destruct n as [|n]; [apply clean_bubbles|]. cbn [Mlp_Spec.level].
    destruct (if dbg then _ else _) as [L R]. destruct n; cbn [o_total]; repeat apply clean_plus; try apply clean_central; apply clean_bubbles.
  Qed.
  Lemma clean_vertex_to dPi n : clean (vertex_to dPi n).
  Proof. induction n as [|n IH]; cbn [Mlp_Spec.vertex_to]; [apply clean_level | apply clean_plus; [exact IH | apply clean_level]]. Qed.

  (** the loop over the orders, from the state that belongs to order j + 2 *)
  Lemma orders_spec dPi n : forall j,
    let o := level dPi (S j) in
    let '(total, c, m) := orders A zero add half P bub max_class dbg Psi pi vnorm reorder tol_abs tol_rel n (Z.of_nat j + 3) (o_left _ o) (o_right _ o) (o_total _ o) (central_to dPi (S j)) (vertex_to dPi (S j)) in
    exists i, (S j <= i <= S j + n)%nat /\ m = Z.of_nat i + 1 /\ total = vertex_to dPi i /\ c = central_to dPi i
      /\ (i = S j + n \/ (S j < i)%nat /\ negligible (o_total _ (level dPi i)) (vertex_to dPi i))%nat
      /\ (forall l, (S j < l < i)%nat -> ~ negligible (o_total _ (level dPi l)) (vertex_to dPi l)).
  Proof.
    induction n as [|n IH]; intro j; cbn zeta.
    - cbn [orders]. exists (S j). repeat split; try lia; left; lia.
    - cbn [orders].
      assert (level dPi (S (S j)) =
        let o := level dPi (S j) in
        let L := dGammaL A zero P bub max_class dbg Psi pi (Irreducible _ (o_total _ o) Psi) in
        let R := dGammaR A zero P bub max_class dbg Psi pi (Irreducible _ (o_total _ o) Psi) in
        let C := symmetrise A add half dbg (dGammaC_right A zero P bub max_class dbg Psi pi (DiffLeft _ (o_left _ o) (o_right _ o) Psi)) (dGammaC_left A zero P bub max_class dbg Psi pi (DiffRight _ (o_right _ o) (o_left _ o) Psi)) in
        {| o_left := fst (reordered A dbg reorder L R); o_right := snd (reordered A dbg reorder L R); o_central := C; o_total := vadd A add (vadd A add L C) R |}) as E.
      { cbn zeta. rewrite dGammaL_eq, dGammaR_eq, dGammaC_right_eq, dGammaC_left_eq, symmetrise_central, !vadd_plus. unfold reordered.
        change (level dPi (S (S j))) with (let o := level dPi (S j) in
          let L := bubbles A zero P bub max_class dbg zero pi (Irreducible _ (o_total _ o) Psi) (Full _ Psi) in
          let R := bubbles A zero P bub max_class dbg zero pi (Full _ Psi) (Irreducible _ (o_total _ o) Psi) in
          let '(L', R') := if dbg then (L, R) else reorder L R in
          let C := central A zero add half dbg (bubbles A zero P bub max_class dbg zero pi (Full _ Psi) (DiffLeft _ (o_left _ o) (o_right _ o) Psi)) (bubbles A zero P bub max_class dbg zero pi (DiffRight _ (o_right _ o) (o_left _ o) Psi) (Full _ Psi)) in
          {| o_left := L'; o_right := R'; o_central := C; o_total := plus A zero add (plus A zero add L C) R |}).
        cbn zeta. destruct (if dbg then _ else _) as [L' R']. reflexivity. }
      set (o := level dPi (S j)) in *. cbn zeta in E.
      set (L := dGammaL A zero P bub max_class dbg Psi pi (Irreducible _ (o_total _ o) Psi)) in *.
      set (R := dGammaR A zero P bub max_class dbg Psi pi (Irreducible _ (o_total _ o) Psi)) in *.
      set (C := symmetrise A add half dbg _ _) in *.
      set (T := vadd A add (vadd A add L C) R) in *.
      assert (vadd A add (vertex_to dPi (S j)) T = vertex_to dPi (S (S j))) as EV.
      { rewrite vadd_plus. change (vertex_to dPi (S (S j))) with (plus A zero add (vertex_to dPi (S j)) (o_total _ (level dPi (S (S j))))). rewrite E. reflexivity. }
      assert (vadd A add (central_to dPi (S j)) C = central_to dPi (S (S j))) as EC.
      { rewrite vadd_plus. change (central_to dPi (S (S j))) with (plus A zero add (central_to dPi (S j)) (o_central _ (level dPi (S (S j))))). rewrite E. reflexivity. }
      rewrite EV, EC. destruct (reordered A dbg reorder L R) as [L' R'] eqn:ER. cbn [fst snd] in E.
      assert (o_total _ (level dPi (S (S j))) = T) as ET by (rewrite E; reflexivity).
      destruct (small A vnorm tol_abs tol_rel T (vertex_to dPi (S (S j)))) eqn:Es.
      + exists (S (S j)). repeat split; try lia. right. split; [lia|]. rewrite ET. apply small_iff. exact Es.
      + specialize (IH (S j)). cbn zeta in IH. rewrite E in IH. cbn [o_left o_right o_total] in IH.
        replace (Z.of_nat (S j) + 3) with (Z.of_nat j + 3 + 1) in IH by lia.
        destruct (orders A zero add half P bub max_class dbg Psi pi vnorm reorder tol_abs tol_rel n (Z.of_nat j + 3 + 1) L' R' T (central_to dPi (S (S j))) (vertex_to dPi (S (S j)))) as [[total c] m].
        destruct IH as (i & Hi & Hm & Ht & Hc & Hs & Hn). exists i. repeat split; try assumption; try lia.
        * destruct Hs as [Hs | [Hs Hs']]; [left; lia | right; split; [lia | exact Hs']].
        * intros l Hl. destruct (Nat.eq_dec l (S (S j))) as [-> | Hne]; [|apply Hn; lia].
          rewrite ET. intro K. apply small_iff in K. rewrite Es in K. discriminate.
  Qed.

  Variables (B : Type) (dpi : B -> P) (nloops : Z).
  Hypothesis nloops_pos : 1 <= nloops.
  Notation last_order := (last_order A zero add half P bub max_class dbg Psi pi reorder vnorm tol_abs tol_rel nloops).
  Lemma vertex_flow_spec target s : clean target ->
    let '(total, c, m) := vertex_flow A zero add half P bub max_class dbg B Psi pi dpi vnorm reorder tol_abs tol_rel nloops target s in
    last_order (dpi s) m /\ total = vertex_up_to (dpi s) m /\ c = central_up_to A zero add half P bub max_class dbg Psi pi reorder (dpi s) m.
  Proof.
    intro Hc. unfold vertex_flow. unfold vertexOneLoopFlow. rewrite (all_channels_clean target _ _ _ Hc).
    destruct (nloops <? 2) eqn:E2.
    - apply Z.ltb_lt in E2. split; [|split; reflexivity]. split; [lia|]. split; [left; lia | intros; lia].
    - apply Z.ltb_ge in E2.
      pose proof (orders_spec (dpi s) (Z.to_nat (nloops - 2)) 0) as O. cbn zeta in O.
      change (level (dpi s) 1) with (
          let o := level (dpi s) 0 in
          let L := bubbles A zero P bub max_class dbg zero pi (Irreducible _ (o_total _ o) Psi) (Full _ Psi) in
          let R := bubbles A zero P bub max_class dbg zero pi (Full _ Psi) (Irreducible _ (o_total _ o) Psi) in
          let '(L', R') := if dbg then (L, R) else reorder L R in
          {| o_left := L'; o_right := R'; o_central := vnull A zero; o_total := plus A zero add L R |}) in O.
      rewrite dGammaL_eq, dGammaR_eq. unfold reordered. rewrite !vadd_plus.
      change (vertex_to (dpi s) 1) with (plus A zero add (vertex_to (dpi s) 0) (o_total _ (level (dpi s) 1))) in O.
      change (level (dpi s) 1) with (
          let o := level (dpi s) 0 in
          let L := bubbles A zero P bub max_class dbg zero pi (Irreducible _ (o_total _ o) Psi) (Full _ Psi) in
          let R := bubbles A zero P bub max_class dbg zero pi (Full _ Psi) (Irreducible _ (o_total _ o) Psi) in
          let '(L', R') := if dbg then (L, R) else reorder L R in
          {| o_left := L'; o_right := R'; o_central := vnull A zero; o_total := plus A zero add L R |}) in O.
      cbn zeta in O. cbn [Mlp_Spec.level o_total Mlp_Spec.vertex_to Mlp_Spec.central_to] in O. cbn zeta. rewrite vzero_null.
      change (Z.of_nat 0 + 3) with 3 in O.
      destruct (if dbg then _ else _) as [L R] eqn:ER. cbn [o_left o_right o_total] in O.
      destruct (orders A zero add half P bub max_class dbg Psi pi vnorm reorder tol_abs tol_rel (Z.to_nat (nloops - 2)) 3 L R _ _ _) as [[total c] m].
      destruct O as (i & Hi & Hm & Ht & Hcc & Hs & Hn). subst m.
      assert (Z.to_nat (Z.of_nat i + 1 - 1) = i) as Ei by lia.
      split; [|split; [unfold Mlp_Spec.vertex_up_to; rewrite Ei; exact Ht | unfold central_up_to; rewrite Ei; exact Hcc]].
      split; [lia|]. split.
      + destruct Hs as [Hs | [Hs Hs']]; [left; lia | right; split; [lia|]]. unfold Mlp_Spec.contribution, Mlp_Spec.vertex_up_to. rewrite Ei. exact Hs'.
      + intros l Hl. unfold Mlp_Spec.contribution, Mlp_Spec.vertex_up_to. apply Hn. lia.
  Qed.

  Variables (badd bsub : B -> B -> B) (se1 : B) (corr : operand A -> B) (mix : list ((vertex A * B) * (vertex A * B)) -> B).
  Variables (bnorm : B -> fl) (brel : B -> B -> fl) (se_abs se_rel : Q) (nmax : Z).
  Notation flow_of := (flow_of A zero add half P bub max_class dbg Psi pi reorder vnorm tol_abs tol_rel nloops B dpi).
  Notation reached := (reached A B badd bsub se1 corr mix bnorm brel se_abs se_rel flow_of).
  Notation next := (next A B badd se1 corr).
  Notation final := (final A zero add half P bub max_class dbg Psi pi reorder vnorm tol_abs tol_rel nloops B dpi badd bsub se1 corr mix bnorm brel se_abs se_rel nmax).
  Lemma iterate_spec fuel : forall n target s h,
    (Z.to_nat (nmax - n) < fuel)%nat -> clean target -> reached n s h -> (n = 0 \/ n < nmax /\ 3 <= nloops) ->
    exists a, iterate A zero add half P bub max_class dbg B badd bsub Psi pi dpi se1 corr mix vnorm bnorm brel reorder tol_abs tol_rel se_abs se_rel nmax nloops fuel n target s h = Some a /\ final a.
  Proof.
    induction fuel as [|fuel IH]; intros n target s h Hf Hc Hr Hn; [lia|]. cbn [iterate].
    pose proof (vertex_flow_spec target s Hc) as V.
    destruct (vertex_flow A zero add half P bub max_class dbg B Psi pi dpi vnorm reorder tol_abs tol_rel nloops target s) as [[total c] m].
    destruct V as (Hl & Ht & Hcc).
    assert (flow_of s m total (Irreducible _ c Psi)) as F by (subst; repeat split; apply Hl).
    destruct (nloops <? 3) eqn:E3.
    - apply Z.ltb_lt in E3. destruct Hn as [-> | Hn]; [|lia]. eexists. split; [reflexivity|].
      exists 0, s, h, m, total, (Irreducible _ c Psi). cbn [a_vertex a_se a_iterations a_last]. split; [exact Hr|]. split; [exact F|]. split; [reflexivity|]. split; [reflexivity|]. split; [auto | intro; lia].
    - apply Z.ltb_ge in E3. cbn zeta.
      change (h ++ [((total, badd se1 (corr (Irreducible _ c Psi))), (total, s))]) with (next h s total (Irreducible _ c Psi)).
      destruct ((n + 1 <? nmax) && fgt (bnorm (bsub (mix (next h s total (Irreducible _ c Psi))) s)) se_abs && fgt (brel (bsub (mix (next h s total (Irreducible _ c Psi))) s) (mix (next h s total (Irreducible _ c Psi)))) se_rel) eqn:E.
      + apply andb_true_iff in E as [E E'']. apply andb_true_iff in E as [E E']. apply Z.ltb_lt in E. apply fgt_iff in E', E''.
        apply IH; [lia | subst total; apply clean_vertex_to | | right; lia].
        apply (reached_next _ _ _ _ _ _ _ _ _ _ _ _ n s h m total (Irreducible _ c Psi)); assumption.
      + eexists. split; [reflexivity|]. exists n, s, h, m, total, (Irreducible _ c Psi). cbn [a_vertex a_se a_iterations a_last].
        split; [exact Hr|]. split; [exact F|]. split; [reflexivity|]. split; [reflexivity|]. split; [intro; lia|]. intros _.
        split; [reflexivity|]. split; [tauto|]. split; [reflexivity|].
        apply andb_false_iff in E as [E | E]; [apply andb_false_iff in E as [E | E]|].
        * left. apply Z.ltb_ge in E. lia.
        * right. left. intro K. apply fgt_iff in K. rewrite E in K. discriminate.
        * right. right. intro K. apply fgt_iff in K. rewrite E in K. discriminate.
  Qed.
  Lemma rhs_spec :
    exists a, rhs_n_loop_flow A zero add half P bub max_class dbg B badd bsub Psi pi dpi se1 corr mix vnorm bnorm brel reorder tol_abs tol_rel se_abs se_rel nmax nloops = Some a /\ final a.
  Proof.
    unfold rhs_n_loop_flow. replace (nloops <? 1) with false by (symmetry; apply Z.ltb_ge; lia).
    apply iterate_spec; [lia | rewrite vzero_null; apply clean_zero | apply reached_start | left; reflexivity].
  Qed.
End Flow.
