(** The parquet iteration of the vertex (C115), post-processed susceptibilities (C116) and the multiloop flow as derivative of the Bethe-Salpeter equations (C117). *)
From Coq Require Import QArith Qcanon.
From Verif Require Import Prelude Mlp_Model Mlp_Spec Mlp_Props Bse_Model Bse_Spec Bse_Proofs Bse_Proofs2.
Open Scope list_scope.
Open Scope Z_scope.

Section Claims.
  Variables (A P : Type).
  Variables (zero : A) (add sub : A -> A -> A) (half : A -> A).
  Variables (prod : P -> channel -> A -> A -> A) (cross : channel -> channel -> A -> A) (mirror : channel -> A -> A) (lift : Q -> A).
  Notation Rules := (rules A P zero add sub half prod cross).
  Notation Mirrored := (mirrored A P zero add half prod mirror).
  Notation reducible := (reducible A zero add).
  Notation irreducible := (irreducible A zero add cross).
  Notation full := (full A zero add cross).
  Notation others := (others A zero add cross).
  Notation solution := (solution A P zero add prod cross).
  Notation symmetric := (symmetric A zero add cross mirror).
  Notation completed := (completed A mirror).
  Notation compute_BSE := (compute_BSE A P zero add half prod cross mirror).
  Notation parquet_iteration_vertex := (parquet_iteration_vertex A P zero add half prod cross mirror lift).
  Notation post := (susceptibilities_postprocessing A P zero add sub half prod cross mirror lift).

  (** *** C115 *)
  (** Whatever the input: the new vertex is in every channel the average of both Bethe-Salpeter equations, and has no bare part. *)
  Theorem C115_average : Rules -> forall v p r, physical r ->
    reducible (compute_BSE true v p) r = half (add (prod p r (irreducible v r) (full v r)) (prod p r (full v r) (irreducible v r))) /\ irr _ (compute_BSE true v p) = zero.
  Proof.
    intros HR v p r Hr. split; [|apply (bse_irr A P zero add sub half prod cross mirror true HR)].
    apply (bse_total A P zero add sub half prod cross HR). rewrite <- get_classes. apply (bse_by_class A P zero add sub half prod cross mirror true HR v p r Hr).
  Qed.
  (** If K2' is not in memory, the same for the vertices completed by symmetry. *)
  Theorem C115_average_reduced : Rules -> Mirrored -> forall v p r, physical r -> symmetric (completed v) ->
    let w := completed v in
    reducible (completed (compute_BSE false v p)) r = half (add (prod p r (irreducible w r) (full w r)) (prod p r (full w r) (irreducible w r))) /\ irr _ (compute_BSE false v p) = zero.
  Proof.
    intros HR HM v p r Hr Hs. split; [|apply (bse_irr A P zero add sub half prod cross mirror false HR)].
    apply (bse_total A P zero add sub half prod cross HR). apply (bse_completed A P zero add sub half prod cross mirror HR HM v p r Hs Hr).
  Qed.
  (** Solutions of the class-wise equations solve the Bethe-Salpeter equations, and the iteration keeps them. *)
  Theorem C115_solution : Rules -> forall p v, solution p v -> bethe_salpeter A P zero add prod cross p v.
  Proof. intros HR p v (HL & HRt) r Hr. split; [apply (left_solution_bs A P zero add sub half prod cross HR) | apply (right_solution_bs A P zero add sub half prod cross HR)]; assumption. Qed.
  Definition bare_value (keldysh contour : bool) (U : Q) : Q := if keldysh then (if contour then - U else - U / 2)%Q else (- U)%Q.
  Theorem C115_kept : Rules -> forall keldysh contour U v p, solution p v -> irr _ v = lift (bare_value keldysh contour U) ->
    parquet_iteration_vertex true keldysh contour U v p = v.
  Proof.
    intros HR keldysh contour U v p Hs H0. unfold Bse_Model.parquet_iteration_vertex.
    replace (if keldysh && negb contour then (- U / 2)%Q else (- U)%Q) with (bare_value keldysh contour U) by (destruct keldysh, contour; reflexivity).
    apply (fixed_debug A P zero add sub half prod cross mirror lift HR); assumption.
  Qed.
  Theorem C115_kept_reduced : Rules -> forall keldysh contour U v p, solution p (completed v) -> (forall r, K2b _ (classes A zero v r) = zero) ->
    irr _ v = lift (bare_value keldysh contour U) -> parquet_iteration_vertex false keldysh contour U v p = v.
  Proof.
    intros HR keldysh contour U v p Hs Hb H0. unfold Bse_Model.parquet_iteration_vertex.
    replace (if keldysh && negb contour then (- U / 2)%Q else (- U)%Q) with (bare_value keldysh contour U) by (destruct keldysh, contour; reflexivity).
    apply (fixed_reduced A P zero add sub half prod cross mirror lift HR); assumption.
  Qed.
  (** A vertex that is kept has the bare part of the model and solves the averaged equation. *)
  Theorem C115_converged : Rules -> forall keldysh contour U v p, parquet_iteration_vertex true keldysh contour U v p = v ->
    irr _ v = lift (bare_value keldysh contour U) /\
    forall r, physical r -> reducible v r = half (add (prod p r (irreducible v r) (full v r)) (prod p r (full v r) (irreducible v r))).
  Proof.
    intros HR keldysh contour U v p E. split.
    - rewrite <- E at 1. cbn [Bse_Model.parquet_iteration_vertex initialize irr]. destruct keldysh, contour; reflexivity.
    - intros r Hr. rewrite <- (proj1 (C115_average HR v p r Hr)). rewrite <- E at 1. destruct r; reflexivity.
  Qed.

  (** *** C116 *)
  (** The susceptibility of a channel: bare bubble plus the full vertex between two bare vertices - bare as assumed there; other classes are left alone. *)
  Theorem C116_value_partial : Rules -> Mirrored -> forall (dbg : bool) contour U v p chi diff r, physical r ->
    let w := if dbg then v else completed v in
    let b := lift (bare_value true contour U) in
    (dbg = false -> mirror r b = b /\ symmetric w) ->
    let x := add (prod p r b b) (prod p r b (prod p r (full w r) b)) in
    K1 _ (classes A zero (fst (post dbg contour U v p chi diff)) r) = x /\
    K1 _ (classes A zero (snd (post dbg contour U v p chi diff)) r) = sub (K1 _ (classes A zero v r)) x.
  Proof.
    intros HR HM dbg contour U v p chi diff r Hr w b Hd x.
    pose proof (post_K1 A P zero add sub half prod cross mirror lift dbg contour U v p chi diff r Hr) as (E1 & E2). cbv zeta in E1, E2.
    assert (Eb : lift (if negb contour then - U / 2 else - U)%Q = b) by (unfold b, bare_value; destruct contour; reflexivity).
    assert (Hd' : dbg = false -> mirror r (lift (if negb contour then - U / 2 else - U)%Q) = lift (if negb contour then - U / 2 else - U)%Q /\ symmetric (completed v)).
    { intro Hf. rewrite Eb. destruct (Hd Hf) as (Hq & Hs). split; [exact Hq|]. unfold w in Hs. rewrite Hf in Hs. exact Hs. }
    rewrite (susceptibility_value A P zero add sub half prod cross mirror lift HR HM dbg _ v p r Hr Hd'), Eb in E1, E2.
    rewrite !get_classes in E1, E2. split; [exact E1|exact E2].
  Qed.
  (** In the Keldysh formalism, and in the contour basis, solutions of the parquet equations pass the check. *)
  Theorem C116_solution_partial : Rules -> Mirrored -> forall (dbg : bool) keldysh contour U v p chi diff r, physical r -> keldysh || contour = true ->
    let w := if dbg then v else completed v in
    solution p w -> irr _ v = lift (bare_value keldysh contour U) -> (dbg = false -> symmetric w) ->
    K1 _ (classes A zero (fst (post dbg contour U v p chi diff)) r) = K1 _ (classes A zero v r) /\
    K1 _ (classes A zero (snd (post dbg contour U v p chi diff)) r) = zero.
  Proof.
    intros HR HM dbg keldysh contour U v p chi diff r Hr Hk w Hs H0 Hd.
    assert (Eb : bare_value true contour U = bare_value keldysh contour U) by (destruct keldysh, contour; try reflexivity; discriminate).
    assert (Ei : irr _ w = lift (bare_value true contour U)) by (rewrite Eb, <- H0; unfold w; destruct dbg; reflexivity).
    destruct (C116_value_partial HR HM dbg contour U v p chi diff r Hr) as (E1 & E2).
    { intro Hf. split; [|exact (Hd Hf)]. rewrite <- Ei. apply (Hd Hf r Hr). }
    fold w in E1, E2. rewrite <- Ei in E1, E2. rewrite <- (solution_K1 A P zero add sub half prod cross HR p w r Hs Hr) in E1, E2.
    assert (Ek : K1 _ (classes A zero w r) = K1 _ (classes A zero v r)) by (unfold w; destruct dbg; [reflexivity|]; destruct r; reflexivity).
    rewrite Ek in E1, E2. split; [exact E1|]. rewrite E2. apply (sub_self _ _ _ _ _ _ _ _ HR).
  Qed.
  (** Only K1 is written. *)
  Theorem C116_kept_partial : forall dbg contour U v p chi diff r,
    let c := fst (post dbg contour U v p chi diff) in let d := snd (post dbg contour U v p chi diff) in
    irr _ c = irr _ chi /\ irr _ d = irr _ diff /\
    K2 _ (classes A zero c r) = K2 _ (classes A zero chi r) /\ K2b _ (classes A zero c r) = K2b _ (classes A zero chi r) /\ K3 _ (classes A zero c r) = K3 _ (classes A zero chi r) /\
    K2 _ (classes A zero d r) = K2 _ (classes A zero diff r) /\ K2b _ (classes A zero d r) = K2b _ (classes A zero diff r) /\ K3 _ (classes A zero d r) = K3 _ (classes A zero diff r).
  Proof.
    intros dbg contour U v p chi diff r c d. destruct (post_kept A P zero add sub half prod cross mirror lift dbg contour U v p chi diff) as ((E1 & E2) & E).
    specialize (E r). rewrite !get_classes in E. fold c d in E1, E2, E. tauto.
  Qed.

  (** *** C117 *)
  Variables (Psi : vertex A) (pi : P) (reorder : vertex A -> vertex A -> vertex A * vertex A) (vnorm : vertex A -> fl) (tol_abs tol_rel : Q) (nloops : Z).
  Variables (B : Type) (dpi : B -> P) (badd bsub : B -> B -> B) (se1 : B) (corr : operand A -> B) (mix : list ((vertex A * B) * (vertex A * B)) -> B).
  Variables (bnorm : B -> fl) (brel : B -> B -> fl) (se_abs se_rel : Q) (nmax : Z).
  Notation bub := (bub A P zero add prod cross mirror true).
  Notation rhs := (rhs_n_loop_flow A zero add half P bub 3 true B badd bsub Psi pi dpi se1 corr mix vnorm bnorm brel reorder tol_abs tol_rel se_abs se_rel nmax nloops).
  Notation contribution := (contribution A zero add half P bub 3 true Psi pi reorder).
  (** irreducible part of the contribution of an order, zero before the first *)
  Definition fed_back (s : B) (m : Z) (r : channel) : A := if Z_lt_dec m 1 then zero else others (contribution (dpi s) m) r.
  (** what the two last orders would contribute to higher ones *)
  Definition left_out (s : B) (m : Z) (r : channel) : A :=
    let F := full Psi r in
    add (add (prod pi r (fed_back s m r) F) (prod pi r F (fed_back s m r))) (prod pi r F (prod pi r (add (fed_back s (m - 1) r) (fed_back s m r)) F)).
  (** At a solution of the Bethe-Salpeter equations the vertex flow, completed by what the two last orders would contribute, solves both derivatives of these equations. *)
  Theorem C117_derivative_partial : Rules -> bethe_salpeter A P zero add prod cross pi Psi -> 1 <= nloops -> exists a s, rhs = Some a /\
    forall r, physical r -> let di := others (a_vertex _ _ a) r in let dg := add (reducible (a_vertex _ _ a) r) (left_out s (a_last _ _ a) r) in
    derived_left A P zero add prod cross pi (dpi s) Psi r di dg /\ derived_right A P zero add prod cross pi (dpi s) Psi r di dg.
  Proof.
    intros HR HB Hn.
    destruct (C66_multiloop_partial A zero add half P bub 3 true Psi pi reorder vnorm tol_abs tol_rel nloops B dpi badd bsub se1 corr mix bnorm brel se_abs se_rel nmax
      (add_zero _ _ _ _ _ _ _ _ HR zero) (half_twice _ _ _ _ _ _ _ _ HR) Hn) as (a & Ea & (n & s & h & m & v & c & _ & ((Hm & _ & _) & Hv & _) & Ev & El & _)).
    exists a, s. split; [exact Ea|]. intros r Hr. cbv zeta. rewrite Ev, El, Hv. unfold vertex_up_to.
    replace (left_out s m r) with (missing A P zero add half prod cross mirror Psi pi (dpi s) reorder (Z.to_nat (m - 1)) r).
    - apply (derivative A P zero add sub half prod cross mirror HR); assumption.
    - unfold missing, left_out. cbv zeta. unfold fed_back at 1 2 4. destruct (Z_lt_dec m 1) as [L|_]; [lia|]. unfold Mlp_Spec.contribution at 1 2 3. unfold d.
      f_equal. f_equal. f_equal. f_equal. unfold fed_back, before. destruct (Z_lt_dec (m - 1) 1) as [L|G].
      + replace (Z.to_nat (m - 1)) with O by lia. reflexivity.
      + unfold Mlp_Spec.contribution. replace (Z.to_nat (m - 1)) with (S (Z.to_nat (m - 1 - 1))) by lia. reflexivity.
  Qed.
  (** In particular if the two last orders have no irreducible parts, nothing is left out. *)
  Theorem C117_exact_partial : Rules -> bethe_salpeter A P zero add prod cross pi Psi -> 2 <= nloops ->
    (forall s r, fed_back s (nloops - 1) r = zero /\ fed_back s nloops r = zero) -> (forall T total, ~ negligible A vnorm tol_abs tol_rel T total) ->
    exists a s, rhs = Some a /\ forall r, physical r ->
      derived_left A P zero add prod cross pi (dpi s) Psi r (others (a_vertex _ _ a) r) (reducible (a_vertex _ _ a) r) /\
      derived_right A P zero add prod cross pi (dpi s) Psi r (others (a_vertex _ _ a) r) (reducible (a_vertex _ _ a) r).
  Proof.
    intros HR HB Hn Hz Hs.
    destruct (C66_multiloop_partial A zero add half P bub 3 true Psi pi reorder vnorm tol_abs tol_rel nloops B dpi badd bsub se1 corr mix bnorm brel se_abs se_rel nmax
      (add_zero _ _ _ _ _ _ _ _ HR zero) (half_twice _ _ _ _ _ _ _ _ HR) ltac:(lia)) as (a & Ea & (n & s & h & m & v & c & _ & ((Hm & Hl & _) & Hv & _) & Ev & El & _)).
    assert (Em : m = nloops) by (destruct Hl as [E | (_ & Hneg)]; [exact E | destruct (Hs _ _ Hneg)]).
    exists a, s. split; [exact Ea|]. intros r Hr.
    pose proof (derivative A P zero add sub half prod cross mirror HR Psi pi (dpi s) reorder (Z.to_nat (nloops - 1)) r HB Hr) as H. cbv zeta in H.
    assert (E0 : missing A P zero add half prod cross mirror Psi pi (dpi s) reorder (Z.to_nat (nloops - 1)) r = zero).
    { destruct (Hz s r) as (E1 & E2). unfold fed_back in E1, E2. destruct (Z_lt_dec (nloops - 1) 1) as [L|_]; [lia|]. destruct (Z_lt_dec nloops 1) as [L|_]; [lia|].
      unfold Mlp_Spec.contribution in E1, E2. unfold missing, before, d. cbv zeta. rewrite E2. replace (Z.to_nat (nloops - 1)) with (S (Z.to_nat (nloops - 1 - 1))) by lia.
      rewrite E1. rewrite (add_zero _ _ _ _ _ _ _ _ HR), !(prod_zero_l _ _ _ _ _ _ _ _ HR), !(prod_zero_r _ _ _ _ _ _ _ _ HR), !(add_zero _ _ _ _ _ _ _ _ HR). reflexivity. }
    rewrite E0, (add_zero _ _ _ _ _ _ _ _ HR) in H. rewrite Ev, Hv, Em. exact H.
  Qed.
End Claims.

Print Assumptions C115_average.
Print Assumptions C115_average_reduced.
Print Assumptions C115_solution.
Print Assumptions C115_kept.
Print Assumptions C115_kept_reduced.
Print Assumptions C115_converged.
Print Assumptions C116_value_partial.
Print Assumptions C116_solution_partial.
Print Assumptions C116_kept_partial.
Print Assumptions C117_derivative_partial.
Print Assumptions C117_exact_partial.

(** *** an instance: expansions in the interaction up to fourth order *)
Open Scope Qc_scope.
Definition series : Type := Qc * Qc * Qc * Qc.
Definition s_make (a b c d : Qc) : series := (a, b, c, d).
Definition s_zero : series := (0, 0, 0, 0).
Definition s_map2 (f : Qc -> Qc -> Qc) (x y : series) : series := let '(a, b, c, d) := x in let '(a', b', c', d') := y in (f a a', f b b', f c c', f d d').
Definition s_scale (k : Qc) (x : series) : series := let '(a, b, c, d) := x in (k * a, k * b, k * c, k * d).
Definition s_add := s_map2 Qcplus.
Definition s_sub := s_map2 Qcminus.
Definition s_half := s_scale (Q2Qc (1 # 2)).
Definition s_prod (p : Qc) (r : channel) (x y : series) : series :=
  let '(a, b, c, d) := x in let '(a', b', c', d') := y in (0, p * (a * a'), p * (a * b' + b * a'), p * (a * c' + b * b' + c * a')).
Definition s_cross (r s : channel) (x : series) : series :=
  s_scale (match r, s with Ca, Cp => Q2Qc (- 1 # 3) | Ca, Ct => Q2Qc 2 | Cp, Ca => Q2Qc (1 # 2) | Cp, Ct => Q2Qc (- 1) | Ct, Ca => Q2Qc (3 # 2) | _, _ => Q2Qc (1 # 5) end) x.
Definition s_mirror (r : channel) (x : series) : series := x.
Definition s_lift (q : Q) : series := (Q2Qc q, 0, 0, 0).
Lemma s_rules : rules series Qc s_zero s_add s_sub s_half s_prod s_cross.
Proof.
  assert (H2 : Q2Qc (1 # 2) + Q2Qc (1 # 2) = 1) by (apply Qc_is_canon; reflexivity).
  split; intros; repeat match goal with x : series |- _ => destruct x as (((? & ?) & ?) & ?) end;
    unfold s_add, s_sub, s_half, s_prod, s_cross, s_zero, s_map2, s_scale; repeat apply (f_equal2 pair); try ring.
  all: match goal with |- _ * (?x + ?x) = ?x => transitivity ((Q2Qc (1 # 2) + Q2Qc (1 # 2)) * x); [ring | rewrite H2; ring] end.
Qed.
Lemma s_mirrored : mirrored series Qc s_zero s_add s_half s_prod s_mirror.
Proof.
  split; intros; repeat match goal with x : series |- _ => destruct x as (((? & ?) & ?) & ?) end; try reflexivity.
  unfold s_mirror, s_prod. repeat apply (f_equal2 pair); ring.
Qed.
Definition s_same (x y : series) : bool := let '(a, b, c, d) := x in let '(a', b', c', d') := y in Qeq_bool a a' && Qeq_bool b b' && Qeq_bool c c' && Qeq_bool d d'.
Lemma s_same_eq x y : s_same x y = true -> x = y.
Proof.
  destruct x as (((a & b) & c) & d), y as (((a' & b') & c') & d'). unfold s_same. rewrite !andb_true_iff. intros (((H1 & H2) & H3) & H4).
  apply Qeq_bool_eq in H1, H2, H3, H4. apply Qc_is_canon in H1, H2, H3, H4. subst. reflexivity.
Qed.
Definition r_same (x y : rvert series) : bool := s_same (K1 _ x) (K1 _ y) && s_same (K2 _ x) (K2 _ y) && s_same (K2b _ x) (K2b _ y) && s_same (K3 _ x) (K3 _ y).
Lemma r_same_eq x y : r_same x y = true -> x = y.
Proof.
  destruct x as [x1 x2 x3 x4], y as [y1 y2 y3 y4]. unfold r_same. cbn [K1 K2 K2b K3]. rewrite !andb_true_iff. intros (((H1 & H2) & H3) & H4). apply s_same_eq in H1, H2, H3, H4. congruence.
Qed.
(** the iteration from the bare vertex, in the Keldysh formalism (bare vertex - U / 2) for U = 3 *)
Definition ex_start : vertex series := initialize series s_lift (vzero series s_zero) (- 3 / 2)%Q.
Definition ex_step (v : vertex series) : vertex series := parquet_iteration_vertex series Qc s_zero s_add s_half s_prod s_cross s_mirror s_lift true true false 3 v (Q2Qc (2 # 3)).
Definition ex_solution : vertex series := ex_step (ex_step (ex_step ex_start)).
(** stored without K2' *)
Definition ex_reduced : vertex series :=
  let c x := four series (K1 _ x) (K2 _ x) s_zero (K3 _ x) in {| irr := irr _ ex_solution; va := c (va _ ex_solution); vp := c (vp _ ex_solution); vt := c (vt _ ex_solution) |}.

Lemma ex_solves : solution series Qc s_zero s_add s_prod s_cross (Q2Qc (2 # 3)) ex_solution.
Proof. split; intros r Hr; apply r_same_eq; destruct r; try (elim Hr; reflexivity); vm_compute; reflexivity. Qed.
Lemma ex_completed : completed series s_mirror ex_reduced = ex_solution.
Proof.
  assert (E : forall r, physical r -> classes series s_zero (completed series s_mirror ex_reduced) r = classes series s_zero ex_solution r).
  { intros r Hr. apply r_same_eq. destruct r; try (elim Hr; reflexivity); vm_compute; reflexivity. }
  apply (vertex_ext series s_zero); [apply s_same_eq; vm_compute; reflexivity|exact E].
Qed.
Lemma ex_symmetric : symmetric series s_zero s_add s_cross s_mirror ex_solution.
Proof. intros r Hr. repeat split; apply s_same_eq; destruct r; try (elim Hr; reflexivity); vm_compute; reflexivity. Qed.
Lemma ex_irr : irr _ ex_solution = s_lift (bare_value true false 3).
Proof. reflexivity. Qed.

(** C115: all four classes of the solution are different from zero; the third-order vertex is not yet a solution; a vertex that solves nothing is averaged as well. *)
Example C115_hyp : rules series Qc s_zero s_add s_sub s_half s_prod s_cross /\ mirrored series Qc s_zero s_add s_half s_prod s_mirror /\
  solution series Qc s_zero s_add s_prod s_cross (Q2Qc (2 # 3)) ex_solution /\
  (irr _ ex_solution = s_lift (bare_value true false 3) /\ ex_step ex_solution = ex_solution) /\
  (completed series s_mirror ex_reduced = ex_solution /\ symmetric series s_zero s_add s_cross s_mirror ex_solution) /\
  r_same (va _ ex_solution) (four series (s_make 0 (Q2Qc (3 # 2)) (Q2Qc (- 3 # 2)) (Q2Qc (9 # 2))) (s_make 0 0 (Q2Qc (- 3)) (Q2Qc (103 # 10)))
    (s_make 0 0 (Q2Qc (- 3)) (Q2Qc (103 # 10))) (s_make 0 0 0 (Q2Qc 6))) = true /\
  r_same (va _ (ex_step (ex_step ex_start))) (va _ ex_solution) = false.
Proof.
  split; [exact s_rules|]. split; [exact s_mirrored|]. split; [exact ex_solves|]. split; [split; [exact ex_irr | apply (C115_kept series Qc s_zero s_add s_sub s_half s_prod s_cross s_mirror s_lift s_rules true false 3 ex_solution); [exact ex_solves|exact ex_irr]]|].
  split; [split; [exact ex_completed|exact ex_symmetric]|]. split; vm_compute; reflexivity.
Qed.
(** C115_average and C115_converged: a vertex that solves nothing. *)
Definition ex_other : vertex series := {| irr := s_make 1 0 0 0; va := four series (s_make 1 0 0 0) (s_make 0 1 0 0) (s_make (Q2Qc 2) 0 1 0) (s_make 0 0 1 1);
  vp := four series (s_make 0 1 0 0) (s_make 1 1 0 0) s_zero s_zero; vt := va _ ex_solution |}.
Example C115_other_hyp : r_same (va _ ex_other) (va _ (ex_step ex_other)) = false /\ s_same (reducible series s_zero s_add (compute_BSE series Qc s_zero s_add s_half s_prod s_cross s_mirror true ex_other (Q2Qc (2 # 3))) Ca)
         (s_make 0 (Q2Qc (9 # 2)) (Q2Qc 14) (Q2Qc (- 811 # 24))) = true.
Proof. split; vm_compute; reflexivity. Qed.

(** *** C116 *)
Definition ex_post (dbg contour : bool) (U : Q) (v : vertex series) (p : Qc) : vertex series * vertex series :=
  susceptibilities_postprocessing series Qc s_zero s_add s_sub s_half s_prod s_cross s_mirror s_lift dbg contour U v p (vzero series s_zero) (vzero series s_zero).
(** The solution passes the check in the Keldysh formalism, with and without K2' in memory; a vertex that is no solution does not. *)
Example C116_hyp : true || false = true /\ (forall r, s_mirror r (s_lift (bare_value true false 3)) = s_lift (bare_value true false 3)) /\
  s_same (K1 _ (vt _ (fst (ex_post true false 3 ex_solution (Q2Qc (2 # 3)))))) (K1 _ (vt _ ex_solution)) = true /\ s_same (K1 _ (vt _ ex_solution)) s_zero = false /\
  s_same (K1 _ (vt _ (snd (ex_post false false 3 ex_reduced (Q2Qc (2 # 3)))))) s_zero = true /\
  s_same (K1 _ (vt _ (snd (ex_post true false 3 ex_other (Q2Qc (2 # 3)))))) s_zero = false.
Proof. split; [reflexivity|]. split; [reflexivity|]. repeat split; vm_compute; reflexivity. Qed.
(** In the Matsubara formalism the bare vertex is - U, but the check uses - U / 2 as in the Keldysh formalism: solutions fail it. *)
Definition ex_matsubara (v : vertex series) : vertex series := parquet_iteration_vertex series Qc s_zero s_add s_half s_prod s_cross s_mirror s_lift true false false 3 v 1.
Definition ex_matsubara_solution : vertex series := ex_matsubara (ex_matsubara (ex_matsubara (initialize series s_lift (vzero series s_zero) (- 3)%Q))).
Theorem C116_matsubara_refuted : exists v, solution series Qc s_zero s_add s_prod s_cross 1 v /\ irr _ v = s_lift (bare_value false false 3) /\
  ex_matsubara v = v /\ forall r, physical r -> K1 _ (classes series s_zero (snd (ex_post true false 3 v 1)) r) <> s_zero.
Proof.
  exists ex_matsubara_solution.
  assert (Hs : solution series Qc s_zero s_add s_prod s_cross 1 ex_matsubara_solution).
  { split; intros r Hr; apply r_same_eq; destruct r; try (elim Hr; reflexivity); vm_compute; reflexivity. }
  assert (Hi : irr _ ex_matsubara_solution = s_lift (bare_value false false 3)) by (apply s_same_eq; vm_compute; reflexivity).
  split; [exact Hs|]. split; [exact Hi|]. split.
  - exact (C115_kept series Qc s_zero s_add s_sub s_half s_prod s_cross s_mirror s_lift s_rules false false 3 ex_matsubara_solution 1 Hs Hi).
  - intros r Hr E. apply (f_equal (fun x => s_same x s_zero)) in E. revert E. destruct r; try (elim Hr; reflexivity); vm_compute; discriminate.
Qed.
Print Assumptions C116_matsubara_refuted.

(** *** C117 *)
Definition ex_flow (nloops : Z) : option (answer series Qc) :=
  rhs_n_loop_flow series s_zero s_add s_half Qc (bub series Qc s_zero s_add s_prod s_cross s_mirror true) 3 true Qc Qcplus Qcminus ex_solution (Q2Qc (2 # 3)) (fun _ => Q2Qc (- 1 # 4)) 1
    (fun _ => 0) (fun _ => 1) (fun _ => Fin 1) (fun _ => Fin 0) (fun _ _ => Fin 0) (fun l r => (l, r)) 0 0 1 1 5 nloops.
Definition ex_fed (m : Z) (r : channel) : series :=
  fed_back series Qc s_zero s_add s_half s_prod s_cross s_mirror ex_solution (Q2Qc (2 # 3)) (fun l r => (l, r)) Qc (fun _ => Q2Qc (- 1 # 4)) 1 m r.
(** The reducible vertex of the flow in channel a: the orders beyond the third do not contribute up to the fourth power of the interaction, those before do. *)
Definition ex_total (nloops : Z) : series := match ex_flow nloops with Some a => reducible series s_zero s_add (a_vertex _ _ a) Ca | None => s_zero end.
Example C117_hyp : bethe_salpeter series Qc s_zero s_add s_prod s_cross (Q2Qc (2 # 3)) ex_solution /\
  (forall (s : Qc) r, fed_back series Qc s_zero s_add s_half s_prod s_cross s_mirror ex_solution (Q2Qc (2 # 3)) (fun l r => (l, r)) Qc (fun _ => Q2Qc (- 1 # 4)) s 4 r = s_zero /\
     fed_back series Qc s_zero s_add s_half s_prod s_cross s_mirror ex_solution (Q2Qc (2 # 3)) (fun l r => (l, r)) Qc (fun _ => Q2Qc (- 1 # 4)) s 5 r = s_zero) /\
  (forall T total, ~ negligible series (fun _ => Fin 1) 0 0 T total) /\
  s_same (ex_fed 3 Ca) s_zero = false /\ s_same (ex_total 1) (ex_total 2) = false /\ s_same (ex_total 2) (ex_total 3) = false /\ s_same (ex_total 3) (ex_total 5) = true.
Proof.
  split; [apply (C115_solution series Qc s_zero s_add s_sub s_half s_prod s_cross s_rules); exact ex_solves|].
  split; [intros s r; split; apply s_same_eq; destruct r; vm_compute; reflexivity|].
  split; [intros T total [H | H]; cbn in H; revert H; [|intros (_ & H); revert H]; vm_compute; discriminate|].
  repeat split; vm_compute; reflexivity.
Qed.
