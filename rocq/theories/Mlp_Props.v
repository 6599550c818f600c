(** C65, C66 and C104: accumulation of bubbles, the multiloop right-hand side, overloads of perturbation theory. *)
From Coq Require Import QArith Lqa.
From Verif Require Import Prelude Mlp_Model Mlp_Spec Mlp_Proofs.
Open Scope list_scope.
Open Scope Z_scope.

(** *** C65 *)
(** what one call of the bubble function does to its target *)
Notation bubble_call A P bub max_class dbg :=
  (fun v c => bubble_function A P bub max_class dbg v (c_left A P c) (c_right A P c) (c_bubble A P c) (c_channel A P c) (c_classes A P c)).
Notation call_value A P bub := (fun c k => bub (c_bubble A P c) (c_channel A P c) k (c_left A P c) (c_right A P c)).

(** C65 fails for every executable: a call does not add to what is there. *)
Theorem C65_refuted : forall max_class dbg, ~ (forall bub, accumulates Z 0 Z.add max_class dbg (call_value Z unit bub) (bubble_call Z unit bub max_class dbg)).
Proof.
  intros max_class dbg H.
  specialize (H (fun _ _ _ _ _ => 1) (tabulate Z 0 (fun _ _ => 5)) {| c_left := Full _ (vnull Z 0); c_right := Full _ (vnull Z 0); c_bubble := tt; c_channel := Ca; c_classes := (true, true, true) |} Ca k1).
  discriminate H. repeat split; discriminate.
Qed.
(** In a sequence of calls the last one that computes a component decides, whatever was there before; components that no call computes stay as they are. *)
Theorem C65_last_partial : forall A zero P bub max_class dbg l c l' v r k, touches A max_class dbg c r k -> Forall (fun c => ~ touches A max_class dbg c r k) l' ->
  part A zero (fold_left (bubble_call A P bub max_class dbg) (l ++ c :: l') v) r k = bub (c_bubble A P c) r k (c_left A P c) (c_right A P c).
Proof.
  intros A zero P bub max_class dbg l c l' v r k Hc Hl. pose proof (execs_last A zero P bub max_class dbg l c l' r k Hc Hl v) as E. unfold value in E. destruct Hc as [Hc _]. rewrite Hc in E. exact E.
Qed.
Theorem C65_kept_partial : forall A zero P bub max_class dbg l v, irr A (fold_left (bubble_call A P bub max_class dbg) l v) = irr A v /\
  forall r k, r <> Cother -> Forall (fun c => ~ touches A max_class dbg c r k) l -> part A zero (fold_left (bubble_call A P bub max_class dbg) l v) r k = part A zero v r k.
Proof. intros A zero P bub max_class dbg l v. split; [apply execs_irr | intros r k Hr Hl; apply execs_keep; assumption]. Qed.
(** So the contributions of several calls are all contained in the result if no two of them compute the same component. *)
Theorem C65_distinct_partial : forall A zero P bub max_class dbg l v c r k,
  ForallOrdPairs (fun c c' => forall r k, ~ (touches A max_class dbg c r k /\ touches A max_class dbg c' r k)) l -> In c l -> touches A max_class dbg c r k ->
  part A zero (fold_left (bubble_call A P bub max_class dbg) l v) r k = bub (c_bubble A P c) r k (c_left A P c) (c_right A P c).
Proof.
  intros A zero P bub max_class dbg l v c r k Hd Hin Ht. apply in_split in Hin as (l1 & l2 & ->). apply C65_last_partial; [exact Ht|].
  clear v. induction l1 as [|x l1 IH]; cbn [app] in Hd.
  - inversion Hd as [|? ? Hx _]; subst. eapply Forall_impl; [|exact Hx]. intros c' H K. exact (H r k (conj Ht K)).
  - inversion Hd; subst. apply IH. assumption.
Qed.
(** SOPT: K1 of every channel is the bubble of bare vertices, nothing else of the target changes. *)
Theorem C65_sopt_partial : forall A zero P bub max_class dbg target bare Pi r k, r <> Cother ->
  irr A (sopt_vertex A P bub max_class dbg target bare Pi) = irr A target /\
  part A zero (sopt_vertex A P bub max_class dbg target bare Pi) r k = match k with k1 => bub Pi r k1 (Full A bare) (Full A bare) | _ => part A zero target r k end.
Proof.
  intros A zero P bub max_class dbg target bare Pi r k Hr. split; [reflexivity|].
  destruct r; [| | |congruence]; destruct k; cbn [sopt_vertex vertexInSOPT fold_left bubble_function part va vp vt write_out K1 K2 K2b K3 computed]; rewrite ?andb_false_r; reflexivity.
Qed.
(** TOPT (executables without symmetries): of the second-order vertex, the ladders and both eye diagrams only the last call of a channel remains. *)
Theorem C65_topt_partial : forall A zero add P bub max_class bare Pi r k, r <> Cother -> exists_class max_class true k ->
  let b c := bubblevertex A zero P bub max_class true bare Pi c in
  part A zero (topt_vertex A zero add P bub max_class true bare Pi) r k =
  bub Pi r k (Full A bare) (Full A (match r with Ca => vadd A add (b Cp) (b Ct) | Cp => vadd A add (b Ca) (b Ct) | _ => vadd A add (b Ca) (b Cp) end)).
Proof.
  intros A zero add P bub max_class bare Pi r k Hr Hk b.
  assert (E : computed max_class true everything k = true) by (apply (proj2 (computed_iff _ _ _ _)); split; [destruct k; reflexivity | exact Hk]).
  unfold topt_vertex, vertexInTOPT, calls, topt_calls. fold (b Ca). fold (b Cp). fold (b Ct). cbn [fold_left].
  destruct r; [| | |congruence]; destruct k; cbn [bubble_function part va vp vt write_out K1 K2 K2b K3]; rewrite E; reflexivity.
Qed.
(** FOPT: likewise the last call decides, and nothing of the vertices of second and third order remains in the classes that are computed. *)
Theorem C65_fopt_partial : forall A zero add P bub max_class dbg bare Pi r k, r <> Cother -> exists_class max_class dbg k ->
  let b c := bubblevertex A zero P bub max_class dbg bare Pi c in
  let v := match r, dbg with Ca, true => vadd A add (b Cp) (b Ct) | Cp, true => vadd A add (b Ca) (b Ct) | Ca, false => b Cp | Cp, false => b Ca | _, _ => vadd A add (b Ca) (b Cp) end in
  part A zero (fopt_vertex A zero add P bub max_class dbg bare Pi) r k = bub Pi r k (Full A v) (Full A v).
Proof.
  intros A zero add P bub max_class dbg bare Pi r k Hr Hk b.
  assert (E : computed max_class dbg everything k = true) by (apply (proj2 (computed_iff _ _ _ _)); split; [destruct k; reflexivity | exact Hk]).
  unfold fopt_vertex, vertexInFOPT, calls, fopt_calls. fold (b Ca). fold (b Cp). fold (b Ct). generalize (topt_vertex A zero add P bub max_class dbg bare Pi). intro v0.
  destruct r; [| | |congruence]; destruct k, dbg; cbn [app fold_left bubble_function part va vp vt write_out K1 K2 K2b K3]; rewrite E; reflexivity.
Qed.
(** So the vertices of third and fourth order do not contain that of second order, in executables with and without symmetries: here all bubbles vanish except that of two bare vertices. *)
Theorem C65_topt_refuted : forall dbg, exists bub bare,
  (forall r, r <> Cother -> bub tt r k1 (Full Z bare) (Full Z bare) = 7) /\
  part Z 0 (sopt_vertex Z unit bub 3 dbg (vnull Z 0) bare tt) Ca k1 = 7 /\
  (forall r k v1 v2, irr Z v1 <> irr Z bare \/ irr Z v2 <> irr Z bare -> bub tt r k (Full Z v1) (Full Z v2) = 0) /\
  (forall r, r <> Cother -> part Z 0 (topt_vertex Z 0 Z.add unit bub 3 dbg bare tt) r k1 = 0) /\
  (forall r, r <> Cother -> part Z 0 (fopt_vertex Z 0 Z.add unit bub 3 dbg bare tt) r k1 = 0).
Proof.
  intro dbg. exists (fun _ _ _ v1 v2 => match v1, v2 with Full _ x, Full _ y => if (irr Z x =? 3) && (irr Z y =? 3) then 7 else 0 | _, _ => 0 end), (tabulate Z 3 (fun _ _ => 0)).
  split; [intros; reflexivity|]. split; [destruct dbg; reflexivity|]. split.
  - intros _ _ v1 v2 H. change (irr Z (tabulate Z 3 (fun _ _ => 0))) with 3 in H. destruct (Z.eqb_spec (irr Z v1) 3), (Z.eqb_spec (irr Z v2) 3); cbn [andb]; try reflexivity. lia.
  - split; intros r Hr; destruct dbg, r; try congruence; vm_compute; auto.
Qed.

(** *** C104 *)
Theorem C104_partial : returns sopt_state WithFlag.
Proof. exists 1%nat. reflexivity. Qed.
Theorem C104_refuted : ~ returns sopt_state WithLambda.
Proof. intros [depth H]. induction depth as [|n IH]; [discriminate | exact (IH H)]. Qed.

(** *** C66 *)
Section Multiloop.
  Variables (A : Type) (zero : A) (add : A -> A -> A) (half : A -> A) (P : Type) (bub : P -> channel -> kclass -> operand A -> operand A -> A) (max_class : Z) (dbg : bool).
  Variables (Psi : vertex A) (pi : P) (reorder : vertex A -> vertex A -> vertex A * vertex A) (vnorm : vertex A -> fl) (tol_abs tol_rel : Q) (nloops : Z).
  Variables (B : Type) (dpi : B -> P) (badd bsub : B -> B -> B) (se1 : B) (corr : operand A -> B) (mix : list ((vertex A * B) * (vertex A * B)) -> B).
  Variables (bnorm : B -> fl) (brel : B -> B -> fl) (se_abs se_rel : Q) (nmax : Z).
  Notation rhs := (rhs_n_loop_flow A zero add half P bub max_class dbg B badd bsub Psi pi dpi se1 corr mix vnorm bnorm brel reorder tol_abs tol_rel se_abs se_rel nmax nloops).
  Notation final := (final A zero add half P bub max_class dbg Psi pi reorder vnorm tol_abs tol_rel nloops B dpi badd bsub se1 corr mix bnorm brel se_abs se_rel nmax).
  Notation justified := (justified A B bsub bnorm brel se_abs se_rel nmax).

  (** The right-hand side returns the sum of the multiloop contributions (of the last self-energy iteration only) up to the first negligible order of at least 3,
      or the requested one, and the self-energy that follows from it. *)
  Theorem C66_multiloop_partial : add zero zero = zero -> (forall x, half (add x x) = x) -> 1 <= nloops -> exists a, rhs = Some a /\ final a.
  Proof. intros Ha Hh Hn. apply rhs_spec; assumption. Qed.
  (** At most the requested number of orders and of self-energy iterations; no iterations below three loops; the assertion excludes other numbers of loops. *)
  Theorem C66_bounds : add zero zero = zero -> (forall x, half (add x x) = x) -> 1 <= nloops ->
    exists a, rhs = Some a /\ 1 <= a_last _ _ a <= nloops /\ 0 <= a_iterations _ _ a <= Z.max 1 nmax /\ (nloops < 3 -> a_last _ _ a = nloops /\ a_iterations _ _ a = 0).
  Proof.
    intros Ha Hh Hn. destruct (C66_multiloop_partial Ha Hh Hn) as (a & E & (n & s & h & m & v & c & Hr & (Hl & _) & _ & <- & H3 & H4)).
    exists a. split; [exact E|]. destruct Hl as (Hm & Hs & _).
    assert (Hn0 : 0 <= n) by (clear - Hr; induction Hr; lia).
    split; [exact Hm|]. split.
    - destruct (Z_lt_le_dec nloops 3) as [L | G]; [destruct (H3 L) as (_ & -> & _); lia | destruct (H4 G) as (-> & Hb & _); lia].
    - intro L. split; [lia | apply (H3 L)].
  Qed.
  (** Unless a norm is not a number, the self-energy iteration stops early only when the last change is within one of the tolerances. *)
  Theorem C66_stop_partial : add zero zero = zero -> (forall x, half (add x x) = x) -> 3 <= nloops -> (forall x, bnorm x <> NaN) -> (forall x y, brel x y <> NaN) ->
    exists a, rhs = Some a /\ justified a.
  Proof.
    intros Ha Hh Hn N1 N2. destruct (C66_multiloop_partial Ha Hh ltac:(lia)) as (a & E & (n & s & h & m & v & c & Hr & _ & _ & _ & _ & H4)).
    exists a. split; [exact E|]. destruct (H4 Hn) as (Hi & _ & Hs & Hstop). cbn zeta in Hs, Hstop. unfold Mlp_Spec.justified. rewrite Hi.
    destruct Hstop as [H | [H | H]]; [left; exact H | right; exists s; left | right; exists s; right]; rewrite Hs.
    - specialize (N1 (bsub (mix (next A B badd se1 corr h s v c)) s)). destruct (bnorm _) as [q | |]; cbn [above at_most] in *; [apply Qnot_lt_le; exact H | tauto | congruence].
    - specialize (N2 (bsub (mix (next A B badd se1 corr h s v c)) s) (mix (next A B badd se1 corr h s v c))). destruct (brel _ _) as [q | |]; cbn [above at_most] in *; [apply Qnot_lt_le; exact H | tauto | congruence].
  Qed.
End Multiloop.

(** a small instance: classes hold integers, a bubble is a product of K1 parts divided by ten *)
Definition ex_weight (o : operand Z) : Z := match o with Full _ v | Irreducible _ v _ | DiffLeft _ v _ _ | DiffRight _ v _ _ => K1 _ (va _ v) end.
Definition ex_bub (p : Z) (_ : channel) (_ : kclass) (v1 v2 : operand Z) : Z := p * ex_weight v1 * ex_weight v2 / 10.
Definition ex_norm (v : vertex Z) : fl := Fin (inject_Z (Z.abs (K1 _ (va _ v)))).
Definition ex_Psi : vertex Z := tabulate Z (-1) (fun _ k => match k with k1 => 4 | _ => 1 end).
Definition ex_rhs (bnorm : Z -> fl) (tol_rel : Q) (nmax nloops : Z) : option (answer Z Z) :=
  rhs_n_loop_flow Z 0 Z.add (fun x => x / 2) Z ex_bub 3 false Z Z.add Z.sub ex_Psi 1 (fun s => s) 1000 (fun o => ex_weight o / 10)
    (fun h => snd (fst (last h ((ex_Psi, 0), (ex_Psi, 0))))) ex_norm bnorm (fun x y => bnorm x) (fun l r => (r, l)) (1 # 10) tol_rel 5 5 nmax nloops.
Definition ex_abs (x : Z) : fl := Fin (inject_Z (Z.abs x)).
Definition ex_observe (o : option (answer Z Z)) : option (Z * Z * Z * Z) :=
  match o with Some a => Some (K1 _ (va _ (a_vertex _ _ a)), a_se _ _ a, a_iterations _ _ a, a_last _ _ a) | None => None end.
Lemma ex_half : forall x, (x + x) / 2 = x.
Proof. intro x. replace (x + x) with (x * 2) by lia. apply Z.div_mul. lia. Qed.

(** C66_multiloop_partial, C66_bounds and C66_stop_partial: at seven loops the fifth order is negligible, after two iterations the self-energy has converged;
    with a smaller tolerance all orders are evaluated; with one iteration allowed it is not repeated; one and two loops need no iteration. *)
Example C66_hyp : 0 + 0 = 0 /\ (forall x, (x + x) / 2 = x) /\ (forall x, ex_abs x <> NaN) /\
  ex_observe (ex_rhs ex_abs (1 # 5) 10 7) = Some (6998, 1070, 2, 5) /\ ex_observe (ex_rhs ex_abs (1 # 100) 10 7) = Some (9828, 1117, 3, 7) /\
  ex_observe (ex_rhs ex_abs (1 # 5) 1 7) = Some (6574, 1066, 1, 5) /\ ex_observe (ex_rhs ex_abs (1 # 5) 10 2) = Some (2880, 1000, 0, 2) /\
  ex_observe (ex_rhs ex_abs (1 # 5) 10 1) = Some (1600, 1000, 0, 1) /\ ex_rhs ex_abs (1 # 5) 10 0 = None.
Proof. split; [reflexivity|]. split; [exact ex_half|]. split; [discriminate|]. vm_compute. repeat split. Qed.
(** C66 fails if a norm is not a number: the iteration stops after the first of ten iterations. *)
Theorem C66_refuted : ~ (forall bnorm, exists a, ex_rhs bnorm (1 # 5) 10 7 = Some a /\ justified Z Z Z.sub bnorm (fun x y => bnorm x) 5 5 10 a).
Proof.
  intro H. destruct (H (fun _ => NaN)) as (a & E & [J | (s & [J | J])]); [|exact J|exact J].
  assert (O : ex_observe (ex_rhs (fun _ => NaN) (1 # 5) 10 7) = Some (6574, 1066, 1, 5)) by (vm_compute; reflexivity).
  rewrite E in O. cbn [ex_observe] in O. injection O as _ _ O _. rewrite O in J. lia.
Qed.
(** C65: two calls for the same channel, three for different ones *)
Definition ex_call (r : channel) (x : Z) : call Z Z := {| c_left := Full _ ex_Psi; c_right := Full _ ex_Psi; c_bubble := x; c_channel := r; c_classes := (true, true, true) |}.
Example C65_hyp : touches Z 3 true (ex_call Ca 20) Ca k1 /\ Forall (fun c => ~ touches Z 3 true c Ca k1) [ex_call Cp 50] /\
  part Z 0 (fold_left (bubble_call Z Z ex_bub 3 true) ([ex_call Ca 30] ++ ex_call Ca 20 :: [ex_call Cp 50]) ex_Psi) Ca k1 = 32.
Proof. repeat split; try discriminate. constructor; [|constructor]. intros [H _]. discriminate H. Qed.
Example C65_distinct_hyp : ForallOrdPairs (fun c c' => forall r k, ~ (touches Z 3 true c r k /\ touches Z 3 true c' r k)) [ex_call Ca 30; ex_call Cp 50; ex_call Ct 70] /\
  part Z 0 (fold_left (bubble_call Z Z ex_bub 3 true) [ex_call Ca 30; ex_call Cp 50; ex_call Ct 70] ex_Psi) Cp k3 = 80.
Proof. split; [|reflexivity]. repeat constructor; intros r k [[H _] [K _]]; cbn in H, K; congruence. Qed.
Example C65_topt_hyp : exists_class 3 true k2b /\ part Z 0 (topt_vertex Z 0 Z.add Z ex_bub 3 true ex_Psi 10) Ca k2b = 0
  /\ part Z 0 (fopt_vertex Z 0 Z.add Z ex_bub 3 true ex_Psi 10) Ct k3 = 256 /\ part Z 0 (sopt_vertex Z Z ex_bub 3 true ex_Psi ex_Psi 10) Ct k1 = 16.
Proof. repeat split; try lia; vm_compute; congruence. Qed.

Print Assumptions C65_refuted.
Print Assumptions C65_last_partial.
Print Assumptions C65_kept_partial.
Print Assumptions C65_distinct_partial.
Print Assumptions C65_sopt_partial.
Print Assumptions C65_topt_partial.
Print Assumptions C65_fopt_partial.
Print Assumptions C65_topt_refuted.
Print Assumptions C66_multiloop_partial.
Print Assumptions C66_bounds.
Print Assumptions C66_stop_partial.
Print Assumptions C66_refuted.
Print Assumptions C104_partial.
Print Assumptions C104_refuted.
