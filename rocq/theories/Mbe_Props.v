(** C134: bubbles at finite-temperature Matsubara frequencies. *)
From Coq Require Import Reals ZArith List Lia Lra Bool.
From Verif Require Import Prelude Util_Model Util_Proofs Dom_Model Dom_Spec Dom_Proofs Mbe_Model Mbe_Spec Mbe_Proofs.
From Verif Require Keld_Model Sym_Model Tab_Model.
Import ListNotations.
Open Scope Z_scope.

(** the grid frequencies *)
Lemma grid_frequency_ok n i : (exists m, n = 2 * m) -> grid_frequency n i = frequency n i.
Proof. intros [m ->]. unfold grid_frequency, frequency. replace (Z.quot (2 * m) 2) with m by (rewrite Z.mul_comm; symmetry; apply Z.quot_mul; lia). lia. Qed.
Lemma left_ok leftS leftD k n2 n3 iv x s : left_of leftS leftD k (v_of n2 n3 k iv) x s = leftv k leftS leftD n2 n3 iv x s.
Proof. destruct k; reflexivity. Qed.
Lemma right_ok rightS rightD k n2 n3 ivp x s : right_of rightS rightD k x (vp_of n2 n3 k ivp) s = rightv k rightS rightD n2 n3 ivp x s.
Proof. destruct k; reflexivity. Qed.

Section C134.
  Variables (n2 n3 pos w : Z) (T sign : R) (ns : nat) (Pi : Z -> nat -> R) (leftS : Z -> nat -> R) (leftD : Z -> Z -> nat -> R)
    (rightS : Z -> nat -> R) (rightD : Z -> Z -> nat -> R) (contract : Z -> Z -> (nat -> R) -> (nat -> R) -> R) (quadrature : (Z -> R) -> Z -> Z -> R).
  Hypotheses (P2 : 0 < n2) (P3 : 0 < n3) (E2 : exists m, n2 = 2 * m) (E3 : exists m, n3 = 2 * m) (Ppos : 0 < pos).
  Notation vectorised debug analytic := (vectorised_bubble debug analytic n2 n3 pos w T sign ns Pi leftS leftD rightS rightD contract quadrature).
  Notation scalar analytic := (scalar_bubble analytic n2 n3 pos w T sign ns Pi leftS leftD rightS rightD contract quadrature).

  (** the value an entry should have: T times the frequency sum plus the analytic tail with the vertices far out *)
  Definition exact (k : bclass) (iv ivp : Z) : R :=
    let l := leftv k leftS leftD n2 n3 iv in let r := rightv k rightS rightD n2 n3 ivp in
    let far := 10 * lower_tail pos w + 1 in
    (sign * T * frequency_sum (product l Pi r ns) (sum_min pos w) (sum_max pos w) + sign / (2 * PI) * contract (lower_tail pos w) (upper_tail pos w) (l far) (r far))%R.

  Lemma closed_exact scalar k iv ivp : closed true pos w T sign ns Pi leftS leftD rightS rightD contract quadrature scalar k (v_of n2 n3 k iv) (vp_of n2 n3 k ivp) = exact k iv ivp.
  Proof.
    unfold closed, exact. cbv zeta. f_equal.
    - f_equal. unfold frequency_sum, product. rewrite !sum_to_below. apply sum_below_ext. intros m _. rewrite integrand_sum.
      apply sum_below_ext. intros s _. rewrite left_ok, right_ok. reflexivity.
    - unfold analytic_tail. cbv zeta. destruct k; reflexivity.
  Qed.
  Lemma lower_inside n : 0 < n -> (exists m, n = 2 * m) -> inside w n (grid_lower n) = true.
  Proof.
    intros H [m ->]. unfold inside, grid_lower. rewrite grid_frequency_ok by eauto. unfold frequency. pose proof (sign_flip_values w).
    destruct (Z.ltb_spec (- (2 * 0 - 2 * m + 1) + sign_flip w) (2 * 0 - 2 * m + 1)); [lia|reflexivity].
  Qed.
  Lemma vectorised_evaluated k : evaluated_vectorised true n2 n3 w k = true.
  Proof. unfold evaluated_vectorised, evaluated_debug. destruct k; rewrite ?(lower_inside n2 P2 E2), ?(lower_inside n3 P3 E3); reflexivity. Qed.

  Theorem C134_vectorised_partial k : exists l, vectorised true true k = Some l /\ length l = vector_size n2 n3 k /\
    forall iv ivp, in_class k n2 n3 iv ivp -> nth_error l (position k n3 iv ivp) = Some (exact k iv ivp).
  Proof.
    destruct (write_all_spec true true n2 n3 pos w T sign ns Pi leftS leftD rightS rightD contract quadrature P2 P3 E2 E3 Ppos k) as (l & E & L & X & _). exists l.
    unfold vectorised_bubble. rewrite vectorised_evaluated. cbn [negb andb]. split; [exact E|]. split; [exact L|]. intros iv ivp H. rewrite X by (split; [exact H|left; reflexivity]).
    rewrite closed_exact. reflexivity.
  Qed.

  Definition at_edge (k : bclass) (iv ivp : Z) : Prop :=
    match k with bk1 => False | bk2 => iv = n2 - 1 | bk2b => ivp = n2 - 1 | bk3 => iv = n3 - 1 \/ ivp = n3 - 1 end.
  Lemma inside_ok n i : (exists m, n = 2 * m) -> 0 <= i < n -> (inside w n (grid_frequency n i) = false <-> sign_flip w = -1 /\ i = n - 1).
  Proof.
    intros E Hi. unfold inside, grid_lower. rewrite !grid_frequency_ok by exact E. unfold frequency. pose proof (sign_flip_values w).
    destruct (Z.ltb_spec (- (2 * i - n + 1) + sign_flip w) (2 * 0 - n + 1)); cbn [negb]; split; intros G; try lia; congruence.
  Qed.
  Lemma debug_edge k iv ivp : in_class k n2 n3 iv ivp ->
    let v := match k with bk2 => grid_frequency n2 iv | bk3 => grid_frequency n3 iv | _ => 0 end in let vp := match k with bk2b => grid_frequency n2 ivp | bk3 => grid_frequency n3 ivp | _ => 0 end in
    (evaluated_debug n2 n3 w k v vp = false <-> sign_flip w = -1 /\ at_edge k iv ivp).
  Proof.
    intros H. cbv zeta. unfold evaluated_debug, at_edge. destruct k; cbn [in_class] in H; [split; [discriminate|tauto]|apply inside_ok; tauto|apply inside_ok; tauto|].
    rewrite andb_false_iff, (inside_ok n3 iv E3 (proj1 H)), (inside_ok n3 ivp E3 (proj2 H)). tauto.
  Qed.
  Lemma scalar_at k an iv ivp v vp : v = match k with bk2 => grid_frequency n2 iv | bk3 => grid_frequency n3 iv | _ => 0 end ->
    vp = match k with bk2b => grid_frequency n2 ivp | bk3 => grid_frequency n3 ivp | _ => 0 end ->
    closed an pos w T sign ns Pi leftS leftD rightS rightD contract quadrature true k v vp = closed an pos w T sign ns Pi leftS leftD rightS rightD contract quadrature true k (v_of n2 n3 k iv) (vp_of n2 n3 k ivp).
  Proof.
    intros -> ->. unfold closed, analytic_tail, frequency_sum. cbv zeta. destruct k; rewrite ?(grid_frequency_ok n2 _ E2), ?(grid_frequency_ok n3 _ E3); reflexivity.
  Qed.

  (** scalar and vectorised version agree, except for the entries next to the edge, which the scalar version leaves zero *)
  Theorem C134_agree_partial k iv ivp : in_class k n2 n3 iv ivp -> exists l x, vectorised true true k = Some l /\ nth_error l (position k n3 iv ivp) = Some x /\
    ((~ (sign_flip w = -1 /\ at_edge k iv ivp) /\ scalar true k iv ivp = Some x) \/ ((sign_flip w = -1 /\ at_edge k iv ivp) /\ scalar true k iv ivp = Some 0%R)).
  Proof.
    intros H. destruct (C134_vectorised_partial k) as (l & E & _ & X). exists l, (exact k iv ivp). split; [exact E|]. split; [apply X; exact H|].
    pose proof (debug_edge k iv ivp H) as D. cbv zeta in D. unfold scalar_bubble. cbv zeta.
    match goal with |- context [evaluated_debug n2 n3 w k ?a ?b] => destruct (evaluated_debug n2 n3 w k a b) eqn:G end.
    - left. split; [intros K; apply D in K; congruence|]. rewrite (scalar_closed true) by assumption. f_equal. rewrite <- (closed_exact true).
      eapply scalar_at; reflexivity.
    - right. split; [apply D; reflexivity|reflexivity].
  Qed.

  (** with tails by quadrature the two versions weigh the tails differently *)
  Theorem C134_quadrature_weights_refuted k iv ivp : in_class k n2 n3 iv ivp -> ~ (sign_flip w = -1 /\ at_edge k iv ivp) ->
    let tail := quadrature (integrand ns Pi leftS leftD rightS rightD k (v_of n2 n3 k iv) (vp_of n2 n3 k ivp)) (lower_tail pos w) (upper_tail pos w) in
    exists l x y, vectorised true false k = Some l /\ nth_error l (position k n3 iv ivp) = Some x /\ scalar false k iv ivp = Some y /\
    (y - x = sign * T / 2 * tail)%R /\ (sign * T * tail <> 0 -> x <> y)%R.
  Proof.
    intros H Ed tail. destruct (write_all_spec true false n2 n3 pos w T sign ns Pi leftS leftD rightS rightD contract quadrature P2 P3 E2 E3 Ppos k) as (l & E & _ & X & _).
    exists l, (closed false pos w T sign ns Pi leftS leftD rightS rightD contract quadrature false k (v_of n2 n3 k iv) (vp_of n2 n3 k ivp)),
      (closed false pos w T sign ns Pi leftS leftD rightS rightD contract quadrature true k (v_of n2 n3 k iv) (vp_of n2 n3 k ivp)).
    split; [unfold vectorised_bubble; rewrite vectorised_evaluated; exact E|]. split; [apply X; split; [exact H|left; reflexivity]|].
    assert (D : (closed false pos w T sign ns Pi leftS leftD rightS rightD contract quadrature true k (v_of n2 n3 k iv) (vp_of n2 n3 k ivp) -
      closed false pos w T sign ns Pi leftS leftD rightS rightD contract quadrature false k (v_of n2 n3 k iv) (vp_of n2 n3 k ivp) = sign * T / 2 * tail)%R).
    { unfold closed, weight, tail. cbv zeta. field. }
    split; [|split; [exact D|intros Nz Eq; rewrite Eq in D; lra]].
    pose proof (debug_edge k iv ivp H) as G. cbv zeta in G. unfold scalar_bubble. cbv zeta.
    match goal with |- context [evaluated_debug n2 n3 w k ?a ?b] => destruct (evaluated_debug n2 n3 w k a b) eqn:G1 end; [|exfalso; apply Ed; apply G; reflexivity].
    rewrite (scalar_closed false) by assumption. f_equal. eapply scalar_at; reflexivity.
  Qed.

  (** DEBUG_SYMMETRIES 0: every entry that the symmetries do not restore is computed, the other half is left zero *)
  Theorem C134_sector_partial c ch k iv ivp : Sym_Model.keldysh c = false -> in_class k n2 n3 iv ivp ->
    match k with
    | bk1 => nth_error (Tab_Model.freq_transformations c ch Tab_Model.k1) (sgn w) = Some 0
    | bk2 => nth_error (Tab_Model.freq_transformations c ch Tab_Model.k2) (sgn w * 2 + sgn (frequency n2 iv)) = Some 0
    | bk2b => False
    | bk3 => nth_error (Tab_Model.freq_transformations c ch Tab_Model.k3) (sgn w * 4 + sgn (frequency n3 iv + frequency n3 ivp - sign_flip w) * 2 + sgn (frequency n3 iv - frequency n3 ivp)) = Some 0
    end -> exists l, vectorised false true k = Some l /\ nth_error l (position k n3 iv ivp) = Some (exact k iv ivp).
  Proof.
    intros K H S. destruct (write_all_spec false true n2 n3 pos w T sign ns Pi leftS leftD rightS rightD contract quadrature P2 P3 E2 E3 Ppos k) as (l & E & _ & X & _). exists l.
    assert (G : w <= 0 /\ match k with bk1 => True | bk2 => frequency n2 iv < 0 | bk2b => False | bk3 => frequency n3 iv < 0 end).
    { destruct E2 as [m2 D2]. destruct E3 as [m3 D3]. pose proof (sign_flip_values w) as Sf. unfold frequency, sgn in *. unfold Tab_Model.freq_transformations in S. rewrite K in S.
      destruct k; [| |contradiction|];
        repeat match type of S with context [0 <? ?x] => destruct (Z.ltb_spec 0 x) end; destruct ch; cbn in S; try discriminate; (split; [lia|try exact I; lia]). }
    destruct G as [G1 G2]. unfold vectorised_bubble, evaluated_vectorised. destruct (Z.leb_spec w 0); [|lia].
    split; [destruct k; cbn [negb andb]; try exact E; contradiction|]. rewrite X; [rewrite closed_exact; reflexivity|]. split; [exact H|right]. destruct k; tauto.
  Qed.
  Theorem C134_rest_zero_partial k iv ivp : in_class k n2 n3 iv ivp -> k <> bk2b ->
    0 < w \/ (k = bk2 /\ 0 < frequency n2 iv) \/ (k = bk3 /\ 0 < frequency n3 iv) ->
    exists l, vectorised false true k = Some l /\ nth_error l (position k n3 iv ivp) = Some 0%R.
  Proof.
    intros H Nb S. destruct (write_all_spec false true n2 n3 pos w T sign ns Pi leftS leftD rightS rightD contract quadrature P2 P3 E2 E3 Ppos k) as (l & E & _ & _ & Z0).
    unfold vectorised_bubble, evaluated_vectorised. assert (B : (negb false && match k with bk2b => true | _ => false end)%bool = false) by (destruct k; reflexivity || congruence). rewrite B.
    destruct (Z.leb_spec w 0).
    - exists l. split; [exact E|]. apply Z0; [exact H|]. intros [_ [D|D]]; [discriminate|]. destruct S as [S|[[-> S]|[-> S]]]; lia.
    - exists (repeat 0%R (vector_size n2 n3 k)). split; [reflexivity|]. apply nth_error_repeat. unfold vector_size, position. destruct k; cbn [in_class] in H; nia.
  Qed.
End C134.
Print Assumptions C134_vectorised_partial.
Print Assumptions C134_agree_partial.
Print Assumptions C134_quadrature_weights_refuted.
Print Assumptions C134_sector_partial.
Print Assumptions C134_rest_zero_partial.

(** the summation range is mapped onto itself when the two propagators exchange their roles *)
Theorem C134_range_partial p pos w n : (exists m, w = 2 * m) -> sum_min pos w <= n <= sum_max pos w ->
  exists a b n' a' b', leg_1 p (2 * n + 1) w = Some a /\ leg_2 p (2 * n + 1) w = Some b /\ sum_min pos w <= n' <= sum_max pos w /\
  leg_1 p (2 * n' + 1) w = Some a' /\ leg_2 p (2 * n' + 1) w = Some b' /\ (if p then a' = b /\ b' = a /\ a + b = w else a' = - b /\ b' = - a /\ b - a = w).
Proof.
  intros [m ->] Hn. assert (Q : Z.quot (2 * m) 2 = m) by (rewrite Z.mul_comm; apply Z.quot_mul; lia).
  destruct (floor2bfreq_int_spec m) as (f & Ef & Hf). destruct (ceil2bfreq_int_spec m) as (c & Ec & Hc). unfold leg_1, leg_2. rewrite Q, Ef, Ec. cbn [obind].
  unfold sum_min, sum_max, sign_flip in *. rewrite Q in *. pose proof (Z.quot_rem' (Z.abs m) 2) as Qr. pose proof (Z.rem_bound_pos (Z.abs m) 2 ltac:(lia) ltac:(lia)) as Rb.
  rewrite Z.rem_opp_l in * by lia. set (r := Z.rem (Z.abs m) 2) in *. set (q := Z.abs (Z.quot m 2)) in *.
  assert (Fc : 2 * c - 2 * f = 2 * r) by lia.
  destruct p; do 2 eexists; exists (- 1 - r - n); do 2 eexists; (split; [reflexivity|]; split; [reflexivity|]; split; [lia|]; split; [reflexivity|]; split; [reflexivity|]; lia).
Qed.
Print Assumptions C134_range_partial.

(** the entry next to the edge: zero in one version, the full sum in the other *)
Theorem C134_edge_refuted : forall pos, 0 < pos -> exists l x,
  vectorised_bubble true true 4 2 pos 2 1 1 1 (fun _ _ => 1%R) (fun _ _ => 1%R) (fun _ _ _ => 1%R) (fun _ _ => 1%R) (fun _ _ _ => 1%R) (fun _ _ _ _ => 0%R) (fun _ _ _ => 0%R) bk2 = Some l /\
  nth_error l 3 = Some x /\ (0 < x)%R /\
  scalar_bubble true 4 2 pos 2 1 1 1 (fun _ _ => 1%R) (fun _ _ => 1%R) (fun _ _ _ => 1%R) (fun _ _ => 1%R) (fun _ _ _ => 1%R) (fun _ _ _ _ => 0%R) (fun _ _ _ => 0%R) bk2 3 0 = Some 0%R.
Proof.
  intros pos Hp.
  destruct (C134_vectorised_partial 4 2 pos 2 1 1 1 (fun _ _ => 1%R) (fun _ _ => 1%R) (fun _ _ _ => 1%R) (fun _ _ => 1%R) (fun _ _ _ => 1%R) (fun _ _ _ _ => 0%R) (fun _ _ _ => 0%R)
    ltac:(lia) ltac:(lia) ltac:(exists 2; reflexivity) ltac:(exists 1; reflexivity) Hp bk2) as (l & E & _ & X).
  exists l. eexists. split; [exact E|]. split; [apply (X 3 0); cbn; lia|]. split.
  - unfold exact, frequency_sum. cbv zeta. cbn [leftv rightv].
    assert (G : forall n lo, (0 <= sum_to (fun m => product (fun _ _ => 1%R) (fun _ _ => 1%R) (fun _ _ => 1%R) 1 (2 * m + 1)) lo n)%R /\
      ((0 < n)%nat -> (0 < sum_to (fun m => product (fun _ _ => 1%R) (fun _ _ => 1%R) (fun _ _ => 1%R) 1 (2 * m + 1)) lo n)%R)).
    { induction n as [|n IH]; intros lo; cbn [sum_to]; [split; [lra|lia]|]. unfold product at 1 3. cbn [sum_below]. destruct (IH (lo + 1)). split; [lra|intros _; lra]. }
    assert (Sp : (0 < Z.to_nat (sum_max pos 2 - sum_min pos 2 + 1))%nat) by (unfold sum_max, sum_min; change (sign_flip 2) with (-1); change (Z.quot (Z.quot 2 2) 2) with 0; lia).
    pose proof (proj2 (G (Z.to_nat (sum_max pos 2 - sum_min pos 2 + 1)) (sum_min pos 2)) Sp) as Po. rewrite Rmult_0_r, Rplus_0_r, !Rmult_1_l. exact Po.
  - reflexivity.
Qed.
Print Assumptions C134_edge_refuted.

(** frequencies -3, -1, 1, 3; transfer frequency 4 and 2 *)
Example C134_hyp : in_class bk3 4 4 1 3 /\ position bk3 4 1 3 = 7%nat /\ map (frequency 4) [0; 1; 2; 3] = [-3; -1; 1; 3] /\ sign_flip 4 = 0 /\ sign_flip 2 = -1 /\
  (sum_min 1 4, sum_max 1 4) = (-2, 1) /\ (sum_min 1 2, sum_max 1 2) = (-2, 0) /\ leg_1 false 1 2 = Some 1 /\ leg_2 false 1 2 = Some 3 /\
  nth_error (Tab_Model.freq_transformations (Sym_Model.mkCfg false false true false 51) Keld_Model.Ca Tab_Model.k3) (sgn (-2) * 4 + sgn (frequency 4 0 + frequency 4 1 - sign_flip (-2)) * 2 + sgn (frequency 4 0 - frequency 4 1)) = Some 0.
Proof. repeat split; try reflexivity; lia. Qed.
(** one term, all vertices 1, propagators 1/(frequency): K1 at transfer frequency 0 with four frequencies *)
Example C134_value_hyp : (exact 2 2 2 0 (1 / 2) 1 1 (fun x _ => (IZR x * IZR x)%R) (fun _ _ => 1%R) (fun _ _ _ => 1%R) (fun _ _ => 1%R) (fun _ _ _ => 1%R) (fun _ _ l r => (2 * PI * l 0%nat * r 0%nat)%R) bk1 0 0 = 11)%R.
Proof.
  unfold exact, frequency_sum, product. cbv zeta. change (sum_max 2 0) with 1. change (sum_min 2 0) with (-2). change (Z.to_nat (1 - -2 + 1)) with 4%nat. cbn [sum_to sum_below leftv rightv].
  change (2 * -2 + 1) with (-3). change (2 * (-2 + 1) + 1) with (-1). change (2 * (-2 + 1 + 1) + 1) with 1. change (2 * (-2 + 1 + 1 + 1) + 1) with 3. pose proof PI_RGT_0. field_simplify; lra.
Qed.
