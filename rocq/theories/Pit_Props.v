(** C126: the Schwinger-Dyson equation and the parquet solver keep the symmetries of vertex and self-energy *)
From Coq Require Import QArith Lqa.
From Verif Require Import Prelude Cplx Keld_Model Keld_Spec Util_Spec Sym_Model Sym_Spec Tab_Model Rd_Model Rd_Spec Dec_Model Bub_Model Bub_Spec Sf_Model Sf_Spec Sf_Props
  Fl_Model Fl_Spec Fl_Props Rd_Props Bub_Props Sde_Model Sde_Props Pit_Model.
From Verif Require Mlp_Model Bse_Model Skp_Spec Lop_Spec Sf_Proofs Fl_Proofs2 Sde_Proofs5.
Open Scope Z_scope.
Import Lop_Spec (integral_ok, integral_imaginary).

(** the self-energy of the Schwinger-Dyson equation, and the printed difference of its two contributions *)
Theorem C126_SDE_keeps_symmetries_partial : forall c J Jl pi U g v vec,
  keldysh c = true -> contour c = false -> integral J -> Skp_Spec.linear J -> ~ (pi == 0)%Q -> integral_ok Jl -> integral_imaginary Jl ->
  lines_ok g -> (phs c = true -> ph_symmetric g) -> symmetric c (- U / 2) v ->
  se_ok c 0 (compute_SDE_v1 c J Jl pi vec U v g) /\ se_ok c 0 (fst (compute_SDE_v2 c J Jl pi vec U v g)) /\ se_ok c 0 (snd (compute_SDE_v2 c J Jl pi vec U v g)).
Proof.
  intros. split; [|apply Logic.and_comm; apply Logic.and_comm]; [apply Sde_Proofs5.v1_ok; assumption|apply Sde_Proofs5.v2_ok; assumption].
Qed.
Print Assumptions C126_SDE_keeps_symmetries_partial.

(** ** states *)
(** a state with the symmetries: interaction U, Hartree value U/2 where the level is centred *)
Definition symmetric_state (c : cfg) (U : Q) (x : state) : Prop := symmetric c (- U / 2) (fst x) /\ se_ok c (U / 2) (snd x).
(** sums with weight w of such states *)
Definition weighted (c : cfg) (U w : Q) (x : state) : Prop := symmetric c (w * (- U / 2)) (fst x) /\ se_ok c (w * (U / 2)) (snd x).
Section States.
  Variables (c : cfg) (U : Q).
  Hypothesis Kc : keldysh c = true.
  Hypothesis CBc : contour c = false.
  Lemma obeys_scale q u v1 v2 : obeys c u v1 v2 -> obeys c (q * u) (vscale q v1) (vscale q v2).
  Proof.
    intros [N P R B].
    assert (CV : forall v ch k s iK f, class_of (channel_of (vscale q v) ch) k s iK f = Cscale q (class_of (channel_of v ch) k s iK f)) by (intros v [] []; reflexivity).
    assert (S : Sf_Proofs.same_family (fun h ch k s kl l => Cscale q (on_legs v1 v2 h ch k s kl l)) (on_legs (vscale q v1) (vscale q v2))).
    { intros h ch k s kl l Hk Sp. unfold on_legs. destruct h; rewrite CV; reflexivity. }
    split.
    - intros h ch k s kl f f' Hk Sp E. specialize (N h ch k s kl f f' Hk Sp E). destruct h; rewrite !CV, N; reflexivity.
    - apply (Sf_Proofs.physical_ext c _ _ Kc S), Sf_Proofs.physical_scale; assumption.
    - apply (Sf_Proofs.reversible_ext c _ _ Kc S), Sf_Proofs.reversible_scale; assumption.
    - intros h s kl f Hk Sp. rewrite (Sf_Proofs.bare_scale c Kc CBc q u) by assumption. rewrite <- (B h s kl f) by assumption. destruct h; reflexivity.
  Qed.
  Lemma se_add h h' S T : se_ok c h S -> se_ok c h' T -> se_ok c (h + h') (sadd S T).
  Proof.
    intros [A1 A2 A3] [B1 B2 B3]. split; cbn [sadd seR seK].
    - intros x y E. destruct (A1 x y E) as (E1 & E2), (B1 x y E) as (F1 & F2). rewrite E1, E2, F1, F2. split; reflexivity.
    - intros x. pose proof (A2 x). pose proof (B2 x). unfold Cadd; cbn [re]. lra.
    - intros Ph x. destruct (A3 Ph x) as ((E1 & E2) & E3), (B3 Ph x) as ((F1 & F2) & F3). split.
      + unfold Csub, Cadd, Cneg, Cconj, Cofq in *; cbn [re im] in *. split; cbn [re im]; lra.
      + rewrite E3, F3. ring.
  Qed.
  Lemma se_scale q h S : se_ok c h S -> se_ok c (q * h) (sscale q S).
  Proof.
    intros [A1 A2 A3]. split; cbn [sscale seR seK].
    - intros x y E. destruct (A1 x y E) as (E1 & E2). rewrite E1, E2. split; reflexivity.
    - intros x. unfold Cscale; cbn [re]. rewrite A2. ring.
    - intros Ph x. destruct (A3 Ph x) as ((E1 & E2) & (E3 & E4)). split.
      + unfold Csub, Cadd, Cneg, Cconj, Cofq, Cscale in *; cbn [re im] in *.
        assert (F1 : (re (seR S (- x)) == h - (re (seR S x) - h))%Q) by lra. assert (F2 : (im (seR S (- x)) == im (seR S x))%Q) by lra.
        split; cbn [re im]; rewrite ?F1, ?F2; ring.
      + split; unfold Cscale, Cneg in *; cbn [re im] in *; rewrite ?E3, ?E4; ring.
  Qed.
  Lemma se_h h h' S : (h == h')%Q -> se_ok c h S -> se_ok c h' S.
  Proof.
    intros E [A1 A2 A3]. split; [exact A1|exact A2|]. intros Ph x. destruct (A3 Ph x) as ((E1 & E2) & E3). split; [|exact E3].
    unfold Csub, Cadd, Cneg, Cconj, Cofq in *; cbn [re im] in *. split; cbn [re im]; [rewrite <- E; exact E1|exact E2].
  Qed.
  Lemma weighted_m w w' x : (w == w')%Q -> weighted c U w x -> weighted c U w' x.
  Proof. intros E (A & B). split; [apply (Sf_Proofs.obeys_bare_m c Kc CBc (w * (- U / 2))); [rewrite E; reflexivity|exact A]|apply (se_h (w * (U / 2))); [rewrite E; reflexivity|exact B]]. Qed.
  Lemma weighted_one x : weighted c U 1 x <-> symmetric_state c U x.
  Proof.
    unfold weighted, symmetric_state. split; intros (A & B).
    - split; [apply (Sf_Proofs.obeys_bare_m c Kc CBc (1 * (- U / 2))); [ring|exact A]|apply (se_h (1 * (U / 2))); [ring|exact B]].
    - split; [apply (Sf_Proofs.obeys_bare_m c Kc CBc (- U / 2)); [ring|exact A]|apply (se_h (U / 2)); [ring|exact B]].
  Qed.
  Lemma weighted_scale q w x : weighted c U w x -> weighted c U (q * w) (st_scale q x).
  Proof.
    intros (A & B). split; cbn [st_scale fst snd].
    - apply (Sf_Proofs.obeys_bare_m c Kc CBc (q * (w * (- U / 2)))); [ring|]. apply obeys_scale; exact A.
    - apply (se_h (q * (w * (U / 2)))); [ring|]. apply se_scale; exact B.
  Qed.
  Lemma weighted_add w w' x y : weighted c U w x -> weighted c U w' y -> weighted c U (w + w') (st_add x y).
  Proof.
    intros (A & B) (A' & B'). split; cbn [st_add fst snd].
    - apply (Sf_Proofs.obeys_bare_m c Kc CBc (w * (- U / 2) + w' * (- U / 2))); [ring|]. apply Sf_Proofs.obeys_add; assumption.
    - apply (se_h (w * (U / 2) + w' * (U / 2))); [ring|]. apply se_add; assumption.
  Qed.
  Definition good_pair (p : state * state) : Prop := symmetric_state c U (fst p) /\ symmetric_state c U (snd p).
  Lemma damped_weighted z p : good_pair p -> weighted c U 1 (damped z p).
  Proof.
    intros (A & B). apply weighted_one in A, B. apply (weighted_m (z * 1 + (1 - z) * 1)); [ring|].
    apply weighted_add; apply weighted_scale; assumption.
  Qed.
  Fixpoint total (l : list Q) : Q := match l with [] => 0 | a :: l => a + total l end%Q.
  Lemma accumulate_weighted z : forall alpha l w x, length alpha = length l -> Forall good_pair l -> weighted c U w x -> weighted c U (w + total alpha) (accumulate z x alpha l).
  Proof.
    induction alpha as [|a alpha IH]; intros [|p l] w x Len Hl Hx; try discriminate Len.
    - apply (weighted_m w); [cbn [total]; ring|exact Hx].
    - cbn [accumulate total]. inversion Hl as [|? ? Hp Hl']. apply (weighted_m (w + a * 1 + total alpha)); [ring|].
      apply IH; [injection Len as Len; exact Len|exact Hl'|]. apply weighted_add; [exact Hx|]. apply weighted_scale, damped_weighted; exact Hp.
  Qed.
  Lemma alphas_total : forall gamma prev, (total (alphas prev gamma) == prev)%Q /\ length (alphas prev gamma) = S (length gamma).
  Proof.
    induction gamma as [|g gamma IH]; intros prev; cbn [alphas total length]; [split; [ring|reflexivity]|].
    destruct (IH g) as (A & B). rewrite A, B. split; [ring|reflexivity].
  Qed.
  Lemma update_symmetric z gamma l x : length l = S (length gamma) -> Forall good_pair l -> anderson_update z gamma l = Some x -> symmetric_state c U x.
  Proof.
    intros Len Hl E. unfold anderson_update in E. destruct (alphas_total gamma 1%Q) as (T & L). destruct (alphas 1 gamma) as [|a alpha]; [discriminate E|].
    destruct l as [|p l]; [discriminate E|]. injection E as <-. apply weighted_one. inversion Hl as [|? ? Hp Hl']. cbn [total] in T.
    apply (weighted_m (a * 1 + total alpha)); [transitivity (a + total alpha)%Q; [ring|exact T]|]. apply accumulate_weighted; [cbn [length] in L, Len; congruence|exact Hl'|].
    apply weighted_scale, damped_weighted; exact Hp.
  Qed.
End States.

Section C126.
  Variables (c : cfg) (J Jl : (Q -> cplx) -> cplx) (pi U : Q) (vec : bool) (p : params) (hartree : selfen -> Q).
  Hypothesis Kc : keldysh c = true.
  Hypothesis CBc : contour c = false.
  Hypothesis HJ : integral J.
  Hypothesis HL : Skp_Spec.linear J.
  Hypothesis Hpi : ~ (pi == 0)%Q.
  Hypothesis HI : integral_ok Jl.
  Hypothesis Him : integral_imaginary Jl.
  Hypothesis Hf : half_filled c p (U / 2).
  (** one iteration *)
  Theorem C126_iteration_keeps_symmetries_partial : forall version x, version = 1 \/ version = 2 ->
    symmetric_state c U x -> symmetric_state c U (parquet_iteration c J Jl pi vec U p hartree version x).
  Proof.
    intros version (v, S) _ (Sv & SS). cbn [fst snd] in *. destruct (Fl_Proofs2.g_ok c p (U / 2) S SS Hf) as (A & B).
    split; cbn [parquet_iteration fst snd].
    - apply (C122_parquet_symmetric_partial c J pi U (- U / 2)); auto. split; [exact A|]. split; [exact A|]. intros Ph. split; apply B; exact Ph.
    - unfold compute_SDE.
      assert (T : se_ok c 0 (if version =? 1 then compute_SDE_v1 c J Jl pi vec U v (prop_g p S) else fst (compute_SDE_v2 c J Jl pi vec U v (prop_g p S)))).
      { destruct (C126_SDE_keeps_symmetries_partial c J Jl pi U (prop_g p S) v vec) as (X & Y & _); auto. destruct (version =? 1); assumption. }
      set (T0 := if version =? 1 then _ else _) in *. clearbody T0. destruct T as [T1 T2 T3]. split; cbn [initialized seR seK].
      + intros x y E. destruct (T1 x y E) as (E1 & E2). rewrite E1. split; [reflexivity|exact E2].
      + exact T2.
      + intros Ph x. rewrite Ph. destruct (T3 Ph x) as ((E1 & E2) & E3). split; [|exact E3].
        unfold Csub, Cadd, Cneg, Cconj, Cofq in *; cbn [re im] in *. split; cbn [re im]; lra.
  Qed.
  (** all iterations of the solver, with linear mixing or with Anderson acceleration *)
  Theorem C126_solver_keeps_symmetries_partial : forall version x, version = 1 \/ version = 2 -> symmetric_state c U x ->
    (forall mixings, symmetric_state c U (plain_solver c J Jl pi vec U p hartree version mixings x)) /\
    forall gamma zetas y l, (forall h, h <> [] -> length h = Datatypes.S (length (gamma h))) ->
      solver c J Jl pi vec U p hartree gamma version zetas (x, []) = Some (y, l) -> symmetric_state c U y.
  Proof.
    intros version x Hver Hx. split.
    - intros mixings. unfold plain_solver. revert x Hx. induction mixings as [|m mixings IH]; intros x Hx; cbn [fold_left]; [exact Hx|].
      apply IH. apply (weighted_one c U Kc CBc). apply (weighted_m c U Kc CBc (m * 1 + (1 - m) * 1)); [ring|]. unfold plain_step.
      apply weighted_add; try assumption; apply weighted_scale; try assumption; apply weighted_one; try assumption.
      apply C126_iteration_keeps_symmetries_partial; [exact Hver|exact Hx].
    - intros gamma zetas y l Lg. assert (G : forall zetas x h, symmetric_state c U x -> Forall (good_pair c U) h ->
        solver c J Jl pi vec U p hartree gamma version zetas (x, h) = Some (y, l) -> symmetric_state c U y).
      { clear x Hx zetas. induction zetas as [|z zetas IH]; intros x h Hx Hh E; cbn [solver] in E; [injection E as <- _; exact Hx|].
        unfold solver_step in E. set (h1 := h ++ _) in E. set (h2 := if (4 <? length h1)%nat then tl h1 else h1) in E.
        assert (H1 : Forall (good_pair c U) h1).
        { apply Forall_app. split; [exact Hh|]. constructor; [|constructor]. split; cbn [fst snd]; [apply C126_iteration_keeps_symmetries_partial; [exact Hver|]|]; exact Hx. }
        assert (H2 : Forall (good_pair c U) h2) by (unfold h2; destruct (4 <? length h1)%nat; [destruct h1; [exact H1|inversion H1; assumption]|exact H1]).
        assert (N2 : h2 <> []).
        { assert (L1 : (0 < length h1)%nat) by (unfold h1; rewrite app_length; cbn [length]; lia). unfold h2. destruct (Nat.ltb_spec 4 (length h1)) as [L|L].
          - destruct h1 as [|q0 [|q1 h1']]; cbn [length] in L; try lia. discriminate.
          - intros Z. rewrite Z in L1. cbn [length] in L1. lia. }
        destruct (anderson_update z (gamma h2) h2) as [out|] eqn:Eo; [|discriminate E].
        apply (IH out h2); [|exact H2|exact E]. apply (update_symmetric c U Kc CBc z (gamma h2) h2); [apply Lg, N2|exact H2|exact Eo]. }
      apply G; [exact Hx|constructor].
  Qed.
End C126.
Print Assumptions C126_iteration_keeps_symmetries_partial.
Print Assumptions C126_solver_keeps_symmetries_partial.

(** example: the vertex and the self-energy of C123 at U = 1, sums over integers (C125) *)
Definition gamma0 (h : list (state * state)) : list Q := repeat (1 # 3) (length h - 1).
Example C126_hyp : keldysh demo_c = true /\ contour demo_c = false /\ phs demo_c = true /\ integral JL /\ Skp_Spec.linear JL /\ integral_ok JlL /\ integral_imaginary JlL /\
  half_filled demo_c p1 (1 / 2) /\ symmetric_state demo_c 1 (Psi1, S1) /\ (forall h, h <> [] -> length h = Datatypes.S (length (gamma0 h))) /\
  map Qred (alphas 1 [1 # 3; 1 # 4]) = [2 # 3; 1 # 12; 1 # 4]%Q /\
  option_map (fun r => length (snd r)) (solver demo_c JL JlL (22 # 7) true 1 p1 (fun _ => 0%Q) gamma0 1 [1 # 2; 1 # 2; 1 # 2; 1 # 3; 1 # 3; 1 # 4]%Q ((Psi1, S1), [])) = Some 4%nat /\
  show (seR (initialized (1 # 2) (sscale 2 S1)) 3) = (15 # 2, -2)%Q.
Proof.
  destruct JlL_ok as (A & B).
  split; [reflexivity|]. split; [reflexivity|]. split; [reflexivity|]. split; [exact JL_integral|]. split; [exact JL_linear|]. split; [exact A|]. split; [exact B|].
  split. { split; [intros x y E; exact E|]. intros _. split; [reflexivity|]. intros x. reflexivity. }
  split. { split; cbn [fst snd].
    - apply (Sf_Proofs.obeys_bare_m demo_c eq_refl eq_refl (-1 # 2)); [reflexivity|exact Psi1_symmetric].
    - apply (se_h demo_c (1 # 2)); [reflexivity|exact S1_ok]. }
  split. { intros h Hh. unfold gamma0. rewrite repeat_length. destruct h; [congruence|cbn [length]; lia]. }
  split; [reflexivity|]. split; [lazy; reflexivity|vm_compute; reflexivity].
Qed.
