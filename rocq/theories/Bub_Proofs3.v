(** Proofs for Bub_Props: a bubble of symmetric vertices is a symmetric vertex. *)
From Coq Require Import QArith Lqa.
From Verif Require Import Prelude Cplx Keld_Model Keld_Spec Keld_Proofs Keld_Proofs2 Util_Spec Sym_Model Sym_Spec Sym_Proofs Sym_Proofs2
  Tab_Model Tab_Spec Rd_Model Rd_Spec Dec_Model Bub_Model Bub_Spec Bub_Proofs Bub_Proofs2.
Open Scope Z_scope.

(** the operations as instances of [spec_part_law] *)
Definition neg_of (_ : klegs) (x : cplx) : cplx := (- x)%C.
Definition conj_of (kl : klegs) (x : cplx) : cplx := Cscale (conj_factor kl) (Cconj x).
Lemma cscale_add q x y : (Cscale q (x + y) == Cscale q x + Cscale q y)%C.
Proof. split; unfold Cscale, Cadd; cbn [re im]; ring. Qed.
Lemma cscale_0 q : (Cscale q C0 == C0)%C.
Proof. split; unfold Cscale, C0; cbn [re im]; ring. Qed.
Lemma cscale_neg1 x : (Cscale (-1) x == - x)%C.
Proof. split; unfold Cscale, Cneg; cbn [re im]; ring. Qed.
Lemma conj_of_add kl x y : (conj_of kl (x + y) == conj_of kl x + conj_of kl y)%C.
Proof. unfold conj_of. rewrite conj_add. apply cscale_add. Qed.
Lemma conj_of_0 kl : (conj_of kl C0 == C0)%C.
Proof. unfold conj_of. rewrite conj_0. apply cscale_0. Qed.
Lemma conj_of_m kl x y : (x == y)%C -> (conj_of kl x == conj_of kl y)%C.
Proof. intros E. unfold conj_of. rewrite E. reflexivity. Qed.
Lemma conj_of_eps a b c d x : (conj_of (klof (code4 a b c d)) x == - (eps4 a b c d * Cconj x))%C.
Proof.
  unfold conj_of. destruct a, b, c, d; unfold eps4, eps;
  match goal with |- context [conj_factor ?k] => let v := eval vm_compute in (conj_factor k) in change (conj_factor k) with v end;
  split; unfold Cscale, Cconj, Cmul, Cneg, C1; cbn [re im]; ring.
Qed.
Definition fl_in (ch : chan) : bool := match ch with Cp => false | _ => true end.
Definition fl_conj (ch : chan) : bool := match ch with Ct => false | _ => true end.

Ltac bares := change (1 - 0) with 1; change (1 - 1) with 0; change (0 =? 2) with false; change (1 =? 2) with false;
  change (0 =? 0) with true; change (1 =? 0) with false; cbv iota.
Section Laws.
  Variables (c : cfg) (u : Q).
  Hypothesis Kc : keldysh c = true.
  Hypothesis CBc : contour c = false.
  Notation bare := (bare c u).
  Lemma bare_swap P : P = swap_in_k \/ P = swap_out_k -> forall s kl, klegs_ok kl -> spin01 s ->
    (bare s kl == neg_of kl (bare (1 - s) (P kl)))%C.
  Proof.
    intros HP s kl Hk Sp. destruct (klof_kcode kl Hk) as (a & b & d & e & ->).
    unfold bare, Bub_Proofs2.bare, irred_expanded, irred_initialize, neg_of. rewrite Kc, CBc.
    destruct HP as [-> | ->]; destruct Sp as [-> | ->]; destruct a, b, d, e;
    repeat match goal with |- context [isInList ?k ?l] => let v := eval vm_compute in (isInList k l) in change (isInList k l) with v end;
    bares; split; unfold Cmul, Cneg, Cofq, C0; cbn [re im]; ring.
  Qed.
  Lemma bare_conj s kl : klegs_ok kl -> spin01 s -> (bare s kl == conj_of kl (bare s (in_out_k kl)))%C.
  Proof.
    intros Hk Sp. destruct (klof_kcode kl Hk) as (a & b & d & e & ->). rewrite conj_of_eps.
    unfold bare, Bub_Proofs2.bare, irred_expanded, irred_initialize. rewrite Kc, CBc.
    destruct Sp as [-> | ->]; destruct a, b, d, e;
    repeat match goal with |- context [isInList ?k ?l] => let v := eval vm_compute in (isInList k l) in change (isInList k l) with v end;
    bares; unfold eps4; cbn [eps]; split; unfold Cmul, Cneg, Cofq, C0, Cconj, C1; cbn [re im]; ring.
  Qed.
  Lemma bare_same s kl : klegs_ok kl -> spin01 s -> (bare s kl == conj_of kl (bare s kl))%C.
  Proof.
    intros Hk Sp. destruct (klof_kcode kl Hk) as (a & b & d & e & ->). rewrite conj_of_eps.
    unfold bare, Bub_Proofs2.bare, irred_expanded, irred_initialize. rewrite Kc, CBc.
    destruct Sp as [-> | ->]; destruct a, b, d, e;
    repeat match goal with |- context [isInList ?k ?l] => let v := eval vm_compute in (isInList k l) in change (isInList k l) with v end;
    bares; unfold eps4; cbn [eps]; split; unfold Cmul, Cneg, Cofq, C0, Cconj, C1; cbn [re im]; ring.
  Qed.

  Variable G : family.
  Hypothesis PG : physical c false G.
  Notation part := (spec_part c u).
  Lemma part_in right st d h ch s kl l : operand_ok st G -> klegs_ok kl -> conserved l -> spin01 s ->
    (part right st d G h ch s kl l ==
     - part (xorb right (fl_in ch)) st d G (xorb h (fl_in ch)) (crossed_at ch) (1 - s)%Z (swap_in_k kl) (swap_in_f l))%C.
  Proof.
    apply (spec_part_law c u G neg_of swap_in_k swap_in_f (fun s => 1 - s) crossed_at fl_in).
    - intros; unfold neg_of; ring.
    - intros; unfold neg_of; ring.
    - intros k x y E; unfold neg_of; rewrite E; reflexivity.
    - right; reflexivity.
    - intros h' ch' k s' kl' l' Hk Co Sp. unfold neg_of.
      rewrite (exchange_in _ _ _ PG h' ch' (crossed_at ch') (fl_in ch') k s' kl' l') by (try assumption; destruct ch'; reflexivity).
      destruct k; apply cscale_neg1.
    - apply bare_swap. auto.
  Qed.
  Lemma part_out right st d h ch s kl l : operand_ok st G -> klegs_ok kl -> conserved l -> spin01 s ->
    (part right st d G h ch s kl l == - part right st d G h (crossed_at ch) (1 - s)%Z (swap_out_k kl) (swap_out_f l))%C.
  Proof.
    intros Ok Hk Co Sp. 
    rewrite (spec_part_law c u G neg_of swap_out_k swap_out_f (fun s => 1 - s) crossed_at (fun _ => false)) with (right := right); auto.
    - unfold neg_of. rewrite !Bool.xorb_false_r. reflexivity.
    - intros; unfold neg_of; ring.
    - intros; unfold neg_of; ring.
    - intros k x y E; unfold neg_of; rewrite E; reflexivity.
    - intros h' ch' k s' kl' l' Hk' Co' Sp'. unfold neg_of.
      rewrite (exchange_out _ _ _ PG h' ch' (crossed_at ch') false k s' kl' l') by (try assumption; destruct ch'; reflexivity).
      destruct k; apply cscale_neg1.
    - apply bare_swap. auto.
  Qed.
  Lemma part_conj right st d h ch s kl l : operand_ok st G -> klegs_ok kl -> conserved l -> spin01 s ->
    (part right st d G h ch s kl l ==
     conj_of kl (part (xorb right (fl_conj ch)) st d G (xorb h (fl_conj ch)) ch s (in_out_k kl) (in_out_f l)))%C.
  Proof.
    apply (spec_part_law c u G conj_of in_out_k in_out_f (fun s => s) (fun ch => ch) fl_conj).
    - exact conj_of_add.
    - exact conj_of_0.
    - exact conj_of_m.
    - left; reflexivity.
    - intros h' ch' k s' kl' l' Hk Co Sp.
      rewrite (conjugation_keldysh _ _ _ PG Kc h' ch' ch' (fl_conj ch') k s' kl' l') by (try assumption; destruct ch'; reflexivity).
      destruct k; reflexivity.
    - exact bare_conj.
  Qed.
  Lemma part_minus right st d h ch s kl l : reversible c G -> phs c = true ->
    operand_ok st G -> klegs_ok kl -> conserved l -> spin01 s ->
    (part right st d G h ch s kl l == conj_of kl (part right st d G h ch s kl (minus_f l)))%C.
  Proof.
    intros RG Ph Ok Hk Co Sp.
    rewrite (spec_part_law c u G conj_of (fun kl => kl) minus_f (fun s => s) (fun ch => ch) (fun _ => false)) with (right := right); auto.
    - rewrite !Bool.xorb_false_r. reflexivity.
    - exact conj_of_add.
    - exact conj_of_0.
    - exact conj_of_m.
    - intros h' ch' k s' kl' l' Hk' Co' Sp'. rewrite (reversal_keldysh _ _ RG Kc Ph h' ch' k s' kl' l' Hk' Co' Sp').
      rewrite Bool.xorb_false_r. destruct k; reflexivity.
    - exact bare_same.
  Qed.
End Laws.

Section Bubble.
  Variables (c : cfg) (uL uR : Q) (J : (Q -> cplx) -> cplx) (pi : Q) (diff : bool) (g S0 : prop) (stL stR : symmtype).
  Variables (GL GR : family) (VL VR : bool -> reader).
  Hypothesis Kc : keldysh c = true.
  Hypothesis CBc : contour c = false.
  Hypothesis HJ : integral J.
  Hypothesis Hpi : ~ (pi == 0)%Q.
  Hypothesis Hg : lines_ok g.
  Hypothesis HS : lines_ok S0.
  Hypothesis PL : physical c false GL.
  Hypothesis PR : physical c false GR.
  Hypothesis OL : operand_ok stL GL.
  Hypothesis OR : operand_ok stR GR.
  Hypothesis RL : forall h, reads c uL GL h (VL h).
  Hypothesis RR : forall h, reads c uR GR h (VR h).

  Definition SPL (h : bool) (k : kcl) (ch : chan) (s : Z) (kl : klegs) (l : legs) : cplx :=
    if h then spec_part c uR false stR (left_dressed k) GR true ch s kl l else spec_part c uL false stL (left_dressed k) GL false ch s kl l.
  Definition SPR (h : bool) (k : kcl) (ch : chan) (s : Z) (kl : klegs) (l : legs) : cplx :=
    if h then spec_part c uL true stL (right_dressed k) GL true ch s kl l else spec_part c uR true stR (right_dressed k) GR false ch s kl l.
  Definition dA (h : bool) (k : kcl) (ch : chan) (f : Q * Q * Q) (x : Q) : Z -> Z -> cplx := fun s iK =>
    let '(w, v, _) := f in SPL h k ch s (klof iK) (legs_of ch (w, v, x)).
  Definition dB (h : bool) (k : kcl) (ch : chan) (f : Q * Q * Q) (x : Q) : Z -> Z -> cplx := fun s iK =>
    let '(w, _, v') := f in SPR h k ch s (klof iK) (legs_of ch (w, x, v')).
  Definition dP (ch : chan) (f : Q * Q * Q) (x : Q) : bool -> bool -> bool -> bool -> cplx :=
    lines ch diff g S0 (fst (fst f)) x.
  Definition core (h : bool) (k : kcl) (ch : chan) (s : Z) (a b d e : bool) (f : Q * Q * Q) (x : Q) : cplx :=
    code_diagram ch s (dA h k ch f x) (dB h k ch f x) (dP ch f x) a b d e.
  Definition entry (h : bool) (k : kcl) (ch : chan) (s : Z) (iK : Z) (f : Q * Q * Q) : cplx :=
    if h then bubble_entry J pi k ch diff g S0 stR stL (VR true) (VL true) s iK f
    else bubble_entry J pi k ch diff g S0 stL stR (VL false) (VR false) s iK f.

  Lemma integrand_core uA uB k ch stA stB GA GB (VA VB : reader) h s a b d e w v v' x : spin01 s -> reads c uA GA h VA -> reads c uB GB h VB ->
    (or0 (integrand k ch diff g S0 stA stB VA VB s (code4 a b d e) (w, v, v') x) ==
     code_diagram ch s (fun s iK => spec_part c uA false stA (left_dressed k) GA h ch s (klof iK) (legs_of ch (w, v, x)))
       (fun s iK => spec_part c uB true stB (right_dressed k) GB h ch s (klof iK) (legs_of ch (w, x, v'))) (lines ch diff g S0 w x) a b d e)%C.
  Proof.
    intros Sp RA RB. unfold integrand.
    destruct (integrand_vectorized_code ch s (fun sp i => left_part k stA ch VA sp i (w, v, x))
         (fun sp i => right_part k stB ch VB sp i (w, x, v')) (value_vectorized ch diff g S0 w x) (lines ch diff g S0 w x) Sp)
      as (l & E & _ & H).
    { intros. apply value_vectorized_spec; apply ok_prop; assumption. }
    rewrite E. cbn [obind]. destruct (H a b d e) as (z & En & Ez). rewrite En. cbn [or0]. rewrite Ez.
    apply code_diagram_ext_codes; [exact Sp| | |reflexivity]; intros t p q r y Ht; cbv beta.
    - rewrite <- (kcode_klof p q r y) at 1. apply left_part_reads; auto using klof_ok, legs_eq_refl. apply legs_eq_refl.
    - rewrite <- (kcode_klof p q r y) at 1. apply right_part_reads; auto using klof_ok, legs_eq_refl. apply legs_eq_refl.
  Qed.
  Lemma entry_core h k ch s a b d e f : spin01 s ->
    (entry h k ch s (code4 a b d e) f == bubble_value_prefactor pi ch * J (core h k ch s a b d e f))%C.
  Proof.
    intros Sp. destruct f as ((w, v), v'). unfold entry.
    destruct h; unfold bubble_entry; apply Cmul_m; try reflexivity; apply (int_ext _ HJ); intros x;
    unfold core, dA, dB, dP, SPL, SPR; cbn [fst snd]; apply integrand_core; auto.
  Qed.

  (** laws of the two sides *)
  Lemma SPL_m h k ch s kl l l' : klegs_ok kl -> spin01 s -> conserved l -> legs_eq l l' -> (SPL h k ch s kl l == SPL h k ch s kl l')%C.
  Proof. intros Hk Sp Co E. unfold SPL. destruct h; apply spec_part_m; assumption. Qed.
  Lemma SPR_m h k ch s kl l l' : klegs_ok kl -> spin01 s -> conserved l -> legs_eq l l' -> (SPR h k ch s kl l == SPR h k ch s kl l')%C.
  Proof. intros Hk Sp Co E. unfold SPR. destruct h; apply spec_part_m; assumption. Qed.
  Lemma dressed_mirror k : left_dressed (mirror true k) = right_dressed k /\ right_dressed (mirror true k) = left_dressed k.
  Proof. destruct k; split; reflexivity. Qed.
  Ltac side lem := unfold SPL, SPR; repeat match goal with |- context [left_dressed (mirror true ?k)] => rewrite (proj1 (dressed_mirror k)) end;
    repeat match goal with |- context [right_dressed (mirror true ?k)] => rewrite (proj2 (dressed_mirror k)) end; cbn [negb];
    match goal with
    | |- (spec_part _ _ ?r ?st ?d GL ?h ?ch ?s ?kl ?l == _)%C => etransitivity; [apply (lem c uL Kc CBc GL PL r st d h ch s kl l); assumption|cbn [xorb negb]; reflexivity]
    | |- (spec_part _ _ ?r ?st ?d GR ?h ?ch ?s ?kl ?l == _)%C => etransitivity; [apply (lem c uR Kc CBc GR PR r st d h ch s kl l); assumption|cbn [xorb negb]; reflexivity]
    end.
  Lemma SPL_out h k ch s kl l : klegs_ok kl -> conserved l -> spin01 s ->
    (SPL h k ch s kl l == - SPL h k (crossed_at ch) (1 - s)%Z (swap_out_k kl) (swap_out_f l))%C.
  Proof. intros. destruct h; side part_out. Qed.
  Lemma SPR_out h k ch s kl l : klegs_ok kl -> conserved l -> spin01 s ->
    (SPR h k ch s kl l == - SPR h k (crossed_at ch) (1 - s)%Z (swap_out_k kl) (swap_out_f l))%C.
  Proof. intros. destruct h; side part_out. Qed.
  Lemma SPL_in h k ch s kl l : ch <> Cp -> klegs_ok kl -> conserved l -> spin01 s ->
    (SPL h k ch s kl l == - SPR (negb h) (mirror true k) (crossed_at ch) (1 - s)%Z (swap_in_k kl) (swap_in_f l))%C.
  Proof. intros Hc; intros. destruct h; destruct ch; try congruence; side part_in. Qed.
  Lemma SPR_in h k ch s kl l : ch <> Cp -> klegs_ok kl -> conserved l -> spin01 s ->
    (SPR h k ch s kl l == - SPL (negb h) (mirror true k) (crossed_at ch) (1 - s)%Z (swap_in_k kl) (swap_in_f l))%C.
  Proof. intros Hc; intros. destruct h; destruct ch; try congruence; side part_in. Qed.
  Lemma SPL_in_p h k s kl l : klegs_ok kl -> conserved l -> spin01 s ->
    (SPL h k Cp s kl l == - SPL h k Cp (1 - s)%Z (swap_in_k kl) (swap_in_f l))%C.
  Proof. intros. destruct h; side part_in. Qed.
  Lemma SPR_in_p h k s kl l : klegs_ok kl -> conserved l -> spin01 s ->
    (SPR h k Cp s kl l == - SPR h k Cp (1 - s)%Z (swap_in_k kl) (swap_in_f l))%C.
  Proof. intros. destruct h; side part_in. Qed.
  Lemma SPL_conj h k ch s kl l : ch <> Ct -> klegs_ok kl -> conserved l -> spin01 s ->
    (SPL h k ch s kl l == conj_of kl (SPR (negb h) (mirror true k) ch s (in_out_k kl) (in_out_f l)))%C.
  Proof. intros Hc; intros. destruct h; destruct ch; try congruence; side part_conj. Qed.
  Lemma SPR_conj h k ch s kl l : ch <> Ct -> klegs_ok kl -> conserved l -> spin01 s ->
    (SPR h k ch s kl l == conj_of kl (SPL (negb h) (mirror true k) ch s (in_out_k kl) (in_out_f l)))%C.
  Proof. intros Hc; intros. destruct h; destruct ch; try congruence; side part_conj. Qed.
  Lemma SPL_conj_t h k s kl l : klegs_ok kl -> conserved l -> spin01 s ->
    (SPL h k Ct s kl l == conj_of kl (SPL h k Ct s (in_out_k kl) (in_out_f l)))%C.
  Proof. intros. destruct h; side part_conj. Qed.
  Lemma SPR_conj_t h k s kl l : klegs_ok kl -> conserved l -> spin01 s ->
    (SPR h k Ct s kl l == conj_of kl (SPR h k Ct s (in_out_k kl) (in_out_f l)))%C.
  Proof. intros. destruct h; side part_conj. Qed.
  Lemma SPL_minus h k ch s kl l : reversible c GL -> reversible c GR -> phs c = true -> klegs_ok kl -> conserved l -> spin01 s ->
    (SPL h k ch s kl l == conj_of kl (SPL h k ch s kl (minus_f l)))%C.
  Proof. intros. unfold SPL; destruct h; apply part_minus; assumption. Qed.
  Lemma SPR_minus h k ch s kl l : reversible c GL -> reversible c GR -> phs c = true -> klegs_ok kl -> conserved l -> spin01 s ->
    (SPR h k ch s kl l == conj_of kl (SPR h k ch s kl (minus_f l)))%C.
  Proof. intros. unfold SPR; destruct h; apply part_minus; assumption. Qed.

  (** the legs of the two vertices under the operations *)
  Ltac kl4 := match goal with |- context [code4 ?a ?b ?d ?e] => destruct a, b, d, e; reflexivity end.
  Lemma klof_out a b d e : swap_out_k (klof (code4 a b d e)) = klof (code4 b a d e). Proof. destruct a, b, d, e; reflexivity. Qed.
  Lemma klof_in a b d e : swap_in_k (klof (code4 a b d e)) = klof (code4 a b e d). Proof. destruct a, b, d, e; reflexivity. Qed.
  Lemma klof_io a b d e : in_out_k (klof (code4 a b d e)) = klof (code4 d e a b). Proof. destruct a, b, d, e; reflexivity. Qed.
  Lemma spin0 : spin01 0. Proof. left; reflexivity. Qed.
  Ltac spin_tac := solve [assumption|apply spin01_flip; assumption|apply spin01_flip, spin01_flip; assumption|apply spin0|apply spin01_flip, spin0].
  Ltac cons := unfold conserved; cbn [legs_of swap_in_f swap_out_f in_out_f minus_f n1' n2' n1 n2]; field.
  Ltac lege := repeat (apply Logic.conj); cbn [legs_of swap_in_f swap_out_f in_out_f minus_f n1' n2' n1 n2];
    repeat match goal with E : (_ == _)%Q |- _ => rewrite E; clear E end; field.

  Lemma core_m h k ch s a b d e f f' x : spin01 s -> trip_eq f f' -> (core h k ch s a b d e f x == core h k ch s a b d e f' x)%C.
  Proof.
    intros Sp E. destruct f as ((w, v), v'), f' as ((w', y), y'). destruct E as (E1 & E2 & E3). cbn [fst snd] in E1, E2, E3.
    unfold core. apply code_diagram_ext_codes; [exact Sp| | |].
    - intros t p q r z Ht. unfold dA. apply SPL_m; [apply klof_ok|assumption|apply legs_of_conserved|]. apply legs_of_m. repeat (apply Logic.conj); cbn [fst snd]; auto; reflexivity.
    - intros t p q r z Ht. unfold dB. apply SPR_m; [apply klof_ok|assumption|apply legs_of_conserved|]. apply legs_of_m. repeat (apply Logic.conj); cbn [fst snd]; auto; reflexivity.
    - intros p q r z. unfold dP. cbn [fst snd]. apply lines_w; try assumption; destruct ch; unfold line1, line2; rewrite E1; reflexivity.
  Qed.
  (** which frequencies a class depends on *)
  Lemma core_class h k ch s a b d e f f' x : spin01 s -> same_class_freqs k f f' -> (core h k ch s a b d e f x == core h k ch s a b d e f' x)%C.
  Proof.
    intros Sp E. destruct f as ((w, v), v'), f' as ((w', y), y'). destruct E as (E1 & E2).
    transitivity (core h k ch s a b d e (w', v, v') x).
    { apply core_m; [exact Sp|]. repeat (apply Logic.conj); cbn [fst snd]; auto; reflexivity. }
    unfold core. apply code_diagram_ext_codes; [exact Sp| | |].
    - intros t p q r z Ht. unfold dA. destruct (left_dressed k) eqn:D.
      + apply SPL_m; [apply klof_ok|assumption|apply legs_of_conserved|]. apply legs_of_m.
        destruct k; try discriminate D; repeat (apply Logic.conj); cbn [fst snd]; try reflexivity; try exact E2; apply E2.
      + unfold SPL. rewrite D. destruct h; apply left_same_m; auto using klof_ok.
    - intros t p q r z Ht. unfold dB. destruct (right_dressed k) eqn:D.
      + apply SPR_m; [apply klof_ok|assumption|apply legs_of_conserved|]. apply legs_of_m.
        destruct k; try discriminate D; repeat (apply Logic.conj); cbn [fst snd]; try reflexivity; try exact E2; apply E2.
      + unfold SPR. rewrite D. destruct h; apply right_same_m; auto using klof_ok.
    - intros p q r z. reflexivity.
  Qed.

  Lemma core_out_at h k ch s a b d e w v v' x : ch <> Cp -> spin01 s ->
    (core h k ch s a b d e (w, v, v') x == core h k (crossed_at ch) (1 - s) b a d e (w, v, v') x)%C.
  Proof.
    intros Hc Sp. unfold core. apply code_out_at; [exact Hc|exact Sp| | |].
    - intros t p q r z Ht. unfold dA. rewrite SPL_out by (auto using klof_ok, legs_of_conserved). rewrite klof_out.
      apply Cneg_m, SPL_m; destruct ch; try congruence; cbn [crossed_at]; first [apply klof_ok|spin_tac|cons|lege].
    - intros t p q r z Ht. unfold dB. rewrite SPR_out by (auto using klof_ok, legs_of_conserved). rewrite klof_out.
      apply Cneg_m, SPR_m; destruct ch; try congruence; cbn [crossed_at]; first [apply klof_ok|spin_tac|cons|lege].
    - intros p q r z. unfold dP. cbn [fst snd]. apply lines_w; try assumption; destruct ch; try congruence; reflexivity.
  Qed.
  Lemma core_in_at h k ch s a b d e w v v' x : ch <> Cp -> spin01 s ->
    (core h k ch s a b d e (w, v, v') x == core (negb h) (mirror true k) (crossed_at ch) (1 - s) a b e d (- w, v', v)%Q x)%C.
  Proof.
    intros Hc Sp. unfold core. apply code_in_at; [exact Hc|exact Sp| | |].
    - intros t p q r z Ht. unfold dA, dB. rewrite SPL_in by (auto using klof_ok, legs_of_conserved). rewrite klof_in.
      apply Cneg_m, SPR_m; destruct ch; try congruence; cbn [crossed_at]; first [apply klof_ok|spin_tac|cons|lege].
    - intros t p q r z Ht. unfold dA, dB. rewrite SPR_in by (auto using klof_ok, legs_of_conserved). rewrite klof_in.
      apply Cneg_m, SPL_m; destruct ch; try congruence; cbn [crossed_at]; first [apply klof_ok|spin_tac|cons|lege].
    - intros p q r z. unfold dP. cbn [fst snd]. apply lines_exchanged; try assumption; destruct ch; try congruence; cbn [crossed_at line1 line2]; field.
  Qed.
  Lemma core_out_p h k s a b d e w v v' x : spin01 s ->
    (core h k Cp s a b d e (w, v, v') x == - core h k Cp (1 - s) b a d e (w, - v, v')%Q x)%C.
  Proof.
    intros Sp. unfold core. rewrite !code_p by auto using spin01_flip. apply diagram_out_p.
    - intros p q r z. unfold dA. rewrite SPL_out by (auto using klof_ok, legs_of_conserved). rewrite klof_out.
      apply Cneg_m, SPL_m; cbn [crossed_at]; first [apply klof_ok|spin_tac|cons|lege].
    - intros p q r z. unfold dB. reflexivity.
    - intros. reflexivity.
  Qed.
  (** exchange of the two internal legs *)
  Lemma cross_p h k s1 s2 a b d e w v v' x : spin01 s1 -> spin01 s2 ->
    (diagram Cp (dA h k Cp (w, v, v') x s1) (dP Cp (w, v, v') x) (dB h k Cp (w, v, v') x s2) a b d e ==
     diagram Cp (dA h k Cp (w, v, v') (- x)%Q (1 - s1)) (dP Cp (w, v, v') (- x)%Q) (dB h k Cp (w, v, v') (- x)%Q (1 - s2)) a b d e)%C.
  Proof.
    intros Sp1 Sp2. apply diagram_cross_p.
    - intros p q r z. unfold dA. rewrite SPL_in_p by (auto using klof_ok, legs_of_conserved). rewrite klof_in.
      apply Cneg_m, SPL_m; first [apply klof_ok|spin_tac|cons|lege].
    - intros p q r z. unfold dB. rewrite SPR_out by (auto using klof_ok, legs_of_conserved). rewrite klof_out.
      apply Cneg_m, SPR_m; cbn [crossed_at]; first [apply klof_ok|spin_tac|cons|lege].
    - intros p q r z. unfold dP. cbn [fst snd]. apply lines_exchanged; try assumption; unfold line1, line2; field.
  Qed.
  Lemma core_in_p h k s a b d e w v v' x : spin01 s ->
    (core h k Cp s a b d e (w, v, v') x == - core h k Cp (1 - s) a b e d (w, v, - v')%Q (- x)%Q)%C.
  Proof.
    intros Sp. unfold core. rewrite !code_p by auto using spin01_flip.
    assert (H0 : spin01 0) by (left; reflexivity). assert (H1 : spin01 1) by (right; reflexivity).
    rewrite (cross_p h k s 0 a b d e w v v' x Sp H0). apply diagram_in_p.
    - intros p q r z. unfold dA. reflexivity.
    - intros p q r z. unfold dB. rewrite SPR_in_p by (auto using klof_ok, legs_of_conserved). rewrite klof_in. change (1 - (1 - 0)) with 0.
      apply Cneg_m, SPR_m; first [apply klof_ok|spin_tac|cons|lege].
    - intros. reflexivity.
  Qed.
  Lemma core_conj_a h k s a b d e w v v' x : spin01 s ->
    (core h k Ca s a b d e (w, v, v') x == eps4 a b d e * Cconj (core (negb h) (mirror true k) Ca s d e a b (w, v', v) x))%C.
  Proof.
    intros Sp. assert (Hc : Ca <> Ct) by discriminate. unfold core. apply code_conj_a; [exact Sp| | |].
    - intros t p q r z Ht. unfold dA, dB. rewrite SPL_conj by (auto using klof_ok, legs_of_conserved). rewrite conj_of_eps, klof_io.
      apply Cneg_m, Cmul_m, Cconj_m, SPR_m; try reflexivity; first [apply klof_ok|spin_tac|cons|lege].
    - intros t p q r z Ht. unfold dA, dB. rewrite SPR_conj by (auto using klof_ok, legs_of_conserved). rewrite conj_of_eps, klof_io.
      apply Cneg_m, Cmul_m, Cconj_m, SPL_m; try reflexivity; first [apply klof_ok|spin_tac|cons|lege].
    - intros p q r z. unfold dP. cbn [fst snd]. apply lines_conj; assumption.
  Qed.
  Lemma core_conj_t h k s a b d e w v v' x : spin01 s ->
    (core h k Ct s a b d e (w, v, v') x == eps4 a b d e * Cconj (core h k Ct s d e a b (- w, v, v')%Q x))%C.
  Proof.
    intros Sp. unfold core. apply code_conj_t; [exact Sp| | |].
    - intros t p q r z Ht. unfold dA, dB. rewrite SPL_conj_t by (auto using klof_ok, legs_of_conserved). rewrite conj_of_eps, klof_io.
      apply Cneg_m, Cmul_m, Cconj_m, SPL_m; try reflexivity; first [apply klof_ok|spin_tac|cons|lege].
    - intros t p q r z Ht. unfold dA, dB. rewrite SPR_conj_t by (auto using klof_ok, legs_of_conserved). rewrite conj_of_eps, klof_io.
      apply Cneg_m, Cmul_m, Cconj_m, SPR_m; try reflexivity; first [apply klof_ok|spin_tac|cons|lege].
    - intros p q r z. unfold dP. cbn [fst snd]. rewrite (lines_conj diff g S0 Hg HS).
      apply Cmul_m; [reflexivity|]. apply Cconj_m. apply lines_exchanged; try assumption; unfold line1, line2; field.
  Qed.
  (** the p channel: spin 1 needs the exchange of the internal legs *)
  Lemma core_conj_p h k s a b d e w v v' x : spin01 s ->
    (core h k Cp s a b d e (w, v, v') x ==
     eps4 a b d e * Cconj (core (negb h) (mirror true k) Cp s d e a b (w, v', v) (if s =? 0 then x else - x)%Q))%C.
  Proof.
    intros Sp. assert (Hc : Cp <> Ct) by discriminate.
    assert (H0 : spin01 0) by (left; reflexivity). assert (H1 : spin01 1) by (right; reflexivity).
    unfold core. rewrite !code_p by exact Sp.
    rewrite (diagram_conj_ap Cp _ (dA (negb h) (mirror true k) Cp (w, v', v) x 0) _ (dB (negb h) (mirror true k) Cp (w, v', v) x s) _
      (dP Cp (w, v', v) x)); [|exact Hc| | |].
    - apply Cmul_m; [reflexivity|]. apply Cconj_m. destruct Sp as [-> | ->]; [reflexivity|].
      exact (cross_p (negb h) (mirror true k) 0 1 d e a b w v' v x H0 H1).
    - intros p q r z. unfold dA, dB. rewrite SPL_conj by (auto using klof_ok, legs_of_conserved). rewrite conj_of_eps, klof_io.
      apply Cneg_m, Cmul_m, Cconj_m, SPR_m; try reflexivity; first [apply klof_ok|spin_tac|cons|lege].
    - intros p q r z. unfold dA, dB. rewrite SPR_conj by (auto using klof_ok, legs_of_conserved). rewrite conj_of_eps, klof_io.
      apply Cneg_m, Cmul_m, Cconj_m, SPL_m; try reflexivity; first [apply klof_ok|spin_tac|cons|lege].
    - intros p q r z. unfold dP. cbn [fst snd]. apply lines_conj; assumption.
  Qed.
  Lemma core_minus h k ch s a b d e w v v' x : reversible c GL -> reversible c GR -> phs c = true -> ph_symmetric g -> ph_symmetric S0 ->
    spin01 s ->
    (core h k ch s a b d e (w, v, v') x == eps4 a b d e * Cconj (core h k ch s a b d e (- w, - v, - v')%Q (- x)%Q))%C.
  Proof.
    intros R1 R2 Ph Sg SS Sp. unfold core. apply code_minus; [exact Sp| | |].
    - intros t p q r z Ht. unfold dA. rewrite SPL_minus by (auto using klof_ok, legs_of_conserved). rewrite conj_of_eps.
      apply Cneg_m, Cmul_m, Cconj_m, SPL_m; try reflexivity; destruct ch; first [apply klof_ok|spin_tac|cons|lege].
    - intros t p q r z Ht. unfold dB. rewrite SPR_minus by (auto using klof_ok, legs_of_conserved). rewrite conj_of_eps.
      apply Cneg_m, Cmul_m, Cconj_m, SPR_m; try reflexivity; destruct ch; first [apply klof_ok|spin_tac|cons|lege].
    - intros p q r z. unfold dP. cbn [fst snd]. apply lines_minus; try assumption; reflexivity.
  Qed.
End Bubble.
