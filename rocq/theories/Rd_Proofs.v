(** Proofs for Rd_Props. *)
From Coq Require Import QArith.
From Verif Require Import Prelude Cplx Keld_Model Util_Model Util_Spec Util_Proofs Sym_Model Sym_Spec Tab_Model Tab_Spec
  Sym_Proofs Sym_Proofs2 Sym_Props Rd_Model Rd_Spec.
Open Scope Z_scope.

Lemma carried_in : forall ch, carried swap_in_k ch (switch_channel ch) (match ch with Cp => false | _ => true end).
Proof. intros []; reflexivity. Qed.
Lemma carried_out : forall ch, carried swap_out_k ch (switch_channel ch) false.
Proof. intros []; reflexivity. Qed.
Lemma carried_conj : forall ch, carried in_out_k ch ch (match ch with Ct => false | _ => true end).
Proof. intros []; reflexivity. Qed.

Lemma T1_flags : forall c sb x y, T1 c sb x = Some y -> channel_rvert y = switch_channel (channel_rvert x) /\
  asymmetry_transform y = xorb (asymmetry_transform x) (match channel_rvert x with Cp => false | _ => true end) /\
  (w y == match channel_rvert x with Cp => w x | _ => - w x end)%Q.
Proof.
  intros c sb x y H. unfold T1 in H. obi H. destruct (channel_rvert x); [injection H as <-|obi H; injection H as <-|injection H as <-];
  cbn [channel_rvert asymmetry_transform w]; (split; [reflexivity|split; [destruct (asymmetry_transform x); reflexivity|ring]]).
Qed.
Lemma T2_flags : forall c sb x y, T2 c sb x = Some y -> channel_rvert y = switch_channel (channel_rvert x) /\
  asymmetry_transform y = xorb (asymmetry_transform x) false /\ (w y == w x)%Q.
Proof.
  intros c sb x y H. unfold T2 in H. obi H. destruct (channel_rvert x); [injection H as <-|obi H; injection H as <-|injection H as <-];
  cbn [channel_rvert asymmetry_transform w]; (split; [reflexivity|split; [destruct (asymmetry_transform x); reflexivity|ring]]).
Qed.
Lemma TC_flags : forall c sb x y, TC c sb x = Some y -> channel_rvert y = channel_rvert x /\
  asymmetry_transform y = xorb (asymmetry_transform x) (match channel_rvert x with Ct => false | _ => true end) /\
  ((w y == w x) \/ (w y == - w x))%Q.
Proof.
  intros c sb x y H. unfold TC in H. obi H.
  destruct (keldysh c), (channel_rvert x); try obi H; injection H as <-;
  cbn [channel_rvert asymmetry_transform w]; (split; [reflexivity|split; [destruct (asymmetry_transform x); reflexivity|
    first [left; ring|right; ring]]]).
Qed.

Definition cj (b : bool) (z : cplx) : cplx := if b then Cconj z else z.
(** the value that a transformation record stands for *)
Definition meaning (G : family) (k : kcl) (x : indices) (kl : klegs) (l : legs) : cplx :=
  Cscale (prefactor x) (cj (conjugate x) (G (asymmetry_transform x) (channel_rvert x) k (spin x) kl l)).
Definition good (c : cfg) (x : indices) (kl : klegs) (l : legs) : Prop :=
  wf c x /\ klegs_for c kl /\ iK x = kcode kl /\ legs_are (mf c) (channel_rvert x) (freqs x) l /\ (spin x = 0 \/ spin x = 1).

Lemma cj_scale : forall b q z, (cj b (Cscale q z) == Cscale q (cj b z))%C.
Proof. intros [] q [a b]; split; unfold cj, Cconj, Cscale; cbn [re im]; ring. Qed.
Lemma cscale_scale : forall p q z, (Cscale p (Cscale q z) == Cscale (q * p) z)%C.
Proof. intros p q [a b]; split; unfold cj, Cconj, Cscale; cbn [re im xorb]; ring. Qed.
Lemma cj_cj : forall b z, (cj b (Cconj z) == cj (xorb true b) z)%C.
Proof. intros [] [a b]; split; unfold cj, Cconj, Cscale; cbn [re im xorb]; try ring; reflexivity. Qed.
Lemma cj_m : forall b x y, (x == y -> cj b x == cj b y)%C.
Proof. intros [] x y H; cbn; [apply Cconj_m; exact H|exact H]. Qed.
Lemma klegs_for_swap_in : forall c kl, klegs_for c kl -> klegs_for c (swap_in_k kl).
Proof.
  intros c kl (H & E). split; [destruct H as (A & B & C & D); unfold klegs_ok; cbn; tauto|].
  intro K. rewrite (E K). reflexivity.
Qed.
Lemma klegs_for_swap_out : forall c kl, klegs_for c kl -> klegs_for c (swap_out_k kl).
Proof.
  intros c kl (H & E). split; [destruct H as (A & B & C & D); unfold klegs_ok; cbn; tauto|].
  intro K. rewrite (E K). reflexivity.
Qed.
Lemma klegs_for_in_out : forall c kl, klegs_for c kl -> klegs_for c (in_out_k kl).
Proof.
  intros c kl (H & E). split; [destruct H as (A & B & C & D); unfold klegs_ok; cbn; tauto|].
  intro K. rewrite (E K). reflexivity.
Qed.
Lemma minus1_sign : forall sbe k kl, minus1 (lambda_class sbe k) kl = exchange_sign sbe k.
Proof. intros [] []; reflexivity. Qed.
Lemma bos_ext : forall c a b, (a == b \/ a == - b)%Q -> (mf c = true -> bosonic b) -> mf c = true -> bosonic a.
Proof.
  intros c a b [H|H] B M; [apply (bosonic_ext b); [symmetry; exact H|auto]|].
  apply (bosonic_ext (- b)); [symmetry; exact H|apply bosonic_opp; auto].
Qed.

Lemma legs_are_conserved : forall m ch f l, legs_are m ch f l -> conserved l.
Proof.
  intros m ch ((w0, v), v') l H. unfold legs_are in H. destruct m; [destruct H as (lo & hi & _ & H)|];
  destruct H as (A & B & C & D); unfold conserved; rewrite A, B, C, D; destruct ch; cbn [legs_split legs_of n1' n2' n1 n2]; ring.
Qed.

Section Steps.
Variables (c : cfg) (sbe : bool) (G : family).
Hypothesis P : physical c sbe G.

Lemma step_T1 : forall k x kl l, good c x kl l -> exists y, T1 c (lambda_class sbe k) x = Some y /\
  good c y (swap_in_k kl) (swap_in_f l) /\
  (meaning G k x kl l == meaning G (mirror (match channel_rvert x with Cp => false | _ => true end) k) y
     (swap_in_k kl) (swap_in_f l))%C /\
  spin y = 1 - spin x /\ channel_rvert y = switch_channel (channel_rvert x) /\
  asymmetry_transform y = xorb (asymmetry_transform x) (match channel_rvert x with Cp => false | _ => true end).
Proof.
  intros k x kl l (W & KL & EK & L & Sp).
  destruct (C18_T1_exchanges_incoming_legs c (lambda_class sbe k) x W) as (y & E & Ly & Sy & Cy & R).
  destruct (R kl (proj1 KL) EK) as (R1 & R2). destruct (T1_flags _ _ _ _ E) as (F1 & F2 & F3).
  exists y. split; [exact E|].
  assert (EKy : iK y = kcode (swap_in_k kl)).
  { destruct (keldysh c) eqn:K; [exact (R1 eq_refl)|]. pose proof (proj2 KL K) as E1. subst kl.
    unfold T1 in E. rewrite K in E. cbn [obind] in E.
    destruct (channel_rvert x); [injection E as <-|obi E; injection E as <-|injection E as <-]; cbn [iK]; exact EK. }
  split.
  { split; [|split; [apply klegs_for_swap_in; exact KL|split; [exact EKy|split; [apply Ly; exact L|rewrite Sy; lia]]]].
    split; [|eapply bos_ext; [|exact (proj2 W)]; destruct (channel_rvert x); auto].
    intros K. rewrite EKy. apply kcode_range. exact (proj1 (klegs_for_swap_in _ _ KL)). }
  split; [|auto].
  unfold meaning. cbn [xorb] in Cy. rewrite Cy, Sy, F1, F2, R2, minus1_sign. destruct (conjugate x) eqn:Ec; cbn [xorb].
  - rewrite <- cscale_scale, <- (cj_scale _ (exchange_sign sbe k)). apply Cscale_m; [reflexivity|]. apply cj_m.
    apply (exchange_in _ _ _ P); [apply carried_in|exact (proj1 KL)|eapply legs_are_conserved; exact L|exact Sp].
  - rewrite <- cscale_scale, <- (cj_scale _ (exchange_sign sbe k)). apply Cscale_m; [reflexivity|]. apply cj_m.
    apply (exchange_in _ _ _ P); [apply carried_in|exact (proj1 KL)|eapply legs_are_conserved; exact L|exact Sp].
Qed.
Lemma step_T2 : forall k x kl l, good c x kl l -> exists y, T2 c (lambda_class sbe k) x = Some y /\
  good c y (swap_out_k kl) (swap_out_f l) /\
  (meaning G k x kl l == meaning G k y (swap_out_k kl) (swap_out_f l))%C /\
  spin y = 1 - spin x /\ channel_rvert y = switch_channel (channel_rvert x) /\
  asymmetry_transform y = xorb (asymmetry_transform x) false.
Proof.
  intros k x kl l (W & KL & EK & L & Sp).
  destruct (C18_T2_exchanges_outgoing_legs c (lambda_class sbe k) x W) as (y & E & Ly & Sy & Cy & R).
  destruct (R kl (proj1 KL) EK) as (R1 & R2). destruct (T2_flags _ _ _ _ E) as (F1 & F2 & F3).
  exists y. split; [exact E|].
  assert (EKy : iK y = kcode (swap_out_k kl)).
  { destruct (keldysh c) eqn:K; [exact (R1 eq_refl)|]. pose proof (proj2 KL K) as E1. subst kl.
    unfold T2 in E. rewrite K in E. cbn [obind] in E.
    destruct (channel_rvert x); [injection E as <-|obi E; injection E as <-|injection E as <-]; cbn [iK]; exact EK. }
  split.
  { split; [|split; [apply klegs_for_swap_out; exact KL|split; [exact EKy|split; [apply Ly; exact L|rewrite Sy; lia]]]].
    split; [|eapply bos_ext; [left; exact F3|exact (proj2 W)]].
    intros K. rewrite EKy. apply kcode_range. exact (proj1 (klegs_for_swap_out _ _ KL)). }
  split; [|auto].
  unfold meaning. cbn [xorb] in Cy. rewrite Cy, Sy, F1, F2, R2, minus1_sign.
  replace (if conjugate x then true else false) with (conjugate x) by (destruct (conjugate x); reflexivity).
  rewrite <- cscale_scale, <- (cj_scale _ (exchange_sign sbe k)). apply Cscale_m; [reflexivity|]. apply cj_m.
  apply (exchange_out _ _ _ P _ _ _ false); [apply carried_out|exact (proj1 KL)|eapply legs_are_conserved; exact L|exact Sp].
Qed.
Lemma conj_sg_sign : forall k kl, contour c = false -> (conj_sg c (lambda_class sbe k) kl == conjugation_sign sbe k kl)%Q.
Proof. intros k kl H. unfold conj_sg, conjugation_sign, lambda_class. rewrite H. destruct k, sbe; ring. Qed.
Lemma step_TC : forall k x kl l, (keldysh c = true -> contour c = false) -> good c x kl l ->
  exists y kl' l', TC c (lambda_class sbe k) x = Some y /\ good c y kl' l' /\
  (meaning G k x kl l == meaning G (mirror (match channel_rvert x with Ct => false | _ => true end) k) y kl' l')%C /\
  spin y = spin x /\ channel_rvert y = channel_rvert x /\
  asymmetry_transform y = xorb (asymmetry_transform x) (match channel_rvert x with Ct => false | _ => true end).
Proof.
  intros k x kl l CB (W & KL & EK & L & Sp). destruct (keldysh c) eqn:K.
  - destruct (C18_TC_exchanges_in_and_out_keldysh c (lambda_class sbe k) K x W) as (y & E & Ly & Sy & Cy & R).
    destruct (R kl (proj1 KL) EK) as (R1 & R2). destruct (TC_flags _ _ _ _ E) as (F1 & F2 & F3).
    exists y, (in_out_k kl), (in_out_f l). split; [exact E|]. split.
    { split; [|split; [apply klegs_for_in_out; exact KL|split; [exact (R1 K)|split; [apply Ly; exact L|rewrite Sy; exact Sp]]]].
      split; [|eapply bos_ext; [exact F3|exact (proj2 W)]].
      intros _. rewrite (R1 K). apply kcode_range. exact (proj1 (klegs_for_in_out _ _ KL)). }
    split; [|auto].
    unfold meaning. rewrite Cy, Sy, F1, F2, R2, (conj_sg_sign k kl (CB eq_refl)).
    rewrite <- cj_cj. rewrite <- cscale_scale, <- (cj_scale _ (conjugation_sign sbe k kl)). apply Cscale_m; [reflexivity|]. apply cj_m.
    apply (conjugation_keldysh _ _ _ P K); [apply carried_conj|exact (proj1 KL)|eapply legs_are_conserved; exact L|exact Sp].
  - destruct (C18_TC_exchanges_in_and_out_matsubara c (lambda_class sbe k) K x W) as (y & E & Ly & Sy & Cy & R).
    destruct (R kl (proj1 KL) EK) as (R1 & R2). destruct (TC_flags _ _ _ _ E) as (F1 & F2 & F3).
    exists y, kl, (minus_f (in_out_f l)). split; [exact E|].
    assert (EKy : iK y = kcode kl).
    { pose proof (proj2 KL K) as E1. subst kl. unfold TC in E. rewrite K in E. cbn [obind] in E.
      destruct (channel_rvert x); obi E; injection E as <-; cbn [iK]; exact EK. }
    split.
    { split; [|split; [exact KL|split; [exact EKy|split; [apply Ly; exact L|rewrite Sy; exact Sp]]]].
      split; [rewrite K; discriminate|eapply bos_ext; [exact F3|exact (proj2 W)]]. }
    split; [|auto].
    unfold meaning. rewrite Cy, Sy, F1, F2, R2.
    rewrite <- cj_cj. transitivity (Cscale (1 * prefactor x) (cj (conjugate x) (G (asymmetry_transform x) (channel_rvert x) k (spin x) kl l))).
    { apply Cscale_m; [ring|reflexivity]. }
    apply Cscale_m; [reflexivity|]. apply cj_m.
    apply (conjugation_matsubara _ _ _ P K); [apply carried_conj|eapply legs_are_conserved; exact L|exact Sp].
Qed.

(** reading the record in the stored class gives its meaning *)
Lemma read_meaning : forall D h y k k' kl l, k' = (match k with k2b => k2 | _ => k end) ->
  stores c false G h (channel_rvert y) D -> h = asymmetry_transform y -> good c y kl l -> spin y = 0 ->
  exists v, read_symmetryreduced c false k y D = Some v /\ (v == meaning G k' y kl l)%C.
Proof.
  intros D h y k k' kl l Ek (ED & HD) Eh (W & KL & EK & L & _) Sp. unfold read_symmetryreduced. rewrite ED.
  replace (ch_eqb (channel_rvert y) (channel_rvert y)) with true by (destruct (channel_rvert y); reflexivity).
  eexists. split; [reflexivity|].
  assert (V : (read_value false k y D == G (asymmetry_transform y) (channel_rvert y) k' (spin y) kl l)%C).
  { rewrite Sp. destruct (HD 0 kl (w y) (v1 y) (v2 y) l (or_introl eq_refl) KL L) as (A1 & A2 & _ & A3).
    rewrite <- Eh. unfold read_value. rewrite Sp, EK. destruct k; subst k'; assumption. }
  unfold meaning. apply Cscale_m; [reflexivity|]. unfold cj.
  destruct (conjugate y); rewrite ?andb_false_r, ?andb_true_r; [|exact V].
  destruct (keldysh c) eqn:K; cbn [orb]; [apply Cconj_m; exact V|].
  destruct (phs c) eqn:Ph; cbn [negb]; [|apply Cconj_m; exact V].
  pose proof (real_matsubara _ _ _ P K Ph (asymmetry_transform y) (channel_rvert y) k' (spin y) kl l) as I.
  destruct V as (V1 & V2). split; unfold Cconj; cbn [re im]; [exact V1|]. rewrite V2, I. reflexivity.
Qed.

Lemma start_good : forall k ch s kl w v v' l, klegs_for c kl -> s = 0 \/ s = 1 -> legs_are (mf c) ch (w, v, v') l ->
  (mf c = true -> bosonic w) -> let x := indices_of (mkIn (kcode kl) s w v v') ch in
  good c x kl l /\ (meaning G k x kl l == G false ch k s kl l)%C.
Proof.
  intros k ch s kl w0 v v' l KL Sp L B x. split.
  - split; [|split; [exact KL|split; [reflexivity|split; [exact L|exact Sp]]]].
    split; [intros _; apply kcode_range; exact (proj1 KL)|exact B].
  - unfold meaning, x, indices_of, cj. cbn [prefactor conjugate asymmetry_transform channel_rvert spin in_spin].
    split; unfold Cscale; cbn [re im]; ring.
Qed.

Lemma finish : forall k ch y kl l z0 this crossing same switched,
  stores c false G false ch this -> stores c false G false (crossed ch) crossing ->
  stores c false G true ch same -> stores c false G true (crossed ch) switched ->
  good c y kl l -> spin y = 0 -> channel_rvert y = ch \/ channel_rvert y = crossed ch ->
  (z0 == meaning G (match k with k2b => k2 | _ => k end) y kl l)%C ->
  exists z, read_symmetryreduced c false k y
    (if asymmetry_transform y then (if ch_eqb ch (channel_rvert y) then same else switched)
     else (if ch_eqb (channel_rvert y) ch then this else crossing)) = Some z /\ (z == z0)%C.
Proof.
  intros k ch y kl l z0 this crossing same switched S1 S2 S3 S4 Gy Sp Ch M.
  match goal with |- context [read_symmetryreduced _ _ _ _ ?D] => assert (SD : stores c false G (asymmetry_transform y) (channel_rvert y) D) end.
  { destruct (asymmetry_transform y), ch, (channel_rvert y); cbn [ch_eqb crossed] in *; destruct Ch; try discriminate; assumption. }
  destruct (read_meaning _ _ y k _ kl l eq_refl SD eq_refl Gy Sp) as (z & R & V).
  exists z. split; [exact R|]. rewrite V, M. reflexivity.
Qed.

(** apply one operation of a code and express channel, mirroring and class of its result *)
Ltac after x M Cy := match goal with H : channel_rvert x = _ |- _ => try rewrite H in M; rewrite H in Cy; cbn [mirror switch_channel] in M, Cy end;
  cbn [obind].
Ltac op1 := match goal with Gd : good _ ?x ?kl ?l, M0 : (meaning _ ?k ?x _ _ == _)%C |- context [T1 _ _ ?x] =>
  let y := fresh "y" in let E := fresh "E" in let Gy := fresh "Gy" in let M := fresh "M" in let Sy := fresh "Sy" in
  let Cy := fresh "Cy" in
  destruct (step_T1 k x kl l Gd) as (y & E & Gy & M & Sy & Cy & _); cbn [lambda_class] in E |- *; rewrite E;
  after x M Cy; rewrite M in M0; clear Gd M E end.
Ltac op2 := match goal with Gd : good _ ?x ?kl ?l, M0 : (meaning _ ?k ?x _ _ == _)%C |- context [T2 _ _ ?x] =>
  let y := fresh "y" in let E := fresh "E" in let Gy := fresh "Gy" in let M := fresh "M" in let Sy := fresh "Sy" in
  let Cy := fresh "Cy" in
  destruct (step_T2 k x kl l Gd) as (y & E & Gy & M & Sy & Cy & _); cbn [lambda_class] in E |- *; rewrite E;
  after x M Cy; rewrite M in M0; clear Gd M E end.
Ltac opc CB := match goal with Gd : good _ ?x ?kl ?l, M0 : (meaning _ ?k ?x _ _ == _)%C |- context [TC _ _ ?x] =>
  let y := fresh "y" in let E := fresh "E" in let Gy := fresh "Gy" in let M := fresh "M" in let Sy := fresh "Sy" in
  let Cy := fresh "Cy" in let kk := fresh "kk" in let ll := fresh "ll" in
  destruct (step_TC k x kl l CB Gd) as (y & kk & ll & E & Gy & M & Sy & Cy & _); cbn [lambda_class] in E |- *; rewrite E;
  after x M Cy; rewrite M in M0; clear Gd M E end.
Ltac fin S1 S2 S3 S4 := match goal with Gd : good _ ?y ?kl ?l, M0 : (meaning _ _ ?y _ _ == _)%C |- _ =>
  cbn [obind fst snd];
  refine (finish _ _ y kl l _ _ _ _ _ S1 S2 S3 S4 Gd _ _ _);
  [lia|first [left; assumption|right; assumption]|symmetry; exact M0] end.

Lemma valsmooth_physical : forall k ch s kl w v v' l this crossing same switched,
  (keldysh c = true -> contour c = false) ->
  stores c false G false ch this -> stores c false G false (crossed ch) crossing ->
  stores c false G true ch same -> stores c false G true (crossed ch) switched ->
  klegs_for c kl -> s = 0 \/ s = 1 -> legs_are (mf c) ch (w, v, v') l -> (mf c = true -> bosonic w) ->
  exists z, valsmooth c sbe false k this crossing same switched (mkIn (kcode kl) s w v v') = Some z /\
    (z == G false ch k s kl l)%C.
Proof.
  intros k ch s kl w0 v v' l this crossing same switched CB S1 S2 S3 S4 KL Sp L B.
  destruct (start_good k ch s kl w0 v v' l KL Sp L B) as (G0 & M0).
  unfold valsmooth, symmetry_reduce. rewrite (proj1 S1). cbn [in_spin].
  set (x := indices_of (mkIn (kcode kl) s w0 v v') ch) in *.
  assert (X : channel_rvert x = ch /\ asymmetry_transform x = false /\ spin x = s) by (repeat split; reflexivity).
  destruct X as (X1 & X2 & X3). clearbody x.
  assert (CODE : exists t, transformations (keldysh c) ch k s = Some t) by
    (destruct Sp as [-> | ->]; destruct ch, k; eexists; reflexivity).
  destruct CODE as (t & Et). rewrite Et. cbn [obind].
  destruct Sp as [-> | ->]; destruct ch, k; cbn in Et; try (destruct (keldysh c) in Et); injection Et as <-;
  match goal with |- context [Ti c ?sb x ?t] =>
    lazymatch t with
    | 0 => change (Ti c sb x t) with (Some x)
    | 1 => change (Ti c sb x t) with (T1 c sb x); op1
    | 2 => change (Ti c sb x t) with (T2 c sb x); op2
    | 3 => change (Ti c sb x t) with (y <- T1 c sb x ;; T2 c sb y); op1; op2
    | 4 => change (Ti c sb x t) with (TC c sb x); opc CB
    | 41 => change (Ti c sb x t) with (y <- TC c sb x ;; T1 c sb y); opc CB; op1
    end
  end; fin S1 S2 S3 S4.
Qed.
End Steps.
