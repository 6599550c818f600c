(** Lemmas for splines (C45). *)
From Coq Require Import Reals Lra.
From Verif Require Import Prelude Interp_Spec Spline_Model Spline_Spec.
Open Scope R_scope.

(** cubic Hermite basis: [H d c], value (d = false) or derivative (d = true) at the lower or upper end of [0,1] *)
Definition H (dd c : bool) (s : R) : R :=
  match dd, c with
  | false, false => 1 - 3 * s * s + 2 * s * s * s
  | false, true => 3 * s * s - 2 * s * s * s
  | true, false => s - 2 * s * s + s * s * s
  | true, true => s * s * s - s * s
  end.
Definition herm (h : R) (f b : bool -> R) (x : R) : R :=
  f false * H false false (x / h) + f true * H false true (x / h) + h * (b false * H true false (x / h) + b true * H true true (x / h)).

(** ** linear algebra *)
Fixpoint vadd (x y : list R) : list R := match x, y with a :: x', b :: y' => a + b :: vadd x' y' | _, _ => [] end.
Fixpoint tmatvec (n : nat) (A : list (list Z)) (u : list R) : list R :=
  match A, u with r :: A', x :: u' => vadd (map (fun z => x * IZR z) r) (tmatvec n A' u') | _, _ => repeat 0 n end.
Lemma vadd_len x : forall y, length x = length y -> length (vadd x y) = length x.
Proof. induction x as [|a x IH]; intros [|b y] L; try discriminate; cbn in *; [reflexivity|]. rewrite IH; lia. Qed.
Lemma tmatvec_len n A : forall u, Forall (fun r => length r = n) A -> length (tmatvec n A u) = n.
Proof.
  induction A as [|r A IH]; intros u F; cbn [tmatvec]; [apply repeat_length|]. destruct u as [|x u]; [apply repeat_length|].
  inversion F; subst. rewrite vadd_len; rewrite map_length; [reflexivity|]. rewrite IH by assumption. reflexivity.
Qed.
Lemma dot_vadd f : forall x y, length x = length y -> dotR f (vadd x y) = dotR f x + dotR f y.
Proof.
  induction f as [|a f IH]; intros [|b x] [|c y] L; try discriminate; cbn; try ring. cbn in L. rewrite IH by lia. ring.
Qed.
Lemma dot_scale f x : forall r, dotR f (map (fun z => x * IZR z) r) = dotR (map IZR r) f * x.
Proof. induction f as [|a f IH]; intros [|z r]; cbn; try ring. rewrite IH. ring. Qed.
Lemma dot_zero f : forall n, dotR f (repeat 0 n) = 0.
Proof. induction f as [|a f IH]; intros [|n]; cbn; try ring. rewrite IH. ring. Qed.
Lemma dot_tmat n A fs : Forall (fun r => length r = n) A -> forall u, dotR (matvec A fs) u = dotR fs (tmatvec n A u).
Proof.
  unfold matvec. induction A as [|r A IH]; intros F u; cbn [map dotR tmatvec]; [rewrite dot_zero; reflexivity|].
  destruct u as [|x u]; [rewrite dot_zero; reflexivity|]. inversion F; subst.
  rewrite dot_vadd by (rewrite map_length, tmatvec_len; [reflexivity|assumption]). rewrite dot_scale, IH by assumption. reflexivity.
Qed.
Lemma dot_vdiv x : forall s w, length s = length w -> dotR (vdiv x s) w = dotR x (vdiv w s).
Proof.
  induction x as [|a x IH]; intros s w L; [reflexivity|]. destruct s as [|b s], w as [|c w]; try discriminate; [reflexivity|].
  cbn. rewrite IH by (cbn in L; lia). unfold Rdiv. ring.
Qed.

Lemma hermite1 h f b x : h <> 0 -> spline1 h f b x = herm h f b x.
Proof. intro N. unfold spline1, coeffs1, herm, H, matvec, A1, powers. cbn. field. exact N. Qed.

Definition prods2 (x y : R) : list R :=
  flat_map (fun dd => flat_map (fun cy => map (fun cx => H (snd dd) cy y * H (fst dd) cx x) [false; true]) [false; true])
    [(false, false); (true, false); (false, true); (true, true)].
Lemma div_powers a b : b <> 0 -> vdiv (powers a) (pow4 b) = powers (a / b).
Proof. intro N. unfold powers, pow4. cbn. repeat (apply (f_equal2 cons); [field; exact N|]). reflexivity. Qed.
Lemma vdiv_app x : forall y s t, length x = length s -> vdiv (x ++ y) (s ++ t) = vdiv x s ++ vdiv y t.
Proof. induction x as [|a x IH]; intros y [|b s] t L; try discriminate; [reflexivity|]. cbn. f_equal. apply IH. cbn in L. lia. Qed.
Lemma vdiv_map x : forall s a b, b <> 0 -> Forall (fun z => z <> 0) s -> vdiv (map (fun z => a * z) x) (map (fun z => b * z) s) = map (fun z => a / b * z) (vdiv x s).
Proof. induction x as [|c x IH]; intros [|e s] a b N F; try reflexivity. inversion F; subst. cbn. f_equal; [field; split; assumption|]. apply IH; assumption. Qed.
Lemma vdiv_outer x : forall s y t, length x = length s -> length y = length t -> Forall (fun z => z <> 0) s -> Forall (fun z => z <> 0) t ->
  vdiv (outer x y) (outer s t) = outer (vdiv x s) (vdiv y t).
Proof.
  unfold outer. induction x as [|a x IH]; intros [|b s] y t L M F G; try discriminate; [reflexivity|]. inversion F; subst. cbn [flat_map vdiv].
  rewrite vdiv_app by (rewrite !map_length; exact M). rewrite vdiv_map by assumption. f_equal. apply IH; try assumption. cbn in L. lia.
Qed.
Lemma pow4_nz b : b <> 0 -> Forall (fun z => z <> 0) (pow4 b).
Proof. intro N. unfold pow4. rewrite Forall_map. apply Forall_forall. intros i _. apply pow_nonzero. exact N. Qed.
Lemma outer_nz x y : Forall (fun z => z <> 0) x -> Forall (fun z => z <> 0) y -> Forall (fun z => z <> 0) (outer x y).
Proof.
  intros F G. unfold outer. apply Forall_flat_map. rewrite Forall_forall in *. intros a Ha. rewrite Forall_map, Forall_forall. intros b Hb.
  apply Rmult_integral_contrapositive_currified; auto.
Qed.

Lemma basis2 x y : tmatvec 16 A2 (outer (powers y) (powers x)) = prods2 x y.
Proof. unfold prods2, H, powers. cbv [tmatvec A2 outer flat_map app map vadd repeat fst snd]. repeat (apply (f_equal2 cons); [ring|]). reflexivity. Qed.

Lemma spline2_prods dw dv F x y : dw <> 0 -> dv <> 0 -> spline2 dw dv F x y = dotR (fs2 dw dv F) (prods2 (x / dw) (y / dv)).
Proof.
  intros A B. unfold spline2, coeffs2. rewrite dot_vdiv by reflexivity. rewrite vdiv_outer by (reflexivity || (apply pow4_nz; assumption)).
  rewrite !div_powers by assumption. rewrite (dot_tmat 16) by (unfold A2; repeat constructor). rewrite basis2. reflexivity.
Qed.
(** nested one-dimensional interpolation *)
Lemma hermite2 dw dv F x y : dw <> 0 -> dv <> 0 ->
  spline2 dw dv F x y = herm dv (fun cy => herm dw (fun cx => F false false cx cy) (fun cx => F true false cx cy) x)
                                (fun cy => herm dw (fun cx => F false true cx cy) (fun cx => F true true cx cy) x) y.
Proof.
  intros A B. rewrite spline2_prods by assumption. unfold herm, prods2, fs2, corners2.
  cbn [flat_map map app fst snd dotR]. ring.
Qed.

Definition prods3 (x y z : R) : list R :=
  flat_map (fun dd => flat_map (fun cz => flat_map (fun cy => map (fun cx => H (snd dd) cz z * H (snd (fst dd)) cy y * H (fst (fst dd)) cx x)
      [false; true]) [false; true]) [false; true])
    [((false, false), false); ((true, false), false); ((false, true), false); ((false, false), true);
     ((true, true), false); ((true, false), true); ((false, true), true); ((true, true), true)].
Lemma basis3 x y z : tmatvec 64 A3 (outer (outer (powers z) (powers y)) (powers x)) = prods3 x y z.
Proof. unfold prods3, H, powers. cbv [tmatvec A3 outer flat_map app map vadd repeat fst snd]. repeat (apply (f_equal2 cons); [ring|]). reflexivity. Qed.
Lemma spline3_prods dw dv dvp F x y z : dw <> 0 -> dv <> 0 -> dvp <> 0 ->
  spline3 dw dv dvp F x y z = dotR (fs3 dw dv dvp F) (prods3 (x / dw) (y / dv) (z / dvp)).
Proof.
  intros A B C. unfold spline3, coeffs3. rewrite dot_vdiv by reflexivity.
  rewrite vdiv_outer by (reflexivity || (apply pow4_nz; assumption) || (apply outer_nz; apply pow4_nz; assumption)).
  rewrite vdiv_outer by (reflexivity || (apply pow4_nz; assumption)).
  rewrite !div_powers by assumption. rewrite (dot_tmat 64) by (unfold A3; repeat constructor). rewrite basis3. reflexivity.
Qed.
Lemma hermite3 dw dv dvp F x y z : dw <> 0 -> dv <> 0 -> dvp <> 0 ->
  let g dy dz cy cz := herm dw (fun cx => F false dy dz cx cy cz) (fun cx => F true dy dz cx cy cz) x in
  let f dz cz := herm dv (fun cy => g false dz cy cz) (fun cy => g true dz cy cz) y in
  spline3 dw dv dvp F x y z = herm dvp (fun cz => f false cz) (fun cz => f true cz) z.
Proof.
  intros A B C g f. rewrite spline3_prods by assumption. unfold f, g, herm, prods3, fs3, corners3.
  cbn [flat_map map app fst snd dotR]. ring.
Qed.

(** ** the one-dimensional interpolant *)
Definition herm' (h : R) (f b : bool -> R) (x : R) : R :=
  let s := x / h in
  (f true - f false) / h * (6 * s - 6 * s * s) + b false * (1 - 4 * s + 3 * s * s) + b true * (3 * s * s - 2 * s).
Lemma dext f g x l l' : (forall y, f y = g y) -> l = l' -> derivable_pt_lim f x l -> derivable_pt_lim g x l'.
Proof. intros E -> D eps He. destruct (D eps He) as (del & K). exists del. intros k K0 K1. rewrite <- !E. apply K; assumption. Qed.
Lemma herm_deriv h f b x : h <> 0 -> derivable_pt_lim (herm h f b) x (herm' h f b x).
Proof.
  intro N.
  assert (L : derivable_pt_lim (fun x => x / h) x (/ h)).
  { apply (dext (fun x => / h * x) _ x (/ h * 1)); [intro; field; exact N|ring|]. apply derivable_pt_lim_scal, derivable_pt_lim_id. }
  set (s := fun x => x / h).
  assert (S2 : derivable_pt_lim (fun x => s x * s x) x (/ h * s x + s x * / h)) by (apply (derivable_pt_lim_mult s s); exact L).
  assert (S3 : derivable_pt_lim (fun x => s x * s x * s x) x ((/ h * s x + s x * / h) * s x + s x * s x * / h)) by (apply (derivable_pt_lim_mult (fun x => s x * s x) s); assumption).
  assert (P : forall c0 c1 c2 c3, derivable_pt_lim (fun x => c0 + c1 * s x + c2 * (s x * s x) + c3 * (s x * s x * s x)) x
     (0 + c1 * / h + c2 * (/ h * s x + s x * / h) + c3 * ((/ h * s x + s x * / h) * s x + s x * s x * / h))).
  { intros. repeat apply derivable_pt_lim_plus; [apply derivable_pt_lim_const| | |]; apply derivable_pt_lim_scal; assumption. }
  specialize (P (f false) (h * b false) (- 3 * f false + 3 * f true - 2 * h * b false - h * b true) (2 * f false - 2 * f true + h * b false + h * b true)).
  eapply dext; [| |exact P].
  - intro y. unfold herm, H, s. field. exact N.
  - unfold herm', s. field. exact N.
Qed.
Lemma herm_end h f b c : h <> 0 -> herm h f b (at_end c h) = f c.
Proof. intro N. unfold herm, H, at_end. destruct c; field; exact N. Qed.
Lemma herm'_end h f b c : h <> 0 -> herm' h f b (at_end c h) = b c.
Proof. intro N. unfold herm', at_end. destruct c; field; exact N. Qed.
Lemma herm_cubic h (p : cub) x : h <> 0 -> herm h (fun c => cubic p (at_end c h)) (fun c => cubic' p (at_end c h)) x = cubic p x.
Proof. intro N. destruct p as (((a & b) & c) & e). unfold herm, H, at_end, cubic, cubic'. field. exact N. Qed.
Lemma herm_ext h f b f' b' x : (forall c, f c = f' c) -> (forall c, b c = b' c) -> herm h f b x = herm h f' b' x.
Proof. intros A B. unfold herm. rewrite !A, !B. reflexivity. Qed.
Lemma herm_scale h f b x k : herm h (fun c => f c * k) (fun c => b c * k) x = herm h f b x * k.
Proof. unfold herm. ring. Qed.
Lemma herm_sum {T} h (f b : T -> bool -> R) x l :
  herm h (fun c => sumR (map (fun t => f t c) l)) (fun c => sumR (map (fun t => b t c) l)) x = sumR (map (fun t => herm h (f t) (b t) x) l).
Proof. induction l as [|t l IH]; cbn [map sumR]; [unfold herm; ring|]. rewrite <- IH. unfold herm. ring. Qed.
(** a parameter in the values and slopes *)
Lemma herm_param h (f b : bool -> R -> R) x y f' b' : (forall c, derivable_pt_lim (f c) y (f' c)) -> (forall c, derivable_pt_lim (b c) y (b' c)) ->
  derivable_pt_lim (fun y => herm h (fun c => f c y) (fun c => b c y) x) y (herm h f' b' x).
Proof.
  intros A B. unfold herm.
  assert (M : forall g l k, derivable_pt_lim g y l -> derivable_pt_lim (fun y => g y * k) y (l * k)).
  { intros g l k Hg. apply (dext (fun y => k * g y) _ y (k * l)); [intro; ring|ring|]. apply derivable_pt_lim_scal. exact Hg. }
  apply (derivable_pt_lim_plus (fun y => f false y * _ + f true y * _)); [apply derivable_pt_lim_plus; apply M; apply A|].
  apply derivable_pt_lim_scal. apply derivable_pt_lim_plus; apply M; apply B.
Qed.
