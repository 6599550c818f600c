(** C45: cubic splines match values and slopes. *)
From Coq Require Import Reals Lra.
From Verif Require Import Prelude Interp_Spec Spline_Model Spline_Spec Spline_Proofs.
Open Scope R_scope.

(** ** one dimension *)
Theorem C45_ends_1D : forall h f b c, h <> 0 ->
  spline1 h f b (at_end c h) = f c /\ derivable_pt_lim (spline1 h f b) (at_end c h) (b c).
Proof.
  intros h f b c N. split; [rewrite hermite1 by exact N; apply herm_end; exact N|].
  eapply dext; [intro y; symmetry; apply hermite1; exact N|apply herm'_end; exact N|apply herm_deriv; exact N].
Qed.
Print Assumptions C45_ends_1D.
(** values 1 and 4, slopes 2 and -1, cell size 3; at the middle *)
Example C45_ends_1D_hyp : (3 <> 0) /\ spline1 3 (fun c => if c then 4 else 1) (fun c => if c then -1 else 2) (3 / 2) = 29 / 8.
Proof. split; [lra|]. rewrite hermite1 by lra. unfold herm, H. field. Qed.
Theorem C45_cubic_1D : forall h (p : cub) x, h <> 0 ->
  spline1 h (fun c => cubic p (at_end c h)) (fun c => cubic' p (at_end c h)) x = cubic p x.
Proof. intros h p x N. rewrite hermite1 by exact N. apply herm_cubic. exact N. Qed.
Print Assumptions C45_cubic_1D.
Example C45_cubic_1D_hyp : (3 <> 0) /\ cubic (1, 2, -1, 5) 2 = 41 /\ cubic' (1, 2, -1, 5) 2 = 58.
Proof. unfold cubic, cubic'. lra. Qed.

(** two neighbouring cells: continuously differentiable at the common point *)
Lemma glue f g x0 l : f x0 = g x0 -> derivable_pt_lim f x0 l -> derivable_pt_lim g x0 l ->
  derivable_pt_lim (fun x => if Rle_dec x x0 then f x else g x) x0 l.
Proof.
  intros E A B eps He. destruct (A eps He) as (d1 & K1). destruct (B eps He) as (d2 & K2).
  assert (P : 0 < Rmin d1 d2) by (apply Rmin_pos; [apply d1|apply d2]). exists (mkposreal _ P). intros k K0 K. cbn [pos] in K.
  pose proof (Rmin_l d1 d2). pose proof (Rmin_r d1 d2).
  destruct (Rle_dec x0 x0) as [_|N]; [|lra]. destruct (Rle_dec (x0 + k) x0); [apply K1; lra|]. rewrite E. apply K2; lra.
Qed.
Theorem C45_smooth_1D : forall h h' f b f' b', h <> 0 -> h' <> 0 -> f true = f' false -> b true = b' false ->
  derivable_pt_lim (fun x => if Rle_dec x h then spline1 h f b x else spline1 h' f' b' (x - h)) h (b true).
Proof.
  intros h h' f b f' b' N N' Ef Eb. apply (glue (spline1 h f b) (fun x => spline1 h' f' b' (x - h))).
  - rewrite Rminus_diag_eq by reflexivity. pose proof (proj1 (C45_ends_1D h f b true N)) as P. cbn [at_end] in P. rewrite P.
    pose proof (proj1 (C45_ends_1D h' f' b' false N')) as Q. cbn [at_end] in Q. rewrite Q. exact Ef.
  - apply (C45_ends_1D h f b true N).
  - rewrite Eb. apply (dext (comp (spline1 h' f' b') (fun x => x - h)) _ h (b' false * (1 - 0))); [reflexivity|ring|].
    apply derivable_pt_lim_comp.
    + apply derivable_pt_lim_minus; [apply derivable_pt_lim_id|apply derivable_pt_lim_const].
    + rewrite Rminus_diag_eq by reflexivity. apply (C45_ends_1D h' f' b' false N').
Qed.
Print Assumptions C45_smooth_1D.
Example C45_smooth_1D_hyp : (3 <> 0) /\ (2 <> 0) /\ (fun c : bool => if c then 4 else 1) true = (fun c : bool => if c then 7 else 4) false.
Proof. repeat split; lra. Qed.

(** ** two dimensions: on an edge of the cell the spline and its derivative across the edge are one-dimensional splines
    of the data on this edge, hence the same for the cell on the other side *)
Theorem C45_edges_2D : forall dw dv F, dw <> 0 -> dv <> 0 ->
  (forall cx y, spline2 dw dv F (at_end cx dw) y = spline1 dv (F false false cx) (F false true cx) y /\
     derivable_pt_lim (fun x => spline2 dw dv F x y) (at_end cx dw) (spline1 dv (F true false cx) (F true true cx) y)) /\
  (forall cy x, spline2 dw dv F x (at_end cy dv) = spline1 dw (fun cx => F false false cx cy) (fun cx => F true false cx cy) x /\
     derivable_pt_lim (fun y => spline2 dw dv F x y) (at_end cy dv) (spline1 dw (fun cx => F false true cx cy) (fun cx => F true true cx cy) x)).
Proof.
  intros dw dv F A B. split.
  - intros cx y. split.
    + rewrite hermite2, hermite1 by assumption. apply herm_ext; intro c; rewrite herm_end by exact A; reflexivity.
    + rewrite hermite1 by assumption. eapply dext; [intro x; symmetry; apply hermite2; assumption|reflexivity|].
      apply (herm_param dv (fun cy x => herm dw (fun cx => F false false cx cy) (fun cx => F true false cx cy) x)
                           (fun cy x => herm dw (fun cx => F false true cx cy) (fun cx => F true true cx cy) x));
        intro c; (eapply dext; [intro; reflexivity| |apply herm_deriv; exact A]); rewrite herm'_end by exact A; reflexivity.
  - intros cy x. split.
    + rewrite hermite2, hermite1 by assumption. rewrite herm_end by assumption. reflexivity.
    + rewrite hermite1 by assumption. eapply dext; [intro y; symmetry; apply hermite2; assumption| |apply herm_deriv; exact B].
      rewrite herm'_end by assumption. reflexivity.
Qed.
Print Assumptions C45_edges_2D.
(** values, slopes and mixed derivative at the corners *)
Theorem C45_corners_2D : forall dw dv F cx cy, dw <> 0 -> dv <> 0 ->
  spline2 dw dv F (at_end cx dw) (at_end cy dv) = F false false cx cy /\
  derivable_pt_lim (fun x => spline2 dw dv F x (at_end cy dv)) (at_end cx dw) (F true false cx cy) /\
  derivable_pt_lim (fun y => spline2 dw dv F (at_end cx dw) y) (at_end cy dv) (F false true cx cy) /\
  exists Sx, (forall y, derivable_pt_lim (fun x => spline2 dw dv F x y) (at_end cx dw) (Sx y)) /\
    derivable_pt_lim Sx (at_end cy dv) (F true true cx cy).
Proof.
  intros dw dv F cx cy A B. destruct (C45_edges_2D dw dv F A B) as [X Y]. split; [|split; [|split]].
  - rewrite (proj1 (X cx (at_end cy dv))). apply (C45_ends_1D dv _ _ cy B).
  - eapply dext; [intro; reflexivity| |apply X]. apply (C45_ends_1D dv _ _ cy B).
  - eapply dext; [intro; symmetry; apply (proj1 (X cx y))|reflexivity|]. apply (C45_ends_1D dv _ _ cy B).
  - exists (spline1 dv (F true false cx) (F true true cx)). split; [intro y; apply X|apply (C45_ends_1D dv _ _ cy B)].
Qed.
Print Assumptions C45_corners_2D.
Example C45_corners_2D_hyp : (3 <> 0) /\ (2 <> 0) /\
  spline2 3 2 (fun dx dy cx cy => (if dx then 2 else 1) * (if dy then 5 else 1) * (if cx then 3 else 1) * (if cy then 7 else 0)) 3 2 = 21.
Proof.
  split; [lra|]. split; [lra|]. destruct (C45_corners_2D 3 2 (fun dx dy cx cy => (if dx then 2 else 1) * (if dy then 5 else 1) * (if cx then 3 else 1) * (if cy then 7 else 0)) true true) as (E & _); [lra|lra|].
  cbn [at_end] in E. rewrite E. ring.
Qed.
Theorem C45_cubic_2D : forall dw dv (l : list (cub * cub)) x y, dw <> 0 -> dv <> 0 ->
  spline2 dw dv (fun dx dy cx cy => poly2 l dx dy (at_end cx dw) (at_end cy dv)) x y = poly2 l false false x y.
Proof.
  intros dw dv l x y A B. rewrite hermite2 by assumption. unfold poly2.
  assert (G : forall dy cy, herm dw (fun cx => sumR (map (fun t => d false (fst t) (at_end cx dw) * d dy (snd t) (at_end cy dv)) l))
      (fun cx => sumR (map (fun t => d true (fst t) (at_end cx dw) * d dy (snd t) (at_end cy dv)) l)) x
    = sumR (map (fun t => d dy (snd t) (at_end cy dv) * d false (fst t) x) l)).
  { intros dy cy. rewrite (herm_sum dw (fun t cx => d false (fst t) (at_end cx dw) * d dy (snd t) (at_end cy dv)) (fun t cx => d true (fst t) (at_end cx dw) * d dy (snd t) (at_end cy dv))).
    f_equal. apply map_ext. intro t. rewrite herm_scale. cbn [d]. rewrite herm_cubic by exact A. ring. }
  rewrite (herm_ext dv _ _ (fun cy => sumR (map (fun t => d false (snd t) (at_end cy dv) * d false (fst t) x) l)) (fun cy => sumR (map (fun t => d true (snd t) (at_end cy dv) * d false (fst t) x) l))) by (intro; apply G).
  rewrite (herm_sum dv (fun t cy => d false (snd t) (at_end cy dv) * d false (fst t) x) (fun t cy => d true (snd t) (at_end cy dv) * d false (fst t) x)).
  f_equal. apply map_ext. intro t. rewrite herm_scale. cbn [d]. rewrite herm_cubic by exact B. ring.
Qed.
Print Assumptions C45_cubic_2D.
(** x^3 y + 2 y^2 *)
Example C45_cubic_2D_hyp : poly2 [((0, 0, 0, 1), (0, 1, 0, 0)); ((2, 0, 0, 0), (0, 0, 1, 0))] false false 2 3 = 42 /\
  poly2 [((0, 0, 0, 1), (0, 1, 0, 0)); ((2, 0, 0, 0), (0, 0, 1, 0))] true true 2 3 = 12.
Proof. unfold poly2, d, cubic, cubic'. cbn. lra. Qed.

(** ** three dimensions *)
Theorem C45_faces_3D : forall dw dv dvp F, dw <> 0 -> dv <> 0 -> dvp <> 0 ->
  (forall cx y z, spline3 dw dv dvp F (at_end cx dw) y z = spline2 dv dvp (fun dy dz cy cz => F false dy dz cx cy cz) y z /\
     derivable_pt_lim (fun x => spline3 dw dv dvp F x y z) (at_end cx dw) (spline2 dv dvp (fun dy dz cy cz => F true dy dz cx cy cz) y z)) /\
  (forall cy x z, spline3 dw dv dvp F x (at_end cy dv) z = spline2 dw dvp (fun dx dz cx cz => F dx false dz cx cy cz) x z /\
     derivable_pt_lim (fun y => spline3 dw dv dvp F x y z) (at_end cy dv) (spline2 dw dvp (fun dx dz cx cz => F dx true dz cx cy cz) x z)) /\
  (forall cz x y, spline3 dw dv dvp F x y (at_end cz dvp) = spline2 dw dv (fun dx dy cx cy => F dx dy false cx cy cz) x y /\
     derivable_pt_lim (fun z => spline3 dw dv dvp F x y z) (at_end cz dvp) (spline2 dw dv (fun dx dy cx cy => F dx dy true cx cy cz) x y)).
Proof.
  intros dw dv dvp F A B C. split; [|split].
  - intros cx y z. split.
    + rewrite hermite3, hermite2 by assumption. cbv zeta. apply herm_ext; intro cz; apply herm_ext; intro cy; rewrite herm_end by exact A; reflexivity.
    + rewrite hermite2 by assumption. eapply dext; [intro x; symmetry; apply hermite3; assumption|reflexivity|]. cbv zeta.
      match goal with |- derivable_pt_lim (fun x => herm dvp (fun c => @?f c x) (fun c => @?b c x) z) _ _ => apply (herm_param dvp f b) end; intro c;
      match goal with |- derivable_pt_lim (fun x => herm dv (fun e => @?f e x) (fun e => @?b e x) y) _ _ => apply (herm_param dv f b) end; intro e;
      (eapply dext; [intro; reflexivity| |apply herm_deriv; exact A]); rewrite herm'_end by exact A; reflexivity.
  - intros cy x z. split.
    + rewrite hermite3, hermite2 by assumption. cbv zeta. apply herm_ext; intro cz; rewrite herm_end by assumption; reflexivity.
    + rewrite hermite2 by assumption. eapply dext; [intro y; symmetry; apply hermite3; assumption|reflexivity|]. cbv zeta.
      match goal with |- derivable_pt_lim (fun x => herm dvp (fun c => @?f c x) (fun c => @?b c x) z) _ _ => apply (herm_param dvp f b) end; intro c;
      (eapply dext; [intro; reflexivity| |apply herm_deriv; exact B]); rewrite herm'_end by assumption; reflexivity.
  - intros cz x y. split.
    + rewrite hermite3, hermite2 by assumption. cbv zeta. rewrite herm_end by assumption. reflexivity.
    + rewrite hermite2 by assumption. eapply dext; [intro z; symmetry; apply hermite3; assumption| |apply herm_deriv; exact C]. rewrite herm'_end by assumption. reflexivity.
Qed.
Print Assumptions C45_faces_3D.
Theorem C45_corners_3D : forall dw dv dvp F cx cy cz, dw <> 0 -> dv <> 0 -> dvp <> 0 ->
  spline3 dw dv dvp F (at_end cx dw) (at_end cy dv) (at_end cz dvp) = F false false false cx cy cz /\
  derivable_pt_lim (fun x => spline3 dw dv dvp F x (at_end cy dv) (at_end cz dvp)) (at_end cx dw) (F true false false cx cy cz) /\
  derivable_pt_lim (fun y => spline3 dw dv dvp F (at_end cx dw) y (at_end cz dvp)) (at_end cy dv) (F false true false cx cy cz) /\
  derivable_pt_lim (fun z => spline3 dw dv dvp F (at_end cx dw) (at_end cy dv) z) (at_end cz dvp) (F false false true cx cy cz).
Proof.
  intros dw dv dvp F cx cy cz A B C. destruct (C45_faces_3D dw dv dvp F A B C) as (X & Y & Z). split; [|split; [|split]].
  - rewrite (proj1 (X cx _ _)). exact (proj1 (C45_corners_2D dv dvp (fun dy dz cy cz => F false dy dz cx cy cz) cy cz B C)).
  - eapply dext; [intro; reflexivity| |apply X]. exact (proj1 (C45_corners_2D dv dvp (fun dy dz cy cz => F true dy dz cx cy cz) cy cz B C)).
  - eapply dext; [intro; reflexivity| |apply Y]. exact (proj1 (C45_corners_2D dw dvp (fun dx dz cx cz => F dx true dz cx cy cz) cx cz A C)).
  - eapply dext; [intro; reflexivity| |apply Z]. exact (proj1 (C45_corners_2D dw dv (fun dx dy cx cy => F dx dy true cx cy cz) cx cy A B)).
Qed.
Print Assumptions C45_corners_3D.
Theorem C45_cubic_3D : forall dw dv dvp (l : list (cub * cub * cub)) x y z, dw <> 0 -> dv <> 0 -> dvp <> 0 ->
  spline3 dw dv dvp (fun dx dy dz cx cy cz => poly3 l dx dy dz (at_end cx dw) (at_end cy dv) (at_end cz dvp)) x y z = poly3 l false false false x y z.
Proof.
  intros dw dv dvp l x y z A B C. rewrite hermite3 by assumption. cbv zeta. unfold poly3.
  assert (G : forall dy dz cy cz, herm dw (fun cx => sumR (map (fun t => d false (fst (fst t)) (at_end cx dw) * d dy (snd (fst t)) (at_end cy dv) * d dz (snd t) (at_end cz dvp)) l))
      (fun cx => sumR (map (fun t => d true (fst (fst t)) (at_end cx dw) * d dy (snd (fst t)) (at_end cy dv) * d dz (snd t) (at_end cz dvp)) l)) x
    = sumR (map (fun t => d dy (snd (fst t)) (at_end cy dv) * (d dz (snd t) (at_end cz dvp) * d false (fst (fst t)) x)) l)).
  { intros dy dz cy cz. rewrite (herm_sum dw (fun t cx => d false (fst (fst t)) (at_end cx dw) * d dy (snd (fst t)) (at_end cy dv) * d dz (snd t) (at_end cz dvp)) (fun t cx => d true (fst (fst t)) (at_end cx dw) * d dy (snd (fst t)) (at_end cy dv) * d dz (snd t) (at_end cz dvp))).
    f_equal. apply map_ext. intro t. rewrite !herm_scale. cbn [d]. rewrite herm_cubic by exact A. ring. }
  assert (G2 : forall dz cz, herm dv (fun cy => sumR (map (fun t => d false (snd (fst t)) (at_end cy dv) * (d dz (snd t) (at_end cz dvp) * d false (fst (fst t)) x)) l))
      (fun cy => sumR (map (fun t => d true (snd (fst t)) (at_end cy dv) * (d dz (snd t) (at_end cz dvp) * d false (fst (fst t)) x)) l)) y
    = sumR (map (fun t => d dz (snd t) (at_end cz dvp) * (d false (fst (fst t)) x * d false (snd (fst t)) y)) l)).
  { intros dz cz. rewrite (herm_sum dv (fun t cy => d false (snd (fst t)) (at_end cy dv) * (d dz (snd t) (at_end cz dvp) * d false (fst (fst t)) x)) (fun t cy => d true (snd (fst t)) (at_end cy dv) * (d dz (snd t) (at_end cz dvp) * d false (fst (fst t)) x))).
    f_equal. apply map_ext. intro t. rewrite !herm_scale. cbn [d]. rewrite herm_cubic by exact B. ring. }
  rewrite (herm_ext dvp _ _ (fun cz => sumR (map (fun t => d false (snd t) (at_end cz dvp) * (d false (fst (fst t)) x * d false (snd (fst t)) y)) l))
                            (fun cz => sumR (map (fun t => d true (snd t) (at_end cz dvp) * (d false (fst (fst t)) x * d false (snd (fst t)) y)) l))).
  - rewrite (herm_sum dvp (fun t cz => d false (snd t) (at_end cz dvp) * (d false (fst (fst t)) x * d false (snd (fst t)) y)) (fun t cz => d true (snd t) (at_end cz dvp) * (d false (fst (fst t)) x * d false (snd (fst t)) y))).
    f_equal. apply map_ext. intro t. rewrite herm_scale. cbn [d]. rewrite herm_cubic by exact C. ring.
  - intro cz. rewrite <- G2. apply herm_ext; intro cy; apply G.
  - intro cz. rewrite <- G2. apply herm_ext; intro cy; apply G.
Qed.
Print Assumptions C45_cubic_3D.
Example C45_3D_hyp : (3 <> 0) /\ (2 <> 0) /\ (5 <> 0) /\
  spline3 3 2 5 (fun dx dy dz cx cy cz => poly3 [((0, 0, 0, 1), (0, 1, 0, 0), (1, 0, 2, 0))] dx dy dz (at_end cx 3) (at_end cy 2) (at_end cz 5)) 2 1 3 = 152.
Proof. split; [lra|]. split; [lra|]. split; [lra|]. rewrite C45_cubic_3D by lra. unfold poly3, d, cubic. cbn. lra. Qed.
