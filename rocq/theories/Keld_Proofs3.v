(** Keldysh structure of the single-boson exchange products (C75). *)
From Coq Require Import QArith Setoid Morphisms Ring.
From Verif Require Import Prelude Idx_Model Cplx Keld_Model Keld_Spec Keld_Proofs Keld_Proofs2.
Open Scope Z_scope.

(** ** single-boson exchange products *)
Lemma relayout_eq from to side V :
  relayout from to side (vals (fun k => V (rotz from side k))) = Some (vals (fun k => V (rotz to side k))).
Proof. destruct from, to, side; vm_compute; reflexivity. Qed.

Definition rvals (side : bool) (ch : chan) (V : Z -> cplx) : list cplx := vals (fun k => V (rotz ch side k)).

Lemma combine_natural ch (side : bool) A B :
  forall k, In k (seq 0 16) -> exists x e1' e2' e1 e2,
    nth_error (flatten44 (if side then mmul (resize44 (rvals side ch B)) (resize44 (rvals side ch A))
                          else mmul (resize44 (rvals side ch A)) (resize44 (rvals side ch B)))) k = Some x /\
    rotz ch side (Z.of_nat k) = code4 e1' e2' e1 e2 /\
    (x == diagram ch A joined B e1' e2' e1 e2)%C.
Proof.
  intros k Hk.
  assert (R : 0 <= rotz ch side (Z.of_nat k) < 16).
  { apply in_seq in Hk. unfold rotz.
    destruct (rotate_unrotate ch side (Z.of_nat k)) as (r & -> & Hr & _); lia. }
  destruct (below16 _ R) as (e1' & e2' & e1 & e2 & E).
  cbn [seq In] in Hk.
  assert (Ex : exists x, nth_error (flatten44 (if side then mmul (resize44 (rvals side ch B)) (resize44 (rvals side ch A))
                          else mmul (resize44 (rvals side ch A)) (resize44 (rvals side ch B)))) k = Some x).
  { destruct (nth_error _ k) eqn:X; [eauto|]. apply nth_error_None in X.
    unfold flatten44 in X. rewrite map_length, seq_length in X. exfalso.
    repeat (destruct Hk as [Hk|Hk]; [subst k; lia|]). exact Hk. }
  destruct Ex as [x Hx]. exists x, e1', e2', e1, e2. split; [exact Hx|]. split; [exact E|]. clear R.
  repeat (destruct Hk as [Hk|Hk];
    [subst k; destruct ch, side; vm_compute in E;
     destruct e1', e2', e1, e2; try discriminate E; clear E;
     cbv -[Cadd Cmul C0 C1 Ceq] in Hx; injection Hx as <-; cbv -[Cadd Cmul C0 C1 Ceq]; ring|]).
  exact (match Hk with end).
Qed.

Definition unrotz (ch : chan) (side : bool) (iK : Z) : Z :=
  match unrotate_Keldysh_matrix ch side iK with Some r => r | None => 0 end.
Lemma as_rvals ch side (l : list cplx) : length l = 16%nat ->
  l = rvals side ch (fun z => nth (Z.to_nat (unrotz ch side z)) l C0).
Proof.
  intros L. do 16 (destruct l as [|? l]; [discriminate L|]). destruct l; [|discriminate L].
  destruct ch, side; vm_compute; reflexivity.
Qed.

Lemma vals_nth f iK : 0 <= iK < 16 -> nth_error (vals f) (Z.to_nat iK) = Some (f iK).
Proof. intros H. cases16 iK H; reflexivity. Qed.

Lemma combine_SBE_spec chb chr side A B :
  exists l, combine_SBE chb chr side (rvals side chb A) (rvals side chb B) = Some l /\ length l = 16%nat /\
    forall iK e1' e2' e1 e2, 0 <= iK < 16 ->
      rotate_Keldysh_matrix chb side iK = Some (code4 e1' e2' e1 e2) ->
      exists x, nth_error l (Z.to_nat iK) = Some x /\ (x == diagram chr A joined B e1' e2' e1 e2)%C.
Proof.
  unfold combine_SBE, rvals. rewrite !relayout_eq. cbn [obind].
  fold (rvals side chr A). fold (rvals side chr B).
  pose proof (combine_natural chr side A B) as N.
  set (fl := flatten44 _) in *.
  assert (L : length fl = 16%nat) by reflexivity.
  assert (Hx : relayout chr chb side fl
               = Some (rvals side chb (fun z => nth (Z.to_nat (unrotz chr side z)) fl C0))).
  { rewrite (as_rvals chr side fl L) at 1. apply relayout_eq. }
  rewrite Hx. eexists. split; [reflexivity|]. split; [reflexivity|].
  intros iK e1' e2' e1 e2 R E.
  unfold rvals. rewrite (vals_nth _ _ R). eexists. split; [reflexivity|]. cbv beta.
  unfold rotz at 1. rewrite E.
  destruct (unrotate_rotate chr side (code4 e1' e2' e1 e2) (code4_range _ _ _ _)) as (u & Hu & Ru & Hr).
  unfold unrotz. rewrite Hu.
  destruct (N (Z.to_nat u)) as (x & f1' & f2' & f1 & f2 & Hn & Hz & Hd).
  { apply in_seq. lia. }
  rewrite Z2Nat.id in Hz by lia. unfold rotz in Hz. rewrite Hr in Hz.
  apply code4_inj in Hz. destruct Hz as (-> & -> & -> & ->).
  rewrite (nth_error_nth _ _ _ Hn). exact Hd.
Qed.
