(** C132: with which entry the self-check compares *)
From Coq Require Import QArith Qabs Setoid Morphisms Lqa.
From Verif Require Import Prelude Cplx Keld_Model Util_Model Util_Spec Sym_Model Sym_Spec Tab_Model Tab_Spec
  Rd_Model Rd_Spec Csy_Model.
From Verif Require Rd_Props Csy_Props.
Open Scope Z_scope.

(** entry of one class *)
Definition entry_of (r : rv) (k : kcl) (iK : Z) (f : Q * Q * Q) : cplx :=
  let '(w, v, v') := f in
  match k with k1 => bK1 r 0 iK w | k2 => bK2 r 0 iK w v | k2b => C0 | k3 => bK3 r 0 iK w v v' end.
(** the frequencies that decide about the sector are away from zero *)
Definition away (q : Q) : Prop := (tol10 < q)%Q \/ (q < - tol10)%Q.
Definition decisive (k : kcl) (f : Q * Q * Q) : list Q :=
  let '(w, v, v') := f in match k with k1 => [w] | k2 => [w; v] | k2b => [] | k3 => [w; (v + v')%Q; (v - v')%Q] end.
Lemma away_sign q : away q -> (sign_index q = 1 /\ (0 < q)%Q) \/ (sign_index q = 0 /\ (q < 0)%Q).
Proof.
  assert (T : (0 < tol10)%Q) by reflexivity. unfold sign_index. intros [H|H]; [left|right].
  - destruct (Qle_bool q tol10) eqn:E; [apply Qle_bool_iff in E; lra|]. split; [reflexivity|lra].
  - destruct (Qle_bool q tol10) eqn:E; [split; [reflexivity|lra]|]. assert (X : ~ (q <= tol10)%Q) by (rewrite <- Qle_bool_iff; congruence). exfalso. apply X. lra.
Qed.

Lemma scale_one x y : (Cscale 1 x - y == x - y)%C.
Proof. unfold Ceq, Cscale, Csub; cbn [re im]; split; ring. Qed.
Ltac use g r p b :=
  match g with
  | ?f _ ?i ?w ?v ?v' => exists r, i, (w, v, v'), p, b
  | ?f _ ?i ?w ?v => exists r, i, (w, v, 0%Q), p, b
  | ?f _ ?i ?w => exists r, i, (w, 0%Q, 0%Q), p, b
  end.
Ltac finish :=
  match goal with |- exists d iK' f' p b, ?t = Some d /\ _ =>
    let r := eval cbv -[Qmult Qopp Qplus Qminus Cscale Csub Cconj C0 inject_Z] in t in
    match r with Some (Csub ?u (Cscale ?p (Cconj ?g))) => use g (Csub u (Cscale p (Cconj g))) p true
               | Some (Csub ?u (Cscale ?p ?g)) => use g (Csub u (Cscale p g)) p false end end;
  split; [reflexivity|]; split; [first [left; reflexivity | right; reflexivity]|]; cbn [decisive entry_of];
  split; [repeat (apply Forall2_cons; [match goal with |- (_ == - Qabs ?q)%Q => first [rewrite (Qabs_pos q) by lra | rewrite (Qabs_neg q) by lra] end; ring|]); apply Forall2_nil
  | match goal with |- (Csub (Cscale ?q ?x) ?y == ?b)%C => change b with (Csub x y); apply scale_one end].

(** Every entry of the first spin component is compared, up to a sign and a complex conjugation, with the stored entry of
    the same class whose deciding frequencies are all negative. Partial: Keldysh formalism with particle-hole symmetry. *)
Theorem C132_compared_entry_partial : forall c ch k this crossing kl f,
  keldysh c = true -> phs c = true -> contour c = false -> k <> k2b -> klegs_ok kl ->
  channel this = ch -> channel crossing = crossed ch -> Forall away (decisive k f) ->
  exists d iK' f' p b, check_entry c false k this crossing 0 (kcode kl) f = Some d
  /\ (p == 1 \/ p == -1)%Q
  /\ Forall2 (fun q q' => (q' == - Qabs q)%Q) (decisive k f) (decisive k f')
  /\ (d == entry_of this k (kcode kl) f - Cscale p (if (b : bool) then Cconj (entry_of this k iK' f') else entry_of this k iK' f'))%C.
Proof.
  intros c ch k this crossing kl [[o n] n'] K P CB Hk KL Ch1 Ch2 AW.
  assert (MF : mf c = false) by (unfold mf; rewrite K; reflexivity).
  destruct this as [cht b1 b2 b2b b3]. destruct crossing as [chx x1 x2 x2b x3]. cbn [channel] in Ch1, Ch2. subst cht chx.
  destruct c as [ck cz cp cc nb]. cbn [keldysh phs contour] in K, P, CB. subst ck cp cc.
  destruct kl as [x y z t], KL as (A & B & C & D). cbn [a1' a2' a1 a2] in *.
  destruct k; try congruence; cbn [decisive] in AW; repeat match goal with H : Forall _ (_ :: _) |- _ => inversion H; subst; clear H end;
  repeat match goal with H : away _ |- _ => apply away_sign in H; destruct H as [[? ?]|[? ?]] end;
  destruct ch; destruct A as [-> | ->], B as [-> | ->], C as [-> | ->], D as [-> | ->];
  unfold check_entry, check_index; cbn [expand_input in_w in_v1 in_v2];
  repeat match goal with H : sign_index _ = _ |- _ => rewrite H; clear H end; finish.
Qed.
Print Assumptions C132_compared_entry_partial.
Definition tagged (ch : chan) : rv :=
  mkRv ch (fun _ i w => Cplx w (inject_Z i)) (fun _ i w v => Cplx (w * 7 + v) (inject_Z i)) (fun _ _ _ _ => C0)
    (fun _ i w v v' => Cplx (w + v * 3 + v' * 5) (inject_Z i)).
Definition Cred (z : cplx) : cplx := Cplx (Qred (re z)) (Qred (im z)).
Example C132_hyp5 :
  klegs_ok (mkK 1 1 1 2) /\ Forall away (decisive k2 (2, -3, 0)%Q) /\
  option_map Cred (check_entry Csy_Props.cK false k2 (tagged Ct) (tagged Ca) 0 (kcode (mkK 1 1 1 2)) (2, -3, 0)%Q)
    = Some (Cplx (inject_Z 28) (inject_Z 5)) /\
  option_map Cred (check_entry Csy_Props.cK false k2 (tagged Cp) (tagged Cp) 0 (kcode (mkK 1 1 1 2)) (-2, 3, 0)%Q)
    = Some (Cplx (inject_Z 6) (inject_Z (-1))).
Proof.
  split; [repeat split; cbn; unfold is12; lia|]. split; [constructor; [left; reflexivity|constructor; [right; reflexivity|constructor]]|].
  split; vm_compute; reflexivity.
Qed.
