(** Sums in commutative monoids, and the bubbles of the parquet equations. *)
From Coq Require Import QArith.
From Verif Require Import Prelude Mlp_Model Bse_Model Bse_Spec.
Open Scope list_scope.
Open Scope Z_scope.

(** equality of sums up to order and zeros *)
Inductive term := TZ | TV (n : nat) | TA (a b : term).
Section Monoid.
  Variables (A : Type) (zero : A) (add : A -> A -> A).
  Hypothesis comm : forall x y, add x y = add y x.
  Hypothesis assoc : forall x y z, add x (add y z) = add (add x y) z.
  Hypothesis unit : forall x, add x zero = x.
  Variable l : list A.
  Fixpoint den (t : term) : A := match t with TZ => zero | TV n => nth n l zero | TA a b => add (den a) (den b) end.
  Fixpoint ins (n : nat) (s : list nat) : list nat := match s with nil => n :: nil | m :: s' => if Nat.leb n m then n :: s else m :: ins n s' end.
  Fixpoint flat (t : term) (acc : list nat) : list nat := match t with TZ => acc | TV n => ins n acc | TA a b => flat a (flat b acc) end.
  Fixpoint total (s : list nat) : A := match s with nil => zero | n :: s => add (nth n l zero) (total s) end.
  Lemma total_ins n s : total (ins n s) = add (nth n l zero) (total s).
  Proof.
    induction s as [|m s IH]; [reflexivity|]. cbn [ins]. destruct (Nat.leb n m); [reflexivity|]. cbn [total]. rewrite IH, !assoc.
    f_equal. apply comm.
  Qed.
  Lemma total_flat t : forall acc, total (flat t acc) = add (den t) (total acc).
  Proof.
    induction t as [|n|a IHa b IHb]; intro acc; cbn [flat den].
    - rewrite comm, unit. reflexivity.
    - apply total_ins.
    - rewrite IHa, IHb. apply assoc.
  Qed.
  Lemma same_sum a b : flat a nil = flat b nil -> den a = den b.
  Proof.
    intro H. rewrite <- (unit (den a)), <- (unit (den b)). pose proof (total_flat a nil) as Ha. pose proof (total_flat b nil) as Hb. cbn [total] in *.
    rewrite <- Ha, <- Hb, H. reflexivity.
  Qed.
End Monoid.
Ltac find x l := match l with x :: _ => constr:(O) | _ :: ?t => let n := find x t in constr:(S n) end.
Ltac member x l := match l with nil => constr:(false) | x :: _ => constr:(true) | _ :: ?t => member x t end.
Ltac atoms add zero e l :=
  match e with
  | add ?a ?b => let l := atoms add zero b l in atoms add zero a l
  | zero => l
  | _ => let m := member e l in match m with true => l | false => constr:(e :: l) end
  end.
Ltac quote add zero l e :=
  match e with
  | add ?a ?b => let a := quote add zero l a in let b := quote add zero l b in constr:(TA a b)
  | zero => constr:(TZ)
  | _ => let n := find e l in constr:(TV n)
  end.
Ltac sums add zero comm assoc unit :=
  match goal with |- @eq ?A ?x ?y =>
    let l := atoms add zero x (@nil A) in let l := atoms add zero y l in
    let a := quote add zero l x in let b := quote add zero l y in
    change (den A zero add l a = den A zero add l b); apply (same_sum A zero add comm assoc unit l a b); reflexivity
  end.

Section Proofs.
  Variables (A P : Type).
  Variables (zero : A) (add sub : A -> A -> A) (half : A -> A).
  Variables (prod : P -> channel -> A -> A -> A) (cross : channel -> channel -> A -> A) (mirror : channel -> A -> A) (lift : Q -> A).
  Variable dbg : bool.
  Hypothesis HR : rules A P zero add sub half prod cross.
  Let comm := add_comm _ _ _ _ _ _ _ _ HR.
  Let assoc := add_assoc _ _ _ _ _ _ _ _ HR.
  Let unit := add_zero _ _ _ _ _ _ _ _ HR.
  Notation bubble := (bubble A P zero add prod cross mirror dbg).
  Notation reducible := (reducible A zero add).
  Notation others := (others A zero add cross).
  Notation irreducible := (irreducible A zero add cross).
  Notation full := (full A zero add cross).
  Notation classes := (classes A zero).
  Notation starts_bare := (starts_bare A zero add). Notation ends_bare := (ends_bare A zero add).
  Notation starts_else := (starts_else A zero add cross). Notation ends_else := (ends_else A zero add cross).
  Ltac msum := sums add zero comm assoc unit.
  Ltac expand := repeat first [rewrite (prod_add_l _ _ _ _ _ _ _ _ HR) | rewrite (prod_add_r _ _ _ _ _ _ _ _ HR) | rewrite (prod_zero_l _ _ _ _ _ _ _ _ HR)
    | rewrite (prod_zero_r _ _ _ _ _ _ _ _ HR) | rewrite (prod_assoc _ _ _ _ _ _ _ _ HR)].

  Lemma zero_half : half zero = zero.
  Proof. rewrite <- (unit zero) at 1. apply (half_twice _ _ _ _ _ _ _ _ HR). Qed.
  Lemma zero_add x : add zero x = x.
  Proof. rewrite comm. apply unit. Qed.

  (** the four classes of a vertex as the code reads them *)
  Definition seen (h1 h2 : vertex A) : vertex A :=
    if dbg then h1 else
    let c r x y := four A (K1 _ x) (K2 _ x) (mirror r (K2 _ y)) (K3 _ x) in
    {| irr := irr _ h1; va := c Ca (va _ h1) (va _ h2); vp := c Cp (vp _ h1) (vp _ h2); vt := c Ct (vt _ h1) (vt _ h2) |}.
  Lemma get_classes v r : get A zero v r = classes v r.
  Proof. destruct r; reflexivity. Qed.
  Lemma seen_irr h1 h2 : irr _ (seen h1 h2) = irr _ h1.
  Proof. unfold seen. destruct dbg; reflexivity. Qed.
  Lemma seen_K1 h1 h2 r : K1 _ (classes (seen h1 h2) r) = K1 _ (get A zero h1 r).
  Proof. unfold seen. destruct dbg, r; reflexivity. Qed.
  Lemma seen_K2 h1 h2 r : K2 _ (classes (seen h1 h2) r) = K2 _ (get A zero h1 r).
  Proof. unfold seen. destruct dbg, r; reflexivity. Qed.
  Lemma seen_K3 h1 h2 r : K3 _ (classes (seen h1 h2) r) = K3 _ (get A zero h1 r).
  Proof. unfold seen. destruct dbg, r; reflexivity. Qed.
  Lemma seen_K2b h1 h2 r : physical r -> K2b _ (classes (seen h1 h2) r) = read_K2b A zero mirror dbg h1 h2 r.
  Proof. unfold seen, read_K2b, physical. destruct dbg, r; try reflexivity. congruence. Qed.
  Lemma value_seen h1 h2 r : physical r -> value A zero add mirror dbg h1 h2 r = reducible (seen h1 h2) r.
  Proof. intro Hr. unfold value, Bse_Spec.reducible. cbv zeta. rewrite seen_K1, seen_K2, seen_K3, seen_K2b by exact Hr. msum. Qed.
  Lemma gammaRb_seen h1 h2 r : gammaRb A zero add cross mirror dbg h1 h2 r = others (seen h1 h2) r.
  Proof. destruct r; cbn [gammaRb Bse_Spec.others]; rewrite ?value_seen by discriminate; reflexivity. Qed.

  Lemma full_left v r : physical r -> left_same A zero add mirror dbg (Full _ v) r = starts_bare (seen v v) r.
  Proof. intro Hr. cbn [left_same]. unfold Bse_Spec.starts_bare. rewrite seen_irr, seen_K1, seen_K2b by exact Hr. reflexivity. Qed.
  Lemma full_right v r : right_same A zero add (Full _ v) r = ends_bare (seen v v) r.
  Proof. cbn [right_same]. unfold Bse_Spec.ends_bare. rewrite seen_irr, seen_K1, seen_K2. reflexivity. Qed.
  Lemma full_left_diff v r : left_diff A zero add cross mirror dbg (Full _ v) r = starts_else (seen v v) r.
  Proof. cbn [left_diff]. unfold Bse_Spec.starts_else. rewrite gammaRb_seen, seen_K2, seen_K3. msum. Qed.
  Lemma full_right_diff v r : physical r -> right_diff A zero add cross mirror dbg (Full _ v) r = ends_else (seen v v) r.
  Proof. intro Hr. cbn [right_diff]. unfold Bse_Spec.ends_else. rewrite gammaRb_seen, seen_K2b, seen_K3 by exact Hr. msum. Qed.

  Lemma parts_of_full v r : add (starts_bare v r) (starts_else v r) = full v r.
  Proof. unfold Bse_Spec.starts_bare, Bse_Spec.starts_else, Bse_Spec.full, Bse_Spec.irreducible, Bse_Spec.reducible. cbv zeta. msum. Qed.
  Lemma parts_of_full' v r : add (ends_bare v r) (ends_else v r) = full v r.
  Proof. unfold Bse_Spec.ends_bare, Bse_Spec.ends_else, Bse_Spec.full, Bse_Spec.irreducible, Bse_Spec.reducible. cbv zeta. msum. Qed.

  (** *** the classes of a bubble *)
  Definition product (p : P) (r : channel) (o1 o2 : operand A) : rvert A :=
    four A (prod p r (left_same A zero add mirror dbg o1 r) (right_same A zero add o2 r))
           (prod p r (left_diff A zero add cross mirror dbg o1 r) (right_same A zero add o2 r))
           (if dbg then prod p r (left_same A zero add mirror dbg o1 r) (right_diff A zero add cross mirror dbg o2 r) else zero)
           (prod p r (left_diff A zero add cross mirror dbg o1 r) (right_diff A zero add cross mirror dbg o2 r)).
  Lemma bubble_class o1 o2 p r : physical r -> get A zero (bubble (vzero A zero) o1 o2 p r) r = product p r o1 o2.
  Proof.
    intro Hr. unfold Bse_Model.bubble, bubble_function, write_out, computed, everything, product, bub, physical in *.
    destruct r; try congruence; destruct dbg; reflexivity.
  Qed.
  Lemma bubble_irr t o1 o2 p r : irr _ (bubble t o1 o2 p r) = irr _ t.
  Proof. unfold Bse_Model.bubble, bubble_function. destruct r; reflexivity. Qed.
  Lemma apt_class t o1 o2 p r : physical r -> (forall s, get A zero t s = rzero A zero) ->
    get A zero (fold_left (fun g s => bubble g o1 o2 p s) apt t) r = product p r o1 o2.
  Proof.
    intros Hr Ht. pose proof (Ht Ca) as H1. pose proof (Ht Cp) as H2. pose proof (Ht Ct) as H3. cbn [get] in H1, H2, H3.
    unfold apt, Bse_Model.bubble, bubble_function, write_out, computed, everything, product, bub, physical in *.
    destruct r; try congruence; cbn; rewrite ?H1, ?H2, ?H3; destruct dbg; reflexivity.
  Qed.
  Lemma apt_irr t o1 o2 p : irr _ (fold_left (fun g s => bubble g o1 o2 p s) apt t) = irr _ t.
  Proof. reflexivity. Qed.
  Lemma get_vzero s : get A zero (vzero A zero) s = rzero A zero.
  Proof. destruct s; reflexivity. Qed.
  Lemma get_vadd x y r : physical r -> get A zero (vadd A add x y) r = radd A add (get A zero x r) (get A zero y r).
  Proof. unfold physical. destruct r; try reflexivity. congruence. Qed.
  Lemma get_vhalf x r : physical r -> get A zero (vhalf A half x) r = rhalf A half (get A zero x r).
  Proof. unfold physical. destruct r; try reflexivity. congruence. Qed.

  (** *** Bethe-Salpeter equation *)
  Notation compute_BSE := (compute_BSE A P zero add half prod cross mirror dbg).
  Lemma bse_class v p r : physical r -> get A zero (compute_BSE v p) r =
    rhalf A half (radd A add (product p r (Irreducible _ v v) (Full _ v)) (product p r (Full _ v) (Irreducible _ v v))).
  Proof.
    intro Hr. unfold Bse_Model.compute_BSE. rewrite get_vhalf, get_vadd by exact Hr. unfold bse_left, bse_right.
    rewrite !apt_class by (try exact Hr; intro s; apply get_vzero). reflexivity.
  Qed.
  Lemma bse_irr v p : irr _ (compute_BSE v p) = zero.
  Proof. cbn. rewrite unit. apply zero_half. Qed.
  Lemma half_same x : add (half x) (half x) = x.
  Proof. rewrite <- (half_add _ _ _ _ _ _ _ _ HR). apply (half_twice _ _ _ _ _ _ _ _ HR). Qed.

  Lemma irreducible_left v r : left_same A zero add mirror dbg (Irreducible _ v v) r = irr _ (seen v v).
  Proof. rewrite seen_irr. reflexivity. Qed.
  Lemma irreducible_right v r : right_same A zero add (Irreducible _ v v) r = irr _ (seen v v).
  Proof. rewrite seen_irr. reflexivity. Qed.
  Lemma irreducible_left_diff v r : left_diff A zero add cross mirror dbg (Irreducible _ v v) r = others (seen v v) r.
  Proof. apply gammaRb_seen. Qed.
  Lemma irreducible_right_diff v r : right_diff A zero add cross mirror dbg (Irreducible _ v v) r = others (seen v v) r.
  Proof. apply gammaRb_seen. Qed.
  Definition bse_classes (p : P) (w : vertex A) (r : channel) : rvert A :=
    four A (half (add (prod p r (irr _ w) (ends_bare w r)) (prod p r (starts_bare w r) (irr _ w))))
           (half (add (prod p r (others w r) (ends_bare w r)) (prod p r (starts_else w r) (irr _ w))))
           (if dbg then half (add (prod p r (irr _ w) (ends_else w r)) (prod p r (starts_bare w r) (others w r))) else zero)
           (half (add (prod p r (others w r) (ends_else w r)) (prod p r (starts_else w r) (others w r)))).
  Lemma bse_by_class v p r : physical r -> get A zero (compute_BSE v p) r = bse_classes p (seen v v) r.
  Proof.
    intro Hr. rewrite bse_class by exact Hr. unfold product, bse_classes, rhalf, radd, four. cbn [K1 K2 K2b K3].
    rewrite full_right, full_left, full_left_diff, full_right_diff, irreducible_left, irreducible_left_diff, irreducible_right_diff, irreducible_right by exact Hr.
    f_equal. destruct dbg; [reflexivity|]. rewrite unit. apply zero_half.
  Qed.
End Proofs.
