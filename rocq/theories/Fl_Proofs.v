(** The loop over a symmetric vertex. *)
From Coq Require Import QArith Lqa.
From Verif Require Import Prelude Cplx Keld_Model Keld_Spec Keld_Proofs Util_Spec Sym_Model Sym_Spec Sym_Proofs2 Tab_Model Tab_Spec
  Rd_Model Rd_Spec Rd_Props Dec_Model Bub_Model Bub_Spec Bub_Proofs Bub_Proofs2 Bub_Proofs3 Bub_Props Sf_Model Sf_Spec Sf_Proofs Sf_Proofs2
  Lop_Model Fl_Model Fl_Spec.
From Verif Require Mlp_Model Bse_Model Lop_Spec Lop_Proofs Lop_Proofs2 Lop_Props.
Open Scope Z_scope.
Import Lop_Spec (vertex_legs, vertex_ok, conj_symmetric, exchange_symmetric, seen, integral_ok, integral_imaginary, contraction, spin_summed, one_spin, component).

(** channels of which the parts are read by a loop in channel b *)
Definition chan_eqb (x y : chan) : bool := match x, y with Ca, Ca | Cp, Cp | Ct, Ct => true | _, _ => false end.
Definition present (st : symmtype) (b ch : chan) : bool := is_full st || negb (chan_eqb b ch).
Definition part (v : vert) (ch : chan) (s : Z) (l : legs) (k : Z) : cplx :=
  let x q := class_of (channel_of v ch) q s k (natural ch l) in (x k1 + x k2 + x k2b + x k3)%C.
Definition total (st : symmtype) (b : chan) (v : vert) : vertex_legs := fun s l k =>
  let x ch := if present st b ch then part v ch s l k else C0 in
  (Mlp_Model.irr _ v s k (0, 0, 0)%Q + x Ca + x Cp + x Ct)%C.

Section Symmetric.
  Variables (c : cfg) (u : Q) (v : vert).
  Hypothesis Kc : keldysh c = true.
  Hypothesis CBc : contour c = false.
  Hypothesis Sy : symmetric c u v.

  Lemma value_m ch k s a b d e f f' : spin01 s -> trip_eq f f' ->
    (class_of (channel_of v ch) k s (code4 a b d e) f == class_of (channel_of v ch) k s (code4 a b d e) f')%C.
  Proof.
    intros Sp E. pose proof (of_values _ _ _ _ Sy false ch k s (klof (code4 a b d e)) f f' (klof_ok a b d e) Sp E) as H.
    rewrite kcode_klof in H. exact H.
  Qed.
  Lemma natural_m ch l l' : legs_eq l l' -> trip_eq (natural ch l) (natural ch l').
  Proof. intros (A & B & C & D). destruct ch; repeat (apply Logic.conj); cbn [natural fst snd]; rewrite ?A, ?B, ?C, ?D; reflexivity. Qed.
  Lemma part_m ch s a b d e l l' : spin01 s -> legs_eq l l' -> (part v ch s l (code4 a b d e) == part v ch s l' (code4 a b d e))%C.
  Proof. intros Sp E. unfold part. rewrite !(value_m ch _ s a b d e (natural ch l) (natural ch l')) by (auto using natural_m). reflexivity. Qed.
  Lemma part_conv ch b s p q d e f : spin01 s -> exists g, transfToR false ch (Bch b) f = Some g /\
    (class_of (channel_of v ch) k1 s (code4 p q d e) g + class_of (channel_of v ch) k2 s (code4 p q d e) g +
     class_of (channel_of v ch) k2b s (code4 p q d e) g + class_of (channel_of v ch) k3 s (code4 p q d e) g ==
     part v ch s (legs_of b f) (code4 p q d e))%C.
  Proof.
    intros Sp. destruct (conv_legs ch b f) as (g & T & L). exists g. split; [exact T|]. unfold part.
    assert (E : trip_eq g (natural ch (legs_of b f))).
    { apply natural_of_legs. destruct L as (A & B & C & D). repeat (apply Logic.conj); symmetry; assumption. }
    rewrite !(value_m ch _ s p q d e _ _ Sp E). reflexivity.
  Qed.
  Lemma total_ok st b : vertex_ok (total st b v).
  Proof.
    intros s l l' p q d e Sp E. unfold total.
    destruct (present st b Ca), (present st b Cp), (present st b Ct); rewrite ?(part_m _ s p q d e l l' Sp E); reflexivity.
  Qed.
  Lemma total_seen st right : is_full st = true \/ is_r_irred st = true ->
    seen false right (total st (if right then Ca else Ct) v) (loop_vertex st v).
  Proof.
    intros Hst. unfold seen. set (b := if right then Ca else Ct). intros s x y p q d e Sp. unfold loop_vertex, g_value_expanded.
    destruct (part_conv Ca b s p q d e (0, x, y)%Q Sp) as (ga & Ta & Ea).
    destruct (part_conv Cp b s p q d e (0, x, y)%Q Sp) as (gp & Tp & Ep).
    destruct (part_conv Ct b s p q d e (0, x, y)%Q Sp) as (gt & Tt & Et).
    unfold total. destruct st; cbn [is_full is_r_irred] in Hst; try (destruct Hst; discriminate);
    unfold present, f_value, gammaRb, r_value; cbn [is_full negb orb expanded irred av pv tv get_r]; destruct right; unfold b in *;
    rewrite ?Ta, ?Tp, ?Tt; cbn [obind oadd]; change (2 <=? 3) with true; change (3 <=? 3) with true; cbv iota; cbn [oadd obind or0 chan_eqb];
    cbn [oadd obind or0]; rewrite ?Ea, ?Ep, ?Et; cbn [negb]; ring.
  Qed.
  Lemma half_irrelevant h ch k s kl l : on_legs v v h ch k s kl l = on_legs v v false ch k s kl l.
  Proof. destruct h; reflexivity. Qed.

  (** ** complex conjugation, frequency reversal and exchange of the particles *)
  Lemma in_out_carried ch : exists fl, carried in_out_k ch ch fl.
  Proof. destruct ch; [exists true|exists true|exists false]; reflexivity. Qed.
  Lemma carried_k fl : forall x : kcl -> cplx, (x (mirror fl k1) + x (mirror fl k2) + x (mirror fl k2b) + x (mirror fl k3) == x k1 + x k2 + x k2b + x k3)%C.
  Proof. intros x. destruct fl; cbn [mirror]; ring. Qed.
  Lemma part_in_out ch s a b d e l : spin01 s -> conserved l ->
    (part v ch s l (code4 a b d e) == conj_of (klof (code4 a b d e)) (part v ch s (in_out_f l) (code4 d e a b)))%C.
  Proof.
    intros Sp Co. destruct (in_out_carried ch) as (fl & Hf).
    assert (E : forall k, (class_of (channel_of v ch) k s (code4 a b d e) (natural ch l) ==
      conj_of (klof (code4 a b d e)) (class_of (channel_of v ch) (mirror fl k) s (code4 d e a b) (natural ch (in_out_f l))))%C).
    { intros k. pose proof (conjugation_keldysh _ _ _ (obeys_physical _ _ _ _ Sy) Kc false ch ch fl k s (klof (code4 a b d e)) l Hf (klof_ok a b d e) Co Sp) as H.
      rewrite (half_irrelevant (xorb false fl)) in H. unfold on_legs in H. rewrite klof_io, !kcode_klof in H. rewrite H.
      unfold conj_of. destruct k; reflexivity. }
    unfold part. rewrite !E. rewrite <- !conj_of_add. apply conj_of_m.
    exact (carried_k fl (fun k => class_of (channel_of v ch) k s (code4 d e a b) (natural ch (in_out_f l)))).
  Qed.
  Lemma part_reversed ch s a b d e l : phs c = true -> spin01 s -> conserved l ->
    (part v ch s l (code4 a b d e) == conj_of (klof (code4 a b d e)) (part v ch s (minus_f l) (code4 a b d e)))%C.
  Proof.
    intros Ph Sp Co.
    assert (E : forall k, (class_of (channel_of v ch) k s (code4 a b d e) (natural ch l) ==
      conj_of (klof (code4 a b d e)) (class_of (channel_of v ch) k s (code4 a b d e) (natural ch (minus_f l))))%C).
    { intros k. pose proof (reversal_keldysh _ _ (obeys_reversible _ _ _ _ Sy) Kc Ph false ch k s (klof (code4 a b d e)) l (klof_ok a b d e) Co Sp) as H.
      unfold on_legs in H. rewrite !kcode_klof in H. exact H. }
    unfold part. rewrite !E at 1. rewrite <- !conj_of_add. reflexivity.
  Qed.
  Lemma bare_value s a b d e : spin01 s ->
    (Mlp_Model.irr _ v s (code4 a b d e) (0, 0, 0)%Q == irred_expanded (irred_initialize c (Cofq u)) s (code4 a b d e))%C.
  Proof. intros Sp. pose proof (obeys_bare _ _ _ _ Sy false s (klof (code4 a b d e)) (0, 0, 0)%Q (klof_ok a b d e) Sp) as H. rewrite kcode_klof in H. exact H. Qed.
  Lemma bare_conj s a b d e : spin01 s ->
    (Mlp_Model.irr _ v s (code4 a b d e) (0, 0, 0)%Q == conj_of (klof (code4 a b d e)) (Mlp_Model.irr _ v s (code4 d e a b) (0, 0, 0)%Q))%C /\
    (Mlp_Model.irr _ v s (code4 a b d e) (0, 0, 0)%Q == conj_of (klof (code4 a b d e)) (Mlp_Model.irr _ v s (code4 a b d e) (0, 0, 0)%Q))%C /\
    (Mlp_Model.irr _ v s (code4 a b d e) (0, 0, 0)%Q == Mlp_Model.irr _ v s (code4 b a e d) (0, 0, 0)%Q)%C.
  Proof.
    intros Sp.
    assert (B : forall p q r t, (Mlp_Model.irr _ v s (code4 p q r t) (0, 0, 0)%Q ==
      if xorb (xorb p q) (xorb r t) then Cofq (u * (if s =? 0 then 1 else -1)) else C0)%C).
    { intros p q r t. rewrite bare_value by exact Sp. unfold irred_expanded, irred_initialize. rewrite Kc, CBc.
      assert (E : isInList (code4 p q r t) odd_Keldysh = xorb (xorb p q) (xorb r t)) by (destruct p, q, r, t; reflexivity). rewrite E.
      destruct Sp as [-> | ->]; cbn [Z.eqb Pos.eqb]; destruct (xorb (xorb p q) (xorb r t)); split; unfold Cmul, Cofq, C0; cbn [re im]; ring. }
    split; [|split].
    - rewrite (B a b d e). rewrite (conj_of_m _ _ _ (B d e a b)), conj_of_eps. destruct a, b, d, e; cbn [xorb]; unfold eps4, Bub_Proofs.eps;
      split; unfold Cmul, Cneg, Cofq, C0, Cconj, C1; cbn [re im]; ring.
    - rewrite (B a b d e) at 1. rewrite (conj_of_m _ _ _ (B a b d e)), conj_of_eps. destruct a, b, d, e; cbn [xorb]; unfold eps4, Bub_Proofs.eps;
      split; unfold Cmul, Cneg, Cofq, C0, Cconj, C1; cbn [re im]; ring.
    - rewrite (B a b d e), (B b a e d). destruct a, b, d, e; reflexivity.
  Qed.
  Lemma total_in_out st b s p q d e l : spin01 s -> conserved l ->
    (total st b v s l (code4 p q d e) == conj_of (klof (code4 p q d e)) (total st b v s (in_out_f l) (code4 d e p q)))%C.
  Proof.
    intros Sp Co. unfold total. rewrite !conj_of_add. rewrite <- (proj1 (bare_conj s p q d e Sp)).
    destruct (present st b Ca), (present st b Cp), (present st b Ct); rewrite ?conj_of_0, <- ?(part_in_out _ s p q d e l Sp Co); reflexivity.
  Qed.
  Lemma total_reversed st b s p q d e l : phs c = true -> spin01 s -> conserved l ->
    (total st b v s l (code4 p q d e) == conj_of (klof (code4 p q d e)) (total st b v s (minus_f l) (code4 p q d e)))%C.
  Proof.
    intros Ph Sp Co. unfold total. rewrite !conj_of_add. rewrite <- (proj1 (proj2 (bare_conj s p q d e Sp))).
    destruct (present st b Ca), (present st b Cp), (present st b Ct); rewrite ?conj_of_0, <- ?(part_reversed _ s p q d e l Ph Sp Co); reflexivity.
  Qed.
  Lemma exchange_carried ch : exists ch' f1 f2, carried swap_in_k ch ch' f1 /\ carried swap_out_k ch' ch f2.
  Proof. destruct ch; [exists Ct|exists Cp|exists Ca]; [exists true, false|exists false, false|exists true, false]; split; reflexivity. Qed.
  Lemma part_exchange ch s a b d e l : spin01 s -> conserved l ->
    (part v ch s l (code4 a b d e) == part v ch s (Lop_Spec.particle_exchange l) (code4 b a e d))%C.
  Proof.
    intros Sp Co. destruct (exchange_carried ch) as (ch' & f1 & f2 & H1 & H2).
    assert (Co' : conserved (swap_in_f l)) by (unfold conserved, swap_in_f in *; cbn [n1' n2' n1 n2] in *; rewrite Co; ring).
    assert (E : forall k, (class_of (channel_of v ch) k s (code4 a b d e) (natural ch l) ==
      class_of (channel_of v ch) (mirror f2 (mirror f1 k)) s (code4 b a e d) (natural ch (Lop_Spec.particle_exchange l)))%C).
    { intros k. pose proof (exchange_in _ _ _ (obeys_physical _ _ _ _ Sy) false ch ch' f1 k s (klof (code4 a b d e)) l H1 (klof_ok a b d e) Co Sp) as E1.
      pose proof (exchange_out _ _ _ (obeys_physical _ _ _ _ Sy) false ch' ch f2 (mirror f1 k) (1 - s)%Z (klof (code4 a b e d)) (swap_in_f l) H2
        (klof_ok a b e d) Co' (spin01_flip s Sp)) as E2.
      rewrite (half_irrelevant (xorb false f1)) in E1. rewrite (half_irrelevant (xorb false f2)) in E2.
      unfold on_legs in E1, E2. rewrite klof_in, !kcode_klof in E1. rewrite klof_out, !kcode_klof in E2. rewrite E1, E2.
      assert (Es : 1 - (1 - s) = s) by ring. rewrite Es.
      assert (Sg : forall k, exchange_sign false k = (-1)%Q) by (intros []; reflexivity). rewrite !Sg.
      unfold swap_out_f, swap_in_f, Lop_Spec.particle_exchange. cbn [n1' n2' n1 n2]. rewrite !cscale_neg1. ring. }
    unfold part. rewrite !E. destruct f1, f2; cbn [mirror]; ring.
  Qed.
  Lemma total_exchange st b : exchange_symmetric (total st b v).
  Proof.
    intros s l p q d e Sp Co. unfold total. rewrite (proj2 (proj2 (bare_conj s p q d e Sp))).
    destruct (present st b Ca), (present st b Cp), (present st b Ct); rewrite <- ?(part_exchange _ s p q d e l Sp Co); reflexivity.
  Qed.
  Lemma total_conj st b : conj_symmetric (total st b v).
  Proof.
    intros s l p q d e Sp Co. change (Lop_Spec.in_out l) with (in_out_f l).
    assert (Co' : conserved (in_out_f l)) by (unfold conserved, in_out_f in *; cbn [n1' n2' n1 n2] in *; rewrite Co; ring).
    rewrite (total_in_out st b s d e p q (in_out_f l) Sp Co'). rewrite conj_of_eps.
    assert (El : in_out_f (in_out_f l) = l) by (destruct l; reflexivity). rewrite El. generalize (Cconj (total st b v s l (code4 p q d e))). intros z.
    destruct p, q, d, e; unfold eps4, Bub_Proofs.eps, Lop_Spec.conj_sign; cbn [xorb]; split; unfold Cmul, Cneg, C1, Cscale; cbn [re im]; ring.
  Qed.

  (** ** the loop *)
  Variables (right all_spins : bool) (g : prop).
  Hypothesis Hs : right && all_spins = false.
  Hypothesis Hg : lines_ok g.
  Notation W st := (Lop_Proofs.wsel right all_spins (total st (if right then Ca else Ct) v)).
  Lemma W_spins st l k : (W st l k == Lop_Proofs.wspin right all_spins (total st (if right then Ca else Ct) v 0 l k) (total st (if right then Ca else Ct) v 1 l k))%C.
  Proof. symmetry. apply Lop_Proofs.wspin_spec. exact Hs. Qed.
  Lemma wspin_conj_of kl x y : (conj_of kl (Lop_Proofs.wspin right all_spins x y) == Lop_Proofs.wspin right all_spins (conj_of kl x) (conj_of kl y))%C.
  Proof. destruct right, all_spins; cbn [Lop_Proofs.wspin]; rewrite ?conj_of_add; reflexivity. Qed.
  Lemma W_conj st x vp a' a y' y :
    (W st (Lop_Spec.leg_freqs right x vp) (Lop_Spec.closed right code4 a' a y' y) ==
     - (eps4 a' y' a y * Cconj (W st (Lop_Spec.leg_freqs right x vp) (Lop_Spec.closed right code4 a a' y y'))))%C.
  Proof.
    rewrite <- conj_of_eps. rewrite W_spins. rewrite (conj_of_m _ _ _ (W_spins st _ _)). rewrite wspin_conj_of.
    assert (E : forall s, spin01 s -> (total st (if right then Ca else Ct) v s (Lop_Spec.leg_freqs right x vp) (Lop_Spec.closed right code4 a' a y' y) ==
       conj_of (klof (code4 a' y' a y)) (total st (if right then Ca else Ct) v s (Lop_Spec.leg_freqs right x vp) (Lop_Spec.closed right code4 a a' y y')))%C).
    { intros s Sp. destruct right; cbn [Lop_Spec.closed Lop_Spec.leg_freqs].
      - assert (Co : conserved (mkLegs vp x x vp)) by (unfold conserved; cbn [n1' n2' n1 n2]; ring).
        unfold Lop_Spec.leg_freqs, Lop_Spec.closed. rewrite <- (total_exchange st Ca s (mkLegs vp x x vp) y' a' a y Sp Co).
        unfold Lop_Spec.particle_exchange; cbn [n1' n2' n1 n2]. assert (Co' : conserved (mkLegs x vp vp x)) by (unfold conserved; cbn [n1' n2' n1 n2]; ring).
        rewrite (total_in_out st Ca s a' y' y a (mkLegs x vp vp x) Sp Co'). unfold in_out_f; cbn [n1' n2' n1 n2]. rewrite !conj_of_eps.
        destruct a', a, y', y; unfold eps4, Bub_Proofs.eps; ring.
      - assert (Co : conserved (mkLegs x vp x vp)) by (unfold conserved; cbn [n1' n2' n1 n2]; ring).
        exact (total_in_out st Ct s a' y' a y (mkLegs x vp x vp) Sp Co). }
    apply Lop_Proofs.wspin_m; apply E; [left|right]; reflexivity.
  Qed.
  Lemma W_reversed st x vp a' a y' y : phs c = true ->
    (W st (Lop_Spec.leg_freqs right x vp) (Lop_Spec.closed right code4 a' a y' y) ==
     - (eps4 a' y' a y * Cconj (W st (Lop_Spec.leg_freqs right (- x) (- vp)) (Lop_Spec.closed right code4 a' a y' y))))%C.
  Proof.
    intros Ph. rewrite <- conj_of_eps. rewrite W_spins. rewrite (conj_of_m _ _ _ (W_spins st _ _)). rewrite wspin_conj_of.
    assert (E : forall s, spin01 s -> (total st (if right then Ca else Ct) v s (Lop_Spec.leg_freqs right x vp) (Lop_Spec.closed right code4 a' a y' y) ==
       conj_of (klof (code4 a' y' a y)) (total st (if right then Ca else Ct) v s (Lop_Spec.leg_freqs right (- x) (- vp)) (Lop_Spec.closed right code4 a' a y' y)))%C).
    { intros s Sp. destruct right; cbn [Lop_Spec.closed Lop_Spec.leg_freqs].
      - assert (Co : conserved (mkLegs vp x x vp)) by (unfold conserved; cbn [n1' n2' n1 n2]; ring).
        unfold Lop_Spec.leg_freqs, Lop_Spec.closed.
        rewrite (total_reversed st Ca s y' a' a y (mkLegs vp x x vp) Ph Sp Co) at 1. unfold minus_f; cbn [n1' n2' n1 n2]. rewrite !conj_of_eps.
        destruct a', a, y', y; unfold eps4, Bub_Proofs.eps; ring.
      - assert (Co : conserved (mkLegs x vp x vp)) by (unfold conserved; cbn [n1' n2' n1 n2]; ring).
        exact (total_reversed st Ct s a' y' a y (mkLegs x vp x vp) Ph Sp Co). }
    apply Lop_Proofs.wspin_m; apply E; [left|right]; reflexivity.
  Qed.
  Lemma conj_conj z : (Cconj (Cconj z) == z)%C. Proof. split; unfold Cconj; cbn [re im]; ring. Qed.
  Lemma G_conj vp y y' : (Gmat g vp y y' == - (Bub_Proofs.eps y * Bub_Proofs.eps y' * Cconj (Gmat g vp y' y)))%C.
  Proof.
    pose proof (ok_conjugate _ Hg vp) as K. destruct y, y'; cbn [Gmat Bub_Proofs.eps]; rewrite ?conj_conj, ?conj_0; try ring.
    destruct (gK g vp) as [r i]; cbn [re] in K. split; unfold Cneg, Cmul, C1, Cconj; cbn [re im]; rewrite ?K; ring.
  Qed.
  Lemma G_reversed vp y y' : ph_symmetric g -> (Gmat g vp y y' == Bub_Proofs.eps y * Bub_Proofs.eps y' * Cconj (Gmat g (- vp) y y'))%C.
  Proof.
    intros P. destruct (P vp) as (PR & PK). pose proof (ok_conjugate _ Hg vp) as K.
    destruct y, y'; cbn [Gmat Bub_Proofs.eps]; rewrite ?PR, ?PK, ?conj_neg, ?conj_conj, ?conj_0; try ring.
    destruct (gK g vp) as [r i]; cbn [re] in K. split; unfold Cneg, Cmul, C1, Cconj; cbn [re im]; rewrite ?K; ring.
  Qed.
  Lemma contraction_conj st x vp a' a :
    (contraction right (W st) g x vp a' a == Bub_Proofs.eps a' * Bub_Proofs.eps a * Cconj (contraction right (W st) g x vp a a'))%C.
  Proof.
    assert (T : forall y y', (Gmat g vp y y' * W st (Lop_Spec.leg_freqs right x vp) (Lop_Spec.closed right code4 a' a y' y) ==
      Bub_Proofs.eps a' * Bub_Proofs.eps a * Cconj (Gmat g vp y' y * W st (Lop_Spec.leg_freqs right x vp) (Lop_Spec.closed right code4 a a' y y')))%C).
    { intros y y'. rewrite conj_mul. rewrite (W_conj st x vp a' a), (G_conj vp y y'). unfold eps4.
      destruct y, y'; cbn [Bub_Proofs.eps]; generalize (Bub_Proofs.eps a') (Bub_Proofs.eps a); intros; ring. }
    unfold contraction, csum, bits. cbn [fold_right]. rewrite (T true true), (T true false), (T false true), (T false false).
    rewrite !conj_add, !conj_0. generalize (Bub_Proofs.eps a') (Bub_Proofs.eps a). intros. ring.
  Qed.
  Lemma contraction_reversed st x vp a' a : phs c = true -> ph_symmetric g ->
    (contraction right (W st) g x vp a' a == - (Bub_Proofs.eps a' * Bub_Proofs.eps a * Cconj (contraction right (W st) g (- x) (- vp) a' a)))%C.
  Proof.
    intros Ph P.
    assert (T : forall y y', (Gmat g vp y y' * W st (Lop_Spec.leg_freqs right x vp) (Lop_Spec.closed right code4 a' a y' y) ==
      - (Bub_Proofs.eps a' * Bub_Proofs.eps a * Cconj (Gmat g (- vp) y y' * W st (Lop_Spec.leg_freqs right (- x) (- vp)) (Lop_Spec.closed right code4 a' a y' y))))%C).
    { intros y y'. rewrite conj_mul. rewrite (W_reversed st x vp a' a), (G_reversed vp y y') by assumption. unfold eps4.
      destruct y, y'; cbn [Bub_Proofs.eps]; generalize (Bub_Proofs.eps a') (Bub_Proofs.eps a); intros; ring. }
    unfold contraction, csum, bits. cbn [fold_right]. rewrite (T true true), (T true false), (T false true), (T false false).
    rewrite !conj_add, !conj_0. generalize (Bub_Proofs.eps a') (Bub_Proofs.eps a). intros. ring.
  Qed.
End Symmetric.
