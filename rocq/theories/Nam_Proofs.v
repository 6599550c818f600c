(** Reading the fields of a file name back. *)
From Coq Require Import QArith Qabs Qround String Ascii Decimal DecimalString DecimalZ DecimalN DecimalPos Lia Lqa.
From Verif Require Import Prelude Nam_Model Nam_Spec.
Open Scope Z_scope.
Open Scope string_scope.

(** ** Strings *)
Fixpoint all_chars (P : ascii -> bool) (s : string) : bool :=
  match s with "" => true | String a r => P a && all_chars P r end.
Lemma all_app P s t : all_chars P (s ++ t) = all_chars P s && all_chars P t.
Proof. induction s as [|a s IH]; cbn; [reflexivity|]. rewrite IH, Bool.andb_assoc. reflexivity. Qed.
Lemma all_weaken (P R : ascii -> bool) s : (forall a, P a = true -> R a = true) ->
  all_chars P s = true -> all_chars R s = true.
Proof.
  intros H. induction s as [|a s IH]; cbn; [reflexivity|]. intros E. apply Bool.andb_true_iff in E.
  destruct E as [E1 E2]. rewrite (H a E1), (IH E2). reflexivity.
Qed.
Lemma app_assoc_s a b c : ((a ++ b) ++ c = a ++ (b ++ c))%string.
Proof. induction a as [|x a IH]; cbn; [reflexivity|]. rewrite IH. reflexivity. Qed.
Lemma app_cancel a b c : a ++ b = a ++ c -> b = c.
Proof. induction a as [|x a IH]; cbn; [auto|]. intros E. injection E as E. auto. Qed.

(** a field ends at the first character that cannot occur in it *)
Lemma field P a a' c c' r r' : all_chars P a = true -> all_chars P a' = true -> P c = false -> P c' = false ->
  a ++ String c r = a' ++ String c' r' -> a = a' /\ c = c' /\ r = r'.
Proof.
  revert a'. induction a as [|x a IH]; intros a' Ha Ha' Hc Hc' E; destruct a' as [|x' a']; cbn in *.
  - injection E as -> ->. auto.
  - injection E as -> E. apply Bool.andb_true_iff in Ha'. destruct Ha' as [Ha' _]. congruence.
  - injection E as -> E. apply Bool.andb_true_iff in Ha. destruct Ha as [Ha _]. congruence.
  - injection E as -> E. apply Bool.andb_true_iff in Ha, Ha'. destruct Ha, Ha'.
    destruct (IH a') as (-> & -> & ->); auto.
Qed.
Lemma app_last s s' a b : s ++ String a "" = s' ++ String b "" -> s = s' /\ a = b.
Proof.
  revert s'. induction s as [|x s IH]; intros [|y s'] E; cbn in E.
  - injection E as ->. auto.
  - injection E as _ E. destruct s'; discriminate.
  - injection E as _ E. destruct s; discriminate.
  - injection E as -> E. destruct (IH _ E) as [-> ->]. auto.
Qed.

(** ** Characters *)
Definition is_digit (a : ascii) : bool := ((48 <=? N_of_ascii a) && (N_of_ascii a <=? 57))%N.
Definition is_int (a : ascii) : bool := is_digit a || Ascii.eqb a "-".
Definition is_num (a : ascii) : bool := is_int a || Ascii.eqb a ".".

Lemma uint_digits d : all_chars is_digit (NilEmpty.string_of_uint d) = true.
Proof. induction d; cbn [NilEmpty.string_of_uint all_chars]; try rewrite IHd; reflexivity. Qed.
Lemma zuint_digits d : all_chars is_digit (NilZero.string_of_uint d) = true.
Proof. destruct d; cbn [NilZero.string_of_uint]; try apply uint_digits; reflexivity. Qed.
Lemma show_int_chars z : all_chars is_int (show_int z) = true.
Proof.
  unfold show_int, NilZero.string_of_int. destruct (Z.to_int z); [|cbn [all_chars]];
    [|change (is_int "-") with true; cbn [andb]];
    (apply (all_weaken is_digit); [intros a E; unfold is_int; rewrite E; reflexivity|apply zuint_digits]).
Qed.
Lemma to_int_nonnil z : Z.to_int z <> Pos Nil /\ Z.to_int z <> Neg Nil.
Proof.
  destruct z; cbn; split; try discriminate; intros E; injection E as E; exact (Unsigned.to_uint_nonnil _ E).
Qed.
Lemma show_int_inj z z' : show_int z = show_int z' -> z = z'.
Proof.
  unfold show_int. intros E. apply DecimalZ.to_int_inj.
  destruct (to_int_nonnil z) as [A B], (to_int_nonnil z') as [A' B'].
  pose proof (NilZero.isi (Z.to_int z) A B) as I. pose proof (NilZero.isi (Z.to_int z') A' B') as I'.
  rewrite E, I' in I. injection I as ->. reflexivity.
Qed.
Lemma show_uint_inj n n' : NilZero.string_of_uint (N.to_uint n) = NilZero.string_of_uint (N.to_uint n') -> n = n'.
Proof.
  intros E. apply DecimalN.Unsigned.to_uint_inj.
  assert (A : forall m, N.to_uint m <> Nil).
  { intros [|m]; cbn; [discriminate|apply Unsigned.to_uint_nonnil]. }
  pose proof (NilZero.usu _ (A n)) as I. pose proof (NilZero.usu _ (A n')) as I'.
  rewrite E, I' in I. injection I as ->. reflexivity.
Qed.

Lemma digit_inj d d' : 0 <= d < 10 -> 0 <= d' < 10 ->
  ascii_of_N (Z.to_N (48 + d)) = ascii_of_N (Z.to_N (48 + d')) -> d = d'.
Proof.
  intros H H' E. apply (f_equal N_of_ascii) in E. rewrite !N_ascii_embedding in E by lia. lia.
Qed.
Lemma padded_inj k : forall z z', 0 <= z < 10 ^ Z.of_nat k -> 0 <= z' < 10 ^ Z.of_nat k ->
  padded k z = padded k z' -> z = z'.
Proof.
  induction k as [|k IH]; intros z z' H H' E.
  - cbn in H, H'. lia.
  - rewrite Nat2Z.inj_succ, Z.pow_succ_r in H, H' by lia. cbn [padded] in E. unfold digit in E.
    apply app_last in E. destruct E as [E1 E2].
    pose proof (Z.mod_pos_bound z 10 ltac:(lia)) as B. pose proof (Z.mod_pos_bound z' 10 ltac:(lia)) as B'.
    apply digit_inj in E2; [|lia|lia].
    pose proof (Z.div_mod z 10 ltac:(lia)) as D. pose proof (Z.div_mod z' 10 ltac:(lia)) as D'.
    assert (z / 10 = z' / 10) as Q; [|lia].
    apply IH; [| |exact E1]; (split; [apply Z.div_pos; lia|apply Z.div_lt_upper_bound; lia]).
Qed.
Lemma padded_digits k : forall z, all_chars is_digit (padded k z) = true.
Proof.
  induction k as [|k IH]; intros z; [reflexivity|]. cbn [padded]. rewrite all_app, IH. unfold digit.
  cbn [all_chars andb]. rewrite Bool.andb_true_r. unfold is_digit.
  pose proof (Z.mod_pos_bound z 10 ltac:(lia)) as B. rewrite N_ascii_embedding by lia.
  apply Bool.andb_true_iff. split; apply N.leb_le; lia.
Qed.

(** ** Numbers *)
Lemma round_even_nearest q : nearest q (round_even q).
Proof.
  unfold round_even, nearest. pose proof (Qfloor_le q) as L. pose proof (Qlt_floor q) as U.
  rewrite inject_Z_plus in U. change (inject_Z 1) with 1%Q in U.
  destruct (Qcompare (q - inject_Z (Qfloor q)) (1 # 2)) eqn:C.
  - apply Qeq_alt in C. destruct (Z.even (Qfloor q)) eqn:E.
    + right. split; [|exact E]. rewrite C. reflexivity.
    + right. split; [|rewrite Z.even_add, E; reflexivity].
      rewrite inject_Z_plus. change (inject_Z 1) with 1%Q.
      assert (q - (inject_Z (Qfloor q) + 1) == -(1 # 2))%Q as -> by (rewrite <- (Qplus_inj_r _ _ 1); lra).
      reflexivity.
  - apply Qlt_alt in C. left. apply Qabs_case; lra.
  - apply Qgt_alt in C. left. rewrite inject_Z_plus. change (inject_Z 1) with 1%Q. apply Qabs_case; lra.
Qed.
Lemma nearest_unique q n m : nearest q n -> nearest q m -> n = m.
Proof.
  assert (A : forall x, (Qabs x < 1 # 2)%Q -> (-(1 # 2) < x < 1 # 2)%Q).
  { intros x H. apply Qabs_Qlt_condition in H. exact H. }
  assert (B : forall x, (Qabs x == 1 # 2)%Q -> (x == 1 # 2 \/ x == -(1 # 2))%Q).
  { intros x H. revert H. apply Qabs_case; intros; [left|right]; lra. }
  assert (I : forall a b : Z, (inject_Z a - inject_Z b < 1)%Q -> a <= b).
  { intros a b H. unfold inject_Z, Qlt, Qminus, Qplus, Qopp in H. cbn in H. lia. }
  assert (J : forall a b : Z, (inject_Z a - inject_Z b == 1)%Q -> a = b + 1).
  { intros a b H. unfold inject_Z, Qeq, Qminus, Qplus, Qopp in H. cbn in H. lia. }
  intros [H|[H E]] [H'|[H' E']].
  - apply A in H, H'. assert (n <= m) by (apply I; lra). assert (m <= n) by (apply I; lra). lia.
  - apply A in H. apply B in H'. assert (n <= m) by (apply I; destruct H'; lra). assert (m <= n) by (apply I; destruct H'; lra). lia.
  - apply A in H'. apply B in H. assert (n <= m) by (apply I; destruct H; lra). assert (m <= n) by (apply I; destruct H; lra). lia.
  - apply B in H, H'. destruct H as [H|H], H' as [H'|H'].
    + assert (n <= m) by (apply I; lra). assert (m <= n) by (apply I; lra). lia.
    + assert (m = n + 1) as -> by (apply J; lra). rewrite Z.even_add, E in E'. discriminate.
    + assert (n = m + 1) as -> by (apply J; lra). rewrite Z.even_add, E' in E. discriminate.
    + assert (n <= m) by (apply I; lra). assert (m <= n) by (apply I; lra). lia.
Qed.
Lemma micro_nonneg q : 0 <= micro q.
Proof.
  unfold micro, round_even. set (x := (Qabs q * (1000000 # 1))%Q).
  assert (0 <= Qfloor x).
  { change 0 with (Qfloor 0). apply Qfloor_resp_le. unfold x. pose proof (Qabs_nonneg q). lra. }
  destruct (Qcompare _ _); [destruct (Z.even _)|..]; lia.
Qed.
Lemma same_digits_micro x y : same_digits x y <-> ((x < 0)%Q <-> (y < 0)%Q) /\ micro x = micro y.
Proof.
  unfold same_digits. split.
  - intros (H & n & A & B). split; [exact H|]. unfold micro.
    rewrite <- (nearest_unique _ _ _ A (round_even_nearest _)). apply (nearest_unique _ _ _ B (round_even_nearest _)).
  - intros (H & E). split; [exact H|]. exists (micro x). split; [apply round_even_nearest|].
    rewrite E. apply round_even_nearest.
Qed.

Lemma frac_inj m m' : 0 <= m -> 0 <= m' ->
  NilZero.string_of_uint (N.to_uint (Z.to_N (m / 1000000))) ++ "." ++ padded 6 (m mod 1000000)
  = NilZero.string_of_uint (N.to_uint (Z.to_N (m' / 1000000))) ++ "." ++ padded 6 (m' mod 1000000) -> m = m'.
Proof.
  intros H H' E. cbn [append] in E.
  apply (field is_digit) in E; [|apply zuint_digits|apply zuint_digits|reflexivity|reflexivity].
  destruct E as (E1 & _ & E2). apply show_uint_inj in E1.
  pose proof (Z.mod_pos_bound m 1000000 ltac:(lia)) as B. pose proof (Z.mod_pos_bound m' 1000000 ltac:(lia)) as B'.
  apply padded_inj in E2; [| |]; try (change (10 ^ Z.of_nat 6) with 1000000; lia).
  pose proof (Z.div_mod m 1000000 ltac:(lia)). pose proof (Z.div_mod m' 1000000 ltac:(lia)).
  pose proof (Z.div_pos m 1000000 ltac:(lia) ltac:(lia)). pose proof (Z.div_pos m' 1000000 ltac:(lia) ltac:(lia)).
  lia.
Qed.
Lemma unsigned_no_minus d r t : String "-" t <> NilZero.string_of_uint d ++ "." ++ r.
Proof. destruct d; cbn; discriminate. Qed.

Lemma show_double_iff x y : show_double x = show_double y <-> same_digits x y.
Proof.
  rewrite same_digits_micro. unfold show_double.
  destruct (Qlt_le_dec x 0) as [X|X], (Qlt_le_dec y 0) as [Y|Y]; split.
  - intros E. apply app_cancel in E. split; [tauto|]. apply (frac_inj _ _ (micro_nonneg x) (micro_nonneg y) E).
  - intros [_ E]. rewrite E. reflexivity.
  - intros E. exfalso. cbn [append] in E. exact (unsigned_no_minus _ _ _ E).
  - intros [H _]. exfalso. apply H in X. lra.
  - intros E. exfalso. cbn [append] in E. symmetry in E. exact (unsigned_no_minus _ _ _ E).
  - intros [H _]. exfalso. apply H in Y. lra.
  - intros E. apply app_cancel in E. split; [split; intros; lra|]. apply (frac_inj _ _ (micro_nonneg x) (micro_nonneg y) E).
  - intros [_ E]. rewrite E. reflexivity.
Qed.
Lemma show_double_chars q : all_chars is_num (show_double q) = true.
Proof.
  unfold show_double. rewrite !all_app.
  assert (D : forall s, all_chars is_digit s = true -> all_chars is_num s = true).
  { intros s. apply all_weaken. intros a E. unfold is_num, is_int. rewrite E. reflexivity. }
  rewrite (D _ (zuint_digits _)), (D _ (padded_digits _ _)). destruct (Qlt_le_dec q 0); reflexivity.
Qed.

(** numbers further apart than one unit of the last digit *)
Lemma digits_apart x y : (1 # 1000000 < Qabs (x - y))%Q -> ~ same_digits x y.
Proof.
  intros H (S & n & A & B).
  assert (W : forall q, nearest q n -> (-(1 # 2) <= q - inject_Z n <= 1 # 2)%Q).
  { intros q N. apply Qabs_Qle_condition. destruct N as [N|[N _]]; lra. }
  apply W in A, B. revert H A B. apply (Qabs_case (x - y)); apply (Qabs_case x); apply (Qabs_case y); intros Hy Hx Hd H A B;
    destruct (Qlt_le_dec x 0) as [X|X], (Qlt_le_dec y 0) as [Y|Y]; try (apply S in X; lra); try (apply S in Y; lra); lra.
Qed.
