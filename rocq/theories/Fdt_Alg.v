(** Algebra behind the fluctuation-dissipation theorems: real and imaginary parts of the contour components
    [f], weights [E] of the legs, factors [N]. *)
From Coq Require Import Reals Lra.
Open Scope R_scope.

(** ** Four fermionic legs *)
Lemma four_123_re : forall E1 E2 E3 E4 N1 N2 N3 N4 f0000 f0001 f0010 f0011 f0100 f0101 f0110 f0111 f1000 f1001 f1010 f1011 f1100 f1101 f1110 f1111 : R, 0 < E1 -> 0 < E2 -> 0 < E3 -> E1 * E2 * E3 * E4 = 1 ->
  N1 = (E1 - 1) / (E1 + 1) -> N2 = (E2 - 1) / (E2 + 1) -> N3 = (E3 - 1) / (E3 + 1) -> N4 = (E4 - 1) / (E4 + 1) ->
  f1111 = - (1 * f0000) ->
  f1101 = - (1 * (- E3) * f0010) ->
  f1011 = - (1 * (- E2) * f0100) ->
  f1001 = - (1 * (- E2) * (- E3) * f0110) ->
  f0111 = - (1 * (- E1) * f1000) ->
  f0101 = - (1 * (- E1) * (- E3) * f1010) ->
  f0011 = - (1 * (- E1) * (- E2) * f1100) ->
  f0001 = - (1 * (- E1) * (- E2) * (- E3) * f1110) ->
  0 + f0000 + f0001 + f0010 + f0011 + f0100 + f0101 + f0110 + f0111 + f1000 + f1001 + f1010 + f1011 + f1100 + f1101 + f1110 + f1111 = 0 ->
  (1 + N1 * N2 + N1 * N3 + N2 * N3) * ((0 - f0000 + f0001 - f0010 + f0011 - f0100 + f0101 - f0110 + f0111 - f1000 + f1001 - f1010 + f1011 - f1100 + f1101 - f1110 + f1111)) - (N2 * N3 * (0 - f0000 - f0001 - f0010 - f0011 - f0100 - f0101 - f0110 - f0111 + f1000 + f1001 + f1010 + f1011 + f1100 + f1101 + f1110 + f1111) + N1 * N3 * (0 - f0000 - f0001 - f0010 - f0011 + f0100 + f0101 + f0110 + f0111 - f1000 - f1001 - f1010 - f1011 + f1100 + f1101 + f1110 + f1111) + N1 * N2 * (0 - f0000 - f0001 + f0010 + f0011 - f0100 - f0101 + f0110 + f0111 - f1000 - f1001 + f1010 + f1011 - f1100 - f1101 + f1110 + f1111) + N1 * (0 + f0000 + f0001 - f0010 - f0011 - f0100 - f0101 + f0110 + f0111 + f1000 + f1001 - f1010 - f1011 - f1100 - f1101 + f1110 + f1111) + N3 * (0 + f0000 + f0001 + f0010 + f0011 - f0100 - f0101 - f0110 - f0111 - f1000 - f1001 - f1010 - f1011 + f1100 + f1101 + f1110 + f1111) + N2 * (0 + f0000 + f0001 - f0010 - f0011 + f0100 + f0101 - f0110 - f0111 - f1000 - f1001 + f1010 + f1011 - f1100 - f1101 + f1110 + f1111)) = (0 - f0000 - f0001 + f0010 + f0011 + f0100 + f0101 - f0110 - f0111 + f1000 + f1001 - f1010 - f1011 - f1100 - f1101 + f1110 + f1111).
Proof.
  intros E1 E2 E3 E4 N1 N2 N3 N4 f0000 f0001 f0010 f0011 f0100 f0101 f0110 f0111 f1000 f1001 f1010 f1011 f1100 f1101 f1110 f1111 P1 P2 P3 PE -> -> -> -> K0 K1 K2 K3 K4 K5 K6 K7 C.
  assert (E4 = / (E1 * E2 * E3)) as -> by (apply Rmult_eq_reg_l with (E1 * E2 * E3); [rewrite PE; field; lra|apply Rgt_not_eq; repeat apply Rmult_lt_0_compat; assumption]).
  rewrite ?K0, ?K1, ?K2, ?K3, ?K4, ?K5, ?K6, ?K7 in *.
  assert (f1000 = - (f0000 * (1 - (1)) + f0010 * (1 - (1 * (- E3))) + f0100 * (1 - (1 * (- E2))) + f0110 * (1 - (1 * (- E2) * (- E3))) + f1010 * (1 - (1 * (- E1) * (- E3))) + f1100 * (1 - (1 * (- E1) * (- E2))) + f1110 * (1 - (1 * (- E1) * (- E2) * (- E3)))) / (1 + E1)) as -> by (apply Rmult_eq_reg_l with (1 + E1); [|lra]; apply Rminus_diag_uniq; transitivity (0 + 0)%R; [|lra]; rewrite <- C at 2; field; lra).
  assert (0 < E1 * E2 * E3) by (repeat apply Rmult_lt_0_compat; assumption).
  field. repeat split; lra.
Qed.

Lemma four_123_im : forall E1 E2 E3 E4 N1 N2 N3 N4 f0000 f0001 f0010 f0011 f0100 f0101 f0110 f0111 f1000 f1001 f1010 f1011 f1100 f1101 f1110 f1111 : R, 0 < E1 -> 0 < E2 -> 0 < E3 -> E1 * E2 * E3 * E4 = 1 ->
  N1 = (E1 - 1) / (E1 + 1) -> N2 = (E2 - 1) / (E2 + 1) -> N3 = (E3 - 1) / (E3 + 1) -> N4 = (E4 - 1) / (E4 + 1) ->
  f1111 = (1 * f0000) ->
  f1101 = (1 * (- E3) * f0010) ->
  f1011 = (1 * (- E2) * f0100) ->
  f1001 = (1 * (- E2) * (- E3) * f0110) ->
  f0111 = (1 * (- E1) * f1000) ->
  f0101 = (1 * (- E1) * (- E3) * f1010) ->
  f0011 = (1 * (- E1) * (- E2) * f1100) ->
  f0001 = (1 * (- E1) * (- E2) * (- E3) * f1110) ->
  0 + f0000 + f0001 + f0010 + f0011 + f0100 + f0101 + f0110 + f0111 + f1000 + f1001 + f1010 + f1011 + f1100 + f1101 + f1110 + f1111 = 0 ->
  (1 + N1 * N2 + N1 * N3 + N2 * N3) * (- (0 - f0000 + f0001 - f0010 + f0011 - f0100 + f0101 - f0110 + f0111 - f1000 + f1001 - f1010 + f1011 - f1100 + f1101 - f1110 + f1111)) - (N2 * N3 * (0 - f0000 - f0001 - f0010 - f0011 - f0100 - f0101 - f0110 - f0111 + f1000 + f1001 + f1010 + f1011 + f1100 + f1101 + f1110 + f1111) + N1 * N3 * (0 - f0000 - f0001 - f0010 - f0011 + f0100 + f0101 + f0110 + f0111 - f1000 - f1001 - f1010 - f1011 + f1100 + f1101 + f1110 + f1111) + N1 * N2 * (0 - f0000 - f0001 + f0010 + f0011 - f0100 - f0101 + f0110 + f0111 - f1000 - f1001 + f1010 + f1011 - f1100 - f1101 + f1110 + f1111) + N1 * (0 + f0000 + f0001 - f0010 - f0011 - f0100 - f0101 + f0110 + f0111 + f1000 + f1001 - f1010 - f1011 - f1100 - f1101 + f1110 + f1111) + N3 * (0 + f0000 + f0001 + f0010 + f0011 - f0100 - f0101 - f0110 - f0111 - f1000 - f1001 - f1010 - f1011 + f1100 + f1101 + f1110 + f1111) + N2 * (0 + f0000 + f0001 - f0010 - f0011 + f0100 + f0101 - f0110 - f0111 - f1000 - f1001 + f1010 + f1011 - f1100 - f1101 + f1110 + f1111)) = (0 - f0000 - f0001 + f0010 + f0011 + f0100 + f0101 - f0110 - f0111 + f1000 + f1001 - f1010 - f1011 - f1100 - f1101 + f1110 + f1111).
Proof.
  intros E1 E2 E3 E4 N1 N2 N3 N4 f0000 f0001 f0010 f0011 f0100 f0101 f0110 f0111 f1000 f1001 f1010 f1011 f1100 f1101 f1110 f1111 P1 P2 P3 PE -> -> -> -> K0 K1 K2 K3 K4 K5 K6 K7 C.
  assert (E4 = / (E1 * E2 * E3)) as -> by (apply Rmult_eq_reg_l with (E1 * E2 * E3); [rewrite PE; field; lra|apply Rgt_not_eq; repeat apply Rmult_lt_0_compat; assumption]).
  rewrite ?K0, ?K1, ?K2, ?K3, ?K4, ?K5, ?K6, ?K7 in *.
  assert (f0000 = - (f0010 * (1 + (1 * (- E3))) + f0100 * (1 + (1 * (- E2))) + f0110 * (1 + (1 * (- E2) * (- E3))) + f1000 * (1 + (1 * (- E1))) + f1010 * (1 + (1 * (- E1) * (- E3))) + f1100 * (1 + (1 * (- E1) * (- E2))) + f1110 * (1 + (1 * (- E1) * (- E2) * (- E3)))) / 2) as -> by (apply Rmult_eq_reg_l with 2; [|lra]; apply Rminus_diag_uniq; transitivity (0 + 0)%R; [|lra]; rewrite <- C at 2; field; lra).
  assert (0 < E1 * E2 * E3) by (repeat apply Rmult_lt_0_compat; assumption).
  field. repeat split; lra.
Qed.

Lemma four_1234_re : forall E1 E2 E3 E4 N1 N2 N3 N4 f0000 f0001 f0010 f0011 f0100 f0101 f0110 f0111 f1000 f1001 f1010 f1011 f1100 f1101 f1110 f1111 : R, 0 < E1 -> 0 < E2 -> 0 < E3 -> E1 * E2 * E3 * E4 = 1 ->
  N1 = (E1 - 1) / (E1 + 1) -> N2 = (E2 - 1) / (E2 + 1) -> N3 = (E3 - 1) / (E3 + 1) -> N4 = (E4 - 1) / (E4 + 1) ->
  f1111 = - (1 * f0000) ->
  f1101 = - (1 * (- E3) * f0010) ->
  f1011 = - (1 * (- E2) * f0100) ->
  f1001 = - (1 * (- E2) * (- E3) * f0110) ->
  f0111 = - (1 * (- E1) * f1000) ->
  f0101 = - (1 * (- E1) * (- E3) * f1010) ->
  f0011 = - (1 * (- E1) * (- E2) * f1100) ->
  f0001 = - (1 * (- E1) * (- E2) * (- E3) * f1110) ->
  0 + f0000 + f0001 + f0010 + f0011 + f0100 + f0101 + f0110 + f0111 + f1000 + f1001 + f1010 + f1011 + f1100 + f1101 + f1110 + f1111 = 0 ->
  N2 * N3 * N4 * 2 * (0 - f0000 - f0001 - f0010 - f0011 - f0100 - f0101 - f0110 - f0111 + f1000 + f1001 + f1010 + f1011 + f1100 + f1101 + f1110 + f1111) + N1 * N3 * N4 * 2 * (0 - f0000 - f0001 - f0010 - f0011 + f0100 + f0101 + f0110 + f0111 - f1000 - f1001 - f1010 - f1011 + f1100 + f1101 + f1110 + f1111) + N1 * N2 * N4 * 2 * (0 - f0000 - f0001 + f0010 + f0011 - f0100 - f0101 + f0110 + f0111 - f1000 - f1001 + f1010 + f1011 - f1100 - f1101 + f1110 + f1111) + N1 * N2 * N3 * 2 * (0 - f0000 + f0001 - f0010 + f0011 - f0100 + f0101 - f0110 + f0111 - f1000 + f1001 - f1010 + f1011 - f1100 + f1101 - f1110 + f1111) + (N2 * N3 * N4 + N2 + N3 + N4) * ((0 - f0000 - f0001 - f0010 - f0011 - f0100 - f0101 - f0110 - f0111 + f1000 + f1001 + f1010 + f1011 + f1100 + f1101 + f1110 + f1111)) + (N1 * N3 * N4 + N1 + N3 + N4) * ((0 - f0000 - f0001 - f0010 - f0011 + f0100 + f0101 + f0110 + f0111 - f1000 - f1001 - f1010 - f1011 + f1100 + f1101 + f1110 + f1111)) + (N1 * N2 * N4 + N1 + N2 + N4) * ((0 - f0000 - f0001 + f0010 + f0011 - f0100 - f0101 + f0110 + f0111 - f1000 - f1001 + f1010 + f1011 - f1100 - f1101 + f1110 + f1111)) + (N1 * N2 * N3 + N1 + N2 + N3) * ((0 - f0000 + f0001 - f0010 + f0011 - f0100 + f0101 - f0110 + f0111 - f1000 + f1001 - f1010 + f1011 - f1100 + f1101 - f1110 + f1111)) + N3 * N4 * (0 + f0000 + f0001 + f0010 + f0011 - f0100 - f0101 - f0110 - f0111 - f1000 - f1001 - f1010 - f1011 + f1100 + f1101 + f1110 + f1111) + N2 * N4 * (0 + f0000 + f0001 - f0010 - f0011 + f0100 + f0101 - f0110 - f0111 - f1000 - f1001 + f1010 + f1011 - f1100 - f1101 + f1110 + f1111) + N2 * N3 * (0 + f0000 - f0001 + f0010 - f0011 + f0100 - f0101 + f0110 - f0111 - f1000 + f1001 - f1010 + f1011 - f1100 + f1101 - f1110 + f1111) + N1 * N4 * (0 + f0000 + f0001 - f0010 - f0011 - f0100 - f0101 + f0110 + f0111 + f1000 + f1001 - f1010 - f1011 - f1100 - f1101 + f1110 + f1111) + N1 * N3 * (0 + f0000 - f0001 + f0010 - f0011 - f0100 + f0101 - f0110 + f0111 + f1000 - f1001 + f1010 - f1011 - f1100 + f1101 - f1110 + f1111) + N1 * N2 * (0 + f0000 - f0001 - f0010 + f0011 + f0100 - f0101 - f0110 + f0111 + f1000 - f1001 - f1010 + f1011 + f1100 - f1101 - f1110 + f1111) = (0 + f0000 - f0001 - f0010 + f0011 - f0100 + f0101 + f0110 - f0111 - f1000 + f1001 + f1010 - f1011 + f1100 - f1101 - f1110 + f1111).
Proof.
  intros E1 E2 E3 E4 N1 N2 N3 N4 f0000 f0001 f0010 f0011 f0100 f0101 f0110 f0111 f1000 f1001 f1010 f1011 f1100 f1101 f1110 f1111 P1 P2 P3 PE -> -> -> -> K0 K1 K2 K3 K4 K5 K6 K7 C.
  assert (E4 = / (E1 * E2 * E3)) as -> by (apply Rmult_eq_reg_l with (E1 * E2 * E3); [rewrite PE; field; lra|apply Rgt_not_eq; repeat apply Rmult_lt_0_compat; assumption]).
  rewrite ?K0, ?K1, ?K2, ?K3, ?K4, ?K5, ?K6, ?K7 in *.
  assert (f1000 = - (f0000 * (1 - (1)) + f0010 * (1 - (1 * (- E3))) + f0100 * (1 - (1 * (- E2))) + f0110 * (1 - (1 * (- E2) * (- E3))) + f1010 * (1 - (1 * (- E1) * (- E3))) + f1100 * (1 - (1 * (- E1) * (- E2))) + f1110 * (1 - (1 * (- E1) * (- E2) * (- E3)))) / (1 + E1)) as -> by (apply Rmult_eq_reg_l with (1 + E1); [|lra]; apply Rminus_diag_uniq; transitivity (0 + 0)%R; [|lra]; rewrite <- C at 2; field; lra).
  assert (0 < E1 * E2 * E3) by (repeat apply Rmult_lt_0_compat; assumption).
  field. repeat split; lra.
Qed.

Lemma four_1234_im : forall E1 E2 E3 E4 N1 N2 N3 N4 f0000 f0001 f0010 f0011 f0100 f0101 f0110 f0111 f1000 f1001 f1010 f1011 f1100 f1101 f1110 f1111 : R, 0 < E1 -> 0 < E2 -> 0 < E3 -> E1 * E2 * E3 * E4 = 1 ->
  N1 = (E1 - 1) / (E1 + 1) -> N2 = (E2 - 1) / (E2 + 1) -> N3 = (E3 - 1) / (E3 + 1) -> N4 = (E4 - 1) / (E4 + 1) ->
  f1111 = (1 * f0000) ->
  f1101 = (1 * (- E3) * f0010) ->
  f1011 = (1 * (- E2) * f0100) ->
  f1001 = (1 * (- E2) * (- E3) * f0110) ->
  f0111 = (1 * (- E1) * f1000) ->
  f0101 = (1 * (- E1) * (- E3) * f1010) ->
  f0011 = (1 * (- E1) * (- E2) * f1100) ->
  f0001 = (1 * (- E1) * (- E2) * (- E3) * f1110) ->
  0 + f0000 + f0001 + f0010 + f0011 + f0100 + f0101 + f0110 + f0111 + f1000 + f1001 + f1010 + f1011 + f1100 + f1101 + f1110 + f1111 = 0 ->
  N2 * N3 * N4 * 2 * (0 - f0000 - f0001 - f0010 - f0011 - f0100 - f0101 - f0110 - f0111 + f1000 + f1001 + f1010 + f1011 + f1100 + f1101 + f1110 + f1111) + N1 * N3 * N4 * 2 * (0 - f0000 - f0001 - f0010 - f0011 + f0100 + f0101 + f0110 + f0111 - f1000 - f1001 - f1010 - f1011 + f1100 + f1101 + f1110 + f1111) + N1 * N2 * N4 * 2 * (0 - f0000 - f0001 + f0010 + f0011 - f0100 - f0101 + f0110 + f0111 - f1000 - f1001 + f1010 + f1011 - f1100 - f1101 + f1110 + f1111) + N1 * N2 * N3 * 2 * (0 - f0000 + f0001 - f0010 + f0011 - f0100 + f0101 - f0110 + f0111 - f1000 + f1001 - f1010 + f1011 - f1100 + f1101 - f1110 + f1111) + (N2 * N3 * N4 + N2 + N3 + N4) * (- (0 - f0000 - f0001 - f0010 - f0011 - f0100 - f0101 - f0110 - f0111 + f1000 + f1001 + f1010 + f1011 + f1100 + f1101 + f1110 + f1111)) + (N1 * N3 * N4 + N1 + N3 + N4) * (- (0 - f0000 - f0001 - f0010 - f0011 + f0100 + f0101 + f0110 + f0111 - f1000 - f1001 - f1010 - f1011 + f1100 + f1101 + f1110 + f1111)) + (N1 * N2 * N4 + N1 + N2 + N4) * (- (0 - f0000 - f0001 + f0010 + f0011 - f0100 - f0101 + f0110 + f0111 - f1000 - f1001 + f1010 + f1011 - f1100 - f1101 + f1110 + f1111)) + (N1 * N2 * N3 + N1 + N2 + N3) * (- (0 - f0000 + f0001 - f0010 + f0011 - f0100 + f0101 - f0110 + f0111 - f1000 + f1001 - f1010 + f1011 - f1100 + f1101 - f1110 + f1111)) + N3 * N4 * (0 + f0000 + f0001 + f0010 + f0011 - f0100 - f0101 - f0110 - f0111 - f1000 - f1001 - f1010 - f1011 + f1100 + f1101 + f1110 + f1111) + N2 * N4 * (0 + f0000 + f0001 - f0010 - f0011 + f0100 + f0101 - f0110 - f0111 - f1000 - f1001 + f1010 + f1011 - f1100 - f1101 + f1110 + f1111) + N2 * N3 * (0 + f0000 - f0001 + f0010 - f0011 + f0100 - f0101 + f0110 - f0111 - f1000 + f1001 - f1010 + f1011 - f1100 + f1101 - f1110 + f1111) + N1 * N4 * (0 + f0000 + f0001 - f0010 - f0011 - f0100 - f0101 + f0110 + f0111 + f1000 + f1001 - f1010 - f1011 - f1100 - f1101 + f1110 + f1111) + N1 * N3 * (0 + f0000 - f0001 + f0010 - f0011 - f0100 + f0101 - f0110 + f0111 + f1000 - f1001 + f1010 - f1011 - f1100 + f1101 - f1110 + f1111) + N1 * N2 * (0 + f0000 - f0001 - f0010 + f0011 + f0100 - f0101 - f0110 + f0111 + f1000 - f1001 - f1010 + f1011 + f1100 - f1101 - f1110 + f1111) = (0 + f0000 - f0001 - f0010 + f0011 - f0100 + f0101 + f0110 - f0111 - f1000 + f1001 + f1010 - f1011 + f1100 - f1101 - f1110 + f1111).
Proof.
  intros E1 E2 E3 E4 N1 N2 N3 N4 f0000 f0001 f0010 f0011 f0100 f0101 f0110 f0111 f1000 f1001 f1010 f1011 f1100 f1101 f1110 f1111 P1 P2 P3 PE -> -> -> -> K0 K1 K2 K3 K4 K5 K6 K7 C.
  assert (E4 = / (E1 * E2 * E3)) as -> by (apply Rmult_eq_reg_l with (E1 * E2 * E3); [rewrite PE; field; lra|apply Rgt_not_eq; repeat apply Rmult_lt_0_compat; assumption]).
  rewrite ?K0, ?K1, ?K2, ?K3, ?K4, ?K5, ?K6, ?K7 in *.
  assert (f0000 = - (f0010 * (1 + (1 * (- E3))) + f0100 * (1 + (1 * (- E2))) + f0110 * (1 + (1 * (- E2) * (- E3))) + f1000 * (1 + (1 * (- E1))) + f1010 * (1 + (1 * (- E1) * (- E3))) + f1100 * (1 + (1 * (- E1) * (- E2))) + f1110 * (1 + (1 * (- E1) * (- E2) * (- E3)))) / 2) as -> by (apply Rmult_eq_reg_l with 2; [|lra]; apply Rminus_diag_uniq; transitivity (0 + 0)%R; [|lra]; rewrite <- C at 2; field; lra).
  assert (0 < E1 * E2 * E3) by (repeat apply Rmult_lt_0_compat; assumption).
  field. repeat split; lra.
Qed.

(** two pairs of legs with opposite energies *)
Lemma slice_1212_im : forall E1 E2 N1 N2 f0000 f0001 f0010 f0011 f0100 f0101 f0110 f0111 f1000 f1001 f1010 f1011 f1100 f1101 f1110 f1111 : R, 0 < E1 -> 0 < E2 ->
  N1 = (E1 - 1) / (E1 + 1) -> N2 = (E2 - 1) / (E2 + 1) ->
  f1111 = 1 * f0000 ->
  f1101 = 1 * (- (/ E1)) * f0010 ->
  f1011 = 1 * (- (E2)) * f0100 ->
  f1001 = 1 * (- (E2)) * (- (/ E1)) * f0110 ->
  f0111 = 1 * (- (E1)) * f1000 ->
  f0101 = 1 * (- (E1)) * (- (/ E1)) * f1010 ->
  f0011 = 1 * (- (E1)) * (- (E2)) * f1100 ->
  f0001 = 1 * (- (E1)) * (- (E2)) * (- (/ E1)) * f1110 ->
  0 + f0000 + f0001 + f0010 + f0011 + f0100 + f0101 + f0110 + f0111 + f1000 + f1001 + f1010 + f1011 + f1100 + f1101 + f1110 + f1111 = 0 ->
  (1 - N1 * N1) * ((0 + f0000 - f0001 + f0010 - f0011 - f0100 + f0101 - f0110 + f0111 + f1000 - f1001 + f1010 - f1011 - f1100 + f1101 - f1110 + f1111) - N2 * ((0 - f0000 - f0001 - f0010 - f0011 + f0100 + f0101 + f0110 + f0111 - f1000 - f1001 - f1010 - f1011 + f1100 + f1101 + f1110 + f1111) - (0 - f0000 + f0001 - f0010 + f0011 - f0100 + f0101 - f0110 + f0111 - f1000 + f1001 - f1010 + f1011 - f1100 + f1101 - f1110 + f1111))) = (1 - N2 * N2) * ((0 + f0000 + f0001 - f0010 - f0011 + f0100 + f0101 - f0110 - f0111 - f1000 - f1001 + f1010 + f1011 - f1100 - f1101 + f1110 + f1111) - N1 * ((0 - f0000 - f0001 - f0010 - f0011 - f0100 - f0101 - f0110 - f0111 + f1000 + f1001 + f1010 + f1011 + f1100 + f1101 + f1110 + f1111) - (0 - f0000 - f0001 + f0010 + f0011 - f0100 - f0101 + f0110 + f0111 - f1000 - f1001 + f1010 + f1011 - f1100 - f1101 + f1110 + f1111))).
Proof.
  intros E1 E2 N1 N2 f0000 f0001 f0010 f0011 f0100 f0101 f0110 f0111 f1000 f1001 f1010 f1011 f1100 f1101 f1110 f1111 P1 P2 -> -> K0 K1 K2 K3 K4 K5 K6 K7 C.
  rewrite ?K0, ?K1, ?K2, ?K3, ?K4, ?K5, ?K6, ?K7 in *.
  assert (f0000 = - (f0010 * (1 + (1 * (- (/ E1)))) + f0100 * (1 + (1 * (- (E2)))) + f0110 * (1 + (1 * (- (E2)) * (- (/ E1)))) + f1000 * (1 + (1 * (- (E1)))) + f1010 * (1 + (1 * (- (E1)) * (- (/ E1)))) + f1100 * (1 + (1 * (- (E1)) * (- (E2)))) + f1110 * (1 + (1 * (- (E1)) * (- (E2)) * (- (/ E1))))) / 2) as -> by (apply Rmult_eq_reg_l with 2; [|lra]; apply Rminus_diag_uniq; transitivity (0 + 0)%R; [|lra]; rewrite <- C at 2; field; lra).
  field; repeat split; lra.
Qed.

(** ** Two fermionic legs and a bosonic one *)
Lemma three_12_re : forall E1 E2 E3 N1 N2 N3 f000 f001 f010 f011 f100 f101 f110 f111 : R, 0 < E1 -> 0 < E2 -> E3 <> 1 -> E1 * E2 * E3 = 1 ->
  N1 = (E1 - 1) / (E1 + 1) -> N2 = (E2 - 1) / (E2 + 1) -> N3 = (E3 + 1) / (E3 - 1) ->
  f111 = - (1 * f000) ->
  f101 = - (1 * (- E2) * f010) ->
  f011 = - (1 * (- E1) * f100) ->
  f001 = - (1 * (- E1) * (- E2) * f110) ->
  0 + f000 + f001 + f010 + f011 + f100 + f101 + f110 + f111 = 0 ->
  N2 * (((0 - f000 + f001 - f010 + f011 - f100 + f101 - f110 + f111)) - (0 - f000 - f001 - f010 - f011 + f100 + f101 + f110 + f111)) + N1 * (((0 - f000 + f001 - f010 + f011 - f100 + f101 - f110 + f111)) - (0 - f000 - f001 + f010 + f011 - f100 - f101 + f110 + f111)) = (0 + f000 + f001 - f010 - f011 - f100 - f101 + f110 + f111).
Proof.
  intros E1 E2 E3 N1 N2 N3 f000 f001 f010 f011 f100 f101 f110 f111 P1 P2 P3 PE -> -> -> K0 K1 K2 K3 C.
  assert (Q : 0 < E1 * E2) by (apply Rmult_lt_0_compat; assumption).
  assert (E3 = / (E1 * E2)) as -> by (apply Rmult_eq_reg_l with (E1 * E2); [rewrite PE; field; lra|lra]).
  assert (P4 : 1 - E1 * E2 <> 0) by (intros H; apply P3; replace (E1 * E2) with 1 by lra; apply Rinv_1).
  rewrite ?K0, ?K1, ?K2, ?K3 in *.
  assert (f100 = - (f000 * (1 - (1)) + f010 * (1 - (1 * (- E2))) + f110 * (1 - (1 * (- E1) * (- E2)))) / (1 + E1)) as -> by (apply Rmult_eq_reg_l with (1 + E1); [|lra]; apply Rminus_diag_uniq; transitivity (0 + 0)%R; [|lra]; rewrite <- C at 2; field; lra).
  field; repeat split; lra.
Qed.

Lemma three_12_im : forall E1 E2 E3 N1 N2 N3 f000 f001 f010 f011 f100 f101 f110 f111 : R, 0 < E1 -> 0 < E2 -> E3 <> 1 -> E1 * E2 * E3 = 1 ->
  N1 = (E1 - 1) / (E1 + 1) -> N2 = (E2 - 1) / (E2 + 1) -> N3 = (E3 + 1) / (E3 - 1) ->
  f111 = (1 * f000) ->
  f101 = (1 * (- E2) * f010) ->
  f011 = (1 * (- E1) * f100) ->
  f001 = (1 * (- E1) * (- E2) * f110) ->
  0 + f000 + f001 + f010 + f011 + f100 + f101 + f110 + f111 = 0 ->
  N2 * ((- (0 - f000 + f001 - f010 + f011 - f100 + f101 - f110 + f111)) - (0 - f000 - f001 - f010 - f011 + f100 + f101 + f110 + f111)) + N1 * ((- (0 - f000 + f001 - f010 + f011 - f100 + f101 - f110 + f111)) - (0 - f000 - f001 + f010 + f011 - f100 - f101 + f110 + f111)) = (0 + f000 + f001 - f010 - f011 - f100 - f101 + f110 + f111).
Proof.
  intros E1 E2 E3 N1 N2 N3 f000 f001 f010 f011 f100 f101 f110 f111 P1 P2 P3 PE -> -> -> K0 K1 K2 K3 C.
  assert (Q : 0 < E1 * E2) by (apply Rmult_lt_0_compat; assumption).
  assert (E3 = / (E1 * E2)) as -> by (apply Rmult_eq_reg_l with (E1 * E2); [rewrite PE; field; lra|lra]).
  assert (P4 : 1 - E1 * E2 <> 0) by (intros H; apply P3; replace (E1 * E2) with 1 by lra; apply Rinv_1).
  rewrite ?K0, ?K1, ?K2, ?K3 in *.
  assert (f000 = - (f010 * (1 + (1 * (- E2))) + f100 * (1 + (1 * (- E1))) + f110 * (1 + (1 * (- E1) * (- E2)))) / 2) as -> by (apply Rmult_eq_reg_l with 2; [|lra]; apply Rminus_diag_uniq; transitivity (0 + 0)%R; [|lra]; rewrite <- C at 2; field; lra).
  field; repeat split; lra.
Qed.

Lemma three_13_re : forall E1 E2 E3 N1 N2 N3 f000 f001 f010 f011 f100 f101 f110 f111 : R, 0 < E1 -> 0 < E2 -> E3 <> 1 -> E1 * E2 * E3 = 1 ->
  N1 = (E1 - 1) / (E1 + 1) -> N2 = (E2 - 1) / (E2 + 1) -> N3 = (E3 + 1) / (E3 - 1) ->
  f111 = - (1 * f000) ->
  f101 = - (1 * (- E2) * f010) ->
  f011 = - (1 * (- E1) * f100) ->
  f001 = - (1 * (- E1) * (- E2) * f110) ->
  0 + f000 + f001 + f010 + f011 + f100 + f101 + f110 + f111 = 0 ->
  N3 * (((0 - f000 - f001 + f010 + f011 - f100 - f101 + f110 + f111)) - (0 - f000 - f001 - f010 - f011 + f100 + f101 + f110 + f111)) + N1 * (((0 - f000 - f001 + f010 + f011 - f100 - f101 + f110 + f111)) - (0 - f000 + f001 - f010 + f011 - f100 + f101 - f110 + f111)) = (0 + f000 - f001 + f010 - f011 - f100 + f101 - f110 + f111).
Proof.
  intros E1 E2 E3 N1 N2 N3 f000 f001 f010 f011 f100 f101 f110 f111 P1 P2 P3 PE -> -> -> K0 K1 K2 K3 C.
  assert (Q : 0 < E1 * E2) by (apply Rmult_lt_0_compat; assumption).
  assert (E3 = / (E1 * E2)) as -> by (apply Rmult_eq_reg_l with (E1 * E2); [rewrite PE; field; lra|lra]).
  assert (P4 : 1 - E1 * E2 <> 0) by (intros H; apply P3; replace (E1 * E2) with 1 by lra; apply Rinv_1).
  rewrite ?K0, ?K1, ?K2, ?K3 in *.
  assert (f100 = - (f000 * (1 - (1)) + f010 * (1 - (1 * (- E2))) + f110 * (1 - (1 * (- E1) * (- E2)))) / (1 + E1)) as -> by (apply Rmult_eq_reg_l with (1 + E1); [|lra]; apply Rminus_diag_uniq; transitivity (0 + 0)%R; [|lra]; rewrite <- C at 2; field; lra).
  field; repeat split; lra.
Qed.

Lemma three_13_im : forall E1 E2 E3 N1 N2 N3 f000 f001 f010 f011 f100 f101 f110 f111 : R, 0 < E1 -> 0 < E2 -> E3 <> 1 -> E1 * E2 * E3 = 1 ->
  N1 = (E1 - 1) / (E1 + 1) -> N2 = (E2 - 1) / (E2 + 1) -> N3 = (E3 + 1) / (E3 - 1) ->
  f111 = (1 * f000) ->
  f101 = (1 * (- E2) * f010) ->
  f011 = (1 * (- E1) * f100) ->
  f001 = (1 * (- E1) * (- E2) * f110) ->
  0 + f000 + f001 + f010 + f011 + f100 + f101 + f110 + f111 = 0 ->
  N3 * ((- (0 - f000 - f001 + f010 + f011 - f100 - f101 + f110 + f111)) - (0 - f000 - f001 - f010 - f011 + f100 + f101 + f110 + f111)) + N1 * ((- (0 - f000 - f001 + f010 + f011 - f100 - f101 + f110 + f111)) - (0 - f000 + f001 - f010 + f011 - f100 + f101 - f110 + f111)) = (0 + f000 - f001 + f010 - f011 - f100 + f101 - f110 + f111).
Proof.
  intros E1 E2 E3 N1 N2 N3 f000 f001 f010 f011 f100 f101 f110 f111 P1 P2 P3 PE -> -> -> K0 K1 K2 K3 C.
  assert (Q : 0 < E1 * E2) by (apply Rmult_lt_0_compat; assumption).
  assert (E3 = / (E1 * E2)) as -> by (apply Rmult_eq_reg_l with (E1 * E2); [rewrite PE; field; lra|lra]).
  assert (P4 : 1 - E1 * E2 <> 0) by (intros H; apply P3; replace (E1 * E2) with 1 by lra; apply Rinv_1).
  rewrite ?K0, ?K1, ?K2, ?K3 in *.
  assert (f000 = - (f010 * (1 + (1 * (- E2))) + f100 * (1 + (1 * (- E1))) + f110 * (1 + (1 * (- E1) * (- E2)))) / 2) as -> by (apply Rmult_eq_reg_l with 2; [|lra]; apply Rminus_diag_uniq; transitivity (0 + 0)%R; [|lra]; rewrite <- C at 2; field; lra).
  field; repeat split; lra.
Qed.

Lemma three_23_re : forall E1 E2 E3 N1 N2 N3 f000 f001 f010 f011 f100 f101 f110 f111 : R, 0 < E1 -> 0 < E2 -> E3 <> 1 -> E1 * E2 * E3 = 1 ->
  N1 = (E1 - 1) / (E1 + 1) -> N2 = (E2 - 1) / (E2 + 1) -> N3 = (E3 + 1) / (E3 - 1) ->
  f111 = - (1 * f000) ->
  f101 = - (1 * (- E2) * f010) ->
  f011 = - (1 * (- E1) * f100) ->
  f001 = - (1 * (- E1) * (- E2) * f110) ->
  0 + f000 + f001 + f010 + f011 + f100 + f101 + f110 + f111 = 0 ->
  N3 * (((0 - f000 - f001 - f010 - f011 + f100 + f101 + f110 + f111)) - (0 - f000 - f001 + f010 + f011 - f100 - f101 + f110 + f111)) + N2 * (((0 - f000 - f001 - f010 - f011 + f100 + f101 + f110 + f111)) - (0 - f000 + f001 - f010 + f011 - f100 + f101 - f110 + f111)) = (0 + f000 - f001 - f010 + f011 + f100 - f101 - f110 + f111).
Proof.
  intros E1 E2 E3 N1 N2 N3 f000 f001 f010 f011 f100 f101 f110 f111 P1 P2 P3 PE -> -> -> K0 K1 K2 K3 C.
  assert (Q : 0 < E1 * E2) by (apply Rmult_lt_0_compat; assumption).
  assert (E3 = / (E1 * E2)) as -> by (apply Rmult_eq_reg_l with (E1 * E2); [rewrite PE; field; lra|lra]).
  assert (P4 : 1 - E1 * E2 <> 0) by (intros H; apply P3; replace (E1 * E2) with 1 by lra; apply Rinv_1).
  rewrite ?K0, ?K1, ?K2, ?K3 in *.
  assert (f100 = - (f000 * (1 - (1)) + f010 * (1 - (1 * (- E2))) + f110 * (1 - (1 * (- E1) * (- E2)))) / (1 + E1)) as -> by (apply Rmult_eq_reg_l with (1 + E1); [|lra]; apply Rminus_diag_uniq; transitivity (0 + 0)%R; [|lra]; rewrite <- C at 2; field; lra).
  field; repeat split; lra.
Qed.

Lemma three_23_im : forall E1 E2 E3 N1 N2 N3 f000 f001 f010 f011 f100 f101 f110 f111 : R, 0 < E1 -> 0 < E2 -> E3 <> 1 -> E1 * E2 * E3 = 1 ->
  N1 = (E1 - 1) / (E1 + 1) -> N2 = (E2 - 1) / (E2 + 1) -> N3 = (E3 + 1) / (E3 - 1) ->
  f111 = (1 * f000) ->
  f101 = (1 * (- E2) * f010) ->
  f011 = (1 * (- E1) * f100) ->
  f001 = (1 * (- E1) * (- E2) * f110) ->
  0 + f000 + f001 + f010 + f011 + f100 + f101 + f110 + f111 = 0 ->
  N3 * ((- (0 - f000 - f001 - f010 - f011 + f100 + f101 + f110 + f111)) - (0 - f000 - f001 + f010 + f011 - f100 - f101 + f110 + f111)) + N2 * ((- (0 - f000 - f001 - f010 - f011 + f100 + f101 + f110 + f111)) - (0 - f000 + f001 - f010 + f011 - f100 + f101 - f110 + f111)) = (0 + f000 - f001 - f010 + f011 + f100 - f101 - f110 + f111).
Proof.
  intros E1 E2 E3 N1 N2 N3 f000 f001 f010 f011 f100 f101 f110 f111 P1 P2 P3 PE -> -> -> K0 K1 K2 K3 C.
  assert (Q : 0 < E1 * E2) by (apply Rmult_lt_0_compat; assumption).
  assert (E3 = / (E1 * E2)) as -> by (apply Rmult_eq_reg_l with (E1 * E2); [rewrite PE; field; lra|lra]).
  assert (P4 : 1 - E1 * E2 <> 0) by (intros H; apply P3; replace (E1 * E2) with 1 by lra; apply Rinv_1).
  rewrite ?K0, ?K1, ?K2, ?K3 in *.
  assert (f000 = - (f010 * (1 + (1 * (- E2))) + f100 * (1 + (1 * (- E1))) + f110 * (1 + (1 * (- E1) * (- E2)))) / 2) as -> by (apply Rmult_eq_reg_l with 2; [|lra]; apply Rminus_diag_uniq; transitivity (0 + 0)%R; [|lra]; rewrite <- C at 2; field; lra).
  field; repeat split; lra.
Qed.

Lemma three_123_re : forall E1 E2 E3 N1 N2 N3 f000 f001 f010 f011 f100 f101 f110 f111 : R, 0 < E1 -> 0 < E2 -> E3 <> 1 -> E1 * E2 * E3 = 1 ->
  N1 = (E1 - 1) / (E1 + 1) -> N2 = (E2 - 1) / (E2 + 1) -> N3 = (E3 + 1) / (E3 - 1) ->
  f111 = - (1 * f000) ->
  f101 = - (1 * (- E2) * f010) ->
  f011 = - (1 * (- E1) * f100) ->
  f001 = - (1 * (- E1) * (- E2) * f110) ->
  0 + f000 + f001 + f010 + f011 + f100 + f101 + f110 + f111 = 0 ->
  (0 - f000 - f001 - f010 - f011 + f100 + f101 + f110 + f111) + (0 - f000 - f001 + f010 + f011 - f100 - f101 + f110 + f111) + (0 - f000 + f001 - f010 + f011 - f100 + f101 - f110 + f111) + 2 * (N2 * N3 * (0 - f000 - f001 - f010 - f011 + f100 + f101 + f110 + f111) + N1 * N3 * (0 - f000 - f001 + f010 + f011 - f100 - f101 + f110 + f111) + N1 * N2 * (0 - f000 + f001 - f010 + f011 - f100 + f101 - f110 + f111)) = (0 - f000 + f001 + f010 - f011 + f100 - f101 - f110 + f111).
Proof.
  intros E1 E2 E3 N1 N2 N3 f000 f001 f010 f011 f100 f101 f110 f111 P1 P2 P3 PE -> -> -> K0 K1 K2 K3 C.
  assert (Q : 0 < E1 * E2) by (apply Rmult_lt_0_compat; assumption).
  assert (E3 = / (E1 * E2)) as -> by (apply Rmult_eq_reg_l with (E1 * E2); [rewrite PE; field; lra|lra]).
  assert (P4 : 1 - E1 * E2 <> 0) by (intros H; apply P3; replace (E1 * E2) with 1 by lra; apply Rinv_1).
  rewrite ?K0, ?K1, ?K2, ?K3 in *.
  assert (f100 = - (f000 * (1 - (1)) + f010 * (1 - (1 * (- E2))) + f110 * (1 - (1 * (- E1) * (- E2)))) / (1 + E1)) as -> by (apply Rmult_eq_reg_l with (1 + E1); [|lra]; apply Rminus_diag_uniq; transitivity (0 + 0)%R; [|lra]; rewrite <- C at 2; field; lra).
  field; repeat split; lra.
Qed.

Lemma three_123_im : forall E1 E2 E3 N1 N2 N3 f000 f001 f010 f011 f100 f101 f110 f111 : R, 0 < E1 -> 0 < E2 -> E3 <> 1 -> E1 * E2 * E3 = 1 ->
  N1 = (E1 - 1) / (E1 + 1) -> N2 = (E2 - 1) / (E2 + 1) -> N3 = (E3 + 1) / (E3 - 1) ->
  f111 = (1 * f000) ->
  f101 = (1 * (- E2) * f010) ->
  f011 = (1 * (- E1) * f100) ->
  f001 = (1 * (- E1) * (- E2) * f110) ->
  0 + f000 + f001 + f010 + f011 + f100 + f101 + f110 + f111 = 0 ->
  - ((0 - f000 - f001 - f010 - f011 + f100 + f101 + f110 + f111) + (0 - f000 - f001 + f010 + f011 - f100 - f101 + f110 + f111) + (0 - f000 + f001 - f010 + f011 - f100 + f101 - f110 + f111)) = (0 - f000 + f001 + f010 - f011 + f100 - f101 - f110 + f111).
Proof.
  intros E1 E2 E3 N1 N2 N3 f000 f001 f010 f011 f100 f101 f110 f111 P1 P2 P3 PE -> -> -> K0 K1 K2 K3 C.
  assert (Q : 0 < E1 * E2) by (apply Rmult_lt_0_compat; assumption).
  assert (E3 = / (E1 * E2)) as -> by (apply Rmult_eq_reg_l with (E1 * E2); [rewrite PE; field; lra|lra]).
  assert (P4 : 1 - E1 * E2 <> 0) by (intros H; apply P3; replace (E1 * E2) with 1 by lra; apply Rinv_1).
  rewrite ?K0, ?K1, ?K2, ?K3 in *.
  assert (f000 = - (f010 * (1 + (1 * (- E2))) + f100 * (1 + (1 * (- E1))) + f110 * (1 + (1 * (- E1) * (- E2)))) / 2) as -> by (apply Rmult_eq_reg_l with 2; [|lra]; apply Rminus_diag_uniq; transitivity (0 + 0)%R; [|lra]; rewrite <- C at 2; field; lra).
  field; repeat split; lra.
Qed.
