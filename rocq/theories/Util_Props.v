(** Theorems for C27 (rounding), C28 (natural/bosonic frequencies), C29 (binary search),
    C67 (bubble frequencies), C76 (rounding of inexact numbers). *)
From Coq Require Import QArith.
From Verif Require Import Prelude Keld_Model Vec_Model Util_Model Util_Spec Util_Proofs.
Open Scope Z_scope.

(** ** C27 *)
Theorem C27_ceil_division : forall a b, 0 < b ->
  exists r, integer_division_ceil a b = Some r /\ (r - 1) * b < a <= r * b.
Proof. exact idiv_ceil_spec. Qed.
Theorem C27_floor_division : forall a b, 0 < b ->
  exists r, integer_division_floor a b = Some r /\ r * b <= a < (r + 1) * b.
Proof. exact idiv_floor_spec. Qed.
Theorem C27_division_rejects_nonpositive : forall a b, b <= 0 ->
  integer_division_ceil a b = None /\ integer_division_floor a b = None.
Proof. exact idiv_nonpos. Qed.
Theorem C27_floor_to_even : forall w, exists n, floor2bfreq_int w = Some (2 * n) /\ 2 * n <= w < 2 * n + 2.
Proof. exact floor2bfreq_int_spec. Qed.
Theorem C27_ceil_to_even : forall w, exists n, ceil2bfreq_int w = Some (2 * n) /\ 2 * n - 2 < w <= 2 * n.
Proof. exact ceil2bfreq_int_spec. Qed.
Theorem C27_double_floor_on_integers : forall w z, (w == inject_Z z)%Q ->
  exists r n, floor2bfreq w = Some r /\ (r == inject_Z (2 * n))%Q /\ floor2bfreq_int z = Some (2 * n).
Proof. exact floor2bfreq_on_int. Qed.
Theorem C27_double_ceil_on_integers : forall w z, (w == inject_Z z)%Q ->
  exists r n, ceil2bfreq w = Some r /\ (r == inject_Z (2 * n))%Q /\ ceil2bfreq_int z = Some (2 * n).
Proof. exact ceil2bfreq_on_int. Qed.
(** floor and ceil of half a bosonic frequency are even, adjacent, and add up to the frequency *)
Theorem C27_halves_of_bosonic : forall w, bosonic w ->
  exists lo hi, floor2bfreq (w / 2) = Some lo /\ ceil2bfreq (w / 2) = Some hi /\ half_split w lo hi.
Proof. exact half_split_spec. Qed.
Theorem C27_round_to_even : forall w, let r := round2bfreq w in
  (bosonic r /\ (0 <= w -> 0 <= r /\ r <= w + (1#10) /\ w < r + 2) /\
   (w < 0 -> r <= 0 /\ w - (1#10) <= r /\ r < w + 2))%Q.
Proof. exact round2bfreq_spec. Qed.
Theorem C27_round_to_odd : forall w, let r := round2ffreq w in
  (fermionic r /\ (1 <= w -> 1 <= r /\ r <= w + (1#10) /\ w < r + 2) /\
   (w <= -1 -> r <= -1 /\ w - (1#10) <= r /\ r < w + 2) /\ (-(9#10) < w /\ w < 9#10 -> r == 1))%Q.
Proof. exact round2ffreq_spec. Qed.
Theorem C27_even_fixed : forall w, bosonic w -> (round2bfreq w == w)%Q.
Proof. exact round2bfreq_fix. Qed.
Theorem C27_odd_fixed : forall w, fermionic w -> (round2ffreq w == w)%Q.
Proof. exact round2ffreq_fix. Qed.
Theorem C27_round_away_from_zero : forall x, exists n, (round2Infty x == inject_Z n)%Q /\
  ((0 < x -> inject_Z n - 1 < x - tol10 /\ x - tol10 <= inject_Z n) /\
   (x <= 0 -> inject_Z n <= x + tol10 /\ x + tol10 < inject_Z n + 1))%Q.
Proof. exact round2Infty_spec. Qed.
Theorem C27_tolerant_integers : forall x n, (inject_Z n - tol10 <= x /\ x <= inject_Z n + tol10)%Q ->
  (myround x == inject_Z n /\ round2Infty x == inject_Z n)%Q.
Proof. exact myround_int. Qed.
Theorem C27_myround_between : forall x n, (inject_Z n + tol10 < x /\ x < inject_Z n + 1 - tol10)%Q ->
  (myround x == inject_Z (if Qle_bool x (- (1#2)) then n else n + 1))%Q.
Proof. exact myround_between. Qed.
(** the correction term makes rounding of half a frequency compatible with a change of sign *)
Theorem C27_sign_flip : forall w, bosonic w -> exists c lo lo',
  signFlipCorrection_MF w = Some c /\ floor2bfreq (w / 2) = Some lo /\ floor2bfreq ((- w) / 2) = Some lo' /\
  (lo' == - lo + c)%Q.
Proof. exact signFlip_spec. Qed.
Example C27_hyp : bosonic (-6) /\ fermionic (-3) /\ (inject_Z (-2) + tol10 < -(3#2) /\ -(3#2) < inject_Z (-2) + 1 - tol10)%Q
  /\ floor2bfreq (-6 / 2) = Some (-4)%Q /\ ceil2bfreq_int (-3) = Some (-2) /\ integer_division_floor (-7) 2 = Some (-4)
  /\ signFlipCorrection_MF (-6) = Some (-2)%Q.
Proof. split; [exists (-3); reflexivity|]. split; [exists (-2); reflexivity|]. repeat split. Qed.

(** ** C28 *)
Theorem C28_natural_of_bosonic : forall ch f, trip_eq (switch2naturalFreqs ch (switch2bosonicFreqs ch f)) f.
Proof. exact switch_roundtrip. Qed.
Theorem C28_bosonic_of_natural : forall ch f, trip_eq (switch2bosonicFreqs ch (switch2naturalFreqs ch f)) f.
Proof. exact switch_roundtrip'. Qed.
Theorem C28_bosonic_are_transfer_frequencies : forall ch f,
  trip_eq (switch2bosonicFreqs ch f)
    (transfer Ca (legs_of ch f), transfer Cp (legs_of ch f), transfer Ct (legs_of ch f)).
Proof. exact switch_bosonic_is_transfer. Qed.
Example C28_hyp : switch2bosonicFreqs Cp (1, 2, 5)%Q = (-2 - 5, 1, 2 - 5)%Q
  /\ conserved (legs_of Cp (1, 2, 5)%Q).
Proof. split; reflexivity. Qed.

(** ** C29 *)
(** termination within log2 steps, no read outside the array, for every array and every x including NaN *)
Theorem C29_terminates_in_range : forall k xx x jl ju, 0 <= jl -> jl < ju -> ju <= Z.of_nat (length xx) ->
  ju - jl <= 2 ^ Z.of_nat k ->
  exists j, locate k xx x jl ju = Some (Some j) /\ jl <= j < ju /\
    (forall y, jl < j -> nth_error xx (Z.to_nat j) = Some y -> fle y x) /\
    (forall q y, x = Fin q -> j + 1 < ju -> nth_error xx (Z.to_nat (j + 1)) = Some y -> fltq x y).
Proof. exact locate_ok. Qed.
Theorem C29_enclosing_cell : forall k xx q x0 xn, increasing xx -> (2 <= length xx)%nat ->
  Z.of_nat (length xx) - 1 <= 2 ^ Z.of_nat k ->
  nth_error xx 0 = Some x0 -> nth_error xx (length xx - 1) = Some xn -> (x0 <= q /\ q <= xn)%Q ->
  exists j a b, locate k xx (Fin q) 0 (Z.of_nat (length xx) - 1) = Some (Some (Z.of_nat j)) /\
    (j + 1 < length xx)%nat /\ nth_error xx j = Some a /\ nth_error xx (j + 1) = Some b /\
    (a <= q)%Q /\ (q < b \/ (j + 2 = length xx)%nat /\ (q <= b)%Q)%Q.
Proof. exact locate_cell. Qed.
(** looking up an element of the list with the full range returns its position *)
Theorem C29_member : forall k xx i q, increasing xx -> nth_error xx i = Some q ->
  Z.of_nat (length xx) <= 2 ^ Z.of_nat k ->
  locate k xx (Fin q) 0 (Z.of_nat (length xx)) = Some (Some (Z.of_nat i)).
Proof. exact locate_member. Qed.
(** some number of steps always suffices *)
Theorem C29_fuel_exists : forall xx : list Q, Z.of_nat (length xx) <= 2 ^ Z.of_nat (length xx).
Proof. intro xx. exact (pow2_ge (length xx)). Qed.
Example C29_hyp : increasing [-(3#1); -(1#2); 1#4; 2; 7]%Q /\
  locate 3 [-(3#1); -(1#2); 1#4; 2; 7]%Q (Fin (1#2)) 0 4 = Some (Some 2) /\
  locate 3 [-(3#1); -(1#2); 1#4; 2; 7]%Q NaN 0 4 = Some (Some 0).
Proof.
  split; [|split; reflexivity]. intros i j a b Hij Ha Hb.
  do 5 (destruct i as [|i]; [do 5 (destruct j as [|j]; [try lia; cbn in Ha, Hb; injection Ha as <-; injection Hb as <-; reflexivity|]);
     destruct j; discriminate|]). destruct i; discriminate.
Qed.

(** ** C67 *)
Theorem C67_bubble_frequencies : forall ch w vpp, exists a b a' b',
  convert_to_fermionic_frequencies_1 false ch vpp w = Some a /\
  convert_to_fermionic_frequencies_2 false ch vpp w = Some b /\
  bubble_freqs_scalar false ch w vpp = Some (a', b') /\ (a == a' /\ b == b' /\ combine ch a b == w)%Q.
Proof. exact bubble_freqs_T0. Qed.
Theorem C67_bubble_frequencies_matsubara : forall ch w vpp, bosonic w -> fermionic vpp -> exists a b,
  convert_to_fermionic_frequencies_1 true ch vpp w = Some a /\
  convert_to_fermionic_frequencies_2 true ch vpp w = Some b /\
  (exists a' b', bubble_freqs_scalar true ch w vpp = Some (a', b') /\ (a == a' /\ b == b')%Q) /\
  (combine ch a b == w)%Q /\ fermionic a /\ fermionic b.
Proof. exact bubble_freqs_mf. Qed.
Example C67_hyp : bosonic 6 /\ fermionic (-5) /\ bubble_freqs_scalar true Cp 6 (-5) = Some (-1, 7)%Q.
Proof. split; [exists 3; reflexivity|]. split; [exists (-3); reflexivity|reflexivity]. Qed.

(** ** C76 *)
Theorem C76_tolerance_refuted :
  (exists w, (2 - tol8 < w /\ w < 2)%Q /\ floor2bfreq w = None) /\
  (exists w, (2 < w /\ w < 2 + tol8)%Q /\ ceil2bfreq w = None).
Proof.
  split; [exists (2 - (1 # 1000000000))%Q|exists (2 + (1 # 1000000000))%Q]; split; try split; reflexivity.
Qed.
(** missing: arguments within the tolerance on the wrong side of an even number *)
Theorem C76_rounding_partial : forall w n,
  ((inject_Z (2 * n) <= w)%Q -> (w < inject_Z (2 * n) + 2 - 2 * tol8)%Q ->
    exists r, floor2bfreq w = Some r /\ (r == inject_Z (2 * n))%Q) /\
  ((w <= inject_Z (2 * n))%Q -> (inject_Z (2 * n) - 2 + 2 * tol8 < w)%Q ->
    exists r, ceil2bfreq w = Some r /\ (r == inject_Z (2 * n))%Q).
Proof. intros w n. split; [apply floor2bfreq_gen|apply ceil2bfreq_gen]. Qed.
Example C76_hyp : (inject_Z (2 * -2) <= -(5#2))%Q /\ (-(5#2) < inject_Z (2 * -2) + 2 - 2 * tol8)%Q.
Proof. split; [discriminate|reflexivity]. Qed.

Print Assumptions C27_ceil_division.
Print Assumptions C27_floor_division.
Print Assumptions C27_double_floor_on_integers.
Print Assumptions C27_halves_of_bosonic.
Print Assumptions C27_round_to_even.
Print Assumptions C27_round_to_odd.
Print Assumptions C27_even_fixed.
Print Assumptions C27_odd_fixed.
Print Assumptions C27_round_away_from_zero.
Print Assumptions C27_tolerant_integers.
Print Assumptions C27_sign_flip.
Print Assumptions C28_natural_of_bosonic.
Print Assumptions C28_bosonic_are_transfer_frequencies.
Print Assumptions C29_terminates_in_range.
Print Assumptions C29_enclosing_cell.
Print Assumptions C29_member.
Print Assumptions C67_bubble_frequencies.
Print Assumptions C67_bubble_frequencies_matsubara.
Print Assumptions C76_tolerance_refuted.
Print Assumptions C76_rounding_partial.
