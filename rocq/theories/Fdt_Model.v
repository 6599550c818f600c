(** Vertex components from fluctuation-dissipation theorems and the checks built on them.
    Model of postprocessing/causality_FDT_checks.hpp:15-940 and postprocessing.c++:256-376, Keldysh basis.
    Doubles are real numbers without rounding, complex numbers pairs (Gf_Model). The values read by
    valsmooth at one point of the frequency grid are a function [val] of the Keldysh component 0..15
    (component = 8 a1' + 4 a2' + 2 a1 + a2 with a = 0 for index 1 and a = 1 for index 2); every
    buffer stores all 16 components (symmetries/Keldysh_symmetries.hpp:36-88). *)
From Coq Require Import Reals.
From Verif Require Import Prelude Gf_Model.
Open Scope R_scope.

Inductive channel := Ca | Cp | Ct.

Section Conf.
  Variable c : cfg.
  Definition scal (x : R) (z : comp) : comp := (x * fst z, x * snd z).
  (** myreal, as a complex number *)
  Definition re_part (z : comp) : comp := rc (fst z).

  (** causality_FDT_checks.hpp:202-282 K1: pairs (component, value) written into the result; nothing is
      written close to w = 0. The three branches differ in the component only. *)
  Definition fdt_K1 (ch : channel) (T w : R) (val : Z -> comp) : list (Z * comp) :=
    if Rlt_dec (T * 25) (Rabs w) then
      let N1 := 1 / Fermi_fac c w (mu c) T in
      let G1 := val 1%Z in
      [(match ch with Cp => 5%Z | _ => 3%Z end, scal N1 (conj G1 - G1)%C)]
    else [].

  (** 337-342, 387-393, 439-445: the same three formulas in every branch *)
  Definition three_123 (N1 N2 N3 : R) (G1 G2 G3 : comp) : comp :=
    (conj (G1 + G2 + G3)
     + scal 2 (re_part (scal (N2 * N3) G1 + scal (N1 * N3) G2 + scal (N1 * N2) G3)))%C.
  Definition three_pair (N1 N2 : R) (G1 G2 G3 : comp) : comp :=
    (scal N2 (conj G3 - G1) + scal N1 (conj G3 - G2))%C.

  (** 286-454 K2 *)
  Definition fdt_K2 (ch : channel) (T w v : R) (val : Z -> comp) : list (Z * comp) :=
    if Rlt_dec T (Rabs w) then
      let F x := Fermi_fac c x (mu c) T in
      match ch with
      | Ca =>
        let N1 := F (- v - w / 2) in let N2 := F (v - w / 2) in let N3 := 1 / F w in
        let G1 := val 8%Z in let G2 := val 1%Z in let G3 := val 11%Z in
        [(0%Z, three_pair N1 N2 G1 G2 G3); (2%Z, three_123 N1 N2 N3 G1 G2 G3); (3%Z, three_pair N2 N3 G2 G3 G1)]
      | Cp =>
        let N1 := F (v + w / 2) in let N2 := F (- v + w / 2) in let N3 := 1 / F (- w) in
        let G1 := val 4%Z in let G2 := val 8%Z in let G3 := val 13%Z in
        [(0%Z, three_pair N1 N2 G1 G2 G3); (1%Z, three_123 N1 N2 N3 G1 G2 G3); (5%Z, three_pair N1 N3 G1 G3 G2)]
      | Ct =>
        let N1 := F (- v - w / 2) in let N2 := F (v - w / 2) in let N3 := 1 / F w in
        let G1 := val 4%Z in let G2 := val 1%Z in let G3 := val 7%Z in
        [(0%Z, three_pair N1 N2 G1 G2 G3); (2%Z, three_123 N1 N2 N3 G1 G2 G3); (3%Z, three_pair N2 N3 G2 G3 G1)]
      end
    else [].

  (** 523-546, 627-650, 734-757: the same two formulas in every branch *)
  Definition four_123 (N1 N2 N3 : R) (G1 G2 G3 G4 G12 G13 G23 : comp) : comp :=
    (scal (1 + N1 * N2 + N1 * N3 + N2 * N3) (conj G4)
     - (scal (N2 * N3) G1 + scal (N1 * N3) G2 + scal (N1 * N2) G3 + scal N1 G23 + scal N3 G12 + scal N2 G13))%C.
  Definition four_1234 (N1 N2 N3 N4 : R) (G1 G2 G3 G4 G12 G13 G14 G23 G24 G34 : comp) : comp :=
    (scal (N2 * N3 * N4 * 2) G1 + scal (N1 * N3 * N4 * 2) G2 + scal (N1 * N2 * N4 * 2) G3 + scal (N1 * N2 * N3 * 2) G4
     + scal (N2 * N3 * N4 + N2 + N3 + N4) (conj G1) + scal (N1 * N3 * N4 + N1 + N3 + N4) (conj G2)
     + scal (N1 * N2 * N4 + N1 + N2 + N4) (conj G3) + scal (N1 * N2 * N3 + N1 + N2 + N3) (conj G4)
     + scal (N3 * N4) G12 + scal (N2 * N4) G13 + scal (N2 * N3) G14
     + scal (N1 * N4) G23 + scal (N1 * N3) G24 + scal (N1 * N2) G34)%C.

  (** 456-770 K3 *)
  Definition fdt_K3 (ch : channel) (T w v vp : R) (val : Z -> comp) : list (Z * comp) :=
    let F x := Fermi_fac c x (mu c) T in
    let '(N1, N2, N3, N4) := match ch with
      | Ca => (F (v - w / 2), F (vp + w / 2), F (- vp + w / 2), F (- v - w / 2))
      | Cp => (F (v + w / 2), F (- v + w / 2), F (- vp - w / 2), F (vp - w / 2))
      | Ct => (F (vp + w / 2), F (v - w / 2), F (- vp + w / 2), F (- v - w / 2))
      end in
    let G1 := val 7%Z in let G2 := val 11%Z in let G3 := val 13%Z in let G4 := val 14%Z in
    let G12 := val 3%Z in let G13 := val 5%Z in let G14 := val 6%Z in
    let G23 := val 9%Z in let G24 := val 10%Z in let G34 := val 12%Z in
    [(0%Z, four_1234 N1 N2 N3 N4 G1 G2 G3 G4 G12 G13 G14 G23 G24 G34);
     (1%Z, four_123 N1 N2 N3 G1 G2 G3 G4 G12 G13 G23)].

  (** postprocessing.c++:280-366: the 16 components of the full vertex in the t channel at w = 0; [val] the
      values at (0, v, vp). The products with glb_i and real factors are written out. *)
  Definition imag (x : R) : comp := (0, x).
  Definition fdt_slice (T v vp : R) (val : Z -> comp) : list (Z * comp) :=
    let t_v := tanh ((v - mu c) / (2 * T)) in let t_vp := tanh ((vp - mu c) / (2 * T)) in
    let c_v := cosh ((v - mu c) / (2 * T)) in let c_vp := cosh ((vp - mu c) / (2 * T)) in
    let G2221 := val 14%Z in let G2212 := val 13%Z in let G2122 := val 11%Z in let G1222 := val 7%Z in
    let G1122 := val 3%Z in let G1212 := val 5%Z in let G1221 := val 6%Z in
    let G2112 := val 9%Z in let G2121 := val 10%Z in let G2211 := val 12%Z in
    [(0%Z, imag (2 * t_vp * (1 + t_v * t_v) * snd G1222 - t_v * t_v * snd G1212
             + 2 * t_v * (1 + t_vp * t_vp) * snd G2122 - t_vp * t_vp * snd G2121
             + 2 * t_v * t_vp * (snd G2211 - snd G2112)));
     (1%Z, (G2122 + scal t_vp (G1122 - G2112) + imag (2 * t_v * t_vp * snd G1222) - imag (t_v * snd G1212))%C);
     (2%Z, (G1222 + scal t_v (G1122 - G1221) + imag (2 * t_v * t_vp * snd G2122) - imag (t_vp * snd G2121))%C);
     (3%Z, G1122);
     (4%Z, (G2221 + scal t_vp (G1221 - G2211) - imag (2 * t_v * t_vp * snd G1222) + imag (t_v * snd G1212))%C);
     (5%Z, (scal (c_v * c_v / (c_vp * c_vp)) G2121 + imag (2 * t_vp * snd G1222)
            - imag (2 * t_v * (c_v * c_v) / (c_vp * c_vp) * snd G2122))%C);
     (6%Z, G1221); (7%Z, G1222);
     (8%Z, (G2212 + scal t_v (G2112 - G2211) - imag (2 * t_v * t_vp * snd G2122) + imag (t_vp * snd G2121))%C);
     (9%Z, (- conj G1221)%C); (10%Z, G2121); (11%Z, G2122); (12%Z, (- conj G1122)%C); (13%Z, G2212); (14%Z, G2221);
     (15%Z, rc 0)].

  (** ** The checks *)
  (** one point of a buffer: spin -> Keldysh component -> value; setvert *)
  Definition point : Type := Z -> Z -> comp.
  Definition setvert (p : point) (spin k : Z) (x : comp) : point :=
    fun s k' => if (s =? spin)%Z && (k' =? k)%Z then x else p s k'.
  Definition store (p : point) (spin : Z) (l : list (Z * comp)) : point :=
    fold_left (fun q e => setvert q spin (fst e) (snd e)) l p.
  Definition spins (n : nat) : list Z := map Z.of_nat (seq 0 n).
  (** the loops over itspin: K1 and K2 run over n_in values (208, 232, 261, 291, 358, 406), K3 over n_spin
      (462, 567, 672). The values are read from vertex_in, of which vertex_out is a copy (858). n_in = 1. *)
  Definition through_K1 (n_in : nat) (ch : channel) (T w : R) (p : point) : point :=
    fold_left (fun q s => store q s (fdt_K1 ch T w (p s))) (spins n_in) p.
  Definition through_K2 (n_in : nat) (ch : channel) (T w v : R) (p : point) : point :=
    fold_left (fun q s => store q s (fdt_K2 ch T w v (p s))) (spins n_in) p.
  Definition through_K3 (n_spin : nat) (ch : channel) (T w v vp : R) (p : point) : point :=
    fold_left (fun q s => store q s (fdt_K3 ch T w v vp (p s))) (spins n_spin) p.
  (** vertex_in - vertex_out at one point (862) *)
  Definition deviation (p q : point) : point := fun s k => (p s k - q s k)%C.

  (** 89-128 check_FDTs_selfenergy: the Keldysh component; [sR], [sK]: stored components at one frequency.
      glb_i * 2. * Eff_fac * imag *)
  Definition sigma_K_from_FDT (v T : R) (sR : comp) : comp := imag (2 * Eff_fac c v T * snd sR).
  (** 115-116: the reported maximal deviation: largest absolute value of selfenergy_out - selfenergy, of which
      only the Keldysh component is not zero; [pts]: frequency, retarded and Keldysh component *)
  Definition cabs (z : comp) : R := sqrt (norm z).
  Definition max_deviation (T : R) (pts : list (R * comp * comp)) : R :=
    fold_left (fun m p => Rmax m (cabs (sigma_K_from_FDT (fst (fst p)) T (snd (fst p)) - snd p)%C)) pts 0.

  (** 131-171 check_FDTs_K1: Im(K1^R) from the stored values minus the value from the Keldysh component *)
  Definition K1_deviation (ch : channel) (w T : R) (val : Z -> comp) : comp :=
    let K := val (match ch with Cp => 5%Z | _ => 3%Z end) in
    (rc (snd (val 1%Z)) - ci * scal (/ 2 * Eff_fac c w T) K)%C.

  (** 15-71 check_SE_causality; [None]: NaN. [stored]: the imaginary parts of the flat vector of the
      self-energy, of which the first nFER are taken. Count and maximum of the positive ones. *)
  Definition positive (x : option R) : bool := match x with Some r => if Rlt_dec 0 r then true else false | None => false end.
  Definition causality_Keldysh (nFER : nat) (stored : list (option R)) : nat * R :=
    fold_left (fun a x => match x with
      | Some r => if Rlt_dec 0 r then (S (fst a), Rmax (snd a) r) else a
      | None => a end) (firstn nFER stored) (0%nat, 0).
  (** Matsubara: value times the sign of the frequency *)
  Definition causality_Matsubara (stored : list (R * option R)) : nat :=
    length (filter (fun p => positive (match snd p with Some x => Some (x * sign (fst p)) | None => None end)) stored).
End Conf.
