(** What is expected of the arithmetic of states, stated for every single stored number. *)
From Coq Require Import Reals.
From Verif Require Import Prelude Arr_Model Interp_Model State_Model.
Open Scope R_scope.

Inductive chan := CA | CP | CT.
Inductive cls := C1 | C2 | C2b | C3.
(** name of a stored number *)
Inductive label := LSigma (i : nat) | LAsymp | LIrred (i : nat) | LK (c : chan) (k : cls) (i : nat).

Definition in_channel (c : chan) (v : fullvert) : rvert := match c with CA => avertex v | CP => pvertex v | CT => tvertex v end.
Definition in_class (k : cls) (r : rvert) : buffer := match k with C1 => K1 r | C2 => K2 r | C2b => K2b r | C3 => K3 r end.
Definition fv_entry (v : fullvert) (l : label) : option comp :=
  match l with
  | LIrred i => nth_error (m_elements (irred v)) i
  | LK c k i => nth_error (m_elements (b_data (in_class k (in_channel c v)))) i
  | _ => None
  end.
Definition entry (s : state) (l : label) : option comp :=
  match l with
  | LSigma i => nth_error (m_elements (b_data (Sigma (selfenergy s)))) i
  | LAsymp => Some (asymp (selfenergy s))
  | _ => fv_entry (half1 (vertex s)) l
  end.
(** classes that exist for a given MAX_DIAG_CLASS and DEBUG_SYMMETRIES *)
Definition class_active (m : build) (k : cls) : Prop :=
  match k with
  | C1 => (1 <= max_diag_class m)%Z
  | C2 => (2 <= max_diag_class m)%Z
  | C2b => debug_symmetries m = true /\ (2 <= max_diag_class m)%Z
  | C3 => (3 <= max_diag_class m)%Z
  end.
Definition active (m : build) (l : label) : Prop := match l with LK _ k _ => class_active m k | _ => True end.

(** the frequency grids of all buffers *)
Definition grids_of (s : state) : list (list grid) :=
  b_grids (Sigma (selfenergy s)) ::
  flat_map (fun c => map (fun k => b_grids (in_class k (in_channel c (half1 (vertex s))))) [C1; C2; C2b; C3]) [CA; CP; CT].

(** two buffers can be combined: same shape, and the frequencies agree up to the tolerance *)
Definition near (u v : grid) : Prop := Forall2 (fun x y => Rabs (x - y) <= / 10 ^ 10) (g_freqs u) (g_freqs v).
Definition same_shape (a b : marray comp) : Prop := m_length a = m_length b /\ length (m_elements a) = length (m_elements b).
Definition buf_match (b c : buffer) : Prop :=
  same_shape (b_data b) (b_data c) /\ b_grids b <> [] /\ Forall2 near (b_grids b) (b_grids c).
(** two states (with symmetric vertices) can be combined *)
Definition matching (s t : state) : Prop :=
  half2 (vertex s) = None /\ half2 (vertex t) = None /\
  buf_match (Sigma (selfenergy s)) (Sigma (selfenergy t)) /\
  same_shape (irred (half1 (vertex s))) (irred (half1 (vertex t))) /\
  forall c k, buf_match (in_class k (in_channel c (half1 (vertex s)))) (in_class k (in_channel c (half1 (vertex t)))).

Definition lift2 {A B C} (f : A -> B -> C) (x : option A) (y : option B) : option C :=
  match x, y with Some a, Some b => Some (f a b) | _, _ => None end.
