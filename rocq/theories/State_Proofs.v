From Coq Require Import Reals Lra.
From Verif Require Import Prelude Idx_Proofs Arr_Model Interp_Model State_Model State_Spec.
Open Scope R_scope.

Lemma same_ints_refl l : same_ints l l = true.
Proof. induction l as [|x l IH]; [reflexivity|]. cbn. rewrite Z.eqb_refl. exact IH. Qed.
Lemma same_ints_eq : forall x y, same_ints x y = true -> x = y.
Proof.
  induction x as [|a x IH]; intros [|b y]; cbn; try discriminate; [reflexivity|].
  intros H. apply andb_prop in H. destruct H as [H1 H2]. apply Z.eqb_eq in H1. rewrite (IH y H2), H1. reflexivity.
Qed.
Lemma zip2_nth {A B C} (f : A -> B -> C) : forall x y i, length x = length y ->
  nth_error (zip2 f x y) i = lift2 f (nth_error x i) (nth_error y i).
Proof.
  induction x as [|a x IH]; intros [|b y] i H; try discriminate; [destruct i; reflexivity|].
  destruct i as [|i]; [reflexivity|]. cbn. apply IH. cbn in H. lia.
Qed.
Lemma zip2_length {A B C} (f : A -> B -> C) : forall x y, length x = length y -> length (zip2 f x y) = length x.
Proof. induction x as [|a x IH]; intros [|b y] H; try discriminate; [reflexivity|]. cbn. rewrite IH; [reflexivity|cbn in H; lia]. Qed.
Lemma zip2_map_r {A B C D} (f : A -> B -> C) (g : D -> B) : forall x y, zip2 f x (map g y) = zip2 (fun a d => f a (g d)) x y.
Proof. induction x as [|a x IH]; intros [|b y]; try reflexivity. cbn. rewrite IH. reflexivity. Qed.
Lemma zip2_map_l {A B C D} (f : A -> B -> C) (g : D -> A) : forall x y, zip2 f (map g x) y = zip2 (fun a d => f (g a) d) x y.
Proof. induction x as [|a x IH]; intros [|b y]; try reflexivity. cbn. rewrite IH. reflexivity. Qed.
Lemma map_zip2 {A B C D} (f : A -> B -> C) (g : C -> D) : forall x y, map g (zip2 f x y) = zip2 (fun a d => g (f a d)) x y.
Proof. induction x as [|a x IH]; intros [|b y]; try reflexivity. cbn. rewrite IH. reflexivity. Qed.
Lemma zip2_diag {A C} (f : A -> A -> C) : forall x, zip2 f x x = map (fun a => f a a) x.
Proof. induction x as [|a x IH]; [reflexivity|]. cbn. rewrite IH. reflexivity. Qed.
Lemma zip2_ext {A B C} (f g : A -> B -> C) : (forall a b, f a b = g a b) -> forall x y, zip2 f x y = zip2 g x y.
Proof. intros H. induction x as [|a x IH]; intros [|b y]; try reflexivity. cbn. rewrite H, IH. reflexivity. Qed.
Lemma zip2_left {A B} (f : A -> B -> A) : (forall a b, f a b = a) -> forall x y, length x = length y -> zip2 f x y = x.
Proof. intros H. induction x as [|a x IH]; intros [|b y] L; try discriminate; [reflexivity|]. cbn. rewrite H, IH; [reflexivity|cbn in L; lia]. Qed.
Lemma zip2_comm {A C} (f : A -> A -> C) : (forall a b, f a b = f b a) -> forall x y, zip2 f x y = zip2 f y x.
Proof. intros H. induction x as [|a x IH]; intros [|b y]; try reflexivity. cbn. rewrite H, IH. reflexivity. Qed.
Lemma zip2_assoc {A} (f : A -> A -> A) : (forall a b c, f (f a b) c = f a (f b c)) -> forall x y z, zip2 f (zip2 f x y) z = zip2 f x (zip2 f y z).
Proof. intros H. induction x as [|a x IH]; intros [|b y] [|c z]; try reflexivity. cbn. rewrite H, IH. reflexivity. Qed.

Lemma comp_eq (x y : comp) : fst x = fst y -> snd x = snd y -> x = y.
Proof. destruct x, y; cbn; congruence. Qed.
Ltac ceq := intros; apply comp_eq; unfold cadd, csub, cscale, cshift, cmul; cbn [fst snd]; try ring.

(** the maximum norm *)
Lemma maxfold_le (A : Type) (g : A -> R) : forall v a b, (a <= b -> (forall x, In x v -> g x <= b) -> fold_left (fun out x => Rmax out (g x)) v a <= b).
Proof.
  induction v as [|x v IH]; intros a b H Hv; [exact H|]. cbn. apply IH; [|intros y Hy; apply Hv; right; exact Hy].
  apply Rmax_lub; [exact H|apply Hv; left; reflexivity].
Qed.
Lemma maxfold_ge (A : Type) (g : A -> R) : forall v a, a <= fold_left (fun out x => Rmax out (g x)) v a.
Proof. induction v as [|x v IH]; intros a; [apply Rle_refl|]. cbn. eapply Rle_trans; [apply Rmax_l|apply IH]. Qed.
Lemma maxfold_in (A : Type) (g : A -> R) : forall v a x, In x v -> g x <= fold_left (fun out x => Rmax out (g x)) v a.
Proof.
  induction v as [|y v IH]; intros a x []; cbn; [subst y; eapply Rle_trans; [apply (Rmax_r a)|apply maxfold_ge]|]. apply IH. assumption.
Qed.

(** grids within the tolerance pass the check, and only those *)
Lemma tol_pos : 0 < / 10 ^ 10. Proof. apply Rinv_0_lt_compat. apply pow_lt. lra. Qed.
Lemma grid_check_near u v : near u v <-> grid_check u v = Some tt.
Proof.
  unfold near, grid_check, vec_max_norm. split.
  - intros H. assert (L : length (g_freqs u) = length (g_freqs v)) by (eapply Forall2_length; exact H).
    rewrite L, Nat.eqb_refl. destruct (Rlt_dec _ _) as [K|_]; [exfalso|reflexivity].
    assert (fold_left (fun out x => Rmax out (Rabs x)) (zip2 Rminus (g_freqs u) (g_freqs v)) 0 <= / 10 ^ 10); [|lra].
    clear K L. apply (maxfold_le R Rabs); [left; exact tol_pos|]. induction H as [|x y l l' H1 H2 IH]; intros z; cbn; [intros []|].
    intros [<-|Hz]; [exact H1|apply IH; exact Hz].
  - destruct (length (g_freqs u) =? length (g_freqs v))%nat eqn:E; [|discriminate]. apply Nat.eqb_eq in E.
    destruct (Rlt_dec _ _) as [|K]; [discriminate|]. intros _. apply Rnot_lt_le in K. revert K E.
    generalize (g_freqs u) (g_freqs v). intros l l' K. assert (B : forall z, In z (zip2 Rminus l l') -> Rabs z <= / 10 ^ 10).
    { intros z Hz. eapply Rle_trans; [apply (maxfold_in R Rabs _ 0 z Hz)|exact K]. }
    clear K. revert l' B. induction l as [|x l IH]; intros [|y l'] B E; try discriminate; [constructor|].
    constructor; [apply B; left; reflexivity|]. apply IH; [intros z Hz; apply B; right; exact Hz|cbn in E; lia].
Qed.

Definition bz (f : comp -> comp -> comp) (b c : buffer) : buffer :=
  Buffer (b_grids b) (Marray (m_length (b_data b)) (m_cumul (b_data b)) (zip2 f (m_elements (b_data b)) (m_elements (b_data c)))).
Definition az (f : comp -> comp -> comp) (a b : marray comp) : marray comp := Marray (m_length a) (m_cumul a) (zip2 f (m_elements a) (m_elements b)).
Lemma azip_ok f a b : same_shape a b -> azip f a b = Some (az f a b).
Proof. intros [H1 H2]. unfold azip. rewrite H1, same_ints_refl, H2, Nat.eqb_refl. cbn [andb]. unfold az. rewrite H1. reflexivity. Qed.
Lemma azip_shape f a b c : azip f a b = Some c -> same_shape a b.
Proof.
  unfold azip. destruct (same_ints _ _) eqn:E; [|discriminate]. destruct (_ =? _)%nat eqn:F; [|discriminate].
  intros _. apply same_ints_eq in E. apply Nat.eqb_eq in F. split; assumption.
Qed.
Lemma buf_zip_ok m f b c : buf_match b c -> buf_zip m f b c = Some (bz f b c).
Proof.
  intros (S1 & N & G). unfold buf_zip. assert (check_grids m b c = Some tt) as ->.
  { unfold check_grids. destruct (ndebug m); [reflexivity|]. destruct G as [|u v l l' H1 H2]; [congruence|].
    apply grid_check_near in H1. destruct H2 as [|u2 v2 l2 l2' H2 H3]; [exact H1|].
    rewrite H1. cbn [obind]. apply grid_check_near. exact H2. }
  cbn [obind]. rewrite azip_ok by exact S1. reflexivity.
Qed.

(** what the combination of two matching states is *)
Definition rz m f r s : rvert :=
  let d := max_diag_class m in
  Rvert (if (0 <? d)%Z then bz f (K1 r) (K1 s) else K1 r) (if (1 <? d)%Z then bz f (K2 r) (K2 s) else K2 r)
    (if debug_symmetries m && (1 <? d)%Z then bz f (K2b r) (K2b s) else K2b r) (if (2 <? d)%Z then bz f (K3 r) (K3 s) else K3 r).
Definition fz m f v w : fullvert :=
  Fullvert (az f (irred v) (irred w)) (rz m f (avertex v) (avertex w)) (rz m f (pvertex v) (pvertex w)) (rz m f (tvertex v) (tvertex w)).
Definition sz m f s t : state :=
  State (Lambda s) (Genvertex (fz m f (half1 (vertex s)) (half1 (vertex t))) None)
    (Selfen (bz f (Sigma (selfenergy s)) (Sigma (selfenergy t))) (f (asymp (selfenergy s)) (asymp (selfenergy t)))).
Lemma rv_zip_ok m f r s : (forall k, buf_match (in_class k r) (in_class k s)) -> rv_zip m f r s = Some (rz m f r s).
Proof.
  intros H. pose proof (buf_zip_ok m f _ _ (H C1)) as B1. pose proof (buf_zip_ok m f _ _ (H C2)) as B2.
  pose proof (buf_zip_ok m f _ _ (H C2b)) as B3. pose proof (buf_zip_ok m f _ _ (H C3)) as B4. cbn [in_class] in *.
  unfold rv_zip, rz. cbv zeta. rewrite B1, B2, B3, B4.
  destruct (0 <? max_diag_class m)%Z, (1 <? max_diag_class m)%Z, (debug_symmetries m), (2 <? max_diag_class m)%Z; reflexivity.
Qed.
Lemma fv_zip_ok m f v w : same_shape (irred v) (irred w) -> (forall c k, buf_match (in_class k (in_channel c v)) (in_class k (in_channel c w))) ->
  fv_zip m f v w = Some (fz m f v w).
Proof.
  intros I H. unfold fv_zip, fz. rewrite azip_ok by exact I. cbn [obind].
  rewrite (rv_zip_ok m f (avertex v) (avertex w) (H CA)), (rv_zip_ok m f (pvertex v) (pvertex w) (H CP)), (rv_zip_ok m f (tvertex v) (tvertex w) (H CT)). reflexivity.
Qed.
Lemma st_zip_ok m f s t : matching s t -> st_zip m (gv_zip_with m (fun m => fv_zip m f)) f s t = Some (sz m f s t).
Proof.
  intros (N1 & N2 & S0 & I & H). unfold st_zip, gv_zip_with. rewrite fv_zip_ok by assumption. cbn [obind]. rewrite N1, N2. cbn [obind].
  unfold se_zip. rewrite buf_zip_ok by exact S0. reflexivity.
Qed.
Lemma st_add_ok m s t : matching s t -> st_add m s t = Some (sz m cadd s t). Proof. apply st_zip_ok. Qed.
Lemma st_sub_ok m s t : matching s t -> st_sub m s t = Some (sz m csub s t). Proof. apply st_zip_ok. Qed.

Lemma active_dec_spec m k : class_active m k \/ ~ class_active m k.
Proof. destruct k; cbn; try lia. destruct (debug_symmetries m); [|right; intros [? _]; discriminate]. destruct (Z.leb_spec 2 (max_diag_class m)); [left; auto|right; intros [_ ?]; lia]. Qed.
Lemma rz_active m f r s k : class_active m k -> in_class k (rz m f r s) = bz f (in_class k r) (in_class k s).
Proof.
  destruct k; cbn; intros H; try destruct H as [-> H]; cbn [andb];
  match goal with |- context [(?a <? ?b)%Z] => destruct (Z.ltb_spec a b); [reflexivity|lia] end.
Qed.
Lemma rz_inactive m f r s k : ~ class_active m k -> in_class k (rz m f r s) = in_class k r.
Proof.
  destruct k; cbn; intros H; try (match goal with |- context [(?a <? ?b)%Z] => destruct (Z.ltb_spec a b); [lia|reflexivity] end).
  destruct (debug_symmetries m); cbn [andb]; [|reflexivity].
  match goal with |- context [(?a <? ?b)%Z] => destruct (Z.ltb_spec a b); [|reflexivity] end. exfalso. apply H. split; [reflexivity|lia].
Qed.
Lemma rv_map_active m f r k : class_active m k -> in_class k (rv_map m f r) = f (in_class k r).
Proof.
  destruct k; cbn; intros H; try destruct H as [-> H]; cbn [andb];
  match goal with |- context [(?a <? ?b)%Z] => destruct (Z.ltb_spec a b); [reflexivity|lia] end.
Qed.
Lemma rv_map_inactive m f r k : ~ class_active m k -> in_class k (rv_map m f r) = in_class k r.
Proof.
  destruct k; cbn; intros H; try (match goal with |- context [(?a <? ?b)%Z] => destruct (Z.ltb_spec a b); [lia|reflexivity] end).
  destruct (debug_symmetries m); cbn [andb]; [|reflexivity].
  match goal with |- context [(?a <? ?b)%Z] => destruct (Z.ltb_spec a b); [|reflexivity] end. exfalso. apply H. split; [reflexivity|lia].
Qed.
Lemma fz_channel m f v w c : in_channel c (fz m f v w) = rz m f (in_channel c v) (in_channel c w).
Proof. destruct c; reflexivity. Qed.
Lemma fv_map_channel m f v c : in_channel c (fv_map m f v) = rv_map m (buf_map f) (in_channel c v).
Proof. destruct c; reflexivity. Qed.

Lemma sz_entry m f s t l : matching s t -> active m l -> entry (sz m f s t) l = lift2 f (entry s l) (entry t l).
Proof.
  intros (_ & _ & [[_ S0] _] & [_ I] & H) A. destruct l as [i| |i|c k i]; cbn [entry fv_entry sz selfenergy vertex half1 Sigma asymp].
  - apply zip2_nth. exact S0.
  - reflexivity.
  - cbn [fz irred az m_elements]. apply zip2_nth. exact I.
  - rewrite fz_channel, rz_active by exact A. cbn [bz b_data m_elements]. apply zip2_nth. apply (H c k).
Qed.
Lemma sz_entry_inactive m f s t l : ~ active m l -> entry (sz m f s t) l = entry s l.
Proof.
  intros A. destruct l as [i| |i|c k i]; try (exfalso; apply A; exact I). cbn [entry fv_entry sz vertex half1]. rewrite fz_channel, rz_inactive by exact A. reflexivity.
Qed.
Lemma bz_grids f b c : b_grids (bz f b c) = b_grids b. Proof. reflexivity. Qed.
Lemma rz_grids m f r s k : b_grids (in_class k (rz m f r s)) = b_grids (in_class k r).
Proof. destruct (active_dec_spec m k) as [A|A]; [rewrite rz_active by exact A; reflexivity|rewrite rz_inactive by exact A; reflexivity]. Qed.
Lemma rv_map_grids m f r k : (forall b, b_grids (f b) = b_grids b) -> b_grids (in_class k (rv_map m f r)) = b_grids (in_class k r).
Proof. intros H. destruct (active_dec_spec m k) as [A|A]; [rewrite rv_map_active by exact A; apply H|rewrite rv_map_inactive by exact A; reflexivity]. Qed.
Lemma sz_grids m f s t : grids_of (sz m f s t) = grids_of s.
Proof.
  unfold grids_of. cbn [sz selfenergy Sigma bz b_grids vertex half1]. f_equal. apply flat_map_ext. intros c. apply map_ext. intros k.
  rewrite fz_channel. apply rz_grids.
Qed.

(** scaling *)
Lemma scale_entry m s c l : active m l -> entry (st_scale m s c) l = option_map (fun x => cscale x c) (entry s l).
Proof.
  intros A. destruct l as [i| |i|ch k i]; cbn [entry fv_entry st_scale selfenergy vertex gv_scale half1 se_scale Sigma asymp buf_map b_data amap m_elements].
  - apply nth_error_map.
  - reflexivity.
  - apply nth_error_map.
  - rewrite fv_map_channel, rv_map_active by exact A. apply nth_error_map.
Qed.
Lemma scale_entry_inactive m s c l : ~ active m l -> entry (st_scale m s c) l = entry s l.
Proof.
  intros A. destruct l as [i| |i|ch k i]; try (exfalso; apply A; exact I). cbn [entry fv_entry st_scale vertex gv_scale half1].
  rewrite fv_map_channel, rv_map_inactive by exact A. reflexivity.
Qed.
Lemma scale_grids m s c : grids_of (st_scale m s c) = grids_of s.
Proof.
  unfold grids_of. cbn [st_scale selfenergy se_scale Sigma buf_map b_grids vertex gv_scale half1]. f_equal. apply flat_map_ext. intros ch. apply map_ext. intros k.
  rewrite fv_map_channel. apply rv_map_grids. reflexivity.
Qed.

(** matching is kept *)
Lemma shape_refl a : same_shape a a. Proof. split; reflexivity. Qed.
Lemma buf_match_l f b b' c : buf_match b c -> buf_match b b' -> buf_match (bz f b b') c.
Proof.
  intros ([L1 L2] & N & G) ([L3 L4] & _). split; [|split; [exact N|exact G]].
  split; [exact L1|]. cbn [bz b_data m_elements]. rewrite zip2_length by exact L4. exact L2.
Qed.
Lemma buf_match_r f b c c' : buf_match b c -> buf_match c c' -> buf_match b (bz f c c').
Proof.
  intros ([L1 L2] & N & G) ([L3 L4] & _). split; [|split; [exact N|exact G]].
  split; [exact L1|]. cbn [bz b_data m_elements]. rewrite zip2_length by exact L4. exact L2.
Qed.
Lemma matching_l m f s s' t : matching s t -> matching s s' -> matching (sz m f s s') t.
Proof.
  intros (N1 & N2 & S0 & [I1 I2] & H) (N1' & N2' & S0' & [I1' I2'] & H'). split; [reflexivity|]. split; [exact N2|]. split; [apply buf_match_l; assumption|].
  split. { split; [exact I1|]. cbn [sz vertex half1 fz irred az m_elements]. rewrite zip2_length by exact I2'. exact I2. }
  intros c k. cbn [sz vertex half1]. rewrite fz_channel. destruct (active_dec_spec m k) as [A|A];
    [rewrite rz_active by exact A; apply buf_match_l; [apply H|apply H']|rewrite rz_inactive by exact A; apply H].
Qed.
Lemma matching_r m f s t t' : matching s t -> matching t t' -> matching s (sz m f t t').
Proof.
  intros (N1 & N2 & S0 & [I1 I2] & H) (N1' & N2' & S0' & [I1' I2'] & H'). split; [exact N1|]. split; [reflexivity|]. split; [apply buf_match_r; assumption|].
  split. { split; [exact I1|]. cbn [sz vertex half1 fz irred az m_elements]. rewrite zip2_length by exact I2'. exact I2. }
  intros c k. cbn [sz vertex half1]. rewrite fz_channel. destruct (active_dec_spec m k) as [A|A];
    [rewrite rz_active by exact A; apply buf_match_r; [apply H|apply H']|rewrite rz_inactive by exact A; apply H].
Qed.
Lemma buf_match_map_l g b c : buf_match b c -> buf_match (buf_map g b) c.
Proof. intros ([L1 L2] & N & G). repeat split; try assumption. cbn [buf_map b_data amap m_elements]. rewrite map_length. exact L2. Qed.
Lemma buf_match_map_r g b c : buf_match b c -> buf_match b (buf_map g c).
Proof. intros ([L1 L2] & N & G). repeat split; try assumption. cbn [buf_map b_data amap m_elements]. rewrite map_length. exact L2. Qed.
Lemma matching_scale_l m s t c : matching s t -> matching (st_scale m s c) t.
Proof.
  intros (N1 & N2 & S0 & [I1 I2] & H). split; [cbn; rewrite N1; reflexivity|]. split; [exact N2|]. split; [apply buf_match_map_l; exact S0|].
  split. { split; [exact I1|]. cbn [st_scale vertex gv_scale half1 fv_map irred amap m_elements]. rewrite map_length. exact I2. }
  intros ch k. cbn [st_scale vertex gv_scale half1]. rewrite fv_map_channel. destruct (active_dec_spec m k) as [A|A];
    [rewrite rv_map_active by exact A; apply buf_match_map_l; apply H|rewrite rv_map_inactive by exact A; apply H].
Qed.
Lemma matching_scale_r m s t c : matching s t -> matching s (st_scale m t c).
Proof.
  intros (N1 & N2 & S0 & [I1 I2] & H). split; [exact N1|]. split; [cbn; rewrite N2; reflexivity|]. split; [apply buf_match_map_r; exact S0|].
  split. { split; [exact I1|]. cbn [st_scale vertex gv_scale half1 fv_map irred amap m_elements]. rewrite map_length. exact I2. }
  intros ch k. cbn [st_scale vertex gv_scale half1]. rewrite fv_map_channel. destruct (active_dec_spec m k) as [A|A];
    [rewrite rv_map_active by exact A; apply buf_match_map_r; apply H|rewrite rv_map_inactive by exact A; apply H].
Qed.

(** identities between combinations from identities between buffers *)
Definition bs (c : R) := buf_map (fun x => cscale x c).
Lemma rv_eq x y : (forall k, in_class k x = in_class k y) -> x = y.
Proof. intros H. pose proof (H C1). pose proof (H C2). pose proof (H C2b). pose proof (H C3). destruct x, y; cbn in *; congruence. Qed.
Lemma fv_eq x y : irred x = irred y -> (forall c, in_channel c x = in_channel c y) -> x = y.
Proof. intros I H. pose proof (H CA). pose proof (H CP). pose proof (H CT). destruct x, y; cbn in *; congruence. Qed.
Lemma st_eq s t : Lambda s = Lambda t -> half2 (vertex s) = half2 (vertex t) -> Sigma (selfenergy s) = Sigma (selfenergy t) -> asymp (selfenergy s) = asymp (selfenergy t) ->
  irred (half1 (vertex s)) = irred (half1 (vertex t)) -> (forall c k, in_class k (in_channel c (half1 (vertex s))) = in_class k (in_channel c (half1 (vertex t)))) -> s = t.
Proof.
  intros A B C D E F. assert (half1 (vertex s) = half1 (vertex t)) as G. { apply fv_eq; [exact E|]. intros c. apply rv_eq. intros k. apply F. }
  destruct s as [L [h h2] [e a]], t as [L' [h' h2'] [e' a']]; cbn in *; congruence.
Qed.
Lemma barr (g : list grid) l c (x y : list comp) : x = y -> Buffer g (Marray l c x) = Buffer g (Marray l c y).
Proof. congruence. Qed.
Lemma bz_assoc b c d : bz cadd (bz cadd b c) d = bz cadd b (bz cadd c d).
Proof. unfold bz; cbn [b_data b_grids m_elements m_length m_cumul]. apply barr. apply zip2_assoc. ceq. Qed.
Lemma bz_scale b c x : bs x (bz cadd b c) = bz cadd (bs x b) (bs x c).
Proof. unfold bz, bs, buf_map, amap; cbn [b_data b_grids m_elements m_length m_cumul]. apply barr. rewrite map_zip2, zip2_map_l, zip2_map_r. apply zip2_ext. ceq. Qed.
Lemma bz_sum b x y : bs (x + y) b = bz cadd (bs x b) (bs y b).
Proof. unfold bz, bs, buf_map, amap; cbn [b_data b_grids m_elements m_length m_cumul]. apply barr. rewrite zip2_map_l, zip2_map_r, zip2_diag. apply map_ext. ceq. Qed.
Lemma bs_bs b x y : bs y (bs x b) = bs (x * y) b.
Proof. unfold bz, bs, buf_map, amap; cbn [b_data b_grids m_elements m_length m_cumul]. apply barr. rewrite map_map. apply map_ext. ceq. Qed.
Lemma bs_1 b : bs 1 b = b.
Proof. destruct b as [g [l c e]]. unfold bz, bs, buf_map, amap; cbn [b_data b_grids m_elements m_length m_cumul]. apply barr. rewrite <- map_id. apply map_ext. ceq. Qed.
Lemma bz_0 b c : buf_match b c -> bz cadd b (bs 0 c) = b.
Proof.
  intros ([_ L] & _). destruct b as [g [l u e]]. unfold bz, bs, buf_map, amap in *; cbn [b_data b_grids m_elements m_length m_cumul] in *. apply barr.
  rewrite zip2_map_r. apply zip2_left; [ceq|exact L].
Qed.
Lemma bz_sub b c : bz csub b c = bz cadd b (bs (-1) c).
Proof. unfold bz, bs, buf_map, amap; cbn [b_data b_grids m_elements m_length m_cumul]. apply barr. rewrite zip2_map_r. apply zip2_ext. ceq. Qed.
Lemma az_assoc b c d : az cadd (az cadd b c) d = az cadd b (az cadd c d).
Proof. unfold az; cbn [m_elements m_length m_cumul]. f_equal. apply zip2_assoc. ceq. Qed.
Definition as_ (c : R) := amap (fun x : comp => cscale x c).
Lemma az_scale b c x : as_ x (az cadd b c) = az cadd (as_ x b) (as_ x c).
Proof. unfold az, as_, amap; cbn [m_elements m_length m_cumul]. f_equal. rewrite map_zip2, zip2_map_l, zip2_map_r. apply zip2_ext. ceq. Qed.
Lemma az_sum b x y : as_ (x + y) b = az cadd (as_ x b) (as_ y b).
Proof. unfold az, as_, amap; cbn [m_elements m_length m_cumul]. f_equal. rewrite zip2_map_l, zip2_map_r, zip2_diag. apply map_ext. ceq. Qed.
Lemma as_as b x y : as_ y (as_ x b) = as_ (x * y) b.
Proof. unfold as_, amap; cbn [m_elements m_length m_cumul]. f_equal. rewrite map_map. apply map_ext. ceq. Qed.
Lemma as_1 b : as_ 1 b = b.
Proof. destruct b as [l c e]. unfold as_, amap; cbn [m_elements m_length m_cumul]. f_equal. rewrite <- map_id. apply map_ext. ceq. Qed.
Lemma az_0 b c : same_shape b c -> az cadd b (as_ 0 c) = b.
Proof.
  intros [_ L]. destruct b as [l u e]. unfold az, as_, amap in *; cbn [m_elements m_length m_cumul] in *. f_equal.
  rewrite zip2_map_r. apply zip2_left; [ceq|exact L].
Qed.
Lemma az_sub b c : az csub b c = az cadd b (as_ (-1) c).
Proof. unfold az, as_, amap; cbn [m_elements m_length m_cumul]. f_equal. rewrite zip2_map_r. apply zip2_ext. ceq. Qed.

Ltac classes m := intros ch k; cbn [sz st_scale vertex gv_scale half1]; rewrite ?fz_channel, ?fv_map_channel;
  destruct (active_dec_spec m k) as [A|A]; [rewrite ?rz_active, ?rv_map_active by exact A; rewrite ?fz_channel, ?fv_map_channel; rewrite ?rz_active, ?rv_map_active by exact A
                                          |rewrite ?rz_inactive, ?rv_map_inactive by exact A; rewrite ?fz_channel, ?fv_map_channel; rewrite ?rz_inactive, ?rv_map_inactive by exact A].
Lemma sz_assoc m s t u : sz m cadd (sz m cadd s t) u = sz m cadd s (sz m cadd t u).
Proof.
  apply st_eq; try reflexivity; cbn [sz selfenergy Sigma asymp vertex half1 fz irred].
  - apply bz_assoc. - ceq. - apply az_assoc. - classes m; [apply bz_assoc|reflexivity].
Qed.
Lemma sz_scale m s t c : half2 (vertex s) = None -> st_scale m (sz m cadd s t) c = sz m cadd (st_scale m s c) (st_scale m t c).
Proof.
  intros N. apply st_eq; try reflexivity; cbn [sz st_scale gv_scale se_scale selfenergy Sigma asymp vertex half1 fz irred fv_map].
  - apply bz_scale. - ceq. - apply az_scale. - classes m; [apply bz_scale|reflexivity].
Qed.
Lemma sz_sum m s x y : half2 (vertex s) = None -> st_scale m s (x + y) = sz m cadd (st_scale m s x) (st_scale m s y).
Proof.
  intros N. apply st_eq; try reflexivity; cbn [sz st_scale gv_scale se_scale selfenergy Sigma asymp vertex half1 half2 fz irred fv_map].
  - rewrite N. reflexivity. - apply bz_sum. - ceq. - apply az_sum. - classes m; [apply bz_sum|reflexivity].
Qed.
Lemma scale_scale m s x y : half2 (vertex s) = None -> st_scale m (st_scale m s x) y = st_scale m s (x * y).
Proof.
  intros N. apply st_eq; try reflexivity; cbn [sz st_scale gv_scale se_scale selfenergy Sigma asymp vertex half1 half2 fz irred fv_map].
  - rewrite N. reflexivity. - apply bs_bs. - ceq. - apply as_as. - classes m; [apply bs_bs|reflexivity].
Qed.
Lemma scale_1 m s : half2 (vertex s) = None -> st_scale m s 1 = s.
Proof.
  intros N. apply st_eq; try reflexivity; cbn [sz st_scale gv_scale se_scale selfenergy Sigma asymp vertex half1 half2 fz irred fv_map].
  - rewrite N. reflexivity. - apply bs_1. - ceq. - apply as_1. - classes m; [apply bs_1|reflexivity].
Qed.
Lemma sz_0 m s t : matching s t -> sz m cadd s (st_scale m t 0) = s.
Proof.
  intros (N & _ & S0 & I & H). apply st_eq; try reflexivity; cbn [sz st_scale gv_scale se_scale selfenergy Sigma asymp vertex half1 half2 fz irred fv_map].
  - rewrite N. reflexivity. - apply bz_0. exact S0. - ceq. - apply az_0. exact I. - classes m; [apply bz_0; apply H|reflexivity].
Qed.
Lemma sz_sub m s t : half2 (vertex t) = None -> sz m csub s t = sz m cadd s (st_scale m t (-1)).
Proof.
  intros N. apply st_eq; try reflexivity; cbn [sz st_scale gv_scale se_scale selfenergy Sigma asymp vertex half1 half2 fz irred fv_map].
  - apply bz_sub. - ceq. - apply az_sub. - classes m; [apply bz_sub|reflexivity].
Qed.

(** ** evaluation: the columns read from an array commute with maps of its elements *)
Lemma osequence_map_option {A B} (f : A -> B) : forall l : list (option A), osequence (map (option_map f) l) = option_map (map f) (osequence l).
Proof.
  induction l as [|[a|] l IH]; [reflexivity| |reflexivity]. cbn [map option_map osequence]. rewrite IH.
  destruct (osequence l); reflexivity.
Qed.
Lemma at_vectorized_amap {A B} (f : A -> B) n a k : at_vectorized n (amap f a) k = option_map (map f) (at_vectorized n a k).
Proof.
  unfold at_vectorized, amap. cbn [m_elements]. rewrite skipn_map, firstn_map, map_length. destruct (_ =? _)%nat; reflexivity.
Qed.
Lemma map_flat {A B C} (f : B -> C) (g : A -> list B) l : map f (flat_map g l) = flat_map (fun x => map f (g x)) l.
Proof. induction l as [|x l IH]; [reflexivity|]. cbn. rewrite map_app, IH. reflexivity. Qed.
Lemma get_values_amap {A B} (f : A -> B) n pos vs k a idx : get_values n pos vs k (amap f a) idx = option_map (map (map f)) (get_values n pos vs k a idx).
Proof.
  unfold get_values. cbn [amap m_cumul]. destruct (get_flatindex_ini _ _ _) as [ini|]; [|reflexivity]. cbn [obind]. cbv zeta.
  set (S_ := map Z.of_nat (seq 0 k)). clearbody S_. destruct n as [|[|[|[|n]]]]; try reflexivity.
  - destruct (nth_error _ pos); [|reflexivity]. cbn [obind]. rewrite <- osequence_map_option, map_map. f_equal. apply map_ext. intros i. apply at_vectorized_amap.
  - destruct (nth_error _ pos); [|reflexivity]. destruct (nth_error _ (pos + 1)); [|reflexivity]. cbn [obind]. rewrite <- osequence_map_option, map_flat. f_equal.
    apply flat_map_ext. intros i. rewrite map_map. apply map_ext. intros j. apply at_vectorized_amap.
  - destruct (nth_error _ pos); [|reflexivity]. destruct (nth_error _ (pos + 1)); [|reflexivity]. destruct (nth_error _ (pos + 2)); [|reflexivity].
    cbn [obind]. rewrite <- osequence_map_option, map_flat. f_equal.
    apply flat_map_ext. intros i. rewrite map_flat. apply flat_map_ext. intros j. rewrite map_map. apply map_ext. intros l. apply at_vectorized_amap.
Qed.
Lemma nth_map_0 (F : R * R -> R) : F (0, 0) = 0 -> forall c r, nth r (map F c) 0 = F (nth r c (0, 0)).
Proof. intros H c r. rewrite <- (map_nth F). rewrite H. reflexivity. Qed.
Lemma dot_lin u v : forall ws (cols : list (list (R * R))) r,
  dot ws (map (map (fun p => u * fst p + v * snd p)) cols) r = u * dot ws (map (map fst) cols) r + v * dot ws (map (map snd) cols) r.
Proof.
  induction ws as [|w ws IH]; intros [|c cols] r; cbn [dot map]; try ring. rewrite IH, !nth_map_0 by (cbn; ring). ring.
Qed.
Lemma map_zip2_same {A B C D} (h : B -> C -> D) (f : A -> B) (g : A -> C) l : zip2 h (map f l) (map g l) = map (fun x => h (f x) (g x)) l.
Proof. induction l as [|x l IH]; [reflexivity|]. cbn. rewrite IH. reflexivity. Qed.
Lemma zip2_repeat {A B C} (f : A -> B -> C) x y n : zip2 f (repeat x n) (repeat y n) = repeat (f x y) n.
Proof. induction n as [|n IH]; [reflexivity|]. cbn. rewrite IH. reflexivity. Qed.
Lemma interpolate_lin u v axs pos vs (P : marray (R * R)) ws idx :
  interpolate axs pos vs (amap (fun p => u * fst p + v * snd p) P) ws idx =
  lift2 (zip2 (fun x y => u * x + v * y)) (interpolate axs pos vs (amap fst P) ws idx) (interpolate axs pos vs (amap snd P) ws idx).
Proof.
  unfold interpolate. destruct (in_box axs ws); [|cbn; rewrite zip2_repeat; f_equal; f_equal; ring].
  destruct (osequence _) as [cells|]; [|reflexivity]. cbn [obind]. unfold interpolate_cell. destruct (get_weights _) as [w|]; [|reflexivity]. cbn [obind].
  rewrite !get_values_amap. destruct (get_values _ pos vs 2 P _) as [cols|]; [|reflexivity]. cbn [option_map obind lift2]. f_equal.
  rewrite map_zip2_same. apply map_ext. intros r. apply dot_lin.
Qed.
Lemma interpolate_length axs pos vs a ws idx r : interpolate axs pos vs a ws idx = Some r -> length r = vs.
Proof.
  unfold interpolate. destruct (in_box axs ws); [|intros H; injection H as <-; apply repeat_length].
  destruct (osequence _) as [cells|]; [|discriminate]. cbn [obind]. unfold interpolate_cell. destruct (get_weights _) as [w|]; [|discriminate]. cbn [obind].
  destruct (get_values _ _ _ _ _ _) as [cols|]; [|discriminate]. cbn [obind]. intros H. injection H as <-. rewrite map_length. apply seq_length.
Qed.
Definition pairs (pr : comp -> R) (b c : marray comp) : marray (R * R) :=
  Marray (m_length b) (m_cumul b) (combine (map pr (m_elements b)) (map pr (m_elements c))).
Lemma map_fst_combine {A B} : forall (x : list A) (y : list B), length x = length y -> map fst (combine x y) = x.
Proof. induction x as [|a x IH]; intros [|b y] H; try discriminate; [reflexivity|]. cbn. rewrite IH; [reflexivity|cbn in H; lia]. Qed.
Lemma map_snd_combine {A B} : forall (x : list A) (y : list B), length x = length y -> map snd (combine x y) = y.
Proof. induction x as [|a x IH]; intros [|b y] H; try discriminate; [reflexivity|]. cbn. rewrite IH; [reflexivity|cbn in H; lia]. Qed.
Lemma map_combine_zip {A B C D E} (F : A * B -> C) (g : D -> A) (h : E -> B) : forall x y, map F (combine (map g x) (map h y)) = zip2 (fun a b => F (g a, h b)) x y.
Proof. induction x as [|a x IH]; intros [|b y]; try reflexivity. cbn. rewrite IH. reflexivity. Qed.
Lemma combine_zip2 {A B C D} (f : A -> B -> C) (g : A -> B -> D) x y : combine (zip2 f x y) (zip2 g x y) = zip2 (fun a b => (f a b, g a b)) x y.
Proof. revert y. induction x as [|a x IH]; intros [|b y]; try reflexivity. cbn. rewrite IH. reflexivity. Qed.
Lemma zip2_combine (f : R -> R -> R) : forall (x x' : list R) (y y' : list R), length x = length y -> length x' = length y' -> length x = length x' ->
  combine (zip2 f x y) (zip2 f x' y') = zip2 (fun p q => (f (fst p) (fst q), f (snd p) (snd q))) (combine x x') (combine y y').
Proof.
  induction x as [|a x IH]; intros [|b x'] [|c y] [|d y'] H1 H2 H3; try discriminate; [reflexivity|]. cbn. rewrite IH; [reflexivity|cbn in *; lia..].
Qed.
Definition clin (u v : R) (x y : comp) : comp := (u * fst x + v * fst y, u * snd x + v * snd y).
Lemma eval_bz u v b c pos vs ws idx : same_shape (b_data b) (b_data c) -> m_cumul (b_data b) = m_cumul (b_data c) -> map g_axis (b_grids b) = map g_axis (b_grids c) ->
  buf_eval pos vs (bz (clin u v) b c) ws idx = lift2 (zip2 (clin u v)) (buf_eval pos vs b ws idx) (buf_eval pos vs c ws idx).
Proof.
  intros [L1 L2] CU G. unfold buf_eval. cbn [bz b_grids b_data]. rewrite <- G. set (axs := map g_axis (b_grids b)).
  assert (P : forall pr : comp -> R, pr = fst \/ pr = snd ->
    interpolate axs pos vs (amap pr (Marray (m_length (b_data b)) (m_cumul (b_data b)) (zip2 (clin u v) (m_elements (b_data b)) (m_elements (b_data c))))) ws idx =
    lift2 (zip2 (fun x y => u * x + v * y)) (interpolate axs pos vs (amap pr (b_data b)) ws idx) (interpolate axs pos vs (amap pr (b_data c)) ws idx)).
  { intros pr Hp. assert (amap fst (pairs pr (b_data b) (b_data c)) = amap pr (b_data b)) as <-.
    { unfold amap, pairs. cbn [m_elements m_length m_cumul]. rewrite map_fst_combine by (rewrite !map_length; exact L2). reflexivity. }
    assert (amap snd (pairs pr (b_data b) (b_data c)) = amap pr (b_data c)) as <-.
    { unfold amap, pairs. cbn [m_elements m_length m_cumul]. rewrite map_snd_combine by (rewrite !map_length; exact L2). rewrite L1, CU. reflexivity. }
    rewrite <- interpolate_lin. f_equal. unfold amap, pairs. cbn [m_elements m_length m_cumul]. f_equal.
    rewrite map_zip2, map_combine_zip. apply zip2_ext. intros x y. destruct Hp as [-> | ->]; reflexivity. }
  pose proof (P fst (or_introl eq_refl)) as P1. pose proof (P snd (or_intror eq_refl)) as P2. clear P. unfold comp in *. rewrite P1, P2.
  destruct (interpolate axs pos vs (amap fst (b_data b)) ws idx) as [x|] eqn:E1; [|reflexivity].
  destruct (interpolate axs pos vs (amap snd (b_data b)) ws idx) as [x'|] eqn:E2; cbn [lift2 obind]; [|destruct (interpolate axs pos vs (amap fst (b_data c)) ws idx); reflexivity].
  destruct (interpolate axs pos vs (amap fst (b_data c)) ws idx) as [y|] eqn:E3; [|reflexivity]. cbn [lift2 obind].
  destruct (interpolate axs pos vs (amap snd (b_data c)) ws idx) as [y'|] eqn:E4; [|reflexivity]. cbn [lift2 obind].
  apply interpolate_length in E1, E2, E3, E4. f_equal. rewrite zip2_combine by congruence. reflexivity.
Qed.
Lemma bz_ext f g b c : (forall x y, f x y = g x y) -> bz f b c = bz g b c.
Proof. intros H. unfold bz. rewrite (zip2_ext f g H). reflexivity. Qed.
Lemma clin_add : forall x y, cadd x y = clin 1 1 x y. Proof. ceq; unfold clin; cbn; ring. Qed.
Lemma clin_sub : forall x y, csub x y = clin 1 (-1) x y. Proof. ceq; unfold clin; cbn; ring. Qed.
Lemma clin_scale c : forall x, cscale x c = clin c 0 x x. Proof. ceq; unfold clin; cbn; ring. Qed.
Lemma buf_map_bz f b : buf_map f b = bz (fun x y => f x) b b.
Proof. unfold buf_map, bz, amap. rewrite zip2_diag. reflexivity. Qed.
