From Coq Require Import QArith String.
From Verif Require Import Prelude Hdf_Model Hdf_Spec.
Open Scope string_scope.
Open Scope list_scope.
Open Scope Z_scope.

Lemma gid_beq_eq a b : gid_beq a b = true <-> a = b.
Proof.
  destruct a, b; cbn; try (split; congruence). rewrite String.eqb_eq. split; congruence.
Qed.
Definition key_beq (a b : gid * string) : bool := gid_beq (fst a) (fst b) && String.eqb (snd a) (snd b).
Lemma key_beq_eq a b : key_beq a b = true <-> a = b.
Proof. destruct a, b. unfold key_beq. cbn. rewrite andb_true_iff, gid_beq_eq, String.eqb_eq. split; [intros (-> & ->); reflexivity|intros E; injection E; auto]. Qed.
Lemma key_beq_refl a : key_beq a a = true. Proof. apply key_beq_eq. reflexivity. Qed.
Lemma key_beq_neq a b : a <> b -> key_beq a b = false. Proof. intros H. destruct (key_beq a b) eqn:E; [|reflexivity]. apply key_beq_eq in E. contradiction. Qed.
Lemma gid_beq_neq a b : a <> b -> gid_beq a b = false. Proof. intros H. destruct (gid_beq a b) eqn:E; [|reflexivity]. apply gid_beq_eq in E. contradiction. Qed.
Lemma gid_beq_refl a : gid_beq a a = true. Proof. apply gid_beq_eq. reflexivity. Qed.

Section P.
  Variable V : Type.
  Variable fill : V.
  Variable frequencies : (gfield -> V) -> V.
  Variable npoints : V -> V -> V -> V.
  Variables (k2 dbg k3 : bool) (kind : gslot -> gkind) (REG MAXCLASS GRID : Z) (mu bias : Q).
  Notation state := (state V).
  Notation file := (file V).
  Notation disk := (disk V).
  Notation run := (run V fill).
  Notation value := (value V frequencies).
  Notation layer_ops := (layer_ops V frequencies).
  Notation root_entries := (root_entries k2 dbg k3).
  Notation freq_entries := (freq_entries k2 dbg k3 kind).
  Notation entries := (root_entries ++ freq_entries).
  Notation dsets := (dsets V).
  Notation grp := (grp V).
  Notation attrs := (attrs V).
  Notation key e := (fst (fst e), snd (fst e)).
  Definition ds (f : file) (k : gid * string) : option (Z * (Z -> V)) := dsets f (fst k) (snd k).

  Lemma run_app a b f : run (a ++ b) f = match run a f with (f', None) => run b f' | r => r end.
  Proof. revert f. induction a as [|o a IH]; intros f; cbn [run app]; [reflexivity|]. destruct (step V fill o f); [apply IH|reflexivity]. Qed.

  (** *** layers *)
  Definition base (ex : bool) (n : Z) (d : option (Z * (Z -> V))) : option (Z -> V) :=
    match ex, d with true, Some (m, l) => if m =? n then Some l else None | false, None => Some (fun _ => fill) | _, _ => None end.
  Lemma ds_set f g name n l k : ds (set_layer V f g name n l) k = if key_beq k (g, name) then Some (n, l) else ds f k.
  Proof. reflexivity. Qed.
  Lemma run_layers es : forall s it n ex f, 0 <= it < n -> NoDup (map fst es) -> (forall k, In k (map fst es) -> exists l, base ex n (ds f k) = Some l) ->
    exists f', run (layer_ops es s it n ex) f = (f', None) /\ grp f' = grp f /\ attrs f' = attrs f /\
      (forall e, In e es -> exists l, base ex n (ds f (fst e)) = Some l /\ ds f' (fst e) = Some (n, upd V l it (value s (snd e)))) /\
      (forall k, ~ In k (map fst es) -> ds f' k = ds f k).
  Proof.
    induction es as [|[[g x] p] es IH]; intros s it n ex f Hit ND HB.
    - exists f. cbn. split; [reflexivity|]. split; [reflexivity|]. split; [reflexivity|]. split; [intros e []|reflexivity].
    - cbn [map] in ND. inversion ND as [|? ? NI ND']; subst. destruct (HB (g, x) (or_introl eq_refl)) as (l & Hl).
      set (f1 := set_layer V f g x n (upd V l it (value s p))).
      assert (St : step V fill (OLayer V g x (value s p) it n ex) f = Val f1).
      { unfold step. replace ((it <? 0) || (n <=? it)) with false by (symmetry; apply orb_false_iff; split; [apply Z.ltb_ge|apply Z.leb_gt]; lia).
        unfold base, ds in Hl. cbn [fst snd] in Hl. destruct ex.
        - destruct (dsets f g x) as [[m l0]|]; [|discriminate]. destruct (Z.eqb_spec m n) as [->|]; [|discriminate]. injection Hl as ->.
          replace (n <=? it) with false by (symmetry; apply Z.leb_gt; lia). reflexivity.
        - destruct (dsets f g x); [discriminate|]. injection Hl as <-. reflexivity. }
      destruct (IH s it n ex f1 Hit ND') as (f' & R & G & A & D & O).
      { intros k Hk. unfold f1. rewrite ds_set, key_beq_neq; [apply HB; right; exact Hk|]. intros ->. apply NI. exact Hk. }
      exists f'. split; [cbn [layer_ops map run fst snd]; rewrite St; exact R|]. split; [exact G|]. split; [exact A|]. split.
      + intros e [<-|He]; cbn [fst snd].
        * exists l. split; [exact Hl|]. rewrite O by exact NI. unfold f1. rewrite ds_set, key_beq_refl. reflexivity.
        * destruct (D e He) as (l' & B & E'). exists l'. split; [|exact E']. rewrite <- B. f_equal. unfold f1. rewrite ds_set, key_beq_neq; [reflexivity|].
          intros E. apply NI. rewrite <- E. apply in_map. exact He.
      + intros k Hk. cbn [map] in Hk. rewrite O by (intros H; apply Hk; right; exact H). unfold f1. rewrite ds_set, key_beq_neq; [reflexivity|].
        intros ->. apply Hk. left. reflexivity.
  Qed.

  (** *** attributes *)
  Definition attr_ops (l : list (string * attr)) : list (op V) := map (fun e => OAttr V Params (fst e) (snd e) false) l.
  Lemma run_attrs l : forall f, NoDup (map fst l) -> (forall x, In x (map fst l) -> attrs f Params x = None) ->
    exists f', run (attr_ops l) f = (f', None) /\ grp f' = grp f /\ dsets f' = dsets f /\ (forall x a, In (x, a) l -> attrs f' Params x = Some a) /\
      (forall x, ~ In x (map fst l) -> attrs f' Params x = attrs f Params x).
  Proof.
    induction l as [|[x a] l IH]; intros f ND HN.
    - exists f. cbn. split; [reflexivity|]. split; [reflexivity|]. split; [reflexivity|]. split; [intros ? ? []|reflexivity].
    - cbn [map fst] in ND. inversion ND as [|? ? NI ND']; subst. destruct (IH (set_attr V f Params x a) ND') as (f' & R & G & D & A & O).
      { intros y Hy. cbn. destruct (String.eqb_spec y x) as [->|]; [contradiction|]. cbn. apply HN. right. exact Hy. }
      exists f'. split; [cbn [attr_ops map run fst snd step]; rewrite (HN x (or_introl eq_refl)); exact R|]. split; [exact G|]. split; [exact D|]. split.
      + intros y b [E|H].
        * injection E as <- <-. rewrite O by exact NI. cbn. rewrite String.eqb_refl. reflexivity.
        * apply A. exact H.
      + intros y Hy. cbn [map fst] in Hy. rewrite O by (intros H; apply Hy; right; exact H). cbn. destruct (String.eqb_spec y x) as [->|]; [|reflexivity]. exfalso. apply Hy. left. reflexivity.
  Qed.
  (** *** groups *)
  Lemma run_create l : forall f, NoDup l -> (forall g, In g l -> grp f g = false) ->
    exists f', run (map (fun g => OCreate V g) l) f = (f', None) /\ dsets f' = dsets f /\ attrs f' = attrs f /\ (forall g, In g l -> grp f' g = true) /\ (forall g, ~ In g l -> grp f' g = grp f g).
  Proof.
    induction l as [|g l IH]; intros f ND HN.
    - exists f. cbn. split; [reflexivity|]. split; [reflexivity|]. split; [reflexivity|]. split; [intros ? []|reflexivity].
    - inversion ND as [|? ? NI ND']; subst. destruct (IH (add_group V f g) ND') as (f' & R & D & A & G & O).
      { intros y Hy. cbn. rewrite gid_beq_neq by (intros ->; contradiction). apply HN. right. exact Hy. }
      exists f'. split; [cbn [map run step]; rewrite (HN g (or_introl eq_refl)); exact R|]. split; [exact D|]. split; [exact A|]. split.
      + intros y [<-|H]; [|apply G; exact H]. rewrite O by exact NI. cbn. rewrite gid_beq_refl. reflexivity.
      + intros y Hy. rewrite O by (intros H; apply Hy; right; exact H). cbn. rewrite gid_beq_neq; [reflexivity|]. intros ->. apply Hy. left. reflexivity.
  Qed.
  Lemma run_open l : forall f, (forall g, In g l -> grp f g = true) -> run (map (fun g => OOpen V g) l) f = (f, None).
  Proof. induction l as [|g l IH]; intros f H; [reflexivity|]. cbn [map run step]. rewrite (H g (or_introl eq_refl)). apply IH. intros y Hy. apply H. right. exact Hy. Qed.
  Lemma open_all_ok l f : (forall g, In g l -> grp f g = true) -> open_all V f l = Val tt.
  Proof. induction l as [|g l IH]; intros H; [reflexivity|]. cbn [open_all]. unfold open_group. rewrite (H g (or_introl eq_refl)). cbn [rbind]. apply IH. intros y Hy. apply H. right. exact Hy. Qed.

  (** *** names are distinct *)
  Fixpoint nodupb (l : list string) : bool := match l with [] => true | x :: l => negb (existsb (String.eqb x) l) && nodupb l end.
  Lemma nodupb_ok l : nodupb l = true -> NoDup l.
  Proof.
    induction l as [|x l IH]; intros H; [constructor|]. cbn in H. apply andb_true_iff in H. destruct H as (H & H'). constructor; [|apply IH; exact H'].
    intros Hx. apply negb_true_iff in H. rewrite <- not_true_iff_false in H. apply H. apply existsb_exists. exists x. split; [exact Hx|apply String.eqb_refl].
  Qed.
  Lemma root_names : NoDup (map fst (root_table k2 dbg k3)). Proof. apply nodupb_ok. destruct k2, dbg, k3; vm_compute; reflexivity. Qed.
  Lemma grid_names : NoDup (map fst (grid_table k2 dbg k3)). Proof. apply nodupb_ok. destruct k2, dbg, k3; vm_compute; reflexivity. Qed.
  Lemma field_names k : NoDup (map fst (field_table k)). Proof. apply nodupb_ok. destruct k; vm_compute; reflexivity. Qed.
  Lemma group_names : NoDup groups. Proof. apply nodupb_ok. vm_compute. reflexivity. Qed.
  Lemma NoDup_map_inj {A B} (h : A -> B) l : (forall x y, h x = h y -> x = y) -> NoDup l -> NoDup (map h l).
  Proof. intros I ND. induction ND as [|x l NI ND IH]; cbn; constructor; [|exact IH]. intros H. apply in_map_iff in H. destruct H as (y & E & Hy). apply I in E. subst. contradiction. Qed.
  Lemma NoDup_app {A} (a b : list A) : NoDup a -> NoDup b -> (forall x, In x a -> ~ In x b) -> NoDup (a ++ b).
  Proof.
    intros Na Nb D. induction Na as [|x a NI Na IH]; cbn; [exact Nb|]. constructor.
    - rewrite in_app_iff. intros [H|H]; [contradiction|]. apply (D x (or_introl eq_refl) H).
    - apply IH. intros y Hy. apply D. right. exact Hy.
  Qed.
  Lemma root_keys : map fst root_entries = map (fun x => (Root, x)) (map fst (root_table k2 dbg k3)).
  Proof. unfold Hdf_Model.root_entries. rewrite !map_map. reflexivity. Qed.
  Lemma freq_key e : In e freq_entries -> exists sub g x f, e = (Sub sub, x, PG g f) /\ In (sub, g) (grid_table k2 dbg k3) /\ In (x, f) (field_table (kind g)).
  Proof.
    intros H. apply in_flat_map in H. destruct H as ([sub g] & Hg & H). apply in_map_iff in H. destruct H as ([x f] & <- & Hf). cbn [fst snd] in *. exists sub, g, x, f. auto.
  Qed.
  Lemma flat_keys l : NoDup (map fst l) -> NoDup (map fst (flat_map (fun e => map (fun q => (Sub (fst e), fst q, PG (snd e) (snd q))) (field_table (kind (snd e)))) l)).
  Proof.
    induction l as [|[sub g] l IH]; intros ND; cbn [flat_map map fst snd]; [constructor|]. cbn [map fst] in ND. inversion ND as [|? ? NI ND']; subst. rewrite map_app, map_map. cbn [fst]. apply NoDup_app.
    - rewrite <- (map_map fst (fun x => (Sub sub, x))). apply NoDup_map_inj; [intros x y E; injection E; auto|apply field_names].
    - apply IH. exact ND'.
    - intros k H1 H2. apply in_map_iff in H1. destruct H1 as (q & <- & _). apply in_map_iff in H2. destruct H2 as ([[g' x'] p'] & E & H2). cbn [fst] in E.
      apply in_flat_map in H2. destruct H2 as ([sub' s'] & Hs & H2). apply in_map_iff in H2. destruct H2 as (q' & E' & _). injection E' as <- <- _. injection E as -> _.
      apply NI. apply in_map_iff. exists (sub, s'). split; [reflexivity|exact Hs].
  Qed.
  Lemma root_nodup : NoDup (map fst root_entries).
  Proof. rewrite root_keys. apply NoDup_map_inj; [intros x y E; injection E; auto|apply root_names]. Qed.
  Lemma freq_nodup : NoDup (map fst freq_entries). Proof. apply flat_keys, grid_names. Qed.
  Lemma root_key k : In k (map fst root_entries) -> fst k = Root.
  Proof. rewrite root_keys. intros H. apply in_map_iff in H. destruct H as (x & <- & _). reflexivity. Qed.
  Lemma freq_key_sub k : In k (map fst freq_entries) -> exists s, fst k = Sub s.
  Proof. intros H. apply in_map_iff in H. destruct H as (e & <- & He). apply freq_key in He. destruct He as (s & g & x & f & -> & _). exists s. reflexivity. Qed.

  (** *** complete files *)
  Definition conf_attrs (c : config) : list (string * attr) :=
    [("REG", AInt (Some REG)); ("nODE", AInt (nODE c)); ("Gamma", ADbl (cGamma c)); ("MAX_DIAG_CLASS", AInt (Some MAXCLASS)); ("N_LOOPS", AInt (Some (nloops c)));
     ("T", ADbl (cT c)); ("mu", ADbl mu); ("U", ADbl (cU c)); ("epsilon", ADbl (ceps c)); ("V", ADbl bias); ("GRID", AInt (Some GRID))].
  Definition all_groups : list gid := Freq :: map Sub groups.
  Record good (f : file) (n : Z) (c : config) (conv : bool) (last : Z) (cont : Z -> option state) : Prop := {
    g_groups : forall g, In g (Params :: all_groups) -> grp f g = true;
    g_conf : forall x a, In (x, a) (conf_attrs c) -> attrs f Params x = Some a;
    g_conv : attrs f Params "is_converged" = Some (ABool conv);
    g_last : attrs f Params "last_Lambda_it" = Some (AInt (Some last));
    g_data : forall e, In e entries -> exists l, ds f (fst e) = Some (n, l) /\ forall it s, cont it = Some s -> l it = value s (snd e);
    g_range : forall it s, cont it = Some s -> 0 <= it < n }.
  Definition put_cont (cont : Z -> option state) (it : Z) (s : state) : Z -> option state := fun i => if i =? it then Some s else cont i.
  Lemma all_groups_nodup : NoDup all_groups.
  Proof. constructor; [intros H; apply in_map_iff in H; destruct H as (? & ? & _); discriminate|]. apply NoDup_map_inj; [intros x y E; injection E; auto|apply group_names]. Qed.
  Lemma all_groups_freq g : In g all_groups -> g <> Root /\ g <> Params /\ g <> Stats.
  Proof. intros [<-|H]; [repeat split; discriminate|]. apply in_map_iff in H. destruct H as (? & <- & _). repeat split; discriminate. Qed.
  Lemma upd_val l it (v : V) i : upd V l it v i = if i =? it then v else l i. Proof. reflexivity. Qed.

  Lemma create_good s n : 0 < n -> exists f, run (write_ops V frequencies k2 dbg k3 kind REG MAXCLASS GRID mu bias s 0 n false false false) (empty_file V) = (f, None) /\
    good f n (conf V s) false 0 (put_cont (fun _ => None) 0 s) /\ grp f Stats = false /\ (forall x, dsets f Stats x = None) /\
    (forall e, In e entries -> ds f (fst e) = Some (n, upd V (fun _ => fill) 0 (value s (snd e)))).
  Proof.
    intros Hn. unfold write_ops. rewrite run_app.
    destruct (run_layers root_entries s 0 n false (empty_file V)) as (f1 & R1 & G1 & A1 & D1 & O1); [lia|apply root_nodup|intros; eexists; reflexivity|].
    rewrite R1. rewrite run_app. unfold param_ops. cbn [run step]. rewrite G1. cbn [empty_file Hdf_Model.grp gid_beq].
    fold (attr_ops (conf_attrs (conf V s) ++ [("is_converged", ABool false)])). change (map (fun e : string * attr => OAttr V Params (fst e) (snd e) false) _) with (attr_ops (conf_attrs (conf V s) ++ [("is_converged", ABool false)])).
    set (f2 := add_group V f1 Params). destruct (run_attrs (conf_attrs (conf V s) ++ [("is_converged", ABool false)]) f2) as (f3 & R3 & G3 & D3 & A3 & O3).
    { apply nodupb_ok. vm_compute. reflexivity. }
    { intros x _. unfold f2. cbn. rewrite A1. reflexivity. }
    rewrite R3. rewrite run_app. cbn [run step]. rewrite G3. unfold f2 at 1. cbn [add_group Hdf_Model.grp gid_beq orb].
    rewrite O3 by (cbn; intuition discriminate). unfold f2 at 1. cbn [add_group Hdf_Model.attrs]. rewrite A1. cbn [empty_file Hdf_Model.attrs app].
    set (f4 := set_attr V f3 Params "last_Lambda_it" (AInt (Some 0))). rewrite run_app.
    destruct (run_create all_groups f4 all_groups_nodup) as (f5 & R5 & D5 & A5 & G5 & O5).
    { intros g Hg. unfold f4. cbn. rewrite G3. unfold f2. cbn. rewrite G1. cbn. pose proof (all_groups_freq g Hg) as (N1 & N2 & N3). rewrite !gid_beq_neq by assumption. reflexivity. }
    unfold all_groups in R5. rewrite R5.
    assert (Ds5 : forall k, ds f5 k = ds f1 k) by (intros k; unfold ds; rewrite D5; unfold f4; cbn; rewrite D3; reflexivity).
    destruct (run_layers freq_entries s 0 n false f5) as (f6 & R6 & G6 & A6 & D6 & O6); [lia|apply freq_nodup| |].
    { intros k Hk. rewrite Ds5, O1; [eexists; reflexivity|]. intros H. apply root_key in H. apply freq_key_sub in Hk. destruct Hk as (? & Hk). congruence. }
    exists f6. split; [exact R6|].
    assert (DD : forall e, In e entries -> ds f6 (fst e) = Some (n, upd V (fun _ => fill) 0 (value s (snd e)))).
    { intros e He. apply in_app_iff in He. destruct He as [He|He].
      - rewrite O6, Ds5.
        + destruct (D1 e He) as (l & B & E). injection B as <-. exact E.
        + intros H. apply freq_key_sub in H. destruct H as (? & H). apply (in_map fst) in He. apply root_key in He. congruence.
      - destruct (D6 e He) as (l & B & E). rewrite Ds5, O1 in B; [injection B as <-; exact E|]. intros H. apply root_key in H. apply (in_map fst) in He. apply freq_key_sub in He. destruct He as (? & He). congruence. }
    assert (GS : forall g, g <> Params -> ~ In g all_groups -> grp f6 g = gid_beq g Root).
    { intros g N1 N2. rewrite G6, O5 by exact N2. unfold f4. cbn. rewrite G3. unfold f2. cbn. rewrite G1, gid_beq_neq by exact N1. reflexivity. }
    split; [|split; [|split]].
    - constructor.
      + intros g [<-|Hg]; [|rewrite G6; apply G5; exact Hg]. rewrite G6, O5.
        * unfold f4. cbn. rewrite G3. reflexivity.
        * intros H. apply all_groups_freq in H. tauto.
      + intros x a H. rewrite A6, A5. unfold f4. cbn [set_attr Hdf_Model.attrs gid_beq andb].
        destruct (String.eqb_spec x "last_Lambda_it") as [->|]; [exfalso; cbn in H; intuition discriminate|]. apply A3. apply in_app_iff. left. exact H.
      + rewrite A6, A5. unfold f4. cbn [set_attr Hdf_Model.attrs gid_beq andb String.eqb Ascii.eqb Bool.eqb]. apply A3. apply in_app_iff. right. left. reflexivity.
      + rewrite A6, A5. reflexivity.
      + intros e He. eexists. split; [apply DD; exact He|]. intros it t H. unfold put_cont in H. rewrite upd_val. destruct (it =? 0); [|discriminate]. injection H as <-. reflexivity.
      + intros it t H. unfold put_cont in H. destruct (Z.eqb_spec it 0); [lia|discriminate].
    - apply (GS Stats); [discriminate|]. intros H. apply all_groups_freq in H. tauto.
    - intros x. change (ds f6 (Stats, x) = None). rewrite O6, Ds5, O1; [reflexivity| |].
      + intros H. apply root_key in H. discriminate.
      + intros H. apply freq_key_sub in H. destruct H as (? & H). discriminate.
    - exact DD.
  Qed.

  Lemma append_good f n c conv last cont s it b : good f n c conv last cont -> 0 <= it < n ->
    exists f', run (write_ops V frequencies k2 dbg k3 kind REG MAXCLASS GRID mu bias s it n true true b) f = (f', None) /\
      good f' n c (conv || b) it (put_cont cont it s) /\ grp f' Stats = grp f Stats /\ (forall x, dsets f' Stats x = dsets f Stats x) /\
      (forall e l, In e entries -> ds f (fst e) = Some (n, l) -> ds f' (fst e) = Some (n, upd V l it (value s (snd e)))).
  Proof.
    intros Gd Hit. unfold write_ops. rewrite run_app.
    assert (HB : forall es, (forall e, In e es -> In e entries) -> forall k, In k (map fst es) -> exists l, base true n (ds f k) = Some l).
    { intros es Hes k Hk. apply in_map_iff in Hk. destruct Hk as (e & <- & He). destruct (g_data _ _ _ _ _ _ Gd e (Hes e He)) as (l & El & _). rewrite El. cbn. rewrite Z.eqb_refl. eauto. }
    destruct (run_layers root_entries s it n true f) as (f1 & R1 & G1 & A1 & D1 & O1); [lia|apply root_nodup|apply HB; intros; apply in_app_iff; auto|].
    rewrite R1. cbn [app]. cbn [Hdf_Model.run step]. rewrite G1, (g_groups _ _ _ _ _ _ Gd Params) by (left; reflexivity). rewrite A1, (g_last _ _ _ _ _ _ Gd). set (f2 := set_attr V f1 Params "last_Lambda_it" (AInt (Some it))). rewrite run_app.
    assert (X : exists f3, run (if b then [OAttr V Params "is_converged" (ABool b) true] else []) f2 = (f3, None) /\ grp f3 = grp f /\ dsets f3 = dsets f1 /\
      attrs f3 Params "is_converged" = Some (ABool (conv || b)) /\ attrs f3 Params "last_Lambda_it" = Some (AInt (Some it)) /\ (forall x, x <> "is_converged" -> x <> "last_Lambda_it" -> attrs f3 Params x = attrs f Params x)).
    { assert (C2 : attrs f2 Params "is_converged" = Some (ABool conv)) by (unfold f2; cbn [set_attr Hdf_Model.attrs gid_beq andb String.eqb Ascii.eqb Bool.eqb]; rewrite A1; apply (g_conv _ _ _ _ _ _ Gd)).
      destruct b.
      - exists (set_attr V f2 Params "is_converged" (ABool true)). split; [cbn [run step]; rewrite C2; reflexivity|]. split; [cbn; exact G1|]. split; [reflexivity|].
        split; [rewrite orb_true_r; reflexivity|]. split; [reflexivity|]. intros x N1 N2. unfold f2. cbn [set_attr Hdf_Model.attrs gid_beq andb]. apply String.eqb_neq in N1, N2. rewrite N1, N2, A1. reflexivity.
      - exists f2. split; [reflexivity|]. split; [cbn; exact G1|]. split; [reflexivity|]. split; [rewrite orb_false_r; exact C2|]. split; [reflexivity|].
        intros x N1 N2. unfold f2. cbn [set_attr Hdf_Model.attrs gid_beq andb]. apply String.eqb_neq in N2. rewrite N2, A1. reflexivity. }
    destruct X as (f3 & R3 & G3 & D3 & C3 & L3 & A3). rewrite R3. rewrite run_app. rewrite (run_open (Freq :: map Sub groups)) by (intros g Hg; rewrite G3; apply (g_groups _ _ _ _ _ _ Gd); right; exact Hg).
    assert (Ds3 : forall k, ds f3 k = ds f1 k) by (intros k; unfold ds; rewrite D3; reflexivity).
    assert (RF : forall k, In k (map fst root_entries) -> In k (map fst freq_entries) -> False).
    { intros k H1 H2. apply root_key in H1. apply freq_key_sub in H2. destruct H2. congruence. }
    destruct (run_layers freq_entries s it n true f3) as (f6 & R6 & G6 & A6 & D6 & O6); [lia|apply freq_nodup| |].
    { intros k Hk. rewrite Ds3, O1 by (intros H; apply (RF k); assumption). revert k Hk. apply HB. intros; apply in_app_iff; auto. }
    exists f6. split; [exact R6|].
    assert (DD : forall e l, In e entries -> ds f (fst e) = Some (n, l) -> ds f6 (fst e) = Some (n, upd V l it (value s (snd e)))).
    { intros e l He Hl. apply in_app_iff in He. destruct He as [He|He].
      - rewrite O6, Ds3; [|intros H; apply (RF (fst e)); [apply in_map; exact He|exact H]]. destruct (D1 e He) as (l' & B & E). rewrite Hl in B. cbn in B. rewrite Z.eqb_refl in B. injection B as <-. exact E.
      - destruct (D6 e He) as (l' & B & E). rewrite Ds3, O1, Hl in B; [cbn in B; rewrite Z.eqb_refl in B; injection B as <-; exact E|]. intros H. apply (RF (fst e)); [exact H|apply in_map; exact He]. }
    split; [|split; [|split]].
    - constructor.
      + intros g Hg. rewrite G6, G3. apply (g_groups _ _ _ _ _ _ Gd). exact Hg.
      + intros x a H. rewrite A6, A3; [apply (g_conf _ _ _ _ _ _ Gd); exact H| |]; intros ->; cbn in H; intuition discriminate.
      + rewrite A6. exact C3.
      + rewrite A6. exact L3.
      + intros e He. destruct (g_data _ _ _ _ _ _ Gd e He) as (l & El & Hl). eexists. split; [apply DD; eassumption|]. intros i t H. unfold put_cont in H. rewrite upd_val.
        destruct (i =? it); [injection H as <-; reflexivity|apply Hl; exact H].
      + intros i t H. unfold put_cont in H. destruct (Z.eqb_spec i it); [lia|]. apply (g_range _ _ _ _ _ _ Gd i t H).
    - rewrite G6, G3. reflexivity.
    - intros x. change (ds f6 (Stats, x) = ds f (Stats, x)). rewrite O6, Ds3, O1; [reflexivity| |].
      + intros H. apply root_key in H. discriminate.
      + intros H. apply freq_key_sub in H. destruct H as (? & H). discriminate.
    - exact DD.
  Qed.
End P.
