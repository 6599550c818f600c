From Coq Require Import QArith String.
From Verif Require Import Prelude Hdf_Model Hdf_Spec Hdf_Proofs.
Open Scope string_scope.
Open Scope list_scope.
Open Scope Z_scope.

Section P.
  Variable V : Type.
  Variable fill : V.
  Variable frequencies : (gfield -> V) -> V.
  Variable npoints : V -> V -> V -> V.
  Variables (k2 dbg k3 : bool) (kind : gslot -> gkind) (REG MAXCLASS GRID : Z) (mu bias : Q).
  Notation state := (state V).
  Notation file := (file V).
  Notation disk := (disk V).
  Notation run := (run V fill).
  Notation value := (value V frequencies).
  Notation root_entries := (root_entries k2 dbg k3).
  Notation freq_entries := (freq_entries k2 dbg k3 kind).
  Notation entries := (root_entries ++ freq_entries).
  Notation dsets := (dsets V).
  Notation grp := (grp V).
  Notation attrs := (attrs V).
  Notation good := (good V frequencies k2 dbg k3 kind REG MAXCLASS GRID mu bias).
  Notation write_ops := (write_ops V frequencies k2 dbg k3 kind REG MAXCLASS GRID mu bias).
  Notation write_state := (write_state V fill frequencies k2 dbg k3 kind REG MAXCLASS GRID mu bias).
  Notation add_state := (add_state V fill frequencies k2 dbg k3 kind REG MAXCLASS GRID mu bias).
  Notation read_file := (read_file V fill npoints k2 dbg k3 kind).
  Notation same := (same V k2 dbg k3 kind).
  Notation constructed := (constructed V npoints k2 dbg k3).
  Notation conf_attrs := (conf_attrs REG MAXCLASS GRID mu bias).
  Notation ds := (ds V).

  (** *** reading *)
  Lemma read_names x m : In (x, m) (read_table k2 dbg k3) -> In (Root, x, PM m) root_entries.
  Proof. intros H. unfold Hdf_Model.root_entries. apply in_map_iff. exists (x, PM m). split; [reflexivity|]. revert H. destruct k2, dbg, k3; cbn; intuition congruence. Qed.
  Lemma read_covers m : stored k2 dbg k3 m -> m <> MLambda -> In m (map snd (read_table k2 dbg k3)).
  Proof. destruct m as [| | | |c|c|c|c]; try destruct c; destruct k2, dbg, k3; cbn; intuition congruence. Qed.
  Lemma grids_agree : read_grids k2 dbg k3 = grid_table k2 dbg k3. Proof. reflexivity. Qed.
  Lemma grids_cover g : stored_grid k2 dbg k3 g -> In g (map snd (read_grids k2 dbg k3)).
  Proof. destruct g as [|c|c|c|c|c|c|c|c]; try destruct c; destruct k2, dbg, k3; cbn; intuition congruence. Qed.
  Lemma grids_stored g : In g (map snd (read_grids k2 dbg k3)) -> stored_grid k2 dbg k3 g.
  Proof. destruct k2, dbg, k3; cbn; intros H; repeat (destruct H as [<-|H]; [cbn; auto|]); contradiction. Qed.
  Lemma groups_cover x g : In (x, g) (grid_table k2 dbg k3) -> In x groups.
  Proof. intros H. apply (in_map fst) in H. cbn [fst] in H. revert H. destruct k2, dbg, k3; cbn; tauto. Qed.
  Lemma fields_agree k x f : In (x, f) (read_fields k) -> In (x, f) (field_table k).
  Proof. destruct k; cbn; tauto. Qed.
  Lemma fields_cover k f : has_field k f -> f <> FNumber -> In f (map snd (read_fields k)).
  Proof. destruct k, f; cbn [has_field]; intros H N; try discriminate; try congruence; cbn; tauto. Qed.
  Lemma number_named k : In ("number_of_gridpoints", FNumber) (field_table k).
  Proof. destruct k; cbn; tauto. Qed.
  Lemma base_fields k : In FType (map snd (read_fields k)) /\ In FClass (map snd (read_fields k)) /\ In FPositive (map snd (read_fields k)).
  Proof. destruct k; cbn; tauto. Qed.
  Lemma number_not_read k : ~ In FNumber (map snd (read_fields k)).
  Proof. destruct k; cbn; intuition discriminate. Qed.

  Lemma read_members_ok f it s l : forall t, (forall x m, In (x, m) l -> rd V f Root x it = Val (mem V s m)) ->
    exists t', read_members V f it l t = Val t' /\ conf V t' = conf V t /\ grid V t' = grid V t /\ (forall m, In m (map snd l) \/ mem V t m = mem V s m -> mem V t' m = mem V s m).
  Proof.
    induction l as [|[x m] l IH]; intros t H.
    - exists t. cbn. split; [reflexivity|]. split; [reflexivity|]. split; [reflexivity|]. intros m [[]|E]; exact E.
    - cbn [read_members]. rewrite (H x m (or_introl eq_refl)). cbn [rbind]. destruct (IH (set_mem V t m (mem V s m))) as (t' & R & C & G & M); [intros; apply H; right; assumption|].
      exists t'. split; [exact R|]. split; [exact C|]. split; [exact G|]. intros m' Hm. apply M. cbn [set_mem mem map snd] in *.
      destruct (member_beq m' m) eqn:E; [right; apply internal_member_dec_bl in E; subst; reflexivity|]. destruct Hm as [[Hm|Hm]|Hm]; auto.
      subst. rewrite (internal_member_dec_lb m' m' eq_refl) in E. discriminate.
  Qed.
  Lemma read_grid_fields_ok f sub it h l : forall g, (forall x y, In (x, y) l -> rd V f (Sub sub) x it = Val (h y)) ->
    exists g', read_grid_fields V f sub it l g = Val g' /\ (forall y, In y (map snd l) \/ g y = h y -> g' y = h y).
  Proof.
    induction l as [|[x y] l IH]; intros g H.
    - exists g. cbn. split; [reflexivity|]. intros y [[]|E]; exact E.
    - cbn [read_grid_fields]. rewrite (H x y (or_introl eq_refl)). cbn [rbind]. destruct (IH (fun z => if gfield_beq z y then h y else g z)) as (g' & R & M); [intros; apply H; right; assumption|].
      exists g'. split; [exact R|]. intros z Hz. apply M. cbn [map snd] in Hz. destruct (gfield_beq z y) eqn:E; [right; apply internal_gfield_dec_bl in E; subst; reflexivity|].
      destruct Hz as [[Hz|Hz]|Hz]; auto. subst. rewrite (internal_gfield_dec_lb z z eq_refl) in E. discriminate.
  Qed.
  Lemma read_grid_ok f sub it s g : constructed s -> stored_grid k2 dbg k3 g -> (forall x y, In (x, y) (field_table (kind g)) -> rd V f (Sub sub) x it = Val (grid V s g y)) ->
    exists v, read_grid V fill npoints f sub it (kind g) = Val v /\ forall y, has_field (kind g) y -> v y = grid V s g y.
  Proof.
    intros Cs Hg H. unfold read_grid. rewrite (H _ _ (number_named (kind g))). cbn [rbind].
    destruct (read_grid_fields_ok f sub it (grid V s g) (read_fields (kind g)) (fun _ => fill)) as (v & R & M); [intros; apply H, fields_agree; assumption|].
    rewrite R. cbn [rbind]. eexists. split; [reflexivity|]. intros y Hy. cbv beta. destruct (base_fields (kind g)) as (B1 & B2 & B3).
    destruct (gfield_beq y FNumber) eqn:E.
    - apply internal_gfield_dec_bl in E. subst. rewrite (Cs g Hg), !M by (left; assumption). reflexivity.
    - apply M. left. apply fields_cover; [exact Hy|]. intros ->. discriminate.
  Qed.
  Lemma read_all_grids_ok f it s l : constructed s -> (forall g, In g (map snd l) -> stored_grid k2 dbg k3 g) -> forall t, (forall sub g x y, In (sub, g) l -> In (x, y) (field_table (kind g)) -> rd V f (Sub sub) x it = Val (grid V s g y)) ->
    exists t', read_all_grids V fill npoints kind f it l t = Val t' /\ conf V t' = conf V t /\ mem V t' = mem V t /\
      (forall g, In g (map snd l) \/ (forall y, has_field (kind g) y -> grid V t g y = grid V s g y) -> forall y, has_field (kind g) y -> grid V t' g y = grid V s g y).
  Proof.
    intros Cs. induction l as [|[sub g] l IH]; intros St t H.
    - exists t. cbn. split; [reflexivity|]. split; [reflexivity|]. split; [reflexivity|]. intros g [[]|E]; exact E.
    - cbn [read_all_grids]. destruct (read_grid_ok f sub it s g Cs (St g (or_introl eq_refl))) as (v & R & M); [intros; eapply H; [left; reflexivity|assumption]|]. rewrite R. cbn [rbind].
      destruct (IH (fun g' Hg' => St g' (or_intror Hg')) (set_grid V t g v)) as (t' & R' & C & Me & G); [intros; eapply H; [right; eassumption|assumption]|].
      exists t'. split; [exact R'|]. split; [exact C|]. split; [exact Me|]. intros g' Hg. apply G. cbn [set_grid grid map snd] in *. destruct (gslot_beq g' g) eqn:E.
      + apply internal_gslot_dec_bl in E. subst. right. exact M.
      + destruct Hg as [[Hg|Hg]|Hg]; auto. subst. rewrite (internal_gslot_dec_lb g' g' eq_refl) in E. discriminate.
  Qed.

  (** the configuration that is read from a file *)
  Definition loaded (c : config) : config :=
    {| nODE := None; eps_abs := eps_abs fresh_config; eps_rel := eps_rel fresh_config; cU := cU c; cT := cT c; cGamma := cGamma c; ceps := ceps c;
       save := save fresh_config; nloops := nloops c; nodes := nodes fresh_config |}.
  Lemma read_config_ok f c : grp f Params = true -> (forall x a, In (x, a) (conf_attrs c) -> attrs f Params x = Some a) -> read_config V f = Val (loaded c).
  Proof.
    intros G H. unfold read_config, open_group, rd_attr. rewrite G. cbn [rbind].
    repeat match goal with |- context [attrs f Params ?x] => erewrite (H x) by (cbn; tauto); cbn [rbind] end. reflexivity.
  Qed.
  Lemma good_rd f n c conv last cont it s : good f n c conv last cont -> cont it = Some s -> forall g x p, In (g, x, p) entries -> rd V f g x it = Val (value s p).
  Proof.
    intros Gd Hc g x p He. pose proof (g_range _ _ _ _ _ _ _ _ _ _ _ _ _ _ _ _ _ Gd it s Hc) as R. destruct (g_data _ _ _ _ _ _ _ _ _ _ _ _ _ _ _ _ _ Gd _ He) as (l & El & Hl).
    unfold rd. unfold Hdf_Proofs.ds in El. cbn [fst snd] in El. rewrite El. replace ((it <? 0) || (n <=? it)) with false by (symmetry; apply orb_false_iff; split; [apply Z.ltb_ge|apply Z.leb_gt]; lia).
    rewrite (Hl it s Hc). reflexivity.
  Qed.
  Lemma root_in x m : In (x, PM m) (root_table k2 dbg k3) -> In (Root, x, PM m) entries.
  Proof. intros H. apply in_app_iff. left. apply in_map_iff. exists (x, PM m). auto. Qed.
  Lemma freq_in sub g x y : In (sub, g) (grid_table k2 dbg k3) -> In (x, y) (field_table (kind g)) -> In (Sub sub, x, PG g y) entries.
  Proof. intros H1 H2. apply in_app_iff. right. apply in_flat_map. exists (sub, g). split; [exact H1|]. apply in_map_iff. exists (x, y). auto. Qed.
  Lemma lambdas_in : In (Root, "lambdas", PM MLambda) entries. Proof. apply root_in. unfold root_table. apply in_app_iff. left. left. reflexivity. Qed.

  Lemma read_good f n c conv last cont it s junk : good f n c conv last cont -> cont it = Some s -> constructed s ->
    exists t, read_file junk f it = Val t /\ same s t /\ conf V t = loaded c.
  Proof.
    intros Gd Hc Cs. pose proof (good_rd _ _ _ _ _ _ _ _ Gd Hc) as RD. unfold Hdf_Model.read_file. rewrite (RD _ _ _ lambdas_in). cbn [rbind].
    rewrite (read_config_ok f c); [|apply (g_groups _ _ _ _ _ _ _ _ _ _ _ _ _ _ _ _ _ Gd); left; reflexivity|apply (g_conf _ _ _ _ _ _ _ _ _ _ _ _ _ _ _ _ _ Gd)]. cbn [rbind].
    match goal with |- context [read_members V f it _ ?t] => destruct (read_members_ok f it s (read_table k2 dbg k3) t) as (t1 & R1 & C1 & G1 & M1) end.
    { intros x m H. rewrite (RD Root x (PM m)); [reflexivity|]. apply in_app_iff. left. apply read_names. exact H. }
    rewrite R1. cbn [rbind]. rewrite (open_all_ok V (Freq :: map Sub groups)) by (intros g Hg; apply (g_groups _ _ _ _ _ _ _ _ _ _ _ _ _ _ _ _ _ Gd); right; exact Hg). cbn [rbind].
    destruct (read_all_grids_ok f it s (read_grids k2 dbg k3) Cs grids_stored t1) as (t2 & R2 & C2 & M2 & G2).
    { intros sub g x y Hg Hx. rewrite (RD (Sub sub) x (PG g y)); [reflexivity|]. apply freq_in; assumption. }
    rewrite R2. cbn [rbind]. unfold rd_attr. rewrite (g_conf _ _ _ _ _ _ _ _ _ _ _ _ _ _ _ _ _ Gd "GRID" (AInt (Some GRID))) by (cbn; tauto). cbn [rbind].
    exists t2. split; [reflexivity|]. split; [split|].
    - intros m Hm. symmetry. rewrite M2. apply M1. cbn [mem]. destruct (member_beq m MLambda) eqn:E; [apply internal_member_dec_bl in E; subst; right; reflexivity|].
      left. apply read_covers; [exact Hm|]. intros ->. discriminate.
    - intros g Hg y Hy. symmetry. apply G2; [|exact Hy]. left. apply grids_cover. exact Hg.
    - rewrite C2, C1. reflexivity.
  Qed.
  Lemma check_good f n c conv last cont : good f n c conv last cont -> check_file V f = Val (conv, last).
  Proof.
    intros Gd. unfold check_file, open_group, rd_attr. rewrite (g_groups _ _ _ _ _ _ _ _ _ _ _ _ _ _ _ _ _ Gd Params) by (left; reflexivity). cbn [rbind].
    rewrite (g_conv _ _ _ _ _ _ _ _ _ _ _ _ _ _ _ _ _ Gd). cbn [rbind]. rewrite (g_last _ _ _ _ _ _ _ _ _ _ _ _ _ _ _ _ _ Gd). reflexivity.
  Qed.
  Lemma check_disk d name f n c conv last cont : d name = Some f -> good f n c conv last cont -> check_convergence V d name = Val (conv, last).
  Proof. intros E Gd. unfold check_convergence. rewrite E, (check_good _ _ _ _ _ _ Gd). reflexivity. Qed.
  Lemma good_ext f n c conv last cont cont' : good f n c conv last cont -> (forall i, cont' i = cont i) -> good f n c conv last cont'.
  Proof.
    intros Gd E. destruct Gd as [A B C D F G]. constructor; try assumption.
    - intros e He. destruct (F e He) as (l & El & Hl). exists l. split; [exact El|]. intros i s H. apply Hl. rewrite <- E. exact H.
    - intros i s H. apply (G i s). rewrite <- E. exact H.
  Qed.

  (** *** saving *)
  Definition frame (d d' : disk) (name : string) : Prop := forall x, x <> name -> d' x = d x.
  Lemma put_same (d : disk) name f : put V d name f name = Some f. Proof. unfold put. rewrite String.eqb_refl. reflexivity. Qed.
  Lemma put_frame (d : disk) name f : frame d (put V d name f) name. Proof. intros x N. unfold put. apply String.eqb_neq in N. rewrite N. reflexivity. Qed.
  Lemma frame_trans d1 d2 d3 name : frame d1 d2 name -> frame d2 d3 name -> frame d1 d3 name. Proof. intros A B x N. rewrite B, A by exact N. reflexivity. Qed.
  Lemma write_good d name n s : 0 < n -> exists f, write_state d name n s false = (put V d name f, None) /\ good f n (conf V s) false 0 (put_cont V (fun _ => None) 0 s) /\
    grp f Stats = false /\ (forall x, dsets f Stats x = None) /\ (forall e, In e entries -> ds f (fst e) = Some (n, upd V (fun _ => fill) 0 (value s (snd e)))).
  Proof.
    intros Hn. destruct (create_good V fill frequencies npoints k2 dbg k3 kind REG MAXCLASS GRID mu bias s n Hn) as (f & R & H). exists f. split; [|exact H].
    unfold Hdf_Model.write_state, write_layer. rewrite R. reflexivity.
  Qed.
  Lemma add_good d name f n c conv last cont s it b : d name = Some f -> good f n c conv last cont -> 0 <= it < n ->
    exists f', add_state d name it s b = (put V d name f', None) /\ good f' n c (conv || b) it (put_cont V cont it s) /\ grp f' Stats = grp f Stats /\ (forall x, dsets f' Stats x = dsets f Stats x) /\
      (forall e l, In e entries -> ds f (fst e) = Some (n, l) -> ds f' (fst e) = Some (n, upd V l it (value s (snd e)))).
  Proof.
    intros E Gd Hit. destruct (append_good V fill frequencies npoints k2 dbg k3 kind REG MAXCLASS GRID mu bias f n c conv last cont s it b Gd Hit) as (f' & R & H). exists f'. split; [|exact H].
    unfold Hdf_Model.add_state. rewrite E. destruct (g_data _ _ _ _ _ _ _ _ _ _ _ _ _ _ _ _ _ Gd _ lambdas_in) as (l & El & _). unfold Hdf_Proofs.ds in El. cbn [fst snd] in El. rewrite El.
    replace ((0 <=? it) && (it <? n)) with true by (symmetry; apply andb_true_iff; split; [apply Z.leb_le|apply Z.ltb_lt]; lia).
    unfold write_layer. rewrite E, R. reflexivity.
  Qed.
  Lemma add_outside d name f n c conv last cont s it b : d name = Some f -> good f n c conv last cont -> it < 0 \/ n <= it -> add_state d name it s b = (d, None).
  Proof.
    intros E Gd Hit. unfold Hdf_Model.add_state. rewrite E. destruct (g_data _ _ _ _ _ _ _ _ _ _ _ _ _ _ _ _ _ Gd _ lambdas_in) as (l & El & _). unfold Hdf_Proofs.ds in El. cbn [fst snd] in El. rewrite El.
    replace ((0 <=? it) && (it <? n)) with false; [reflexivity|]. symmetry. apply andb_false_iff. destruct Hit; [left; apply Z.leb_gt|right; apply Z.ltb_ge]; lia.
  Qed.

  Lemma latest_snoc (h : list (event V)) e it : latest V (h ++ [e]) it = if fst (fst e) =? it then Some (snd (fst e)) else latest V h it.
  Proof. unfold latest. rewrite filter_app. cbn [filter]. unfold at_layer at 2. destruct (fst (fst e) =? it); [rewrite rev_app_distr; reflexivity|rewrite app_nil_r; reflexivity]. Qed.
  Lemma any_snoc (h : list (event V)) e : any_converged V (h ++ [e]) = any_converged V h || snd e.
  Proof. unfold any_converged. rewrite existsb_app. cbn. rewrite orb_false_r. reflexivity. Qed.
  Lemma last_snoc (h : list (event V)) e : last_layer V (h ++ [e]) = fst (fst e).
  Proof. unfold last_layer. rewrite rev_app_distr. reflexivity. Qed.
  Lemma save_all_good h : forall d name f n c h0, d name = Some f -> good f n c (any_converged V h0) (last_layer V h0) (latest V h0) -> (forall it s b, In (it, s, b) h -> 0 <= it < n) ->
    exists d' f', save_all V fill frequencies k2 dbg k3 kind REG MAXCLASS GRID mu bias d name h = (d', None) /\ frame d d' name /\ d' name = Some f' /\
      good f' n c (any_converged V (h0 ++ h)) (last_layer V (h0 ++ h)) (latest V (h0 ++ h)).
  Proof.
    induction h as [|[[it s] b] h IH]; intros d name f n c h0 E Gd Hr.
    - exists d, f. cbn [save_all]. rewrite app_nil_r. split; [reflexivity|]. split; [intros x _; reflexivity|]. auto.
    - cbn [save_all]. destruct (add_good d name f n c _ _ _ s it b E Gd (Hr it s b (or_introl eq_refl))) as (f1 & R & G1 & _). rewrite R.
      destruct (IH (put V d name f1) name f1 n c (h0 ++ [(it, s, b)])) as (d' & f' & R' & Fr & E' & G').
      + apply put_same.
      + rewrite any_snoc, last_snoc. cbn [fst snd]. eapply good_ext; [exact G1|]. intros i. rewrite latest_snoc. cbn [fst snd]. unfold put_cont. rewrite (Z.eqb_sym it i). reflexivity.
      + intros i t b' H. apply (Hr i t b'). right. exact H.
      + exists d', f'. split; [exact R'|]. split; [eapply frame_trans; [apply put_frame|exact Fr]|]. split; [exact E'|]. rewrite <- app_assoc in G'. exact G'.
  Qed.
  Lemma good_holds d name f n c conv last cont it s : d name = Some f -> good f n c conv last cont -> cont it = Some s -> constructed s -> holds V fill npoints k2 dbg k3 kind d name it s.
  Proof. intros E Gd Hc Cs junk. destruct (read_good f n c conv last cont it s junk Gd Hc Cs) as (t & R & Sm & _). exists t. split; [|exact Sm]. unfold read_state. rewrite E. exact R. Qed.
End P.
