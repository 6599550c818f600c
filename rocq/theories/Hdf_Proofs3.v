From Coq Require Import QArith String.
From Verif Require Import Prelude Hdf_Model Hdf_Spec Hdf_Proofs Hdf_Proofs2.
Open Scope string_scope.
Open Scope list_scope.
Open Scope Z_scope.

Section P.
  Variable V : Type.
  Variable fill : V.
  Variable frequencies : (gfield -> V) -> V.
  Variable npoints : V -> V -> V -> V.
  Variables (k2 dbg k3 : bool) (kind : gslot -> gkind) (REG MAXCLASS GRID : Z) (mu bias : Q).
  Notation state := (state V).
  Notation file := (file V).
  Notation disk := (disk V).
  Notation run := (run V fill).
  Notation value := (value V frequencies).
  Notation root_entries := (root_entries k2 dbg k3).
  Notation freq_entries := (freq_entries k2 dbg k3 kind).
  Notation entries := (root_entries ++ freq_entries).
  Notation layer_ops := (layer_ops V frequencies).
  Notation dsets := (dsets V).
  Notation grp := (grp V).
  Notation attrs := (attrs V).
  Notation good := (good V frequencies k2 dbg k3 kind REG MAXCLASS GRID mu bias).
  Notation write_ops := (write_ops V frequencies k2 dbg k3 kind REG MAXCLASS GRID mu bias).
  Notation write_state := (write_state V fill frequencies k2 dbg k3 kind REG MAXCLASS GRID mu bias).
  Notation write_layer := (write_layer V fill frequencies k2 dbg k3 kind REG MAXCLASS GRID mu bias).
  Notation add_state := (add_state V fill frequencies k2 dbg k3 kind REG MAXCLASS GRID mu bias).
  Notation read_file := (read_file V fill npoints k2 dbg k3 kind).
  Notation same := (same V k2 dbg k3 kind).
  Notation constructed := (constructed V npoints k2 dbg k3).
  Notation conf_attrs := (conf_attrs REG MAXCLASS GRID mu bias).
  Notation ds := (ds V).
  Notation flow_saves := (flow_saves V fill frequencies k2 dbg k3 kind REG MAXCLASS GRID mu bias).
  Notation n_loop_flow := (n_loop_flow V fill frequencies npoints k2 dbg k3 kind REG MAXCLASS GRID mu bias).
  Notation sessions := (sessions V fill frequencies npoints k2 dbg k3 kind REG MAXCLASS GRID mu bias).

  (** *** statistics *)
  Definition stats_ready (f : file) (i n : Z) : Prop :=
    if i =? 0 then grp f Stats = false /\ forall x, dsets f Stats x = None
    else grp f Stats = true /\ forall x, In x ["SE_iterations"; "time_for_mfRG_Eqs"; "RK_attempts"] -> exists l, dsets f Stats x = Some (n, l).
  Definition off_stats (f f' : file) : Prop :=
    attrs f' = attrs f /\ (forall g, g <> Stats -> grp f' g = grp f g) /\ (forall g x, g <> Stats -> dsets f' g x = dsets f g x).
  Lemma stats_ok f i n v : 0 <= i -> i + 1 < n -> stats_ready f i n ->
    exists f', run (stats_ops V v (i + 1) n) f = (f', None) /\ stats_ready f' (i + 1) n /\ off_stats f f'.
  Proof.
    intros Hi Hn Sr. destruct v as [[a b] z]. unfold stats_ready in *. replace (i + 1 =? 0) with false by (symmetry; apply Z.eqb_neq; lia).
    assert (R : (i + 1 <? 0) || (n <=? i + 1) = false) by (apply orb_false_iff; split; [apply Z.ltb_ge|apply Z.leb_gt]; lia).
    assert (R' : n <=? i + 1 = false) by (apply Z.leb_gt; lia).
    destruct (Z.eqb_spec i 0) as [->|N].
    - destruct Sr as (G & D). cbn [stats_ops]. change (1 <? 0 + 1) with false. cbn [Hdf_Model.run step]. rewrite G, R.
      repeat (cbn [add_group Hdf_Model.dsets set_layer gid_beq andb String.eqb Ascii.eqb Bool.eqb]; rewrite D).
      eexists. split; [reflexivity|]. split; [split; [reflexivity|]|].
      + intros x [<-|[<-|[<-|[]]]]; cbn; eexists; reflexivity.
      + split; [reflexivity|]. split; [intros g Ng; cbn; rewrite gid_beq_neq by exact Ng; reflexivity|]. intros g x Ng. cbn. rewrite !gid_beq_neq by exact Ng. reflexivity.
    - destruct Sr as (G & D). destruct (D "SE_iterations") as (l1 & E1); [cbn; tauto|]. destruct (D "time_for_mfRG_Eqs") as (l2 & E2); [cbn; tauto|]. destruct (D "RK_attempts") as (l3 & E3); [cbn; tauto|].
      cbn [stats_ops]. replace (1 <? i + 1) with true by (symmetry; apply Z.ltb_lt; lia). cbn [Hdf_Model.run step]. rewrite G, R, E1, R'.
      cbn [Hdf_Model.dsets set_layer gid_beq andb String.eqb Ascii.eqb Bool.eqb]. rewrite E2, R'. cbn [Hdf_Model.dsets set_layer gid_beq andb String.eqb Ascii.eqb Bool.eqb]. rewrite E3, R'.
      eexists. split; [reflexivity|]. split; [split; [exact G|]|].
      + intros x [<-|[<-|[<-|[]]]]; cbn; eexists; reflexivity.
      + split; [reflexivity|]. split; [intros g Ng; reflexivity|]. intros g x Ng. cbn. rewrite !gid_beq_neq by exact Ng. reflexivity.
  Qed.
  Lemma entry_not_stats e : In e entries -> fst (fst e) <> Stats.
  Proof.
    intros H. apply in_app_iff in H. destruct H as [H|H].
    - apply (in_map fst) in H. apply root_key in H. congruence.
    - apply freq_key in H. destruct H as (? & ? & ? & ? & -> & _). discriminate.
  Qed.
  Lemma off_stats_good f f' n c conv last cont : off_stats f f' -> good f n c conv last cont -> good f' n c conv last cont.
  Proof.
    intros (A & G & D) [H1 H2 H3 H4 H5 H6]. constructor; try (rewrite A; assumption); try assumption.
    - intros g Hg. rewrite G; [apply H1; exact Hg|]. destruct Hg as [<-|Hg]; [discriminate|]. apply all_groups_freq in Hg. tauto.
    - intros e He. unfold Hdf_Proofs.ds. rewrite D by (apply entry_not_stats; exact He). apply H5. exact He.
  Qed.

  (** *** the flow *)
  Notation step3 := (state * bool * (V * V * V))%type.
  Definition step_state (x : step3) : state := fst (fst x).
  Definition step_conv (x : step3) : bool := snd (fst x).
  Definition layers (ls : list state) : Z -> option state := fun i => if i <? 0 then None else nth_error ls (Z.to_nat i).
  Lemma layers_snoc ls s i : put_cont V (layers ls) (Z.of_nat (length ls)) s i = layers (ls ++ [s]) i.
  Proof.
    unfold put_cont, layers. destruct (Z.eqb_spec i (Z.of_nat (length ls))) as [->|N].
    - replace (Z.of_nat (length ls) <? 0) with false by (symmetry; apply Z.ltb_ge; lia). rewrite Nat2Z.id, nth_error_app2, Nat.sub_diag by lia. reflexivity.
    - destruct (Z.ltb_spec i 0); [reflexivity|]. destruct (Z_lt_le_dec i (Z.of_nat (length ls))).
      + rewrite nth_error_app1 by lia. reflexivity.
      + rewrite (proj2 (nth_error_None ls (Z.to_nat i))) by lia. symmetry. apply nth_error_None. rewrite app_length. cbn. lia.
  Qed.
  Lemma flow_saves_good steps : forall d name f n c conv ls i, d name = Some f -> good f n c conv i (layers ls) -> stats_ready f i n -> 0 <= i -> Z.of_nat (length ls) = i + 1 -> i + Z.of_nat (length steps) < n ->
    exists d' f', flow_saves d name n i steps = (d', None) /\ frame V d d' name /\ d' name = Some f' /\
      good f' n c (conv || existsb step_conv steps) (i + Z.of_nat (length steps)) (layers (ls ++ map step_state steps)) /\ stats_ready f' (i + Z.of_nat (length steps)) n.
  Proof.
    induction steps as [|[[s b] v] steps IH]; intros d name f n c conv ls i E Gd Sr Hi Hl Hn.
    - exists d, f. cbn [Hdf_Model.flow_saves existsb map length]. rewrite app_nil_r, orb_false_r. change (Z.of_nat 0) with 0. rewrite Z.add_0_r. split; [reflexivity|]. split; [intros x _; reflexivity|]. auto.
    - cbn [length] in Hn. rewrite Nat2Z.inj_succ in Hn. cbn [Hdf_Model.flow_saves].
      destruct (add_good V fill frequencies npoints k2 dbg k3 kind REG MAXCLASS GRID mu bias d name f n c conv i (layers ls) s (i + 1) b E Gd ltac:(lia)) as (f1 & R1 & G1 & Gr & Dr & _).
      rewrite R1. unfold write_stats. rewrite put_same.
      assert (Sr1 : stats_ready f1 i n) by (revert Sr; unfold stats_ready; destruct (i =? 0); intros Sr; [split; [rewrite Gr; apply Sr|intros x; rewrite Dr; apply Sr]|split; [rewrite Gr; apply Sr|intros x Hx; rewrite Dr; apply Sr; exact Hx]]).
      destruct (stats_ok f1 i n v Hi ltac:(lia) Sr1) as (f2 & R2 & Sr2 & Off). rewrite R2.
      destruct (IH (put V (put V d name f1) name f2) name f2 n c (conv || b) (ls ++ [s]) (i + 1)) as (d' & f' & R' & Fr & E' & G' & S').
      + apply put_same.
      + eapply off_stats_good; [exact Off|]. eapply good_ext; [exact G1|]. intros j. rewrite <- Hl, layers_snoc. reflexivity.
      + exact Sr2.
      + lia.
      + rewrite app_length. cbn [length]. lia.
      + lia.
      + exists d', f'. split; [exact R'|]. split; [eapply frame_trans; [eapply frame_trans; apply put_frame|exact Fr]|]. split; [exact E'|].
        cbn [length map existsb]. rewrite Nat2Z.inj_succ. rewrite <- app_assoc in G'. cbn [app] in G'. unfold step_conv at 1, step_state at 1. cbn [fst snd]. rewrite orb_assoc.
        replace (i + Z.succ (Z.of_nat (length steps))) with (i + 1 + Z.of_nat (length steps)) by lia. split; [exact G'|exact S'].
  Qed.
  Definition flow_file (d : disk) (name : string) (n : Z) (ls : list state) (conv : bool) : Prop :=
    exists f c, d name = Some f /\ good f n c conv (Z.of_nat (length ls) - 1) (layers ls) /\ stats_ready f (Z.of_nat (length ls) - 1) n /\ ls <> [] /\ Z.of_nat (length ls) <= n /\ Forall constructed ls.
  Lemma flow_file_shows d name n ls conv : flow_file d name n ls conv -> shows V fill npoints k2 dbg k3 kind d name ls conv.
  Proof.
    intros (f & c & E & Gd & _ & _ & _ & Cs). split.
    - intros j s Hj. eapply good_holds; [exact E|exact Gd| |].
      + unfold layers. replace (Z.of_nat j <? 0) with false by (symmetry; apply Z.ltb_ge; lia). rewrite Nat2Z.id. exact Hj.
      + rewrite Forall_forall in Cs. apply Cs. eapply nth_error_In. exact Hj.
    - eapply check_disk; [exact E|exact Gd].
  Qed.
  Lemma steps_file d name f n c conv ls steps : d name = Some f -> good f n c conv (Z.of_nat (length ls) - 1) (layers ls) -> stats_ready f (Z.of_nat (length ls) - 1) n -> ls <> [] ->
    Forall constructed ls -> Z.of_nat (length ls) - 1 + Z.of_nat (length steps) < n -> (forall x, In x steps -> constructed (step_state x)) ->
    exists d', flow_saves d name n (Z.of_nat (length ls) - 1) steps = (d', None) /\ frame V d d' name /\ flow_file d' name n (ls ++ map step_state steps) (conv || existsb step_conv steps).
  Proof.
    intros E Gd Sr Ne Cs Hn Hc. assert (Hp : 0 < Z.of_nat (length ls)) by (destruct ls; [congruence|cbn; lia]).
    destruct (flow_saves_good steps d name f n c conv ls (Z.of_nat (length ls) - 1) E Gd Sr ltac:(lia) ltac:(lia) Hn) as (d' & f' & R & Fr & E' & G' & S').
    exists d'. split; [exact R|]. split; [exact Fr|]. exists f', c. split; [exact E'|]. rewrite app_length, map_length, Nat2Z.inj_add.
    replace (Z.of_nat (length ls) + Z.of_nat (length steps) - 1) with (Z.of_nat (length ls) - 1 + Z.of_nat (length steps)) by lia.
    split; [exact G'|]. split; [exact S'|]. split; [destruct ls; [congruence|discriminate]|]. split; [lia|]. apply Forall_app. split; [exact Cs|]. apply Forall_forall. intros s Hs. apply in_map_iff in Hs. destruct Hs as (x & <- & Hx). apply Hc. exact Hx.
  Qed.
  (** the first session *)
  Lemma first_session d name c n ini solve junk : d name = None -> 0 < n -> admissible V npoints k2 dbg k3 n (ini, solve) ->
    exists d', n_loop_flow junk ini solve d name c n = (d', None) /\ frame V d d' name /\ flow_file d' name n (ini :: map step_state (solve ini 0)) (existsb step_conv (solve ini 0)).
  Proof.
    intros E Hn (Ci & Hs & Hc). cbn [fst snd] in *. unfold Hdf_Model.n_loop_flow, start, check_convergence. rewrite E. change (0 <=? -1) with false. cbv iota.
    destruct (write_good V fill frequencies npoints k2 dbg k3 kind REG MAXCLASS GRID mu bias d name n ini Hn) as (f & R & Gd & Gr & Dr & _). rewrite R.
    destruct (steps_file (put V d name f) name f n (conf V ini) false [ini] (solve ini 0)) as (d' & R' & Fr & FF).
    - apply put_same.
    - eapply good_ext; [exact Gd|]. intros i. rewrite <- (layers_snoc [] ini). unfold put_cont. cbn [length]. change (Z.of_nat 0) with 0. destruct (i =? 0); [reflexivity|]. unfold layers. destruct (i <? 0); [reflexivity|]. destruct (Z.to_nat i); reflexivity.
    - split; [exact Gr|exact Dr].
    - discriminate.
    - constructor; [exact Ci|constructor].
    - cbn [length]. specialize (Hs ini 0 ltac:(lia)). lia.
    - intros x Hx. apply (Hc ini 0 x Hx).
    - exists d'. split; [exact R'|]. split; [eapply frame_trans; [apply put_frame|exact Fr]|]. exact FF.
  Qed.
  (** every further session *)
  Lemma next_session d name c n ini solve junk ls conv : flow_file d name n ls conv -> admissible V npoints k2 dbg k3 n (ini, solve) ->
    exists d' ls' conv', n_loop_flow junk ini solve d name c n = (d', None) /\ frame V d d' name /\ flow_file d' name n (ls ++ ls') conv' /\
      (conv = true -> ls' = [] /\ conv' = true /\ d' = d) /\
      (conv = false -> exists t, same (last ls ini) t /\ nODE (conf V t) = nODE c /\ eps_abs (conf V t) = eps_abs c /\ eps_rel (conf V t) = eps_rel c /\ ls' = map step_state (solve t (Z.of_nat (length ls) - 1)) /\
                                conv' = existsb step_conv (solve t (Z.of_nat (length ls) - 1))).
  Proof.
    intros FF (Ci & Hs & Hc). cbn [fst snd] in *. pose proof FF as (f & c0 & E & Gd & Sr & Ne & Hl & Cs). assert (Hp : 0 < Z.of_nat (length ls)) by (destruct ls; [congruence|cbn; lia]).
    unfold Hdf_Model.n_loop_flow, start. rewrite (check_disk V frequencies k2 dbg k3 kind REG MAXCLASS GRID mu bias d name f n c0 _ _ _ E Gd).
    assert (Lst : layers ls (Z.of_nat (length ls) - 1) = Some (last ls ini)).
    { unfold layers. replace (Z.of_nat (length ls) - 1 <? 0) with false by (symmetry; apply Z.ltb_ge; lia). rewrite <- (app_nil_r ls) in *. destruct (exists_last Ne) as (l0 & s0 & El). rewrite !app_nil_r in *.
      rewrite El, last_last, app_length. cbn [length]. replace (Z.to_nat (Z.of_nat (length l0 + 1) - 1)) with (length l0) by lia. rewrite nth_error_app2, Nat.sub_diag by lia. reflexivity. }
    assert (Cl : constructed (last ls ini)) by (rewrite Forall_forall in Cs; apply Cs; unfold layers in Lst; destruct (_ <? 0) in Lst; [discriminate|]; eapply nth_error_In; exact Lst).
    destruct (read_good V fill frequencies npoints k2 dbg k3 kind REG MAXCLASS GRID mu bias f n c0 conv _ _ _ _ junk Gd Lst Cl) as (t & Rd & Sm & Ct).
    assert (Rs : read_state V fill npoints k2 dbg k3 kind junk d name (Z.of_nat (length ls) - 1) = Val t) by (unfold read_state; rewrite E; exact Rd). rewrite Rs.
    destruct conv.
    - exists d, [], true. split; [reflexivity|]. split; [intros x _; reflexivity|]. split; [rewrite app_nil_r; exact FF|]. split; [auto|discriminate].
    - replace (0 <=? Z.of_nat (length ls) - 1) with true by (symmetry; apply Z.leb_le; lia).
      destruct (steps_file d name f n c0 false ls (solve (with_run V c t) (Z.of_nat (length ls) - 1)) E Gd Sr Ne Cs) as (d' & R' & Fr & FF').
      + apply Hs. lia.
      + intros x Hx. eapply Hc. exact Hx.
      + exists d'. eexists. eexists. split; [exact R'|]. split; [exact Fr|]. split; [exact FF'|]. split; [discriminate|]. intros _. exists (with_run V c t). split; [exact Sm|]. repeat split; reflexivity.
  Qed.
  Lemma sessions_app a : forall d name c n b, sessions d name c n (a ++ b) = match sessions d name c n a with (d', None) => sessions d' name c n b | r => r end.
  Proof.
    induction a as [|[[ini solve] junk] a IH]; intros d name c n b; cbn [Hdf_Spec.sessions app]; [reflexivity|].
    destruct (Hdf_Model.n_loop_flow _ _ _ _ _ _ _ _ _ _ _ _ _ _ _ _ _ _ _ _) as [d' [e|]]; [reflexivity|apply IH].
  Qed.
  Lemma sessions_file l : forall d name c n r, d name = None -> 0 < n -> (forall x, In x (r :: l) -> admissible V npoints k2 dbg k3 n (fst x)) ->
    exists d' ls conv, sessions d name c n (r :: l) = (d', None) /\ frame V d d' name /\ flow_file d' name n ls conv.
  Proof.
    induction l as [|x l IH] using rev_ind; intros d name c n r E Hn Ad.
    - destruct r as [[ini solve] junk]. destruct (first_session d name c n ini solve junk E Hn (Ad _ (or_introl eq_refl))) as (d' & R & Fr & FF). cbn [Hdf_Spec.sessions]. rewrite R. exists d'. eexists. eexists. split; [reflexivity|]. split; [exact Fr|exact FF].
    - destruct (IH d name c n r E Hn) as (d' & ls & conv & R & Fr & FF); [intros y Hy; apply Ad; destruct Hy; [left; assumption|right; apply in_app_iff; left; assumption]|].
      destruct x as [[ini solve] junk]. destruct (next_session d' name c n ini solve junk ls conv FF) as (d'' & ls' & conv' & R' & Fr' & FF' & _).
      { apply (Ad ((ini, solve), junk)). right. apply in_app_iff. right. left. reflexivity. }
      exists d'', (ls ++ ls'), conv'. rewrite app_comm_cons, sessions_app, R. cbn [Hdf_Spec.sessions]. rewrite R'. split; [reflexivity|]. split; [eapply frame_trans; eassumption|exact FF'].
  Qed.

  (** *** a file that is being created *)
  Definition head_ops (s : state) (it n : Z) (conv : bool) : list (op V) :=
    layer_ops root_entries s it n false ++ param_ops V REG MAXCLASS GRID mu bias s conv ++ [OOpen V Params; OAttr V Params "last_Lambda_it" (AInt (Some it)) false].
  Lemma head_ok s it n conv : 0 <= it < n -> exists f, run (head_ops s it n conv) (empty_file V) = (f, None) /\ (forall g, grp f g = gid_beq g Params || gid_beq g Root) /\
    (forall x a, In (x, a) (conf_attrs (conf V s)) -> attrs f Params x = Some a) /\ attrs f Params "is_converged" = Some (ABool conv) /\ attrs f Params "last_Lambda_it" = Some (AInt (Some it)) /\
    (forall e, In e root_entries -> ds f (fst e) = Some (n, upd V (fun _ => fill) it (value s (snd e)))).
  Proof.
    intros Hit. unfold head_ops. rewrite run_app.
    destruct (run_layers V fill frequencies root_entries s it n false (empty_file V)) as (f1 & R1 & G1 & A1 & D1 & O1); [lia|apply root_nodup|intros; eexists; reflexivity|].
    rewrite R1. rewrite run_app. unfold param_ops. cbn [Hdf_Model.run step]. rewrite G1. cbn [empty_file Hdf_Model.grp gid_beq].
    change (map (fun e : string * attr => OAttr V Params (fst e) (snd e) false) _) with (attr_ops V (conf_attrs (conf V s) ++ [("is_converged", ABool conv)])).
    set (f2 := add_group V f1 Params). destruct (run_attrs V fill (conf_attrs (conf V s) ++ [("is_converged", ABool conv)]) f2) as (f3 & R3 & G3 & D3 & A3 & O3).
    { apply nodupb_ok. vm_compute. reflexivity. }
    { intros x _. unfold f2. cbn. rewrite A1. reflexivity. }
    rewrite R3. cbn [Hdf_Model.run step]. rewrite G3. unfold f2 at 1. cbn [add_group Hdf_Model.grp gid_beq orb].
    rewrite O3 by (cbn; intuition discriminate). unfold f2 at 1. cbn [add_group Hdf_Model.attrs]. rewrite A1. cbn [empty_file Hdf_Model.attrs app].
    eexists. split; [reflexivity|]. split; [|split; [|split; [|split]]].
    - intros g. cbn. rewrite G3. unfold f2. cbn. rewrite G1. reflexivity.
    - intros x a H. cbn [set_attr Hdf_Model.attrs gid_beq andb]. destruct (String.eqb_spec x "last_Lambda_it") as [->|]; [exfalso; cbn in H; intuition discriminate|]. apply A3. apply in_app_iff. left. exact H.
    - cbn [set_attr Hdf_Model.attrs gid_beq andb String.eqb Ascii.eqb Bool.eqb]. apply A3. apply in_app_iff. right. left. reflexivity.
    - reflexivity.
    - intros e He. unfold Hdf_Proofs.ds. cbn. rewrite D3. unfold f2. cbn. destruct (D1 e He) as (l & B & El). injection B as <-. exact El.
  Qed.
  (** such a file is reported as complete but cannot be read *)
  Definition unreadable (f : file) (conv : bool) (it : Z) : Prop := check_file V f = Val (conv, it) /\ forall junk, read_file junk f it = Exn FileI.
  Lemma head_unreadable s it n conv : 0 <= it < n -> exists f, run (head_ops s it n conv) (empty_file V) = (f, None) /\ unreadable f conv it /\ grp f Freq = false /\ attrs f Params "is_converged" = Some (ABool conv).
  Proof.
    intros Hit. destruct (head_ok s it n conv Hit) as (f & R & G & A & Cv & La & D). exists f. split; [exact R|]. split; [|split; [rewrite G; reflexivity|exact Cv]]. split.
    - unfold check_file, open_group, rd_attr. rewrite G, Cv. cbn [gid_beq orb rbind]. rewrite La. reflexivity.
    - intros junk. assert (RD : forall x m, In (Root, x, PM m) root_entries -> rd V f Root x it = Val (mem V s m)).
      { intros x m H. unfold rd. specialize (D _ H). unfold Hdf_Proofs.ds in D. cbn [fst snd] in D. rewrite D. replace ((it <? 0) || (n <=? it)) with false by (symmetry; apply orb_false_iff; split; [apply Z.ltb_ge|apply Z.leb_gt]; lia).
        unfold upd. rewrite Z.eqb_refl. reflexivity. }
      unfold Hdf_Model.read_file. rewrite (RD "lambdas" MLambda); [|unfold Hdf_Model.root_entries; apply in_map_iff; exists ("lambdas", PM MLambda); split; [reflexivity|left; reflexivity]]. cbn [rbind].
      rewrite (read_config_ok V fill frequencies npoints REG MAXCLASS GRID mu bias f (conf V s)); [|rewrite G; reflexivity|exact A]. cbn [rbind].
      match goal with |- context [read_members V f it _ ?t] => destruct (read_members_ok V f it s (read_table k2 dbg k3) t) as (t1 & R1 & _) end.
      { intros x m H. apply RD, (read_names V fill frequencies npoints), H. }
      rewrite R1. cbn [rbind open_all]. unfold open_group. rewrite G. reflexivity.
  Qed.
  Lemma converged_first d name n s : 0 < n -> exists f, write_state d name n s true = (put V d name f, Some AttrI) /\ unreadable f true 0.
  Proof.
    intros Hn. destruct (head_unreadable s 0 n true ltac:(lia)) as (f & R & U & Gf & Cv). exists f. split; [|exact U]. unfold Hdf_Model.write_state, Hdf_Model.write_layer.
    replace (write_ops s 0 n false false true) with (head_ops s 0 n true ++ [OAttr V Params "is_converged" (ABool true) false] ++ map (fun g => OCreate V g) (Freq :: map Sub groups) ++ layer_ops freq_entries s 0 n false)
      by (unfold head_ops, Hdf_Model.write_ops; rewrite <- !app_assoc; reflexivity).
    rewrite run_app, R. cbn [app Hdf_Model.run step]. rewrite Cv. reflexivity.
  Qed.
  Lemma append_missing d name n s it : d name = None -> 0 <= it < n -> exists f, write_layer d name s it n true false = (put V d name f, Some FileI) /\ unreadable f false it.
  Proof.
    intros E Hit. destruct (head_unreadable s it n false Hit) as (f & R & U & Gf & Cv). exists f. split; [|exact U]. unfold Hdf_Model.write_layer. rewrite E.
    replace (write_ops s it n true false false) with (head_ops s it n false ++ OOpen V Freq :: map (fun g => OOpen V g) (map Sub groups) ++ layer_ops freq_entries s it n false)
      by (unfold head_ops, Hdf_Model.write_ops; rewrite <- !app_assoc; reflexivity).
    rewrite run_app, R. cbn [app Hdf_Model.run step]. rewrite Gf. reflexivity.
  Qed.

  (** *** interrupted appending *)
  Record intact (f f' : file) (it n : Z) : Prop := {
    i_groups : grp f' = grp f;
    i_data : forall k l, ds f k = Some (n, l) -> exists l', ds f' k = Some (n, l') /\ forall j, j <> it -> l' j = l j;
    i_attrs : forall x, x <> "last_Lambda_it" -> x <> "is_converged" -> attrs f' Params x = attrs f Params x;
    i_last : attrs f' Params "last_Lambda_it" = attrs f Params "last_Lambda_it" \/ attrs f' Params "last_Lambda_it" = Some (AInt (Some it));
    i_conv : attrs f' Params "is_converged" = attrs f Params "is_converged" \/ attrs f' Params "is_converged" = Some (ABool true) }.
  Lemma intact_refl f it n : intact f f it n. Proof. constructor; auto. intros k l H. exists l. auto. Qed.
  Lemma intact_trans f g h it n : intact f g it n -> intact g h it n -> intact f h it n.
  Proof.
    intros [A1 A2 A3 A4 A5] [B1 B2 B3 B4 B5]. constructor.
    - congruence.
    - intros k l H. destruct (A2 k l H) as (l1 & E1 & H1). destruct (B2 k l1 E1) as (l2 & E2 & H2). exists l2. split; [exact E2|]. intros j Hj. rewrite H2, H1 by exact Hj. reflexivity.
    - intros x N1 N2. rewrite B3, A3 by assumption. reflexivity.
    - destruct B4 as [->|]; auto.
    - destruct B5 as [->|]; auto.
  Qed.
  Definition op_ok (f : file) (it n : Z) (o : op V) : Prop :=
    match o with
    | OLayer _ g x v it' n' ex => it' = it /\ n' = n /\ ex = true /\ exists l, ds f (g, x) = Some (n, l)
    | OOpen _ g => grp f g = true
    | OAttr _ g x a ex => g = Params /\ ex = true /\ attrs f Params x <> None /\ ((x = "last_Lambda_it" /\ a = AInt (Some it)) \/ (x = "is_converged" /\ a = ABool true))
    | OCreate _ _ => False
    end.
  Lemma op_ok_step o f it n : 0 <= it < n -> op_ok f it n o -> exists f', step V fill o f = Val f' /\ intact f f' it n /\ (forall x, attrs f Params x <> None -> attrs f' Params x <> None).
  Proof.
    intros Hit H. destruct o as [g x v it' n' ex|g x a ex|g|g]; cbn [op_ok] in H.
    - destruct H as (-> & -> & -> & l & El). unfold Hdf_Proofs.ds in El. cbn [fst snd] in El. cbn [step]. rewrite El.
      replace ((it <? 0) || (n <=? it)) with false by (symmetry; apply orb_false_iff; split; [apply Z.ltb_ge|apply Z.leb_gt]; lia). replace (n <=? it) with false by (symmetry; apply Z.leb_gt; lia).
      eexists. split; [reflexivity|]. split; [|auto]. constructor; auto. intros k l0 H0. rewrite ds_set. destruct (key_beq k (g, x)) eqn:Ek; [|exists l0; auto].
      apply key_beq_eq in Ek. subst. unfold Hdf_Proofs.ds in H0. cbn [fst snd] in H0. rewrite El in H0. injection H0 as ->. eexists. split; [reflexivity|]. intros j Hj. unfold upd. apply Z.eqb_neq in Hj. rewrite Hj. reflexivity.
    - destruct H as (-> & -> & N & Hx). cbn [step]. destruct (attrs f Params x) eqn:Ea; [|congruence]. eexists. split; [reflexivity|]. split.
      + constructor; auto.
        * intros k l H0. exists l. auto.
        * intros y N1 N2. cbn. destruct (String.eqb_spec y x) as [->|]; [|reflexivity]. destruct Hx as [(-> & _)|(-> & _)]; congruence.
        * cbn [set_attr Hdf_Model.attrs gid_beq andb]. destruct Hx as [(-> & ->)|(-> & ->)]; [right; reflexivity|left; reflexivity].
        * cbn [set_attr Hdf_Model.attrs gid_beq andb]. destruct Hx as [(-> & ->)|(-> & ->)]; [left; reflexivity|right; reflexivity].
      + intros y Hy. cbn. destruct (String.eqb y x); [discriminate|exact Hy].
    - contradiction.
    - cbn [step]. rewrite H. exists f. split; [reflexivity|]. split; [apply intact_refl|auto].
  Qed.
  Lemma op_ok_mono o f f' it n : intact f f' it n -> (forall x, attrs f Params x <> None -> attrs f' Params x <> None) -> op_ok f it n o -> op_ok f' it n o.
  Proof.
    intros I At H. destruct o as [g x v it' n' ex|g x a ex|g|g]; cbn [op_ok] in *.
    - destruct H as (-> & -> & -> & l & El). split; [reflexivity|]. split; [reflexivity|]. split; [reflexivity|]. destruct (i_data _ _ _ _ I _ _ El) as (l' & El' & _). eauto.
    - destruct H as (-> & -> & N & Hx). split; [reflexivity|]. split; [reflexivity|]. split; [apply At; exact N|exact Hx].
    - contradiction.
    - rewrite (i_groups _ _ _ _ I). exact H.
  Qed.
  Lemma ops_intact ops : forall f it n, 0 <= it < n -> Forall (op_ok f it n) ops -> exists f', run ops f = (f', None) /\ intact f f' it n.
  Proof.
    induction ops as [|o ops IH]; intros f it n Hit H; [exists f; split; [reflexivity|apply intact_refl]|]. inversion H as [|? ? Ho Hr]; subst.
    destruct (op_ok_step o f it n Hit Ho) as (f1 & R1 & I1 & A1). destruct (IH f1 it n Hit) as (f2 & R2 & I2); [eapply Forall_impl; [|exact Hr]; intros a Ha; eapply op_ok_mono; eauto|].
    exists f2. cbn [Hdf_Model.run]. rewrite R1. split; [exact R2|]. eapply intact_trans; eassumption.
  Qed.
  Lemma append_ops_ok f n c conv last cont s it b : good f n c conv last cont -> Forall (op_ok f it n) (write_ops s it n true true b).
  Proof.
    intros Gd. assert (L : forall es, (forall e, In e es -> In e entries) -> Forall (op_ok f it n) (layer_ops es s it n true)).
    { intros es Hes. apply Forall_forall. intros o Ho. apply in_map_iff in Ho. destruct Ho as ([[g x] p] & <- & He). cbn [op_ok fst snd]. split; [reflexivity|]. split; [reflexivity|]. split; [reflexivity|].
      destruct (g_data _ _ _ _ _ _ _ _ _ _ _ _ _ _ _ _ _ Gd _ (Hes _ He)) as (l & El & _). exists l. exact El. }
    unfold Hdf_Model.write_ops. repeat (apply Forall_app; split).
    - apply L. intros; apply in_app_iff; auto.
    - constructor.
    - constructor; [apply (g_groups _ _ _ _ _ _ _ _ _ _ _ _ _ _ _ _ _ Gd); left; reflexivity|]. constructor; [|constructor]. cbn [op_ok]. split; [reflexivity|]. split; [reflexivity|]. split; [|left; auto].
      rewrite (g_last _ _ _ _ _ _ _ _ _ _ _ _ _ _ _ _ _ Gd). discriminate.
    - destruct b; constructor; [|constructor]. cbn [op_ok]. split; [reflexivity|]. split; [reflexivity|]. split; [|right; auto]. rewrite (g_conv _ _ _ _ _ _ _ _ _ _ _ _ _ _ _ _ _ Gd). discriminate.
    - apply Forall_forall. intros o Ho. apply in_map_iff in Ho. destruct Ho as (g & <- & Hg). cbn [op_ok]. apply (g_groups _ _ _ _ _ _ _ _ _ _ _ _ _ _ _ _ _ Gd). right. exact Hg.
    - apply L. intros; apply in_app_iff; auto.
  Qed.
  Lemma Forall_firstn {A} (P : A -> Prop) k l : Forall P l -> Forall P (firstn k l).
  Proof. revert l. induction k as [|k IH]; intros l H; [constructor|]. destruct H; cbn; constructor; auto. Qed.
  Definition without (cont : Z -> option state) (it : Z) : Z -> option state := fun j => if j =? it then None else cont j.
  Lemma crash_append f n c conv last cont s it b k : good f n c conv last cont -> 0 <= it < n ->
    exists f' conv' last', run (firstn k (write_ops s it n true true b)) f = (f', None) /\ good f' n c conv' last' (without cont it) /\ (last' = last \/ last' = it) /\
      ((k <= S (length root_entries))%nat -> last' = last /\ conv' = conv).
  Proof.
    intros Gd Hit. destruct (ops_intact (firstn k (write_ops s it n true true b)) f it n Hit) as (f' & R & I); [apply Forall_firstn; eapply append_ops_ok; exact Gd|].
    assert (Xl : exists last', attrs f' Params "last_Lambda_it" = Some (AInt (Some last')) /\ (last' = last \/ last' = it)).
    { destruct (i_last _ _ _ _ I) as [E|E]; rewrite E; [rewrite (g_last _ _ _ _ _ _ _ _ _ _ _ _ _ _ _ _ _ Gd)|]; eauto. }
    assert (Xc : exists conv', attrs f' Params "is_converged" = Some (ABool conv')).
    { destruct (i_conv _ _ _ _ I) as [E|E]; rewrite E; [rewrite (g_conv _ _ _ _ _ _ _ _ _ _ _ _ _ _ _ _ _ Gd)|]; eauto. }
    destruct Xl as (last' & El & Hl). destruct Xc as (conv' & Ec). exists f', conv', last'. split; [exact R|]. split; [|split; [exact Hl|]].
    - constructor.
      + intros g Hg. rewrite (i_groups _ _ _ _ I). apply (g_groups _ _ _ _ _ _ _ _ _ _ _ _ _ _ _ _ _ Gd). exact Hg.
      + intros x a H. rewrite (i_attrs _ _ _ _ I); [apply (g_conf _ _ _ _ _ _ _ _ _ _ _ _ _ _ _ _ _ Gd); exact H| |]; intros ->; cbn in H; intuition discriminate.
      + exact Ec.
      + exact El.
      + intros e He. destruct (g_data _ _ _ _ _ _ _ _ _ _ _ _ _ _ _ _ _ Gd e He) as (l & E0 & Hl0). destruct (i_data _ _ _ _ I _ _ E0) as (l' & E1 & H1). exists l'. split; [exact E1|].
        intros j t Hj. unfold without in Hj. destruct (Z.eqb_spec j it); [discriminate|]. rewrite H1 by assumption. apply Hl0. exact Hj.
      + intros j t Hj. unfold without in Hj. destruct (j =? it); [discriminate|]. apply (g_range _ _ _ _ _ _ _ _ _ _ _ _ _ _ _ _ _ Gd j t Hj).
    - intros Hk. assert (At : attrs f' = attrs f).
      { assert (X : forall ops f0 f1, Forall (fun o => match o with OAttr _ _ _ _ _ => False | _ => True end) ops -> run ops f0 = (f1, None) -> attrs f1 = attrs f0).
        { induction ops as [|o ops IH]; intros f0 f1 H0 H1; [injection H1 as <-; reflexivity|]. inversion H0 as [|? ? Ho Hr]; subst. cbn [Hdf_Model.run] in H1. destruct (step V fill o f0) as [f2|] eqn:St; [|discriminate].
          rewrite (IH f2 f1 Hr H1). destruct o as [g x v it' n' ex|g x a ex|g|g]; [|contradiction| |]; cbn [step] in St.
          - destruct ((it' <? 0) || (n' <=? it')); [discriminate|]. destruct ex, (dsets f0 g x) as [[m l]|]; try discriminate; [destruct (m <=? it'); [discriminate|]|]; injection St as <-; reflexivity.
          - destruct (grp f0 g); [discriminate|]. injection St as <-. reflexivity.
          - destruct (grp f0 g); [|discriminate]. injection St as <-. reflexivity. }
        eapply X; [|exact R].
        assert (Y : firstn k (write_ops s it n true true b) = firstn k (layer_ops root_entries s it n true ++ [OOpen V Params])).
        { unfold Hdf_Model.write_ops. cbn [app]. rewrite !firstn_app. f_equal. assert (Ll : length (layer_ops root_entries s it n true) = length root_entries) by apply map_length. rewrite Ll. remember (k - length root_entries)%nat as q eqn:Eq. assert (q <= 1)%nat by lia. destruct q as [|[|q]]; [reflexivity|reflexivity|lia]. }
        rewrite Y. apply Forall_firstn. apply Forall_app. split; [apply Forall_forall; intros o Ho; apply in_map_iff in Ho; destruct Ho as (e & <- & _); constructor|repeat constructor]. }
      rewrite At in El, Ec. rewrite (g_last _ _ _ _ _ _ _ _ _ _ _ _ _ _ _ _ _ Gd) in El. rewrite (g_conv _ _ _ _ _ _ _ _ _ _ _ _ _ _ _ _ _ Gd) in Ec. injection El as <-. injection Ec as <-. auto.
  Qed.
End P.
