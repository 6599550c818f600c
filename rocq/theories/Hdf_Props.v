(** C62 .. C64 and C102: result files, their configuration, restarting and interruption. *)
From Coq Require Import QArith String.
From Verif Require Import Prelude Hdf_Model Hdf_Spec Hdf_Proofs Hdf_Proofs2 Hdf_Proofs3 Hdf_Proofs4.
Open Scope string_scope.
Open Scope list_scope.
Open Scope Z_scope.

Section Props.
  Variable V : Type.
  Variable fill : V.
  Variable frequencies : (gfield -> V) -> V.
  Variable npoints : V -> V -> V -> V.
  Variables (k2 dbg k3 : bool) (kind : gslot -> gkind) (REG MAXCLASS GRID : Z) (mu bias : Q).
  Notation write_state := (write_state V fill frequencies k2 dbg k3 kind REG MAXCLASS GRID mu bias).
  Notation write_layer := (write_layer V fill frequencies k2 dbg k3 kind REG MAXCLASS GRID mu bias).
  Notation write_ops := (write_ops V frequencies k2 dbg k3 kind REG MAXCLASS GRID mu bias).
  Notation add_state := (add_state V fill frequencies k2 dbg k3 kind REG MAXCLASS GRID mu bias).
  Notation read_state := (read_state V fill npoints k2 dbg k3 kind).
  Notation holds := (holds V fill npoints k2 dbg k3 kind).
  Notation shows := (shows V fill npoints k2 dbg k3 kind).
  Notation constructed := (constructed V npoints k2 dbg k3).
  Notation admissible := (admissible V npoints k2 dbg k3).
  Notation check := (check_convergence V).
  Notation save_all := (save_all V fill frequencies k2 dbg k3 kind REG MAXCLASS GRID mu bias).
  Notation sessions := (sessions V fill frequencies npoints k2 dbg k3 kind REG MAXCLASS GRID mu bias).
  Notation n_loop_flow := (n_loop_flow V fill frequencies npoints k2 dbg k3 kind REG MAXCLASS GRID mu bias).
  Notation start := (start V fill frequencies npoints k2 dbg k3 kind REG MAXCLASS GRID mu bias).
  Notation restart := (restart V fill frequencies npoints k2 dbg k3 kind REG MAXCLASS GRID mu bias).
  Notation parquet_begin := (parquet_begin V fill frequencies npoints k2 dbg k3 kind REG MAXCLASS GRID mu bias).
  Notation parquet_saves := (parquet_saves V fill frequencies k2 dbg k3 kind REG MAXCLASS GRID mu bias).
  Notation good := (good V frequencies k2 dbg k3 kind REG MAXCLASS GRID mu bias).

  (** the file after it was created and states were saved *)
  Lemma history_good d name n s0 h : 0 < n -> (forall it s b, In (it, s, b) h -> 0 <= it < n) ->
    exists d1 d' f, write_state d name n s0 false = (d1, None) /\ save_all d1 name h = (d', None) /\ frame V d d' name /\ d' name = Some f /\
      good f n (conf V s0) (any_converged V ((0, s0, false) :: h)) (last_layer V ((0, s0, false) :: h)) (latest V ((0, s0, false) :: h)).
  Proof.
    intros Hn Hr. destruct (write_good V fill frequencies npoints k2 dbg k3 kind REG MAXCLASS GRID mu bias d name n s0 Hn) as (f0 & W & G0 & _).
    destruct (save_all_good V fill frequencies npoints k2 dbg k3 kind REG MAXCLASS GRID mu bias h (put V d name f0) name f0 n (conf V s0) [(0, s0, false)]) as (d' & f & R & Fr & E & Gd).
    - apply put_same.
    - eapply good_ext; [exact G0|]. intros i. unfold latest, put_cont. cbn [filter at_layer fst snd]. rewrite (Z.eqb_sym i 0). unfold at_layer. cbn [fst]. destruct (0 =? i); reflexivity.
    - exact Hr.
    - exists (put V d name f0), d', f. split; [exact W|]. split; [exact R|]. split; [eapply frame_trans; [apply put_frame|exact Fr]|]. split; [exact E|exact Gd].
  Qed.
  Lemma latest_in (h : list (event V)) it s : latest V h it = Some s -> exists b, In (it, s, b) h.
  Proof.
    unfold latest. destruct (rev (filter (at_layer V it) h)) as [|e l] eqn:E; [discriminate|]. intros H. injection H as <-. assert (X : In e (rev (filter (at_layer V it) h))) by (rewrite E; left; reflexivity).
    apply in_rev, filter_In in X. destruct X as (X1 & X2). destruct e as [[i t] b]. unfold at_layer in X2. cbn [fst snd] in *. apply Z.eqb_eq in X2. subst. eauto.
  Qed.

  (** C62: every layer holds what was saved to it last, whatever was saved to other layers, the last layer and the flag are reported, no other file changes. *)
  Theorem C62_history : forall d name n s0 h, 0 < n -> (forall it s b, In (it, s, b) h -> 0 <= it < n /\ constructed s) -> constructed s0 ->
    exists d1 d', write_state d name n s0 false = (d1, None) /\ save_all d1 name h = (d', None) /\ (forall x, x <> name -> d' x = d x) /\
      (forall it s, latest V ((0, s0, false) :: h) it = Some s -> holds d' name it s) /\
      check d' name = Val (any_converged V h, last_layer V ((0, s0, false) :: h)).
  Proof.
    intros d name n s0 h Hn Hr C0. destruct (history_good d name n s0 h Hn (fun it s b H => proj1 (Hr it s b H))) as (d1 & d' & f & W & R & Fr & E & Gd).
    exists d1, d'. split; [exact W|]. split; [exact R|]. split; [exact Fr|]. split.
    - intros it s Hl. eapply good_holds; [exact E|exact Gd|exact Hl|]. destruct (latest_in _ _ _ Hl) as (b & [H|H]); [injection H as _ <- _; exact C0|apply (Hr _ _ _ H)].
    - eapply check_disk; [exact E|exact Gd].
  Qed.
  (** C62: saving to a layer the file does not have is ignored. *)
  Theorem C62_out_of_range : forall d name n s0 h d1 d' it s b, 0 < n -> (forall it s b, In (it, s, b) h -> 0 <= it < n) ->
    write_state d name n s0 false = (d1, None) -> save_all d1 name h = (d', None) -> it < 0 \/ n <= it -> add_state d' name it s b = (d', None).
  Proof.
    intros d name n s0 h d1 d' it s b Hn Hr W R Hit. destruct (history_good d name n s0 h Hn Hr) as (d1' & d'' & f & W' & R' & _ & E & Gd). rewrite W in W'. injection W' as <-. rewrite R in R'. injection R' as <-.
    eapply add_outside; [exact E|exact Gd|exact Hit].
  Qed.

  (** C63 fails: appending to a missing file is an error, ... *)
  Theorem C63_append_refuted : forall d name s it b, d name = None -> add_state d name it s b = (d, Some FileI).
  Proof. intros d name s it b E. unfold Hdf_Model.add_state. rewrite E. reflexivity. Qed.
  (** ... also with the underlying function, which then leaves a file that is reported as complete but cannot be read; ... *)
  Theorem C63_append_layer_refuted : forall d name n s it, d name = None -> 0 <= it < n ->
    exists d', write_layer d name s it n true false = (d', Some FileI) /\ check d' name = Val (false, it) /\ forall junk, read_state junk d' name it = Exn FileI.
  Proof.
    intros d name n s it E Hit. destruct (append_missing V fill frequencies npoints k2 dbg k3 kind REG MAXCLASS GRID mu bias d name n s it E Hit) as (f & R & U1 & U2). eexists. split; [exact R|]. split.
    - unfold check_convergence. rewrite put_same, U1. reflexivity.
    - intros junk. unfold Hdf_Model.read_state. rewrite put_same. apply U2.
  Qed.
  (** ... a file created with a converged state as well; ... *)
  Theorem C63_converged_refuted : forall d name n s, 0 < n ->
    exists d', write_state d name n s true = (d', Some AttrI) /\ check d' name = Val (true, 0) /\ forall junk, read_state junk d' name 0 = Exn FileI.
  Proof.
    intros d name n s Hn. destruct (converged_first V fill frequencies npoints k2 dbg k3 kind REG MAXCLASS GRID mu bias d name n s Hn) as (f & R & U1 & U2). eexists. split; [exact R|]. split.
    - unfold check_convergence. rewrite put_same, U1. reflexivity.
    - intros junk. unfold Hdf_Model.read_state. rewrite put_same. apply U2.
  Qed.
  (** ... restarting the flow at layer it >= 1 writes that layer to layer 0, empties all others and stops with an error after its first step; ... *)
  Theorem C63_restart_refuted : forall junk solve d name n it s0, 1 <= it -> it + 1 < n -> constructed s0 -> holds d name it s0 -> (forall t, solve t it <> []) ->
    exists d', restart junk solve d name n it = (d', Some FileI) /\ holds d' name 0 s0 /\ forall j t, j <> 0 -> j <> it + 1 -> holds d' name j t -> mem V t MLambda = fill.
  Proof. exact (restart_lemma V fill frequencies npoints k2 dbg k3 kind REG MAXCLASS GRID mu bias). Qed.
  (** ... and the parquet solver, continuing from the last stored iterate, keeps only this one, in layer 0. *)
  Theorem C63_parquet_refuted : forall junk s d name it s0, check d name = Val (false, it) -> 0 <= it -> holds d name it s0 -> constructed s0 ->
    exists d', parquet_begin junk s d name = (d', None) /\ holds d' name 0 s0 /\ check d' name = Val (false, 0) /\ forall j t, j <> 0 -> holds d' name j t -> mem V t MLambda = fill.
  Proof.
    intros junk s d name it s0 Ck Hi H C0. unfold Hdf_Model.parquet_begin. rewrite Ck. replace (0 <=? it) with true by (symmetry; apply Z.leb_le; lia). destruct (H junk) as (t & R & Sm). rewrite R.
    destruct (write_state d name 5 t false) as [d' e] eqn:W. pose proof (same_constructed V npoints k2 dbg k3 kind _ _ C0 Sm) as Ct.
    destruct (rewritten V fill frequencies npoints k2 dbg k3 kind REG MAXCLASS GRID mu bias d name 5 t d' e ltac:(lia) Ct W) as (-> & Ho & _ & Ch & Bl). exists d'. split; [reflexivity|]. split; [|split; [exact Ch|exact Bl]].
    intros x. destruct (Ho x) as (y & Ry & Sy). exists y. split; [exact Ry|]. eapply same_trans; eassumption.
  Qed.
  (** What holds: a flow that starts without a file stores the initial state and the state after every step ... *)
  Theorem C63_first_partial : forall d name c n ini solve junk, d name = None -> 0 < n -> admissible n (ini, solve) ->
    exists d', n_loop_flow junk ini solve d name c n = (d', None) /\ (forall x, x <> name -> d' x = d x) /\
      shows d' name (ini :: map (fun x => fst (fst x)) (solve ini 0)) (existsb (fun x => snd (fst x)) (solve ini 0)).
  Proof.
    intros d name c n ini solve junk E Hn Ad. destruct (first_session V fill frequencies npoints k2 dbg k3 kind REG MAXCLASS GRID mu bias d name c n ini solve junk E Hn Ad) as (d' & R & Fr & FF).
    exists d'. split; [exact R|]. split; [exact Fr|]. apply (flow_file_shows _ _ _ _ _ _ _ _ _ _ _ _ _ _ _ _ _ _ FF).
  Qed.
  (** ... and, started again any number of times between two steps, it keeps all stored layers and appends to them. *)
  Theorem C63_resume_partial : forall d name c n r l ini solve junk, d name = None -> 0 < n -> (forall x, In x (r :: l) -> admissible n (fst x)) -> admissible n (ini, solve) ->
    exists d1 ls conv d2 ls' conv', sessions d name c n (r :: l) = (d1, None) /\ shows d1 name ls conv /\
      n_loop_flow junk ini solve d1 name c n = (d2, None) /\ shows d2 name (ls ++ ls') conv' /\ (forall x, x <> name -> d2 x = d x) /\
      (conv = true -> ls' = [] /\ conv' = true) /\
      (conv = false -> exists t, same V k2 dbg k3 kind (last ls ini) t /\ ls' = map (fun x => fst (fst x)) (solve t (Z.of_nat (length ls) - 1)) /\ conv' = existsb (fun x => snd (fst x)) (solve t (Z.of_nat (length ls) - 1))).
  Proof.
    intros d name c n r l ini solve junk E Hn Ad Ad'. destruct (sessions_file V fill frequencies npoints k2 dbg k3 kind REG MAXCLASS GRID mu bias l d name c n r E Hn Ad) as (d1 & ls & conv & R & Fr & FF).
    destruct (next_session V fill frequencies npoints k2 dbg k3 kind REG MAXCLASS GRID mu bias d1 name c n ini solve junk ls conv FF Ad') as (d2 & ls' & conv' & R' & Fr' & FF' & Ht & Hf).
    exists d1, ls, conv, d2, ls', conv'. split; [exact R|]. split; [apply (flow_file_shows _ _ _ _ _ _ _ _ _ _ _ _ _ _ _ _ _ _ FF)|]. split; [exact R'|]. split; [apply (flow_file_shows _ _ _ _ _ _ _ _ _ _ _ _ _ _ _ _ _ _ FF')|].
    split; [eapply frame_trans; eassumption|]. split; [intros Hc; destruct (Ht Hc) as (A & B & _); auto|]. intros Hc. destruct (Hf Hc) as (t & A & _ & _ & _ & B & C). exists t. auto.
  Qed.
  Lemma parquet_saves_eq l : forall d name i, parquet_saves d name i l = save_all d name (iterates V i l).
  Proof.
    induction l as [|[s c] l IH]; intros d name i; cbn [Hdf_Model.parquet_saves iterates Hdf_Spec.save_all]; [reflexivity|].
    destruct (Hdf_Model.add_state _ _ _ _ _ _ _ _ _ _ _ _ _ _ _ _ _) as [d' [e|]]; [reflexivity|apply IH].
  Qed.
  Lemma iterates_range l : forall i it s b, In (it, s, b) (iterates V i l) -> 0 <= it < 5 /\ In (s, b) l.
  Proof.
    induction l as [|[s c] l IH]; intros i it t b H; cbn [iterates] in H; [contradiction|]. destruct H as [H|H]; [injection H as <- <- <-; split; [apply Z.mod_pos_bound; lia|left; reflexivity]|].
    destruct (IH _ _ _ _ H). split; [assumption|right; assumption].
  Qed.
  (** The parquet solver that starts without a file: the last five iterates are stored, the last one is reported. *)
  Theorem C63_parquet_partial : forall junk s d name l, d name = None -> constructed s -> (forall t c, In (t, c) l -> constructed t) ->
    exists d1 d', parquet_begin junk s d name = (d1, None) /\ parquet_saves d1 name 1 l = (d', None) /\
      (forall it t, latest V ((0, s, false) :: iterates V 1 l) it = Some t -> holds d' name it t) /\
      check d' name = Val (existsb snd l, Z.of_nat (length l) mod 5).
  Proof.
    intros junk s d name l E Cs Cl. unfold Hdf_Model.parquet_begin, check_convergence at 1. rewrite E. change (0 <=? -1) with false. cbv iota.
    destruct (C62_history d name 5 s (iterates V 1 l) ltac:(lia)) as (d1 & d' & W & R & Fr & Ho & Ck).
    { intros it t b H. apply iterates_range in H. destruct H as (H1 & H2). split; [exact H1|apply (Cl _ _ H2)]. }
    { exact Cs. }
    exists d1, d'. split; [exact W|]. rewrite parquet_saves_eq. split; [exact R|]. split; [exact Ho|]. rewrite Ck. f_equal. f_equal.
    - unfold any_converged. clear. generalize 1. induction l as [|[s c] l IH]; intros i; cbn; [reflexivity|]. rewrite IH. reflexivity.
    - clear. assert (X : forall l i e, last_layer V ((i mod 5, e, false) :: iterates V (i + 1) l) = (i + Z.of_nat (length l)) mod 5).
      { clear. induction l as [|[s c] l IH]; intros i e; cbn [iterates length].
        - cbn. f_equal. change (Z.of_nat 0) with 0. lia.
        - specialize (IH (i + 1) e). unfold last_layer in *. cbn [rev] in *. destruct (rev (iterates V (i + 1 + 1) l)) as [|x y]; cbn [app fst] in *; rewrite IH; f_equal; lia. }
      specialize (X l 0 s). change (0 mod 5) with 0 in X. change (0 + 1) with 1 in X. rewrite X. reflexivity.
  Qed.

  (** C64 fails: a configuration that was stored is not restored ... *)
  Theorem C64_refuted : forall junk d name n s h d1 d' it t, 0 < n -> (forall it s b, In (it, s, b) h -> 0 <= it < n) ->
    write_state d name n s false = (d1, None) -> save_all d1 name h = (d', None) -> read_state junk d' name it = Val t ->
    nODE (conf V t) = None /\ eps_abs (conf V t) = None /\ eps_rel (conf V t) = None /\ save (conf V t) = save fresh_config /\ nodes (conf V t) = nodes fresh_config.
  Proof.
    intros junk d name n s h d1 d' it t Hn Hr W R Rd. destruct (history_good d name n s h Hn Hr) as (d1' & d'' & f & W' & R' & _ & E & Gd). rewrite W in W'. injection W' as <-. rewrite R in R'. injection R' as <-.
    unfold Hdf_Model.read_state in Rd. rewrite E in Rd. assert (Ct : conf V t = loaded (conf V s)).
    { unfold Hdf_Model.read_file in Rd. destruct (rd V f Root "lambdas" it); [|discriminate]. cbn [rbind] in Rd.
      rewrite (read_config_ok V fill frequencies npoints REG MAXCLASS GRID mu bias f (conf V s)) in Rd; [|apply (g_groups _ _ _ _ _ _ _ _ _ _ _ _ _ _ _ _ _ Gd); left; reflexivity|apply (g_conf _ _ _ _ _ _ _ _ _ _ _ _ _ _ _ _ _ Gd)].
      cbn [rbind] in Rd. destruct (read_members V f it (read_table k2 dbg k3) _) as [s1|] eqn:R1; [|discriminate]. cbn [rbind] in Rd. destruct (open_all V f _); [|discriminate]. cbn [rbind] in Rd.
      destruct (read_all_grids V fill npoints kind f it (read_grids k2 dbg k3) s1) as [s2|] eqn:R2; [|discriminate]. cbn [rbind] in Rd. destruct (rd_attr V f Params "GRID"); [|discriminate]. injection Rd as <-.
      assert (A : forall l t0 t1, read_members V f it l t0 = Val t1 -> conf V t1 = conf V t0).
      { induction l as [|[x m] l IH]; intros t0 t1 H; cbn [read_members] in H; [injection H as <-; reflexivity|]. destruct (rd V f Root x it); [|discriminate]. cbn [rbind] in H. rewrite (IH _ _ H). reflexivity. }
      assert (B : forall l t0 t1, read_all_grids V fill npoints kind f it l t0 = Val t1 -> conf V t1 = conf V t0).
      { induction l as [|[x m] l IH]; intros t0 t1 H; cbn [read_all_grids] in H; [injection H as <-; reflexivity|]. destruct (read_grid V fill npoints f x it (kind m)); [|discriminate]. cbn [rbind] in H. rewrite (IH _ _ H). reflexivity. }
      rewrite (B _ _ _ R2), (A _ _ _ R1). reflexivity. }
    rewrite Ct. repeat split; reflexivity.
  Qed.
  (** ... except for the physical parameters and the loop number of the state with which the file was created. *)
  Theorem C64_partial : forall junk d name n s h it u, 0 < n -> (forall it s b, In (it, s, b) h -> 0 <= it < n /\ constructed s) -> constructed s -> latest V ((0, s, false) :: h) it = Some u ->
    exists d1 d' t, write_state d name n s false = (d1, None) /\ save_all d1 name h = (d', None) /\ read_state junk d' name it = Val t /\
      cU (conf V t) = cU (conf V s) /\ cT (conf V t) = cT (conf V s) /\ cGamma (conf V t) = cGamma (conf V s) /\ ceps (conf V t) = ceps (conf V s) /\ nloops (conf V t) = nloops (conf V s).
  Proof.
    intros junk d name n s h it u Hn Hr C0 Hl. destruct (history_good d name n s h Hn (fun it s b H => proj1 (Hr it s b H))) as (d1 & d' & f & W & R & Fr & E & Gd).
    assert (Cu : constructed u) by (destruct (latest_in _ _ _ Hl) as (b & [H|H]); [injection H as _ <- _; exact C0|apply (Hr _ _ _ H)]).
    destruct (read_good V fill frequencies npoints k2 dbg k3 kind REG MAXCLASS GRID mu bias f n _ _ _ _ it u junk Gd Hl Cu) as (t & Rd & _ & Ct).
    exists d1, d', t. split; [exact W|]. split; [exact R|]. split; [unfold Hdf_Model.read_state; rewrite E; exact Rd|]. rewrite Ct. repeat split; reflexivity.
  Qed.
  (** A flow that continues a stored run uses number of steps and tolerances of its own configuration and the remaining parameters of the file. *)
  Theorem C64_resume_partial : forall junk ini d name n s h c it u, 0 < n -> (forall it s b, In (it, s, b) h -> 0 <= it < n /\ constructed s) -> constructed s ->
    any_converged V h = false -> last_layer V ((0, s, false) :: h) = it -> 0 <= it -> latest V ((0, s, false) :: h) it = Some u ->
    exists d1 d' t, write_state d name n s false = (d1, None) /\ save_all d1 name h = (d', None) /\ start junk ini d' name c n = (d', Flowed V t it) /\ same V k2 dbg k3 kind u t /\
      nODE (conf V t) = nODE c /\ eps_abs (conf V t) = eps_abs c /\ eps_rel (conf V t) = eps_rel c /\
      cU (conf V t) = cU (conf V s) /\ cT (conf V t) = cT (conf V s) /\ cGamma (conf V t) = cGamma (conf V s) /\ ceps (conf V t) = ceps (conf V s) /\ nloops (conf V t) = nloops (conf V s).
  Proof.
    intros junk ini d name n s h c it u Hn Hr C0 Hc Hla Hit Hl. destruct (history_good d name n s h Hn (fun it s b H => proj1 (Hr it s b H))) as (d1 & d' & f & W & R & Fr & E & Gd).
    assert (Cu : constructed u) by (destruct (latest_in _ _ _ Hl) as (b & [H|H]); [injection H as _ <- _; exact C0|apply (Hr _ _ _ H)]).
    destruct (read_good V fill frequencies npoints k2 dbg k3 kind REG MAXCLASS GRID mu bias f n _ _ _ _ it u junk Gd Hl Cu) as (t & Rd & Sm & Ct).
    exists d1, d', (with_run V c t). split; [exact W|]. split; [exact R|]. split.
    - unfold Hdf_Model.start. rewrite (check_disk V frequencies k2 dbg k3 kind REG MAXCLASS GRID mu bias d' name f n _ _ _ _ E Gd). change (any_converged V ((0, s, false) :: h)) with (any_converged V h). rewrite Hc, Hla.
      replace (0 <=? it) with true by (symmetry; apply Z.leb_le; lia). unfold Hdf_Model.read_state. rewrite E, Rd. reflexivity.
    - split; [exact Sm|]. cbn [with_run conf nODE eps_abs eps_rel cU cT cGamma ceps nloops]. rewrite Ct. repeat split; reflexivity.
  Qed.

  (** C102: interrupted after any number of elementary operations of saving a layer, the file still holds all other layers;
      as long as the number of the last layer is not yet replaced, it reports the previous layer. *)
  Theorem C102_partial : forall d name n s0 h s it b k d1 d', 0 < n -> (forall it s b, In (it, s, b) h -> 0 <= it < n /\ constructed s) -> constructed s0 -> 0 <= it < n ->
    write_state d name n s0 false = (d1, None) -> save_all d1 name h = (d', None) ->
    exists f f' conv la, d' name = Some f /\ run V fill (firstn k (write_ops s it n true true b)) f = (f', None) /\
      (forall j t, j <> it -> latest V ((0, s0, false) :: h) j = Some t -> holds (put V d' name f') name j t) /\
      check (put V d' name f') name = Val (conv, la) /\ (la = last_layer V ((0, s0, false) :: h) \/ la = it) /\
      ((k <= S (length (root_table k2 dbg k3)))%nat -> la = last_layer V ((0, s0, false) :: h) /\ conv = any_converged V h).
  Proof.
    intros d name n s0 h s it b k d1 d' Hn Hr C0 Hit W R. destruct (history_good d name n s0 h Hn (fun it s b H => proj1 (Hr it s b H))) as (d1' & d'' & f & W' & R' & _ & E & Gd). rewrite W in W'. injection W' as <-. rewrite R in R'. injection R' as <-.
    destruct (crash_append V fill frequencies npoints k2 dbg k3 kind REG MAXCLASS GRID mu bias f n _ _ _ _ s it b k Gd Hit) as (f' & conv & la & Rk & G' & Hla & Hk).
    exists f, f', conv, la. split; [exact E|]. split; [exact Rk|]. split; [|split; [|split; [exact Hla|]]].
    - intros j t Hj Hl. eapply good_holds; [apply put_same|exact G'| |].
      + unfold without. apply Z.eqb_neq in Hj. rewrite Hj. exact Hl.
      + destruct (latest_in _ _ _ Hl) as (b' & [H|H]); [injection H as _ <- _; exact C0|apply (Hr _ _ _ H)].
    - eapply check_disk; [apply put_same|exact G'].
    - intros Hle. destruct Hk as (A & B); [unfold root_entries; rewrite map_length; exact Hle|]. auto.
  Qed.
  (** C102 fails: interrupted while the file is created, the run is reported as existing and can neither be read nor started again; ... *)
  Theorem C102_creation_refuted : forall d name n s, 0 < n ->
    exists k f, run V fill (firstn k (write_ops s 0 n false false false)) (empty_file V) = (f, None) /\ check (put V d name f) name = Val (false, 0) /\
      forall junk ini solve c, n_loop_flow junk ini solve (put V d name f) name c n = (put V d name f, Some FileI).
  Proof.
    intros d name n s Hn. destruct (head_unreadable V fill frequencies npoints k2 dbg k3 kind REG MAXCLASS GRID mu bias s 0 n false ltac:(lia)) as (f & R & (U1 & U2) & _).
    exists (length (head_ops V frequencies k2 dbg k3 REG MAXCLASS GRID mu bias s 0 n false)), f.
    assert (Ck : check (put V d name f) name = Val (false, 0)) by (unfold check_convergence; rewrite put_same, U1; reflexivity). split; [|split; [exact Ck|]].
    - replace (write_ops s 0 n false false false) with (head_ops V frequencies k2 dbg k3 REG MAXCLASS GRID mu bias s 0 n false ++ map (fun g => OCreate V g) (Freq :: map Sub groups) ++ layer_ops V frequencies (freq_entries k2 dbg k3 kind) s 0 n false)
        by (unfold head_ops, Hdf_Model.write_ops; rewrite <- !app_assoc; reflexivity).
      rewrite firstn_app, Nat.sub_diag, firstn_all. cbn [firstn]. rewrite app_nil_r. exact R.
    - intros junk ini solve c. unfold Hdf_Model.n_loop_flow, Hdf_Model.start. rewrite Ck. change (0 <=? 0) with true. cbv iota. unfold Hdf_Model.read_state. rewrite put_same, U2. reflexivity.
  Qed.
  (** ... interrupted after the group of parameters was created, every later flow stops with an error and leaves the file as it is ... *)
  Theorem C102_parameters_refuted : forall d name n s, 0 < n ->
    exists k f, run V fill (firstn k (write_ops s 0 n false false false)) (empty_file V) = (f, None) /\ check (put V d name f) name = Exn AttrI /\
      forall junk ini solve c, n_loop_flow junk ini solve (put V d name f) name c n = (put V d name f, Some AttrI).
  Proof.
    intros d name n s Hn.
    destruct (run_layers V fill frequencies (root_entries k2 dbg k3) s 0 n false (empty_file V)) as (f1 & R1 & G1 & A1 & D1 & O1); [lia|apply root_nodup|intros; eexists; reflexivity|].
    exists (length (layer_ops V frequencies (root_entries k2 dbg k3) s 0 n false ++ [OCreate V Params])), (add_group V f1 Params).
    assert (Ck : check (put V d name (add_group V f1 Params)) name = Exn AttrI).
    { unfold check_convergence, check_file, open_group, rd_attr. rewrite put_same. cbn [add_group grp gid_beq orb rbind attrs]. rewrite A1. reflexivity. }
    split; [|split; [exact Ck|]].
    - unfold Hdf_Model.write_ops, param_ops.
      assert (X : forall (T : Type) (a m r : list T) x, firstn (length (a ++ [x])) (a ++ (x :: m) ++ r) = a ++ [x]).
      { intros T a m r x. replace (a ++ (x :: m) ++ r) with ((a ++ [x]) ++ m ++ r) by (rewrite <- app_assoc; reflexivity). rewrite firstn_app, Nat.sub_diag, firstn_all. cbn [firstn]. apply app_nil_r. }
      rewrite X, run_app, R1. cbn [run step]. rewrite G1. reflexivity.
    - intros junk ini solve c. unfold Hdf_Model.n_loop_flow, Hdf_Model.start. rewrite Ck. reflexivity.
  Qed.
  (** ... interrupted between saving the first step and its statistics, the continued flow stops with an error after one step. *)
  Theorem C102_statistics_refuted : forall d name n ini s1 c ini' solve junk, 3 <= n -> constructed s1 -> (forall t, solve t 1 <> []) ->
    exists d1 d2 d3, write_state d name n ini false = (d1, None) /\ add_state d1 name 1 s1 false = (d2, None) /\ n_loop_flow junk ini' solve d2 name c n = (d3, Some FileI).
  Proof.
    intros d name n ini s1 c ini' solve junk Hn C1 Hs. destruct (write_good V fill frequencies npoints k2 dbg k3 kind REG MAXCLASS GRID mu bias d name n ini ltac:(lia)) as (f & W & Gd & Gs & _).
    destruct (add_good V fill frequencies npoints k2 dbg k3 kind REG MAXCLASS GRID mu bias (put V d name f) name f n _ _ _ _ s1 1 false (put_same _ _ _ _) Gd ltac:(lia)) as (f1 & R1 & G1 & Gr & _).
    destruct (read_good V fill frequencies npoints k2 dbg k3 kind REG MAXCLASS GRID mu bias f1 n _ _ _ _ 1 s1 junk G1 eq_refl C1) as (t & Rd & _ & _).
    destruct (solve (with_run V c t) 1) as [|[[s b] v] steps] eqn:Es; [exfalso; eapply Hs; exact Es|].
    destruct (no_stats V fill frequencies npoints k2 dbg k3 kind REG MAXCLASS GRID mu bias (put V (put V d name f) name f1) name f1 n _ _ _ 1 s b v steps (put_same _ _ _ _) G1) as (f2 & R2 & _); [congruence|lia|lia|].
    exists (put V d name f), (put V (put V d name f) name f1). eexists. split; [exact W|]. split; [exact R1|].
    unfold Hdf_Model.n_loop_flow, Hdf_Model.start. rewrite (check_disk V frequencies k2 dbg k3 kind REG MAXCLASS GRID mu bias _ name f1 n _ _ _ _ (put_same _ _ _ _) G1). cbn [orb].
    change (0 <=? 1) with true. cbv iota. unfold Hdf_Model.read_state. rewrite put_same, Rd, Es. exact R2.
  Qed.
End Props.
Print Assumptions C62_history.
Print Assumptions C62_out_of_range.
Print Assumptions C63_append_refuted.
Print Assumptions C63_append_layer_refuted.
Print Assumptions C63_converged_refuted.
Print Assumptions C63_restart_refuted.
Print Assumptions C63_parquet_refuted.
Print Assumptions C63_first_partial.
Print Assumptions C63_resume_partial.
Print Assumptions C63_parquet_partial.
Print Assumptions C64_refuted.
Print Assumptions C64_partial.
Print Assumptions C64_resume_partial.
Print Assumptions C102_partial.
Print Assumptions C102_creation_refuted.
Print Assumptions C102_parameters_refuted.
Print Assumptions C102_statistics_refuted.

(** ** concrete files: data are integers, the two-particle part has class 1 and 2 *)
Definition ex_np (a b c : Z) : Z := a + b + 10 * c.
Definition ex_conf : config := {| nODE := Some 50; eps_abs := Some (1 # 1000)%Q; eps_rel := Some (1 # 100)%Q; cU := 1%Q; cT := (1 # 100)%Q; cGamma := (1 # 5)%Q; ceps := 0%Q; save := true; nloops := 2; nodes := 4 |}.
Definition ex_state (v : Z) : state Z :=
  {| mem := fun m => match m with MLambda => v | MSigma => v + 1 | MK1 Ca => v + 2 | MK2 Cp => v + 3 | _ => v + 4 end;
     grid := fun _ f => match f with FType => 1 | FClass => 2 | FPositive => 3 | FNumber => 33 | FUpper => v | _ => v + 5 end; conf := ex_conf |}.
Lemma ex_constructed v : constructed Z ex_np true false false (ex_state v). Proof. intros g _. reflexivity. Qed.
Definition ex_kind (g : gslot) : gkind := match g with GK1 _ => Hybrid | GK2w _ => Angular | _ => Elias end.
Definition ex_write := write_state Z 0 (fun g => g FUpper) true false false ex_kind 2 2 0 0 0.
Definition ex_add := add_state Z 0 (fun g => g FUpper) true false false ex_kind 2 2 0 0 0.
Definition ex_read := read_state Z 0 ex_np true false false ex_kind (ex_state 0).

(** C102 fails also for appended layers: the number of the new layer is stored before its frequency grids, interrupted in between the file reports a layer whose grids are empty. *)
Definition safe_append : Prop :=
  forall d d' name n s0 s1 k f, write_state Z 0 (fun g => g FUpper) true false false ex_kind 2 2 0 0 0 d name n s0 false = (d', None) -> 2 <= n -> d' name = Some f ->
    constructed Z ex_np true false false s0 -> constructed Z ex_np true false false s1 ->
    let f' := fst (run Z 0 (firstn k (write_ops Z (fun g => g FUpper) true false false ex_kind 2 2 0 0 0 s1 1 n true true false)) f) in
    exists it, check_convergence Z (put Z d' name f') name = Val (false, it) /\ holds Z 0 ex_np true false false ex_kind (put Z d' name f') name it (if it =? 0 then s0 else s1).
Definition ex_disk : disk Z := fst (ex_write (fun _ => None) "a" 2 (ex_state 7) false).
Definition ex_file : file Z := match ex_disk "a" with Some f => f | None => empty_file Z end.
Definition ex_crashed : disk Z := put Z ex_disk "a" (fst (run Z 0 (firstn 22 (write_ops Z (fun g => g FUpper) true false false ex_kind 2 2 0 0 0 (ex_state 9) 1 2 true true false)) ex_file)).
Lemma ex_crashed_check : check_convergence Z ex_crashed "a" = Val (false, 1). Proof. vm_compute. reflexivity. Qed.
Lemma ex_crashed_read : match ex_read ex_crashed "a" 1 with Val t => grid Z t GSigma FUpper | Exn _ => -1 end = 0. Proof. vm_compute. reflexivity. Qed.
Theorem C102_grids_refuted : ~ safe_append.
Proof.
  intros H. destruct (H (fun _ => None) ex_disk "a" 2 (ex_state 7) (ex_state 9) 22%nat ex_file) as (it & Ck & Ho).
  - unfold ex_disk, ex_write. destruct (write_state _ _ _ _ _ _ _ _ _ _ _ _ _ _ _ _ _) as [d e] eqn:E. cbn [fst]. f_equal. apply (f_equal snd) in E. cbn [snd] in E. rewrite <- E. vm_compute. reflexivity.
  - lia.
  - unfold ex_file. destruct (ex_disk "a") eqn:E; [reflexivity|]. apply (f_equal (fun o => match o with Some _ => true | None => false end)) in E. vm_compute in E. discriminate.
  - apply ex_constructed.
  - apply ex_constructed.
  - fold ex_crashed in Ck, Ho. rewrite ex_crashed_check in Ck. injection Ck as <-. destruct (Ho (ex_state 0)) as (t & R & _ & G). change (ex_read ex_crashed "a" 1 = Val t) in R. pose proof ex_crashed_read as X. rewrite R in X.
    specialize (G GSigma I FUpper I). rewrite X in G. vm_compute in G. discriminate.
Qed.
Print Assumptions C102_grids_refuted.

(** C62: two layers of a file with three, the second one saved twice, then outside. *)
Example C62_history_hyp :
  let d1 := fst (ex_write (fun _ => None) "a" 3 (ex_state 7) false) in
  let d2 := fst (ex_add d1 "a" 2 (ex_state 8) false) in
  let d3 := fst (ex_add d2 "a" 2 (ex_state 9) true) in
  constructed Z ex_np true false false (ex_state 7) /\ check_convergence Z d3 "a" = Val (true, 2) /\
  (match ex_read d3 "a" 2 with Val t => mem Z t (MK2 Cp) = 12 /\ grid Z t (GK2w Ct) FNumber = 33 /\ grid Z t GSigma FUpper = 9 | Exn _ => False end) /\
  (match ex_read d3 "a" 0 with Val t => mem Z t (MK2 Cp) = 10 | Exn _ => False end) /\
  latest Z [(0, ex_state 7, false); (2, ex_state 8, false); (2, ex_state 9, true)] 2 = Some (ex_state 9).
Proof. split; [apply ex_constructed|]. vm_compute. repeat split. Qed.
Example C62_out_of_range_hyp :
  let d1 := fst (ex_write (fun _ => None) "a" 3 (ex_state 7) false) in
  snd (ex_write (fun _ => None) "a" 3 (ex_state 7) false) = None /\ snd (ex_add d1 "a" 3 (ex_state 8) true) = None /\ check_convergence Z (fst (ex_add d1 "a" 3 (ex_state 8) true)) "a" = Val (false, 0).
Proof. vm_compute. repeat split. Qed.
(** C63: restarting at layer 1 of a file with layers 0, 1, 2 *)
Example C63_restart_hyp :
  let d1 := fst (ex_write (fun _ => None) "a" 4 (ex_state 7) false) in
  let d2 := fst (ex_add d1 "a" 1 (ex_state 8) false) in
  let d3 := fst (ex_add d2 "a" 2 (ex_state 9) false) in
  let r := restart Z 0 (fun g => g FUpper) ex_np true false false ex_kind 2 2 0 0 0 (ex_state 0) (fun s i => [(s, false, (1, 2, 3))]) d3 "a" 4 1 in
  (match ex_read d3 "a" 1 with Val t => mem Z t MSigma = 9 | Exn _ => False end) /\ snd r = Some FileI /\
  (match ex_read (fst r) "a" 1 with Val t => mem Z t MSigma = 0 | Exn _ => False end) /\ (match ex_read (fst r) "a" 0 with Val t => mem Z t MSigma = 9 | Exn _ => False end).
Proof. vm_compute. repeat split. Qed.
Example C63_parquet_hyp :
  let d1 := fst (ex_write (fun _ => None) "a" 5 (ex_state 7) false) in
  let d2 := fst (ex_add d1 "a" 1 (ex_state 8) false) in
  check_convergence Z d2 "a" = Val (false, 1) /\ constructed Z ex_np true false false (ex_state 8).
Proof. split; [vm_compute; reflexivity|apply ex_constructed]. Qed.
(** a solver that makes two steps unless too close to the last layer; started three times with five layers *)
Definition ex_solve (s : state Z) (i : Z) : list (state Z * bool * (Z * Z * Z)) :=
  if i + 2 <? 5 then [(ex_state (mem Z s MLambda - 1), false, (1, 2, 3)); (ex_state (mem Z s MLambda - 2), i =? 2, (4, 5, 6))] else [].
Example C63_resume_hyp :
  admissible Z ex_np true false false 5 (ex_state 20, ex_solve) /\
  let r := sessions Z 0 (fun g => g FUpper) ex_np true false false ex_kind 2 2 0 0 0 (fun _ => None) "a" ex_conf 5 [((ex_state 20, ex_solve), ex_state 0); ((ex_state 20, ex_solve), ex_state 0); ((ex_state 20, ex_solve), ex_state 0)] in
  snd r = None /\ check_convergence Z (fst r) "a" = Val (true, 4) /\ map (fun i => match ex_read (fst r) "a" i with Val t => mem Z t MLambda | Exn _ => 0 end) [0; 1; 2; 3; 4] = [20; 19; 18; 17; 16].
Proof.
  split.
  - split; [apply ex_constructed|]. cbn [fst snd]. split.
    + intros s i Hi. unfold ex_solve. destruct (Z.ltb_spec (i + 2) 5); cbn [length]; lia.
    + intros s i x. unfold ex_solve. destruct (i + 2 <? 5); [|intros []]. intros [<-|[<-|[]]]; apply ex_constructed.
  - vm_compute. repeat split.
Qed.
(** C64: what is restored of the configuration [ex_conf] *)
Example C64_hyp :
  let d1 := fst (ex_write (fun _ => None) "a" 5 (ex_state 7) false) in
  match ex_read d1 "a" 0 with Val t => conf Z t <> ex_conf /\ nODE (conf Z t) = None /\ cU (conf Z t) = cU ex_conf /\ nloops (conf Z t) = 2 /\ save (conf Z t) <> save ex_conf | Exn _ => False end.
Proof. vm_compute. repeat split; discriminate. Qed.
(** C102: saving layer 1 in a file that holds layer 0, interrupted after eleven operations *)
Example C102_hyp :
  let d1 := fst (ex_write (fun _ => None) "a" 5 (ex_state 7) false) in
  match d1 "a" with
  | Some f => let f' := fst (run Z 0 (firstn 11 (write_ops Z (fun g => g FUpper) true false false ex_kind 2 2 0 0 0 (ex_state 8) 1 5 true true true)) f) in
              check_convergence Z (put Z d1 "a" f') "a" = Val (false, 0) /\ (match ex_read (put Z d1 "a" f') "a" 0 with Val t => mem Z t MSigma = 8 | Exn _ => False end) /\ (11 <= S (length (root_table true false false)))%nat
  | None => False
  end.
Proof. vm_compute. repeat split. repeat constructor. Qed.
