From Coq Require Import QArith String.
From Verif Require Import Prelude Hdf_Model Hdf_Spec Hdf_Proofs Hdf_Proofs2 Hdf_Proofs3.
Open Scope string_scope.
Open Scope list_scope.
Open Scope Z_scope.

Section P.
  Variable V : Type.
  Variable fill : V.
  Variable frequencies : (gfield -> V) -> V.
  Variable npoints : V -> V -> V -> V.
  Variables (k2 dbg k3 : bool) (kind : gslot -> gkind) (REG MAXCLASS GRID : Z) (mu bias : Q).
  Notation state := (state V).
  Notation file := (file V).
  Notation disk := (disk V).
  Notation run := (run V fill).
  Notation good := (good V frequencies k2 dbg k3 kind REG MAXCLASS GRID mu bias).
  Notation write_state := (write_state V fill frequencies k2 dbg k3 kind REG MAXCLASS GRID mu bias).
  Notation add_state := (add_state V fill frequencies k2 dbg k3 kind REG MAXCLASS GRID mu bias).
  Notation read_file := (read_file V fill npoints k2 dbg k3 kind).
  Notation read_state := (read_state V fill npoints k2 dbg k3 kind).
  Notation holds := (holds V fill npoints k2 dbg k3 kind).
  Notation same := (same V k2 dbg k3 kind).
  Notation constructed := (constructed V npoints k2 dbg k3).
  Notation flow_saves := (flow_saves V fill frequencies k2 dbg k3 kind REG MAXCLASS GRID mu bias).
  Notation restart := (restart V fill frequencies npoints k2 dbg k3 kind REG MAXCLASS GRID mu bias).
  Notation parquet_begin := (parquet_begin V fill frequencies npoints k2 dbg k3 kind REG MAXCLASS GRID mu bias).
  Notation parquet_saves := (parquet_saves V fill frequencies k2 dbg k3 kind REG MAXCLASS GRID mu bias).
  Notation save_all := (save_all V fill frequencies k2 dbg k3 kind REG MAXCLASS GRID mu bias).

  Lemma read_members_lambda f it l : forall t t', read_members V f it l t = Val t' -> ~ In MLambda (map snd l) -> mem V t' MLambda = mem V t MLambda.
  Proof.
    induction l as [|[x m] l IH]; intros t t' R N; cbn [read_members] in R; [injection R as <-; reflexivity|]. destruct (rd V f Root x it); [|discriminate]. cbn [rbind] in R.
    rewrite (IH _ _ R) by (intros H; apply N; right; exact H). cbn [set_mem mem]. destruct (member_beq MLambda m) eqn:E; [|reflexivity]. apply internal_member_dec_bl in E. exfalso. apply N. left. symmetry. exact E.
  Qed.
  Lemma read_all_grids_mem f it l : forall t t', read_all_grids V fill npoints kind f it l t = Val t' -> mem V t' = mem V t.
  Proof.
    induction l as [|[x g] l IH]; intros t t' R; cbn [read_all_grids] in R; [injection R as <-; reflexivity|]. destruct (read_grid V fill npoints f x it (kind g)); [|discriminate]. cbn [rbind] in R.
    rewrite (IH _ _ R). reflexivity.
  Qed.
  Lemma read_lambda junk f it t : read_file junk f it = Val t -> exists n l, dsets V f Root "lambdas" = Some (n, l) /\ mem V t MLambda = l it.
  Proof.
    unfold Hdf_Model.read_file, rd at 1. destruct (dsets V f Root "lambdas") as [[n l]|]; [|discriminate]. intros R. exists n, l. split; [reflexivity|].
    destruct ((it <? 0) || (n <=? it)); [discriminate|]. cbn [rbind] in R. destruct (read_config V f); [|discriminate]. cbn [rbind] in R.
    destruct (read_members V f it (read_table k2 dbg k3) _) as [s1|] eqn:R1; [|discriminate]. cbn [rbind] in R. destruct (open_all V f _); [|discriminate]. cbn [rbind] in R.
    destruct (read_all_grids V fill npoints kind f it (read_grids k2 dbg k3) s1) as [s2|] eqn:R2; [|discriminate]. cbn [rbind] in R. destruct (rd_attr V f Params "GRID"); [|discriminate]. injection R as <-.
    rewrite (read_all_grids_mem _ _ _ _ _ R2), (read_members_lambda _ _ _ _ _ R1); [reflexivity|]. destruct k2, dbg, k3; cbn; intuition discriminate.
  Qed.
  (** layers that hold nothing but the fill value *)
  Lemma blank_layer d name f n l j s : d name = Some f -> dsets V f Root "lambdas" = Some (n, l) -> l j = fill -> holds d name j s -> mem V s MLambda = fill.
  Proof.
    intros E El Hl H. destruct (H s) as (t & R & Sm & _). unfold Hdf_Model.read_state in R. rewrite E in R. destruct (read_lambda _ _ _ _ R) as (n' & l' & E' & M). rewrite El in E'. injection E' as <- <-.
    rewrite (Sm MLambda I), M, Hl. reflexivity.
  Qed.
  Lemma lambdas_entry : In (Root, "lambdas", PM MLambda) (root_entries k2 dbg k3 ++ freq_entries k2 dbg k3 kind).
  Proof. apply in_app_iff. left. unfold root_entries. apply in_map_iff. exists ("lambdas", PM MLambda). split; [reflexivity|left; reflexivity]. Qed.
  (** creating the file again *)
  Lemma rewritten d name n s d' e : 0 < n -> constructed s -> write_state d name n s false = (d', e) -> e = None /\ holds d' name 0 s /\ frame V d d' name /\ check_convergence V d' name = Val (false, 0) /\
    forall j t, j <> 0 -> holds d' name j t -> mem V t MLambda = fill.
  Proof.
    intros Hn Cs W. destruct (write_good V fill frequencies npoints k2 dbg k3 kind REG MAXCLASS GRID mu bias d name n s Hn) as (f & R & Gd & _ & _ & DD). rewrite R in W. injection W as <- <-.
    split; [reflexivity|]. split; [eapply good_holds; [apply put_same|exact Gd|reflexivity|exact Cs]|]. split; [apply put_frame|]. split; [eapply check_disk; [apply put_same|exact Gd]|].
    intros j t Hj H. eapply blank_layer; [apply put_same| | |exact H].
    - exact (DD _ lambdas_entry).
    - unfold upd. apply Z.eqb_neq in Hj. rewrite Hj. reflexivity.
  Qed.
  (** a step beyond the first needs statistics of the first *)
  Lemma no_stats d name f n c conv cont i s b v steps : d name = Some f -> good f n c conv i cont -> Hdf_Model.grp V f Stats = false -> 1 <= i -> i + 1 < n ->
    exists f1, flow_saves d name n i ((s, b, v) :: steps) = (put V (put V d name f1) name f1, Some FileI) /\ good f1 n c (conv || b) (i + 1) (put_cont V cont (i + 1) s) /\
      (forall l, dsets V f Root "lambdas" = Some (n, l) -> dsets V f1 Root "lambdas" = Some (n, upd V l (i + 1) (mem V s MLambda))).
  Proof.
    intros E Gd Gs Hi Hn. cbn [Hdf_Model.flow_saves].
    destruct (add_good V fill frequencies npoints k2 dbg k3 kind REG MAXCLASS GRID mu bias d name f n c conv i cont s (i + 1) b E Gd ltac:(lia)) as (f1 & R1 & G1 & Gr & Dr & DD). rewrite R1. unfold write_stats. rewrite put_same.
    destruct v as [[a b'] z]. cbn [stats_ops]. replace (1 <? i + 1) with true by (symmetry; apply Z.ltb_lt; lia). cbn [Hdf_Model.run step]. rewrite Gr, Gs. exists f1. split; [reflexivity|]. split; [exact G1|].
    intros l Hl. exact (DD _ l lambdas_entry Hl).
  Qed.
  Lemma same_trans s t u : same s t -> same t u -> same s u.
  Proof. intros (A1 & A2) (B1 & B2). split; [intros m Hm; rewrite A1, B1 by exact Hm; reflexivity|intros g Hg y Hy; rewrite A2, B2 by assumption; reflexivity]. Qed.
  Lemma same_constructed s t : constructed s -> same s t -> constructed t.
  Proof. intros Cs (_ & A) g Hg. rewrite <- !(A g Hg) by exact I. apply Cs. exact Hg. Qed.
  Lemma restart_lemma junk solve d name n it s0 : 1 <= it -> it + 1 < n -> constructed s0 -> holds d name it s0 -> (forall t, solve t it <> []) ->
    exists d', restart junk solve d name n it = (d', Some FileI) /\ holds d' name 0 s0 /\ forall j t, j <> 0 -> j <> it + 1 -> holds d' name j t -> mem V t MLambda = fill.
  Proof.
    intros Hi Hn Cs H Hs. unfold Hdf_Model.restart. destruct (H junk) as (t & R & Sm). rewrite R. pose proof Sm as (Sm1 & Sm2).
    destruct (write_good V fill frequencies npoints k2 dbg k3 kind REG MAXCLASS GRID mu bias d name n t ltac:(lia)) as (f & W & Gd & Gs & _ & DD). rewrite W.
    destruct (solve t it) as [|[[s b] v] steps] eqn:Es; [exfalso; apply (Hs t); exact Es|].
    assert (X : exists f1, flow_saves (put V d name f) name n it ((s, b, v) :: steps) = (put V (put V (put V d name f) name f1) name f1, Some FileI) /\
      (exists c cv la, good f1 n c cv la (put_cont V (put_cont V (fun _ => None) 0 t) (it + 1) s)) /\ dsets V f1 Root "lambdas" = Some (n, upd V (upd V (fun _ => fill) 0 (mem V t MLambda)) (it + 1) (mem V s MLambda))).
    { cbn [Hdf_Model.flow_saves].
      destruct (add_good V fill frequencies npoints k2 dbg k3 kind REG MAXCLASS GRID mu bias (put V d name f) name f n (conf V t) false 0 _ s (it + 1) b (put_same _ _ _ _) Gd ltac:(lia)) as (f1 & R1 & G1 & Gr & Dr & DD1). rewrite R1. unfold write_stats. rewrite put_same.
      destruct v as [[a b'] z]. cbn [stats_ops]. replace (1 <? it + 1) with true by (symmetry; apply Z.ltb_lt; lia). cbn [Hdf_Model.run step]. rewrite Gr, Gs. exists f1. split; [reflexivity|]. split; [eauto|].
      exact (DD1 _ _ lambdas_entry (DD _ lambdas_entry)). }
    destruct X as (f1 & R1 & (c & cv & la & G1) & L1). rewrite R1. eexists. split; [reflexivity|]. split.
    - intros junk'. destruct (good_holds V fill frequencies npoints k2 dbg k3 kind REG MAXCLASS GRID mu bias _ _ _ _ _ _ _ _ 0 t (put_same V (put V (put V d name f) name f1) name f1) G1) with (junk := junk') as (y & Ry & Sy).
      + unfold put_cont. replace (0 =? it + 1) with false by (symmetry; apply Z.eqb_neq; lia). reflexivity.
      + eapply same_constructed; eassumption.
      + exists y. split; [exact Ry|]. eapply same_trans; eassumption.
    - intros j u N1 N2 Hu. eapply blank_layer; [apply put_same|exact L1| |exact Hu]. unfold upd. apply Z.eqb_neq in N1, N2. rewrite N1, N2. reflexivity.
  Qed.
End P.
