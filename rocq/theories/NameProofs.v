(** Names: in histories the table of names and the registrations agree; in every schedule no process
    owns two names. *)
From stdpp Require Import base list gmap numbers strings countable sorting relations.
From Coq Require Import Lia.
From Verif Require Import Prog ProgProofs ProgInv Types Mailbox World ProcApi NodeApi Api Steps Hist Labels SchedSpec Msum SchedProofs ProcSpec ProcProofs ProcInv RegProofs.

Record names_inv (w : world) : Prop := NamesInv {
  ni_agree : forall n i, w_names w !! n = Some i <-> exists r, w_regs w !! i = Some r /\ r_name r = Some n;
  ni_fresh : forall i r, w_regs w !! i = Some r -> (i < w_next_pid w)%N }.
Definition nmild (x : act) : Prop :=
  match x with ANameDelete _ | AUnname _ | ARegDelete _ | AInsert _ => False | _ => True end.
Lemma names_inv_eq w w' : w_names w' = w_names w -> (forall i, r_name <$> w_regs w' !! i = r_name <$> w_regs w !! i) ->
  w_next_pid w' = w_next_pid w -> names_inv w -> names_inv w'.
Proof.
  intros E1 E2 E3 [H1 H2]. constructor.
  - intros n i. rewrite E1, H1. specialize (E2 i).
    destruct (w_regs w !! i) as [r|], (w_regs w' !! i) as [r'|]; cbn in *; try discriminate; [|split; intros (?&?&?); discriminate].
    injection E2 as E2. split; intros (? & [= <-] & ?); eexists; split; [reflexivity|congruence|reflexivity|congruence].
  - intros i r Hr. rewrite E3. specialize (E2 i). rewrite Hr in E2. destruct (w_regs w !! i) as [r'|] eqn:E; [by eapply H2 | discriminate].
Qed.
Lemma register_inv S i n w : names_inv w -> names_inv (does S (ARegister (PLocal i) n) w).
Proof.
  intros [H1 H2]. cbn. unfold register_op. destruct (w_names w !! n) eqn:En; [case_decide; by constructor|].
  destruct (w_regs w !! i) as [r|] eqn:Er; [|by constructor]. destruct (r_name r) as [s|] eqn:Em; [by constructor|].
  constructor; cbn.
  - intros m j. destruct (decide (m = n)) as [->|Hmn].
    + rewrite lookup_insert. split.
      * intros [= <-]. rewrite lookup_insert. eexists. split; [reflexivity|reflexivity].
      * intros (r' & Hr' & Hn'). destruct (decide (j = i)) as [->|Hne]; [reflexivity|]. rewrite lookup_insert_ne in Hr' by congruence.
        assert (w_names w !! n = Some j) as E by (apply H1; eauto). congruence.
    + rewrite lookup_insert_ne by congruence. rewrite H1. destruct (decide (j = i)) as [->|Hne].
      * rewrite Er, lookup_insert. split; [intros (r' & [= <-] & ?); congruence | intros (r' & [= <-] & Hn); cbn in Hn; congruence].
      * by rewrite lookup_insert_ne by congruence.
  - intros j r'. rewrite lookup_insert_Some. intros [[<- _]|[_ ?]]; by eapply H2.
Qed.
Lemma quiet_inv S x w : nmild x -> (forall i n, x <> ARegister (PLocal i) n) -> names_inv w -> names_inv (does S x w).
Proof.
  intros Hx Hr [H1 H2].
  assert (forall n, w_names (does S x w) !! n = w_names w !! n) as Hnames.
  { intros n. destruct (names_change S n x w) as [|i r E| ->]; [reflexivity|by destruct (Hr i n)|done]. }
  pose proof (does_next_pid S x w) as Hnp.
  assert (forall j, r_name <$> w_regs (does S x w) !! j = r_name <$> w_regs w !! j \/
       j = w_next_pid w /\ w_regs (does S x w) !! j = Some new_reg /\ (j < w_next_pid (does S x w))%N) as Hregs.
  { intros j. destruct (regs_change S j x w) as [|why|n r E| -> |b ->|y ->| -> | -> |E]; try done; auto; try (left; destruct (w_regs w !! j); reflexivity).
    by destruct (Hr j n). }
  constructor.
  - intros n i. rewrite Hnames, H1. destruct (Hregs i) as [E|(-> & E & _)].
    + destruct (w_regs w !! i) as [r|], (w_regs (does S x w) !! i) as [r'|]; cbn in *; try discriminate; [|split; intros (?&?&?); discriminate].
      injection E as E. split; intros (? & [= <-] & ?); eexists; split; [reflexivity|congruence|reflexivity|congruence].
    + rewrite E. split; [intros (r & Hr' & _); apply H2 in Hr'; lia | intros (r & [= <-] & ?); discriminate].
  - intros i r E. destruct (Hregs i) as [E'|(_ & _ & ?)]; [|assumption]. rewrite E in E'.
    destruct (w_regs w !! i) as [r'|] eqn:Ei; [apply H2 in Ei; lia | discriminate].
Qed.
Lemma nmild_inv S x w : nmild x -> names_inv w -> names_inv (does S x w).
Proof.
  intros Hx Hw.
  assert ((forall i n, x <> ARegister (PLocal i) n) -> names_inv (does S x w)) as H by (intros; by apply quiet_inv).
  destruct x; try contradiction; try (apply H; discriminate). destruct p; [by apply register_inv | apply H; discriminate].
Qed.
Lemma spawned_inv w w' : w_names w' = w_names w -> w_regs w' = <[w_next_pid w := new_reg]> (w_regs w) ->
  w_next_pid w' = N.succ (w_next_pid w) -> names_inv w -> names_inv w'.
Proof.
  intros E1 E2 E3 [H1 H2]. constructor.
  - intros n i. rewrite E1, E2, H1. destruct (decide (i = w_next_pid w)) as [->|Hne].
    + rewrite lookup_insert. split; [intros (r & Hr & _); apply H2 in Hr; lia | intros (r & [= <-] & ?); discriminate].
    + by rewrite lookup_insert_ne by congruence.
  - intros i r. rewrite E2, E3, lookup_insert_Some. intros [[<- _]|[_ Hr]]; [lia|]. apply H2 in Hr. lia.
Qed.
Lemma run_spawn_inv me l m w : names_inv w -> exists w' x, run (spawn me l m) w = Done w' x /\ names_inv w'.
Proof.
  intros H. destruct l, m; cbn; eexists _, _; (split; [reflexivity|]); by apply (spawned_inv w).
Qed.
Lemma quiet_run S (F : act -> Prop) {A} (p : prog world A) w :
  guar (lstep S F) p -> (forall x, F x -> nmild x) -> names_inv w -> names_inv (out_world (run p w)).
Proof.
  intros Hg HF Hw. pose proof (post_run names_inv (fun _ => True) p w) as H.
  assert (post names_inv (fun _ : A => True) p) as Hp.
  { eapply post_guar; [|exact Hg]. intros v v' (x & Hx & ->). apply nmild_inv. auto. }
  specialize (H Hp Hw). destruct (run p w); cbn; tauto.
Qed.
Lemma run_drop_inv S me w : occurs S w -> names_inv w -> names_inv (out_world (run (drop_process me) w)).
Proof.
  intros Ho [H1 H2].
  assert (w_next_pid w <= w_next_pid (out_world (run (drop_process me) w)))%N as Hnp.
  { apply (run_guar (fun a b => (w_next_pid a <= w_next_pid b)%N)); [intros; lia|intros; lia|].
    eapply guar_mono; [|apply (l_finish S)]. intros a b (x & _ & ->). apply does_next_pid. }
  destruct (w_regs w !! me) as [r|] eqn:Er.
  - destruct (drop_spec me w r Er (occurs_named S w Ho me)) as (w' & E & Hx). rewrite E in Hnp |- *. cbn [out_world] in *. clear E.
    assert (forall j, j <> me -> r_name <$> w_regs w' !! j = r_name <$> w_regs w !! j) as Hregs.
    { intros j Hj. rewrite (ex_regs _ _ _ _ _ Hx j Hj). destruct (linked w me j); [|reflexivity].
      destruct (w_regs w !! j) as [r'|]; cbn; [|reflexivity]. unfold signalled, terminated. by repeat case_match. }
    assert (forall n, w_names w' !! n = match w_names w !! n with Some i => if decide (i = me) then None else Some i | None => None end) as Hnames.
    { intros n. rewrite (ex_names _ _ _ _ _ Hx). destruct (w_names w !! n) as [i|] eqn:En.
      - pose proof (proj1 (H1 n i) En) as (r' & Hr' & Hn'). case_decide; subst.
        + rewrite Er in Hr'. injection Hr' as <-. rewrite Hn'. by rewrite lookup_delete.
        + destruct (r_name r) as [m|] eqn:Em; [|exact En]. rewrite lookup_delete_ne; [exact En|]. intros ->.
          assert (w_names w !! n = Some me) by (apply H1; eauto). congruence.
      - case_match; [|exact En]. apply lookup_delete_None. auto. }
    constructor.
    + intros n i. rewrite Hnames. destruct (decide (i = me)) as [->|Hne].
      * rewrite (ex_reg _ _ _ _ _ Hx). split; [|intros (?&?&?); discriminate]. repeat case_match; congruence.
      * assert ((match w_names w !! n with Some i0 => if decide (i0 = me) then None else Some i0 | None => None end = Some i) <-> w_names w !! n = Some i) as ->.
        { destruct (w_names w !! n) as [j|]; [|tauto]. case_decide; split; congruence. }
        rewrite H1. specialize (Hregs i Hne).
        destruct (w_regs w !! i) as [r1|], (w_regs w' !! i) as [r2|]; cbn in *; try discriminate; [|split; intros (?&?&?); discriminate].
        injection Hregs as Hregs. split; intros (? & [= <-] & ?); eexists; split; [reflexivity|congruence|reflexivity|congruence].
    + intros i r'. destruct (decide (i = me)) as [->|Hne]; [by rewrite (ex_reg _ _ _ _ _ Hx)|]. intros Hr'. specialize (Hregs i Hne).
      rewrite Hr' in Hregs. destruct (w_regs w !! i) eqn:E0; [|discriminate]. apply H2 in E0. lia.
  - unfold drop_process. rewrite run_bind, run_atom. cbn [fst snd]. rewrite Er. cbn. apply (names_inv_eq w); [reflexivity| |reflexivity|by constructor].
    intros i. cbn. by rewrite delete_notin.
Qed.
Lemma happens_names S c w w' : occurs S w -> names_inv w -> happens S c w w' -> names_inv w'.
Proof.
  intros Ho Hw Hh.
  assert (forall (p : prog world val), call_prog S c = p -> names_inv (out_world (run p w)) -> names_inv w') as Hout.
  { intros p <-. destruct Hh as [v E|m E]; rewrite E; cbn; auto. }
  assert ((forall x, fp S c x -> nmild x) -> names_inv w') as Hq.
  { intros H. eapply Hout; [reflexivity|]. eapply quiet_run; [apply call_fp|exact H|exact Hw]. }
  assert (forall {A} (p : prog world A) (f : A -> val), call_prog S c = ret_as f p -> names_inv (out_world (run p w)) -> names_inv w') as Hret.
  { intros A p f E H. eapply Hout; [exact E|]. unfold ret_as. rewrite run_bind. destruct (run p w); exact H. }
  destruct c; try (apply Hq; intros []; cbn; unfold fp_send, fp_destroy_timer, fp_fire, fp_exit; cbn; done).
  - (* spawn *) eapply Hret; [reflexivity|]. destruct (run_spawn_inv me link monitor w Hw) as (w1 & x & -> & H). exact H.
  - (* unregister *) eapply Hret; [reflexivity|]. unfold unregister. rewrite run_bind, run_atom. cbn [fst snd].
    destruct (w_names w !! n) as [i|] eqn:En.
    + cbn. destruct Hw as [H1 H2]. destruct (proj1 (H1 n i) En) as (r & Er & Em). constructor; cbn.
      * intros m j. rewrite alter_reg. destruct (decide (m = n)) as [->|Hmn].
        -- rewrite lookup_delete. split; [discriminate|]. intros (r' & Hr' & Hn'). case_decide; subst.
           ++ rewrite Er in Hr'. injection Hr' as <-. discriminate.
           ++ assert (w_names w !! n = Some j) by (apply H1; eauto). congruence.
        -- rewrite lookup_delete_ne by congruence. rewrite H1. case_decide; [subst|reflexivity]. rewrite Er. cbn.
           split; intros (r' & [= <-] & ?); [congruence | discriminate].
      * intros j r'. rewrite alter_reg. case_decide; subst; [rewrite Er; intros _; by eapply H2 | apply H2].
    + cbn. apply (names_inv_eq w); [cbn; by apply delete_notin|reflexivity|reflexivity|exact Hw].
  - (* monitor_alias *) apply Hq. intros []; cbn; unfold fp_monitor_alias, fp_monitor; naive_solver.
  - (* finish *) eapply Hret; [reflexivity|]. by apply (run_drop_inv S).
  - (* crash *) eapply Hret; [reflexivity|]. unfold crash. rewrite run_bind, run_modify. cbn [out_world].
    apply (run_drop_inv S); [|apply (nmild_inv S (ASetExit me why) w I Hw)].
    destruct Ho as [ts Hr]. eexists (ts ++ [_]). eapply rtc_r; [eapply rtc_r; [exact Hr|apply (step_call (any_call S) (call_prog S (CCrash me why))); by eexists]|].
    eapply (step_tick _ (length ts)). unfold tick; cbn [s_threads s_world]. rewrite lookup_app_r, Nat.sub_diag by lia. cbn.
    rewrite insert_app_r_alt, Nat.sub_diag by lia. reflexivity.
  - (* supervise *) eapply Hret; [reflexivity|]. unfold remote_supervisor. rewrite run_bind, run_atom. 
    pose proof (nmild_inv S (AAccept name addr (PLocal me) (PLocal me)) w I Hw) as H1. cbn [does] in H1.
    destruct (node_accept_op name addr (PLocal me) (PLocal me) w) as [w1 [|]]; cbn [fst snd negb] in *; [|exact H1].
    destruct (run_spawn_inv me true false w1 H1) as (w2 & s & E2 & H2). rewrite run_bind, E2.
    destruct (run_spawn_inv me true false w2 H2) as (w3 & r & E3 & H3). rewrite run_bind, E3.
    cbn. apply (nmild_inv S (AWorkers (NRemote name addr) s.1 r.1) w3 I H3).
Qed.
Lemma seq_names S w : seq_reachable S w -> names_inv w.
Proof.
  intros [cs H]. remember world0 as w0 eqn:E0. assert (occurs S w0 /\ names_inv w0) as [Ho Hn].
  { subst. split; [apply occurs0|]. constructor; intros; cbn in *; [|set_solver]. rewrite !lookup_empty. split; [discriminate|intros (?&?&?); discriminate]. }
  clear E0. induction H as [w|w cs w1 c w2 Hh IH Hok Hc]; [exact Hn|].
  eapply happens_names; [eapply history_occurs; [exact Ho|exact Hh] | apply IH; assumption | exact Hc].
Qed.

(** ** Every schedule: a process never owns two names. *)
Section owns.
  Context (S : serde) (i : N).
  Definition is_i (j : N) : nat := if decide (j = i) then 1 else 0.
  Definition unnamed (o : option registration) : nat :=
    match o with Some r => match r_name r with None => 1 | _ => 0 end | None => 0 end.
  Definition nm_cnt (w : world) : nat := unalloc (w_next_pid w) i + unnamed (w_regs w !! i) + msum is_i (w_names w).
  Definition tmild (x : act) : Prop := match x with AUnname _ | AInsert _ => False | _ => True end.
  Lemma tmild_cnt x w : tmild x -> nm_cnt (does S x w) <= nm_cnt w.
  Proof.
    intros Hx.
    assert (forall j n, x = ARegister (PLocal j) n -> nm_cnt (does S x w) <= nm_cnt w) as Hr.
    { intros j n ->. cbn. unfold register_op. destruct (w_names w !! n) eqn:En; [case_decide; cbn; lia|].
      destruct (w_regs w !! j) as [r|] eqn:Er; [|cbn; lia]. destruct (r_name r) eqn:Em; [cbn; lia|]. unfold nm_cnt; cbn.
      rewrite msum_insert_fresh by exact En. unfold is_i at 1. case_decide; subst.
      - rewrite lookup_insert, Er. cbn. rewrite Em. lia.
      - rewrite lookup_insert_ne by congruence. lia. }
    assert (forall n, x = ANameDelete n -> nm_cnt (does S x w) <= nm_cnt w) as Hd.
    { intros n ->. unfold nm_cnt; cbn. pose proof (msum_delete is_i (w_names w) n). lia. }
    assert ((forall j n, x <> ARegister (PLocal j) n) -> (forall n, x <> ANameDelete n) -> nm_cnt (does S x w) <= nm_cnt w) as Hq.
    { intros H1 H2. assert (w_names (does S x w) = w_names w) as Hn.
      { apply map_eq; intros n. destruct (names_change S n x w) as [|j r E|E]; [reflexivity|by destruct (H1 j n)|by destruct (H2 n)]. }
      unfold nm_cnt. rewrite Hn. pose proof (does_next_pid S x w) as Hnp.
      destruct (regs_change S i x w) as [|why|n r E|E|b E|y E|E|E|E Hlt].
      - pose proof (unalloc_mono _ _ i Hnp). lia.
      - pose proof (unalloc_mono _ _ i Hnp). destruct (w_regs w !! i) as [r|]; cbn; lia.
      - by destruct (H1 i n).
      - by rewrite E in Hx.
      - pose proof (unalloc_mono _ _ i Hnp). destruct (w_regs w !! i) as [r|]; cbn; lia.
      - pose proof (unalloc_mono _ _ i Hnp). destruct (w_regs w !! i) as [r|]; cbn; lia.
      - pose proof (unalloc_mono _ _ i Hnp). cbn. lia.
      - by rewrite E in Hx.
      - unfold unalloc. rewrite E in *. rewrite decide_False by lia. rewrite decide_True by lia. cbn. lia. }
    destruct x; try contradiction; try (apply Hq; discriminate); [|by eapply Hd].
    destruct p; [by eapply Hr | apply Hq; discriminate].
  Qed.
  Notation tk := (tok (fun _ : world => True) nm_cnt).
  Definition keeps {A} h : A -> nat -> Prop := fun _ h' => h' = h.
  Lemma nt_quiet {A} (F : act -> Prop) h (p : prog world A) : guar (lstep S F) p -> (forall x, F x -> tmild x) -> tk (keeps h) h p.
  Proof.
  intros Hg HF. apply tok_of_guar; [|intros; reflexivity]. eapply guar_mono; [|exact Hg]. cbn. intros w w' (x & Hx & ->). split; [auto|]. apply tmild_cnt. auto.
  Qed.
  Lemma nt_do h f x : (forall w, f w = does S x w) -> tmild x -> tk (keeps h) h (modify f).
  Proof. intros Hf Hx. apply tok_modify. intros w _. split; [exact I|]. exists h. rewrite Hf. pose proof (tmild_cnt x w Hx). split; [lia|reflexivity]. Qed.
  Ltac nseq := eapply (tok_bind _ _ (keeps _)); [|intros ? ? ->].
  Lemma nt_spawn me l m h : tk (keeps h) h (spawn me l m).
  Proof.
    unfold spawn. eapply (tok_bind _ _ (fun j h' => h' = is_i j + h)).
    { apply tok_atom. intros w _. split; [exact I|]. cbn. exists (is_i (w_next_pid w) + h). split; [|reflexivity].
      unfold nm_cnt; cbn. pose proof (unalloc_take (w_next_pid w) i) as H. unfold is_i. repeat case_decide; lia. }
    intros j h' ->. nseq.
    { destruct l; [|reflexivity]. nseq; [by apply (nt_do _ _ (AAddLink j (PLocal me))) | by apply (nt_do _ _ (AAddLink me (PLocal j)))]. }
    nseq.
    { destruct m; [|reflexivity]. nseq; [apply (nt_quiet (fun x => x = AFreshRef)); [apply guar_atom; intros; by exists AFreshRef | by intros ? ->]|].
      nseq; [by apply (nt_do _ _ (AOwnMonitor me a0 (MForProcess (Some (PLocal j)))))|].
      nseq; [by apply (nt_do _ _ (AAddMon j a0 (PLocal me) (Some (DPid (PLocal j)))))|reflexivity]. }
    nseq; [by apply (nt_do _ _ (ARunning j))|]. eapply (tok_bind _ _ (keeps h)); [|intros ? ? ->; reflexivity].
    apply tok_modify. intros w _. split; [exact I|]. exists h. split; [|reflexivity]. unfold nm_cnt, is_i; cbn.
    case_decide; subst; [rewrite lookup_insert; cbn; lia | rewrite lookup_insert_ne by congruence; lia].
  Qed.
  Lemma call_tok_name c : tk (fun _ _ => True) 0 (call_prog S c).
  Proof.
    assert ((forall x, fp S c x -> tmild x) -> tk (fun _ _ => True) 0 (call_prog S c)) as Hm.
    { intros H. eapply tok_mono; [|eapply (nt_quiet (fp S c)); [apply call_fp | exact H]]. auto. }
    destruct c; try (apply Hm; intros []; cbn; unfold fp_send, fp_destroy_timer, fp_fire, fp_exit; cbn; done); cbn [call_prog]; unfold ret_as.
    - nseq; [apply nt_spawn | exact I].
    - eapply (tok_bind _ _ (fun _ _ => True)); [|intros; exact I]. unfold unregister.
      eapply (tok_bind _ _ (fun o h => h = match o with Some j => is_i j | None => 0 end)).
      { apply tok_atom. intros w _. split; [exact I|]. cbn. eexists. split; [|reflexivity]. unfold nm_cnt; cbn.
        pose proof (msum_delete is_i (w_names w) n). destruct (w_names w !! n); lia. }
      intros [j|] h ->; [|exact I]. apply tok_modify. intros w _. split; [exact I|]. exists 0. split; [|exact I].
      unfold nm_cnt, is_i; cbn. rewrite alter_reg. repeat case_decide; try congruence; try lia. destruct (w_regs w !! i); cbn; lia.
    - apply Hm. intros []; cbn; unfold fp_monitor_alias, fp_monitor; naive_solver.
    - apply Hm. intros []; cbn; unfold fp_crash, fp_finish; naive_solver.
    - nseq; [|exact I]. unfold remote_supervisor. nseq.
      { apply tok_atom. intros w _. split; [exact I|]. exists 0. split; [|reflexivity]. pose proof (tmild_cnt (AAccept name addr (PLocal me) (PLocal me)) w I). cbn in *. lia. }
      destruct (negb _); [exact I|]. eapply (tok_bind _ _ (keeps _)); [apply nt_spawn|intros p1 ? ->]. eapply (tok_bind _ _ (keeps _)); [apply nt_spawn|intros p2 ? ->].
      nseq; [by apply (nt_do _ _ (AWorkers (NRemote name addr) p1.1 p2.1))|reflexivity].
  Qed.
  Lemma reachable_owned s : reachable S s -> nm_cnt (s_world s) <= 1.
  Proof.
    intros Hr. destruct (reach_tok (fun _ => True) nm_cnt (fun _ => 0) (any_call S) world0 s I) as [_ H]; [|exact Hr|].
    - intros p [c ->]. eapply tok_mono; [|apply call_tok_name]. cbn. lia.
    - assert (nm_cnt world0 <= 1); [|lia]. unfold nm_cnt, unalloc. cbn [w_next_pid w_regs w_names world0]. rewrite lookup_empty, msum_empty. cbn [unnamed]. case_decide; lia.
  Qed.
  Lemma owns_one (w : world) n n' : nm_cnt w <= 1 -> w_names w !! n = Some i -> w_names w !! n' = Some i -> n = n'.
  Proof.
    intros Hc H1 H2. destruct (decide (n = n')) as [|Hne]; [assumption|]. exfalso.
    unfold nm_cnt in Hc. rewrite (msum_lookup is_i _ n i H1) in Hc.
    rewrite (msum_lookup is_i (delete n (w_names w)) n' i) in Hc by (by rewrite lookup_delete_ne by congruence).
    unfold is_i in Hc. rewrite decide_True in Hc by reflexivity. lia.
  Qed.
End owns.

(** ** A name stays with its process. *)
Section stays.
  Context (S : serde) (i : N) (n : string).
  Record held (w : world) : Prop := Held {
    hd_name : w_names w !! n = Some i;
    hd_only : forall j r, j <> i -> w_regs w !! j = Some r -> r_name r <> Some n }.
  Lemma held_act x w : x <> ANameDelete n -> held w -> held (does S x w).
  Proof.
    intros Hx [H1 H2]. constructor.
    - destruct (names_change S n x w) as [|j r E E'|E]; [exact H1|congruence|congruence].
    - intros j r Hj. destruct (regs_change S j x w) as [|why|m r0 E En Er Em|E|b E|y E|E|E|E Hlt]; [by apply H2| |..].
      + destruct (w_regs w !! j) as [r'|] eqn:Er; [|discriminate]. intros [= <-]. cbn. by apply (H2 j).
      + intros [= <-]. cbn. congruence.
      + destruct (w_regs w !! j) as [r'|] eqn:Er; [|discriminate]. intros [= <-]. discriminate.
      + destruct (w_regs w !! j) as [r'|] eqn:Er; [|discriminate]. intros [= <-]. cbn. by apply (H2 j).
      + destruct (w_regs w !! j) as [r'|] eqn:Er; [|discriminate]. intros [= <-]. cbn. by apply (H2 j).
      + discriminate.
      + intros [= <-]. discriminate.
      + intros [= <-]. discriminate.
  Qed.
  Notation ok := (post held (fun _ => True)).
  Ltac okseq := eapply (post_bind _ (fun _ => True)); [|intros ? _].
  Lemma hok_guar {A} (F : act -> Prop) (p : prog world A) : (forall x, F x -> x <> ANameDelete n) -> guar (lstep S F) p -> ok p.
  Proof. intros HF. apply post_guar. intros w w' (x & Hx & ->). apply held_act. auto. Qed.
  Lemma hok_drop j : j <> i -> ok (drop_process j).
  Proof.
    intros Hj. unfold drop_process. eapply (post_bind _ (fun o => forall r, o = Some r -> r_name r <> Some n)).
    { apply post_atom. intros w Hw. split; [apply (held_act (ARegDelete j) w); [discriminate|exact Hw]|]. cbn. intros r Er.
      exact (hd_only w Hw j r Hj Er). }
    intros [r|] Hr.
    - okseq.
      + destruct (r_name r) as [m|] eqn:Em; [|exact I]. apply post_modify; [|exact I]. intros w Hw.
        apply (held_act (ANameDelete m) w); [|exact Hw]. intros [= ->]. by apply (Hr r).
      + apply (hok_guar (fp_tail j)); [|apply (l_tail S)]. intros [] H; try discriminate. by cbn in H.
    - okseq; [|exact I]. apply post_modify; [|exact I]. intros w Hw. apply (held_act (AGone j) w); [discriminate|exact Hw].
  Qed.
  Lemma hok_call c : leaves_name i n c -> ok (call_prog S c).
  Proof.
    intros Hc.
    assert ((forall x, fp S c x -> x <> ANameDelete n) -> ok (call_prog S c)) as Hm.
    { intros H. eapply hok_guar; [exact H|apply call_fp]. }
    destruct c; try (apply Hm; intros [] Hfp; try discriminate; cbn in Hfp; unfold fp_send, fp_destroy_timer, fp_fire, fp_exit in Hfp; cbn in Hfp; done); cbn [call_prog]; cbn in Hc; unfold ret_as.
    - apply Hm. intros [] H; try discriminate; cbn in H. congruence.
    - apply Hm. unfold fp_monitor_alias. intros [] H; try discriminate; cbn in H. destruct H as [[]|[]].
    - okseq; [by apply hok_drop|exact I].
    - okseq; [|exact I]. unfold crash. okseq; [|by apply hok_drop].
      apply post_modify; [|exact I]. intros w Hw. apply (held_act (ASetExit me why) w); [discriminate|exact Hw].
  Qed.
  Lemma reach_held w s : held w -> reach (calls_of S (leaves_name i n)) (Sys w []) s -> held (s_world s).
  Proof.
    intros Hw Hr. refine (proj1 (reach_safe held _ (Sys w []) s _ Hw _ Hr)); [|constructor].
    intros p (c & Hc & ->). by eapply post_safe, hok_call.
  Qed.
End stays.
