(** Property theorems about names, exits, spawning and process information: C17, C25, C30, C32. *)
From stdpp Require Import base list gmap numbers strings countable sorting relations.
From Coq Require Import Lia.
From Verif Require Import Prog ProgProofs ProgInv Types Mailbox MailboxSpec World ProcApi NodeApi Api Steps Hist Play Labels SchedSpec Msum SchedProofs ProcSpec ProcProofs ProcInv FreshProofs RegProofs RegLife NameProofs LiveProofs SchedProps.

(** No call is in progress. *)
Definition idle (s : sys world val) : Prop :=
  Forall (fun p => match p with Atom _ _ _ => False | _ => True end) (s_threads s).

Lemma elem_map {A B} (f : A -> B) l y : y ∈ map f l <-> exists x, y = f x /\ x ∈ l.
Proof. exact (elem_of_list_fmap f l y). Qed.

(** ** C17. *)
(** register succeeds exactly for a local process that exists and that owns the name already, or has
    none while nobody owns this one; if it fails nothing changes; if it succeeds the process owns the
    name and nothing else changes. *)
Theorem C17_register :
  forall S w p n, seq_reachable S w ->
    exists w' e, run (register p n) w = Done w' e /\
      (e = None <-> exists i r, p = PLocal i /\ w_regs w !! i = Some r /\
                     (w_names w !! n = Some i \/ w_names w !! n = None /\ r_name r = None)) /\
      (e <> None -> w' = w) /\
      (e = None -> forall i, p = PLocal i -> w' = up_names (<[n := i]>) (up_regs (alter (renamed (Some n)) i) w)).
Proof.
  intros S w p n Hs. destruct (seq_names S w Hs) as [Ha _]. unfold register. eexists _, _. split; [reflexivity|].
  unfold register_op. destruct p as [i|].
  2: { cbn. split_and!; [split; [discriminate|intros (?&?&?&?); discriminate] | auto | discriminate]. }
  destruct (w_names w !! n) as [j|] eqn:En.
  - destruct (proj1 (Ha n j) En) as (r & Er & Em). case_decide as Hj; cbn.
    + subst. split_and!; [split; [intros _; eauto 7|reflexivity] | done |]. intros _ i' [= <-].
      destruct w; unfold up_names, up_regs; cbn in *. f_equal; [|by rewrite insert_id].
      apply map_eq; intros k. destruct (decide (k = i)) as [->|Hk]; [rewrite lookup_alter, Er | by rewrite lookup_alter_ne by congruence].
      cbn. unfold renamed. destruct r; cbn in *. by subst.
    + split_and!; [|auto|discriminate]. split; [discriminate|]. intros (i' & r' & [= <-] & _ & [E|[E _]]); congruence.
  - destruct (w_regs w !! i) as [r|] eqn:Er; cbn.
    2: { split_and!; [|auto|discriminate]. split; [discriminate|]. intros (i' & r' & [= <-] & E & _); congruence. }
    destruct (r_name r) as [m|] eqn:Em; cbn.
    + split_and!; [|auto|discriminate]. split; [discriminate|]. intros (i' & r' & [= <-] & E & [E'|[_ E']]); congruence.
    + split_and!; [split; [intros _; eauto 8|reflexivity]|done|]. intros _ i' [= <-].
      unfold up_names, up_regs; cbn. f_equal. apply map_eq; intros k.
      destruct (decide (k = i)) as [->|Hk]; [by rewrite lookup_alter, lookup_insert, Er | by rewrite lookup_alter_ne, lookup_insert_ne by congruence].
Qed.
Print Assumptions C17_register.
(** In every schedule no process owns two names (and whereis has one answer). *)
Theorem C17_one_name_each :
  forall S s i n n', reachable S s ->
    run (whereis n) (s_world s) = Done (s_world s) (Some (PLocal i)) ->
    run (whereis n') (s_world s) = Done (s_world s) (Some (PLocal i)) -> n = n'.
Proof.
  intros S s i n n' Hr. cbn. destruct (w_names (s_world s) !! n) as [j|] eqn:E1; [|discriminate].
  destruct (w_names (s_world s) !! n') as [j'|] eqn:E2; [|discriminate]. cbn. intros [= ->] [= ->].
  by apply (owns_one i (s_world s)); [apply (reachable_owned S)| |].
Qed.
Print Assumptions C17_one_name_each.
(** In every history the owner of a name is a process that exists, and that process and the table of
    names say the same. *)
Theorem C17_live_owner :
  forall S w n i, seq_reachable S w -> (w_names w !! n = Some i <-> exists r, w_regs w !! i = Some r /\ r_name r = Some n).
Proof. intros S w n i Hs. apply (ni_agree w (seq_names S w Hs)). Qed.
Print Assumptions C17_live_owner.
(** Whatever is done then, interleaved in whatever way, the name stays with the process until it is
    unregistered or the process ends. *)
Theorem C17_whereis_lasts :
  forall S w n i s, seq_reachable S w -> run (whereis n) w = Done w (Some (PLocal i)) ->
    reach (calls_of S (leaves_name i n)) (Sys w []) s -> run (whereis n) (s_world s) = Done (s_world s) (Some (PLocal i)).
Proof.
  intros S w n i s Hs Hw Hr. cbn in *. destruct (w_names w !! n) as [j|] eqn:En; [|discriminate]. injection Hw as ->.
  pose proof (seq_names S w Hs) as [Ha _].
  assert (held i n w) as Hh.
  { constructor; [exact En|]. intros j r Hj Hr' Hn. assert (w_names w !! n = Some j) by (apply Ha; eauto). congruence. }
  by rewrite (hd_name i n _ (reach_held S i n w s Hh Hr)).
Qed.
Print Assumptions C17_whereis_lasts.
(** Then it is free: after unregister, and after the end of the process. *)
Theorem C17_free_after_unregister :
  forall S w n i, seq_reachable S w -> w_names w !! n = Some i ->
    exists w', run (unregister n) w = Done w' tt /\ w_names w' = delete n (w_names w) /\
      w_regs w' = alter (renamed None) i (w_regs w) /\ w_loc w' = w_loc w /\ w_links w' = w_links w /\ w_mons w' = w_mons w /\
      run (register (PLocal i) n) w' = Done w None.
Proof.
  intros S w n i Hs En. destruct (proj1 (ni_agree w (seq_names S w Hs) n i) En) as (r & Er & Em).
  eexists. split; [unfold unregister; cbn; rewrite En; cbn; reflexivity|]. split_and!; try reflexivity.
  cbn. rewrite lookup_delete. rewrite lookup_alter, Er. cbn. f_equal. destruct w; unfold up_names, up_regs; cbn in *. f_equal.
  - apply map_eq; intros k. destruct (decide (k = i)) as [->|Hk]; [|by rewrite lookup_insert_ne, lookup_alter_ne by congruence].
    rewrite lookup_insert, Er. destruct r; cbn in *. by subst.
  - by rewrite insert_delete.
Qed.
Print Assumptions C17_free_after_unregister.
Theorem C17_unregister_unknown :
  forall w n, w_names w !! n = None -> exists m, run (unregister n) w = Panicked w m.
Proof.
  intros w n E. eexists. unfold unregister; cbn. rewrite E. cbn. f_equal. destruct w; unfold up_names; cbn in *. by rewrite delete_notin.
Qed.
Print Assumptions C17_unregister_unknown.
Theorem C17_free_after_exit :
  forall S w n i, seq_reachable S w -> w_names w !! n = Some i ->
    exists w', run (drop_process i) w = Done w' tt /\ w_names w' = delete n (w_names w).
Proof.
  intros S w n i Hs En. destruct (proj1 (ni_agree w (seq_names S w Hs) n i) En) as (r & Er & Em).
  destruct (drop_spec i w r Er) as (w' & E & Hx); [apply (occurs_named S), seq_occurs, Hs|].
  exists w'. split; [exact E|]. by rewrite (ex_names _ _ _ _ _ Hx), Em.
Qed.
Print Assumptions C17_free_after_exit.
(** In every schedule: a process that reports a name of its own is the one whereis finds. *)
Definition C17_schedules_statement : Prop :=
  forall S s i x n, reachable S s -> idle s ->
    run (info (PLocal i)) (s_world s) = Done (s_world s) (Some x) -> i_name x = Some n ->
    run (whereis n) (s_world s) = Done (s_world s) (Some (PLocal i)).
(** Violated: process 1 ends while its name is unregistered and registered again by process 2; the
    end of process 1 then removes the name process 2 has just registered. *)
Theorem C17_race_refuted : ~ C17_schedules_statement.
Proof.
  intros H.
  destruct (sched_some S0 (fun s => idle s /\ match run (info (PLocal 2)) (s_world s) with Done _ (Some x) => i_name x = Some "n" | _ => False end /\
              w_names (s_world s) !! "n" = None)
    [CSpawn 0 false false; CSpawn 0 false false; CRegister (PLocal 1) "n"; CFinish 1; CUnregister "n"; CRegister (PLocal 2) "n"]
    [0; 0; 0; 1; 1; 1; 2; 3; 4; 5; 3; 4; 3; 3; 3; 3]) as (s & Hs & H1 & H2 & H3).
  { vm_compute. split_and!; [repeat constructor|reflexivity|reflexivity]. }
  destruct (w_regs (s_world s) !! 2%N) as [r|] eqn:Er.
  - destruct (run (info (PLocal 2)) (s_world s)) as [w' [x|]| |] eqn:Ei; try contradiction.
    assert (w' = s_world s) as ->. { cbn in Ei. rewrite Er in Ei. cbn in Ei. congruence. }
    pose proof (H S0 s 2%N x "n" Hs H1 Ei H2) as Hw. cbn in Hw. rewrite H3 in Hw. discriminate.
  - cbn in H2. rewrite Er in H2. contradiction.
Qed.
Print Assumptions C17_race_refuted.
Example C17_example :
  exists w, seq_reachable S0 w /\ w_names w !! "n" = Some 2%N /\ (i_name <$> match run (info (PLocal 2)) w with Done _ x => x | _ => None end) = Some (Some "n").
Proof.
  apply (play_some S0 _ [CSpawn 0 false false; CSpawn 0 false false; CRegister (PLocal 1) "n"; CUnregister "n"; CRegister (PLocal 2) "n"]).
  vm_compute. auto.
Qed.

(** ** C25. *)
(** Something on the node still mentions process [a] as the owner of an alias, in a link set, as the
    process that monitors, or in the tables about remote nodes. *)
Definition owns_alias (w : world) (a : N) : Prop := exists k b, w_aliases w !! k = Some (a, b).
Definition in_link_set (w : world) (a j : N) : Prop := PLocal a ∈ default ∅ (w_links w !! j).
Definition monitors_process (w : world) (a t : N) : Prop := exists r d, default ∅ (w_mons w !! t) !! r = Some (PLocal a, d).
Definition in_node_table (w : world) (a : N) : Prop :=
  exists nd r, match default ∅ (w_nmons w !! nd) !! r with Some (NMNode i) | Some (NMProcess i _) => i = a | _ => False end.
Definition C25_alias_statement : Prop :=
  forall S w a w', seq_reachable S w -> run (drop_process a) w = Done w' tt -> ~ owns_alias w' a.
Definition C25_link_statement : Prop :=
  forall S w a w' j, seq_reachable S w -> run (drop_process a) w = Done w' tt -> ~ in_link_set w' a j.
Definition C25_node_statement : Prop :=
  forall S w a w', seq_reachable S w -> run (drop_process a) w = Done w' tt -> ~ in_node_table w' a.
(** Violated by the code: an alias made by monitor_alias on the name of a remote process is not
    removed; unlink leaves the caller in its own link table entry; monitors on remote processes stay
    in the table of the node. *)
Lemma drop_witness S cs a P : 
  match play S cs world0 with
  | Some w => match run (drop_process a) w with Done w' _ => P w' | _ => False end
  | None => False end -> exists w w', seq_reachable S w /\ run (drop_process a) w = Done w' tt /\ P w'.
Proof.
  intros H.
  destruct (play_some S (fun w => match run (drop_process a) w with Done w' _ => P w' | _ => False end) cs H) as (w & Hs & Hp).
  destruct (run (drop_process a) w) as [w' []| |] eqn:E; try contradiction. eauto 6.
Qed.
Theorem C25_alias_leak_refuted : ~ C25_alias_statement.
Proof.
  intros H.
  destruct (drop_witness S0 [CSpawn 0 false false; CMonitorAlias 1 (DNamed "x" (NRemote "b" (SA4 1 5))) true] 1
    (fun w' => w_aliases w' !! 1%N = Some (1%N, true))) as (w & w' & Hs & E & Ha); [vm_compute; reflexivity|].
  eapply (H S0 w 1%N w' Hs E). by exists 1%N, true.
Qed.
Print Assumptions C25_alias_leak_refuted.
Theorem C25_link_leak_refuted : ~ C25_link_statement.
Proof.
  intros H.
  destruct (drop_witness S0 [CSpawn 0 false false; CSpawn 0 false false; CLink 1 (PLocal 2); CUnlink 1 (PLocal 2)] 2
    (fun w' => bool_decide (PLocal 2 ∈ default ∅ (w_links w' !! 1%N)) = true)) as (w & w' & Hs & E & Ha); [vm_compute; reflexivity|].
  apply bool_decide_eq_true in Ha. exact (H S0 w 2%N w' 1%N Hs E Ha).
Qed.
Print Assumptions C25_link_leak_refuted.
Theorem C25_node_leak_refuted : ~ C25_node_statement.
Proof.
  intros H. set (nd := NRemote "b" (SA4 1 5)).
  destruct (drop_witness S0 [CSpawn 0 false false; CMonitor 1 (DNamed "x" nd)] 1
    (fun w' => match default ∅ (w_nmons w' !! nd) !! RLocal 1 with Some (NMProcess i _) => i = 1%N | _ => False end)) as (w & w' & Hs & E & Ha); [vm_compute; reflexivity|].
  apply (H S0 w 1%N w' Hs E). exists nd, (RLocal 1). by destruct (default ∅ (w_nmons w' !! nd) !! RLocal 1) as [[]|].
Qed.
Print Assumptions C25_node_leak_refuted.
(** What does hold.  When process [a] has ended: it is not alive, not listed, its name is free, no
    link or monitor is stored for it; it is in no link set but those of processes it did not have in
    its own; its monitors on local processes are gone, and so are the aliases it made and those of
    its monitors on known targets; nothing of the other processes' is released but their entries for
    [a] and the aliases of their monitors on [a]. *)
Theorem C25_exit_releases_partial :
  forall S w a r l, seq_reachable S w -> w_regs w !! a = Some r -> w_loc w !! a = Some l ->
    exists w', run (drop_process a) w = Done w' tt /\
      run (alive (PLocal a)) w' = Done w' false /\
      (exists ps, run list_processes w' = Done w' ps /\ forall i, PLocal i ∈ ps <-> i <> a /\ is_Some (w_regs w !! i)) /\
      (forall n i, w_names w' !! n = Some i <-> w_names w !! n = Some i /\ i <> a) /\
      w_loc w' !! a = None /\ w_links w' !! a = None /\ w_mons w' !! a = None /\
      (forall j, in_link_set w' a j <-> j <> a /\ in_link_set w a j /\ linked w a j = false) /\
      (forall i j, i <> a -> in_link_set w' i j <-> j <> a /\ in_link_set w i j) /\
      (forall t x, t <> a -> default ∅ (w_mons w' !! t) !! x =
         if decide (l_monitors l !! x = Some (MForProcess (Some (PLocal t)))) then None else default ∅ (w_mons w !! t) !! x) /\
      (forall k, releases_alias w a l k -> w_aliases w' !! k = None) /\
      (forall k, ~ releases_alias w a l k -> w_aliases w' !! k = w_aliases w !! k).
Proof.
  intros S w a r l Hs Er El. destruct (drop_spec a w r Er) as (w' & E & Hx); [apply (occurs_named S), seq_occurs, Hs|].
  exists w'. split; [exact E|]. pose proof (ex_reg _ _ _ _ _ Hx) as Ha.
  assert (forall i, is_Some (w_regs w' !! i) <-> i <> a /\ is_Some (w_regs w !! i)) as Hr.
  { intros i. destruct (decide (i = a)) as [->|Hne].
    - rewrite Ha. split; [intros [? ?]; discriminate|tauto].
    - rewrite (ex_regs _ _ _ _ _ Hx i Hne). destruct (linked w a i); rewrite ?fmap_is_Some; tauto. }
  split_and!.
  - cbn. by rewrite Ha.
  - eexists. split; [unfold list_processes, observe; rewrite run_atom; reflexivity|]. cbn [fst snd]. intros i. rewrite <- Hr. rewrite elem_map. split.
    + intros ([j y] & [= ->] & Hy). apply elem_of_map_to_list in Hy. eauto.
    + intros [y Hy]. exists (i, y). split; [reflexivity|]. by apply elem_of_map_to_list.
  - intros n i. rewrite (ex_names _ _ _ _ _ Hx). pose proof (ni_agree w (seq_names S w Hs)) as Hn.
    assert (w_names w !! n = Some a <-> r_name r = Some n) as Hna.
    { rewrite Hn. split; [intros (r' & ? & ?); congruence|eauto]. }
    destruct (r_name r) as [m|]; [destruct (decide (m = n)) as [->|Hne]|].
    + rewrite lookup_delete. split; [discriminate|]. intros [H1 H2]. pose proof (proj2 Hna eq_refl). congruence.
    + rewrite lookup_delete_ne by congruence. split; [|tauto]. intros H. split; [exact H|]. intros ->. apply Hna in H. congruence.
    + split; [|tauto]. intros H. split; [exact H|]. intros ->. apply Hna in H. discriminate.
  - apply (ex_loc _ _ _ _ _ Hx).
  - apply (ex_links _ _ _ _ _ Hx).
  - apply (ex_mons _ _ _ _ _ Hx).
  - intros j. unfold in_link_set. destruct (decide (j = a)) as [->|Hne].
    + rewrite (ex_links _ _ _ _ _ Hx). cbn. set_solver.
    + rewrite (ex_link_tables _ _ _ _ _ Hx j (PLocal a) Hne). destruct (linked w a j); naive_solver.
  - intros i j Hi. unfold in_link_set. destruct (decide (j = a)) as [->|Hne].
    + rewrite (ex_links _ _ _ _ _ Hx). cbn. set_solver.
    + rewrite (ex_link_tables _ _ _ _ _ Hx j (PLocal i) Hne). split; [tauto|]. intros [_ H]. split; [exact H|]. intros [[= ?] _]. congruence.
  - intros t x Ht. apply (ex_mon_tables _ _ _ _ _ Hx l t x El Ht).
  - intros k. apply (ex_aliases _ _ _ _ _ Hx l k El).
  - intros k. apply (ex_other_aliases _ _ _ _ _ Hx l k El).
Qed.
Print Assumptions C25_exit_releases_partial.
(** In every schedule: once it is gone it never comes back. *)
Theorem C25_gone_for_good :
  forall S s s1 s2 a, reachable S s -> is_Some (w_regs (s_world s) !! a) ->
    reach (any_call S) s s1 -> w_regs (s_world s1) !! a = None -> reach (any_call S) s1 s2 ->
    run (alive (PLocal a)) (s_world s2) = Done (s_world s2) false /\
    run (info (PLocal a)) (s_world s2) = Done (s_world s2) None /\
    exists ps, run list_processes (s_world s2) = Done (s_world s2) ps /\ PLocal a ∉ ps.
Proof.
  intros S s s1 s2 a Hr Ha H1 E H2. pose proof (gone_for_good S a s s1 s2 Hr Ha H1 E H2) as Hg.
  split_and!; [cbn; by rewrite Hg..|]. eexists. split; [unfold list_processes, observe; rewrite run_atom; reflexivity|]. cbn [fst snd]. rewrite elem_map.
  intros ([j y] & [= ->] & Hy). apply elem_of_map_to_list in Hy. cbn in Hy. congruence.
Qed.
Print Assumptions C25_gone_for_good.
Example C25_example :
  exists w, seq_reachable S0 w /\ (exists r l, w_regs w !! 1%N = Some r /\ w_loc w !! 1%N = Some l /\ releases_alias w 1 l 1 /\ r_name r = Some "n") /\
    linked w 1 2 = true /\ w_aliases w !! 1%N = Some (1%N, false).
Proof.
  apply (play_some S0 (fun w => _ /\ _) [CSpawn 0 false false; CSpawn 0 false false; CRegister (PLocal 1) "n"; CLink 1 (PLocal 2); CAlias 1 false]).
  vm_compute. split; [|auto]. eexists _, _. split; [reflexivity|]. split; [reflexivity|]. split; [left; vm_compute; reflexivity|reflexivity].
Qed.

(** ** C30. *)
Definition spawned_world (me : N) (l m : bool) (w : world) : world :=
  let i := w_next_pid w in let k := w_next_ref w in
  let w := up_loc (<[i := new_plocal]>) (up_next_pid N.succ w) in
  let w := if l then add_link me (PLocal i) (add_link i (PLocal me) w) else w in
  let w := if m then add_mon i (RLocal k) (PLocal me) (Some (DPid (PLocal i)))
                      (up_loc (alter (upd_monitors (<[RLocal k := MForProcess (Some (PLocal i))]>)) me) (up_next_ref N.succ w)) else w in
  up_regs (<[i := new_reg]>) (up_running (fun s => {[i]} ∪ s) w).
Lemma run_spawn me l m w : run (spawn me l m) w = Done (spawned_world me l m w) (PLocal (w_next_pid w), if m then Some (RLocal (w_next_ref w)) else None).
Proof. destruct l, m; reflexivity. Qed.
Section spawned.
Context (w : world) (me : N) (i k : N) (Hi : i = w_next_pid w) (Hk : k = w_next_ref w).
Lemma sp_regs l m : w_regs (spawned_world me l m w) = <[i := new_reg]> (w_regs w).
Proof. subst. destruct l, m; reflexivity. Qed.
Lemma sp_links l m : w_links (spawned_world me l m w) = if l then <[me := {[PLocal i]} ∪ default ∅ (<[i := {[PLocal me]} ∪ default ∅ (w_links w !! i)]> (w_links w) !! me)]> (<[i := {[PLocal me]} ∪ default ∅ (w_links w !! i)]> (w_links w)) else w_links w.
Proof. subst. destruct l, m; reflexivity. Qed.
Lemma sp_mons l m : w_mons (spawned_world me l m w) = if m then <[i := <[RLocal k := (PLocal me, Some (DPid (PLocal i)))]> (default ∅ (w_mons w !! i))]> (w_mons w) else w_mons w.
Proof. subst. destruct l, m; reflexivity. Qed.
Lemma sp_names l m : w_names (spawned_world me l m w) = w_names w.
Proof. subst. destruct l, m; reflexivity. Qed.
Lemma sp_running l m : w_running (spawned_world me l m w) = {[i]} ∪ w_running w.
Proof. subst. destruct l, m; reflexivity. Qed.
Lemma sp_loc l m : w_loc (spawned_world me l m w) = (if m then alter (upd_monitors (<[RLocal k := MForProcess (Some (PLocal i))]>)) me else id) (<[i := new_plocal]> (w_loc w)).
Proof. subst. destruct l, m; reflexivity. Qed.
End spawned.
(** spawn, run alone: the new process has a new pid, is alive, has an empty mailbox and no flags, and
    is linked to and monitored by the caller exactly as asked; nothing else changes. *)
Theorem C30_spawned :
  forall S w me l m, occurs S w -> (l || m = true -> is_Some (w_loc w !! me)) ->
    let i := w_next_pid w in let k := w_next_ref w in
    exists w', run (spawn me l m) w = Done w' (PLocal i, if m then Some (RLocal k) else None) /\
      w_loc w !! i = None /\
      run (alive (PLocal i)) w' = Done w' true /\ run (flags i) w' = Done w' false /\
      i ∈ w_running w' /\ w_loc w' !! i = Some new_plocal /\
      w_regs w' = <[i := new_reg]> (w_regs w) /\ w_names w' = w_names w /\
      (forall p j, p ∈ default ∅ (w_links w' !! j) <-> p ∈ default ∅ (w_links w !! j) \/ l = true /\ (p = PLocal me /\ j = i \/ p = PLocal i /\ j = me)) /\
      w_mons w' = (if m then <[i := <[RLocal k := (PLocal me, Some (DPid (PLocal i)))]> (default ∅ (w_mons w !! i))]> (w_mons w) else w_mons w) /\
      (forall j, j <> i -> w_loc w' !! j = (if m && bool_decide (j = me) then upd_monitors (<[RLocal k := MForProcess (Some (PLocal i))]>) else id) <$> w_loc w !! j).
Proof.
  intros S w me l m Ho Hme i k.
  assert (w_loc w !! i = None) as Hn.
  { destruct (w_loc w !! i) eqn:E; [|reflexivity]. pose proof (occurs_allocated S w Ho i) as H. rewrite E in H. subst i. specialize (H ltac:(eauto)). lia. }
  assert (l || m = true -> me <> i) as Hne.
  { intros H ->. destruct (Hme H). congruence. }
  exists (spawned_world me l m w). split; [apply run_spawn|].
  rewrite (sp_names w me), (sp_regs w me i eq_refl), (sp_running w me i eq_refl), (sp_loc w me i k eq_refl eq_refl), (sp_mons w me i k eq_refl eq_refl), (sp_links w me i eq_refl).
  cbn [alive flags run bind observe atom fst snd].
  rewrite (sp_regs w me i eq_refl). clearbody i k. rewrite lookup_insert. cbn. split_and!; try reflexivity; [exact Hn|set_solver| | |].
  - destruct m; cbn; [|apply lookup_insert]. rewrite lookup_alter_ne by (apply Hne; by rewrite orb_comm). apply lookup_insert.
  - intros p j. destruct l; [|naive_solver]. specialize (Hne eq_refl).
    destruct (decide (j = me)) as [->|Hj].
    + rewrite lookup_insert. cbn. rewrite lookup_insert_ne by congruence. rewrite elem_of_union, elem_of_singleton. naive_solver.
    + rewrite lookup_insert_ne by congruence. destruct (decide (j = i)) as [->|Hji].
      * rewrite lookup_insert. cbn. rewrite elem_of_union, elem_of_singleton. naive_solver.
      * rewrite lookup_insert_ne by congruence. naive_solver.
  - intros j Hj. destruct m; cbn.
    + case_bool_decide; subst.
      * by rewrite lookup_alter, lookup_insert_ne by congruence.
      * rewrite lookup_alter_ne, lookup_insert_ne by congruence. by destruct (w_loc w !! j).
    + rewrite lookup_insert_ne by congruence. by destruct (w_loc w !! j).
Qed.
Print Assumptions C30_spawned.
(** In histories a process whose task was started and has not ended is registered, and no other. *)
Theorem C30_registered_partial :
  forall S w i, seq_reachable S w -> (i ∈ w_running w <-> is_Some (w_regs w !! i)) /\ (is_Some (w_loc w !! i) <-> is_Some (w_regs w !! i)).
Proof. intros S w i Hs. destruct (seq_live S w Hs) as [H1 H2]. auto. Qed.
Print Assumptions C30_registered_partial.
(** In every schedule: a process that runs can use its flags. *)
Definition C30_flags_statement : Prop :=
  forall S s i, reachable S s -> i ∈ w_running (s_world s) -> exists b, run (flags i) (s_world s) = Done (s_world s) b.
(** In every schedule: when nothing is in progress, only running processes are alive. *)
Definition C30_alive_statement : Prop :=
  forall S s i, reachable S s -> idle s -> run (alive (PLocal i)) (s_world s) = Done (s_world s) true -> i ∈ w_running (s_world s).
(** Violated: the task is started before the process is registered (process.rs:485, 492).  It may find
    itself unregistered; and if it ends before it is registered, its pid stays alive for ever. *)
Theorem C30_flags_refuted : ~ C30_flags_statement.
Proof.
  intros H.
  destruct (sched_some S0 (fun s => bool_decide (1%N ∈ w_running (s_world s)) = true /\ w_regs (s_world s) !! 1%N = None)
    [CSpawn 0 false false] [0; 0]) as (s & Hs & H1 & H2); [vm_compute; auto|].
  apply bool_decide_eq_true in H1. destruct (H S0 s 1%N Hs H1) as [b E]. cbn in E. rewrite H2 in E. discriminate.
Qed.
Print Assumptions C30_flags_refuted.
Theorem C30_alive_refuted : ~ C30_alive_statement.
Proof.
  intros H.
  destruct (sched_some S0 (fun s => idle s /\ bool_decide (1%N ∈ w_running (s_world s)) = false /\ (r_exit <$> w_regs (s_world s) !! 1%N) = Some None)
    [CSpawn 0 false false; CFinish 1] [0; 0; 1; 1; 0]) as (s & Hs & H1 & H2 & H3).
  { vm_compute. split; [repeat constructor|auto]. }
  apply bool_decide_eq_false in H2. apply H2, (H S0 s 1%N Hs H1). cbn.
  destruct (w_regs (s_world s) !! 1%N) as [r|]; [|discriminate]. cbn in H3. injection H3 as ->. reflexivity.
Qed.
Print Assumptions C30_alive_refuted.
Example C30_example : exists w, seq_reachable S0 w /\ is_Some (w_loc w !! 1%N) /\
  linked (out_world (run (spawn 1 true true) w)) 1 2 = true /\ linked (out_world (run (spawn 1 true true) w)) 2 1 = true.
Proof. apply (play_some S0 (fun w => _ /\ _) [CSpawn 0 false false]). vm_compute. eauto. Qed.

(** ** C32. *)
Theorem C32_info :
  forall w i r l, w_regs w !! i = Some r -> w_loc w !! i = Some l ->
    exists x, run (info (PLocal i)) w = Done w (Some x) /\
      i_name x = r_name r /\ i_trap x = r_trap r /\ i_len x = length (l_chan l) /\
      NoDup (i_links x) /\ (forall p, p ∈ i_links x <-> p ∈ default ∅ (w_links w !! i)) /\
      i_monitored_by x ≡ₚ map (fun y => fst (snd y)) (map_to_list (default ∅ (w_mons w !! i))).
Proof.
  intros w i r l Er El. eexists. split; [cbn; rewrite Er; cbn; rewrite El; reflexivity|]. cbn. split_and!; try reflexivity.
  - destruct (w_links w !! i) as [s|]; [|constructor]. unfold sorted_pids. rewrite merge_sort_Permutation. apply NoDup_elements.
  - intros p. destruct (w_links w !! i) as [s|]; cbn; [|set_solver]. unfold sorted_pids. rewrite merge_sort_Permutation. apply elem_of_elements.
  - destruct (w_mons w !! i) as [m|]; cbn; [|by rewrite map_to_list_empty]. unfold sorted_refs. by rewrite merge_sort_Permutation.
Qed.
Print Assumptions C32_info.
Theorem C32_info_dead : forall w i, w_regs w !! i = None -> run (info (PLocal i)) w = Done w None.
Proof. intros w i E. cbn. by rewrite E. Qed.
Print Assumptions C32_info_dead.
(** set_flags and flags: what was set is read, nobody else's flags and nothing else change. *)
Theorem C32_flags_round_trip :
  forall w i b, is_Some (w_regs w !! i) ->
    exists w', run (set_flags i b) w = Done w' tt /\ run (flags i) w' = Done w' b /\
      w' = up_regs (alter (retrapped b) i) w /\ (forall j, j <> i -> w_regs w' !! j = w_regs w !! j) /\
      (forall r, w_regs w !! i = Some r -> exists r', w_regs w' !! i = Some r' /\ r_name r' = r_name r /\ r_exit r' = r_exit r /\ r_trap r' = b).
Proof.
  intros w i b [r Er]. eexists. split; [reflexivity|]. cbn. split_and!.
  - by rewrite lookup_alter, Er.
  - reflexivity.
  - intros j Hj. by rewrite lookup_alter_ne by congruence.
  - intros r' Hr. rewrite Er in Hr. injection Hr as <-. rewrite lookup_alter, Er. eexists. split; [reflexivity|]. auto.
Qed.
Print Assumptions C32_flags_round_trip.
(** The flags last until the process sets them again or ends, whatever else is done in whatever
    interleaving. *)
Theorem C32_flags_last :
  forall S w i b s, seq_reachable S w -> run (flags i) w = Done w b ->
    reach (calls_of S (leaves_flags i)) (Sys w []) s -> run (flags i) (s_world s) = Done (s_world s) b.
Proof.
  intros S w i b s Hs Hf Hr. cbn in Hf. destruct (w_regs w !! i) as [r|] eqn:Er; [|discriminate]. cbn in Hf.
  assert (keep i (fun o => r_trap <$> o = Some b) (s_world s)) as [_ Hk].
  - refine (reach_keep S i (fun o => r_trap <$> o = Some b) (fun x => (forall c, x <> ASetFlags i c) /\ x <> ARegDelete i) _ (leaves_flags i) w s _ _ Hr).
    + intros x v [Hx1 Hx2] Hv Hp Hi. destruct (regs_change S i x v) as [|why|n r' E En Er' Em|E|c E|y E|E|E|E Hlt].
      * exact Hp.
      * destruct (w_regs v !! i); [exact Hp|discriminate].
      * rewrite Er' in Hp. exact Hp.
      * destruct (w_regs v !! i); [exact Hp|discriminate].
      * by destruct (Hx1 c).
      * destruct (w_regs v !! i); [exact Hp|discriminate].
      * congruence.
      * congruence.
      * lia.
    + intros c Hc x Hx. split.
      * intros c' ->. destruct c; cbn in Hx; unfold fp_send, fp_destroy_timer, fp_fire, fp_exit, fp_monitor_alias, fp_monitor, fp_crash in Hx; cbn in Hx, Hc; naive_solver.
      * intros ->. destruct c; cbn in Hx; unfold fp_send, fp_destroy_timer, fp_fire, fp_exit, fp_monitor_alias, fp_monitor, fp_crash in Hx; cbn in Hx, Hc; naive_solver.
    + split; [apply (ni_fresh w (seq_names S w Hs) i r Er) | rewrite Er; cbn; congruence].
  - cbn. by rewrite Hk.
Qed.
Print Assumptions C32_flags_last.
Example C32_example :
  exists w, seq_reachable S0 w /\ match run (info (PLocal 1)) w with
    | Done _ (Some x) => i_name x = Some "n" /\ i_trap x = true /\ i_links x = [PLocal 2] /\ i_monitored_by x = [PLocal 3] /\ i_len x = 1
    | _ => False end.
Proof.
  apply (play_some S0 _ [CSpawn 0 false false; CSpawn 0 false false; CSpawn 0 false false; CRegister (PLocal 1) "n"; CLink 2 (PLocal 1);
    CMonitor 3 (DPid (PLocal 1)); CSetFlags 1 true; CSend (DsOne (DPid (PLocal 1))) (Val 0 0)]). vm_compute. auto 6.
Qed.
