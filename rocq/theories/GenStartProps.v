(** Property theorems C34: starting a server (gen_server.rs:341-459). *)
From stdpp Require Import base list gmap numbers strings countable sorting relations.
From Coq Require Import Lia.
From Verif Require Import Prog ProgProofs ProgInv Types Mailbox MailboxSpec MailboxProofs World ProcApi NodeApi Api Steps Hist Play
  SchedSpec SchedProps ProcSpec ProcProofs ProcInv FreshProofs MonProofs ProcProps LifeProps GenServer GenServerSpec GenServerProps.

(** Process [i], as it is in [w], has ended with reason [why], giving [w']. *)
Definition has_ended (w : world) (i : N) (why : exit_reason) (w' : world) : Prop :=
  exists w1 r r1, w_regs w !! i = Some r /\ w_regs w1 = <[i := r1]> (w_regs w) /\ r_name r1 = r_name r /\ r_exit r1 = Some why /\
    same_elsewhere w w1 /\ w_loc w1 = w_loc w /\ exited w1 i r1 why w'.
Lemma exit_drop S w i r why : occurs S w -> w_regs w !! i = Some r ->
  exists w', run (do! exit i (PLocal i) why in drop_process i) w = Done w' tt /\ has_ended w i why w'.
Proof.
  intros Ho E. pose proof (C18_exit_table i i why w r E) as (w1 & Hr & Hse & Ht).
  rewrite bool_decide_true in Ht by reflexivity.
  assert (exit_table true (r_trap r) why = Terminated) as Et by (by destruct why).
  rewrite Et in Ht. destruct Ht as [Hregs Hloc].
  assert (occurs S w1) as Ho1.
  { apply (occurs_run S w (CExit i (PLocal i) why)); [exact Ho|]. eapply happens_done. cbn [call_prog]. unfold ret_as.
    rewrite run_bind, Hr. reflexivity. }
  destruct (C18_terminated S w1 i why r Ho1) as [_ (w2 & H2 & Hx)]; [rewrite Hregs; apply lookup_insert|].
  exists w2. rewrite run_bind, Hr. split; [exact H2|]. exists w1, r, (terminated why r). split_and!; auto.
Qed.
Lemma crash_drop S w i r why : occurs S w -> w_regs w !! i = Some r ->
  exists w', run (crash i why) w = Done w' tt /\ has_ended w i why w'.
Proof.
  intros Ho E. unfold crash. rewrite run_bind. cbn [run modify atom fst snd].
  set (w1 := set_exit_op i why w). set (r1 := Reg (r_name r) (r_trap r) (Some why) (r_abort r)).
  assert (w_regs w1 = <[i := r1]> (w_regs w)) as Hregs.
  { unfold w1, set_exit_op; cbn. apply map_eq. intros j. destruct (decide (j = i)) as [->|Hj].
    - by rewrite lookup_alter, lookup_insert, E.
    - by rewrite lookup_alter_ne, lookup_insert_ne by congruence. }
  destruct (drop_spec i w1 r1) as (w2 & H2 & Hx).
  - rewrite Hregs. apply lookup_insert.
  - exact (occurs_named S w Ho i).
  - exists w2. split; [exact H2|]. exists w1, r, r1. split_and!; auto. by constructor.
Qed.

Lemma name_owner_old S w n j : seq_reachable S w -> w_names w !! n = Some j -> j <> w_next_pid w.
Proof.
  intros Hs Hn ->. apply (C17_live_owner S w n _ Hs) in Hn as (r & Hr & _).
  assert (is_Some (w_loc w !! w_next_pid w)) as Hl.
  { destruct (C30_registered_partial S w (w_next_pid w) Hs) as [_ H]. apply H. eauto. }
  pose proof (occurs_allocated S w (seq_occurs S w Hs) _ Hl). lia.
Qed.

(** The name is taken: the error says so, init is not run, the new process [i] is gone again; it ended
    with Normal, so no other process is terminated and a linked starter that traps exits gets its exit
    message; the name still belongs to whom it did. *)
Theorem C34_name_taken :
  forall S w me link n j init, seq_reachable S w -> w_names w !! n = Some j -> is_Some (w_loc w !! me) ->
    let i := w_next_pid w in
    exists w1 w', run (spawn me link false) w = Done w1 (PLocal i, None) /\
      run (gs_start me link (Some n) init) w = Done w' (inr (RCustom "already_started")) /\
      exited w1 i new_reg RNormal w' /\ w_names w' = w_names w /\ w_regs w' = w_regs w /\ w_loc w' !! i = None /\
      (link = true -> forall r, w_regs w !! me = Some r -> r_trap r = true ->
         exists l xs, w_loc w' !! me = Some (after_arrival xs l) /\ w_loc w !! me = Some l /\ ISystem (SExit (PLocal i) RNormal) ∈ xs).
Proof.
  intros S w me link n j init Hs Hn Hme i.
  pose proof (seq_occurs S w Hs) as Ho.
  destruct (C30_spawned S w me link false Ho (fun _ => Hme)) as (w1 & Hsp & Hnone & _ & _ & _ & Hl1 & Hregs & Hnames & Hlinks & Hmons & Hloc).
  exists w1. unfold gs_start. rewrite run_bind, Hsp. cbn [fst pid_id]. fold i in Hregs, Hl1, Hloc, Hnone |- *.
  assert (w_regs w !! i = None) as Hni.
  { destruct (w_regs w !! i) eqn:E; [|done]. destruct (C30_registered_partial S w i Hs) as [_ H]. rewrite Hnone in H.
    destruct H as [_ H]. destruct H as [? ?]; [eauto|discriminate]. }
  assert (run (gs_boot i (Some n) (init i)) w1 = Done w1 (Failed (RCustom "already_started"))) as Hb.
  { unfold gs_boot. cbn. unfold register_op. rewrite Hnames, Hn. rewrite decide_False; [reflexivity|].
    apply (name_owner_old S w n j Hs Hn). }
  rewrite run_bind, Hb. cbn [gs_boot_end]. rewrite run_bind.
  destruct (drop_spec i w1 new_reg) as (w2 & H2 & Hx).
  { rewrite Hregs. apply lookup_insert. }
  { assert (occurs S w1) as Ho1; [|exact (occurs_named S w1 Ho1 i)].
    eapply (occurs_run S w (CSpawn me link false)); [exact Ho|]. eapply happens_done. cbn [call_prog]. unfold ret_as.
    rewrite run_bind, Hsp. reflexivity. }
  rewrite H2. cbn [run]. exists w2. split; [reflexivity|]. split; [reflexivity|]. split_and!.
  - exact Hx.
  - rewrite (ex_names _ _ _ _ _ Hx). exact Hnames.
  - apply map_eq. intros x. destruct (decide (x = i)) as [->|Hxi].
    + by rewrite (ex_reg _ _ _ _ _ Hx), Hni.
    + rewrite (ex_regs _ _ _ _ _ Hx x Hxi), Hregs, lookup_insert_ne by congruence.
      destruct (linked w1 i x); [|done]. destruct (w_regs w !! x) as [r|]; [|done]. cbn. unfold signalled. by destruct (r_trap r).
  - apply (ex_loc _ _ _ _ _ Hx).
  - intros -> r Hr Htr. destruct Hme as [l Hl]. assert (me <> i) as Hxi by congruence.
    exists l. eexists. rewrite (ex_mail _ _ _ _ _ Hx me Hxi), (Hloc me Hxi), Hl. cbn [andb fmap option_fmap option_map].
    split; [reflexivity|]. split; [reflexivity|]. apply elem_of_app. left. unfold exit_message.
    assert (linked w1 i me = true) as ->.
    { apply bool_decide_eq_true. apply Hlinks. right. split; [done|]. left. auto. }
    rewrite Hregs, lookup_insert_ne, Hr, Htr by congruence. by apply elem_of_list_singleton.
Qed.
Print Assumptions C34_name_taken.

(** The name is free (or there is none): init is run by the new process, registered under the name if
    there is one; start returns what init says - its pid, the reason of the error, 'timeout', or
    'unknown' after a panic - and in the latter three cases the process has ended with that reason
    (after a panic: the panic's message). *)
Theorem C34_reports_init :
  forall S w me link name init, seq_reachable S w -> is_Some (w_loc w !! me) ->
    (forall n, name = Some n -> w_names w !! n = None) ->
    let i := w_next_pid w in
    exists w1 w2, run (spawn me link false) w = Done w1 (PLocal i, None) /\
      w_regs w2 = <[i := Reg name false None false]> (w_regs w) /\
      w_names w2 = match name with Some n => <[n := i]> (w_names w) | None => w_names w end /\
      w_loc w2 = w_loc w1 /\ w_links w2 = w_links w1 /\ w_mons w2 = w_mons w1 /\ seq_reachable S w2 /\
      forall w3 r reg, run (init i) w2 = Done w3 r -> occurs S w3 -> w_regs w3 !! i = Some reg ->
        match r with
        | Some (ROk _) => run (gs_start me link name init) w = Done w3 (inl (PLocal i))
        | Some (RErr why) => exists w', run (gs_start me link name init) w = Done w' (inr why) /\ has_ended w3 i why w'
        | None => exists w', run (gs_start me link name init) w = Done w' (inr (RCustom "timeout")) /\ has_ended w3 i (RCustom "timeout") w'
        | Some (RPanic s) => exists w', run (gs_start me link name init) w = Done w' (inr (RCustom "unknown")) /\ has_ended w3 i (RCustom s) w'
        end.
Proof.
  intros S w me link name init Hs Hme Hname i.
  pose proof (seq_occurs S w Hs) as Ho.
  destruct (C30_spawned S w me link false Ho (fun _ => Hme)) as (w1 & Hsp & Hnone & _ & _ & _ & Hl1 & Hregs & Hnames & Hlinks & Hmons & Hloc).
  fold i in Hregs, Hl1, Hloc, Hnone, Hsp.
  assert (seq_reachable S w1) as Hs1.
  { destruct Hs as [cs Hcs]. exists (cs ++ [CSpawn me link false]). eapply history_snoc; [exact Hcs| |].
    - unfold made_by_running; cbn [caller]. destruct link; cbn; [|exact I]. split; [exact Hme|].
      destruct (C30_registered_partial S w me) as [_ H]; [by exists cs|]. by apply H.
    - eapply happens_done. cbn [call_prog]. unfold ret_as. rewrite run_bind, Hsp. reflexivity. }
  set (w2 := match name with
             | Some n => up_names (<[n := i]>) (up_regs (<[i := Reg (Some n) false None false]>) w1)
             | None => w1 end).
  exists w1, w2.
  assert (forall A (x : bool -> prog world A), run (let! registered := match name with
                     | Some n => let! e := register (PLocal i) n in Ret (bool_decide (e = None))
                     | None => Ret true
                     end in x registered) w1 = run (x true) w2) as Hreg.
  { intros A x. rewrite run_bind. unfold w2. destruct name as [n|]; cbn; [|reflexivity].
    unfold register_op. rewrite Hnames, (Hname n eq_refl), Hregs, lookup_insert. cbn. reflexivity. }
  split; [exact Hsp|]. split_and!.
  - unfold w2. destruct name; cbn; rewrite Hregs; [apply insert_insert|reflexivity].
  - unfold w2. destruct name; cbn; by rewrite Hnames.
  - unfold w2. by destruct name.
  - unfold w2. by destruct name.
  - unfold w2. by destruct name.
  - unfold w2. destruct name as [n|]; [|exact Hs1]. destruct Hs1 as [cs Hcs]. exists (cs ++ [CRegister (PLocal i) n]).
    eapply history_snoc; [exact Hcs|exact I|]. eapply (happens_done _ _ _ _ (VErr None)). cbn [call_prog]. unfold ret_as. rewrite run_bind. unfold register.
    cbn [run atom]. unfold register_op. rewrite Hnames, (Hname n eq_refl), Hregs, lookup_insert. reflexivity.
  - intros w3 r reg Hi Ho3 Hr3.
    assert (forall A (k : boot -> prog world A), run (let! b := gs_boot i name (init i) in k b) w1 =
      match r with
      | Some (ROk _) => run (k Started) w3
      | Some (RErr why) => run (do! exit i (PLocal i) why in k (Failed why)) w3
      | None => run (do! exit i (PLocal i) (RCustom "timeout") in k (Failed (RCustom "timeout"))) w3
      | Some (RPanic s) => run (k (BootPanic s)) w3
      end) as Hboot.
    { intros A k. rewrite run_bind. unfold gs_boot. rewrite Hreg. rewrite run_bind, Hi.
      destruct r as [[[]|why|s]|]; cbn [run]; [reflexivity| |reflexivity|]; rewrite !run_bind; by destruct (run (exit i (PLocal i) _) w3). }
    unfold gs_start. rewrite run_bind, Hsp. cbn [fst pid_id]. rewrite Hboot. destruct r as [[[]|why|s]|].
    + reflexivity.
    + destruct (exit_drop S w3 i reg why Ho3 Hr3) as (w' & Hd & He). exists w'. split; [|exact He].
      rewrite run_bind in Hd. rewrite run_bind. destruct (run (exit i (PLocal i) why) w3) as [w4 []| |]; try discriminate. cbn [gs_boot_end].
      rewrite run_bind, Hd. reflexivity.
    + destruct (crash_drop S w3 i reg (RCustom s) Ho3 Hr3) as (w' & Hd & He). exists w'. split; [|exact He].
      cbn [gs_boot_end]. rewrite run_bind, Hd. reflexivity.
    + destruct (exit_drop S w3 i reg (RCustom "timeout") Ho3 Hr3) as (w' & Hd & He). exists w'. split; [|exact He].
      rewrite run_bind in Hd. rewrite run_bind. destruct (run (exit i (PLocal i) (RCustom "timeout")) w3) as [w4 []| |]; try discriminate. cbn [gs_boot_end].
      rewrite run_bind, Hd. reflexivity.
Qed.
Print Assumptions C34_reports_init.
(** What the end of the process means for the rest of the node. *)
Theorem C34_failed_is_gone :
  forall w i why w', has_ended w i why w' -> w_regs w' !! i = None /\ w_loc w' !! i = None /\
    (forall j r, j <> i -> w_regs w !! j = Some r -> linked w i j = true ->
       w_regs w' !! j = Some (signalled why r)) /\
    (forall r n, w_regs w !! i = Some r -> r_name r = Some n -> w_names w' = delete n (w_names w)).
Proof.
  intros w i why w' (w1 & r & r1 & Hr & Hregs & Hn & _ & Hse & _ & Hx). split_and!.
  - apply (ex_reg _ _ _ _ _ Hx).
  - apply (ex_loc _ _ _ _ _ Hx).
  - intros j rj Hj Hrj Hl. rewrite (ex_regs _ _ _ _ _ Hx j Hj), Hregs, lookup_insert_ne, Hrj by congruence.
    unfold linked in *. by rewrite (se_links _ _ Hse), Hl.
  - intros r' n Hr' Hnm. assert (r' = r) as -> by congruence. rewrite (ex_names _ _ _ _ _ Hx), Hn, Hnm.
    by rewrite (se_names _ _ Hse).
Qed.
Print Assumptions C34_failed_is_gone.

(** A free name and an init that would succeed is not enough in every schedule: the new task may run
    before the process is registered (process.rs:485, 492); its own register then fails, and start
    reports 'already_started' for a name nobody has. *)
Definition C34_free_name_statement : Prop :=
  forall S s i n w e, reachable S s -> i ∈ w_running (s_world s) -> w_names (s_world s) = ∅ ->
    run (gs_boot i (Some n) (Ret (Some (ROk tt)))) (s_world s) = Done w e -> e = Started.
Theorem C34_free_name_refuted : ~ C34_free_name_statement.
Proof.
  intros H.
  destruct (sched_some S0 (fun s => bool_decide (1%N ∈ w_running (s_world s)) = true /\ w_names (s_world s) = ∅ /\
      match run (gs_boot 1 (Some "a"%string) (Ret (Some (ROk tt)))) (s_world s) with Done _ e => e = Failed (RCustom "already_started") | _ => False end)
    [CSpawn 0 false false] [0; 0]) as (s & Hs & H1 & H2 & H3); [vm_compute; auto|].
  apply bool_decide_eq_true in H1. destruct (run (gs_boot 1 (Some "a"%string) (Ret (Some (ROk tt)))) (s_world s)) as [w e| |] eqn:E; try contradiction.
  specialize (H S0 s 1%N "a"%string w e Hs H1 H2 E). congruence.
Qed.
Print Assumptions C34_free_name_refuted.

(** non-vacuity: process 1 (trapping exits) starts a linked server whose init fails: it gets the error
    and the exit signal; the name is free again.  Then one that succeeds, and a second one under the
    same name. *)
Example C34_example : exists w, seq_reachable S0 w /\
  match run (gs_start 1 true (Some "s"%string) (fun _ => Ret (Some (RErr (RCustom "bad"))))) w with
  | Done w' r => r = inr (RCustom "bad") /\ w_names w' !! "s"%string = None /\
      (l_chan <$> w_loc w' !! 1%N) = Some [ISystem (SExit (PLocal 2) (RCustom "bad"))] /\
      match run (gs_start 1 true (Some "s"%string) (fun _ => Ret (Some (ROk tt)))) w' with
      | Done w2 r => r = inl (PLocal 3) /\ w_names w2 !! "s"%string = Some 3%N /\
          match run (gs_start 1 false (Some "s"%string) (fun _ => Ret (Some (ROk tt)))) w2 with
          | Done _ r => r = inr (RCustom "already_started")
          | _ => False end
      | _ => False end
  | _ => False end.
Proof. apply (play_some S0 _ [CSpawn 0 false false; CSetFlags 1 true]). vm_compute. split_and!; reflexivity. Qed.
