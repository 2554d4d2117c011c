(** The node table: who supervises a node, which nodes are known.  Proofs. *)
From stdpp Require Import base list gmap numbers strings countable sorting relations.
From Coq Require Import Lia.
From Verif Require Import Prog ProgProofs ProgInv Types Mailbox MailboxSpec World ProcApi NodeApi Api Steps Hist Labels SchedSpec SchedProofs
  ProcSpec ProcProofs SendSpec NetSpec NetProofs Persist.

(** *** Actions that do not touch the node tables *)
Definition node_act (a : act) : Prop :=
  match a with
  | ANodeRegister _ _ _ | ANodeStart _ _ | ANmapDelete _ | ANmapClear | ANregsDelete _ | ANregsClear | ADisconnect _ _
  | AAccept _ _ _ _ | AWorkers _ _ _ | ASupDown _ _ => True
  | _ => False
  end.
Lemma ntables_kept S a w : ~ node_act a ->
  w_nmap (does S a w) = w_nmap w /\ w_nregs (does S a w) = w_nregs w /\ w_next_node (does S a w) = w_next_node w.
Proof.
  destruct a; cbn [does node_act]; intros Ha; try (by destruct Ha); try (ops; cbn; repeat case_match; split_and!; reflexivity).
Qed.

(** ** The two tables agree, when calls do not overlap *)
Record tables_ok (w : world) : Prop := TablesOk {
  to_next : (1 <= w_next_node w)%N;
  to_below : forall id r, w_nregs w !! id = Some r -> (id < w_next_node w)%N;
  to_map : forall nd id, w_nmap w !! nd = Some id -> exists r, w_nregs w !! id = Some r /\
             match nd with NLocal => id = LOCAL_NODE_ID /\ n_state r = Current
                         | NRemote nm ad => id <> LOCAL_NODE_ID /\ n_name r = nm /\ n_addr r = ad /\ n_state r <> Current end;
  to_reg : forall id r, w_nregs w !! id = Some r ->
             w_nmap w !! (if decide (n_state r = Current) then NLocal else NRemote (n_name r) (n_addr r)) = Some id }.
Lemma tables0 : tables_ok world0.
Proof. constructor; cbn; intros; try (by rewrite lookup_empty in *); lia. Qed.
Lemma tables_same w w' : w_nmap w' = w_nmap w -> w_nregs w' = w_nregs w -> w_next_node w' = w_next_node w -> tables_ok w -> tables_ok w'.
Proof. intros E1 E2 E3 [A B C D]. constructor; rewrite ?E1, ?E2, ?E3; auto. Qed.
(** A registration is replaced by one of the same node, the local one staying local. *)
Lemma tables_update w w' id r r' : w_nmap w' = w_nmap w -> w_next_node w' = w_next_node w -> w_nregs w' = <[id := r']> (w_nregs w) ->
  w_nregs w !! id = Some r -> n_name r' = n_name r -> n_addr r' = n_addr r -> (n_state r' = Current <-> n_state r = Current) ->
  tables_ok w -> tables_ok w'.
Proof.
  intros E1 E3 E2 Er Hn Ha Hs [A B C D]. constructor; rewrite ?E1, ?E2, ?E3; auto.
  - intros i q. destruct (decide (i = id)) as [->|Hi]; [intros _; by eapply B | rewrite lookup_insert_ne by done; apply B].
  - intros nd i Hi. destruct (C nd i Hi) as (q & Hq & Hm). destruct (decide (i = id)) as [->|Hd].
    + rewrite Er in Hq. injection Hq as <-. exists r'. rewrite lookup_insert. split; [done|]. destruct nd as [|nm ad]; [tauto|].
      destruct Hm as (? & <- & <- & ?). split_and!; tauto.
    + exists q. by rewrite lookup_insert_ne by done.
  - intros i q. destruct (decide (i = id)) as [->|Hd]; [rewrite lookup_insert; intros [= <-] | rewrite lookup_insert_ne by done; apply D].
    rewrite Hn, Ha. specialize (D id r Er). destruct (decide (n_state r = Current)), (decide (n_state r' = Current)); tauto.
Qed.
Lemma tables_new w w' nm ad r' : w_nmap w !! NRemote nm ad = None -> w_nmap w' = <[NRemote nm ad := w_next_node w]> (w_nmap w) ->
  w_next_node w' = N.succ (w_next_node w) -> w_nregs w' = <[w_next_node w := r']> (w_nregs w) ->
  n_name r' = nm -> n_addr r' = ad -> n_state r' <> Current -> tables_ok w -> tables_ok w'.
Proof.
  intros E0 E1 E3 E2 Hn Ha Hs [A B C D]. constructor; rewrite ?E1, ?E2, ?E3; [lia|..].
  - intros i q. destruct (decide (i = w_next_node w)) as [->|Hi]; [intros _; lia|]. rewrite lookup_insert_ne by done. intros ?%B; lia.
  - intros nd i. destruct (decide (nd = NRemote nm ad)) as [->|Hnd].
    + rewrite lookup_insert. intros [= <-]. exists r'. rewrite lookup_insert. split; [done|]. unfold LOCAL_NODE_ID. split_and!; try done. lia.
    + rewrite lookup_insert_ne by done. intros Hi. destruct (C nd i Hi) as (q & Hq & Hm). exists q. split; [|done].
      rewrite lookup_insert_ne; [done|]. apply B in Hq. lia.
  - intros i q. destruct (decide (i = w_next_node w)) as [->|Hi].
    + rewrite lookup_insert. intros [= <-]. rewrite decide_False by done. rewrite Hn, Ha. by rewrite lookup_insert.
    + rewrite lookup_insert_ne by done. intros Hq. pose proof (D _ _ Hq) as Hd. rewrite lookup_insert_ne; [done|].
      intros Heq. rewrite <- Heq in Hd. congruence.
Qed.
Lemma tables_start nm ad w : tables_ok w -> tables_ok (fst (node_start_op nm ad w)).
Proof.
  intros H. unfold node_start_op. destruct (w_nmap w !! NLocal) as [i|] eqn:E; [done|]. destruct H as [A B C D]. unfold spawn_op. cbn [fst].
  constructor; cbn; [done|..]; unfold LOCAL_NODE_ID in *.
  - intros i q. destruct (decide (i = 0%N)) as [->|Hi]; [intros _; lia|]. rewrite lookup_insert_ne by done. apply B.
  - intros nd i. destruct (decide (nd = NLocal)) as [->|Hn].
    + rewrite lookup_insert. intros [= <-]. rewrite lookup_insert. by eexists.
    + rewrite lookup_insert_ne by done. intros Hi. destruct (C nd i Hi) as (r & Hr & Hm). destruct nd as [|n a]; [done|].
      exists r. rewrite lookup_insert_ne by (intros <-; tauto). done.
  - intros i q. destruct (decide (i = 0%N)) as [->|Hi].
    + rewrite lookup_insert. intros [= <-]. cbn. by rewrite lookup_insert.
    + rewrite lookup_insert_ne by done. intros Hq. specialize (D _ _ Hq).
      destruct (decide (n_state q = Current)); [congruence|]. by rewrite lookup_insert_ne.
Qed.
Lemma exit_op_nodes p f why w : w_nmap (exit_op p f why w) = w_nmap w /\ w_nregs (exit_op p f why w) = w_nregs w /\
  w_next_node (exit_op p f why w) = w_next_node w.
Proof. ops. repeat case_match; done. Qed.
Lemma tables_register nm ad c w : tables_ok w -> tables_ok (fst (node_register_op nm ad c w)).
Proof.
  intros H. unfold node_register_op. destruct (w_nmap w !! NRemote nm ad) as [id|] eqn:E; cbn [fst].
  - destruct c; [|done]. destruct (w_nregs w !! id) as [r|] eqn:Er; [|done]. destruct (n_sup r); [done|]. unfold spawn_op.
    destruct (to_map _ H _ _ E) as (r0 & Hr0 & Hm). rewrite Er in Hr0. injection Hr0 as <-.
    eapply (tables_update w); [reflexivity..|exact Er| | | |done]; try done. cbn. split; [done|]. tauto.
  - destruct c; unfold spawn_op; (eapply (tables_new w); [exact E|reflexivity..|done|done|done|done]).
Qed.
Lemma tables_accept nm ad p q w : tables_ok w -> tables_ok (fst (node_accept_op nm ad p q w)).
Proof.
  intros H. unfold node_accept_op. destruct (w_nmap w !! NRemote nm ad) as [id|] eqn:E; cbn [fst].
  2: { eapply (tables_new w); [exact E|reflexivity..|done|done|done|done]. }
  destruct (w_nregs w !! id) as [r|] eqn:Er; [|done].
  destruct (to_map _ H _ _ E) as (r0 & Hr0 & Hm). rewrite Er in Hr0. injection Hr0 as <-.
  set (w1 := if bool_decide (n_state r = Pending) then _ else w).
  assert (w_nmap w1 = w_nmap w /\ w_nregs w1 = w_nregs w /\ w_next_node w1 = w_next_node w) as (E1 & E2 & E3).
  { unfold w1. destruct (bool_decide _); [|done]. destruct (n_sup r) as [s|]; [|done]. case_decide; [done|]. apply exit_op_nodes. }
  destruct (if bool_decide (n_state r = Pending) then None else n_sup r); cbn [fst].
  - by eapply tables_same.
  - eapply (tables_update w w1 id r) in H; cycle 1; try done.
    { rewrite E2. symmetry. by apply insert_id. }
    eapply (tables_update w1); [reflexivity|reflexivity|reflexivity|by rewrite E2|done|done| |done]. cbn. split; [done|]. tauto.
Qed.
Lemma tables_disconnect nm ad p w : tables_ok w -> tables_ok (node_disconnect_op (NRemote nm ad) p w).
Proof.
  intros H. unfold node_disconnect_op. destruct (w_nmap w !! NRemote nm ad) as [id|] eqn:E; [|done].
  destruct (w_nregs w !! id) as [r|] eqn:Er; [|done].
  destruct (to_map _ H _ _ E) as (r0 & Hr0 & Hm). rewrite Er in Hr0. injection Hr0 as <-.
  set (w1 := match n_sup r with Some s => _ | None => _ end).
  assert (w_nmap w1 = w_nmap w /\ w_nregs w1 = w_nregs w /\ w_next_node w1 = w_next_node w) as (E1 & E2 & E3).
  { unfold w1. destruct (n_sup r) as [s|]; [|done]. apply (exit_op_nodes s p RKill (up_pend (delete (NRemote nm ad)) w)). }
  eapply (tables_update w1); [reflexivity..|by rewrite E2|done|done| |by eapply tables_same]. cbn. split; [done|]. tauto.
Qed.
Lemma tables_workers nm ad p q w : tables_ok w -> tables_ok (node_workers_op (NRemote nm ad) p q w).
Proof.
  intros H. unfold node_workers_op. destruct (w_nmap w !! NRemote nm ad) as [id|] eqn:E; [|done].
  destruct (w_nregs w !! id) as [r|] eqn:Er; [|done].
  set (w1 := up_pend _ _). assert (tables_ok w1) as H1.
  { by eapply (tables_update w w1); [reflexivity..|exact Er| | | |done]. }
  unfold hand_out. destruct (w_regs w1 !! pid_id p); [|exact H1]. by eapply (tables_same w1).
Qed.
Lemma tables_sup_down nm ad p w : tables_ok w -> tables_ok (fst (sup_down_op (NRemote nm ad) p w)).
Proof.
  intros H. unfold sup_down_op. destruct (w_nmap w !! NRemote nm ad) as [id|] eqn:E; [|done].
  destruct (w_nregs w !! id) as [r|] eqn:Er; [|done].
  destruct (to_map _ H _ _ E) as (r0 & Hr0 & Hm). rewrite Er in Hr0. injection Hr0 as <-.
  destruct (match n_sup r with Some s => _ | None => false end); cbn [fst]; [done|].
  eapply (tables_update w); [reflexivity..|exact Er|done|done| |done]. cbn. split; [done|]. tauto.
Qed.

Lemma run_steps {A} (P : world -> Prop) G (p : prog world A) w : guar G p -> (forall u u', G u u' -> P u -> P u') -> P w -> P (out_world (run p w)).
Proof.
  intros Hg H Hw. pose proof (post_run P (fun _ => True) p w (post_guar G P p H Hg) Hw) as Hp.
  destruct (run p w); cbn; tauto.
Qed.
Definition not_stop (c : call) : Prop := match c with CNodeStop _ | CLocalPanic | CForget _ _ => False | _ => True end.
Ltac tear :=
  match goal with Ha : fp _ ?c _ |- _ =>
    destruct c; cbn in Ha; try contradiction; try discriminate;
    unfold fp_send, fp_fire, fp_destroy_timer, fp_spawn, fp_link, fp_unlink, fp_monitor, fp_monitor_alias, fp_demonitor, fp_exit, fp_finish, fp_crash, fp_supervise, fp_supdown in Ha;
    cbn in Ha; try contradiction; try (destruct Ha; contradiction);
    try (match type of Ha with context [match ?f with FHello _ _ _ => _ | _ => _ end] => by destruct f end); try (naive_solver eauto) end.
Lemma tables_act S c a w : not_stop c -> remote_events c -> fp S c a -> tables_ok w -> tables_ok (does S a w).
Proof.
  intros Hns Hre Ha Hw.
  assert (node_act a \/ ~ node_act a) as [Hn|Hn] by (destruct a; cbn; tauto).
  2: { destruct (ntables_kept S a w Hn) as (E1 & E2 & E3). by eapply tables_same. }
  destruct a; try contradiction; cbn [does].
  - by apply tables_register.
  - by apply tables_start.
  - exfalso. tear.
  - exfalso. tear.
  - exfalso. tear.
  - exfalso. tear.
  - destruct n; [|by apply tables_disconnect]. exfalso. tear.
  - by apply tables_accept.
  - destruct n; [|by apply tables_workers]. exfalso. tear.
  - destruct n; [|by apply tables_sup_down]. exfalso. tear.
Qed.
Lemma tables_clear w w' : w_nmap w' = ∅ -> w_nregs w' = ∅ -> w_next_node w' = w_next_node w -> tables_ok w -> tables_ok w'.
Proof. intros E1 E2 E3 [A B C D]. constructor; rewrite ?E1, ?E2, ?E3; [done|intros ? ? H; by rewrite lookup_empty in H..]. Qed.
Lemma tables_forget nm ad id w w' : w_nmap w !! NRemote nm ad = Some id -> w_nmap w' = delete (NRemote nm ad) (w_nmap w) ->
  w_nregs w' = delete id (w_nregs w) -> w_next_node w' = w_next_node w -> tables_ok w -> tables_ok w'.
Proof.
  intros E E1 E2 E3 H. pose proof H as [A B C D]. destruct (C _ _ E) as (r & Hr & H0 & Hn & Ha & Hs).
  pose proof (D _ _ Hr) as Hd. rewrite decide_False in Hd by done.
  assert (forall nd id', w_nmap w !! nd = Some id' -> id' = id -> nd = NRemote nm ad) as Hinj.
  { intros nd id' Hnd ->. destruct (C _ _ Hnd) as (r1 & Hr1 & Hm). rewrite Hr in Hr1. injection Hr1 as <-.
    destruct nd as [|n a]; [tauto|]. destruct Hm as (_ & <- & <- & _). by rewrite Hn, Ha. }
  constructor; rewrite ?E1, ?E2, ?E3; [done|..].
  - intros i q [_ Hq]%lookup_delete_Some. by eapply B.
  - intros nd i [Hnd Hi]%lookup_delete_Some. destruct (C _ _ Hi) as (q & Hq & Hm). exists q. split; [|done].
    rewrite lookup_delete_ne; [done|]. intros ->. apply Hnd. symmetry. by eapply Hinj.
  - intros i q [Hne Hq]%lookup_delete_Some. pose proof (D _ _ Hq) as Hd'. rewrite lookup_delete_ne; [done|].
    intros Heq. rewrite <- Heq in Hd'. congruence.
Qed.
Lemma send_frame_nodes f n w : w_nmap (send_frame f n w) = w_nmap w /\ w_nregs (send_frame f n w) = w_nregs w /\ w_next_node (send_frame f n w) = w_next_node w.
Proof. unfold send_frame, hand_out. repeat case_match; done. Qed.
Lemma tables_call S c w : remote_events c -> tables_ok w -> tables_ok (out_world (run (call_prog S c) w)).
Proof.
  intros Hre Hw. assert (not_stop c \/ ~ not_stop c) as [Hns|Hns] by (destruct c; cbn; tauto).
  - eapply (run_steps tables_ok); [apply (call_fp S c)| |exact Hw]. intros u u' (a & Ha & ->) Hu. by eapply tables_act.
  - destruct c; try (destruct (Hns I)); cbn [call_prog]; unfold ret_as; rewrite run_bind.
    + unfold node_stop. rewrite run_bind, run_atom. cbn [fst snd]. destruct (w_nmap w !! NLocal) as [i|] eqn:E.
      * rewrite run_bind, run_modify, run_bind, run_modify, run_bind, run_modify, run_modify. cbn [run out_world].
        set (w1 := up_nmap (fun _ => ∅) _). set (w2 := match w_nregs w1 !! _ with Some r => _ | None => _ end).
        apply (tables_clear w); [| | |done]; cbn; [| done |]; unfold w2;
          (destruct (w_nregs w1 !! LOCAL_NODE_ID) as [r|]; [destruct (n_sup r) as [s|]|]; try done);
          destruct (exit_op_nodes s (PLocal me) RKill w1) as (X1 & X2 & X3); by rewrite ?X1, ?X3.
      * cbn. eapply (tables_same w); [|done|done|done]. cbn. by apply delete_notin.
    + cbn. by apply (tables_clear w).
    + unfold forget. destruct nd as [|nm ad]; [exact Hw|]. unfold node_forget. rewrite run_bind, run_atom. cbn [fst snd].
      destruct (w_nmap w !! NRemote nm ad) as [id|] eqn:E.
      2: { cbn. eapply (tables_same w); [|done|done|done]. cbn. by apply delete_notin. }
      rewrite run_bind, run_atom. cbn [fst snd].
      destruct (to_map _ Hw _ _ E) as (r & Er & _).
      change (w_nregs (up_nmap (delete (NRemote nm ad)) w)) with (w_nregs w). rewrite Er.
      rewrite run_bind, run_modify. set (w1 := up_pend _ _).
      assert (tables_ok w1) as H1 by (eapply (tables_forget nm ad id w); [exact E|reflexivity..|exact Hw]).
      destruct (n_sup r) as [s|]; [|exact H1]. unfold exit. destruct (pid_is_local s); rewrite run_modify; cbn [run out_world].
      * destruct (exit_op_nodes s (PLocal me) RKill w1) as (X1 & X2 & X3). by eapply tables_same.
      * destruct (send_frame_nodes (FExit (pid_id s) me RKill) (pid_node s) w1) as (X1 & X2 & X3). by eapply tables_same.
Qed.
Lemma history_tables S (ok : call -> world -> Prop) w cs w' : (forall c w, ok c w -> remote_events c) ->
  history S ok w cs w' -> tables_ok w -> tables_ok w'.
Proof.
  intros Hok Hh Hw. induction Hh as [w|w cs w1 c w2 Hh IH Hc Hp]; [done|]. specialize (IH Hw).
  pose proof (tables_call S c w1 (Hok _ _ Hc) IH) as H. destruct Hp as [v E|m E]; by rewrite E in H.
Qed.

Lemma proper_tables S w : proper S w -> tables_ok w.
Proof.
  intros [cs H]. eapply (history_tables S (fun c w => made_by_running c w /\ remote_events c)); [|exact H|exact tables0]. by intros ? ? [_ ?].
Qed.
Lemma proper_seq S w : proper S w -> seq_reachable S w.
Proof.
  intros [cs H]. exists cs. induction H as [w|w cs w1 c w2 Hh IH [Hc _] Hp]; [constructor|]. eapply history_snoc; [exact IH|exact Hc|exact Hp].
Qed.
Lemma tables_entry w nm ad id : tables_ok w -> w_nmap w !! NRemote nm ad = Some id -> exists r, w_nregs w !! id = Some r /\ entry w (NRemote nm ad) = Some r /\
  n_name r = nm /\ n_addr r = ad /\ n_state r <> Current /\ id <> LOCAL_NODE_ID.
Proof.
  intros H E. destruct (to_map _ H _ _ E) as (r & Hr & H1 & H2 & H3 & H4). exists r. unfold entry. by rewrite E.
Qed.

(** ** Accepting a connection *)
Definition spawned (me : N) (w : world) : world :=
  up_regs (<[w_next_pid w := new_reg]>) (up_running (fun s => {[w_next_pid w]} ∪ s)
    (add_link me (PLocal (w_next_pid w)) (add_link (w_next_pid w) (PLocal me)
      (up_loc (<[w_next_pid w := new_plocal]>) (up_next_pid N.succ w))))).
Lemma run_spawn_link me w : run (spawn me true false) w = Done (spawned me w) (PLocal (w_next_pid w), None).
Proof. reflexivity. Qed.
Lemma spawned_next me w : w_next_pid (spawned me w) = N.succ (w_next_pid w).
Proof. reflexivity. Qed.
Definition workers (me : N) (nd : node) (w : world) : world :=
  node_workers_op nd (PLocal (w_next_pid w)) (PLocal (N.succ (w_next_pid w))) (spawned me (spawned me w)).
Lemma run_supervise S me nm ad w :
  run (call_prog S (CSupervise me nm ad)) w =
  let x := node_accept_op nm ad (PLocal me) (PLocal me) w in
  if snd x then Done (workers me (NRemote nm ad) (fst x)) (VWorkers (PLocal (w_next_pid (fst x))) (PLocal (N.succ (w_next_pid (fst x)))))
  else Panicked (fst x) "Not accepting node supervisor!".
Proof.
  cbn [call_prog]. unfold ret_as. rewrite run_bind. unfold remote_supervisor. rewrite run_bind, run_atom.
  cbn zeta. destruct (node_accept_op nm ad (PLocal me) (PLocal me) w) as [w1 []]; cbn [fst snd negb].
  - rewrite run_bind, run_spawn_link, run_bind, run_spawn_link, run_bind, run_modify. cbn [fst snd run]. rewrite spawned_next. unfold workers. reflexivity.
  - reflexivity.
Qed.
(** What accepting does to the record of the node. *)
Lemma accept_ok nm ad p q w : ~ (exists s, established w (NRemote nm ad) s) ->
  (forall id, w_nmap w !! NRemote nm ad = Some id -> is_Some (w_nregs w !! id)) ->
  exists w1 id r, node_accept_op nm ad p q w = (w1, true) /\ w_nmap w1 !! NRemote nm ad = Some id /\ w_nregs w1 !! id = Some r /\
    n_sup r = Some p /\ n_state r = Connected /\ w_pend w1 = w_pend w /\ w_out w1 = w_out w /\ w_next_pid w1 = w_next_pid w /\
    (forall i, is_Some (w_regs w1 !! i) <-> is_Some (w_regs w !! i)) /\
    (forall s g, dialling w (NRemote nm ad) s -> s <> p -> w_regs w !! pid_id s = Some g -> w_regs w1 !! pid_id s = Some (terminated RKill g)) /\
    (forall i, (forall s, dialling w (NRemote nm ad) s -> s = p \/ pid_id s <> i) -> w_regs w1 !! i = w_regs w !! i) /\
    n_sender r = match entry w (NRemote nm ad) with Some r0 => n_sender r0 | None => None end /\
    n_receiver r = match entry w (NRemote nm ad) with Some r0 => n_receiver r0 | None => None end.
Proof.
  intros He Hm. unfold node_accept_op, established, dialling, entry in *. destruct (w_nmap w !! NRemote nm ad) as [id|] eqn:E.
  - destruct (Hm id eq_refl) as [r Er]. rewrite Er in *.
    set (w1 := if bool_decide (n_state r = Pending) then _ else w).
    assert ((if bool_decide (n_state r = Pending) then None else n_sup r) = None) as ->.
    { destruct (bool_decide_reflect (n_state r = Pending)) as [|Hp]; [done|]. destruct (n_sup r) as [s|] eqn:Es; [|done].
      exfalso. apply He. exists s, r. done. }
    exists (up_nregs (<[id := NReg (Some p) (n_sender r) (n_receiver r) Connected (n_name r) (n_addr r)]>) w1), id,
      (NReg (Some p) (n_sender r) (n_receiver r) Connected (n_name r) (n_addr r)).
    split; [reflexivity|].
    assert (w1 = w \/ exists s, n_state r = Pending /\ n_sup r = Some s /\ s <> p /\ w1 = exit_op s q RKill w) as Hw1.
    { unfold w1. destruct (bool_decide_reflect (n_state r = Pending)); [|by left]. destruct (n_sup r) as [s|]; [|by left].
      case_decide; [by left|]. right. by exists s. }
    assert (w_nmap w1 = w_nmap w /\ w_pend w1 = w_pend w /\ w_out w1 = w_out w /\ w_next_pid w1 = w_next_pid w) as (E1 & E2 & E3 & E4).
    { destruct Hw1 as [-> | (s & _ & _ & _ & ->)]; [done|]. ops. repeat case_match; done. }
    cbn. rewrite E1, E2, E3, E4, lookup_insert. split_and!; try done.
    + destruct Hw1 as [-> | (s & _ & _ & _ & ->)]; [done|]. intros i. unfold exit_op. destruct (w_regs w !! pid_id s) as [g|] eqn:Eg; [|done].
      cbn. destruct (decide (i = pid_id s)) as [->|]; [rewrite lookup_insert, Eg; split; eauto | by rewrite lookup_insert_ne].
    + intros s g (r' & Hr' & Hs & Hst) Hne Hg. injection Hr' as <-. unfold w1. rewrite bool_decide_true by done. rewrite Hs.
      rewrite decide_False by (intros ->; done). unfold exit_op. rewrite Hg. cbn. by rewrite lookup_insert.
    + intros i Hi. destruct Hw1 as [-> | (s & Hst & Hs & Hne & ->)]; [done|].
      destruct (Hi s) as [->|Hd]; [by exists r | done|].
      unfold exit_op. destruct (w_regs w !! pid_id s); [|done]. cbn. by rewrite lookup_insert_ne.
  - exists (up_nmap (<[NRemote nm ad := w_next_node w]>) (up_nregs (<[w_next_node w := new_nreg (Some p) Connected nm ad]>) (up_next_node N.succ w))),
      (w_next_node w), (new_nreg (Some p) Connected nm ad). cbn. rewrite !lookup_insert. split_and!; try done.
    intros s g (r' & Hr' & _). discriminate.
Qed.
Lemma accept_refused nm ad p q w s : established w (NRemote nm ad) s -> node_accept_op nm ad p q w = (w, false).
Proof.
  intros (r & Hr & Hs & Hp). unfold entry in Hr. unfold node_accept_op. destruct (w_nmap w !! NRemote nm ad) as [id|]; [|done].
  rewrite Hr. rewrite bool_decide_false by done. rewrite Hs. done.
Qed.
(** Registering the workers hands the pending frames over. *)
Lemma workers_spec me nm ad w id r : w_nmap w !! NRemote nm ad = Some id -> w_nregs w !! id = Some r ->
  let s := w_next_pid w in let w' := workers me (NRemote nm ad) w in
  w_nmap w' = w_nmap w /\
  w_nregs w' = <[id := NReg (n_sup r) (Some (PLocal s)) (Some (PLocal (N.succ s))) (n_state r) (n_name r) (n_addr r)]> (w_nregs w) /\
  w_pend w' = delete (NRemote nm ad) (w_pend w) /\
  w_out w' = <[s := default [] (w_out w !! s) ++ default [] (w_pend w !! NRemote nm ad)]> (w_out w) /\
  w_regs w' = <[N.succ s := new_reg]> (<[s := new_reg]> (w_regs w)) /\ w_next_pid w' = N.succ (N.succ s).
Proof.
  intros E1 E2. cbn zeta. unfold workers, node_workers_op.
  change (w_nmap (spawned me (spawned me w))) with (w_nmap w). rewrite E1.
  change (w_nregs (spawned me (spawned me w))) with (w_nregs w). rewrite E2.
  unfold hand_out. cbn [pid_id]. set (w2 := up_pend _ _).
  assert (w_regs w2 = <[N.succ (w_next_pid w) := new_reg]> (<[w_next_pid w := new_reg]> (w_regs w))) as Er by reflexivity.
  rewrite Er. rewrite lookup_insert_ne by lia. rewrite lookup_insert. cbn. split_and!; done.
Qed.
