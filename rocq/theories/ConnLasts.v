(** As long as nobody ends it, a connection (or an attempt at one) stays on record, and the frames
    given to it stay in order.  Every schedule. *)
From stdpp Require Import base list gmap numbers strings countable sorting relations.
From Coq Require Import Lia.
From Verif Require Import Prog ProgProofs ProgInv Types Mailbox MailboxSpec World ProcApi NodeApi Api Steps Hist Labels SchedSpec SchedProofs
  ProcSpec ProcProofs SendSpec NetSpec NetProofs Persist ConnProofs.

Section lasts.
  Context (S : serde) (nm : string) (ad : sockaddr) (id : N) (p : pid) (st : node_state) (so : option pid) (q : list frame).
  Notation nd := (NRemote nm ad).
  Definition stream (w : world) : list frame :=
    match so with Some s => default [] (w_out w !! pid_id s) | None => default [] (w_pend w !! nd) end.
  Record on_record (w : world) : Prop := OnRecord {
    or_map : w_nmap w !! nd = Some id;
    or_inj : forall nd', w_nmap w !! nd' = Some id -> nd' = nd;
    or_bound : (1 <= id < w_next_node w)%N;
    or_reg : exists r, w_nregs w !! id = Some r /\ n_sup r = Some p /\ n_state r = st /\ n_sender r = so /\ n_name r = nm /\ n_addr r = ad;
    or_stream : q `prefix_of` stream w }.
  Context (Hst : st <> Known) (Hso : st = Connected -> is_Some so).
  Definition steady (a : act) : Prop :=
    match a with
    | ADisconnect n _ | AWorkers n _ _ | ANmapDelete n | APendDelete n => n <> nd
    | AAccept n a _ _ => NRemote n a <> nd \/ st = Connected
    | ASupDown n p' => ~ (n = nd /\ p' = p)
    | ANregsDelete i => i <> id
    | ANmapClear | ANregsClear | APendClear => False
    | _ => True
    end.
  Lemma same_record w w' : w_nmap w' = w_nmap w -> w_nregs w' = w_nregs w -> w_next_node w' = w_next_node w ->
    stream w `prefix_of` stream w' -> on_record w -> on_record w'.
  Proof.
    intros E1 E2 E3 E4 [A B C D E]. constructor; rewrite ?E1, ?E2, ?E3; try done. by etrans.
  Qed.
  Lemma other_record w w' i r' : w_nmap w' = w_nmap w -> w_nregs w' = <[i := r']> (w_nregs w) -> i <> id -> w_next_node w' = w_next_node w ->
    stream w `prefix_of` stream w' -> on_record w -> on_record w'.
  Proof.
    intros E1 E2 Hi E3 E4 [A B C D E]. constructor; rewrite ?E1, ?E2, ?E3; try done; [|by etrans]. rewrite lookup_insert_ne by done. done.
  Qed.
  Lemma new_record w w' nd' r' : w_nmap w' = <[nd' := w_next_node w]> (w_nmap w) -> w_nregs w' = <[w_next_node w := r']> (w_nregs w) ->
    w_next_node w' = N.succ (w_next_node w) -> nd' <> nd -> stream w `prefix_of` stream w' -> on_record w -> on_record w'.
  Proof.
    intros E1 E2 E3 Hn E4 [A B C D E]. constructor; rewrite ?E1, ?E2, ?E3; try done; [| | | |by etrans].
    - by rewrite lookup_insert_ne.
    - intros x. destruct (decide (x = nd')) as [->|Hx]; [rewrite lookup_insert; intros [= Hy]; lia | rewrite lookup_insert_ne by done; apply B].
    - lia.
    - rewrite lookup_insert_ne by lia. done.
  Qed.
  Lemma stream_same w w' : w_out w' = w_out w -> (so = None -> w_pend w' !! nd = w_pend w !! nd) -> stream w `prefix_of` stream w'.
  Proof. intros E1 E2. unfold stream. destruct so; [by rewrite E1 | by rewrite E2]. Qed.
  Lemma hand_out_stream s fs w : stream w `prefix_of` stream (hand_out s fs w).
  Proof.
    unfold hand_out. destruct (w_regs w !! pid_id s); [|done]. unfold stream; cbn. destruct so as [s'|]; [|done].
    destruct (decide (pid_id s' = pid_id s)) as [E|E]; [|by rewrite lookup_insert_ne]. rewrite E, lookup_insert. cbn. by eexists.
  Qed.
  Lemma send_frame_stream f i w : stream w `prefix_of` stream (send_frame f i w).
  Proof.
    unfold send_frame. destruct (w_nregs w !! i) as [r|]; [|done]. destruct (n_sender r); [apply hand_out_stream|].
    assert (stream w `prefix_of` stream (up_pend (fun m => <[NRemote (n_name r) (n_addr r) := default [] (m !! NRemote (n_name r) (n_addr r)) ++ [f]]> m) w)) as H.
    { unfold stream; cbn. destruct so; [done|]. destruct (decide (NRemote (n_name r) (n_addr r) = nd)) as [E|E]; [|by rewrite lookup_insert_ne].
      rewrite E, lookup_insert. cbn. by eexists. }
    by destruct (n_state r).
  Qed.
  Lemma exit_op_stream a b c w : stream (exit_op a b c w) = stream w.
  Proof. unfold stream. replace (w_out (exit_op a b c w)) with (w_out w) by (ops; repeat case_match; done).
    by replace (w_pend (exit_op a b c w)) with (w_pend w) by (ops; repeat case_match; done). Qed.
  Lemma steady_act a w : steady a -> on_record w -> on_record (does S a w).
  Proof.
    intros Ha Hw. assert (node_act a \/ ~ node_act a) as [Hn|Hn] by (destruct a; cbn; tauto).
    2: { destruct (ntables_kept S a w Hn) as (E1 & E2 & E3). apply (same_record w); try done.
         assert (a <> APendClear) as HN by (by intros ->).
         destruct a; cbn [does]; try (apply stream_same; [ops; cbn; repeat case_match; reflexivity | intros _; ops; cbn; repeat case_match; reflexivity]);
           try contradiction; try (by destruct (Hn I)).
         - apply send_frame_stream.
         - apply stream_same; [done|]. intros _. cbn. by apply lookup_delete_ne.
         }
    destruct (or_reg _ Hw) as (r & Er & R1 & R2 & R3 & R4 & R5). pose proof (or_map _ Hw) as Em. pose proof (or_bound _ Hw) as Hb.
    destruct a; try contradiction; cbn [does].
    - unfold node_register_op. destruct (w_nmap w !! NRemote n a) as [i|] eqn:E; cbn [fst].
      + destruct c; [|done]. destruct (w_nregs w !! i) as [r1|] eqn:E1; [|done]. destruct (n_sup r1) eqn:E2; [done|]. unfold spawn_op.
        eapply (other_record w); [reflexivity|reflexivity| |reflexivity| |exact Hw].
        * intros ->. congruence.
        * by apply stream_same.
      + destruct c; unfold spawn_op; (eapply (new_record w); [reflexivity..|intros Hx; congruence| |exact Hw]); by apply stream_same.
    - unfold node_start_op. destruct (w_nmap w !! NLocal) eqn:E; [done|]. unfold spawn_op. cbn [fst].
      destruct Hw as [A B C D F]. unfold LOCAL_NODE_ID. constructor; cbn; try done.
      + by rewrite lookup_insert_ne.
      + intros x. destruct (decide (x = NLocal)) as [->|Hx]; [rewrite lookup_insert; intros [= Hy]; lia | rewrite lookup_insert_ne by done; apply B].
      + rewrite lookup_insert_ne by lia. done.
    - cbn in Ha. destruct Hw as [A B C D F]. constructor; cbn; try done.
      + by rewrite lookup_delete_ne.
      + intros x [_ Hx]%lookup_delete_Some. by apply B.
    - cbn in Ha. destruct Hw as [A B C D F]. constructor; cbn; try done. by rewrite lookup_delete_ne.
    - cbn in Ha. unfold node_disconnect_op. destruct (w_nmap w !! n) as [i|] eqn:E; [|done]. destruct (w_nregs w !! i) as [r1|] eqn:E1; [|done].
      assert (i <> id) as Hi. { intros ->. apply Ha. by apply (or_inj _ Hw). }
      set (w1 := match n_sup r1 with Some s => _ | None => _ end).
      assert (w_nmap w1 = w_nmap w /\ w_nregs w1 = w_nregs w /\ w_next_node w1 = w_next_node w /\ stream w `prefix_of` stream w1) as (X1 & X2 & X3 & X4).
      { assert (stream w `prefix_of` stream (up_pend (delete n) w)) as Hs.
        { apply stream_same; [done|]. intros _. cbn. by apply lookup_delete_ne. }
        unfold w1. destruct (n_sup r1) as [s|]; [|done].
        destruct (exit_op_nodes s p0 RKill (up_pend (delete n) w)) as (Y1 & Y2 & Y3). rewrite Y1, Y2, Y3, exit_op_stream. done. }
      eapply (other_record w _ i); [exact X1| |done|exact X3| |done]; [cbn; by rewrite X2|exact X4].
    - cbn in Ha. unfold node_accept_op. destruct (w_nmap w !! NRemote n a) as [i|] eqn:E; cbn [fst].
      2: { eapply (new_record w); [reflexivity..|intros Hx; congruence| |exact Hw]. by apply stream_same. }
      destruct (w_nregs w !! i) as [r1|] eqn:E1; [|done].
      set (w1 := if bool_decide (n_state r1 = Pending) then _ else w).
      assert (w_nmap w1 = w_nmap w /\ w_nregs w1 = w_nregs w /\ w_next_node w1 = w_next_node w /\ stream w1 = stream w) as (X1 & X2 & X3 & X4).
      { unfold w1. destruct (bool_decide _); [|done]. destruct (n_sup r1) as [s|]; [|done]. case_decide; [done|].
        destruct (exit_op_nodes s q0 RKill w) as (Y1 & Y2 & Y3). rewrite Y1, Y2, Y3, exit_op_stream. done. }
      assert (on_record w1) as Hw1 by (apply (same_record w); try done; by rewrite X4).
      destruct (if bool_decide (n_state r1 = Pending) then None else n_sup r1) as [s|] eqn:Es; cbn [fst]; [done|].
      eapply (other_record w1 _ i); [reflexivity|reflexivity| |reflexivity|done|done].
      intros ->. assert (NRemote n a = nd) as Hnd by (by apply (or_inj _ Hw)). destruct Ha as [Ha|Ha]; [done|].
      rewrite Er in E1. injection E1 as <-. rewrite R2, Ha in Es. rewrite bool_decide_false in Es by done. congruence.
    - cbn in Ha. unfold node_workers_op. destruct (w_nmap w !! n) as [i|] eqn:E; [|done]. destruct (w_nregs w !! i) as [r1|] eqn:E1; [|done].
      assert (i <> id) as Hi. { intros ->. apply Ha. by apply (or_inj _ Hw). }
      set (w1 := up_pend _ _). assert (on_record w1) as Hw1.
      { eapply (other_record w w1 i); [reflexivity|reflexivity|done|reflexivity| |done]. apply stream_same; [done|]. intros _. cbn. by apply lookup_delete_ne. }
      set (fs := default [] _).
      apply (same_record w1); [by (unfold hand_out; case_match)..| |done]. apply hand_out_stream.
    - cbn in Ha. unfold sup_down_op. destruct (w_nmap w !! n) as [i|] eqn:E; [|done]. destruct (w_nregs w !! i) as [r1|] eqn:E1; [|done].
      destruct (match n_sup r1 with Some s => _ | None => false end) eqn:Es; cbn [fst]; [done|].
      eapply (other_record w _ i); [reflexivity|reflexivity| |reflexivity| |done]; [|by apply stream_same].
      intros ->. assert (n = nd) as Hnd by (by apply (or_inj _ Hw)). rewrite Er in E1. injection E1 as <-. rewrite R1 in Es.
      apply bool_decide_eq_false in Es. apply dec_stable in Es. apply Ha. done.
  Qed.

  (** The calls and events that leave the connection (attempt) of [p] alone; an attempt also ends when
      another connection to the node is accepted. *)
  Definition leaves_record (c : call) : Prop :=
    match c with
    | CSupDown nd' p' => ~ (nd' = nd /\ p' = p)
    | CDisconnect _ nd' | CForget _ nd' => nd' <> nd
    | CNodeStop _ | CLocalPanic => False
    | CSupervise _ nm' ad' => NRemote nm' ad' <> nd \/ st = Connected
    | _ => True
    end.
  Lemma post_act {A} (a : act) (op : world -> world * A) (Q : A -> Prop) :
    (forall w, fst (op w) = does S a w) -> steady a -> (forall w, on_record w -> Q (snd (op w))) -> post on_record Q (atom op).
  Proof. intros E Ha HQ. apply post_atom. intros w Hw. split; [|by apply HQ]. rewrite E. by apply steady_act. Qed.
  Lemma record_call c : leaves_record c -> post on_record (fun _ => True) (call_prog S c).
  Proof.
    intros Hc.
    assert ((exists a b, c = CForget a b) \/ (exists a b d, c = CSupervise a b d) \/ (exists a b, c = CSupDown a b) \/ forall a, fp S c a -> steady a) as Hcases.
    { destruct c; try (by left; eauto); try (by right; left; eauto); try (by right; right; left; eauto); right; right; right;
        intros a Ha; destruct a; try exact I; cbn in Ha; try contradiction; try discriminate;
        unfold fp_send, fp_fire, fp_destroy_timer, fp_spawn, fp_link, fp_unlink, fp_monitor, fp_monitor_alias, fp_demonitor, fp_exit, fp_finish, fp_crash in Ha;
        cbn in Ha; try contradiction; try (destruct Ha; contradiction); try (by destruct f); cbn in *; try contradiction.
      destruct Ha as (-> & _). exact Hc. }
    destruct Hcases as [(me & nd' & ->)|[(me & nm' & ad' & ->)|[(nd' & p' & ->)|Hs]]]; cbn in Hc.
    - cbn [call_prog]. unfold ret_as. eapply (post_bind _ (fun _ => True)); [|by intros]. unfold forget. destruct nd' as [|n a]; [exact I|]. unfold node_forget.
      eapply (post_bind _ (fun o => o <> Some id)).
      { apply (post_act (ANmapDelete (NRemote n a))); [done|exact Hc|]. intros w Hw E. cbn in E. apply Hc. by apply (or_inj _ Hw). }
      intros [i|] Hi; [|exact I]. eapply (post_bind _ (fun _ => True)).
      { apply (post_act (ANregsDelete i)); [done|cbn; congruence|done]. }
      intros [r|] _; [|exact I]. eapply (post_bind _ (fun _ => True)).
      { apply post_modify; [|done]. intros w Hw. apply (steady_act (APendDelete (NRemote n a))); done. }
      intros _ _. destruct (n_sup r) as [s|]; [|exact I]. unfold exit. destruct (pid_is_local s); (apply post_modify; [|done]); intros w Hw.
      + by apply (steady_act (AExit s (PLocal me) RKill)).
      + by apply (steady_act (ASendFrame (FExit (pid_id s) me RKill) (pid_node s))).
    - cbn [call_prog]. unfold ret_as. eapply (post_bind _ (fun _ => True)); [|by intros]. unfold remote_supervisor.
      eapply (post_bind _ (fun b => b = true -> NRemote nm' ad' <> nd)).
      { apply (post_act (AAccept nm' ad' (PLocal me) (PLocal me))); [done|exact Hc|]. intros w Hw Hb Heq.
        destruct Hc as [Hc|Hc]; [done|]. injection Heq as -> ->. destruct (or_reg _ Hw) as (r & Er & R1 & R2 & _).
        rewrite (accept_refused _ _ _ _ w p) in Hb; [done|]. exists r. unfold entry. rewrite (or_map _ Hw), Er. split_and!; try done. congruence. }
      intros [] Hb; cbn [negb]; [|exact I]. specialize (Hb eq_refl).
      assert (forall m, post on_record (fun _ => True) (spawn m true false)) as Hsp.
      { intros m. eapply (post_guar (lstep S (fp_spawn m true false))); [|apply l_spawn]. intros w w' (a & Ha & ->) Hw.
        apply steady_act; [|done]. destruct a; cbn in Ha; try contradiction; exact I. }
      eapply (post_bind _ (fun _ => True)); [apply Hsp|]. intros s _. eapply (post_bind _ (fun _ => True)); [apply Hsp|]. intros r _.
      eapply (post_bind _ (fun _ => True)); [|by intros]. apply post_modify; [|done]. intros w Hw.
      by apply (steady_act (AWorkers (NRemote nm' ad') (fst s) (fst r))).
    - cbn [call_prog]. unfold ret_as. eapply (post_bind _ (fun _ => True)); [|by intros].
      unfold supervisor_down. eapply (post_bind _ (fun b => b = true -> nd' <> nd)).
      { apply (post_act (ASupDown nd' p')); [done|exact Hc|]. intros w Hw Hb ->. destruct (or_reg _ Hw) as (r & Er & R1 & _).
        unfold sup_down_op in Hb. rewrite (or_map _ Hw), Er, R1 in Hb. rewrite bool_decide_true in Hb; [done|]. intros <-. by apply Hc. }
      intros [] Hb; cbn [negb]; [|exact I]. specialize (Hb eq_refl).
      eapply post_guar; [|apply (l_cut S nd' p')]. intros w w' (a & Ha & ->) Hw. apply steady_act; [|done].
      destruct a; cbn in Ha; try contradiction; try exact I; cbn; by subst.
    - eapply (post_guar (lstep S (fp S c))); [|apply call_fp]. intros w w' (a & Ha & ->) Hw. apply steady_act; auto.
  Qed.
  Lemma record_lasts w s : on_record w -> reach (calls_of S leaves_record) (Sys w []) s -> on_record (s_world s).
  Proof.
    intros Hw Hr. refine (proj1 (reach_safe on_record _ (Sys w []) s _ Hw _ Hr)); [|constructor].
    intros c (c' & Hc & ->). eapply post_safe, record_call, Hc.
  Qed.
End lasts.
