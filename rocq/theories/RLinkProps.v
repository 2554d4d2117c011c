(** C58: a link with a process of another node works in every schedule. *)
From stdpp Require Import base list gmap numbers strings countable sorting relations.
From Coq Require Import Lia.
From Verif Require Import Prog ProgProofs ProgInv Types Mailbox World ProcApi NodeApi Api Steps Hist Labels Play SchedSpec SchedProofs SchedProps
  MailboxSpec ProcSpec ProcProofs ProcInv FreshProofs AllocProofs SendSpec RMonProofs NetLife NetSpec NetProofs ConnProofs ConnLasts ConnProps RemoteProps Debt TieSpec TieProps WatchProps
  RWatchProps LinkOwner RLinkProofs.

(** Every call but those that end the connection of process [conn] to [nd], and the withdrawal of the link between [target] and process [f] of [nd] by [f]. *)
Definition keeps_remote_link (nd : node) (conn target f : N) (c : call) : Prop :=
  keeps_connection nd conn c /\ match c with CFrame nd' _ (FLink false i f') => ~ (nd' = nd /\ i = target /\ f' = f) | _ => True end.

Section rtied.
  Context (S : serde) (nm : string) (ad : sockaddr) (id conn s f target : N) (Hst : s <> target).
  Notation nd := (NRemote nm ad).
  Notation api := (calls_of S (keeps_remote_link nd conn target f)).
  Notation JJ := (RLinkProofs.J nm ad id (PLocal conn) Connected (Some (PLocal s)) f target).
  Notation evv := (RLinkProofs.ev nm ad (Some (PLocal s)) target).
  Notation ow z g x := (owed evv JJ RLinkProofs.K (s_world z) (s_threads z) g x).
  Notation bs := (RLinkProofs.basic nm ad id (PLocal conn) Connected (Some (PLocal s)) f target).
  Lemma rl_keeps_leaves c : keeps_remote_link nd conn target f c -> leaves_tie nm ad (PLocal conn) Connected f target c.
  Proof. intros [H1 H2]. split; [|exact H2]. destruct c; cbn in *; auto. Qed.
  Lemma rl_refl w g : evv w w g = g.
  Proof. unfold RLinkProofs.ev. by destruct (w_regs w !! target). Qed.
  Lemma rl_step (z z' : sys world val) g x : ow z g x -> sys_step api z z' -> exists x', ow z' (evv (s_world z) (s_world z') g) x'.
  Proof.
    intros Hx Hs. eapply (owed_step _ _ _ rl_refl api); [|exact Hx|exact Hs]. intros p (c & Hc & ->).
    apply RLinkProofs.t_call; [done|by eexists|by intros ? [= <-]|by apply rl_keeps_leaves].
  Qed.
  Lemma rl_start w : bs w -> is_Some (w_regs w !! target) -> RLinkProofs.stored id f target w -> ow (Sys w [] : sys world val) None None.
  Proof.
    intros H1 H2 H3. split; [done|].
    exists []. split; [constructor|]. split_and!; [intros i z b Hi; discriminate|intros i z Hi; discriminate|intros i i' z z' b b' Hi; discriminate|discriminate].
  Qed.
  Lemma rl_reach (s0 z : sys world val) g x : ow s0 g x -> reach api s0 z -> exists g' x', ow z g' x'.
  Proof.
    intros H0 Hr. revert z Hr. refine (rtc_ind_r (fun z => exists g' x', ow z g' x') s0 _ _); [by eauto|].
    intros y z _ Hs (g' & x' & Hx). destruct (rl_step y z g' x' Hx Hs) as (x2 & ?). eauto.
  Qed.
  Lemma rl_ghost (z : sys world val) g x : ow z g x -> is_Some (w_regs (s_world z) !! target) -> g = None /\ x = None.
  Proof.
    intros [[_ H] _] Ht. destruct x as [[[[] ?] ?]|], g as [[? ?]|]; try done.
    - destruct H as (_ & E & _). rewrite E in Ht. by destruct Ht.
    - destruct H as (_ & E & _). rewrite E in Ht. by destruct Ht.
    - destruct H as (E & _). rewrite E in Ht. by destruct Ht.
  Qed.
  Lemma rl_after (s0 z : sys world val) y x : ow s0 (Some y) x -> reach api s0 z -> exists x', ow z (Some y) x'.
  Proof.
    intros H0 Hr. revert z Hr. refine (rtc_ind_r (fun z => exists x', ow z (Some y) x') s0 _ _); [by eauto|].
    intros z z' _ Hs (x' & Hx). destruct (rl_step z z' _ _ Hx Hs) as (x2 & Hx2). exists x2.
    assert (evv (s_world z) (s_world z') (Some y) = Some y) as E; [|by rewrite <- E].
    unfold RLinkProofs.ev. destruct (w_regs (s_world z) !! target) eqn:Ea; [|done]. pose proof (rl_ghost z _ _ Hx) as H. rewrite Ea in H. destruct (H ltac:(eauto)). done.
  Qed.
  Lemma rl_basic w : occurs S w -> on_record nm ad id (PLocal conn) Connected (Some (PLocal s)) [] w -> (s < w_next_pid w)%N -> is_Some (w_regs w !! target) -> bs w.
  Proof.
    intros Ho Hrec Hs Ht. split; [exact Hrec|].
    pose proof (or_bound _ _ _ _ _ _ _ _ Hrec) as Hb. pose proof (or_map _ _ _ _ _ _ _ _ Hrec) as Hm.
    destruct (LinkOwner.occurs_owner S id ltac:(unfold LOCAL_NODE_ID; lia) w Ho) as ([o|] & H1 & _ & H3 & H4); [|by destruct (H3 nd)].
    assert (nd = o) as <- by (by apply H3). constructor.
    - destruct (occurs_allots S w Ho) as [Ha _]. by apply Ha.
    - intros z [= <-]. exact Hs.
    - intros nd' Hn. by apply H4.
  Qed.
  (** From a state in which the link is on record. *)
  Lemma rl_all w : occurs S w -> on_record nm ad id (PLocal conn) Connected (Some (PLocal s)) [] w -> (s < w_next_pid w)%N -> is_Some (w_regs w !! target) ->
    PRemote f id ∈ links_of w target ->
    (forall z, reach api (Sys w []) z -> is_Some (w_regs (s_world z) !! target) -> PRemote f id ∈ links_of (s_world z) target) /\
    (forall s1 s2 s3 why, reach api (Sys w []) s1 -> sys_step api s1 s2 -> leaves target why s1 s2 -> reach api s2 s3 -> TieSpec.settled s3 -> is_Some (w_regs (s_world s3) !! s) ->
       exists ls, f ∈ ls /\ FLinkDown ls target why ∈ drop (length (queued (s_world s2) (inl s))) (queued (s_world s3) (inl s))).
  Proof.
    intros Ho Hrec Hlt Ht Hl. pose proof (rl_start w (rl_basic w Ho Hrec Hlt Ht) Ht Hl) as H0. split.
    - intros z Hz Htz. destruct (rl_reach (Sys w []) z None None H0 Hz) as (g & x & Hx).
      destruct (rl_ghost z _ _ Hx Htz) as [-> ->]. destruct Hx as [(_ & _ & Hs) _]. exact Hs.
    - intros s1 s2 s3 why H1 H12 (r & Hr & <- & Hg) H3 Hs Hm3.
      destruct (rl_reach (Sys w []) s1 None None H0 H1) as (g & x & Hx).
      destruct (rl_ghost s1 _ _ Hx ltac:(rewrite Hr; eauto)) as [-> ->].
      destruct (rl_step _ _ _ _ Hx H12) as (x2 & Hx2). unfold RLinkProofs.ev in Hx2. rewrite Hr, Hg in Hx2.
      destruct (rl_after _ _ _ _ Hx2 H3) as (x3 & Hx3). pose proof (owed_settled _ _ _ _ _ _ _ Hx3 Hs) as ->.
      destruct Hx3 as [(_ & _ & _ & Hd3) _]. apply Hd3. by intros ? [= <-].
  Qed.
End rtied.
(** What an accepted connection leaves behind, after any schedule that keeps it and one more call. *)
Lemma after_accept S w0 conn nm ad w1 s rc : proper S w0 -> run (call_prog S (CSupervise conn nm ad)) w0 = Done w1 (VWorkers (PLocal s) rc) ->
  exists id, w_nmap w1 !! NRemote nm ad = Some id /\
  forall sv, reach (calls_of S (keeps_connection (NRemote nm ad) conn)) (Sys w1 []) sv ->
    occurs S (s_world sv) /\ on_record nm ad id (PLocal conn) Connected (Some (PLocal s)) [] (s_world sv) /\ (s < w_next_pid (s_world sv))%N.
Proof.
  intros Hp E. destruct (accepted_record S w0 conn nm ad w1 _ Hp E) as (id & s' & Hv & Hs' & Hrec & _ & _ & Hreg).
  injection Hv as <- _. exists id. split; [apply Hrec|]. intros sv Hsv.
  pose proof (seq_occurs S w0 (proper_seq S w0 Hp)) as Ho0.
  assert (occurs S w1) as Ho1 by (eapply occurs_run; [exact Ho0|eapply happens_done; exact E]).
  pose proof (reach_occurs S _ w1 sv Ho1 Hsv) as Hov.
  assert (s < w_next_pid w1)%N as Hlt1 by (destruct (occurs_allots S w1 Ho1) as [Ha _]; by apply Ha).
  pose proof (pids_grow S _ w1 sv Hsv) as Hg1.
  split; [done|]. split; [|lia].
  apply (RWatchProofs.record_weaken nm ad id (PLocal conn) Connected (Some (PLocal s)) (default [] (w_pend w0 !! NRemote nm ad))).
  apply (record_lasts S nm ad id (PLocal conn) Connected (Some (PLocal s)) _ ltac:(eauto) w1 sv Hrec).
  eapply rtc_subrel; [|exact Hsv]. intros a b Hab. destruct Hab as [i a b Hi|q a (c & Hc & ->)]; [by eapply step_tick|].
  apply step_call. exists c. split; [|done]. destruct c; cbn in *; auto.
Qed.
Lemma one_more S nm ad id conn s c w w' v : occurs S w -> on_record nm ad id (PLocal conn) Connected (Some (PLocal s)) [] w -> (s < w_next_pid w)%N ->
  keeps_connection (NRemote nm ad) conn c -> run (call_prog S c) w = Done w' v ->
  occurs S w' /\ on_record nm ad id (PLocal conn) Connected (Some (PLocal s)) [] w' /\ (s < w_next_pid w')%N.
Proof.
  intros Ho Hrec Hlt Hc E.
  assert (reach (calls_of S (leaves_record nm ad (PLocal conn) Connected)) (Sys w []) (Sys w' [Ret v])) as Hr.
  { eapply run_calls; [|exact E]. destruct c; cbn in *; auto. }
  split; [eapply occurs_run; [exact Ho|eapply happens_done; exact E]|]. split.
  - exact (record_lasts S nm ad id (PLocal conn) Connected (Some (PLocal s)) [] ltac:(eauto) _ _ Hrec Hr).
  - pose proof (pids_grow S _ _ _ Hr) as Hg. cbn in Hg. lia.
Qed.
Lemma link_regs S me p i w w' v : run (call_prog S (CLink me p)) w = Done w' v -> is_Some (w_regs w !! i) -> is_Some (w_regs w' !! i).
Proof.
  intros E. pose proof (run_guar (fun w w' => is_Some (w_regs w !! i) -> is_Some (w_regs w' !! i)) (call_prog S (CLink me p)) w) as H.
  rewrite E in H. cbn [out_world] in H. apply H; [done|auto|]. eapply guar_mono; [|apply call_fp].
  intros w1 w2 (y & Hy & ->) Hi. pose proof (RegProofs.regs_change S i y w1) as Hc. destruct Hc; rewrite ?fmap_is_Some; eauto; subst y; cbn in Hy; done.
Qed.

(** A connection to another node is accepted (process [conn] serves it, [s] writes to it).  After any schedule of calls that
    do not end it, a process [f] of that node links itself to the existing process [target] of this one.  After that, in every
    schedule of calls that neither end the connection nor take the link back:
    - as long as [target] is there, the link is on record;
    - when [target] leaves with reason [why], then by the time all calls have returned - and unless the writer of the
      connection is gone - a message that [target] went down with that reason, for [f] among others, has been given to the connection. *)
Theorem C58_reported_in_every_schedule :
  forall S w0 conn nm ad w1 s rc, proper S w0 -> run (call_prog S (CSupervise conn nm ad)) w0 = Done w1 (VWorkers (PLocal s) rc) ->
  exists id, w_nmap w1 !! NRemote nm ad = Some id /\
  forall sv, reach (calls_of S (keeps_connection (NRemote nm ad) conn)) (Sys w1 []) sv ->
  forall sup target f, s <> target -> is_Some (w_regs (s_world sv) !! target) ->
  exists w2, run (call_prog S (CFrame (NRemote nm ad) sup (FLink true target f))) (s_world sv) = Done w2 VUnit /\
    (forall z, reach (calls_of S (keeps_remote_link (NRemote nm ad) conn target f)) (Sys w2 []) z -> is_Some (w_regs (s_world z) !! target) ->
       PRemote f id ∈ links_of (s_world z) target) /\
    (forall s1 s2 s3 why, reach (calls_of S (keeps_remote_link (NRemote nm ad) conn target f)) (Sys w2 []) s1 ->
       sys_step (calls_of S (keeps_remote_link (NRemote nm ad) conn target f)) s1 s2 -> leaves target why s1 s2 ->
       reach (calls_of S (keeps_remote_link (NRemote nm ad) conn target f)) s2 s3 -> TieSpec.settled s3 -> is_Some (w_regs (s_world s3) !! s) ->
       exists ls, f ∈ ls /\ FLinkDown ls target why ∈ drop (length (queued (s_world s2) (inl s))) (queued (s_world s3) (inl s))).
Proof.
  intros S w0 conn nm ad w1 s rc Hp E. destruct (after_accept S w0 conn nm ad w1 s rc Hp E) as (id & Hid & Hsv). exists id. split; [exact Hid|].
  intros sv Hr sup target f Hne Ht. destruct (Hsv sv Hr) as (Ho & Hrec & Hlt).
  destruct (C58_request_installed S nm ad id sup target f (s_world sv) (or_map _ _ _ _ _ _ _ _ Hrec) Ht) as (w2 & E2 & Hm & _ & Hregs & _).
  exists w2. split; [exact E2|]. destruct (one_more S nm ad id conn s _ _ _ _ Ho Hrec Hlt (I : keeps_connection _ _ (CFrame _ _ _)) E2) as (Ho2 & Hrec2 & Hlt2).
  apply (rl_all S nm ad id conn s f target Hne w2 Ho2 Hrec2 Hlt2); [by rewrite Hregs|exact Hm].
Qed.
Print Assumptions C58_reported_in_every_schedule.
(** The other direction: the local process [target] has called link with the remote process [f]: the end of [target] is told in the same way. *)
Theorem C58_own_end_reported_in_every_schedule :
  forall S w0 conn nm ad w1 s rc, proper S w0 -> run (call_prog S (CSupervise conn nm ad)) w0 = Done w1 (VWorkers (PLocal s) rc) ->
  exists id, w_nmap w1 !! NRemote nm ad = Some id /\
  forall sv, reach (calls_of S (keeps_connection (NRemote nm ad) conn)) (Sys w1 []) sv ->
  forall target f, s <> target -> is_Some (w_regs (s_world sv) !! target) ->
  exists w2, run (call_prog S (CLink target (PRemote f id))) (s_world sv) = Done w2 VUnit /\
    (forall s1 s2 s3 why, reach (calls_of S (keeps_remote_link (NRemote nm ad) conn target f)) (Sys w2 []) s1 ->
       sys_step (calls_of S (keeps_remote_link (NRemote nm ad) conn target f)) s1 s2 -> leaves target why s1 s2 ->
       reach (calls_of S (keeps_remote_link (NRemote nm ad) conn target f)) s2 s3 -> TieSpec.settled s3 -> is_Some (w_regs (s_world s3) !! s) ->
       exists ls, f ∈ ls /\ FLinkDown ls target why ∈ drop (length (queued (s_world s2) (inl s))) (queued (s_world s3) (inl s))).
Proof.
  intros S w0 conn nm ad w1 s rc Hp E. destruct (after_accept S w0 conn nm ad w1 s rc Hp E) as (id & Hid & Hsv). exists id. split; [exact Hid|].
  intros sv Hr target f Hne Ht. destruct (Hsv sv Hr) as (Ho & Hrec & Hlt).
  assert (lookup_remote id (s_world sv) = Some (nm, ad)) as Hlk.
  { destruct (or_reg _ _ _ _ _ _ _ _ Hrec) as (r & Er & _ & _ & _ & R4 & R5). unfold lookup_remote. by rewrite Er, R4, R5. }
  destruct (run_link_remote S target f id nm ad (s_world sv) Ht Hlk) as (w2 & m & E2 & _ & Hm & _).
  exists w2. split; [exact E2|]. destruct (one_more S nm ad id conn s _ _ _ _ Ho Hrec Hlt (I : keeps_connection _ _ (CLink _ _)) E2) as (Ho2 & Hrec2 & Hlt2).
  apply (rl_all S nm ad id conn s f target Hne w2 Ho2 Hrec2 Hlt2); [by eapply link_regs|exact Hm].
Qed.
Print Assumptions C58_own_end_reported_in_every_schedule.
(** non-vacuity: process 7 of node "a" is linked to process 1, which crashes while 7 signals another process. *)
Definition tied_up : world := out_world (run (call_prog S0 (CFrame nodeA (PLocal 2) (FLink true 1 7))) linked_up).
Example C58_example_schedule :
  proper S0 dialled /\ run (call_prog S0 (CSupervise 2 "a" (SA4 1 5))) dialled = Done linked_up (VWorkers (PLocal 3) (PLocal 4)) /\
  run (call_prog S0 (CFrame nodeA (PLocal 2) (FLink true 1 7))) linked_up = Done tied_up VUnit /\
  exists s1 s2 s3, reach (calls_of S0 (keeps_remote_link nodeA 2 1 7)) (Sys tied_up []) s1 /\ sys_step (calls_of S0 (keeps_remote_link nodeA 2 1 7)) s1 s2 /\
    leaves 1 (RCustom "boom") s1 s2 /\ reach (calls_of S0 (keeps_remote_link nodeA 2 1 7)) s2 s3 /\ TieSpec.settled s3 /\ is_Some (w_regs (s_world s3) !! 3%N) /\
    queued (s_world s3) (inl 3%N) = [FLinkDown [7%N] 1 (RCustom "boom")].
Proof.
  split; [apply dialled_proper|]. split; [unfold linked_up; apply run_out; vm_compute; reflexivity|]. split; [unfold tied_up; apply run_out; vm_compute; reflexivity|].
  destruct (tie_example S0 (keeps_remote_link nodeA 2 1 7) tied_up [CCrash 1 (RCustom "boom"); CFrame nodeA (PLocal 2) (FExit 5 7 RKill)] [0] 0 [0; 1; 0; 1; 0; 0; 0; 0; 0]
    (fun s1 s2 s3 => leavesb 1 s1 s2 = Some (RCustom "boom") /\ settledb s3 = true /\ bool_decide (is_Some (w_regs (s_world s3) !! 3%N)) = true /\
      queued (s_world s3) (inl 3%N) = [FLinkDown [7%N] 1 (RCustom "boom")])) as (s1 & s2 & s3 & H1 & H2 & H3 & H4 & H5 & H6 & H7).
  { repeat constructor; discriminate. }
  { vm_compute. auto. }
  exists s1, s2, s3. split; [exact H1|]. split; [exact H2|]. split; [by apply leavesb_leaves|]. split; [exact H3|]. split; [by apply settledb_settled|].
  split; [exact (proj1 (bool_decide_eq_true _) H6)|exact H7].
Qed.
(** "Every request is answered once the process has ended" - also when the request and the end overlap - is false: the
    request finds the process, the process ends, and only then is the link recorded, where nobody looks any more. *)
Definition C58_statement (S : serde) : Prop :=
  forall w0 conn nm ad w1 s rc sup target f z, proper S w0 -> run (call_prog S (CSupervise conn nm ad)) w0 = Done w1 (VWorkers (PLocal s) rc) -> s <> target ->
    reach (calls_of S (keeps_remote_link (NRemote nm ad) conn target f)) (Sys w1 [call_prog S (CFrame (NRemote nm ad) sup (FLink true target f))]) z ->
    TieSpec.settled z -> w_regs (s_world z) !! target = None -> is_Some (w_regs (s_world z) !! s) ->
    exists ls why, f ∈ ls /\ FLinkDown ls target why ∈ queued (s_world z) (inl s).
Theorem C58_refuted : ~ C58_statement S0.
Proof.
  intros H.
  assert (exists z, reach (calls_of S0 (keeps_remote_link nodeA 2 1 7)) (Sys linked_up [call_prog S0 (CFrame nodeA (PLocal 2) (FLink true 1 7))]) z /\
    (settledb z = true /\ bool_decide (w_regs (s_world z) !! 1%N = None) = true /\ bool_decide (is_Some (w_regs (s_world z) !! 3%N)) = true /\ queued (s_world z) (inl 3%N) = [])) as (z & Hz & H1 & H2 & H3 & H4).
  { assert (match exec [0; 0; 1; 1; 1; 1; 1; 0; 0] (Sys linked_up [call_prog S0 (CFrame nodeA (PLocal 2) (FLink true 1 7)); call_prog S0 (CFinish 1)]) with Some z =>
      settledb z = true /\ bool_decide (w_regs (s_world z) !! 1%N = None) = true /\ bool_decide (is_Some (w_regs (s_world z) !! 3%N)) = true /\ queued (s_world z) (inl 3%N) = [] | None => False end) as Hx by (vm_compute; auto).
    destruct (exec _ _) as [z|] eqn:E; [|done]. exists z. split; [|exact Hx].
    eapply rtc_l; [|by eapply exec_reach]. apply (step_call (calls_of S0 (keeps_remote_link nodeA 2 1 7)) (call_prog S0 (CFinish 1)) (Sys linked_up [call_prog S0 (CFrame nodeA (PLocal 2) (FLink true 1 7))])).
    exists (CFinish 1). split; [split; exact I|done]. }
  assert (run (call_prog S0 (CSupervise 2 "a" (SA4 1 5))) dialled = Done linked_up (VWorkers (PLocal 3) (PLocal 4))) as E by (unfold linked_up; apply run_out; vm_compute; reflexivity).
  destruct (H dialled 2%N "a"%string (SA4 1 5) linked_up 3%N (PLocal 4) (PLocal 2) 1%N 7%N z dialled_proper E ltac:(discriminate) Hz) as (rs & why & _ & Hin).
  - by apply settledb_settled.
  - exact (proj1 (bool_decide_eq_true _) H2).
  - exact (proj1 (bool_decide_eq_true _) H3).
  - rewrite H4 in Hin. by apply elem_of_nil in Hin.
Qed.
Print Assumptions C58_refuted.

(** Both nodes, in every schedule, as in [C56_two_nodes_in_every_schedule]: process [me] of A links itself to process [i] of B.  When the message has
    reached B and [i] then ends in any schedule, a message leaves B which, arriving at A after any schedule of
    other calls there, makes exactly one exit signal for [me], with the reason [i] ended with. *)
Theorem C58_two_nodes_in_every_schedule :
  forall S (w : world) me i n nb ab nma ada supA supB w0 conn w1 s rc sv,
    is_Some (w_regs w !! me) -> lookup_remote n w = Some (nb, ab) ->
    proper S w0 -> run (call_prog S (CSupervise conn nma ada)) w0 = Done w1 (VWorkers (PLocal s) rc) ->
    reach (calls_of S (keeps_connection (NRemote nma ada) conn)) (Sys w1 []) sv -> s <> i -> is_Some (w_regs (s_world sv) !! i) ->
    exists w' fr v1, run (call_prog S (CLink me (PRemote i n))) w = Done w' VUnit /\
      (exists n', w_nmap w' !! NRemote nb ab = Some n' /\ emits w' [(n', fr)] w w') /\
      run (call_prog S (CFrame (NRemote nma ada) supB fr)) (s_world sv) = Done v1 VUnit /\
      forall s1 s2 s3 why, reach (calls_of S (keeps_remote_link (NRemote nma ada) conn i me)) (Sys v1 []) s1 ->
        sys_step (calls_of S (keeps_remote_link (NRemote nma ada) conn i me)) s1 s2 -> leaves i why s1 s2 ->
        reach (calls_of S (keeps_remote_link (NRemote nma ada) conn i me)) s2 s3 -> TieSpec.settled s3 -> is_Some (w_regs (s_world s3) !! s) ->
        exists ls, FLinkDown ls i why ∈ drop (length (queued (s_world s2) (inl s))) (queued (s_world s3) (inl s)) /\
          forall z g l, reach (calls_of S (leaves_remote_link me i (NRemote nb ab))) (Sys w' []) z ->
            w_nmap (s_world z) !! NRemote nb ab = Some n -> w_regs (s_world z) !! me = Some g -> w_loc (s_world z) !! me = Some l ->
            exists w2, run (call_prog S (CFrame (NRemote nb ab) supA (FLinkDown ls i why))) (s_world z) = Done w2 VUnit /\
              w_regs w2 !! me = Some (signalled why g) /\
              w_loc w2 !! me = Some (after_arrival (if r_trap g then [ISystem (SExit (PRemote i n) why)] else []) l) /\
              (PRemote i n, me) ∉ links_to w2 (NRemote nb ab).
Proof.
  intros S w me i n nb ab nma ada supA supB w0 conn w1 s rc sv Hme Hn Hp Ea Hsv Hne Hi.
  destruct (C58_link S me i n nb ab w Hme Hn) as (w' & n' & E & En & Ee & Ha).
  destruct (C58_reported_in_every_schedule S w0 conn nma ada w1 s rc Hp Ea) as (id & _ & Hb).
  destruct (Hb sv Hsv supB i me Hne Hi) as (v1 & Ev & _ & Hd).
  exists w', (FLink true i me), v1. split; [exact E|]. split; [by exists n'|]. split; [exact Ev|].
  intros s1 s2 s3 why H1 H2 H3 H4 H5 H6. destruct (Hd s1 s2 s3 why H1 H2 H3 H4 H5 H6) as (ls & Hk & Hin). exists ls. split; [exact Hin|].
  intros z g l Hz Hnz Hg Hl. exact (Ha z Hz supA ls why g l Hnz Hk Hg Hl).
Qed.
Print Assumptions C58_two_nodes_in_every_schedule.
