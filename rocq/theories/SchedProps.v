(** Property theorems that hold under every schedule: C12 (node ids), C16 (fresh pids and
    references), C22 / C56 (at most one down notice), C24 (one-shot aliases).

    [reach (any_call S) (Sys world0 []) s]: [s] is reached from the fresh node by beginning any API
    calls at any times and interleaving their atomic steps in any way. *)
From stdpp Require Import base list gmap numbers strings countable sorting relations.
From Coq Require Import Lia.
From Verif Require Import Prog ProgProofs ProgInv Types Mailbox World ProcApi NodeApi Api Steps Hist SchedSpec Msum SchedProofs DownProofs AliasProofs.

(** [reachable]: Hist.v.  Any serialisation will do for the examples. *)
Definition S0 : serde := Serde (fun _ => []) (fun _ _ => None).

Lemma step1_node_keep S w w' nd id : ids_ok w -> anystep S w w' -> w_nmap w !! nd = Some id ->
  w_nmap w' !! nd = Some id \/ w_nmap w' !! nd = None.
Proof.
  intros Hok H Hid. destruct H; try (left; ops; cbn; repeat case_match; exact Hid).
  - left. unfold node_register_op, spawn_op. repeat case_match; cbn; simplify_eq; cbn; try exact Hid;
      rewrite lookup_insert_ne by congruence; exact Hid.
  - left. unfold node_start_op, spawn_op. repeat case_match; cbn; simplify_eq; cbn; try exact Hid;
      rewrite lookup_insert_ne by congruence; exact Hid.
  - cbn. destruct (decide (n = nd)) as [->|Hne]; [rewrite lookup_delete; auto | rewrite lookup_delete_ne by exact Hne; auto].
  - cbn. right. apply lookup_empty.
  - left. unfold node_disconnect_op. repeat case_match; cbn; try exact Hid. 
    rewrite (proj1 (exit_op_nodes _ _ _ _)). exact Hid.
  - left. unfold node_accept_op. repeat case_match; cbn; simplify_eq; try exact Hid;
      try (rewrite (proj1 (exit_op_nodes _ _ _ _)); exact Hid).
    rewrite lookup_insert_ne by congruence; exact Hid.
  - left. unfold node_workers_op, hand_out. repeat case_match; cbn; exact Hid.
  - left. unfold sup_down_op. repeat case_match; cbn; exact Hid.
Qed.
Lemma forget_unregisters me n a w w1 id : w_nmap w !! NRemote n a = Some id ->
  run (forget me (NRemote n a)) w = Done w1 tt -> w_nregs w1 !! id = None.
Proof.
  intros Hid. cbn. rewrite Hid. cbn. destruct (w_nregs w !! id) as [r|] eqn:E; cbn.
  - destruct (n_sup r) as [s|]; cbn.
    + unfold exit. destruct (pid_is_local s); cbn; intros [= <-].
      * rewrite (proj1 (proj2 (exit_op_nodes _ _ _ _))). cbn. apply lookup_delete.
      * unfold send_frame, hand_out. repeat case_match; cbn; apply lookup_delete.
    + intros [= <-]. cbn. apply lookup_delete.
  - intros [= <-]. cbn. apply lookup_delete.
Qed.
Lemma occ_handed {A} `{EqDecision A} (x : A) (f : val -> list A) (s : sys world val) :
  occ x (returned_vals s ≫= f) = list_sum (map (returned (fun v => occ x (f v))) (s_threads s)).
Proof.
  unfold returned_vals. destruct s as [w ts]; cbn [s_threads]. induction ts as [|p ts IH]; [reflexivity|].
  change (list_sum (map (returned (fun v => occ x (f v))) (p :: ts))) with
    (returned (fun v => occ x (f v)) p + list_sum (map (returned (fun v => occ x (f v))) ts)).
  rewrite <- IH. destruct p as [v| |]; cbn [omap list_omap returned]; [|reflexivity|reflexivity].
  cbn [mbind list_bind]. rewrite occ_app. reflexivity.
Qed.
Lemma occ_in {A} `{EqDecision A} (x : A) l : x ∈ l -> 1 <= occ x l.
Proof.
  induction 1 as [l|y l Hin IH]; rewrite occ_cons; [rewrite decide_True by reflexivity|]; lia.
Qed.
Lemma occ_nodup {A} `{EqDecision A} (l : list A) : (forall x, occ x l <= 1) -> NoDup l.
Proof.
  induction l as [|y l IH]; intros H; constructor.
  - intros Hin. specialize (H y). rewrite occ_cons, decide_True in H by reflexivity.
    pose proof (occ_in y l Hin). lia.
  - apply IH. intros x. specialize (H x). rewrite occ_cons in H. lia.
Qed.
Lemma ids_ok0 : ids_ok world0.
Proof. constructor; cbn; intros; try discriminate. all: lia. Qed.
Lemma reachable_ids S s : reachable S s -> ids_ok (s_world s).
Proof.
  intros H. refine (proj1 (api_reach S ids_step _ s ids_step_refl ids_step_trans _ _ H _)).
  - apply step1_ids.
  - constructor.
  - apply ids_ok0.
Qed.
Lemma reach_ids S s s' : reachable S s -> reach (any_call S) s s' -> ids_rel (s_world s) (s_world s').
Proof.
  intros H H'. refine (proj2 (api_reach S ids_step s s' ids_step_refl ids_step_trans _ _ H' _)).
  - apply step1_ids.
  - apply reachable_threads, H.
  - apply (reachable_ids S), H.
Qed.

(** C12.  Two nodes never share an id. *)
Theorem C12_node_ids_unique :
  forall S s nd nd' id, reachable S s ->
    w_nmap (s_world s) !! nd = Some id -> w_nmap (s_world s) !! nd' = Some id -> nd = nd'.
Proof. intros S s nd nd' id H. apply (io_inj _ (reachable_ids S s H)). Qed.
Print Assumptions C12_node_ids_unique.

(** C12.  No step changes a node's id: it is kept, or the node is forgotten. *)
Theorem C12_node_id_stable :
  forall S s s' nd id, reachable S s -> sys_step (any_call S) s s' ->
    w_nmap (s_world s) !! nd = Some id ->
    w_nmap (s_world s') !! nd = Some id \/ w_nmap (s_world s') !! nd = None.
Proof.
  intros S s s' nd id Hr Hs Hid. destruct Hs as [i s s' Ht|p s _]; [|by left].
  destruct (guar_tick _ _ _ _ (reachable_threads S s Hr) Ht) as [Hstep _].
  eapply step1_node_keep; [|eassumption..]. apply (reachable_ids S), Hr.
Qed.
Print Assumptions C12_node_id_stable.

(** C12.  Once a node no longer has its id, nobody ever has that id again - not even the same node
    after it was registered anew. *)
Theorem C12_node_id_never_reused :
  forall S s s1 s2 n a id nd', reachable S s ->
    w_nmap (s_world s) !! NRemote n a = Some id ->
    reach (any_call S) s s1 -> w_nmap (s_world s1) !! NRemote n a <> Some id ->
    reach (any_call S) s1 s2 -> w_nmap (s_world s2) !! nd' <> Some id.
Proof.
  intros S s s1 s2 n a id nd' Hr Hid H1 Hgone H2 E2.
  assert (reachable S s1) as Hr1 by (eapply rtc_transitive; eassumption).
  pose proof (reachable_ids S s Hr) as Hok. pose proof (reachable_ids S s1 Hr1) as Hok1.
  pose proof (reach_ids S s s1 Hr H1) as R1. pose proof (reach_ids S s1 s2 Hr1 H2) as R2.
  pose proof (io_remote _ Hok _ _ _ Hid) as Hb.
  pose proof (ir_next _ _ R1).
  destruct (ir_map _ _ R2 _ _ E2) as [E1|[[_ ?]|?]]; [|lia|lia].
  destruct (ir_map _ _ R1 _ _ E1) as [E0|[[_ ?]|?]]; [|lia|lia].
  pose proof (io_inj _ Hok _ _ _ E0 Hid) as ->. congruence.
Qed.
Print Assumptions C12_node_id_never_reused.

(** C12.  Pids of a forgotten node stay unreachable: in every state after the forget - whatever was
    registered since - sending to them changes nothing at all. *)
Theorem C12_forgotten_pids_unreachable :
  forall S s s' me n a id w1 i v, reachable S s ->
    w_nmap (s_world s) !! NRemote n a = Some id ->
    run (forget me (NRemote n a)) (s_world s) = Done w1 tt ->
    reach (any_call S) (Sys w1 (s_threads s)) s' ->
    run (send S (DsOne (DPid (PRemote i id))) v) (s_world s') = Done (s_world s') tt.
Proof.
  intros S s s' me n a id w1 i v Hr Hid Hf H'.
  pose proof (reachable_ids S s Hr) as Hok. pose proof (io_remote _ Hok _ _ _ Hid) as Hb.
  assert (guar (anystep S) (forget me (NRemote n a))) as Hg.
  { apply (guar_unret S (fun _ => VUnit)). apply (call_steps S (CForget me (NRemote n a))). }
  pose proof (run_guar ids_step _ (s_world s) ids_step_refl ids_step_trans (guar_mono _ _ _ (step1_ids S) Hg)) as Hids.
  rewrite Hf in Hids. cbn in Hids. destruct (Hids Hok) as [Hok1 Hrel1].
  assert (w_nregs w1 !! id = None) as Hnone by (eapply forget_unregisters; eassumption).
  assert (ids_rel w1 (s_world s')) as Hrel.
  { refine (proj2 (api_reach S ids_step _ s' ids_step_refl ids_step_trans _ _ H' _)).
    - apply step1_ids.
    - cbn. apply reachable_threads, Hr.
    - exact Hok1. }
  assert (w_nregs (s_world s') !! id = None) as Hn.
  { apply (ir_regs _ _ Hrel); [|exact Hnone]. pose proof (ir_next _ _ Hrel1). lia. }
  cbn. unfold send_frame; cbn. rewrite Hn. reflexivity.
Qed.
Print Assumptions C12_forgotten_pids_unreachable.

(** non-vacuity: a node is registered, forgotten, and registered again under a new id *)
Example C12_example :
  let nd := NRemote "b" (SA4 1 2) in
  let w := out_world (run (node_connect nd) world0) in
  let w1 := out_world (run (forget 7 nd) w) in
  let w2 := out_world (run (node_connect nd) w1) in
  w_nmap w !! nd = Some 1%N /\ w_nmap w1 !! nd = None /\ w_nregs w1 !! 1%N = None /\ w_nmap w2 !! nd = Some 2%N.
Proof. vm_compute. auto. Qed.

(** C16.  All the pids (and all the references) ever handed out to callers are different, in every
    interleaving, and different from everything allocated before the run began. *)
Theorem C16_pids_unique :
  forall S w0 s, reach (any_call S) (Sys w0 []) s ->
    NoDup (handed_pids s) /\ Forall (fun p => exists k, p = PLocal k /\ (w_next_pid w0 <= k)%N) (handed_pids s).
Proof.
  intros S w0 s Hr.
  assert (forall p, occ p (handed_pids s) <= pid_cnt p w0) as Hocc.
  { intros p. pose proof (reach_tok (fun _ => True) (pid_cnt p) (fun v => occ p (new_pids v)) (any_call S) w0 s I) as H.
    destruct H as [_ H]; [intros q [c ->]; apply call_tok_pid | exact Hr |]. unfold handed_pids. rewrite occ_handed. lia. }
  split.
  - apply occ_nodup. intros p. etransitivity; [apply Hocc|]. destruct p; cbn; [|lia]. unfold unalloc. case_decide; lia.
  - apply Forall_forall. intros p Hp. assert (1 <= occ p (handed_pids s)) as H1 by (apply occ_in, Hp).
    specialize (Hocc p). destruct p as [k|]; cbn in Hocc; [|lia]. exists k. split; [reflexivity|].
    unfold unalloc in Hocc. case_decide; [assumption | lia].
Qed.
Print Assumptions C16_pids_unique.
Theorem C16_references_unique :
  forall S w0 s, reach (any_call S) (Sys w0 []) s ->
    NoDup (handed_refs s) /\ Forall (fun r => exists k, r = RLocal k /\ (w_next_ref w0 <= k)%N) (handed_refs s).
Proof.
  intros S w0 s Hr.
  assert (forall r, occ r (handed_refs s) <= ref_cnt r w0) as Hocc.
  { intros r. pose proof (reach_tok (fun _ => True) (ref_cnt r) (fun v => occ r (new_refs v)) (any_call S) w0 s I) as H.
    destruct H as [_ H]; [intros q [c ->]; apply call_tok_ref | exact Hr |]. unfold handed_refs. rewrite occ_handed. lia. }
  split.
  - apply occ_nodup. intros p. etransitivity; [apply Hocc|]. destruct p; cbn; [|lia]. unfold unalloc. case_decide; lia.
  - apply Forall_forall. intros p Hp. assert (1 <= occ p (handed_refs s)) as H1 by (apply occ_in, Hp).
    specialize (Hocc p). destruct p as [k|]; cbn in Hocc; [|lia]. exists k. split; [reflexivity|].
    unfold unalloc in Hocc. case_decide; [assumption | lia].
Qed.
Print Assumptions C16_references_unique.

(** non-vacuity: two spawns and an alias, interleaved *)
Example C16_example :
  exists s, exec [0; 1; 2; 1; 0; 1; 0; 2; 2] (Sys world0 (map (call_prog S0) [CSpawn 0 false false; CSpawn 0 false false; CAlias 1 true])) = Some s /\
    handed_pids s = [PLocal 1; PLocal 2] /\ handed_refs s = [RLocal 1].
Proof. apply exec_some. vm_compute. auto. Qed.

(** C22, C56.  In every interleaving of any calls, exits, lost connections and frames, at most one
    down notice is ever put into a mailbox for a monitor reference. *)
Theorem C22_down_at_most_once_partial :
  forall S k s, reachable S s -> length (downs (RLocal k) (s_world s)) <= 1.
Proof.
  intros S k s Hr.
  pose proof (reach_tok (fun _ => True) (down_cnt k) (fun _ : val => 0) (any_call S) world0 s I) as H.
  destruct H as [_ H]; [|exact Hr|].
  - intros q [c ->]. eapply tok_mono; [|apply (call_tok_down S k c)]. intros; lia.
  - assert (down_cnt k world0 <= 1) as H0.
    { unfold down_cnt, unalloc; cbn. case_decide; cbn; unfold msum; rewrite ?map_fold_empty; cbn; lia. }
    unfold down_cnt in H at 1. lia.
Qed.
Print Assumptions C22_down_at_most_once_partial.

(** The other half of C22 (false of the code): when a monitor call and the exit of its target have
    both completed, however they were interleaved, the notice is in the monitoring process' mailbox. *)
Definition C22_never_lost_statement : Prop :=
  forall S w0 me target s r, me <> target ->
    seq_reachable S w0 -> is_Some (w_regs w0 !! me) -> is_Some (w_regs w0 !! target) ->
    reach (fun _ => False)
      (Sys w0 [call_prog S (CMonitor me (DPid (PLocal target))); call_prog S (CFinish target)]) s ->
    results s [VRef r; VUnit] -> downs r (s_world s) <> [].
Definition two : world := out_world (run (spawn 0 false false) (out_world (run (spawn 0 false false) world0))).
Lemma two_reachable S : seq_reachable S two.
Proof.
  exists [CSpawn 0 false false; CSpawn 0 false false].
  change ([CSpawn 0 false false; CSpawn 0 false false]) with (([] ++ [CSpawn 0 false false]) ++ [CSpawn 0 false false]).
  eapply history_snoc; [eapply history_snoc; [apply history_nil | exact I |] | exact I |].
  - eapply happens_done. reflexivity.
  - eapply happens_done. reflexivity.
Qed.
Theorem C22_lost_refuted : ~ C22_never_lost_statement.
Proof.
  intros H.
  destruct (exec_some [0; 0; 0; 1; 1; 1; 1; 1; 0]
    (Sys two [call_prog S0 (CMonitor 1 (DPid (PLocal 2))); call_prog S0 (CFinish 2)])
    (fun s => results s [VRef (RLocal 1); VUnit] /\ downs (RLocal 1) (s_world s) = [])) as (s & E & H1 & H2).
  { vm_compute. auto. }
  eapply (H S0 two 1%N 2%N s (RLocal 1)); [discriminate | apply two_reachable | vm_compute; eauto | vm_compute; eauto |
    eapply exec_reach, E | exact H1 | exact H2].
Qed.
Print Assumptions C22_lost_refuted.

(** non-vacuity: with the calls one after the other, the notice is there *)
Example C22_example :
  exists s, exec [0; 0; 0; 0; 1; 1; 1; 1; 1; 1; 1]
    (Sys two [call_prog S0 (CMonitor 1 (DPid (PLocal 2))); call_prog S0 (CFinish 2)]) = Some s /\
    results s [VRef (RLocal 1); VUnit] /\
    downs (RLocal 1) (s_world s) = [(1%N, IProcessDown (DPid (PLocal 2)) (RLocal 1) RNormal)].
Proof. apply exec_some. vm_compute. auto. Qed.

(** C24.  A message that is sent locally only to the alias [k] (by any number of concurrent senders,
    any number of times, by timers or by frames from other nodes) reaches at most one mailbox, at
    most once, if [k] is a one-shot alias - and never, if it is inactive. *)
Theorem C24_one_shot_at_most_once :
  forall S k v w0 s,
    (k < w_next_ref w0)%N -> (forall o, w_aliases w0 !! k <> Some (o, false)) ->
    timers_only_via_alias S k v w0 -> carried S v w0 = [] ->
    reach (calls_of S (only_via_alias S k v)) (Sys w0 []) s ->
    length (carried S v (s_world s)) <= 1 /\
    (w_aliases w0 !! k = None -> carried S v (s_world s) = []).
Proof.
  intros S k v w0 s Hk Ha Ht H0 Hr.
  pose proof (reach_tok (al_inv S k v) (al_cnt S k v) (fun _ : val => 0) (calls_of S (only_via_alias S k v)) w0 s) as H.
  destruct H as [_ H]; [by constructor| |exact Hr|].
  - intros q (c & Hc & ->). eapply tok_mono; [|by apply (call_tok_alias S k v c)]. intros; lia.
  - unfold al_cnt in H. rewrite H0 in H. cbn in H. split.
    + unfold one_shot in H at 2. case_match; lia.
    + intros E. unfold one_shot in H at 2. rewrite E in H. apply nil_length_inv. lia.
Qed.
Print Assumptions C24_one_shot_at_most_once.

(** non-vacuity: two concurrent senders to an active one-shot alias; one of them gets through *)
Example C24_example :
  let w0 := out_world (run (alias 1 true) two) in
  let snd := call_prog S0 (CSend (DsOne (DAlias (RLocal 1))) (Val 1 5)) in
  exists s, exec [0; 1; 0; 0] (Sys w0 [snd; snd]) = Some s /\ results s [VUnit; VUnit] /\
    w_aliases w0 !! 1%N = Some (1%N, true) /\ carried S0 (Val 1 5) w0 = [] /\
    carried S0 (Val 1 5) (s_world s) = [(1%N, IUserLocal (Val 1 5))].
Proof. apply exec_some. vm_compute. auto 6. Qed.

(** C24, calls not overlapping: unalias reports exactly whether the alias was active, and leaves it
    inactive; sending to an active alias delivers exactly one message to its owner (preceded by the
    owner's own notice that a one-shot alias is gone), sending to an inactive one has no effect. *)
Theorem C24_unalias :
  forall me r w, exists w', run (unalias me r) w = Done w' (bool_decide (is_Some (w_aliases w !! ref_id r))) /\
    w_aliases w' !! ref_id r = None /\ w_log w' = w_log w.
Proof.
  intros me r w. eexists. split; [reflexivity|]. cbn. split; [apply lookup_delete | reflexivity].
Qed.
Print Assumptions C24_unalias.
Theorem C24_alias_active :
  forall me reply w, exists w', run (alias me reply) w = Done w' (RLocal (w_next_ref w)) /\
    w_aliases w' !! w_next_ref w = Some (me, reply).
Proof. intros. eexists. split; [reflexivity|]. cbn. apply lookup_insert. Qed.
Print Assumptions C24_alias_active.
Theorem C24_send_to_alias :
  forall S k v w, exists w', run (send S (DsOne (DAlias (RLocal k))) v) w = Done w' tt /\
    match (w_aliases w !! k : option (N * bool)) with
    | None => w' = w
    | Some (o, reply) =>
        w_log w' = w_log w ++ (if decide (is_Some (w_loc w !! o)) then
                                 (if reply then [(o, IAliasDeactivated k)] else []) ++ [(o, IUserLocal v)]
                               else []) /\
        w_aliases w' = if reply then delete k (w_aliases w) else w_aliases w
    end.
Proof.
  intros S k v w. cbn. unfold alias_take_op; cbn.
  destruct (w_aliases w !! k) as [[o [|]]|] eqn:E; cbn; eexists; (split; [reflexivity|]); [| |reflexivity].
  - unfold push; cbn. destruct (w_loc w !! o) as [l|] eqn:El; cbn.
    + rewrite lookup_insert. cbn. rewrite decide_True by eauto. rewrite <- app_assoc. auto.
    + rewrite El. cbn. rewrite decide_False by (intros Hx; destruct Hx; congruence). rewrite app_nil_r. auto.
  - unfold push; cbn. destruct (w_loc w !! o) as [l|] eqn:El; cbn.
    + rewrite decide_True by eauto. auto.
    + rewrite decide_False by (intros Hx; destruct Hx; congruence). rewrite app_nil_r. auto.
Qed.
Print Assumptions C24_send_to_alias.
