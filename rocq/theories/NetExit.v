(** What other nodes are told when a process ends. *)
From stdpp Require Import base list gmap numbers strings countable sorting.
From Coq Require Import Lia.
From Verif Require Import Prog ProgProofs ProgInv Types Mailbox MailboxSpec World ProcApi NodeApi Api Steps SchedSpec SchedProofs
  ProcSpec ProcProofs SendSpec SendProofs NetSpec NetProofs.

(** [w'] has the channels of [w], with the frames [fs] added. *)
Definition adds (fs : list (N * frame)) (w w' : world) : Prop :=
  emits w fs w w' /\ (forall n, channel_of w' n = channel_of w n).
Lemma adds_refl w w' : w_out w' = w_out w -> w_pend w' = w_pend w -> w_nregs w' = w_nregs w ->
  (forall i, is_Some (w_regs w' !! i) <-> is_Some (w_regs w !! i)) -> adds [] w w'.
Proof.
  intros E1 E2 E3 E4. split.
  - intros c. cbn. rewrite app_nil_r. destruct c; cbn; by rewrite ?E1, ?E2.
  - intros n. unfold channel_of. rewrite E3. destruct (w_nregs w !! n) as [r|]; [|done]. destruct (n_sender r) as [s|]; [|done].
    specialize (E4 (pid_id s)). destruct (w_regs w' !! pid_id s), (w_regs w !! pid_id s); try done; exfalso.
    + destruct (proj1 E4 ltac:(eauto)); congruence.
    + destruct (proj2 E4 ltac:(eauto)); congruence.
Qed.
Lemma adds_trans f1 f2 a b c : adds f1 a b -> adds f2 b c -> adds (f1 ++ f2) a c.
Proof.
  intros [A1 A2] [B1 B2]. split; [|intros n; by rewrite B2].
  intros x. rewrite B1, A1, list.filter_app, map_app, app_assoc. f_equal. f_equal.
  apply list_filter_iff. intros [n f]. cbn. by rewrite A2.
Qed.
Lemma adds_send f n w : adds [(n, f)] w (send_frame f n w).
Proof.
  destruct (send_frame_out f n w) as [A B]. split; [exact A|]. intros m. by apply channel_ext.
Qed.
Lemma adds_trans0 f a b c : adds [] a b -> adds f b c -> adds f a c.
Proof. intros A B. exact (adds_trans [] f a b c A B). Qed.
Lemma adds_trans1 f a b c : adds f a b -> adds [] b c -> adds f a c.
Proof. intros A B. rewrite <- (app_nil_r f). exact (adds_trans f [] a b c A B). Qed.

Lemma only_core_adds w w' : only_core w w' -> (forall i, is_Some (w_regs w' !! i) <-> is_Some (w_regs w !! i)) -> adds [] w w'.
Proof. intros (a&b&c&d&e&f&->) H. by apply adds_refl. Qed.

(** ** A loop over nodes: tidy up, then one frame *)
Section loop.
  Context {A : Type} (tidy_up : N * list A -> node -> world -> world) (fr : N * list A -> frame).
  Definition tell (g : N * list A) (w : world) : world :=
    send_frame (fr g) (fst g) (match lookup_remote (fst g) w with Some (n, a) => tidy_up g (NRemote n a) w | None => w end).
  Lemma tell_adds gs w : (forall g nd u, adds [] u (tidy_up g nd u)) ->
    adds (map (fun g => (fst g, fr g)) gs) w (fold_left (fun w g => tell g w) gs w).
  Proof.
    intros H. revert w; induction gs as [|g gs IH]; intros w; cbn [fold_left map]; [by apply adds_refl|].
    apply (adds_trans [_] _ w (tell g w)); [|apply IH]. unfold tell.
    eapply adds_trans0; [|apply adds_send]. destruct (lookup_remote (fst g) w) as [[n a]|]; [apply H | by apply adds_refl].
  Qed.
End loop.

Lemma exit_linked_dom p from why w i : is_Some (w_regs (exit_linked_op p from why w) !! i) <-> is_Some (w_regs w !! i).
Proof.
  unfold exit_linked_op. destruct (w_regs w !! pid_id p) as [r|] eqn:E; [|done].
  destruct (r_trap r); [by rewrite push_regs|]. destruct why; try done; cbn;
    (destruct (decide (i = pid_id p)) as [->|]; [rewrite lookup_insert, E; split; eauto | by rewrite lookup_insert_ne]).
Qed.
Lemma link_rounds_adds from why ps w : adds [] w (fold_left (link_round from why) ps w).
Proof.
  revert w; induction ps as [|p ps IH]; intros w; cbn [fold_left]; [by apply adds_refl|].
  eapply adds_trans0; [|apply IH]. apply only_core_adds.
  - eapply only_core_trans; [|apply only_core_exit_linked]. apply only_core_links.
  - intros i. unfold link_round. by rewrite exit_linked_dom.
Qed.
Lemma group_map {A B} (key : A -> N) (l : list A) (f : N -> list A -> B) :
  map (fun g => f (fst g) (snd g)) (group key l) =
  map (fun n => f n (filter (fun a => key a = n) l)) (sorted_ids (list_to_set (map key l))).
Proof. unfold group. by rewrite map_map. Qed.

Lemma link_down_frames me why w :
  adds (map (fun n => (n, FLinkDown (linked_on w me n) me why)) (nodes_linked w me)) w
    (out_world (run (link_process_down (PLocal me) why) w)).
Proof.
  unfold link_process_down. rewrite run_bind, run_atom. cbn [fst snd pid_id].
  unfold nodes_linked, linked_on, remote_links. destruct (w_links w !! me) as [ls|] eqn:El; cbn [from_option id].
  - rewrite run_bind. rewrite (run_each _ _ (fun p w => link_round (PLocal me) why w p)) by done.
    set (w0 := up_links (delete me) w).
    change (fold_left (fun w p => link_round (PLocal me) why w p) ?l w0) with (fold_left (link_round (PLocal me) why) l w0).
    set (w1 := fold_left (link_round (PLocal me) why) _ w0).
    rewrite (run_each _ _ (tell (fun g nd => del_nlinks nd (map (fun p => (p, me)) (snd g)))
                                (fun g => FLinkDown (map pid_id (snd g)) me why))).
    2: { intros g u _. rewrite run_bind, run_observe. unfold tell. destruct (lookup_remote g.1 u) as [[n a]|]; done. }
    cbn [out_world]. apply (adds_trans0 _ w w0); [by apply adds_refl|].
    apply (adds_trans0 _ w0 w1); [apply link_rounds_adds|].
    pose proof (group_map pid_node (filter (fun p => pid_is_local p = false) (sorted_pids ls))
      (fun n l => (n, FLinkDown (map pid_id l) me why))) as Eg. cbn beta in Eg. rewrite <- Eg.
    apply (tell_adds (fun g nd => del_nlinks nd (map (fun p => (p, me)) (snd g))) (fun g => FLinkDown (map pid_id (snd g)) me why)).
    intros g nd u. by apply adds_refl.
  - cbn. by apply adds_refl.
Qed.

Lemma down_round_adds why l w : adds [] w (fold_left (down_round why) l w).
Proof.
  revert w; induction l as [|[r [from d]] l IH]; intros w; cbn [fold_left]; [by apply adds_refl|].
  eapply adds_trans0; [|apply IH]. apply only_core_adds.
  - unfold down_round; cbn [fst snd].
    destruct from, d, r; cbn; try apply only_core_refl; try apply only_core_aliases; try apply only_core_send;
      (eapply only_core_trans; [apply only_core_send|apply only_core_aliases]).
  - intros i. assert (w_regs (down_round why w (r, (from, d))) = w_regs w) as ->; [|done].
    unfold down_round, send_to; cbn [fst snd]. destruct from, d, r; cbn; try done;
      destruct (w_regs w !! id); cbn; by rewrite ?push_regs.
Qed.
Lemma monitor_down_frames me why w : mons_named w me ->
  adds (map (fun n => (n, FMonitorDown (monitored_from w me n) why)) (nodes_monitoring w me)) w
    (out_world (run (monitor_process_down (PLocal me) why) w)).
Proof.
  intros Hn. unfold monitor_process_down. rewrite run_bind, run_atom. cbn [fst snd pid_id].
  unfold nodes_monitoring, monitored_from, remote_monitors, mons_named in *.
  destruct (w_mons w !! me) as [ms|] eqn:El; cbn [from_option id] in *.
  - set (w0 := up_mons (delete me) w). rewrite run_bind. rewrite (run_each _ _ (fun x w => down_round why w x)).
    2: { intros [r [from d]] u Hx. cbn [fst snd]. apply sorted_refs_elem in Hx.
         destruct from as [j|j n]; cbn [pid_is_local].
         - destruct (Hn _ _ _ Hx eq_refl) as [d' ->]. destruct r; reflexivity.
         - destruct r; reflexivity. }
    change (fold_left (fun w p => down_round why w p) ?l w0) with (fold_left (down_round why) l w0).
    set (w1 := fold_left (down_round why) _ w0).
    rewrite (run_each _ _ (tell (fun g nd => del_nmons nd (map fst (snd g)))
                                (fun g => FMonitorDown (map (fun x => ref_id (fst x)) (snd g)) why))).
    2: { intros g u _. rewrite run_bind, run_observe. unfold tell. destruct (lookup_remote g.1 u) as [[n a]|]; done. }
    cbn [out_world]. apply (adds_trans0 _ w w0); [by apply adds_refl|].
    apply (adds_trans0 _ w0 w1); [apply down_round_adds|].
    pose proof (group_map (fun x : reference * (pid * option dest) => pid_node (fst (snd x)))
      (filter (fun x => pid_is_local (fst (snd x)) = false) (sorted_refs ms))
      (fun n l => (n, FMonitorDown (map (fun x => ref_id (fst x)) l) why))) as Eg. cbn beta in Eg. rewrite <- Eg.
    apply (tell_adds (fun g nd => del_nmons nd (map fst (snd g))) (fun g => FMonitorDown (map (fun x => ref_id (fst x)) (snd g)) why)).
    intros g nd u. by apply adds_refl.
  - cbn. by apply adds_refl.
Qed.
Definition withdraw (x : reference * pmonitor) : option (N * frame) :=
  match snd x with
  | MForProcess (Some (PRemote i n)) => Some (ref_node (fst x), FMonitor false (Some i) None None (ref_id (fst x)))
  | _ => None
  end.
Lemma destroy_all_frames l w : adds (omap withdraw l) w (out_world (run (monitor_destroy_all l) w)).
Proof.
  revert w; induction l as [|x l IH]; intros w; [by apply adds_refl|].
  unfold monitor_destroy_all. cbn [each]. rewrite run_bind. destruct (destroy_body x w) as (w1 & E & _). rewrite E.
  fold (monitor_destroy_all l). change (x :: l) with ([x] ++ l). rewrite omap_app.
  apply (adds_trans _ _ w w1); [|apply IH]. replace w1 with (out_world (Done (R := unit) w1 tt)) by done. rewrite <- E. clear.
  destruct x as [r m]; cbn [fst snd omap list_omap withdraw].
  assert (forall u, adds [] u (out_world (run (if ref_is_local r then do! alias_destroy r in Ret tt else Ret tt) u))) as Ha.
  { intros u. destruct (ref_is_local r); cbn; by apply adds_refl. }
  destruct m as [[[i|i n]|]|nd]; cbn [pid_is_local pid_id].
  - rewrite run_bind, run_modify. eapply adds_trans0; [|apply Ha]. by apply adds_refl.
  - rewrite run_bind, run_modify. apply (adds_trans1 _ w (send_frame (FMonitor false (Some i) None None (ref_id r)) (ref_node r) w)); [apply adds_send|apply Ha].
  - by apply adds_refl.
  - rewrite run_bind, run_modify. eapply adds_trans0; [|apply Ha]. by apply adds_refl.
Qed.

Lemma drop_frames me w r : w_regs w !! me = Some r -> mons_named w me ->
  exists w', run (drop_process me) w = Done w' tt /\ emits (without me w) (exit_frames w me (final_reason r) ++ withdraw_frames w me) w w'.
Proof.
  intros Er Hn. destruct (drop_spec me w r Er Hn) as (w' & E & _). exists w'. split; [exact E|].
  replace w' with (out_world (Done w' tt)) by done. rewrite <- E. clear E w'.
  unfold drop_process. rewrite run_bind, run_atom. cbn [fst snd]. rewrite Er.
  change (up_regs (delete me) w) with (without me w). rewrite run_bind.
  set (w1 := match r_name r with Some n => up_names (delete n) (without me w) | None => without me w end).
  assert (run (match r_name r with Some n => modify (up_names (delete n)) | None => Ret tt end) (without me w) = Done w1 tt) as ->
    by (unfold w1; destruct (r_name r); reflexivity).
  change (default RNormal (r_exit r)) with (final_reason r). set (why := final_reason r).
  assert (adds [] (without me w) w1) as H0 by (unfold w1; destruct (r_name r); by apply adds_refl).
  assert (w_links w1 = w_links w /\ w_mons w1 = w_mons w /\ w_loc w1 = w_loc w) as (A1 & A2 & A3)
    by (unfold w1; by destruct (r_name r)).
  clearbody w1. rewrite run_bind.
  pose proof (link_down_frames me why w1) as F1.
  destruct (link_down_spec me why w1) as (w2 & E2 & _ & B2 & _ & B4 & _). rewrite E2 in F1 |- *. cbn [out_world] in F1.
  rewrite run_bind.
  assert (mons_named w2 me) as Hn2 by (unfold mons_named; rewrite B4, A2; exact Hn).
  pose proof (monitor_down_frames me why w2 Hn2) as F2.
  destruct (monitor_down_spec me why w2 Hn2) as (w3 & E3 & _ & C2 & _). rewrite E3 in F2 |- *. cbn [out_world] in F2.
  rewrite run_bind, run_observe. rewrite run_bind.
  set (ml := match w_loc w3 !! me with Some l => sorted_refs (l_monitors l) | None => [] end).
  set (al := match w_loc w3 !! me with Some l => sorted_ids (l_aliases l) | None => [] end).
  pose proof (destroy_all_frames ml w3) as F3. destruct (destroy_all_spec ml w3) as (w4 & E4 & _). rewrite E4 in F3 |- *.
  cbn [out_world] in F3. rewrite run_bind.
  assert (adds [] w4 (out_world (run (alias_destroy_all al) w4))) as F4.
  { clear. generalize w4. induction al as [|i al IH]; intros u; [by apply adds_refl|].
    cbn. eapply adds_trans0; [|apply IH]. by apply adds_refl. }
  destruct (alias_all_spec al w4) as (w5 & E5 & _). rewrite E5 in F4 |- *. cbn [out_world] in F4.
  rewrite run_modify. cbn [out_world].
  assert (adds [] w5 (gone me w5)) as F5 by (by apply adds_refl).
  pose proof (adds_trans0 _ _ _ _ H0 (adds_trans _ _ _ _ _ F1 (adds_trans _ _ _ _ _ F2 (adds_trans1 _ _ _ _ (adds_trans1 _ _ _ _ F3 F4) F5)))) as [F _].
  intros c. specialize (F c). change (queued (without me w) c) with (queued w c) in F. rewrite F. f_equal. f_equal.
  unfold exit_frames, withdraw_frames. rewrite <- app_assoc.
  assert (nodes_linked w1 me = nodes_linked w me) as -> by (unfold nodes_linked, remote_links; by rewrite A1).
  assert (nodes_monitoring w2 me = nodes_monitoring w me) as -> by (unfold nodes_monitoring, remote_monitors; by rewrite B4, A2).
  assert (ml = match w_loc w !! me with Some l => sorted_refs (l_monitors l) | None => [] end) as ->.
  { unfold ml. rewrite (received_trans _ _ _ _ _ B2 C2 me), A3. by destruct (w_loc w !! me). }
  f_equal. f_equal; [|f_equal].
  - apply map_ext. intros n. unfold linked_on, remote_links. by rewrite A1.
  - apply map_ext. intros n. unfold monitored_from, remote_monitors. by rewrite B4, A2.
  - by destruct (w_loc w !! me).
Qed.
