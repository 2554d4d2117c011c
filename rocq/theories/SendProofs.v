(** [Process::send] run by itself: proofs. *)
From stdpp Require Import base list gmap numbers strings countable sorting.
From Coq Require Import Lia.
From Verif Require Import Prog ProgProofs Types Mailbox MailboxSpec World ProcApi NodeApi Api SchedSpec ProcSpec SendSpec.

Local Arguments mail_for : simpl never.
Local Arguments after_arrival : simpl never.
(** Everything but the frames. *)
Record passes (s : list (dest * item)) (l : list dest) (w w' : world) : Prop := Passes {
  ps_mail : forall j, w_loc w' !! j = after_arrival (mail_for j (arrivals w s)) <$> w_loc w !! j;
  ps_aliases : w_aliases w' = aliases_left w s;
  ps_nmap_old : forall nd n, w_nmap w !! nd = Some n -> w_nmap w' !! nd = Some n;
  ps_nmap_new : forall nd n, w_nmap w' !! nd = Some n -> w_nmap w !! nd = None ->
                  (exists d, d ∈ l /\ names_node nd d) /\ (w_next_node w <= n < w_next_node w')%N /\
                  exists name addr, nd = NRemote name addr /\ w_nregs w' !! n = Some (new_nreg None Known name addr);
  ps_known : forall name addr d, d ∈ l -> names_node (NRemote name addr) d -> is_Some (w_nmap w' !! NRemote name addr);
  ps_nregs : forall n, (n < w_next_node w)%N \/ (w_next_node w' <= n)%N -> w_nregs w' !! n = w_nregs w !! n;
  ps_next : (w_next_node w <= w_next_node w')%N;
  ps_regs : w_regs w' = w_regs w; ps_names : w_names w' = w_names w;
  ps_next_pid : w_next_pid w' = w_next_pid w; ps_next_ref : w_next_ref w' = w_next_ref w;
  ps_timers : w_timers w' = w_timers w; ps_tasks : w_tasks w' = w_tasks w;
  ps_links : w_links w' = w_links w; ps_mons : w_mons w' = w_mons w; ps_running : w_running w' = w_running w;
  ps_nmons : w_nmons w' = w_nmons w; ps_nlinks : w_nlinks w' = w_nlinks w; ps_now : w_now w' = w_now w;
  ps_out : w_out w' = w_out w; ps_pend : w_pend w' = w_pend w }.

Lemma recipient_ext w w' d : w_regs w' = w_regs w -> w_names w' = w_names w -> w_aliases w' = w_aliases w ->
  recipient w' d = recipient w d.
Proof. intros H1 H2 H3. unfold recipient. by rewrite H1, H2, H3. Qed.
Lemma one_shot_ext w w' d : w_aliases w' = w_aliases w -> one_shot_alias w' d = one_shot_alias w d.
Proof. intros H3. unfold one_shot_alias. by rewrite H3. Qed.
Lemma arrivals_ext s w w' : w_regs w' = w_regs w -> w_names w' = w_names w -> w_aliases w' = w_aliases w ->
  arrivals w' s = arrivals w s /\ aliases_left w' s = aliases_left w s.
Proof.
  revert w w'; induction s as [|[d x] s IH]; intros w w' H1 H2 H3; cbn; [auto|].
  unfold arrives. rewrite (recipient_ext w w' d), (one_shot_ext w w' d) by assumption.
  assert (aliases_after w' d = aliases_after w d) as E
    by (unfold aliases_after; by rewrite (one_shot_ext w w' d), H3 by assumption).
  destruct (IH (up_aliases (fun _ => aliases_after w d) w) (up_aliases (fun _ => aliases_after w' d) w')) as [-> ->];
    cbn; auto.
Qed.
Lemma arrivals_app s1 s2 w w1 : w_regs w1 = w_regs w -> w_names w1 = w_names w -> w_aliases w1 = aliases_left w s1 ->
  arrivals w (s1 ++ s2) = arrivals w s1 ++ arrivals w1 s2 /\ aliases_left w (s1 ++ s2) = aliases_left w1 s2.
Proof.
  revert w w1; induction s1 as [|[d x] s1 IH]; intros w w1 H1 H2 H3; cbn in *.
  - destruct (arrivals_ext s2 w w1) as [-> ->]; auto.
  - destruct (IH (up_aliases (fun _ => aliases_after w d) w) w1) as [-> ->]; auto. by rewrite app_assoc.
Qed.
Lemma mail_for_app j a b : mail_for j (a ++ b) = mail_for j a ++ mail_for j b.
Proof. unfold mail_for. by rewrite list.filter_app, map_app. Qed.
Lemma after_arrival_app xs ys l : after_arrival ys (after_arrival xs l) = after_arrival (xs ++ ys) l.
Proof. unfold after_arrival. destruct l; cbn. by rewrite app_assoc. Qed.
Lemma after_arrival_nil l : after_arrival [] l = l.
Proof. unfold after_arrival. destruct l; cbn. by rewrite app_nil_r. Qed.

Lemma passes_refl w : passes [] [] w w.
Proof.
  constructor; auto; try lia.
  - intros j. cbn. destruct (w_loc w !! j); cbn; [by rewrite after_arrival_nil | done].
  - intros nd n H1 H2. congruence.
  - intros ? ? d Hd. by apply elem_of_nil in Hd.
Qed.
Lemma passes_trans s1 s2 l1 l2 w w1 w2 : passes s1 l1 w w1 -> passes s2 l2 w1 w2 -> passes (s1 ++ s2) (l1 ++ l2) w w2.
Proof.
  intros A B.
  destruct (arrivals_app s1 s2 w w1 (ps_regs _ _ _ _ A) (ps_names _ _ _ _ A) (ps_aliases _ _ _ _ A)) as [Ea El].
  destruct A, B. constructor; try (etrans; eassumption); auto; try lia.
  - intros j. rewrite ps_mail1, ps_mail0, Ea, mail_for_app. destruct (w_loc w !! j); cbn; [|done].
    by rewrite after_arrival_app.
  - by rewrite ps_aliases1.
  - intros nd n H1 H2. destruct (w_nmap w1 !! nd) as [m|] eqn:E.
    + pose proof (ps_nmap_old1 _ _ E) as E'. rewrite H1 in E'. injection E' as <-.
      destruct (ps_nmap_new0 _ _ E H2) as ((d & Hd & Hn) & Hb & name & addr & -> & Er).
      split; [exists d; split; [set_solver|done]|]. split; [lia|]. exists name, addr. split; [done|].
      rewrite ps_nregs1; [done | lia].
    + destruct (ps_nmap_new1 _ _ H1 E) as ((d & Hd & Hn) & Hb & Hr).
      split; [exists d; split; [set_solver|done]|]. split; [lia | done].
  - intros name addr d [Hd|Hd]%elem_of_app Hn; [|eauto].
    destruct (ps_known0 _ _ _ Hd Hn) as [m Hm]. eauto.
  - intros n Hn. rewrite ps_nregs1, ps_nregs0; [done | lia | lia].
Qed.

(** One delivery. *)
Lemma mail_for_one j i x : mail_for j [(i, x)] = if decide (i = j) then [x] else [].
Proof. unfold mail_for. rewrite filter_cons; cbn. destruct (decide (i = j)); done. Qed.
Lemma push_loc i x w j : w_loc (push i x w) !! j = after_arrival (mail_for j [(i, x)]) <$> w_loc w !! j.
Proof.
  unfold push. rewrite mail_for_one. destruct (w_loc w !! i) as [l|] eqn:E; cbn.
  - destruct (decide (i = j)) as [->|Hne].
    + rewrite lookup_insert, E. done.
    + rewrite lookup_insert_ne by done. destruct (w_loc w !! j); cbn; [by rewrite after_arrival_nil|done].
  - destruct (decide (i = j)) as [->|Hne]; [by rewrite E|].
    destruct (w_loc w !! j); cbn; [by rewrite after_arrival_nil|done].
Qed.
(** A world that differs from [w] in process objects, aliases and the log only. *)
Lemma passes_mail s w w' :
  (forall j, w_loc w' !! j = after_arrival (mail_for j (arrivals w s)) <$> w_loc w !! j) ->
  w_aliases w' = aliases_left w s ->
  (exists m a g, w' = up_log (fun _ => g) (up_aliases (fun _ => a) (up_loc (fun _ => m) w))) ->
  passes s [] w w'.
Proof.
  intros H1 H2 (m & a & g & ->). constructor; auto; try (cbn; lia).
  - intros nd n E1 E2. cbn in E1. congruence.
  - intros ? ? d Hd. by apply elem_of_nil in Hd.
Qed.
Lemma push_shape i x w : exists m a g, push i x w = up_log (fun _ => g) (up_aliases (fun _ => a) (up_loc (fun _ => m) w)).
Proof.
  unfold push. destruct (w_loc w !! i); [by eexists _, _, _|].
  exists (w_loc w), (w_aliases w), (w_log w). by destruct w.
Qed.
Lemma push_aliases i x w : w_aliases (push i x w) = w_aliases w.
Proof. unfold push. by destruct (w_loc w !! i). Qed.
Lemma id_shape w : exists m a g, w = up_log (fun _ => g) (up_aliases (fun _ => a) (up_loc (fun _ => m) w)).
Proof. exists (w_loc w), (w_aliases w), (w_log w). by destruct w. Qed.
Lemma same_loc w (j : N) : w_loc w !! j = after_arrival [] <$> w_loc w !! j.
Proof. destruct (w_loc w !! j); cbn; [by rewrite after_arrival_nil|done]. Qed.

Lemma run_deliver d x w : dest_is_local d = true -> exists w', run (deliver d x) w = Done w' tt /\ passes [(d, x)] [] w w'.
Proof.
  intros Hl. destruct d as [[i|]|n [|]|[k|]]; try discriminate; cbn [deliver].
  - eexists. split; [apply run_modify|]. unfold send_to; cbn [pid_id]. apply passes_mail; cbn; unfold arrives; cbn.
    + intros j. destruct (w_regs w !! i); [|apply same_loc]. apply push_loc.
    + unfold aliases_after; cbn. destruct (w_regs w !! i); [|done]. apply push_aliases.
    + destruct (w_regs w !! i); [apply push_shape | apply id_shape].
  - unfold name_lookup. rewrite run_bind, run_observe. cbn. destruct (w_names w !! n) as [i|] eqn:E.
    + eexists. split; [apply run_modify|]. unfold send_to. apply passes_mail; cbn; unfold arrives; cbn.
      * intros j. rewrite E. destruct (w_regs w !! i); [|apply same_loc]. apply push_loc.
      * unfold aliases_after; cbn. destruct (w_regs w !! i); [|done]. apply push_aliases.
      * destruct (w_regs w !! i); [apply push_shape | apply id_shape].
    + exists w. split; [reflexivity|]. apply passes_mail; cbn; unfold arrives; cbn.
      * intros j. rewrite E. apply same_loc.
      * done.
      * apply id_shape.
  - unfold alias_retrieve. rewrite run_bind, run_bind, run_atom. cbn [fst snd]. unfold alias_take_op; cbn [ref_id].
    destruct (w_aliases w !! k) as [[o []]|] eqn:E; cbn [fst snd].
    + rewrite run_bind, run_modify. cbn [run]. eexists. split; [apply run_modify|].
      apply passes_mail; cbn; unfold arrives; cbn; rewrite ?E.
      * intros j. rewrite push_loc, push_loc. cbn [app].
        rewrite (mail_for_app j [(o, IAliasDeactivated k)] [(o, x)] : mail_for j [(o, IAliasDeactivated k); (o, x)] = _).
        change (w_loc (up_aliases (delete k) w)) with (w_loc w).
        destruct (w_loc w !! j); cbn [fmap option_fmap option_map]; [|done]. by rewrite after_arrival_app.
      * rewrite !push_aliases. unfold aliases_after; cbn. by rewrite E.
      * destruct (push_shape o (IAliasDeactivated k) (up_aliases (delete k) w)) as (m & a & g & ->).
        destruct (push_shape o x (up_log (λ _ : list (N * item), g)
          (up_aliases (λ _ : gmap N (N * bool), a) (up_loc (λ _ : gmap N plocal, m) (up_aliases (delete k) w))))) as (m' & a' & g' & ->).
        by exists m', a', g'.
    + cbn [run]. eexists. split; [apply run_modify|]. apply passes_mail; cbn; unfold arrives; cbn; rewrite ?E.
      * intros j. apply push_loc.
      * rewrite push_aliases. unfold aliases_after; cbn. by rewrite E.
      * apply push_shape.
    + exists w. split; [reflexivity|]. apply passes_mail; cbn; unfold arrives; cbn; rewrite ?E.
      * intros j. apply same_loc.
      * unfold aliases_after; cbn. by rewrite E.
      * apply id_shape.
Qed.

(** One remote target. *)
Lemma passes_self l w : (forall name addr d, d ∈ l -> ~ names_node (NRemote name addr) d) -> passes [] l w w.
Proof.
  intros H. constructor; auto; try lia.
  - intros j. apply same_loc.
  - intros nd n H1 H2. congruence.
  - intros name addr d Hd Hn. exfalso. exact (H _ _ _ Hd Hn).
Qed.
Lemma run_target d w : dest_is_local d = false ->
  exists w' t, run (remote_target d) w = Done w' t /\ passes [] [d] w w' /\ on_node w' d = Some t.
Proof.
  intros Hl. destruct d as [[|i n]|n [|name addr]|[|k n]]; try discriminate; cbn [remote_target].
  - exists w, (n, TPid i). split; [done|]. split; [|done]. apply passes_self.
    intros ? ? d ->%elem_of_list_singleton []. 
  - cbn [node_register]. rewrite run_bind, run_atom. cbn [run]. eexists _, _. split; [reflexivity|].
    unfold node_register_op. destruct (w_nmap w !! NRemote name addr) as [id|] eqn:E; cbn [fst snd].
    + split; [|cbn; by rewrite E]. constructor; auto; try lia.
      * intros j. apply same_loc.
      * intros nd m H1 H2. congruence.
      * intros nm ad d ->%elem_of_list_singleton Hn. cbn in Hn. injection Hn as <- <-. by rewrite E.
    + split; [|cbn; by rewrite lookup_insert]. constructor; auto; try (cbn; lia).
      * intros j. exact (same_loc w j).
      * intros nd m H. cbn. rewrite lookup_insert_ne; [done|]. intros <-. congruence.
      * intros nd m H H0. cbn in H. apply lookup_insert_Some in H as [[<- <-]|[_ H]]; [|congruence].
        split; [exists (DNamed n (NRemote name addr)); split; [set_solver|done]|]. split; [cbn; lia|].
        exists name, addr. split; [done|]. cbn. by rewrite lookup_insert.
      * intros nm ad d ->%elem_of_list_singleton Hn. cbn in Hn. injection Hn as <- <-. cbn. by rewrite lookup_insert.
      * intros m Hm. cbn in Hm |- *. rewrite lookup_insert_ne by lia. done.
  - exists w, (n, TAlias k). split; [done|]. split; [|done]. apply passes_self.
    intros ? ? d ->%elem_of_list_singleton [].
Qed.

(** Targets do not change any more once their nodes are known. *)
Lemma on_node_later s l w w' d t : passes s l w w' -> on_node w d = Some t -> on_node w' d = Some t.
Proof.
  intros Hp. destruct d as [[]|n []|[]]; cbn; auto.
  destruct (w_nmap w !! NRemote name addr) eqn:E; [|done]. by rewrite (ps_nmap_old _ _ _ _ Hp _ _ E).
Qed.

Notation locals l := (filter (fun d => dest_is_local d = true) l).
Notation served S v l := (map (fun d => (d, IUserRemote (ser S v))) l).

Lemma on_node_local w d : dest_is_local d = true -> on_node w d = None.
Proof. by destruct d as [[]|? []|[]]. Qed.
Lemma passes_local d s l w w' : dest_is_local d = true -> passes s l w w' -> passes s (d :: l) w w'.
Proof.
  intros Hd [ ]. constructor; auto.
  - intros nd n H1 H2. destruct (ps_nmap_new0 nd n H1 H2) as ((d' & Hd' & Hn) & ?).
    split; [exists d'; split; [set_solver|done] | done].
  - intros name addr d' [->|Hd']%elem_of_cons Hn; [|eauto].
    destruct d as [|? []|]; cbn in *; try done.
Qed.
Lemma run_loop S v l : forall first rem w,
  exists w', run (send_loop S v l first rem) w =
    Done w' (match first with Some d => Some d | None => head (locals l) end, rem ++ omap (on_node w') l) /\
    passes (served S v (match first with Some _ => locals l | None => tail (locals l) end)) l w w'.
Proof.
  induction l as [|d l IH]; intros first rem w; cbn [send_loop].
  - exists w. split; [destruct first; cbn; by rewrite app_nil_r|]. destruct first; apply passes_refl.
  - rewrite filter_cons. destruct (dest_is_local d) eqn:Ed.
    + rewrite decide_True by done. destruct first as [d1|].
      * destruct (run_deliver d (IUserRemote (ser S v)) w Ed) as (w1 & E1 & P1).
        rewrite run_bind, E1. destruct (IH (Some d1) rem w1) as (w' & E & P). exists w'. split.
        -- rewrite E. cbn [omap list_omap]. by rewrite (on_node_local w' d Ed).
        -- apply passes_local; [done|]. exact (passes_trans _ _ _ _ _ _ _ P1 P).
      * destruct (IH (Some d) rem w) as (w' & E & P). exists w'. split.
        -- rewrite E. cbn [omap list_omap head]. by rewrite (on_node_local w' d Ed).
        -- apply passes_local; [done|]. exact P.
    + rewrite decide_False by congruence.
      destruct (run_target d w Ed) as (w1 & t & E1 & P1 & Et).
      rewrite run_bind, E1. destruct (IH first (rem ++ [t]) w1) as (w' & E & P). exists w'. split.
      * rewrite E. cbn [omap list_omap]. rewrite (on_node_later _ _ _ _ _ _ P Et). by rewrite <- app_assoc.
      * exact (passes_trans _ _ _ _ _ _ _ P1 P).
Qed.

(** The frames. *)
Record frames_out (fs : list (N * frame)) (w w' : world) : Prop := FramesOut {
  fo_queued : forall c, queued w' c = queued w c ++ map snd (filter (fun f => channel_of w (fst f) = Some c) fs);
  fo_shape : exists o p, w' = up_pend (fun _ => p) (up_out (fun _ => o) w) }.
Lemma send_frame_out f n w : frames_out [(n, f)] w (send_frame f n w).
Proof.
  assert (forall w', w' = w -> exists o p, w' = up_pend (fun _ => p) (up_out (fun _ => o) w)) as Hid.
  { intros ? ->. exists (w_out w), (w_pend w). by destruct w. }
  constructor.
  - intros c. rewrite filter_cons. cbn [fst snd]. unfold send_frame, channel_of, hand_out.
    destruct (w_nregs w !! n) as [r|]; [|by rewrite decide_False, app_nil_r].
    destruct (n_sender r) as [s|].
    + destruct (w_regs w !! pid_id s); [|by rewrite decide_False, app_nil_r].
      destruct c as [s'|nd]; cbn [queued].
      * destruct (decide (pid_id s = s')) as [<-|Hne]; cbn.
        -- rewrite decide_True by done. by rewrite lookup_insert.
        -- rewrite decide_False by congruence. rewrite lookup_insert_ne by done. by rewrite app_nil_r.
      * rewrite decide_False by congruence. cbn. by rewrite app_nil_r.
    + destruct (n_state r); cbn; (destruct c as [s'|nd]; cbn [queued];
        [rewrite decide_False by congruence; cbn; by rewrite app_nil_r|]);
        try (rewrite decide_False by congruence; cbn; by rewrite app_nil_r).
      all: cbn; destruct (decide (NRemote (n_name r) (n_addr r) = nd)) as [<-|Hne];
        [rewrite decide_True by done; by rewrite lookup_insert
        |rewrite decide_False by congruence; rewrite lookup_insert_ne by done; by rewrite app_nil_r].
  - unfold send_frame, hand_out. destruct (w_nregs w !! n) as [r|]; [|by apply Hid].
    assert (forall g, exists o p, up_out g w = up_pend (fun _ => p) (up_out (fun _ => o) w)) as Ho
      by (intros g; exists (g (w_out w)), (w_pend w); by destruct w).
    assert (forall g, exists o p, up_pend g w = up_pend (fun _ => p) (up_out (fun _ => o) w)) as Hp
      by (intros g; exists (w_out w), (g (w_pend w)); by destruct w).
    destruct (n_sender r); [destruct (w_regs w !! pid_id p); eauto|]. destruct (n_state r); eauto.
Qed.
Lemma channel_ext w w' n : (exists o p, w' = up_pend (fun _ => p) (up_out (fun _ => o) w)) -> channel_of w' n = channel_of w n.
Proof. intros (o & p & ->). reflexivity. Qed.
Lemma frames_trans f1 f2 w w1 w2 : frames_out f1 w w1 -> frames_out f2 w1 w2 -> frames_out (f1 ++ f2) w w2.
Proof.
  intros [A1 A2] [B1 B2]. constructor.
  - intros c. rewrite B1, A1, list.filter_app, map_app, app_assoc. f_equal. f_equal.
    apply list_filter_iff. intros [n f]. cbn. by rewrite (channel_ext w w1) by done.
  - destruct A2 as (o & p & ->), B2 as (o' & p' & ->). by exists o', p'.
Qed.
Lemma run_frames {A} (fr : A -> frame) (key : A -> N) l w :
  exists w', run (each l (fun t => modify (send_frame (fr t) (key t)))) w = Done w' tt /\
    frames_out (map (fun t => (key t, fr t)) l) w w'.
Proof.
  revert w; induction l as [|t l IH]; intros w.
  - exists w. split; [done|]. constructor; [intros c; cbn; by rewrite app_nil_r|].
    exists (w_out w), (w_pend w). by destruct w.
  - cbn [each]. rewrite run_bind, run_modify. destruct (IH (send_frame (fr t) (key t) w)) as (w' & E & P).
    exists w'. split; [exact E|]. exact (frames_trans [_] _ _ _ _ (send_frame_out _ _ _) P).
Qed.

Lemma sends_of S v l w w1 w2 fs :
  passes (serve_order S v l) l w w1 -> frames_out fs w1 w2 ->
  fs = map (fun n => (n, FSend (targets_on w1 n l) (ser S v))) (sorted_ids (nodes_meant w1 l)) ->
  sends S v l w w2.
Proof.
  intros P [Q (o & p & ->)] ->. destruct P. constructor; cbn; auto.
  intros c. rewrite Q.
  replace (queued w1 c) with (queued w c) by (destruct c; cbn; congruence). f_equal.
  unfold frames_for. set (w2 := up_pend _ _).
  change (targets_on w2) with (targets_on w1). change (nodes_meant w2) with (nodes_meant w1).
  generalize (sorted_ids (nodes_meant w1 l)) as ns. intros ns.
  induction ns as [|n ns IH]; [done|]. cbn [map]. rewrite !filter_cons. cbn [fst snd].
  change (channel_of w2 n) with (channel_of w1 n). destruct (decide _); cbn [map fst snd]; by rewrite IH.
Qed.
Lemma group_frames w l m :
  map (fun t => (fst t, FSend (map snd (snd t)) m)) (group fst (omap (on_node w) l)) =
  map (fun n => (n, FSend (targets_on w n l) m)) (sorted_ids (nodes_meant w l)).
Proof. unfold group, nodes_meant, targets_on. by rewrite map_map. Qed.

Lemma on_node_ext w1 w2 (l : list dest) : w_nmap w2 = w_nmap w1 -> omap (on_node w2) l = omap (on_node w1) l.
Proof.
  intros Hm. assert (forall d, on_node w2 d = on_node w1 d) as H by (intros d; unfold on_node; by rewrite Hm).
  induction l as [|x l IH]; [done|]. cbn [omap list_omap]. by rewrite H, IH.
Qed.
Lemma run_send_one_remote S v d w : dest_is_local d = false ->
  exists w', run (send_one S d v) w = Done w' tt /\ sends S v [d] w w'.
Proof.
  intros Ed. unfold send_one. rewrite Ed.
  destruct (run_target d w Ed) as (w1 & t & E1 & P1 & Et). rewrite run_bind, E1, run_modify.
  eexists. split; [reflexivity|].
  eapply (sends_of S v [d] w w1 _ [(fst t, FSend [snd t] (ser S v))]).
  - unfold serve_order. rewrite filter_cons, decide_False by congruence. exact P1.
  - apply send_frame_out.
  - unfold nodes_meant, targets_on. cbn [omap list_omap]. rewrite Et.
    unfold sorted_ids. cbn [map list_to_set]. rewrite union_empty_r_L, elements_singleton.
    cbn [merge_sort merge_sort_aux merge_list_to_stack merge_stack map].
    change (list_merge N.le [t.1] []) with [t.1]. cbn [map]. rewrite filter_cons, decide_True by done. done.
Qed.
Lemma run_send_one_local S v d w : dest_is_local d = true ->
  exists w', run (send_one S d v) w = Done w' tt /\ passes [(d, IUserLocal v)] [] w w'.
Proof. intros Ed. unfold send_one. rewrite Ed. by apply run_deliver. Qed.
Lemma frames_nil w : frames_out [] w w.
Proof. constructor; [intros c; cbn; by rewrite app_nil_r|]. exists (w_out w), (w_pend w). by destruct w. Qed.
Lemma run_send S v ds w : exists w', run (send S ds v) w = Done w' tt /\ sends S v (dests_list ds) w w'.
Proof.
  destruct ds as [d|l]; cbn [send dests_list].
  - destruct (dest_is_local d) eqn:Ed; [|by apply run_send_one_remote].
    destruct (run_send_one_local S v d w Ed) as (w' & E & P). exists w'. split; [done|].
    eapply (sends_of S v [d] w w' w' []); [| apply frames_nil |].
    + unfold serve_order. rewrite filter_cons, decide_True by done. cbn. by apply passes_local.
    + unfold nodes_meant. cbn [omap list_omap]. by rewrite (on_node_local w' d Ed).
  - destruct (run_loop S v l None [] w) as (w1 & E1 & P1). rewrite run_bind, E1. cbn [fst snd app].
    destruct (locals l) as [|d rest] eqn:El; cbn [head tail].
    + cbn [bind]. edestruct (run_frames (fun t : N * list (N * send_target) => FSend (map snd (snd t)) (ser S v)) fst
        (group fst (omap (on_node w1) l)) w1) as (w2 & E2 & F). exists w2. split; [exact E2|].
      eapply sends_of; [| exact F | apply group_frames]. unfold serve_order. rewrite El. exact P1.
    + assert (dest_is_local d = true) as Ed.
      { assert (d ∈ locals l) as Hd by (rewrite El; set_solver). by apply elem_of_list_filter in Hd as [? _]. }
      destruct (run_send_one_local S v d w1 Ed) as (w2 & E2 & P2). rewrite run_bind, E2.
      edestruct (run_frames (fun t : N * list (N * send_target) => FSend (map snd (snd t)) (ser S v)) fst
        (group fst (omap (on_node w1) l)) w2) as (w3 & E3 & F). exists w3. split; [exact E3|].
      assert (passes (serve_order S v l) l w w2) as P.
      { unfold serve_order. rewrite El. rewrite <- (app_nil_r l) at 1. by eapply passes_trans. }
      eapply sends_of; [exact P | exact F |]. rewrite group_frames.
      assert (omap (on_node w2) l = omap (on_node w1) l) as En.
      { assert (w_nmap w2 = w_nmap w1) as Hm.
        { apply map_eq. intros nd. destruct (w_nmap w1 !! nd) eqn:E; [by apply (ps_nmap_old _ _ _ _ P2)|].
          destruct (w_nmap w2 !! nd) eqn:E'; [|done].
          destruct (ps_nmap_new _ _ _ _ P2 _ _ E' E) as ((? & Hn & _) & _). by apply elem_of_nil in Hn. }
        by apply on_node_ext. }
      unfold nodes_meant, targets_on. by rewrite En.
Qed.
