(** Monitors and links across nodes: the calls that make and remove them, and their life until the
    notice. *)
From stdpp Require Import base list gmap numbers strings countable sorting relations.
From Coq Require Import Lia.
From Verif Require Import Prog ProgProofs ProgInv Types Mailbox MailboxSpec World ProcApi NodeApi Api Steps Hist Labels SchedSpec SchedProofs
  ProcSpec ProcProofs ProcInv FreshProofs MonProofs MonLife SendSpec SendProofs NetSpec NetProofs NetExit NetFrames RMonProofs.

(** ** node_register and the queues *)
Definition registers (nm : string) (ad : sockaddr) (c : bool) (w : world) : world := fst (node_register_op nm ad c w).
Lemma registers_spec nm ad c w :
  exists n, run (node_register (NRemote nm ad) c) w = Done (registers nm ad c w) n /\ w_nmap (registers nm ad c w) !! NRemote nm ad = Some n /\
    (forall n0, w_nmap w !! NRemote nm ad = Some n0 -> n = n0) /\
    w_out (registers nm ad c w) = w_out w /\ w_pend (registers nm ad c w) = w_pend w.
Proof.
  cbn [node_register]. rewrite run_atom. unfold registers, node_register_op.
  destruct (w_nmap w !! NRemote nm ad) as [id|] eqn:E.
  - exists id. destruct c; cbn [fst snd]; [|split_and!; try done; by intros ? [= ->]].
    destruct (w_nregs w !! id) as [r|]; [|split_and!; try done; by intros ? [= ->]].
    destruct (n_sup r); split_and!; try done; by intros ? [= ->].
  - exists (w_next_node w). destruct c; cbn; rewrite lookup_insert; split_and!; try done; by intros ? [=].
Qed.
Lemma emits_step fs w w1 w2 : w_out w1 = w_out w -> w_pend w1 = w_pend w -> emits w1 fs w1 w2 ->
  (forall n, channel_of w2 n = channel_of w1 n) -> emits w2 fs w w2.
Proof.
  intros E1 E2 H Hc x. rewrite H. f_equal; [destruct x; cbn; by rewrite ?E1, ?E2|]. f_equal. apply list_filter_iff. intros [n f]. cbn. by rewrite Hc.
Qed.
(** Registering the node (connecting to it if need be) and sending it a frame. *)
Lemma run_call_node nm ad f w :
  exists n, run (let! n := node_register (NRemote nm ad) true in modify (send_frame f n)) w = Done (send_frame f n (registers nm ad true w)) tt /\
    w_nmap (send_frame f n (registers nm ad true w)) !! NRemote nm ad = Some n /\
    emits (send_frame f n (registers nm ad true w)) [(n, f)] w (send_frame f n (registers nm ad true w)).
Proof.
  destruct (registers_spec nm ad true w) as (n & E & Em & _ & Eo & Ep). exists n. rewrite run_bind, E, run_modify.
  destruct (adds_send f n (registers nm ad true w)) as [A1 A2]. split; [done|]. split.
  - destruct (send_frame_out f n (registers nm ad true w)) as [_ (o & p & ->)]. exact Em.
  - by eapply emits_step.
Qed.

(** ** Requesting a monitor *)
Section request.
  Context (S : serde).
  Lemma rwatching_new me nd m pm w l : occurs S w -> is_Some (w_regs w !! me) -> w_loc w !! me = Some l ->
    rwatching (w_next_ref w) me nd m
      (add_nmon nd (RLocal (w_next_ref w)) m (up_loc (alter (upd_monitors (<[RLocal (w_next_ref w) := pm]>)) me) (up_next_ref N.succ w))).
  Proof.
    intros Ho Hme Hl. pose proof (occurs_unmentioned S (w_next_ref w) w Ho ltac:(lia)) as [U1 U2 U3 U4].
    pose proof (occurs_allocated S w Ho me (mk_is_Some _ _ Hl)) as Ha. set (k := w_next_ref w) in *. constructor; cbn.
    - lia.
    - exact Ha.
    - unfold monitors_to, add_nmon; cbn. rewrite lookup_insert. cbn. by rewrite lookup_insert.
    - intros nd' Hn. unfold monitors_to, add_nmon; cbn. rewrite lookup_insert_ne by done. apply U2.
    - exact U1.
    - intros j l1 E Hj. rewrite lookup_alter_ne in E by congruence. by apply (U3 j).
    - exists (upd_monitors (<[RLocal k := pm]>) l). rewrite lookup_alter, Hl. split; [reflexivity|].
      assert (Forall (fun x => ~ mentions k x) (l_items l ++ l_chan l)) as Hf.
      { apply Forall_forall. intros x Hx. specialize (U4 me l x Hl Hx). destruct x as [| |[]| | | |]; cbn in *; auto. }
      apply Forall_app in Hf as [F1 F2]. split_and!; cbn; auto. rewrite lookup_insert. eauto.
    - exact Hme.
  Qed.
  Lemma rwatching_call k me nd m w nm ad f n : rwatching k me nd m w ->
    rwatching k me nd m (send_frame f n (registers nm ad true w)).
  Proof.
    intros H. apply (mild_rwatching S k me nd m (ASendFrame f n) _ I). apply (mild_rwatching S k me nd m (ANodeRegister nm ad true) _ I H).
  Qed.
  (** Process [d] of a known remote node, by pid or by name. *)
  Inductive remote_dest (w : world) : dest -> string -> sockaddr -> option N -> option string -> option pid -> Prop :=
  | rd_pid i n nm ad : lookup_remote n w = Some (nm, ad) -> remote_dest w (DPid (PRemote i n)) nm ad (Some i) None (Some (PRemote i n))
  | rd_name s nm ad : remote_dest w (DNamed s (NRemote nm ad)) nm ad None (Some s) None.
  Lemma run_monitor_remote me d w nm ad i s tgt : occurs S w -> is_Some (w_regs w !! me) -> is_Some (w_loc w !! me) ->
    remote_dest w d nm ad i s tgt ->
    exists w1 n, run (monitor me d) w = Done w1 (RLocal (w_next_ref w)) /\
      rwatching (w_next_ref w) me (NRemote nm ad) (NMProcess me d) w1 /\
      w_nmap w1 !! NRemote nm ad = Some n /\ emits w1 [(n, FMonitor true i s (Some me) (w_next_ref w))] w w1.
  Proof.
    intros Ho Hme [l Hl] Hd. set (k := w_next_ref w).
    set (w0 := add_nmon (NRemote nm ad) (RLocal k) (NMProcess me d)
                 (up_loc (alter (upd_monitors (<[RLocal k := MForProcess tgt]>)) me) (up_next_ref N.succ w))).
    destruct (run_call_node nm ad (FMonitor true i s (Some me) k) w0) as (n & E & Em & Ee).
    eexists _, n. split; [|split; [|split; [exact Em|exact Ee]]].
    - unfold monitor. rewrite run_bind. unfold fresh_ref. rewrite run_atom. cbn [fst snd]. rewrite run_bind.
      destruct Hd as [i n' nm ad Hn|s nm ad]; unfold monitor_install.
      + rewrite decide_False by congruence. unfold own_monitor, own. rewrite run_bind, run_modify. cbn [pid_is_local pid_node]. rewrite run_bind, run_observe.
        change (lookup_remote n' (up_loc (alter (upd_monitors (<[RLocal (w_next_ref w) := MForProcess (Some (PRemote i n'))]>)) me) (up_next_ref N.succ w)))
          with (lookup_remote n' w). rewrite Hn. unfold monitor_remote. rewrite run_bind, run_modify.
        fold k. fold w0. cbn [ref_id pid_id]. rewrite E. reflexivity.
      + unfold own_monitor, own. rewrite run_bind, run_modify. unfold monitor_remote. rewrite run_bind, run_modify.
        fold k. fold w0. cbn [ref_id]. rewrite E. reflexivity.
    - apply rwatching_call. by eapply rwatching_new.
  Qed.
  (** The node of the pid has been forgotten. *)
  Lemma run_monitor_forgotten me i n w : occurs S w -> is_Some (w_loc w !! me) -> lookup_remote n w = None ->
    exists w1 l l1, run (monitor me (DPid (PRemote i n))) w = Done w1 (RLocal (w_next_ref w)) /\ w_loc w !! me = Some l /\ w_loc w1 !! me = Some l1 /\
      notices (w_next_ref w) l = [] /\
      notices (w_next_ref w) l1 = [PSys (SProcessDown (DPid (PRemote i n)) (RLocal (w_next_ref w)) (RCustom "noconnection"))].
  Proof.
    intros Ho [l Hl] Hn. set (d := DPid (PRemote i n)).
    pose proof (occurs_unmentioned S (w_next_ref w) w Ho ltac:(lia)) as [U1 U2 U3 U4].
    set (k := w_next_ref w) in *.
    assert (Forall (fun x => ~ mentions k x) (l_items l ++ l_chan l)) as Hf.
    { apply Forall_forall. intros x Hx. specialize (U4 me l x Hl Hx). destruct x as [| |[]| | | |]; cbn in *; auto. }
    apply Forall_app in Hf as [F1 F2].
    set (l1 := upd_monitors (<[RLocal k := MForProcess (Some (PRemote i n))]>) l).
    set (w1 := up_loc (alter (upd_monitors (<[RLocal k := MForProcess (Some (PRemote i n))]>)) me) (up_next_ref N.succ w)).
    set (w2 := up_aliases (delete k) (push me (IProcessDown d (RLocal k) (RCustom "noconnection")) w1)).
    assert (w_loc w1 !! me = Some l1) as El by (cbn; by rewrite lookup_alter, Hl).
    exists w2, l, (after_arrival ([] ++ [IProcessDown d (RLocal k) (RCustom "noconnection")]) l1). split; [|split; [exact Hl|split; [|split]]].
    - unfold monitor, fresh_ref. rewrite run_bind, run_atom. cbn [fst snd]. rewrite run_bind. unfold monitor_install, d.
      rewrite decide_False by congruence. unfold own_monitor, own. rewrite run_bind, run_modify. cbn [pid_is_local pid_node]. rewrite run_bind, run_observe.
      fold k. fold w1. change (lookup_remote n w1) with (lookup_remote n w). rewrite Hn. reflexivity.
    - unfold w2, push. rewrite El. cbn. by rewrite lookup_insert.
    - by apply notices_none.
    - apply (notices_one k l1 [] d (RCustom "noconnection") []); [|constructor..].
      split_and!; cbn; auto. rewrite lookup_insert. eauto.
  Qed.
  Lemma run_node_monitor me nm ad w : occurs S w -> is_Some (w_regs w !! me) -> is_Some (w_loc w !! me) ->
    exists w1, run (node_monitor me (NRemote nm ad)) w = Done w1 (RLocal (w_next_ref w)) /\
      rwatching (w_next_ref w) me (NRemote nm ad) (NMNode me) w1.
  Proof.
    intros Ho Hme [l Hl]. set (k := w_next_ref w).
    set (w0 := add_nmon (NRemote nm ad) (RLocal k) (NMNode me)
                 (up_loc (alter (upd_monitors (<[RLocal k := MForNode (NRemote nm ad)]>)) me) (up_next_ref N.succ w))).
    destruct (registers_spec nm ad true w0) as (n & E & _). exists (registers nm ad true w0). split.
    - unfold node_monitor, fresh_ref, own_monitor, own. rewrite run_bind, run_atom. cbn [fst snd]. rewrite run_bind, run_modify.
      rewrite run_bind, run_modify. fold k. fold w0. rewrite run_bind, E. reflexivity.
    - apply (mild_rwatching S k me _ _ (ANodeRegister nm ad true) _ I). by eapply rwatching_new.
  Qed.

  (** *** The notice *)
  Lemma told_other nd why w j k k0 : k <> k0 -> Forall (fun x => ~ mentions k0 x) (told_news nd why w j k).
  Proof.
    intros Hk. unfold told_news. destruct (monitors_to w nd !! RLocal k) as [[]|]; try constructor. case_decide; [|constructor].
    destruct (w_regs w !! j); constructor; [|constructor]. cbn. congruence.
  Qed.
  Lemma told_others nd why w j k0 ks : k0 ∉ ks -> Forall (fun x => ~ mentions k0 x) (concat (map (told_news nd why w j) ks)).
  Proof.
    induction ks as [|k ks IH]; cbn; intros H; [constructor|]. apply Forall_app. split; [apply told_other; set_solver|apply IH; set_solver].
  Qed.
  Lemma told_once nd why w me k d ks : monitors_to w nd !! RLocal k = Some (NMProcess me d) -> is_Some (w_regs w !! me) -> k ∈ ks -> NoDup ks ->
    exists xs ys, concat (map (told_news nd why w me) ks) = xs ++ IProcessDown d (RLocal k) why :: ys /\
      Forall (fun x => ~ mentions k x) xs /\ Forall (fun x => ~ mentions k x) ys.
  Proof.
    intros Hm [r Hr] Hk Hnd. apply elem_of_list_split in Hk as (l1 & l2 & ->).
    apply NoDup_app in Hnd as (_ & Hn1 & Hn2). apply NoDup_cons in Hn2 as [Hn2 _].
    exists (concat (map (told_news nd why w me) l1)), (concat (map (told_news nd why w me) l2)). split; [|split].
    - rewrite map_app, concat_app. f_equal. cbn. unfold told_news at 1. rewrite Hm, decide_True by done. by rewrite Hr.
    - apply told_others. intros H. apply (Hn1 _ H). set_solver.
    - by apply told_others.
  Qed.
  Lemma notified_by_frame k me nd d w sup rs why : rwatching k me nd (NMProcess me d) w -> k ∈ rs ->
    exists w2 l l2, run (receive_frame nd sup (FMonitorDown rs why)) w = Done w2 tt /\ w_loc w !! me = Some l /\ w_loc w2 !! me = Some l2 /\
      notices k l = [] /\ notices k l2 = [PSys (SProcessDown d (RLocal k) why)] /\ monitors_to w2 nd !! RLocal k = None.
  Proof.
    intros [H1 H2 H3 H4 H5 H6 (l & H7 & H7') H8] Hk.
    destruct (tolds nd why rs w) as (_ & _ & _ & _ & A5 & A6 & _).
    set (w2 := fold_left (fun w k => told nd why k w) rs w) in *.
    exists w2, l, (after_arrival (concat (map (told_news nd why w me) (firsts rs))) l).
    split; [apply run_monitor_down_frame|]. split; [done|]. split; [by rewrite (A5 me), H7|]. split; [|split].
    - destruct H7' as (_ & B1 & B2). by apply notices_none.
    - destruct (told_once nd why w me k d (firsts rs) H3 H8 (proj2 (firsts_elem _ _) Hk) (firsts_nodup _)) as (xs & ys & -> & F1 & F2).
      by apply notices_one.
    - rewrite A6. unfold wipes. rewrite bool_decide_true by done. by rewrite bool_decide_true.
  Qed.
  Lemma notices_one_node k l xs nd ys : expecting k l -> Forall (fun x => ~ mentions k x) xs -> Forall (fun x => ~ mentions k x) ys ->
    notices k (after_arrival (xs ++ INodeDown nd (RLocal k) :: ys) l) = [PSys (SNodeDown nd (RLocal k))].
  Proof.
    intros (Hm & H1 & H2) Hx Hy. unfold notices, mailbox, after_arrival. cbn [l_items l_chan set_chan l_monitors].
    rewrite !(assoc_L app). destruct (visible_unmentioned k (dom (l_monitors l)) ((l_items l ++ l_chan l) ++ xs) (INodeDown nd (RLocal k) :: ys)) as (M & E1 & E2).
    { rewrite !Forall_app. auto. }
    rewrite E2. cbn [visible]. rewrite decide_True by (apply E1; apply elem_of_dom; exact Hm).
    rewrite filter_cons_True by reflexivity. f_equal.
    destruct (visible_unmentioned k (M ∖ {[RLocal k]}) ys [] Hy) as (M' & _ & E). rewrite app_nil_r in E. by rewrite E.
  Qed.
  Lemma lost_once k w nd me m y : monitors_to w nd !! RLocal k = Some m -> is_Some (w_regs w !! me) ->
    lost_notice nd me (RLocal k, m) = Some y ->
    exists xs ys, lost_monitors w nd me = xs ++ y :: ys /\ Forall (fun x => ~ mentions k x) xs /\ Forall (fun x => ~ mentions k x) ys.
  Proof.
    intros Hk [r Hr] Hy. unfold lost_monitors. rewrite Hr.
    pose proof (proj2 (sorted_refs_elem (monitors_to w nd) (RLocal k) _) Hk) as Hin. pose proof (sorted_refs_nodup (monitors_to w nd)) as Hnd.
    apply elem_of_list_split in Hin as (l1 & l2 & E). rewrite E in Hnd |- *.
    rewrite fmap_app, fmap_cons in Hnd. apply NoDup_app in Hnd as (_ & Hn1 & Hn2). apply NoDup_cons in Hn2 as [Hn2 _].
    exists (omap (lost_notice nd me) l1), (omap (lost_notice nd me) l2).
    assert (forall l, RLocal k ∉ l.*1 -> Forall (fun x => ~ mentions k x) (omap (lost_notice nd me) l)) as Hg.
    { intros l Hl. apply Forall_forall. intros x Hx. apply elem_of_list_omap in Hx as ([r1 m1] & Hin & Eg).
      assert (r1 <> RLocal k) as Hr1. { intros ->. apply Hl. apply elem_of_list_fmap. by exists (RLocal k, m1). }
      destruct m1; cbn in Eg; try discriminate; case_decide; try discriminate; injection Eg as <-; cbn; done. }
    split; [|split].
    - rewrite omap_app. f_equal. cbn. by rewrite Hy.
    - apply Hg. intros H. apply (Hn1 _ H). set_solver.
    - by apply Hg.
  Qed.
  Lemma notified_by_loss k me nd m y w sup id r : rwatching k me nd m w -> responsible w nd sup id r -> lost_notice nd me (RLocal k, m) = Some y ->
    exists w2 l l2, run (supervisor_down nd sup) w = Done w2 tt /\ w_loc w !! me = Some l /\ w_loc w2 !! me = Some l2 /\
      notices k l = [] /\ monitors_to w2 nd !! RLocal k = None /\
      exists xs ys, l2 = after_arrival (xs ++ y :: ys) l /\ expecting k l /\
        Forall (fun x => ~ mentions k x) xs /\ Forall (fun x => ~ mentions k x) ys.
  Proof.
    intros [H1 H2 H3 H4 H5 H6 (l & H7 & H7') H8] Hr Hy.
    destruct (run_supervisor_down nd sup w id r Hr) as (w2 & E & Hc).
    exists w2, l, (after_arrival (lost_links w nd me ++ lost_monitors w nd me) l).
    split; [exact E|]. split; [done|]. split; [by rewrite (cl_mail _ _ _ _ _ Hc), H7|]. split.
    { destruct H7' as (_ & B1 & B2). by apply notices_none. }
    split. { unfold monitors_to. rewrite (cl_nmons _ _ _ _ _ Hc), lookup_delete. apply lookup_empty. }
    destruct (lost_once k w nd me m y H3 H8 Hy) as (xs & ys & -> & F1 & F2).
    exists (lost_links w nd me ++ xs), ys. split; [by rewrite app_assoc|]. split; [done|]. split; [|done].
    apply Forall_app. split; [|done]. unfold lost_links. destruct (w_regs w !! me) as [rg|]; [|constructor]. destruct (r_trap rg); [|constructor].
    apply Forall_forall. intros x Hx. apply elem_of_list_fmap in Hx as (z & -> & _). cbn. tauto.
  Qed.
End request.
