(** The alias of a call: its monitor reference, when the server is on another node.  What destroys it, and that it
    never comes back, in every schedule. *)
From stdpp Require Import base list gmap numbers strings countable sorting relations.
From Coq Require Import Lia.
From Verif Require Import Prog ProgProofs ProgInv Types Mailbox MailboxSpec MailboxProofs World ProcApi NodeApi Api Steps Hist Labels Msum SchedSpec SchedProofs
  DownProofs RecvProofs ProcSpec ProcInv FreshProofs ProcProps TimerProofs TruthProps GenServer Client ClientSpec ClientStep ClientRun ClientNode ClientFlush ClientMail ClientCall ClientTalk.

Section nc.
  Context (S : serde) (k : N).
  (** A program that never makes the alias [k], except at the step that makes the reference [k]. *)
  Fixpoint nc {R} (p : prog world R) : Prop :=
    match p with
    | Ret _ | Panic _ => True
    | Atom g f kk => forall w, g w = true ->
        (w_next_ref w <= w_next_ref (f w))%N /\
        ((k < w_next_ref w)%N -> w_aliases w !! k = None -> w_aliases (f w) !! k = None) /\
        (w_next_ref w <> k \/ (w_next_ref (f w) <= k)%N -> nc (kk w))
    end.
  Definition no_create (a : act) : Prop := match a with AAliasCreate _ _ _ => False | _ => True end.
  Lemma exit_aliases p f y w : w_aliases (exit_op p f y w) = w_aliases w.
  Proof. unfold exit_op, push. repeat case_match; reflexivity. Qed.
  Lemma no_create_keeps a w : no_create a -> w_aliases w !! k = None -> w_aliases (does S a w) !! k = None.
  Proof.
    assert (forall i x w, w_aliases (push i x w) = w_aliases w) as Hpush by (intros i x w0; unfold push; by destruct (w_loc w0 !! i)).
    destruct a; cbn [does no_create]; intros Ha Hw; try done; try (cbn; exact Hw).
    - unfold receive_op. destruct (w_loc w !! me) as [l|]; [|done]. by destruct (select S T f b l).
    - cbn. apply lookup_delete_None. by right.
    - unfold alias_take_op. repeat case_match; cbn; try exact Hw. apply lookup_delete_None. by right.
    - by rewrite Hpush.
    - unfold send_to. case_match; [by rewrite Hpush|done].
    - unfold node_register_op, spawn_op. repeat case_match; simplify_eq; exact Hw.
    - unfold send_frame, hand_out. repeat case_match; exact Hw.
    - unfold register_op. repeat case_match; exact Hw.
    - by rewrite exit_aliases.
    - unfold exit_linked_op. repeat case_match; rewrite ?Hpush; exact Hw.
    - unfold node_start_op, spawn_op. repeat case_match; simplify_eq; exact Hw.
    - unfold node_disconnect_op. repeat case_match; cbn; rewrite ?exit_aliases; exact Hw.
    - unfold node_accept_op. repeat case_match; cbn; rewrite ?exit_aliases; exact Hw.
    - unfold node_workers_op, hand_out. repeat case_match; exact Hw.
    - unfold sup_down_op. repeat case_match; exact Hw.
  Qed.
  Lemma nc_of {A} (F : act -> Prop) (p : prog world A) : (forall a, F a -> no_create a) -> guar (lstep S F) p -> nc p.
  Proof.
    intros HF. induction p as [a|m|g f kk IH]; cbn; auto. intros H w Hg. destruct (H w Hg) as ((a & Ha & E) & H2).
    split; [rewrite E; apply does_next_ref|]. split; [intros _; rewrite E; apply no_create_keeps, HF, Ha|]. intros _. by apply IH.
  Qed.
  Lemma nc_bind {A B} (p : prog world A) (q : A -> prog world B) : nc p -> (forall a, nc (q a)) -> nc (bind p q).
  Proof.
    intros Hp Hq. induction p as [a|m|g f kk IH]; cbn in *; auto. intros w Hg. destruct (Hp w Hg) as (H1 & H2 & H3). split_and!; auto.
  Qed.
  Lemma nc_fresh {A} (q : reference -> prog world A) : (forall r, ref_id r <> k -> nc (q r)) -> nc (bind fresh_ref q).
  Proof.
    intros Hq w _. cbn. split; [lia|]. split; [done|]. intros H. apply Hq. cbn. lia.
  Qed.
  Lemma nc_create {A} me r b (q : prog world A) : ref_id r <> k -> nc q -> nc (do! modify (alias_create_op me r b) in q).
  Proof.
    intros Hr Hq w _. cbn. split; [lia|]. split; [|done]. intros _ Hw. by rewrite lookup_insert_ne.
  Qed.
  Lemma nc_call c : nc (call_prog S c).
  Proof.
    assert ((forall a, fp S c a -> no_create a) -> nc (call_prog S c)) as Hfp.
    { intros H. eapply nc_of; [exact H|apply call_fp]. }
    destruct c; try (apply Hfp; clear; intros y Hy; destruct y; cbn in Hy |- *; try exact I; try done;
      unfold fp_send, fp_fire, fp_destroy_timer, fp_spawn, fp_link, fp_unlink, fp_monitor, fp_monitor_alias, fp_demonitor, fp_exit, fp_finish, fp_crash, fp_supervise, fp_supdown in *;
      cbn in Hy; repeat case_match; try contradiction; try (by destruct Hy as [[]|[]]); try (by destruct Hy as [?|[]]); naive_solver); cbn [call_prog]; unfold ret_as.
    - apply nc_bind; [|intros; exact I]. unfold alias. apply nc_fresh. intros r Hr.
      apply nc_bind; [eapply (nc_of (fun a => exists me r, a = AOwnAlias me r)); [by intros a (? & ? & ->)|apply guar_modify; intros w; exists (AOwnAlias me r); eauto]|].
      intros _. by apply nc_create.
    - apply nc_bind; [|intros; exact I]. unfold monitor_alias. apply nc_fresh. intros r Hr. apply nc_create; [done|].
      apply nc_bind; [|intros; exact I]. eapply nc_of; [|apply l_monitor_install]. intros a Ha. destruct a; try exact I. exact Ha.
  Qed.
End nc.

Section gone.
  Context (S : serde) (Hty : serde_typed S) (me k : N).
  Notation r0 := (RLocal k).
  Notation other := (other S me).
  Notation others := (rtc other).
  Notation still := (touch me (fun _ => False)).
  (** The reference [k] has been made and nobody is about to make an alias of it. *)
  Definition known (s : sys world val) : Prop := (k < w_next_ref (s_world s))%N /\ Forall (nc k) (s_threads s).
  Definition gone (s : sys world val) : Prop := known s /\ w_aliases (s_world s) !! k = None.

  Lemma step_nc (api : prog world val -> Prop) s s' : sys_step api s s' -> (forall p, api p -> nc k p) -> Forall (nc k) (s_threads s) ->
    (w_next_ref (s_world s) <= w_next_ref (s_world s'))%N /\
    ((k < w_next_ref (s_world s))%N \/ (w_next_ref (s_world s') <= k)%N -> Forall (nc k) (s_threads s')) /\
    ((k < w_next_ref (s_world s))%N -> w_aliases (s_world s) !! k = None -> w_aliases (s_world s') !! k = None).
  Proof.
    intros Hs Hapi Hf. destruct Hs as [i s s' Ht|p s Hp].
    - unfold tick in Ht. destruct (s_threads s !! i) as [[| |g f kk]|] eqn:E; try discriminate.
      destruct (g (s_world s)) eqn:Hg; [|discriminate]. injection Ht as <-. cbn.
      destruct (Forall_lookup_1 _ _ _ _ Hf E _ Hg) as (H1 & H2 & H3). split; [done|]. split; [|done].
      intros H. apply Forall_insert; [done|]. apply H3. lia.
    - cbn. split; [lia|]. split; [|done]. intros _. apply Forall_app. split; [done|]. constructor; [by apply Hapi|constructor].
  Qed.
  Lemma reachable_nc s : reachable S s -> (w_next_ref (s_world s) <= k)%N -> Forall (nc k) (s_threads s).
  Proof.
    intros Hr. refine (rtc_ind_r (fun s => (w_next_ref (s_world s) <= k)%N -> Forall (nc k) (s_threads s)) _ _ _ s Hr).
    - constructor.
    - intros s1 s2 H1 H2 IH Hk. 
      assert ((w_next_ref (s_world s1) <= w_next_ref (s_world s2))%N) as Hle.
      { destruct H2 as [i s1 s2 Ht|p s1 Hp]; [|cbn; lia]. unfold tick in Ht.
        destruct (s_threads s1 !! i) as [[| |g f kk]|] eqn:E; try discriminate.
        destruct (g (s_world s1)) eqn:Hg; [|discriminate]. injection Ht as <-. cbn.
        assert (Forall (guar (fun w w' => (w_next_ref w <= w_next_ref w')%N)) (s_threads s1)) as Hf.
        { eapply reach_guar_threads; [| |exact H1]; [|constructor]. intros p (c & ->). eapply guar_mono; [|apply call_fp]. intros x y (a & _ & ->). apply does_next_ref. }
        exact (proj1 (Forall_lookup_1 _ _ _ _ Hf E _ Hg)). }
      destruct (step_nc _ _ _ H2) as (_ & H & _); [intros p (c & ->); apply nc_call|apply IH; lia|]. apply H. by right.
  Qed.
  Lemma backed_nc s own : backed S s own -> (w_next_ref (s_world s) <= k)%N -> Forall (nc k) (s_threads s).
  Proof.
    intros (us & Hr & Hp) Hk. pose proof (reachable_nc _ Hr Hk) as H. cbn in H. rewrite Hp in H. by apply Forall_app in H as [H _].
  Qed.

  (** *** Steps of others and own calls *)
  Lemma other_api p : calls_of S (foreign_call me) p -> nc k p.
  Proof. intros (c & _ & ->). apply nc_call. Qed.
  Lemma other_known s s' : other s s' -> known s -> known s'.
  Proof.
    intros Hs [H1 H2]. destruct (step_nc _ _ _ Hs other_api H2) as (A & B & _). split; [lia|]. apply B. by left.
  Qed.
  Lemma others_known s s' : others s s' -> known s -> known s'.
  Proof. induction 1; [done|]. intros. eauto using other_known. Qed.
  Lemma other_gone s s' : other s s' -> gone s -> gone s'.
  Proof.
    intros Hs [Hk H3]. split; [by eapply other_known|]. destruct Hk as [H1 H2]. destruct (step_nc _ _ _ Hs other_api H2) as (_ & _ & C). by apply C.
  Qed.
  Lemma others_gone s s' : others s s' -> gone s -> gone s'.
  Proof. induction 1; [done|]. intros. eauto using other_gone. Qed.
  Lemma tick_known w ts g f (kk : world -> prog world val) : g w = true -> nc k (Atom g f kk) -> known (Sys w ts) -> known (Sys (f w) ts) /\ nc k (kk w).
  Proof.
    intros Hg Hn [H1 H2]. cbn in H1. destruct (Hn w Hg) as (A & B & C). split; [split; [cbn; lia|done]|]. apply C. lia.
  Qed.
  Lemma tick_gone w ts g f (kk : world -> prog world val) : g w = true -> nc k (Atom g f kk) -> gone (Sys w ts) -> gone (Sys (f w) ts) /\ nc k (kk w).
  Proof.
    intros Hg Hn [Hk H3]. destruct (tick_known _ _ _ _ _ Hg Hn Hk) as [A B]. split; [|done]. split; [done|]. destruct Hk as [H1 _].
    destruct (Hn w Hg) as (_ & C & _). by apply C.
  Qed.
  Lemma busy_known s p v s' : busy S me s p v s' -> nc k p -> known s -> known s'.
  Proof.
    induction 1 as [s v|s s1 p v s2 H1 H IH|w ts g f kk v s2 Hg H IH]; intros Hp Hs; [done| |].
    - apply IH; [done|]. by eapply other_known.
    - destruct (tick_known _ _ _ _ _ Hg Hp Hs). by apply IH.
  Qed.
  Lemma busy_gone s p v s' : busy S me s p v s' -> nc k p -> gone s -> gone s'.
  Proof.
    induction 1 as [s v|s s1 p v s2 H1 H IH|w ts g f kk v s2 Hg H IH]; intros Hp Hs; [done| |].
    - apply IH; [done|]. by eapply other_gone.
    - destruct (tick_gone _ _ _ _ _ Hg Hp Hs). by apply IH.
  Qed.
  (** Once it is gone it stays away, whatever the process and everybody else do. *)
  Lemma step_gone {R} (x : sys world val * cstate R) a y : cstep S me x a y -> gone (fst x) -> match snd x with Busy _ p _ => nc k p | _ => True end ->
    gone (fst y) /\ match snd y with Busy _ p _ => nc k p | _ => True end.
  Proof.
    intros Hs Hg Hb. assert (forall w ts i l, gone (Sys w ts) -> gone (Sys (up_loc (<[i := l]>) w) ts)) as Hloc by done.
    destruct Hs; cbn [fst snd] in *; try (split; [by eauto using other_gone|done]); try done.
    - split; [done|]. apply nc_call.
    - by apply tick_gone with g.
    - apply loop_receive in H as (? & ? & _ & _ & ->). split; [by apply Hloc|done].
    - apply loop_receive in H as (? & ? & _ & _ & ->). split; [by apply Hloc|done].
    - apply loop_receive in H as (? & ? & _ & _ & ->). split; [by apply Hloc|done].
  Qed.
  Lemma cruns_gone {R} (x : sys world val * cstate R) tr y : cruns S me x tr y -> gone (fst x) -> match snd x with Busy _ p _ => nc k p | _ => True end ->
    gone (fst y).
  Proof.
    induction 1 as [x|x a y tr z Hs H IH]; intros Hg Hb; [done|]. destruct (step_gone _ _ _ Hs Hg Hb). by apply IH.
  Qed.

  (** *** The own table entry *)
  Definition shape (m : pmonitor) : Prop := exists p, m = MForProcess (Some p).
  Definition shaped (l : plocal) : Prop := forall m, l_monitors l !! r0 = Some m -> shape m.
  Lemma process_item_shaped T x l r x' l' : process_item S T x l = (r, x', l') -> shaped l -> shaped l'.
  Proof.
    unfold process_item. intros H Hl.
    assert (forall r1, shaped (upd_monitors (delete r1) l)) as Hd.
    { intros r1 m. cbn. rewrite lookup_delete_Some. intros [_ E]. by apply Hl. }
    assert (forall r1 p, shaped (upd_monitors (alter (fun _ => MForProcess (Some p)) r1) l)) as Ha.
    { intros r1 p m. cbn. rewrite lookup_alter_Some. intros [(_ & m' & _ & ->)|[_ E]]; [by exists p|by apply Hl]. }
    destruct x; repeat case_match; simplify_eq; auto.
  Qed.
  Lemma scan_items_shaped T f b its l s its' l' : scan_items S T f b its l = (s, its', l') -> shaped l -> shaped l'.
  Proof.
    revert l s its' l'; induction its as [|x its IH]; intros l s its' l' H Hl; cbn in H; [by simplify_eq|].
    destruct (process_item S T x l) as [[r x'] l1] eqn:E. apply process_item_shaped in E; [|exact Hl].
    repeat case_match; simplify_eq; eauto.
  Qed.
  Lemma scan_chan_shaped T f b ch l s l' : scan_chan S T f b ch l = (s, l') -> shaped l -> shaped l'.
  Proof.
    revert l s l'; induction ch as [|x ch IH]; intros l s l' H Hl; cbn in H; [by simplify_eq|].
    destruct (process_item S T x l) as [[r x'] l1] eqn:E. apply process_item_shaped in E; [|exact Hl].
    repeat case_match; simplify_eq; eauto.
  Qed.
  Lemma select_shaped T f b l s l' : select S T f b l = (s, l') -> shaped l -> shaped l'.
  Proof.
    unfold select. intros H Hl. destruct (scan_items S T f b (l_items l) l) as [[s1 i1] l1] eqn:E.
    apply scan_items_shaped in E; [|exact Hl]. destruct s1; simplify_eq; auto. by eapply scan_chan_shaped in H.
  Qed.
  Definition holds (w : world) : Prop := (me < w_next_pid w)%N /\ exists l, w_loc w !! me = Some l /\ shaped l.
  Lemma touch_holds w w' : still w w' -> holds w -> holds w'.
  Proof.
    intros Ht [Hp (l & El & Hl)]. destruct (Ht Hp) as (Hp' & _ & g & _ & H). destruct (H l El) as (l' & El' & _ & _ & Hm).
    split; [done|]. exists l'. split; [done|]. intros m. rewrite Hm by tauto. apply Hl.
  Qed.
  Lemma others_holds s s' : others s s' -> quiet me s -> holds (s_world s) -> holds (s_world s').
  Proof. intros Ho Hq. apply touch_holds. by destruct (others_still _ _ _ _ Ho Hq). Qed.
  Lemma receive_holds T f w w1 x : run (try_receive S me T f false) w = Done w1 (Some x) -> holds w -> holds w1.
  Proof.
    intros E [Hp (l & El & Hl)]. apply loop_receive in E as (l1 & l2 & El1 & Es & ->). assert (l1 = l) as -> by congruence.
    split; [done|]. exists l2. cbn. rewrite lookup_insert. split; [done|]. by eapply select_shaped.
  Qed.
  Lemma waits_holds T f t s x s' : waits S me T f t s x s' -> quiet me s -> known s -> holds (s_world s) -> known s' /\ holds (s_world s') /\ quiet me s'.
  Proof.
    induction 1 as [s s1 x s2 H1 H IH|w ts w1 x s2 H1 H IH|w ts w1 m H1|w ts w1 H1 H2]; intros Hq Hk Hh.
    - destruct (other_still _ _ _ _ H1 Hq) as [A B]. apply IH; [done|by eapply other_known|by eapply touch_holds].
    - apply IH; [done| |by eapply receive_holds]. apply loop_receive in H1 as (? & ? & _ & _ & ->). exact Hk.
    - split; [|split; [by eapply receive_holds|done]]. apply loop_receive in H1 as (? & ? & _ & _ & ->). exact Hk.
    - split; [|split; [by eapply receive_holds|done]]. apply loop_receive in H1 as (? & ? & _ & _ & ->). exact Hk.
  Qed.

  (** *** Where the alias is destroyed *)
  Fixpoint kills {R} (p : prog world R) : Prop :=
    match p with
    | Ret _ => False
    | Panic _ => True
    | Atom g f kk => forall w, g w = true -> w_aliases (f w) !! k = None \/ kills (kk w)
    end.
  Lemma kills_bind {A B} (p : prog world A) (q : A -> prog world B) : (forall a, kills (q a)) -> kills (bind p q).
  Proof. intros H. induction p as [a|m|g f kk IH]; cbn; auto. Qed.
  Lemma kills_first {A B} (p : prog world A) (q : A -> prog world B) : kills p -> kills (bind p q).
  Proof. induction p as [a|m|g f kk IH]; cbn; [tauto|done|]. intros H w Hg. destruct (H w Hg); auto. Qed.
  Lemma busy_kills s p v s' : busy S me s p v s' -> nc k p -> kills p -> known s -> gone s'.
  Proof.
    induction 1 as [s v|s s1 p v s2 H1 H IH|w ts g f kk v s2 Hg H IH]; intros Hp Hk Hs; [done| |].
    - apply IH; [done|done|]. by eapply other_known.
    - destruct (tick_known _ _ _ _ _ Hg Hp Hs) as [A B]. destruct (Hk w Hg) as [C|C]; [|by apply IH].
      eapply busy_gone; [exact H|exact B|]. by split.
  Qed.

  (** *** The monitor of a call, and its end *)
  Lemma opened i n s s0 v s1 rest l0 : quiet me s -> backed S s rest -> w_loc (s_world s) !! me = Some l0 -> others s s0 ->
    busy S me s0 (call_prog S (CMonitorAlias me (DPid (PRemote i n)) true)) v s1 -> v = VRef r0 ->
    known s1 /\ holds (s_world s1) /\ quiet me s1.
  Proof.
    intros Hq Hb El Ho Hbusy Hv.
    assert ((me < w_next_pid (s_world s))%N) as Hpid by (eapply (occurs_allocated S); [by eapply backed_occurs|eauto]).
    destruct (others_still _ _ _ _ Ho Hq) as [T0 Q0].
    assert (quiet me s1) as Q1 by (eapply busy_quiet; [exact Hbusy|exact Q0]).
    cbn [call_prog monitor_alias ret_as bind fresh_ref atom modify] in Hbusy. apply busy_atom in Hbusy as (sA & H1 & _ & H2). cbn [fst snd] in H2.
    destruct (others_still _ _ _ _ H1 Q0) as [T1 QA].
    set (r := RLocal (w_next_ref (s_world sA))) in *.
    assert (r = r0) as Er.
    { assert (v = VRef r) as E; [|congruence]. eapply (busy_leaf S me (fun v => v = VRef r)); [exact H2|]. intros w. apply leaf_bind2 with (fun x => x = r); [|by intros ? ->].
      by apply leaf_bind. }
    assert (k = w_next_ref (s_world sA)) as Ek by (unfold r in Er; congruence).
    assert (known (Sys (up_next_ref N.succ (s_world sA)) (s_threads sA))) as K1.
    { split; [cbn; lia|]. cbn. apply (backed_nc sA rest); [|lia]. eapply others_backed; [exact H1|]. by eapply others_backed. }
    apply busy_atom in H2 as (s2 & H3 & _ & H4). rewrite Er in H4.
    assert (quiet me (Sys (up_next_ref N.succ (s_world sA)) (s_threads sA))) as QB by exact QA.
    destruct (others_still _ _ _ _ H3 QB) as [T2 Q2].
    pose proof (others_known _ _ H3 K1) as K2.
    assert (known (Sys (alias_create_op me r0 true (s_world s2)) (s_threads s2))) as K3 by exact K2.
    assert (still (s_world s) (alias_create_op me r0 true (s_world s2))) as T3.
    { eapply touch_trans; [exact T0|]. eapply touch_trans; [exact T1|]. eapply touch_trans; [|eapply touch_trans; [exact T2|]]; apply touch_same; cbn; try reflexivity; lia. }
    assert (nc k (bind (bind (monitor_install me (DPid (PRemote i n)) r0) (fun _ => Ret r0)) (fun x => Ret (VRef x)))) as Hn.
    { apply nc_bind; [|done]. apply nc_bind; [|done]. eapply nc_of; [|apply l_monitor_install]. intros a Ha. destruct a; try exact I. exact Ha. }
    pose proof (busy_known _ _ _ _ H4 Hn K3) as K4. split; [exact K4|]. split; [|exact Q1].
    set (s3 := Sys (alias_create_op me r0 true (s_world s2)) (s_threads s2)) in *.
    assert (quiet me s3) as Q3 by exact Q2. change (touch me (fun _ => False) (s_world s) (s_world s3)) in T3. clearbody s3.
    unfold monitor_install in H4. destruct (decide (PRemote i n = PLocal me)); [discriminate|]. cbn [pid_is_local] in H4.
    cbn [bind own_monitor own modify] in H4. apply busy_atom in H4 as (s4 & H5 & _ & H6).
    destruct (others_still _ _ _ _ H5 Q3) as [T4 Q4].
    set (q := bind (bind (let! n0 := observe (lookup_remote (pid_node (PRemote i n))) in
       match n0 with
       | Some (nm, ad) => monitor_remote me nm ad r0 (DPid (PRemote i n)) (Some (pid_id (PRemote i n))) None
       | None => self_down me (DPid (PRemote i n)) r0 "noconnection"
       end) (fun _ => Ret r0)) (fun x => Ret (VRef x)) : prog world val).
    change (busy S me (Sys (up_loc (alter (upd_monitors (<[r0 := MForProcess (Some (PRemote i n))]>)) me) (s_world s4)) (s_threads s4)) q v s1) in H6.
    destruct (busy_touch S me (fun _ => False) _ _ _ _ H6) as [T5 _].
    { unfold q. apply guar_bind; [|done]. apply guar_bind; [|done]. apply guar_bind; [apply guar_observe; intros; apply touch_refl|].
      intros [[nm ad]|]; [apply (still_remote S)|apply still_self_down]. }
    { exact Q4. }
    eapply touch_holds; [exact T5|]. destruct (touch_trans me (fun _ => False) _ _ _ T3 T4 Hpid) as (P & _ & g & _ & H). destruct (H l0 El) as (l4 & E4 & _).
    split; [exact P|]. exists (upd_monitors (<[r0 := MForProcess (Some (PRemote i n))]>) l4). cbn. rewrite lookup_alter, E4. split; [reflexivity|]. intros m. cbn. rewrite lookup_insert. intros [= <-]. exists (PRemote i n). reflexivity.
  Unshelve. exact S.
  Qed.
  Lemma closed s s0 u s1 l : quiet me s -> known s -> holds (s_world s) -> w_loc (s_world s) !! me = Some l -> is_Some (l_monitors l !! r0) ->
    others s s0 -> busy S me s0 (call_prog S (CDemonitor me r0)) u s1 -> gone s1.
  Proof.
    intros Hq Hk [Hp (l' & El' & Hl)] El Hm Ho Hbusy. assert (l' = l) as -> by congruence.
    cbn [call_prog demonitor ret_as bind take_monitor atom] in Hbusy. apply busy_atom in Hbusy as (s2 & H1 & _ & H2). cbn [fst snd] in H2.
    assert (others s s2) as Ho2 by (etransitivity; eassumption).
    pose proof (others_known _ _ Ho2 Hk) as K2. destruct (others_still _ _ _ _ Ho2 Hq) as [T2 _]. destruct (T2 Hp) as (_ & _ & g & _ & H).
    destruct (H l El) as (l2 & E2 & _ & _ & M2). rewrite E2, M2 in H2 by tauto. destruct Hm as [m Em]. rewrite Em in H2. destruct (Hl m Em) as [p ->].
    assert (known (Sys (up_loc (alter (upd_monitors (delete r0)) me) (s_world s2)) (s_threads s2))) as K3 by exact K2.
    eapply busy_kills; [exact H2| | |exact K3].
    - eapply (nc_bind k); [|done]. eapply (nc_bind k).
      + apply (nc_of S k no_create); [done|]. unfold monitor_destroy. destruct (pid_is_local p); [apply guar_modify; intros w; by exists (ADelMon (pid_id p) r0)|].
        apply guar_bind; [apply guar_modify; intros w; by eexists (ASendFrame _ _)|]. intros _.
        apply guar_bind; [apply guar_observe; intros w; by exists ANone|]. intros [[nm ad]|]; [|exact I].
        apply guar_modify; intros w. by exists (ADelNmon (NRemote nm ad) r0).
      + intros _. intros w _. cbn. split; [lia|]. split; [|done]. intros _ Hw. apply lookup_delete_None. by right.
    - apply kills_first, kills_bind. intros _ w _. left. cbn. apply lookup_delete.
  Qed.
End gone.
