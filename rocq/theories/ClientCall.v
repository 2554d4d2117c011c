(** A client that installs a monitor, sends a request and waits: what holds on the way. *)
From stdpp Require Import base list gmap numbers strings countable sorting relations.
From Coq Require Import Lia.
From Verif Require Import Prog ProgProofs ProgInv Types Mailbox MailboxSpec MailboxProofs World ProcApi NodeApi Api Steps Hist Labels Msum SchedSpec SchedProofs
  DownProofs RecvProofs ProcSpec ProcInv FreshProofs ProcProps TimerProofs GenServer Client ClientSpec ClientStep ClientRun ClientNode ClientFlush ClientMail.

Section now.
  Context (S : serde) (me : N).
  Notation later w w' := ((w_now w <= w_now w')%N).
  Lemma call_later c : guar (fun w w' => later w w') (call_prog S c).
  Proof. eapply guar_mono; [|apply call_fp]. intros w w' (a & _ & ->). apply does_now. Qed.
  Definition ticking (s : sys world val) : Prop := Forall (guar (fun w w' => later w w')) (s_threads s).
  Lemma other_later s s' : other S me s s' -> ticking s -> later (s_world s) (s_world s') /\ ticking s'.
  Proof.
    intros [i ? ? Ht|p ? (c & Hc & ->)] Hq.
    - unfold tick in Ht. destruct (s_threads s0 !! i) as [[| |g f k]|] eqn:E; try discriminate.
      destruct (g (s_world s0)) eqn:Hg; [|discriminate]. injection Ht as <-. cbn.
      pose proof (Forall_lookup_1 _ _ _ _ Hq E) as Hp. destruct (Hp _ Hg) as [H1 H2]. split; [exact H1|].
      apply Forall_insert; [exact Hq|exact H2].
    - cbn. split; [lia|]. apply Forall_app. split; [exact Hq|]. constructor; [|constructor]. apply call_later.
  Qed.
  Lemma step_later {R} (x : sys world val * cstate R) a y : cstep S me x a y -> ticking (fst x) -> 
    match snd x with Busy _ p _ => guar (fun w w' => later w w') p | _ => True end ->
    later (s_world (fst x)) (s_world (fst y)) /\ ticking (fst y) /\ match snd y with Busy _ p _ => guar (fun w w' => later w w') p | _ => True end.
  Proof.
    intros Hs Ht Hb. destruct Hs; cbn [fst snd] in *.
    - destruct (other_later _ _ H Ht). split_and!; try done.
    - split_and!; [lia|done|]. apply call_later.
    - destruct (Hb w H). split_and!; done.
    - split_and!; [lia|done|done].
    - split_and!; [lia|done|done].
    - apply loop_receive in H as (l & l' & El & Es & ->). split_and!; [cbn; lia|done|done].
    - apply loop_receive in H as (l & l' & El & Es & ->). split_and!; [cbn; lia|done|done].
    - apply loop_receive in H as (l & l' & El & Es & ->). split_and!; [cbn; lia|done|done].
    - split_and!; [cbn; lia|done|done].
  Qed.
  Lemma cruns_later {R} (x : sys world val * cstate R) tr y : cruns S me x tr y -> ticking (fst x) ->
    match snd x with Busy _ p _ => guar (fun w w' => later w w') p | _ => True end ->
    later (s_world (fst x)) (s_world (fst y)) /\ ticking (fst y).
  Proof.
    induction 1 as [x|x a y tr z Hs H IH]; intros Ht Hb; [split; [lia|done]|].
    destruct (step_later _ _ _ Hs Ht Hb) as (H1 & H2 & H3). destruct (IH H2 H3). split; [lia|done].
  Qed.
  Lemma others_later s s' : rtc (other S me) s s' -> ticking s -> later (s_world s) (s_world s') /\ ticking s'.
  Proof.
    induction 1 as [s|s1 s2 s3 H1 H IH]; intros Ht; [split; [lia|done]|].
    destruct (other_later _ _ H1 Ht) as [A B]. destruct (IH B). split; [lia|done].
  Qed.
  Lemma busy_later s p v s' : busy S me s p v s' -> guar (fun w w' => later w w') p -> ticking s -> later (s_world s) (s_world s') /\ ticking s'.
  Proof.
    induction 1 as [s v|s s1 p v s2 H1 H IH|w ts g f k v s2 Hg H IH]; intros Hp Hs; [split; [lia|done]| |].
    - destruct (other_later _ _ H1 Hs) as [A B]. destruct (IH Hp B). split; [lia|done].
    - destruct (Hp w Hg) as [A B]. destruct (IH B Hs) as [C D]. cbn in *. split; [lia|done].
  Qed.
  Lemma idle_ticking s : idle S me s -> ticking s.
  Proof.
    intros (R & sc & sc' & tr & H). apply cruns_later in H as [_ H]; [exact H|constructor|exact I].
  Qed.
End now.

Section call.
  Context (S : serde) (Hty : serde_typed S) (me T k : N).
  Notation r0 := (RLocal k).
  Notation others := (rtc (other S me)).
  Context (K : reference -> Prop) (P : pend -> Prop) {Pdec : forall p, Decision (P p)} (HP : pick S T K P).
  Context (w0 : world) (l0 : plocal).

  (** Since [w0], where the mailbox was [l0], exactly [xs] has arrived, and nothing that [P] picks has
      been taken. *)
  Definition base (w : world) (l : plocal) (xs : list item) : Prop :=
    w_loc w !! me = Some l /\ (me < w_next_pid w)%N /\ (w_next_ref w0 <= w_next_ref w)%N /\ became S T P l0 xs l /\
    exists g, w_log w = w_log w0 ++ g /\ xs = arrivals me g.
  Lemma base_start : w_loc w0 !! me = Some l0 -> (me < w_next_pid w0)%N -> base w0 l0 [].
  Proof. intros H1 H2. split_and!; try done; [apply became_refl|]. exists []. by rewrite app_nil_r. Qed.
  Lemma base_touch w l xs w' : touch me K w w' -> base w l xs -> exists l' zs, base w' l' (xs ++ zs) /\
    (forall r, ~ K r -> l_monitors l' !! r = l_monitors l !! r).
  Proof.
    intros Ht (A1 & A2 & A3 & A4 & g & A5 & A6). destruct (Ht A2) as (B1 & B2 & g' & B3 & B4).
    destruct (B4 l A1) as (l' & C1 & C2 & C3 & C4). exists l', (arrivals me g'). split; [|exact C4].
    split_and!; [done|done|lia|apply (became_touch S T K P HP l0 xs l); done|]. exists (g ++ g'). rewrite B3, A5, app_assoc. split; [done|].
    by rewrite arrivals_app, A6.
  Qed.
  Lemma base_still w l xs w' : touch me (fun _ => False) w w' -> base w l xs -> exists l' zs, base w' l' (xs ++ zs) /\ l_monitors l' = l_monitors l.
  Proof.
    intros Ht (A1 & A2 & A3 & A4 & g & A5 & A6). destruct (Ht A2) as (B1 & B2 & g' & B3 & B4).
    destruct (B4 l A1) as (l' & C1 & C2 & C3 & C4). exists l', (arrivals me g'). split.
    2:{ apply map_eq. intros r. apply C4; tauto. }
    split_and!; [done|done|lia|apply (became_touch S T K P HP l0 xs l); auto|]. exists (g ++ g'). rewrite B3, A5, app_assoc. split; [done|].
    by rewrite arrivals_app, A6.
  Qed.
  Lemma base_loc w l xs l' : base w l xs -> became S T P l0 xs l' -> base (up_loc (<[me := l']>) w) l' xs.
  Proof. intros (A1 & A2 & A3 & A4 & A5) H. split_and!; try done. cbn. by rewrite lookup_insert. Qed.

  (** The monitor [k] is installed and has not fired. *)
  Definition watch (s : sys world val) (l : plocal) (xs : list item) : Prop :=
    quiet me s /\ (exists own, backed S s own) /\ nfree k s /\ base (s_world s) l xs /\ is_Some (l_monitors l !! r0).
  Lemma watch_others s l xs s' : others s s' -> watch s l xs -> exists l' zs, watch s' l' (xs ++ zs).
  Proof.
    intros Ho (A1 & (own & A2) & A3 & A4 & A5). destruct (others_still _ _ _ _ Ho A1) as [B1 B2].
    destruct (base_still _ _ _ _ B1 A4) as (l' & zs & B3 & B4). exists l', zs. split_and!; [done| | |done|by rewrite B4].
    - exists own. by eapply others_backed.
    - by eapply others_nfree.
  Qed.
  (** A call that does not touch the own process object. *)
  Lemma watch_call s c v s' l xs : busy S me s (call_prog S c) v s' -> (forall a, fp S c a -> ~ own_act me a) ->
    watch s l xs -> exists l' zs, watch s' l' (xs ++ zs).
  Proof.
    intros Ho Hc (A1 & (own & A2) & A3 & A4 & A5). destruct (busy_touch _ _ _ _ _ _ _ Ho (call_touch S me c Hc) A1) as [B1 B2].
    destruct (base_still _ _ _ _ B1 A4) as (l' & zs & B3 & B4). exists l', zs. split_and!; [done| | |done|by rewrite B4].
    - exists (Ret v :: own). eapply busy_backed; [exact Ho|]. by apply backed_begin.
    - eapply busy_nfree; [exact Ho|apply call_tok_node|done].
  Qed.
  Lemma watch_clean s l xs : watch s l xs -> Forall (clean k) (l_items l ++ l_chan l).
  Proof.
    intros (A1 & (own & A2) & A3 & A4 & A5). apply Forall_forall. intros x Hx.
    assert (w_loc (s_world s) !! me = Some l) as El by apply A4. destruct x as [| |m| |n r| |]; try exact I; cbn.
    - destruct A2 as (us & Hr & _). destruct (reachable_rcv S k _ Hr) as (hs & _ & H2). cbn in H2. unfold rcv_cnt in H2.
      pose proof (msum_ge (mcount k) _ _ _ El) as H3. assert (mcount k l = 1 + ripes k (l_items l) + ripes k (l_chan l)) as H5 by (unfold mcount, has; destruct (l_monitors l !! r0); [lia|by destruct A5]).
      assert (ripes k (l_items l ++ l_chan l) = 0) as H4 by (rewrite ripes_app; lia).
      apply elem_of_list_split in Hx as (a & b & E). rewrite E, ripes_app, ripes_cons in H4. cbn in H4. lia.
    - intros ->. pose proof (occurs_covered S _ (backed_occurs S _ _ A2) me l _ El Hx I) as Hin. destruct A3 as [H0 _].
      unfold ncnt in H0. assert (length (filter (is_ndown k) (w_log (s_world s))) = 0) as H1 by lia.
      apply nil_length_inv in H1. assert ((me, INodeDown n r0) ∈ filter (is_ndown k) (w_log (s_world s))) as H2.
      { apply elem_of_list_filter. done. }
      rewrite H1 in H2. by apply elem_of_nil in H2.
  Qed.

  (** ** Waiting *)
  Context (f : message -> bool) (Hf : forall d why, f (MSystem (SProcessDown d r0 why)) = true).
  Lemma watch_waits t s x s' l xs : waits S me T f t s x s' -> watch s l xs ->
    exists w ts l1 zs l2, watch (Sys w ts) l1 (xs ++ zs) /\ s' = Sys (up_loc (<[me := l2]>) w) ts /\
      match x with
      | Some m => select S T f false l1 = (Found m, l2)
      | None => select S T f false l1 = (Waiting, l2) /\ expired t w
      end.
  Proof.
    intros H. revert l xs. induction H as [s s1 x s2 H1 H IH|w ts w1 x s2 H1 H IH|w ts w1 m H1|w ts w1 H1 H2]; intros l xs Hw.
    - destruct (watch_others s l xs s1 (rtc_once _ _ H1) Hw) as (l1 & zs1 & Hw1).
      destruct (IH _ _ Hw1) as (w & ts & l2 & zs2 & l3 & A & B). exists w, ts, l2, (zs1 ++ zs2), l3. by rewrite app_assoc.
    - pose proof H1 as Hrun. apply loop_receive in H1 as (l1 & l2 & El & Es & ->).
      assert (l1 = l) as -> by (destruct Hw as (_ & _ & _ & (E & _) & _); cbn in E; congruence).
      apply (IH l2). pose proof (watch_clean _ _ _ Hw) as Hc. destruct Hw as (A1 & (own & A2) & A3 & A4 & A5). split_and!.
      + exact A1.
      + eexists. eapply backed_receive; eassumption.
      + by apply nfree_loc.
      + cbn. apply (base_loc w l xs l2 A4). eapply (became_wait S Hty T K P HP f); [apply A4|exact Es].
      + destruct (select_keeps S k T f Hf _ _ _ Es Hc A5) as [(d & why & _ & [=])|[H1 _]]. exact H1.
    - apply loop_receive in H1 as (l1 & l2 & El & Es & ->).
      assert (l1 = l) as -> by (destruct Hw as (_ & _ & _ & (E & _) & _); cbn in E; congruence).
      exists w, ts, l, [], l2. rewrite app_nil_r. done.
    - apply loop_receive in H1 as (l1 & l2 & El & Es & ->).
      assert (l1 = l) as -> by (destruct Hw as (_ & _ & _ & (E & _) & _); cbn in E; congruence).
      exists w, ts, l, [], l2. rewrite app_nil_r. done.
  Qed.
  (** Nothing was found: still watching. *)
  Lemma watch_expired w ts l xs l2 : watch (Sys w ts) l xs -> select S T f false l = (Waiting, l2) -> watch (Sys (up_loc (<[me := l2]>) w) ts) l2 xs.
  Proof.
    intros Hw Es. pose proof (watch_clean _ _ _ Hw) as Hc. destruct Hw as (A1 & (own & A2) & A3 & A4 & A5).
    assert (w_loc w !! me = Some l) as El by apply A4. split_and!.
    - exact A1.
    - eexists. apply (backed_receive S me T f w); [|exact A2]. unfold try_receive. cbn [run atom]. unfold receive_op. rewrite El, Es. reflexivity.
    - by apply nfree_loc.
    - cbn. apply (base_loc w l xs l2 A4). eapply (became_wait S Hty T K P HP f); [apply A4|exact Es].
    - destruct (select_keeps S k T f Hf _ _ _ Es Hc A5) as [(d & why & _ & [=])|[H1 _]]. exact H1.
  Qed.
  (** The monitor fired. *)
  Lemma watch_fired w ts l xs m l2 : watch (Sys w ts) l xs -> select S T f false l = (Found (MSystem m), l2) -> about k (PSys m) ->
    dead k (Sys (up_loc (<[me := l2]>) w) ts).
  Proof.
    intros Hw Es Hm. destruct Hw as (A1 & (own & A2) & A3 & A4 & A5). assert (w_loc w !! me = Some l) as El by apply A4. by eapply spent_found.
  Qed.
  Lemma watch_notice w ts l xs d r why l2 : watch (Sys w ts) l xs -> select S T f false l = (Found (MSystem (SProcessDown d r why)), l2) -> r = r0 ->
    IProcessDown d r0 why ∈ l_items l ++ l_chan l.
  Proof.
    intros Hw Es ->. pose proof (watch_clean _ _ _ Hw) as Hc. destruct Hw as (A1 & (own & A2) & A3 & A4 & A5).
    destruct (select_keeps S k T f Hf _ _ _ Es Hc A5) as [(d' & why' & H1 & [= <- <-])|[_ H1]]; [done|]. by destruct (H1 d why).
  Qed.
  (** Something else was found: still watching. *)
  Lemma watch_found w ts l xs m l2 : watch (Sys w ts) l xs -> select S T f false l = (Found m, l2) ->
    (forall d why, m <> MSystem (SProcessDown d r0 why)) ->
    quiet me (Sys w ts) /\ (exists own, backed S (Sys (up_loc (<[me := l2]>) w) ts) own) /\ is_Some (l_monitors l2 !! r0).
  Proof.
    intros Hw Es Hm. pose proof (watch_clean _ _ _ Hw) as Hc. destruct Hw as (A1 & (own & A2) & A3 & A4 & A5).
    assert (w_loc w !! me = Some l) as El by apply A4. split_and!; [done| |].
    - eexists. apply (backed_receive S me T f w); [|exact A2]. unfold try_receive. cbn [run atom]. unfold receive_op. rewrite El, Es. reflexivity.
    - destruct (select_keeps S k T f Hf _ _ _ Es Hc A5) as [(d & why & _ & [= H])|[H1 _]]; [by destruct (Hm d why)|exact H1].
  Qed.
End call.

(** ** The monitor call that starts it, and the demonitor call that ends it *)
Section ends.
  Context (S : serde) (Hty : serde_typed S) (me : N).
  Notation others := (rtc (other S me)).
  Notation still := (touch me (fun _ => False)).

  Ltac stil := apply touch_same; cbn; try reflexivity; lia.
  Lemma still_alias_destroy {A} r (q : bool -> prog world A) : (forall b, guar still (q b)) -> guar still (bind (alias_destroy r) q).
  Proof. intros Hq. apply guar_bind; [|done]. apply guar_atom. intros w. stil. Qed.
  Lemma still_self_down d r why : guar still (self_down me d r why).
  Proof.
    unfold self_down. apply guar_bind; [apply guar_modify; intros; apply touch_push|]. intros _. apply still_alias_destroy. intros _. exact I.
  Qed.
  Lemma still_local i r d : guar still (monitor_local me i r d).
  Proof.
    unfold monitor_local. apply guar_bind; [apply guar_observe; intros; apply touch_refl|]. intros [|]; [|apply still_self_down].
    apply guar_modify. intros w. stil.
  Qed.
  Lemma still_remote name addr r d id nm : guar still (monitor_remote me name addr r d id nm).
  Proof.
    unfold monitor_remote. apply guar_bind; [apply guar_modify; intros; stil|]. intros _. apply guar_bind.
    - eapply guar_mono; [|apply (l_node_register S)]. intros w w' (a & Ha & ->). apply act_touch. destruct a; cbn in *; tauto.
    - intros n. apply guar_modify. intros w. apply (act_touch S me (ASendFrame (FMonitor true id nm (Some me) (ref_id r)) n)). cbn; tauto.
  Qed.
  Lemma busy_panic s m v s' : ~ busy S me s (Panic m) v s'.
  Proof. intros H. remember (Panic m) as pp eqn:Ep. induction H; try discriminate; auto. Qed.
  Lemma install_own s d r (q1 : unit -> prog world reference) (q2 : reference -> prog world val) v s' :
    busy S me s (bind (bind (monitor_install me d r) q1) q2) v s' -> (forall u, guar still (q1 u)) -> (forall u, guar still (q2 u)) ->
    exists s1 m rest, others s s1 /\ guar still rest /\
      busy S me (Sys (up_loc (alter (upd_monitors (<[r := m]>)) me) (s_world s1)) (s_threads s1)) rest v s'.
  Proof.
    intros H Hq1 Hq2. unfold monitor_install in H. destruct d as [p|n [|name addr]|rf].
    - destruct (decide (p = PLocal me)); [by apply busy_panic in H|].
      cbn [bind own_monitor own modify] in H. apply busy_atom in H as (s1 & H1 & _ & H2).
      exists s1, (MForProcess (Some p)), (bind (bind (if pid_is_local p then monitor_local me (pid_id p) r (DPid p) else
          let! n := observe (lookup_remote (pid_node p)) in
          match n with
          | Some (name, addr) => monitor_remote me name addr r (DPid p) (Some (pid_id p)) None
          | None => self_down me (DPid p) r "noconnection"
          end) q1) q2). split; [exact H1|].
      split; [|exact H2]. apply guar_bind; [apply guar_bind; [|exact Hq1]|exact Hq2]. destruct (pid_is_local p); [apply still_local|].
      apply guar_bind; [apply guar_observe; intros; apply touch_refl|]. intros [[name addr]|]; [apply still_remote|apply still_self_down].
    - cbn [bind name_lookup observe] in H. apply busy_atom in H as (s1 & H1 & _ & H2).
      destruct (w_names (s_world s1) !! n) as [i|] eqn:En; cbn [bind own_monitor own modify] in H2.
      + apply busy_atom in H2 as (s2 & H3 & _ & H4). exists s2, (MForProcess (Some (PLocal i))), (bind (bind (monitor_local me i r (DNamed n NLocal)) q1) q2).
        split; [etransitivity; [exact H1|]; destruct s1; exact H3|].
        split; [|exact H4]. apply guar_bind; [apply guar_bind; [|exact Hq1]|exact Hq2]. apply still_local.
      + apply busy_atom in H2 as (s2 & H3 & _ & H4). exists s2, (MForProcess None), (bind (bind (self_down me (DNamed n NLocal) r "noproc") q1) q2).
        split; [etransitivity; [exact H1|]; destruct s1; exact H3|].
        split; [|exact H4]. apply guar_bind; [apply guar_bind; [|exact Hq1]|exact Hq2]. apply still_self_down.
    - cbn [bind own_monitor own modify] in H. apply busy_atom in H as (s1 & H1 & _ & H2).
      exists s1, (MForProcess None), (bind (bind (monitor_remote me name addr r (DNamed n (NRemote name addr)) None (Some n)) q1) q2). split; [exact H1|].
      split; [|exact H2]. apply guar_bind; [apply guar_bind; [|exact Hq1]|exact Hq2]. apply still_remote.
    - by apply busy_panic in H.
  Qed.

  (** What a program returns. *)
  Fixpoint leaf {A} (Q : A -> Prop) (p : prog world A) : Prop :=
    match p with Ret a => Q a | Panic _ => True | Atom g f kk => forall w, leaf Q (kk w) end.
  Lemma leaf_bind {A B} (Q : B -> Prop) (p : prog world A) (q : A -> prog world B) : (forall a, leaf Q (q a)) -> leaf Q (bind p q).
  Proof. intros H. induction p as [a|m|g f kk IH]; cbn; auto. Qed.
  Lemma leaf_bind2 {A B} (Q1 : A -> Prop) (Q : B -> Prop) (p : prog world A) (q : A -> prog world B) :
    leaf Q1 p -> (forall a, Q1 a -> leaf Q (q a)) -> leaf Q (bind p q).
  Proof. intros H1 H. induction p as [a|m|g f kk IH]; cbn in *; auto. Qed.
  Lemma busy_leaf Q s p v s' : busy S me s p v s' -> leaf Q p -> Q v.
  Proof. induction 1; cbn; auto. Qed.

  Lemma busy_quiet s p v s' : busy S me s p v s' -> quiet me s -> quiet me s'.
  Proof.
    induction 1 as [s v|s s1 p v s2 H1 H IH|w ts g f kk v s2 Hg H IH]; intros Hq; [done| |].
    - apply IH. by destruct (other_still _ _ _ _ H1 Hq).
    - by apply IH.
  Qed.
  Lemma monitored T c d v s s0 s1 own l0 : c = CMonitor me d \/ c = CMonitorAlias me d true ->
    quiet me s -> backed S s own -> w_loc (s_world s) !! me = Some l0 -> others s s0 -> busy S me s0 (call_prog S c) v s1 ->
    exists k m l1 xs, v = VRef (RLocal k) /\ (w_next_ref (s_world s) <= k)%N /\
      watch S me T k (fun _ => True) (s_world s) (upd_monitors (<[RLocal k := m]>) l0) s1 l1 xs.
  Proof.
    intros Hc Hq Hb El Ho Hbusy.
    assert ((me < w_next_pid (s_world s))%N) as Hpid by (eapply (occurs_allocated S); [by eapply backed_occurs|eauto]).
    assert (exists own', backed S s1 own') as Hb1.
    { eexists. eapply busy_backed; [exact Hbusy|]. apply backed_begin. by eapply others_backed. }
    destruct (others_still _ _ _ _ Ho Hq) as [_ Hq0]. pose proof (busy_quiet _ _ _ _ Hbusy Hq0) as Hq1.
    assert (exists sA (q : prog world val), others s sA /\ leaf (fun v => v = VRef (RLocal (w_next_ref (s_world sA)))) q /\
       guar (lstep S (tame (w_next_ref (s_world sA)))) q /\
       busy S me (Sys (up_next_ref N.succ (s_world sA)) (s_threads sA)) q v s1 /\
       exists s2 s3 m rest, others (Sys (up_next_ref N.succ (s_world sA)) (s_threads sA)) s2 /\ still (s_world s2) (s_world s3) /\ s_threads s3 = s_threads s2 /\
         exists s4, others s3 s4 /\ guar still rest /\
         busy S me (Sys (up_loc (alter (upd_monitors (<[RLocal (w_next_ref (s_world sA)) := m]>)) me) (s_world s4)) (s_threads s4)) rest v s1) as Hx.
    { set (body := fun r : reference => bind (bind (monitor_install me d r) (fun _ => Ret r)) (fun x => Ret (VRef x))).
      assert (forall r, leaf (fun v => v = VRef r) (body r)) as Hl.
      { intros r. apply (leaf_bind2 (fun x => x = r)); [|by intros ? ->]. apply leaf_bind. done. }
      assert (forall r k, guar (lstep S (tame k)) (body r)) as Ht.
      { intros r k. apply guar_bind; [apply guar_bind|]; [|done..]. eapply guar_mono; [apply lstep_mono|apply l_monitor_install]. 
        intros a Ha. by apply (fp_tame S k (CMonitor me d)). }
      destruct Hc as [-> | ->].
      - cbn [call_prog monitor ret_as bind fresh_ref atom] in Hbusy. apply busy_atom in Hbusy as (sA & H1 & _ & H2). cbn [fst snd] in H2.
        exists sA, (body (RLocal (w_next_ref (s_world sA)))). split; [etransitivity; eassumption|]. split; [apply Hl|]. split; [apply Ht|]. split; [exact H2|].
        destruct (install_own _ _ _ _ _ _ _ H2) as (s4 & m & rest & A & B & C); [done|done|].
        eexists _, _, m, rest. split; [apply rtc_refl|]. split; [apply touch_refl|]. split; [reflexivity|]. exists s4. done.
      - cbn [call_prog monitor_alias ret_as bind fresh_ref atom modify] in Hbusy. apply busy_atom in Hbusy as (sA & H1 & _ & H2). cbn [fst snd] in H2.
        set (r := RLocal (w_next_ref (s_world sA))) in *.
        exists sA, (bind (modify (alias_create_op me r true)) (fun _ => body r)). split; [etransitivity; eassumption|]. split; [apply leaf_bind; intros; apply Hl|].
        split; [apply guar_bind; [|intros; apply Ht]|].
        { apply guar_modify. intros w. by exists (AAliasCreate me r true). }
        split; [exact H2|]. apply busy_atom in H2 as (s2 & H3 & _ & H4).
        destruct (install_own _ _ _ _ _ _ _ H4) as (s4 & m & rest & A & B & C); [done|done|].
        exists s2. eexists _, m, rest. split; [exact H3|]. split; [|split; [|exists s4; done]].
        + apply touch_same; cbn; try reflexivity; lia.
        + reflexivity. }
    destruct Hx as (sA & q & H1 & Hl & Ht & H2 & s2 & s3 & m & rest & H3 & H4 & H5 & s4 & H6 & H7 & H8).
    set (k := w_next_ref (s_world sA)) in *. exists k.
    destruct (others_still _ _ _ _ H1 Hq) as [A1 A2].
    set (sA' := Sys (up_next_ref N.succ (s_world sA)) (s_threads sA)) in *.
    assert (still (s_world sA) (s_world sA')) as TA by (apply touch_same; cbn; try reflexivity; lia).
    destruct (others_still _ _ _ _ H3 A2) as [T2 Q2].
    assert (quiet me s3) as Q3 by (unfold quiet; rewrite H5; exact Q2).
    destruct (others_still _ _ _ _ H6 Q3) as [T4 Q4].
    assert (still (s_world s) (s_world s4)) as T5.
    { eapply touch_trans; [exact A1|]. eapply touch_trans; [exact TA|]. eapply touch_trans; [exact T2|]. eapply touch_trans; [exact H4|exact T4]. }
    set (s5 := Sys (up_loc (alter (upd_monitors (<[RLocal k := m]>)) me) (s_world s4)) (s_threads s4)) in *.
    assert (touch me (fun r => r = RLocal k) (s_world s4) (s_world s5)) as T6.
    { intros Hm. cbn. split; [done|]. split; [lia|]. exists []. rewrite app_nil_r. split; [done|]. intros l1 E1. rewrite lookup_alter, E1. eexists. split; [reflexivity|].
      cbn. rewrite app_nil_r. split_and!; try done. intros r Hr. by rewrite lookup_insert_ne. }
    destruct (busy_touch _ _ _ _ _ _ _ H8 H7 Q4) as [T7 _].
    assert (touch me (fun r => r = RLocal k) (s_world s) (s_world s1)) as T8.
    { eapply touch_trans; [eapply touch_mono; [|exact T5]; tauto|]. eapply touch_trans; [exact T6|]. eapply touch_mono; [|exact T7]; tauto. }
    destruct (T8 Hpid) as (P1 & P2 & g & P3 & P4). destruct (P4 l0 El) as (l7 & E7 & I7 & C7 & M7).
    assert (l_monitors l7 = <[RLocal k := m]> (l_monitors l0)) as M8.
    { destruct (T5 Hpid) as (R1 & _ & g4 & _ & R4). destruct (R4 l0 El) as (l4 & E4 & _).
      assert (exists l5, w_loc (s_world s5) !! me = Some l5 /\ l_monitors l5 !! RLocal k = Some m) as (l5 & E5 & M5).
      { eexists. cbn. rewrite lookup_alter, E4. split; [reflexivity|]. cbn. by rewrite lookup_insert. }
      destruct (T6 R1) as (R5 & _). destruct (T7 R5) as (_ & _ & g7 & _ & R7). destruct (R7 l5 E5) as (l7' & E7' & _ & _ & M7').
      assert (l7' = l7) as -> by congruence. apply map_eq. intros r. destruct (decide (r = RLocal k)) as [->|Hr].
      - rewrite M7', lookup_insert by tauto. done.
      - by rewrite M7, lookup_insert_ne by done. }
    exists m, l7, (arrivals me g). split; [exact (busy_leaf _ _ _ _ _ H2 Hl)|]. split.
    { destruct (A1 Hpid) as (_ & H & _). exact H. }
    assert (base S me T (fun _ => True) (s_world s) (upd_monitors (<[RLocal k := m]>) l0) (s_world s1) l7 (arrivals me g)) as B7.
    { split_and!; [done|done|done| |by exists g]. intros ys.
      assert (mailbox (arrive (arrivals me g ++ ys) (upd_monitors (<[RLocal k := m]>) l0)) = mailbox (arrive ys l7)) as ->; [|apply same_refl].
      unfold mailbox. cbn. rewrite <- M8, I7, C7. by rewrite <- app_assoc. }
    split_and!; [exact Hq1|exact Hb1| |exact B7|rewrite M8, lookup_insert; by eexists].
    eapply busy_nfree; [exact H2|by apply (tk_end S k)|].
    destruct (fresh_node S k sA own) as [F1 F2]; [by eapply others_backed|unfold k; lia|]. split; [|exact F1].
    apply F2; cbn; try reflexivity. unfold k. lia.
  Qed.

  Lemma calm_destroy k p r : guar (fun w w' => still w w' /\ rcv_cnt k w' <= rcv_cnt k w) (do! monitor_destroy p r in do! alias_destroy r in Ret tt).
  Proof.
    assert (forall w w', (w_next_pid w <= w_next_pid w')%N -> (w_next_ref w <= w_next_ref w')%N -> w_log w' = w_log w -> w_loc w' = w_loc w ->
      still w w' /\ rcv_cnt k w' <= rcv_cnt k w) as Hs.
    { intros w w' H1 H2 H3 H4. split; [apply touch_same; try done; by rewrite H4|by apply rcv_same]. }
    apply guar_bind; [|intros _; apply guar_bind; [|intros; exact I]].
    - unfold monitor_destroy. destruct (pid_is_local p).
      + apply guar_modify. intros w. apply Hs; cbn; try reflexivity; lia.
      + apply guar_bind; [apply guar_modify; intros w; apply Hs; unfold send_frame, hand_out; repeat case_match; cbn; try reflexivity; lia|].
        intros _. apply guar_bind; [apply guar_observe; intros w; apply Hs; cbn; try reflexivity; lia|]. intros [[? ?]|]; [|exact I].
        apply guar_modify. intros w. apply Hs; cbn; try reflexivity; lia.
    - apply guar_atom. intros w. apply Hs; cbn; try reflexivity; lia.
  Qed.
  Lemma quiet_tok k (q : prog world val) : guar (fun w w' => rcv_cnt k w' <= rcv_cnt k w) q -> leaf (fun v => received_down k v = 0) q ->
    tok (fun _ => True) (rcv_cnt k) (fun v h => received_down k v <= h) 0 q.
  Proof.
    induction q as [a|m|g f kk IH]; cbn; [lia|done|]. intros H Hl w _ Hg. destruct (H w Hg) as [A B]. split; [done|]. exists 0. split; [lia|]. by apply IH.
  Qed.
  Lemma demonitored T k s s0 s1 v own l : quiet me s -> backed S s own -> w_loc (s_world s) !! me = Some l -> is_Some (l_monitors l !! RLocal k) ->
    others s s0 -> busy S me s0 (call_prog S (CDemonitor me (RLocal k))) v s1 ->
    quiet me s1 /\ dead k s1 /\ (exists own', backed S s1 own') /\ exists l' zs, base S me T (fun p => ~ about k p) (s_world s) l (s_world s1) l' zs.
  Proof.
    intros Hq Hb El Hm Ho Hbusy.
    assert ((me < w_next_pid (s_world s))%N) as Hpid by (eapply (occurs_allocated S); [by eapply backed_occurs|eauto]).
    assert (exists own', backed S s1 own') as Hb1.
    { eexists. eapply busy_backed; [exact Hbusy|]. apply backed_begin. by eapply others_backed. }
    destruct (others_still _ _ _ _ Ho Hq) as [_ Hq0]. pose proof (busy_quiet _ _ _ _ Hbusy Hq0) as Hq1.
    split; [exact Hq1|].
    cbn [call_prog demonitor ret_as bind take_monitor atom] in Hbusy. apply busy_atom in Hbusy as (s2 & H1 & _ & H2). cbn [fst snd] in H2.
    assert (others s s2) as Ho2 by (etransitivity; eassumption). clear Ho H1.
    destruct (others_still _ _ _ _ Ho2 Hq) as [A1 A2]. pose proof (pick_about S Hty T k) as HP.
    destruct (base_still S me T _ _ HP _ l _ l [] _ A1 (base_start S me T _ _ l El Hpid)) as (l2 & x2 & B2 & M2).
    assert (w_loc (s_world s2) !! me = Some l2) as E2 by apply B2.
    assert (dead k (Sys (up_loc (alter (upd_monitors (delete (RLocal k))) me) (s_world s2)) (s_threads s2))) as D3.
    { eapply (spent_removed S Hty me k _ _ own l2); [|done|by rewrite M2]. destruct s2. by eapply others_backed. }
    set (s3 := Sys (up_loc (alter (upd_monitors (delete (RLocal k))) me) (s_world s2)) (s_threads s2)) in *.
    assert (touch me (fun r => r = RLocal k) (s_world s2) (s_world s3)) as T3.
    { intros Hm'. cbn. split; [done|]. split; [lia|]. exists []. rewrite app_nil_r. split; [done|]. intros l1 E1. rewrite lookup_alter, E1. eexists. split; [reflexivity|].
      cbn. rewrite app_nil_r. split_and!; try done. intros r Hr. by rewrite lookup_delete_ne. }
    destruct (base_touch S me T _ _ HP _ l _ _ _ _ T3 B2) as (l3 & x3 & B3 & _).
    match type of H2 with busy _ _ _ ?q _ _ => assert (guar (fun w w' => still w w' /\ rcv_cnt k w' <= rcv_cnt k w) q) as Hg end.
    { apply guar_bind; [|intros; exact I]. destruct (match w_loc (s_world s2) !! me with Some l => l_monitors l !! RLocal k | None => None end) as [[[p|]|nd]|];
        try exact I. apply calm_destroy. }
    destruct (dead_busy S me k _ _ _ _ H2) as [D4 _]; [|exact D3|].
    { match type of H2 with busy _ _ _ ?q _ _ => apply (quiet_tok k q); [|apply leaf_bind; reflexivity] end. eapply guar_mono; [|exact Hg]. by intros ? ? [_ ?]. }
    split; [exact D4|]. split; [exact Hb1|].
    destruct (busy_touch S me (fun _ => False) _ _ _ _ H2) as [T5 _]; [eapply guar_mono; [|exact Hg]; by intros ? ? [? _]|exact A2|].
    destruct (base_still S me T _ _ HP _ l _ _ _ _ T5 B3) as (l5 & x5 & B5 & _). eauto.
  Qed.
End ends.
