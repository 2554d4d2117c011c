(** GenServer::call and GenServer::stop. *)
From stdpp Require Import base list gmap numbers strings countable sorting relations.
From Coq Require Import Lia.
From Verif Require Import Prog ProgProofs ProgInv Types Mailbox MailboxSpec MailboxProofs World ProcApi NodeApi Api Steps Hist Labels Msum SchedSpec SchedProofs
  DownProofs RecvProofs ProcSpec ProcInv FreshProofs ProcProps TimerProofs GenServer Client ClientSpec ClientStep ClientRun ClientNode ClientFlush ClientMail ClientCall ClientTalk.

Section gen.
  Context {M : Type} (S : serde) (Hty : serde_typed S) (G : gtype M) (me : N).
  Notation T := (gt_id G).
  Notation na k := (fun p => ~ about k p).
  Notation same := (kept_mailbox S T).

  Lemma unwanted_call k p : wanted S T (answer_to G (RLocal k)) p = false -> ~ of_call S G k p.
  Proof.
    unfold wanted, of_call, is_reply, answer_to. intros H [Hd|Hr].
    - destruct p as [b|v|m]; cbn in Hd; try done. destruct m; try done. cbn in *. subst. by rewrite bool_decide_eq_true_2 in H.
    - destruct (read S T p) as [[v|m]|]; cbn in *; try done. destruct (gt_view G v); try done. subst. by rewrite bool_decide_eq_true_2 in H.
  Qed.
  Lemma unwanted_reply k p : wanted S T (reply_to G (RLocal k)) p = false <-> ~ is_reply S G (RLocal k) p.
  Proof.
    unfold wanted, is_reply, reply_to. destruct (read S T p) as [[v|m]|]; cbn; try tauto.
    destruct (gt_view G v); try tauto. apply bool_decide_eq_false.
  Qed.
  Lemma kept_na k p q : kept S T p q -> ~ about k p <-> ~ about k q.
  Proof. intros H. by rewrite (kept_about S T k p q H). Qed.
  Lemma same_na k a b : same a b -> same (filter (na k) a) (filter (na k) b).
  Proof. apply (same_filter S T _ _ (pick_any S T _ (kept_na k))). Qed.

  Lemma call_correct d m limit s l tr s' res : idle S me s -> w_loc (s_world s) !! me = Some l ->
    cruns S me (s, At (gs_call G me d m limit)) tr (s', At (SRet res)) ->
    exists k xs l', (w_next_ref (s_world s) <= k)%N /\ arrived me xs (s_world s) (s_world s') /\ w_loc (s_world s') !! me = Some l' /\
      l_monitors l' !! RLocal k = None /\
      call_deeds G me k d m res tr /\
      call_outcome S G k (default 5000%N limit) (w_now (s_world s)) (w_now (s_world s')) l xs l' res /\ dead k s'.
  Proof.
    intros Hi El Hr. unfold gs_call in Hr.
    assert (forall k d' why, answer_to G (RLocal k) (MSystem (SProcessDown d' (RLocal k) why)) = true) as Hdown.
    { intros k d' why. unfold answer_to. cbn. by apply bool_decide_eq_true_2. }
    destruct (conversation S Hty me T (call_monitor me d) d (DsOne d) (fun r => gt_val G (GCall (From (PLocal me) r (negb (dest_is_local d))) m)) (answer_to G) _ _ _ l _ _ _
       ltac:(unfold call_monitor; destruct (dest_is_local d); auto) Hdown Hi El Hr)
      as (k & pm & sent & xs & w & ts & l1 & l2 & x & tr' & Hk & HW & Ht & -> & Hr' & Hx). clear Hr. rename Hr' into Hr.
    exists k. destruct (watch_loc S me _ _ _ _ _ _ _ _ HW) as [E1 Hpid]. cbn in E1, Hpid.
    assert (arrived me xs (s_world s) w) as Ha by (destruct HW as (_ & _ & _ & Hb & _); exact (base_arrived S me _ _ _ _ _ _ _ Hb)).
    set (s2 := Sys (up_loc (<[me := l2]>) w) ts) in *.
    assert (w_loc (s_world s2) !! me = Some l2) as E2 by (cbn; apply lookup_insert).
    assert ((me < w_next_pid (s_world s2))%N) as P2 by exact Hpid.
    destruct x as [msg|].
    - pose proof (found_wanted S Hty _ _ _ _ _ Hx) as Hf. destruct (found_seen S Hty me _ _ _ _ _ _ _ _ _ _ _ HW Hx) as (pre & Hpre & Hpost).
      assert (Forall (fun q => ~ of_call S G k q) pre) as Hpre' by (eapply Forall_impl; [exact Hpre|]; apply unwanted_call).
      destruct msg as [v|sm]; cbn [gview] in *.
      + unfold answer_to in Hf. cbn in Hf. destruct (gt_view G v) as [?|? ?|tag x|?] eqn:Ev; try discriminate.
        apply bool_decide_eq_true in Hf as ->.
        destruct (watch_found S me T k _ _ _ (answer_to G (RLocal k)) (Hdown k) _ _ _ _ _ _ HW Hx) as (A1 & A2 & A3); [done|].
        destruct (end_demonitor S Hty me T k s2 l2 _ _ _ _ A1 A2 E2 A3 Ht Hr) as (u & s3 & l3 & ys & tr2 & B1 & B2 & B3 & B4 & B5 & B6 & -> & Hr2).
        destruct (end_return S me T _ (kept_na k) _ _ _ _ _ _ _ _ _ B1 B6 Hr2) as (l4 & zs & -> & -> & O4 & B7).
        pose proof (dead_others S me k _ _ O4 B2) as D4. destruct B7 as (E4 & _ & _ & C4 & L4).
        destruct (dead_final me k _ _ D4 E4) as [F1 F2].
        exists (xs ++ ys ++ zs), l4. split; [exact Hk|]. split; [eapply arrived_trans; [exact Ha|exact L4]|]. split; [exact E4|]. split; [exact F2|].
        split; [|split; [|exact D4]].
        * exists [Got (MUser v); Did (CDemonitor me (RLocal k)) u], sent. split; [done|]. exists v, u. done.
        * cbn. destruct (Hpost (ys ++ zs)) as (p & post & G1 & G2 & G3). exists pre, p, post, v. split_and!; try done.
          specialize (C4 []). rewrite arrive0, app_nil_r, F1 in C4. eapply same_trans; [apply same_na; exact G3|exact C4].
      + unfold answer_to in Hf. cbn in Hf. destruct sm as [? ?|d0 tag why|? ?]; try discriminate. apply bool_decide_eq_true in Hf as ->.
        pose proof (watch_fired S Hty me T k _ _ _ _ _ _ _ _ _ _ HW Hx eq_refl) as D2. change (dead k s2) in D2.
        assert (quiet me s2) as Q2 by (destruct HW as (H & _); exact H).
        destruct (end_return S me T _ (fun _ _ _ => iff_refl True) _ _ _ _ _ _ _ _ _ Q2 (base_start S me T _ _ l2 E2 P2) Hr) as (l4 & zs & -> & -> & O4 & B7).
        pose proof (dead_others S me k _ _ O4 D2) as D4. destruct B7 as (E4 & _ & _ & C4 & L4). destruct (dead_final me k _ _ D4 E4) as [F1 F2].
        exists (xs ++ zs), l4. split; [exact Hk|]. split; [eapply arrived_trans; [exact Ha|exact L4]|]. split; [exact E4|]. split; [exact F2|].
        split; [|split; [|exact D4]].
        * eexists _, sent. split; [done|]. cbn. eauto.
        * cbn. destruct (Hpost zs) as (p & post & G1 & G2 & G3). apply read_sys in G1 as ->. exists pre, d0, post. split_and!; try done.
          specialize (C4 []). rewrite arrive0, app_nil_r, !filter_all in C4. eapply same_trans; [exact G3|exact C4].
    - destruct Hx as [Hx Hnow]. pose proof (waiting_seen S Hty me _ _ _ _ _ _ _ _ _ _ HW Hx) as Hun.
      pose proof (watch_expired S Hty me T k _ _ (pick_all S Hty T) _ _ (answer_to G (RLocal k)) (Hdown k) _ _ _ _ _ HW Hx) as HW2.
      change (Sys (up_loc (<[me := l2]>) w) ts) with s2 in HW2.
      destruct HW2 as (A1 & A2 & _ & A4 & A3).
      destruct (end_demonitor S Hty me T k s2 l2 _ _ _ _ A1 A2 E2 A3 Ht Hr) as (u & s3 & l3 & ys & tr2 & B1 & B2 & B3 & B4 & B5 & B6 & -> & Hr2).
      apply cruns_flush in Hr2 as (s4 & l4 & l5 & tr3 & O4 & E4 & Hrm & -> & Hr3).
      destruct (others_still _ _ _ _ O4 B1) as [S4 Q4]. destruct (others_later S me _ _ O4 B4) as [N4 T4].
      destruct (base_still S me T _ _ (pick_any S T _ (kept_na k)) _ _ _ _ _ _ S4 B6) as (l4' & zs & B7 & _).
      remember (ys ++ zs) as ws eqn:Ews; clear Ews.
      assert (l4' = l4) as -> by (destruct B7 as (H & _); congruence).
      pose proof (dead_others S me k _ _ O4 B2) as D4. destruct (dead_final me k _ _ D4 E4) as [F1 F2].
      set (s5 := Sys (up_loc (<[me := l5]>) (s_world s4)) (s_threads s4)) in *.
      assert (dead k s5) as D5.
      { destruct s4 as [w4 ts4]. apply (dead_loc me k w4 ts4 l4); [exact E4|by eapply remove_count|exact D4]. }
      assert (w_loc (s_world s5) !! me = Some l5) as E5 by (cbn; apply lookup_insert).
      assert ((me < w_next_pid (s_world s5))%N) as P5 by (destruct B7 as (_ & H & _); exact H).
      assert (quiet me s5) as Q5 by exact Q4.
      pose proof (cruns_ret _ _ _ _ _ _ _ Hr3) as (O6 & _ & _).
      destruct (end_return S me T _ (fun _ _ _ => iff_refl True) _ _ _ _ _ _ _ _ _ Q5 (base_start S me T _ _ l5 E5 P5) Hr3) as (l6 & vs & -> & -> & _ & B8).
      cbn [app] in B8. destruct (others_later S me s5 s' O6 T4) as [N6 _].
      pose proof (dead_others S me k _ _ O6 D5) as D6. destruct B8 as (E6 & _ & _ & C6 & L6). destruct (dead_final me k _ _ D6 E6) as [F3 F4].
      destruct B7 as (_ & _ & _ & C4 & L4). destruct A4 as (_ & _ & _ & C2 & _).
      exists (xs ++ ws ++ vs), l6. split; [exact Hk|]. split.
      { eapply arrived_trans; [exact Ha|]. eapply arrived_trans; [exact L4|exact L6]. }
      split; [exact E6|]. split; [exact F4|]. split; [|split; [|exact D6]].
      + eexists _, sent. split; [done|]. cbn. eauto.
      + cbn. split.
        { cbn in N4, N6, B5. lia. }
        destruct (seen_app k l xs ws) as (late & H1). destruct (seen_app k l (xs ++ ws) vs) as (rest & H2).
        rewrite H1, <- !app_assoc in H2. exists xs, ws, vs, late, rest. split; [done|]. split; [eapply Forall_impl; [exact Hun|apply unwanted_call]|].
        split; [exact H1|]. split; [exact H2|].
        destruct (remove_spec S Hty T _ _ _ _ Hrm) as [_ Hsp]. destruct (Hsp vs) as (new & H3 & H4).
        (* the mailbox at the end *)
        specialize (C6 []). rewrite arrive0, app_nil_r, !filter_all in C6.
        assert (same (filter (na k) (filter (fun p => wanted S T (reply_to G (RLocal k)) p = false) (mailbox l4) ++ new)) (mailbox l6)) as H5.
        { rewrite <- F3. apply same_na. eapply same_trans; [exact H4|exact C6]. }
        (* what was there before *)
        assert (forall vs, same (filter (na k) (seen k l (xs ++ ws ++ vs))) (filter (na k) (mailbox (arrive vs l4)))) as H6.
        { intros qs. eapply same_trans; [ |apply C4]. apply same_na. pose proof (C2 (ws ++ qs)) as H6. by rewrite !filter_all, seen_mailbox in H6. }
        pose proof (H6 []) as H7. rewrite app_nil_r, H1, arrive0, F1 in H7. pose proof (H6 vs) as H8. rewrite H2, app_assoc, H3 in H8.
        rewrite list.filter_app, (list.filter_app (na k) (mailbox l4)), F1 in H8. unfold kept_mailbox in H7, H8.
        apply Forall2_app_inv in H8 as [_ H8]; [|by apply Forall2_length in H7].
        eapply same_trans; [|exact H5]. rewrite (list.filter_app (na k) (filter _ _) new). apply same_app; [|exact H8].
        assert (same (filter (fun q => ~ is_reply S G (RLocal k) q) (filter (na k) (seen k l xs ++ late))) (filter (fun q => ~ is_reply S G (RLocal k) q) (mailbox l4))) as H9.
        { refine (same_filter S T _ _ (pick_any S T _ _) _ _ H7). intros p q Hpq. rewrite <- !unwanted_reply. by rewrite (kept_wanted S Hty T _ _ _ Hpq). }
        assert (filter (na k) (filter (fun p => wanted S T (reply_to G (RLocal k)) p = false) (mailbox l4)) = filter (fun q => ~ is_reply S G (RLocal k) q) (mailbox l4)) as ->; [|exact H9].
        rewrite <- F1 at 2. rewrite !list_filter_filter. apply list_filter_iff. intros p. rewrite unwanted_reply. tauto.
  Qed.

  Lemma unwanted_down k p : wanted S T (down_for (RLocal k)) p = false -> ~ down_notice k p.
  Proof.
    unfold wanted. intros H Hd. destruct p as [b|v|m]; cbn in Hd; try done. destruct m; try done. cbn in *. subst. by rewrite bool_decide_eq_true_2 in H.
  Qed.
  Lemma stop_correct d why limit s l tr s' res : idle S me s -> w_loc (s_world s) !! me = Some l ->
    cruns S me (s, At (gs_stop G me d why limit)) tr (s', At (SRet res)) ->
    exists k xs l', (w_next_ref (s_world s) <= k)%N /\ arrived me xs (s_world s) (s_world s') /\ w_loc (s_world s') !! me = Some l' /\
      l_monitors l' !! RLocal k = None /\
      stop_deeds G me k d why tr /\
      stop_outcome S G k why limit (w_now (s_world s)) (w_now (s_world s')) l xs l' res /\ dead k s'.
  Proof.
    intros Hi El Hr. unfold gs_stop in Hr.
    assert (forall k d' why, down_for (RLocal k) (MSystem (SProcessDown d' (RLocal k) why)) = true) as Hdown.
    { intros k d' why'. cbn. by apply bool_decide_eq_true_2. }
    destruct (conversation S Hty me T (CMonitor me d) d (DsOne d) (fun r => gt_val G (GStop why)) down_for _ _ _ l _ _ _
       (or_introl eq_refl) Hdown Hi El Hr)
      as (k & pm & sent & xs & w & ts & l1 & l2 & x & tr' & Hk & HW & Ht & -> & Hr' & Hx). clear Hr. rename Hr' into Hr.
    exists k. destruct (watch_loc S me _ _ _ _ _ _ _ _ HW) as [E1 Hpid]. cbn in E1, Hpid.
    assert (arrived me xs (s_world s) w) as Ha by (destruct HW as (_ & _ & _ & Hb & _); exact (base_arrived S me _ _ _ _ _ _ _ Hb)).
    set (s2 := Sys (up_loc (<[me := l2]>) w) ts) in *.
    assert (w_loc (s_world s2) !! me = Some l2) as E2 by (cbn; apply lookup_insert).
    assert ((me < w_next_pid (s_world s2))%N) as P2 by exact Hpid.
    destruct x as [msg|].
    - pose proof (found_wanted S Hty _ _ _ _ _ Hx) as Hf. destruct (found_seen S Hty me _ _ _ _ _ _ _ _ _ _ _ HW Hx) as (pre & Hpre & Hpost).
      assert (Forall (fun q => ~ down_notice k q) pre) as Hpre' by (eapply Forall_impl; [exact Hpre|]; apply unwanted_down).
      destruct msg as [v|sm]; cbn in Hf; [discriminate|]. destruct sm as [? ?|d0 tag actual|? ?]; try discriminate. apply bool_decide_eq_true in Hf as ->.
      pose proof (watch_fired S Hty me T k _ _ _ _ _ _ _ _ _ _ HW Hx eq_refl) as D2. change (dead k s2) in D2.
      assert (quiet me s2) as Q2 by (destruct HW as (H & _); exact H).
      destruct (end_return S me T _ (fun _ _ _ => iff_refl True) _ _ _ _ _ _ _ _ _ Q2 (base_start S me T _ _ l2 E2 P2) Hr) as (l4 & zs & -> & -> & O4 & B7).
      pose proof (dead_others S me k _ _ O4 D2) as D4. destruct B7 as (E4 & _ & _ & C4 & L4). destruct (dead_final me k _ _ D4 E4) as [F1 F2].
      exists (xs ++ zs), l4. split; [exact Hk|]. split; [eapply arrived_trans; [exact Ha|exact L4]|]. split; [exact E4|]. split; [exact F2|].
      split; [|split; [|exact D4]].
      + eexists sent, _. split; [done|]. left. cbn. eauto.
      + left. destruct (Hpost zs) as (p & post & G1 & G2 & G3). apply read_sys in G1 as ->. exists pre, d0, actual, post. split_and!; try done.
        * specialize (C4 []). rewrite arrive0, app_nil_r, !filter_all in C4. eapply same_trans; [exact G3|exact C4].
        * intros ->. by rewrite decide_True.
        * intros Hne. by rewrite decide_False.
    - destruct Hx as [Hx Hnow]. pose proof (waiting_seen S Hty me _ _ _ _ _ _ _ _ _ _ HW Hx) as Hun.
      pose proof (watch_expired S Hty me T k _ _ (pick_all S Hty T) _ _ (down_for (RLocal k)) (Hdown k) _ _ _ _ _ HW Hx) as HW2.
      change (Sys (up_loc (<[me := l2]>) w) ts) with s2 in HW2.
      destruct HW2 as (A1 & A2 & _ & A4 & A3).
      destruct (end_demonitor S Hty me T k s2 l2 _ _ _ _ A1 A2 E2 A3 Ht Hr) as (u & s3 & l3 & ys & tr2 & B1 & B2 & B3 & B4 & B5 & B6 & -> & Hr2).
      pose proof (cruns_ret _ _ _ _ _ _ _ Hr2) as (O6 & _ & _). destruct (others_later S me s3 s' O6 B4) as [N6 _].
      destruct (end_return S me T _ (kept_na k) _ _ _ _ _ _ _ _ _ B1 B6 Hr2) as (l4 & zs & -> & -> & O4 & B7).
      pose proof (dead_others S me k _ _ O4 B2) as D4. destruct B7 as (E4 & _ & _ & C4 & L4). destruct (dead_final me k _ _ D4 E4) as [F1 F2].
      destruct A4 as (_ & _ & _ & C2 & _).
      exists (xs ++ ys ++ zs), l4. split; [exact Hk|]. split; [eapply arrived_trans; [exact Ha|exact L4]|]. split; [exact E4|]. split; [exact F2|].
      split; [|split; [|exact D4]].
      + eexists sent, _. split; [done|]. right. cbn. eauto.
      + right. destruct limit as [t|]; [|done]. exists t, xs, (ys ++ zs). split_and!; try done.
        * cbn in B5. lia.
        * eapply Forall_impl; [exact Hun|apply unwanted_down].
        * specialize (C4 []). rewrite arrive0, app_nil_r, F1 in C4. eapply same_trans; [|exact C4]. apply same_na.
          pose proof (C2 (ys ++ zs)) as H6. by rewrite !filter_all, seen_mailbox in H6.
  Qed.
End gen.

(** ** Shutdown *)
Section shutdown.
  Context (S : serde) (Hty : serde_typed S) (T me : N).
  Notation same := (kept_mailbox S T).
  Lemma exit_owns p why a : fp S (CExit me p why) a -> ~ own_act me a.
  Proof. destruct a; cbn [own_act]; try tauto; cbn; unfold fp_exit; try tauto; intros H; try contradiction; repeat case_match; tauto. Qed.
  Lemma unlink_owns p a : fp S (CUnlink me p) a -> ~ own_act me a.
  Proof. destruct a; cbn [own_act]; try tauto; cbn; unfold fp_unlink; try tauto; intros H; try contradiction; repeat case_match; tauto. Qed.
  Lemma unwanted_exit p q : wanted S T (exit_of p) q = false <-> ~ exit_from p q.
  Proof.
    unfold wanted. destruct q as [b|v|m]; cbn.
    - destruct (de S T b); cbn; tauto.
    - case_decide; tauto.
    - destruct m; cbn; try tauto. apply bool_decide_eq_false.
  Qed.
  Notation W k w0 m l := (watch S me T k (fun _ => True) w0 (upd_monitors (<[RLocal k := m]>) l)).
  (** From the moment the notice is found. *)
  Lemma flushing k w0 m l w ts l1 xs d why l2 p tr s' u : W k w0 m l (Sys w ts) l1 xs -> ticking (Sys w ts) ->
    select S T (down_for (RLocal k)) false l1 = (Found (MSystem (SProcessDown d (RLocal k) why)), l2) ->
    cruns S me (Sys (up_loc (<[me := l2]>) w) ts, At (unlink_flush T me p)) tr (s', At (SRet u)) ->
    exists zs l' v, arrived me (xs ++ zs) w0 (s_world s') /\ w_loc (s_world s') !! me = Some l' /\ l_monitors l' !! RLocal k = None /\
      tr = [Did (CUnlink me p) v; Flushed] /\ shutdown_outcome S T k p d why l (xs ++ zs) l' /\ dead k s' /\ (w_now w <= w_now (s_world s'))%N.
  Proof.
    intros HW Ht Hx Hr. destruct (watch_loc S me _ _ _ _ _ _ _ _ HW) as [E1 Hpid]. cbn in E1, Hpid.
    assert (arrived me xs w0 w) as Ha by (destruct HW as (_ & _ & _ & Hb & _); exact (base_arrived S me _ _ _ _ _ _ _ Hb)).
    destruct (found_seen S Hty me _ _ _ _ _ _ _ _ _ _ _ HW Hx) as (pre & Hpre & Hpost).
    pose proof (watch_fired S Hty me T k _ _ _ _ _ _ _ _ _ _ HW Hx eq_refl) as D2.
    assert (quiet me (Sys w ts)) as Q2 by (destruct HW as (H & _); exact H).
    set (s2 := Sys (up_loc (<[me := l2]>) w) ts) in *. change (quiet me s2) in Q2. change (ticking s2) in Ht.
    assert (w_loc (s_world s2) !! me = Some l2) as E2 by (cbn; apply lookup_insert).
    assert ((me < w_next_pid (s_world s2))%N) as P2 by exact Hpid.
    unfold unlink_flush in Hr. apply cruns_call in Hr as (s3 & v & s4 & tr1 & O3 & B4 & -> & Hr).
    destruct (others_still _ _ _ _ O3 Q2) as [S3 Q3]. destruct (others_later S me _ _ O3 Ht) as [N3 T3].
    destruct (busy_touch S me _ _ _ _ _ B4 (call_touch S me _ (unlink_owns p)) Q3) as [S4 Q4].
    destruct (busy_later S me _ _ _ _ B4 (call_later S _) T3) as [N4 T4].
    pose proof (dead_others S me k _ _ O3 D2) as D3. destruct (dead_busy S me k _ _ _ _ B4 (call_tok_rcv S k _) D3) as [D4 _].
    apply cruns_flush in Hr as (s5 & l5 & l6 & tr3 & O5 & E5 & Hrm & -> & Hr).
    destruct (others_still _ _ _ _ O5 Q4) as [S5 Q5]. destruct (others_later S me _ _ O5 T4) as [N5 T5]. pose proof (dead_others S me k _ _ O5 D4) as D5.
    destruct (base_all S Hty me T (s_world s2) l2 (s_world s5)) as (l5' & zs & B5); [|exact E2|exact P2|].
    { eapply touch_trans; [exact S3|]. eapply touch_trans; [exact S4|exact S5]. }
    assert (l5' = l5) as -> by (destruct B5 as (H & _); congruence).
    set (s6 := Sys (up_loc (<[me := l6]>) (s_world s5)) (s_threads s5)) in *.
    assert (dead k s6) as D6.
    { destruct s5 as [w5 ts5]. apply (dead_loc me k w5 ts5 l5); [exact E5|by eapply remove_count|exact D5]. }
    assert (w_loc (s_world s6) !! me = Some l6) as E6 by (cbn; apply lookup_insert).
    assert ((me < w_next_pid (s_world s6))%N) as P6 by (destruct B5 as (_ & H & _); exact H).
    assert (quiet me s6) as Q6 by exact Q5.
    pose proof (cruns_ret _ _ _ _ _ _ _ Hr) as (O7 & _ & _). destruct (others_later S me s6 s' O7 T5) as [N7 _].
    destruct (end_return S me T _ (fun _ _ _ => iff_refl True) _ _ _ _ _ _ _ _ _ Q6 (base_start S me T _ _ l6 E6 P6) Hr) as (l7 & vs & -> & -> & _ & B7).
    cbn [app] in B7. pose proof (dead_others S me k _ _ O7 D6) as D7. destruct B7 as (E7 & _ & _ & C7 & L7). destruct (dead_final me k _ _ D7 E7) as [F1 F2].
    destruct B5 as (_ & _ & _ & C5 & L5).
    exists (zs ++ vs), l7, v. split.
    { eapply arrived_trans; [exact Ha|]. eapply arrived_trans; [exact L5|exact L7]. }
    split; [exact E7|]. split; [exact F2|]. split; [done|]. split; [|split; [exact D7|cbn in N3, N7; lia]].
    destruct (seen_app k l (xs ++ zs) vs) as (rest & H2). rewrite <- app_assoc in H2.
    destruct (Hpost zs) as (p1 & post & G1 & G2 & G3). apply read_sys in G1 as ->.
    exists (xs ++ zs), vs, pre, post, rest. split; [by rewrite app_assoc|]. split; [exact G2|]. split; [eapply Forall_impl; [exact Hpre|]|].
    { intros q Hq. unfold wanted in Hq. intros Hd. destruct q as [b|v0|sm]; cbn in Hd; try done. destruct sm; try done. cbn in *. subst. by rewrite bool_decide_eq_true_2 in Hq. }
    split; [exact H2|].
    destruct (remove_spec S Hty T _ _ _ _ Hrm) as [_ Hsp]. destruct (Hsp vs) as (new & H3 & H4).
    specialize (C7 []). rewrite arrive0, app_nil_r, !filter_all in C7.
    eapply same_trans; [|exact C7]. eapply same_trans; [|exact H4].
    destruct (Hpost (zs ++ vs)) as (p2 & post2 & K1 & K2 & K3). apply read_sys in K1 as ->.
    rewrite H2, G2, <- app_assoc in K2. apply app_inv_head in K2. cbn in K2. injection K2 as <-.
    pose proof (C5 []) as C5a. rewrite arrive0, app_nil_r, !filter_all in C5a. pose proof (C5 vs) as C5b. rewrite !filter_all in C5b.
    assert (same (pre ++ post) (mailbox l5)) as M1 by (eapply same_trans; [exact G3|exact C5a]).
    assert (same ((pre ++ post) ++ rest) (mailbox l5 ++ new)) as M2.
    { rewrite <- app_assoc, <- H3. eapply same_trans; [exact K3|exact C5b]. }
    unfold kept_mailbox in M1, M2. apply Forall2_app_inv in M2 as [_ M2]; [|by apply Forall2_length in M1].
    apply same_app; [|exact M2].
    assert (same (filter (fun q => ~ exit_from p q) (pre ++ post)) (filter (fun q => ~ exit_from p q) (mailbox l5))) as M3.
    { refine (same_filter S T _ _ (pick_any S T _ _) _ _ M1). intros q q' Hq. rewrite <- !unwanted_exit. by rewrite (kept_wanted S Hty T _ _ _ Hq). }
    assert (filter (fun q => wanted S T (exit_of p) q = false) (mailbox l5) = filter (fun q => ~ exit_from p q) (mailbox l5)) as ->; [|exact M3].
    apply list_filter_iff. intros q. apply unwanted_exit.
  Qed.
  Lemma down_down k d why : down_for (RLocal k) (MSystem (SProcessDown d (RLocal k) why)) = true.
  Proof. cbn. by apply bool_decide_eq_true_2. Qed.
  (** A wait without limit. *)
  Lemma patiently k w0 m l s l1 xs p tr s' u : W k w0 m l s l1 xs -> ticking s ->
    cruns S me (s, At (SWait T (down_for (RLocal k)) None (fun x => match x with Some m => then_flush T me p m | None => SUnreachable end))) tr (s', At (SRet u)) ->
    exists zs l' v d why, arrived me (xs ++ zs) w0 (s_world s') /\ w_loc (s_world s') !! me = Some l' /\ l_monitors l' !! RLocal k = None /\
      tr = [Got (MSystem (SProcessDown d (RLocal k) why)); Did (CUnlink me p) v; Flushed] /\ shutdown_outcome S T k p d why l (xs ++ zs) l' /\ dead k s' /\
      (w_now (s_world s) <= w_now (s_world s'))%N.
  Proof.
    intros HW Ht Hr. destruct (looks S Hty me T k _ _ _ _ _ _ _ _ _ _ _ (down_down k) HW Ht Hr) as (w & ts & l3 & z3 & l4 & x & tr3 & W3 & T3 & N3 & -> & Hr3 & Hx).
    destruct x as [msg|]; [|by destruct Hx]. pose proof (found_wanted S Hty _ _ _ _ _ Hx) as Hf. destruct msg as [v|sm]; cbn in Hf; [discriminate|].
    destruct sm as [? ?|d0 tag actual|? ?]; try discriminate. apply bool_decide_eq_true in Hf as ->.
    destruct (flushing _ _ _ _ _ _ _ _ _ _ _ _ _ _ _ W3 T3 Hx Hr3) as (zs & l' & v & A1 & A2 & A3 & -> & A4 & A5 & A6).
    exists (z3 ++ zs), l', v, d0, actual. rewrite app_assoc. split_and!; try done. cbn in *. lia.
  Qed.
  Lemma shutdown_correct p how s l tr s' u : idle S me s -> w_loc (s_world s) !! me = Some l ->
    cruns S me (s, At (shutdown_child T me p how)) tr (s', At (SRet u)) ->
    exists k d why xs l', (w_next_ref (s_world s) <= k)%N /\ arrived me xs (s_world s) (s_world s') /\ w_loc (s_world s') !! me = Some l' /\
      l_monitors l' !! RLocal k = None /\
      shutdown_deeds me k p how d why (w_now (s_world s)) (w_now (s_world s')) tr /\
      shutdown_outcome S T k p d why l xs l' /\ dead k s'.
  Proof.
    intros Hi El Hr. unfold shutdown_child in Hr.
    destruct (opens S Hty me T _ (DPid p) _ s l tr s' u (or_introl eq_refl) Hi El Hr) as (k & m & s1 & l1 & xs & tr1 & Hk & W1 & T1 & N1 & -> & Hr1).
    destruct how as [|limit|]; unfold shutdown_brutal_kill, shutdown_timeout, shutdown_infinity in Hr1.
    - destruct (tells S Hty me T k _ _ _ _ _ _ _ _ _ _ (exit_owns _ _) W1 T1 Hr1) as (v & s2 & l2 & z2 & tr2 & W2 & T2 & N2 & -> & Hr2).
      destruct (patiently _ _ _ _ _ _ _ _ _ _ _ W2 T2 Hr2) as (zs & l' & v' & d & why & A1 & A2 & A3 & -> & A4 & A5 & A6).
      eexists k, d, why, _, l'. split_and!; [exact Hk|exact A1|exact A2|exact A3| |exact A4|exact A5].
      exists [Did (CExit me p RKill) v], v'. split; [done|]. by exists v.
    - destruct (tells S Hty me T k _ _ _ _ _ _ _ _ _ _ (exit_owns _ _) W1 T1 Hr1) as (v & s2 & l2 & z2 & tr2 & W2 & T2 & N2 & -> & Hr2).
      destruct (looks S Hty me T k _ _ _ _ _ _ _ _ _ _ _ (down_down k) W2 T2 Hr2) as (w & ts & l3 & z3 & l4 & x & tr3 & W3 & T3 & N3 & -> & Hr3 & Hx).
      destruct x as [msg|].
      + pose proof (found_wanted S Hty _ _ _ _ _ Hx) as Hf. destruct msg as [v0|sm]; cbn in Hf; [discriminate|].
        destruct sm as [? ?|d0 tag actual|? ?]; try discriminate. apply bool_decide_eq_true in Hf as ->.
        destruct (flushing _ _ _ _ _ _ _ _ _ _ _ _ _ _ _ W3 T3 Hx Hr3) as (zs & l' & v' & A1 & A2 & A3 & -> & A4 & A5 & A6).
        eexists k, d0, actual, _, l'. split_and!; [exact Hk|exact A1|exact A2|exact A3| |exact A4|exact A5].
        exists [Did (CExit me p (RCustom "shutdown")) v], v'. split; [done|]. exists v. by left.
      + destruct Hx as [Hx Hnow].
        pose proof (watch_expired S Hty me T k _ _ (pick_all S Hty T) _ _ (down_for (RLocal k)) (down_down k) _ _ _ _ _ W3 Hx) as W4.
        assert (ticking (Sys (up_loc (<[me := l4]>) w) ts)) as T4 by exact T3. unfold shutdown_brutal_kill in Hr3.
        destruct (tells S Hty me T k _ _ _ _ _ _ _ _ _ _ (exit_owns _ _) W4 T4 Hr3) as (v5 & s5 & l5 & z5 & tr5 & W5 & T5 & N5 & -> & Hr5).
        destruct (patiently _ _ _ _ _ _ _ _ _ _ _ W5 T5 Hr5) as (zs & l' & v' & d & why & A1 & A2 & A3 & -> & A4 & A5 & A6).
        eexists k, d, why, _, l'. split_and!; [exact Hk|exact A1|exact A2|exact A3| |exact A4|exact A5].
        exists [Did (CExit me p (RCustom "shutdown")) v; GaveUp; Did (CExit me p RKill) v5], v'. split; [done|]. exists v. right.
        split; [cbn in *; lia|]. by exists v5.
    - destruct (tells S Hty me T k _ _ _ _ _ _ _ _ _ _ (exit_owns _ _) W1 T1 Hr1) as (v & s2 & l2 & z2 & tr2 & W2 & T2 & N2 & -> & Hr2).
      destruct (patiently _ _ _ _ _ _ _ _ _ _ _ W2 T2 Hr2) as (zs & l' & v' & d & why & A1 & A2 & A3 & -> & A4 & A5 & A6).
      eexists k, d, why, _, l'. split_and!; [exact Hk|exact A1|exact A2|exact A3| |exact A4|exact A5].
      exists [Did (CExit me p (RCustom "shutdown")) v], v'. split; [done|]. by exists v.
  Qed.
End shutdown.
