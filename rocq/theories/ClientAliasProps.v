(** C35, calls of servers on other nodes: once the call has ended with an answer or with a timeout, no reply can come
    any more.  (A reply that had passed the alias before, and is on its way to the mailbox, still arrives; and a call
    that ends because the server is down leaves it to the node to destroy the alias.) *)
From stdpp Require Import base list gmap numbers strings countable sorting relations.
From Coq Require Import Lia.
From Coq Require Ascii.
From Verif Require Import Prog ProgProofs ProgInv Types Mailbox MailboxSpec MailboxProofs World ProcApi NodeApi Api Steps Hist Labels Play SchedSpec SchedProofs SchedProps ProcSpec
  FreshProofs GenServer AppProps ConnProps Client ClientSpec ClientStep ClientRun ClientNode ClientFlush ClientMail ClientCall ClientTalk ClientGen ClientProps ClientAlias.

(** The reply cannot come: the alias [k] is destroyed, a message to it that is sent now changes nothing, and no schedule
    of any calls brings anything that is sent only to this alias into a mailbox. *)
Definition no_reply_can_come (S : serde) (k : N) (w : world) : Prop :=
  w_aliases w !! k = None /\
  (forall v, run (send S (DsOne (DAlias (RLocal k))) v) w = Done w tt) /\
  forall v s, timers_only_via_alias S k v w -> carried S v w = [] ->
    reach (calls_of S (only_via_alias S k v)) (Sys w []) s -> carried S v (s_world s) = [].

Lemma gone_no_reply S k s : gone k s -> no_reply_can_come S k (s_world s).
Proof.
  intros [[Hk _] Ha]. split; [exact Ha|]. split.
  - intros v. destruct (C24_send_to_alias S k v (s_world s)) as (w' & Hr & H). rewrite Ha in H. rewrite Hr, H. reflexivity.
  - intros v s' Ht Hc Hr. refine (proj2 (C24_one_shot_at_most_once S k v (s_world s) s' Hk _ Ht Hc Hr) Ha). intros o. by rewrite Ha.
Qed.

Section remote.
  Context {M : Type} (S : serde) (Hty : serde_typed S) (G : gtype M) (me : N).
  Notation T := (gt_id G).
  Lemma ends_gone {R} k l2 m (sc : script R) w ts tr s' res : quiet me (Sys w ts) -> known k (Sys w ts) -> holds me k (up_loc (<[me := l2]>) w) ->
    m = CDemonitor me (RLocal k) -> is_Some (l_monitors l2 !! RLocal k) ->
    cruns S me (Sys (up_loc (<[me := l2]>) w) ts, At (SCall m (fun _ => sc))) tr (s', At (SRet res)) ->
    exists s1 tr', gone k s1 /\ cruns S me (s1, At sc) tr' (s', At (SRet res)).
  Proof.
    intros Hq Hk Hh -> Hm Hr. apply cruns_call in Hr as (s0 & u & s1 & tr' & H1 & H2 & _ & H3). exists s1, tr'. split; [|exact H3].
    eapply (closed S me k (Sys (up_loc (<[me := l2]>) w) ts)); [exact Hq|exact Hk|exact Hh|cbn; apply lookup_insert|exact Hm|exact H1|exact H2].
  Qed.
  Lemma call_gone i n m limit s l tr s' res : idle S me s -> w_loc (s_world s) !! me = Some l ->
    cruns S me (s, At (gs_call G me (DPid (PRemote i n)) m limit)) tr (s', At (SRet res)) -> (forall why, res <> ServerDown why) ->
    exists k, call_deeds G me k (DPid (PRemote i n)) m res tr /\ gone k s'.
  Proof.
    intros Hi El Hr Hres. destruct (call_correct S Hty G me _ m limit s l tr s' res Hi El Hr) as (k & _ & _ & _ & _ & _ & _ & Hd & _ & _).
    exists k. split; [exact Hd|].
    destruct (idle_backed S Hty me s Hi) as [Hq [rest Hb]].
    unfold gs_call in Hr. apply cruns_call in Hr as (s0 & v & s1 & tr1 & O0 & B1 & Etr & Hr).
    assert (v = VRef (RLocal k)) as Ev.
    { destruct Hd as (r1 & sent & -> & _). by injection Etr as <- _. }
    change (call_monitor me (DPid (PRemote i n))) with (CMonitorAlias me (DPid (PRemote i n)) true) in B1.
    destruct (opened S me k i n s s0 v s1 rest l Hq Hb El O0 B1 Ev) as (K1 & A1 & Q1).
    destruct (monitored S me T _ (DPid (PRemote i n)) v s s0 s1 rest l (or_intror eq_refl) Hq Hb El O0 B1) as (k' & pm & l1 & xs & Ev' & _ & W1).
    assert (k' = k) as -> by congruence. rewrite Ev in Hr. clear Etr.
    apply cruns_call in Hr as (s2 & sent & s3 & tr2 & O2 & B3 & _ & Hr).
    pose proof (others_known S me k _ _ O2 K1) as K2. pose proof (others_holds S me k _ _ O2 Q1 A1) as A2. destruct (others_still _ _ _ _ O2 Q1) as [_ Q2].
    destruct (watch_others S me T k _ _ (pick_all S Hty T) _ _ _ _ _ _ O2 W1) as (l2 & z2 & W2).
    pose proof (busy_known S me k _ _ _ _ B3 (nc_call S k _) K2) as K3.
    destruct (busy_touch S me (fun _ => False) _ _ _ _ B3 (call_touch S me _ (send_owns S me _ _)) Q2) as [T3 Q3].
    pose proof (touch_holds me k _ _ T3 A2) as A3.
    destruct (watch_call S me T k _ _ (pick_all S Hty T) _ _ _ _ _ _ _ _ B3 (send_owns S me _ _) W2) as (l3 & z3 & W3).
    apply cruns_wait in Hr as (s4 & x & s5 & tr3 & O4 & Hw & _ & Hr).
    pose proof (others_known S me k _ _ O4 K3) as K4. pose proof (others_holds S me k _ _ O4 Q3 A3) as A4. destruct (others_still _ _ _ _ O4 Q3) as [_ Q4].
    destruct (watch_others S me T k _ _ (pick_all S Hty T) _ _ _ _ _ _ O4 W3) as (l4 & z4 & W4).
    destruct (waits_holds S me k _ _ _ _ _ _ Hw Q4 K4 A4) as (K5 & A5 & Q5).
    assert (forall d why, answer_to G (RLocal k) (MSystem (SProcessDown d (RLocal k) why)) = true) as Hdown.
    { intros d why. unfold answer_to. cbn. by apply bool_decide_eq_true_2. }
    destruct (watch_waits S Hty me T k _ _ (pick_all S Hty T) _ _ _ Hdown _ _ _ _ _ _ Hw W4) as (w & ts & l5 & z5 & l6 & W5 & -> & Hx).
    change (known k (Sys w ts)) in K5. change (quiet me (Sys w ts)) in Q5. cbn [s_world] in A5.
    destruct x as [msg|].
    - pose proof (found_wanted S Hty _ _ _ _ _ Hx) as Hf. destruct msg as [v1|sm]; cbn [gview] in *.
      + destruct (gt_view G v1) as [?|? ?|tag y|?] eqn:Eg; try (by apply cruns_unreachable in Hr).
        destruct (watch_found S me T k _ _ _ (answer_to G (RLocal k)) Hdown _ _ _ _ _ _ W5 Hx) as (_ & _ & B5); [done|].
        destruct (ends_gone k l6 _ (SRet (CallOk y)) w ts _ _ _ Q5 K5 A5 eq_refl B5 Hr) as (s6 & tr6 & G6 & R6).
        exact (cruns_gone S me k _ _ _ R6 G6 I).
      + destruct sm as [? ?|? ? why|? ?]; try (by apply cruns_unreachable in Hr). apply cruns_ret in Hr as (_ & -> & _). by destruct (Hres why).
    - destruct Hx as [Hx _].
      destruct (watch_expired S Hty me T k _ _ (pick_all S Hty T) _ _ (answer_to G (RLocal k)) Hdown _ _ _ _ _ W5 Hx) as (_ & _ & _ & _ & B5).
      destruct (ends_gone k l6 _ _ w ts _ _ _ Q5 K5 A5 eq_refl B5 Hr) as (s6 & tr6 & G6 & R6).
      exact (cruns_gone S me k _ _ _ R6 G6 I).
  Qed.
End remote.

(** C35.  A call of a server on another node that ends with an answer or with a timeout: whatever the process does
    afterwards, whatever everybody else does meanwhile, no reply to this call can come. *)
Theorem C35_no_late_reply_remote {M} (S : serde) (G : gtype M) (me i n : N) (m : M) (limit : option N) s l tr s' res :
  serde_typed S -> idle S me s -> w_loc (s_world s) !! me = Some l ->
  cruns S me (s, At (gs_call G me (DPid (PRemote i n)) m limit)) tr (s', At (SRet res)) -> (forall why, res <> ServerDown why) ->
  exists k, call_deeds G me k (DPid (PRemote i n)) m res tr /\
    forall (R : Type) (sc : script R) tr' y, cruns S me (s', At sc) tr' y -> no_reply_can_come S k (s_world (fst y)).
Proof.
  intros Hty Hi El Hr Hres. destruct (call_gone S Hty G me i n m limit s l tr s' res Hi El Hr Hres) as (k & Hd & Hg). exists k. split; [exact Hd|].
  intros R sc tr' y Hy. apply gone_no_reply. exact (cruns_gone S me k _ _ _ Hy Hg I).
Qed.
Print Assumptions C35_no_late_reply_remote.

(** Both ways the call can end.  The node "a" is connected (its connection is supervised by 2); the answer comes in a
    message of that node.  The late reply of the second call changes nothing. *)
(** A serialisation that keeps values. *)
Definition SU : serde := Serde (fun v => replicate (N.to_nat (v_data v)) Ascii.zero) (fun T b => Some (Val T (N.of_nat (length b)))).
Lemma SU_typed : serde_typed SU.
Proof. by intros T b v [= <-]. Qed.
Definition connected_a : list move := [Theirs (CSpawn 0 false false); Theirs (CConnect nodeA); Theirs (CSupervise 2 "a" (SA4 1 5))].
Definition far : dest := DPid (PRemote 9 1).
Definition far_reply (m : N) : call := CFrame nodeA (PLocal 2) (FSend [TAlias 1] (ser SU (gt_val G0 (GReply (RLocal 1) m)))).
Example C35_remote_reply_example : exists s l tr s', idle SU 1 s /\ w_loc (s_world s) !! 1%N = Some l /\
  cruns SU 1 (s, At (gs_call G0 1 far 3%N None)) tr (s', At (SRet (CallOk 42%N))) /\
  (mailbox <$> w_loc (s_world s') !! 1%N) = Some [PVal (Val 7 8)].
Proof.
  destruct (example_run SU 1 connected_a (SRet tt) [Mine []; Mine []; Mine [CFrame nodeA (PLocal 2) (FSend [TPid 1] (ser SU (Val 7 8))); far_reply 42]; Mine []; Theirs (far_reply 43)] (gs_call G0 1 far 3%N None)
    (fun w0 w1 sc _ => is_Some (w_loc w0 !! 1%N) /\ sc = SRet (CallOk 42%N) /\ (mailbox <$> w_loc w1 !! 1%N) = Some [PVal (Val 7 8)]))
    as (s & s' & sc & tr & Hi & Hr & [l Hl] & -> & Hm); [vm_compute; split; [eauto|done]|]. eauto 10.
Qed.
Example C35_remote_timeout_example : exists s l tr s', idle SU 1 s /\ w_loc (s_world s) !! 1%N = Some l /\
  cruns SU 1 (s, At (gs_call G0 1 far 3%N (Some 2%N))) tr (s', At (SRet CallTimeout)) /\
  (mailbox <$> w_loc (s_world s') !! 1%N) = Some [].
Proof.
  destruct (example_run SU 1 connected_a (SRet tt) [Mine []; Mine []; Mine [CTick; CTick]; Mine []; Mine []; Theirs (far_reply 43)] (gs_call G0 1 far 3%N (Some 2%N))
    (fun w0 w1 sc _ => is_Some (w_loc w0 !! 1%N) /\ sc = SRet CallTimeout /\ (mailbox <$> w_loc w1 !! 1%N) = Some []))
    as (s & s' & sc & tr & Hi & Hr & [l Hl] & -> & Hm); [vm_compute; split; [eauto|done]|]. eauto 10.
Qed.
