(** Theorems about clients of servers and about the shutdown of children: C35, C36, C61. *)
From stdpp Require Import base list gmap numbers strings countable sorting relations.
From Coq Require Import Lia.
From Verif Require Import Prog ProgProofs ProgInv Types Mailbox MailboxSpec MailboxProofs World ProcApi NodeApi Api Steps Hist Play SchedProps ProcSpec GenServer AppProps
  Client ClientSpec ClientStep ClientRun ClientNode ClientFlush ClientMail ClientCall ClientTalk ClientGen.
From Verif Require Super.

(** ** Examples are runs *)
Section played.
  Context (S : serde) (me : N) {R : Type}.
  Lemma cruns_trans (x y z : sys world val * cstate R) a b : cruns S me x a y -> cruns S me y b z -> cruns S me x (a ++ b) z.
  Proof. induction 1 as [|x a y1 tr y Hs H IH]; [done|]. intros Hz. rewrite <- app_assoc. econstructor; eauto. Qed.
  Lemma cruns_others s s' (c : cstate R) : rtc (other S me) s s' -> cruns S me (s, c) [] (s', c).
  Proof.
    induction 1 as [s|s1 s2 s3 H1 H IH]; [constructor|]. change (@nil deed) with ([] ++ [] : list deed). econstructor; [by apply c_other|exact IH].
  Qed.
  Lemma theirs_others cs w w' ts : theirs S me cs w = Some w' -> exists ts', rtc (other S me) (Sys w ts) (Sys w' ts').
  Proof.
    revert w ts. induction cs as [|c cs IH]; intros w ts H; cbn in H; [injection H as <-; exists ts; apply rtc_refl|].
    destruct (bool_decide (caller c = Some me)) eqn:Ec; [discriminate|]. apply bool_decide_eq_false in Ec.
    assert (other S me (Sys w ts) (Sys w (ts ++ [call_prog S c]))) as H1.
    { apply (step_call (calls_of S (foreign_call me)) (call_prog S c) (Sys w ts)). by exists c. }
    pose proof (run_reach (calls_of S (foreign_call me)) ts (call_prog S c) w) as H2.
    destruct (run (call_prog S c) w) as [w1 v|w1 m|]; [| |discriminate].
    - destruct (IH w1 (ts ++ [Ret v]) H) as (ts' & H3). exists ts'. eapply rtc_l; [exact H1|]. etransitivity; [exact H2|exact H3].
    - destruct (IH w1 (ts ++ [Panic m]) H) as (ts' & H3). exists ts'. eapply rtc_l; [exact H1|]. etransitivity; [exact H2|exact H3].
  Qed.
  Lemma run_busy w ts c p (k : val -> script R) w1 v : run p w = Done w1 v -> cruns S me (Sys w ts, Busy c p k) [Did c v] (Sys w1 ts, At (k v)).
  Proof.
    revert w. induction p as [a|m|g f kk IH]; intros w H; cbn in H; [injection H as <- <-| discriminate|].
    - change [Did c a] with ([Did c a] ++ []). econstructor; [apply c_return|constructor].
    - destruct (g w) eqn:Eg; [|discriminate]. change [Did c v] with ([] ++ [Did c v]). econstructor; [by apply c_tick|]. by apply IH.
  Qed.
  Lemma mine_cruns cs w (s : script R) w1 s1 d ts : mine S me cs w s = Some (w1, s1, d) -> exists ts', cruns S me (Sys w ts, At s) [d] (Sys w1 ts', At s1).
  Proof.
    destruct s as [r| |c k|T f limit k|T f k]; cbn [mine]; try discriminate; intros H.
    - destruct (run (call_prog S c) w) as [w2 v| |] eqn:E; try discriminate. injection H as <- <- <-. exists ts.
      change [Did c v] with ([] ++ [Did c v]). econstructor; [apply c_begin|]. by apply run_busy.
    - destruct (theirs S me cs w) as [w0|] eqn:Et; [|discriminate]. destruct (theirs_others cs w w0 ts Et) as (ts' & Ho). exists ts'.
      assert (cruns S me (Sys w ts, At (SWait T f limit k)) [] (Sys w0 ts', Waits T f ((fun d => (w_now w + d)%N) <$> limit) k)) as H0.
      { change (@nil deed) with ([] ++ [] : list deed). econstructor; [apply c_wait|]. by apply cruns_others. }
      destruct (run (try_receive S me T f false) w0) as [w2 [[m| |]|]| |] eqn:E; try discriminate.
      + injection H as <- <- <-. apply (cruns_trans _ _ _ [] [Got m] H0). change [Got m] with ([Got m] ++ []). econstructor; [by apply c_found|constructor].
      + destruct limit as [d0|]; [|discriminate]. destruct (_ <=? _)%N eqn:El in H; [|discriminate]. injection H as <- <- <-. apply N.leb_le in El.
        apply (cruns_trans _ _ _ [] [GaveUp] H0). change [GaveUp] with ([GaveUp] ++ []). econstructor; [by apply c_expired|constructor].
    - destruct (w_loc w !! me) as [l|] eqn:El; [|discriminate]. destruct (remove S T f false l) as [l'|] eqn:E; [|discriminate]. injection H as <- <- <-. exists ts.
      change [Flushed] with ([Flushed] ++ []). econstructor; [by apply (c_flush S me w ts T f k l l')|constructor].
  Qed.
  Lemma cplay_cruns ms w (s : script R) w1 s1 tr ts : cplay S me ms w s = Some (w1, s1, tr) -> exists ts', cruns S me (Sys w ts, At s) tr (Sys w1 ts', At s1).
  Proof.
    revert w s tr ts. induction ms as [|[c|cs] ms IH]; intros w s tr ts H; cbn [cplay] in H.
    - injection H as <- <- <-. exists ts. constructor.
    - destruct (theirs S me [c] w) as [w0|] eqn:Et; [|discriminate]. destruct (theirs_others _ _ _ ts Et) as (ts1 & Ho).
      destruct (IH _ _ _ ts1 H) as (ts' & H1). exists ts'. apply (cruns_trans _ _ _ [] tr (cruns_others _ _ _ Ho) H1).
    - destruct (mine S me cs w s) as [[[w2 s2] d]|] eqn:Em; [|discriminate].
      destruct (cplay S me ms w2 s2) as [[[w3 s3] tr']|] eqn:Ec; [|discriminate]. injection H as <- <- <-.
      destruct (mine_cruns _ _ _ _ _ _ ts Em) as (ts1 & H1). destruct (IH _ _ _ ts1 Ec) as (ts' & H2). exists ts'.
      apply (cruns_trans _ _ _ [d] tr' H1 H2).
  Qed.
End played.
(** An example: the process follows [s0] in a new node, then [s]. *)
Definition example {R} (S : serde) (me : N) (ms0 : list move) (s0 : script unit) (ms : list move) (s : script R) (Q : world -> world -> script R -> list deed -> Prop) : Prop :=
  match cplay S me ms0 world0 s0 with
  | Some (w0, _, _) => match cplay S me ms w0 s with Some (w1, s1, tr) => Q w0 w1 s1 tr | None => False end
  | None => False
  end.
Lemma example_run {R} S me ms0 s0 ms (s : script R) Q : example S me ms0 s0 ms s Q ->
  exists y z sc tr, idle S me y /\ cruns S me (y, At s) tr (z, At sc) /\ Q (s_world y) (s_world z) sc tr.
Proof.
  unfold example. destruct (cplay S me ms0 world0 s0) as [[[w0 s0'] tr0]|] eqn:Et; [|done]. destruct (cplay S me ms w0 s) as [[[w1 s1] tr]|] eqn:E; [|done]. intros HQ.
  destruct (cplay_cruns S me ms0 world0 s0 w0 s0' tr0 [] Et) as (ts & Ho). destruct (cplay_cruns S me ms w0 s w1 s1 tr ts E) as (ts' & Hr).
  exists (Sys w0 ts), (Sys w1 ts'), s1, tr. split; [|split; [exact Hr|exact HQ]]. exists unit, s0, s0', tr0. exact Ho.
Qed.
(** The process 1 is the client, 2 the server; the messages of the server have type 7. *)
Definition G0 : gtype N := GType 7
  (fun g => Val 7 (match g with GCast m => 4 * m | GCall _ m => 4 * m + 1 | GReply t m => 4 * (m * 10 + ref_id t) + 2 | GStop _ => 3 end))%N
  (fun v => (if v_data v mod 4 =? 0 then GCast (v_data v / 4)
             else if v_data v mod 4 =? 1 then GCall (From (PLocal 0) (RLocal 0) false) (v_data v / 4)
             else if v_data v mod 4 =? 2 then GReply (RLocal ((v_data v / 4) mod 10)) (v_data v / 4 / 10) else GStop RNormal))%N.
Definition ms2 : list move := [Theirs (CSpawn 0 false false); Theirs (CSpawn 0 false false)].
Definition srv : dest := DPid (PLocal 2).
Definition the_reply (m : N) : call := gs_reply G0 (From (PLocal 1) (RLocal 1) false) m.
Definition noise (n : N) : call := CSend (DsOne (DPid (PLocal 1))) (Val 7 n).

(** ** C35: GenServer::call *)
Theorem C35_call_partial {M} (S : serde) (G : gtype M) (me : N) (d : dest) (m : M) (limit : option N) s l tr s' res :
  serde_typed S -> idle S me s -> w_loc (s_world s) !! me = Some l ->
  cruns S me (s, At (gs_call G me d m limit)) tr (s', At (SRet res)) ->
  exists k xs l', (w_next_ref (s_world s) <= k)%N /\ arrived me xs (s_world s) (s_world s') /\
    w_loc (s_world s') !! me = Some l' /\ l_monitors l' !! RLocal k = None /\
    call_deeds G me k d m res tr /\
    call_outcome S G k (default 5000%N limit) (w_now (s_world s)) (w_now (s_world s')) l xs l' res.
Proof.
  intros Hty Hi El Hr. destruct (call_correct S Hty G me d m limit s l tr s' res Hi El Hr) as (k & xs & l' & A1 & A2 & A3 & A4 & A5 & A6 & _). eauto 10.
Qed.
Print Assumptions C35_call_partial.
(** The three outcomes occur, with other messages around. *)
Example C35_reply_example : exists s l tr s' l', idle S0 1 s /\ w_loc (s_world s) !! 1%N = Some l /\
  cruns S0 1 (s, At (gs_call G0 1 srv 3%N None)) tr (s', At (SRet (CallOk 42%N))) /\
  w_loc (s_world s') !! 1%N = Some l' /\ mailbox l' = [PVal (Val 7 8); PVal (Val 7 12)].
Proof.
  destruct (example_run S0 1 ms2 (SRet tt) [Mine []; Mine []; Mine [noise 8; the_reply 42; noise 12]; Mine []] (gs_call G0 1 srv 3%N None)
    (fun w0 w1 sc _ => is_Some (w_loc w0 !! 1%N) /\ sc = SRet (CallOk 42%N) /\ mailbox <$> (w_loc w1 !! 1%N) = Some [PVal (Val 7 8); PVal (Val 7 12)]))
    as (s & s' & sc & tr & Hi & Hr & [l Hl] & -> & Hm); [vm_compute; split; [eauto|done]|].
  destruct (w_loc (s_world s') !! 1%N) as [l'|] eqn:E; [|discriminate]. injection Hm as Hm. eauto 10.
Qed.
Example C35_down_example : exists s l tr s', idle S0 1 s /\ w_loc (s_world s) !! 1%N = Some l /\
  cruns S0 1 (s, At (gs_call G0 1 srv 3%N None)) tr (s', At (SRet (ServerDown RNormal))).
Proof.
  destruct (example_run S0 1 ms2 (SRet tt) [Mine []; Mine []; Mine [noise 8; CFinish 2; noise 12]] (gs_call G0 1 srv 3%N None)
    (fun w0 w1 sc _ => is_Some (w_loc w0 !! 1%N) /\ sc = SRet (ServerDown RNormal)))
    as (s & s' & sc & tr & Hi & Hr & [l Hl] & ->); [vm_compute; split; [eauto|done]|]. eauto 10.
Qed.
Example C35_timeout_example : exists s l tr s' l', idle S0 1 s /\ w_loc (s_world s) !! 1%N = Some l /\
  cruns S0 1 (s, At (gs_call G0 1 srv 3%N (Some 2%N))) tr (s', At (SRet CallTimeout)) /\
  w_loc (s_world s') !! 1%N = Some l' /\ mailbox l' = [PVal (Val 7 8)].
Proof.
  (* the reply that arrives between the timeout and the removal is removed *)
  destruct (example_run S0 1 ms2 (SRet tt) [Mine []; Mine []; Mine [noise 8; CTick; CTick]; Theirs (the_reply 42); Mine []; Mine []] (gs_call G0 1 srv 3%N (Some 2%N))
    (fun w0 w1 sc _ => is_Some (w_loc w0 !! 1%N) /\ sc = SRet CallTimeout /\ mailbox <$> (w_loc w1 !! 1%N) = Some [PVal (Val 7 8)]))
    as (s & s' & sc & tr & Hi & Hr & [l Hl] & -> & Hm); [vm_compute; split; [eauto|done]|].
  destruct (w_loc (s_world s') !! 1%N) as [l'|] eqn:E; [|discriminate]. injection Hm as Hm. eauto 10.
Qed.
(** The caller never sees the notice of a call that has returned. *)
Theorem C35_no_late_notice {M} (S : serde) (G : gtype M) (me : N) (d : dest) (m : M) (limit : option N) s l tr s' res {R} (sc : script R) tr' y :
  serde_typed S -> idle S me s -> w_loc (s_world s) !! me = Some l ->
  cruns S me (s, At (gs_call G me d m limit)) tr (s', At (SRet res)) ->
  cruns S me (s', At sc) tr' y ->
  exists k, call_deeds G me k d m res tr /\ Forall (fun x => ~ saw k x) tr'.
Proof.
  intros Hty Hi El Hr Hr'. destruct (call_correct S Hty G me d m limit s l tr s' res Hi El Hr) as (k & xs & l' & _ & _ & _ & _ & A5 & _ & A7).
  exists k. split; [exact A5|]. exact (dead_silent S me k _ _ _ Hr' A7 I).
Qed.
Print Assumptions C35_no_late_notice.

(** The same is not true of the reply: a reply to a local server's call that arrives after the call has
    timed out stays in the mailbox, and the caller receives it (gen_server.rs:221-227 uses a plain
    monitor for local servers, and the reply is sent to the pid). *)
Definition saw_reply {M} (G : gtype M) (k : N) (x : deed) : Prop :=
  match x with Got (MUser v) => exists m, gt_view G v = GReply (RLocal k) m | _ => False end.
Definition C35_no_late_reply_statement : Prop :=
  forall M (S : serde) (G : gtype M) (me k : N) (d : dest) (m : M) (limit : option N) s l tr s' res R (sc : script R) tr' y,
  serde_typed S -> idle S me s -> w_loc (s_world s) !! me = Some l ->
  cruns S me (s, At (gs_call G me d m limit)) tr (s', At (SRet res)) -> call_deeds G me k d m res tr ->
  cruns S me (s', At sc) tr' y -> Forall (fun x => ~ saw_reply G k x) tr'.
Theorem C35_no_late_reply_refuted : ~ C35_no_late_reply_statement.
Proof.
  intros H. set (c1 := gs_call G0 1 srv 3%N (Some 2%N)).
  set (ms := [Mine []; Mine []; Mine [CTick; CTick]; Mine []; Mine []]).
  set (rcv := SWait 7 (fun _ => true) None (fun x => SRet x) : script (option message)).
  assert (example S0 1 ms2 (SRet tt) ms c1 (fun w0 w1 sc tr => is_Some (w_loc w0 !! 1%N) /\ sc = SRet CallTimeout /\ call_deeds G0 1 1 srv 3%N CallTimeout tr /\
     match cplay S0 1 [Theirs (the_reply 42); Mine []] w1 rcv with Some (_, _, tr') => tr' = [Got (MUser (Val 7 1686))] | None => False end)) as Hx.
  { vm_compute. split; [eauto|]. split; [done|]. split; [|done]. eexists _, _. split; [reflexivity|]. eexists. reflexivity. }
  apply example_run in Hx as (s & s' & sc & tr & Hi & Hr & [l Hl] & -> & Hd & Hp).
  destruct (cplay S0 1 [Theirs (the_reply 42); Mine []] (s_world s') rcv) as [[[w2 sc2] tr2]|] eqn:E; [|done]. subst tr2.
  destruct (cplay_cruns S0 1 _ _ _ _ _ _ (s_threads s') E) as (ts & Hr2).
  assert (Sys (s_world s') (s_threads s') = s') as Es by (by destruct s'). rewrite Es in Hr2.
  pose proof (H N S0 G0 1%N 1%N srv 3%N (Some 2%N) s l tr s' CallTimeout _ rcv _ _ S0_typed Hi Hl Hr Hd Hr2) as Hf.
  apply Forall_inv in Hf. apply Hf. exists 42%N. vm_compute. reflexivity.
Qed.
Print Assumptions C35_no_late_reply_refuted.

(** ** C36: GenServer::stop *)
Theorem C36_stop {M} (S : serde) (G : gtype M) (me : N) (d : dest) (why : exit_reason) (limit : option N) s l tr s' res :
  serde_typed S -> idle S me s -> w_loc (s_world s) !! me = Some l ->
  cruns S me (s, At (gs_stop G me d why limit)) tr (s', At (SRet res)) ->
  exists k xs l', (w_next_ref (s_world s) <= k)%N /\ arrived me xs (s_world s) (s_world s') /\
    w_loc (s_world s') !! me = Some l' /\ l_monitors l' !! RLocal k = None /\
    stop_deeds G me k d why tr /\
    stop_outcome S G k why limit (w_now (s_world s)) (w_now (s_world s')) l xs l' res.
Proof.
  intros Hty Hi El Hr. destruct (stop_correct S Hty G me d why limit s l tr s' res Hi El Hr) as (k & xs & l' & A1 & A2 & A3 & A4 & A5 & A6 & _). eauto 10.
Qed.
Print Assumptions C36_stop.
Example C36_example : exists s l tr s', idle S0 1 s /\ w_loc (s_world s) !! 1%N = Some l /\
  cruns S0 1 (s, At (gs_stop G0 1 srv RNormal None)) tr (s', At (SRet (Some (RCustom "x")))).
Proof.
  destruct (example_run S0 1 ms2 (SRet tt) [Mine []; Mine []; Mine [noise 8; CExit 0 (PLocal 2) (RCustom "x"); CFinish 2; noise 12]] (gs_stop G0 1 srv RNormal None)
    (fun w0 w1 sc _ => is_Some (w_loc w0 !! 1%N) /\ sc = SRet (Some (RCustom "x"))))
    as (s & s' & sc & tr & Hi & Hr & [l Hl] & ->); [vm_compute; split; [eauto|done]|]. eauto 10.
Qed.
Example C36_timeout_example : exists s l tr s', idle S0 1 s /\ w_loc (s_world s) !! 1%N = Some l /\
  cruns S0 1 (s, At (gs_stop G0 1 srv RNormal (Some 1%N))) tr (s', At (SRet (Some (RCustom "timeout")))).
Proof.
  destruct (example_run S0 1 ms2 (SRet tt) [Mine []; Mine []; Mine [noise 8; CTick]; Mine []] (gs_stop G0 1 srv RNormal (Some 1%N))
    (fun w0 w1 sc _ => is_Some (w_loc w0 !! 1%N) /\ sc = SRet (Some (RCustom "timeout"))))
    as (s & s' & sc & tr & Hi & Hr & [l Hl] & ->); [vm_compute; split; [eauto|done]|]. eauto 10.
Qed.

(** ** C61: shutting a child down *)
Theorem C61_shutdown (S : serde) (T me : N) (p : pid) (how : Super.shutdown) s l tr s' u :
  serde_typed S -> idle S me s -> w_loc (s_world s) !! me = Some l ->
  cruns S me (s, At (shutdown_child T me p how)) tr (s', At (SRet u)) ->
  exists k d why xs l', (w_next_ref (s_world s) <= k)%N /\ arrived me xs (s_world s) (s_world s') /\
    w_loc (s_world s') !! me = Some l' /\ l_monitors l' !! RLocal k = None /\
    shutdown_deeds me k p how d why (w_now (s_world s)) (w_now (s_world s')) tr /\
    shutdown_outcome S T k p d why l xs l'.
Proof.
  intros Hty Hi El Hr. destruct (shutdown_correct S Hty T me p how s l tr s' u Hi El Hr) as (k & d & why & xs & l' & A1 & A2 & A3 & A4 & A5 & A6 & _). exists k, d, why, xs, l'. done.
Qed.
Print Assumptions C61_shutdown.

(** The process 1 traps exits and is linked to 2, which ignores the request and is killed; its exit
    signal is removed, the other messages stay. *)
Example C61_example : exists s l tr s' l', idle S0 1 s /\ w_loc (s_world s) !! 1%N = Some l /\
  cruns S0 1 (s, At (shutdown_child 0 1 (PLocal 2) (Super.Within 2))) tr (s', At (SRet tt)) /\
  w_loc (s_world s') !! 1%N = Some l' /\ mailbox l' = [PVal (Val 7 8); PVal (Val 7 12)] /\
  (exists g, w_log (s_world s') = w_log (s_world s) ++ g /\ (1%N, ISystem (SExit (PLocal 2) RKill)) ∈ g) /\
  Did (CExit 1 (PLocal 2) RKill) VUnit ∈ tr.
Proof.
  destruct (example_run S0 1 (ms2 ++ [Mine []; Mine []; Theirs (CSetFlags 2 true)]) (SCall (CSetFlags 1 true) (fun _ => SCall (CLink 1 (PLocal 2)) (fun _ => SRet tt)))
    [Mine []; Mine []; Mine [noise 8; CTick; CTick]; Mine []; Mine [CFinish 2; noise 12]; Mine []; Mine []] (shutdown_child 0 1 (PLocal 2) (Super.Within 2))
    (fun w0 w1 sc tr => is_Some (w_loc w0 !! 1%N) /\ sc = SRet tt /\ mailbox <$> (w_loc w1 !! 1%N) = Some [PVal (Val 7 8); PVal (Val 7 12)] /\
       (firstn (length (w_log w0)) (w_log w1) = w_log w0 /\ existsb (fun x => bool_decide (x = (1%N, ISystem (SExit (PLocal 2) RKill)))) (skipn (length (w_log w0)) (w_log w1)) = true) /\
       nth_error tr 3 = Some (Did (CExit 1 (PLocal 2) RKill) VUnit)))
    as (s & s' & sc & tr & Hi & Hr & [l Hl] & -> & Hm & [H1 H2] & H3); [vm_compute; split; [eauto|done]|].
  destruct (w_loc (s_world s') !! 1%N) as [l'|] eqn:E; [|discriminate]. injection Hm as Hm. exists s, l, tr, s', l'. split_and!; try done.
  - exists (skipn (length (w_log (s_world s))) (w_log (s_world s'))). split; [rewrite <- H1 at 1; by rewrite firstn_skipn|].
    apply existsb_exists in H2 as (x & Hx & Hb). apply bool_decide_eq_true in Hb as ->. by apply elem_of_list_In.
  - apply nth_error_In in H3. by apply elem_of_list_In.
Qed.
