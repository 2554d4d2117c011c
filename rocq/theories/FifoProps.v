(** C85, C86: messages arrive in the order they were sent. *)
From stdpp Require Import base list gmap numbers strings countable sorting relations.
From Coq Require Import Lia Ascii.
From Verif Require Import Prog ProgProofs ProgInv Types Mailbox MailboxSpec World ProcApi NodeApi Api Steps Hist Labels SchedSpec
  LiveProofs ClientRun OriginSpec OriginProofs OrderProps SchedProofs SchedProps FifoSpec FifoProofs FifoFrames ConnLasts ConnProps.
From Verif Require Import Codec CodecSpec Options Heart HeartSpec HeartProofs HeartProps.

Lemma prefix_take {A} (l : list A) n : take n l `prefix_of` l.
Proof. exists (drop n l). by rewrite take_drop. Qed.
Lemma calm0 {M} (Inv : world -> Prop) (meas : world -> M) : Inv world0 -> calm Inv meas (Sys world0 [] : sys world val).
Proof. intros H. split; [done|constructor]. Qed.
Lemma reach_any S ok s s' : reach (calls_of S ok) s s' -> reach (any_call S) s s'.
Proof. induction 1 as [|s s1 s2 H _ IH]; [apply rtc_refl|]. eapply rtc_l; [by eapply narrow_step|done]. Qed.
Lemma tasks0 T : quiet_tasks T world0.
Proof. intros i t. cbn. by rewrite lookup_empty. Qed.

(** ** C85.  In every schedule: let a task make calls one after the other, some of which send a message of type [T] to the
    process [q] - with Process::send to its pid, or, in a connection's receiver, by the arrival of a frame for it - while
    others make any calls except to send messages of this type.  The messages of this type that arrive at [q] are those
    the task sent, in this order, without gaps or repetitions: *)
Theorem C85_in_order :
  forall S T q s cs s', serde_typed S -> told_apart S T ->
    reach (calls_of S (other_types S T)) (Sys world0 []) s -> there q (s_world s) ->
    in_turn S (other_types S T) s cs s' ->
    Forall (fun c => other_types S T c \/ is_Some (message_for S T q c)) cs ->
    mail S T q (w_log (s_world s')) `prefix_of` omap (message_for S T q) cs.
Proof.
  intros S T q s cs s' Hty Hf Hr Ht Hi Hcs.
  destruct (calm_reach (quiet_tasks T) (fun w => mail S T q (w_log w)) _ _ _ (ok_upon S _ _ _ (mail_upon S Hty T q Hf)) Hr (calm0 _ _ (tasks0 T))) as [Hc E].
  destruct (in_turn_mail S Hty T q Hf s cs s' (reach_any _ _ _ _ Hr) Ht Hc Hcs Hi) as [[n Hn] _].
  rewrite Hn, E. cbn. apply prefix_take.
Qed.
Print Assumptions C85_in_order.
(** and all of them if [q] is still there in the end. *)
Theorem C85_all_arrive :
  forall S T q s cs s', serde_typed S -> told_apart S T ->
    reach (calls_of S (other_types S T)) (Sys world0 []) s -> there q (s_world s) ->
    in_turn S (other_types S T) s cs s' ->
    Forall (fun c => other_types S T c \/ is_Some (message_for S T q c)) cs ->
    there q (s_world s') ->
    mail S T q (w_log (s_world s')) = omap (message_for S T q) cs.
Proof.
  intros S T q s cs s' Hty Hf Hr Ht Hi Hcs Ht'.
  destruct (calm_reach (quiet_tasks T) (fun w => mail S T q (w_log w)) _ _ _ (ok_upon S _ _ _ (mail_upon S Hty T q Hf)) Hr (calm0 _ _ (tasks0 T))) as [Hc E].
  destruct (in_turn_mail S Hty T q Hf s cs s' (reach_any _ _ _ _ Hr) Ht Hc Hcs Hi) as [_ H].
  rewrite (H Ht'), E. done.
Qed.
Print Assumptions C85_all_arrive.

(** ** C86.  Across nodes *)
Lemma omap_prefix {A B} (f : A -> option B) xs ys : xs `prefix_of` ys -> omap f xs `prefix_of` omap f ys.
Proof. intros [zs ->]. exists (omap f zs). apply omap_app. Qed.
Lemma filter_prefix {A} (P : A -> Prop) `{!forall x, Decision (P x)} xs ys : xs `prefix_of` ys -> filter P xs `prefix_of` filter P ys.
Proof. intros [zs ->]. exists (filter P zs). apply list.filter_app. Qed.
Section across.
  Context (S : serde) (Hty : serde_typed S) (T q : N) (Hf : told_apart S T).
  Definition val_of (f : frame) : option value :=
    match f with FSend [TPid i] b => if decide (i = q) then de S T b else None | _ => None end.
  Lemma val_carrying (fs : list frame) : omap val_of fs = omap val_of (carrying S T fs).
  Proof.
    induction fs as [|f fs IH]; [done|]. unfold carrying. rewrite filter_cons. case_decide as Hd; cbn [omap list_omap].
    - by rewrite IH.
    - assert (val_of f = None) as ->; [|exact IH]. destruct f as [| | |ts b| | | | | |]; try done. cbn.
      assert (de S T b = None) as E by (destruct (de S T b); [destruct Hd; by rewrite bool_decide_true by eauto|done]).
      destruct ts as [|[i| |] [|]]; try done. by case_decide.
  Qed.
  Lemma frames_messages nd sup (fs : list frame) : omap (message_for S T q) (CFrame nd sup <$> fs) = omap val_of fs.
  Proof. induction fs as [|f fs IH]; [done|]. cbn [fmap list_fmap omap list_omap]. rewrite IH. done. Qed.
  Lemma carrying_payload fs : carrying S T (payload fs) = carrying S T fs.
  Proof.
    unfold carrying, payload. rewrite list_filter_filter. apply list_filter_iff. intros f. destruct f; cbn; tauto || (split; [tauto|done]) || idtac.
  Qed.
  Definition framed (v : value) : frame := FSend [TPid q] (ser S v).
  Lemma val_framed (vs : list value) : Forall (comes_back S T) vs -> omap val_of (framed <$> vs) = vs.
  Proof.
    induction 1 as [|v vs Hv _ IH]; [done|]. cbn [fmap list_fmap omap list_omap]. cbn [framed val_of]. rewrite decide_True by done.
    unfold comes_back in Hv. rewrite Hv. by rewrite IH.
  Qed.
  Definition send_over (id : N) (v : value) : call := CSend (DsOne (DPid (PRemote q id))) v.
  Lemma frames_for id (vs : list value) : Forall (comes_back S T) vs -> omap (frame_for S T id q) (send_over id <$> vs) = framed <$> vs /\
    Forall (fun c => is_Some (frame_for S T id q c)) (send_over id <$> vs).
  Proof.
    induction 1 as [|v vs Hv _ [IH1 IH2]]; [split; [done|constructor]|]. cbn [fmap list_fmap omap list_omap]. cbn [send_over frame_for].
    rewrite decide_True by done. rewrite IH1. split; [done|]. constructor; [|done]. cbn. rewrite decide_True by done. eauto.
  Qed.
  Lemma frame_ok nd sup f (fs : list frame) (vs : list value) : carrying S T fs `prefix_of` (framed <$> vs) -> Forall (comes_back S T) vs -> f ∈ fs ->
    other_types S T (CFrame nd sup f) \/ is_Some (message_for S T q (CFrame nd sup f)).
  Proof.
    intros Hp Hvs Hin. destruct f as [| | |ts b| | | | | |]; try (by left). destruct (de S T b) as [v|] eqn:E.
    - right. assert (FSend ts b ∈ carrying S T fs) as Hc.
      { apply elem_of_list_filter. split; [by rewrite bool_decide_true by eauto|done]. }
      assert (FSend ts b ∈ framed <$> vs) as Hc2. { destruct Hp as [zs ->]. apply elem_of_app. by left. }
      apply elem_of_list_fmap in Hc2 as (v' & Hv' & Hin'). injection Hv' as -> ->. cbn. rewrite decide_True by done. eauto.
    - left. intros T' v' E' <-. rewrite (Hty _ _ _ E') in E. congruence.
  Qed.
  Lemma streamed nm ad id p sender sA rs (vs : list value) sA' :
    reach (calls_of S (other_types S T)) (Sys world0 []) sA -> results sA rs -> linked nm ad id p sender (s_world sA) ->
    Forall (comes_back S T) vs ->
    in_turn S (fun c => other_types S T c /\ leaves_record nm ad p Connected c) sA (send_over id <$> vs) sA' ->
    carrying S T (default [] (w_out (s_world sA') !! sender)) `prefix_of` framed <$> vs /\
    (is_Some (w_regs (s_world sA') !! sender) -> carrying S T (default [] (w_out (s_world sA') !! sender)) = framed <$> vs).
  Proof.
    intros HrA Hres (L1 & L2 & L3) Hvs HtA.
    assert (hush S T world0) as Hh0. { split; [apply tasks0|]. intros n fs. cbn. by rewrite lookup_empty. }
    destruct (calm_reach (hush S T) (spoken S T sender) _ _ _ (ok_upon S _ _ _ (out_upon S Hty T Hf sender)) HrA (calm0 _ _ Hh0)) as [[HhA _] EA].
    destruct (frames_for id vs Hvs) as [HfA HfB].
    pose proof (reachable_ids S sA (reach_any _ _ _ _ HrA)) as Hids.
    assert (on_record nm ad id p Connected (Some (PLocal sender)) [] (s_world sA)) as Hrec.
    { constructor; try done; [|by apply (io_remote _ Hids nm ad)|apply prefix_nil]. intros nd' H'. exact (io_inj _ Hids _ _ _ H' L1). }
    assert (calm (fun w => hush S T w /\ on_record nm ad id p Connected (Some (PLocal sender)) [] w) (spoken S T sender) sA) as HcA.
    { split; [done|]. unfold results in Hres. rewrite Hres. apply List.Forall_forall. intros x Hx. apply in_map_iff in Hx as (v & <- & _). exact I. }
    destruct (in_turn_stream S Hty T Hf nm ad id p sender q sA (send_over id <$> vs) sA' (reach_any _ _ _ _ HrA) L3 HcA HfB HtA) as (_ & [n Hn] & He).
    rewrite EA, HfA in Hn, He. change (spoken S T sender world0) with (carrying S T []) in Hn, He. cbn [carrying app] in Hn, He. unfold spoken in Hn, He.
    split; [rewrite Hn; apply prefix_take|exact He].
  Qed.
End across.

(** What a process of a node A sends to the process [q] of a node B over a connection that stays up - one message of type
    [T] after the other, while others make any calls except to send messages of this type or to end the connection -
    arrives at [q] in this order, without gaps or repetitions, whatever the timing on both nodes and on the network:
    - on A, the connection is on record with the sender process [sender];
    - the connection ([runs], Heart.v) has been given, so far, what A's sender got, or a part of it;
    - on B, the receiver handles what it reads from the connection one frame after the other, while others make any calls
      except to send messages of this type. *)
Theorem C86_across_nodes :
  forall S T q nm ad id p sender sA rs (vs : list value) sA' o may t0 h pending w tr st nd sup sB sB',
    serde_typed S -> told_apart S T ->
    reach (calls_of S (other_types S T)) (Sys world0 []) sA -> results sA rs -> linked nm ad id p sender (s_world sA) ->
    Forall (comes_back S T) vs ->
    in_turn S (fun c => other_types S T c /\ leaves_record nm ad p Connected c) sA ((fun v => CSend (DsOne (DPid (PRemote q id))) v) <$> vs) sA' ->
    runs o may (fresh t0 h pending) tr st ->
    Forall sendable (pending w ++ handed w tr) ->
    pending w ++ handed w tr `prefix_of` default [] (w_out (s_world sA') !! sender) ->
    reach (calls_of S (other_types S T)) (Sys world0 []) sB -> there q (s_world sB) ->
    in_turn S (other_types S T) sB (CFrame nd sup <$> (snd <$> got (peer w) tr)) sB' ->
    mail S T q (w_log (s_world sB')) `prefix_of` vs.
Proof.
  intros S T q nm ad id p sender sA rs vs sA' o may t0 h pending w tr st nd sup sB sB' Hty Hf HrA Hres Hlink Hvs HtA Hrun Hsend Hhand HrB HqB HtB.
  destruct (streamed S Hty T q Hf nm ad id p sender sA rs vs sA' HrA Hres Hlink Hvs HtA) as [HpA _].
  set (fsA := default [] (w_out (s_world sA') !! sender)) in *.
  pose proof (C81_frames_arrive_in_order o may t0 h pending w tr st Hrun Hsend) as HC.
  set (gs := snd <$> got (peer w) tr) in *.
  assert (carrying S T gs `prefix_of` framed S q <$> vs) as HpB.
  { rewrite <- carrying_payload. etrans; [apply filter_prefix, HC|]. fold (carrying S T (payload (pending w ++ handed w tr))). rewrite carrying_payload.
    etrans; [apply filter_prefix, Hhand|]. exact HpA. }
  etrans; [apply (C85_in_order S T q sB _ sB' Hty Hf HrB HqB HtB)|].
  - apply List.Forall_forall. intros c Hc. apply elem_of_list_In, elem_of_list_fmap in Hc as (f & -> & Hin).
    by apply (frame_ok S Hty T q Hf nd sup f gs vs).
  - rewrite frames_messages, val_carrying. pose proof (omap_prefix (val_of S T q) _ _ HpB) as Hx. by rewrite (val_framed S T q vs Hvs) in Hx.
Qed.
Print Assumptions C86_across_nodes.

(** And if B's [q] is there in the end, A's sender was not ended, and the connection has delivered all it was given and was
    given all A's sender got, all of them arrive: *)
Theorem C86_nothing_lost :
  forall S T q nm ad id p sender sA rs (vs : list value) sA' o may t0 h pending w tr st nd sup sB sB',
    serde_typed S -> told_apart S T ->
    reach (calls_of S (other_types S T)) (Sys world0 []) sA -> results sA rs -> linked nm ad id p sender (s_world sA) ->
    Forall (comes_back S T) vs ->
    in_turn S (fun c => other_types S T c /\ leaves_record nm ad p Connected c) sA ((fun v => CSend (DsOne (DPid (PRemote q id))) v) <$> vs) sA' ->
    is_Some (w_regs (s_world sA') !! sender) ->
    runs o may (fresh t0 h pending) tr st ->
    Forall sendable (pending w ++ handed w tr) ->
    pending w ++ handed w tr = default [] (w_out (s_world sA') !! sender) ->
    sd_sending (get w st) = true -> sd_queue (get w st) = [] -> sd_out (get w st) = [] -> fst (decode (sd_buf (get (peer w) st))) = NeedMore ->
    reach (calls_of S (other_types S T)) (Sys world0 []) sB -> there q (s_world sB) ->
    in_turn S (other_types S T) sB (CFrame nd sup <$> (snd <$> got (peer w) tr)) sB' -> there q (s_world sB') ->
    mail S T q (w_log (s_world sB')) = vs.
Proof.
  intros S T q nm ad id p sender sA rs vs sA' o may t0 h pending w tr st nd sup sB sB' Hty Hf HrA Hres Hlink Hvs HtA Hsnd Hrun Hsend Hhand Hse Hqu Hou Hde HrB HqB HtB HqB'.
  destruct (streamed S Hty T q Hf nm ad id p sender sA rs vs sA' HrA Hres Hlink Hvs HtA) as [_ HpA]. specialize (HpA Hsnd).
  pose proof (C81_nothing_lost o may t0 h pending w tr st Hrun Hsend Hse Hqu Hou Hde) as HC.
  set (gs := snd <$> got (peer w) tr) in *.
  assert (carrying S T gs = framed S q <$> vs) as HpB.
  { rewrite <- carrying_payload, HC, carrying_payload, Hhand. exact HpA. }
  rewrite (C85_all_arrive S T q sB _ sB' Hty Hf HrB HqB HtB); [|clear HtB|done].
  - rewrite frames_messages, val_carrying, HpB. exact (val_framed S T q vs Hvs).
  - apply List.Forall_forall. intros c Hc. apply elem_of_list_In, elem_of_list_fmap in Hc as (f & -> & Hin).
    apply (frame_ok S Hty T q Hf nd sup f gs vs); [by rewrite HpB|done|done].
Qed.
Print Assumptions C86_nothing_lost.

(** ** The hypotheses can be met *)
(** A serialisation that keeps the types apart: the type as that many a's, a b, and the data as that many a's. *)
Fixpoint count_a (b : bytes) : N * bytes :=
  match b with
  | c :: b' => if Ascii.eqb c "a"%char then let '(n, r) := count_a b' in (N.succ n, r) else (0%N, b)
  | [] => (0%N, [])
  end.
Definition SF : serde :=
  Serde (fun v => replicate (N.to_nat (v_type v)) "a"%char ++ "b"%char :: replicate (N.to_nat (v_data v)) "a"%char)
    (fun T b => match count_a b with
                | (n, c :: r) => if (n =? T)%N && Ascii.eqb c "b"%char then (let '(m, r') := count_a r in match r' with [] => Some (Val T m) | _ => None end) else None
                | _ => None
                end).
Lemma count_replicate n r : (forall r', r <> "a"%char :: r') -> count_a (replicate n "a"%char ++ r) = (N.of_nat n, r).
Proof.
  intros Hr. induction n as [|n IH].
  - cbn. destruct r as [|c r]; [done|]. cbn. destruct (Ascii.eqb c "a") eqn:E; [|done]. apply Ascii.eqb_eq in E. subst. by destruct (Hr r).
  - cbn [replicate app count_a]. change (Ascii.eqb "a" "a") with true. cbn [andb]. rewrite IH. f_equal. lia.
Qed.
Lemma SF_reads (v : value) T : de SF T (ser SF v) = if decide (v_type v = T) then Some v else None.
Proof.
  destruct v as [t d]. cbn -[count_a replicate]. rewrite count_replicate by done. rewrite N2Nat.id. change (Ascii.eqb "b" "b") with true. rewrite andb_true_r.
  rewrite <- (app_nil_r (replicate (N.to_nat d) "a"%char)), count_replicate by done. rewrite N2Nat.id.
  destruct (t =? T)%N eqn:E; [apply N.eqb_eq in E as ->; by rewrite decide_True|]. apply N.eqb_neq in E. by rewrite decide_False.
Qed.
Lemma SF_apart T : told_apart SF T.
Proof. intros v Hv. by rewrite SF_reads, decide_False. Qed.
Lemma SF_back (v : value) : comes_back SF (v_type v) v.
Proof. unfold comes_back. by rewrite SF_reads, decide_True. Qed.
Lemma SF_typed : serde_typed SF.
Proof.
  intros T b v. cbn. destruct (count_a b) as [n [|c r]]; [done|]. destruct ((n =? T)%N && Ascii.eqb c "b"); [|done]. destruct (count_a r) as [m [|]]; [|done].
  by intros [= <-].
Qed.
Inductive tmove := TTheirs (c : call) | TMine (c : call).
Fixpoint tplay (S : serde) (ms : list tmove) (w : world) (rs : list val) : option (world * list val) :=
  match ms with
  | [] => Some (w, rs)
  | TTheirs c :: ms => match run (call_prog S c) w with Done w1 v => tplay S ms w1 (rs ++ [v]) | _ => None end
  | TMine c :: ms => match run (call_prog S c) w with Done w1 _ => tplay S ms w1 rs | _ => None end
  end.
Definition own_calls (ms : list tmove) : list call := omap (fun m => match m with TMine c => Some c | _ => None end) ms.
Definition their_calls (ms : list tmove) : list call := omap (fun m => match m with TTheirs c => Some c | _ => None end) ms.
Lemma run_carried S ok (p : prog world val) w w' v ts : run p w = Done w' v -> carried_out S ok (Sys w ts) p v (Sys w' ts).
Proof.
  revert w. induction p as [x|m|g f k IH]; intros w H; cbn in H; [injection H as <- <-; constructor|done|].
  destruct (g w) eqn:E; [|done]. eapply co_tick; [exact E|]. by apply IH.
Qed.
Lemma others_turn S ok s s1 cs s2 : reach (calls_of S ok) s s1 -> in_turn S ok s1 cs s2 -> in_turn S ok s cs s2.
Proof. induction 1 as [|s s' s'' H _ IH]; [done|]. intros Hi. eapply it_other; [exact H|by apply IH]. Qed.
Lemma tplay_turn S (ok : call -> Prop) ms : Forall ok (their_calls ms) -> forall w rs w' rs',
  tplay S ms w rs = Some (w', rs') -> in_turn S ok (Sys w (map Ret rs)) (own_calls ms) (Sys w' (map Ret rs')).
Proof.
  induction ms as [|[c|c] ms IH]; intros Hok w rs w' rs' H; cbn [tplay] in H.
  - injection H as <- <-. constructor.
  - destruct (run (call_prog S c) w) as [w1 v| |] eqn:E; [|done..]. cbn in Hok. inversion Hok as [|? ? Hc Hcs]; subst.
    eapply others_turn; [|exact (IH Hcs _ _ _ _ H)].
    pose proof (run_reach (calls_of S ok) (map Ret rs) (call_prog S c) w) as Hr. rewrite E in Hr.
    eapply rtc_l; [apply (step_call (calls_of S ok) (call_prog S c) (Sys w (map Ret rs))); by exists c|]. by rewrite map_app.
  - destruct (run (call_prog S c) w) as [w1 v| |] eqn:E; [|done..]. cbn in Hok. eapply it_call; [exact (run_carried S ok _ _ _ _ _ E)|]. by apply IH.
Qed.
Lemma turn_reach S ok s s' : in_turn S ok s [] s' -> reach (calls_of S ok) s s'.
Proof.
  remember [] as cs eqn:E. induction 1 as [s|s s1 cs s2 H1 _ IH|]; [apply rtc_refl|eapply rtc_l; [exact H1|by apply IH]|discriminate E].
Qed.
(** Play [ms0] with others only, then [ms]. *)
Lemma tplay_example S (ok0 ok : call -> Prop) (P : world -> world -> Prop) ms0 ms : Forall ok0 ms0 -> Forall ok (their_calls ms) ->
  match tplay S (TTheirs <$> ms0) world0 [] with
  | Some (w, rs) => match tplay S ms w rs with Some (w', _) => P w w' | None => False end
  | None => False
  end -> exists s rs s', reach (calls_of S ok0) (Sys world0 []) s /\ results s rs /\ in_turn S ok s (own_calls ms) s' /\ P (s_world s) (s_world s').
Proof.
  intros H0 H1 H. destruct (tplay S (TTheirs <$> ms0) world0 []) as [[w rs]|] eqn:E0; [|done]. destruct (tplay S ms w rs) as [[w' rs']|] eqn:E1; [|done].
  exists (Sys w (map Ret rs)), rs, (Sys w' (map Ret rs')). split; [|split; [done|split; [by apply tplay_turn|exact H]]].
  apply turn_reach. pose proof (tplay_turn S ok0 (TTheirs <$> ms0)) as Hx.
  assert (their_calls (TTheirs <$> ms0) = ms0 /\ own_calls (TTheirs <$> ms0) = []) as [E2 E3].
  { clear. induction ms0 as [|c ms0 [IH1 IH2]]; [done|]. cbn. split; [by f_equal|done]. }
  rewrite E2, E3 in Hx. exact (Hx H0 _ _ _ _ E0).
Qed.
Definition mine7 (d : N) : tmove := TMine (CSend (DsOne (DPid (PLocal 1))) (Val 7 d)).
(** Three messages of type 7 to process 1, the last two with others' messages and exits in between. *)
Example C85_example : exists s rs s', reach (calls_of SF (other_types SF 7)) (Sys world0 []) s /\ results s rs /\
  in_turn SF (other_types SF 7) s [CSend (DsOne (DPid (PLocal 1))) (Val 7 10); CSend (DsOne (DPid (PLocal 1))) (Val 7 20); CFrame nodeA (PLocal 2) (FSend [TPid 1] (ser SF (Val 7 30)))] s' /\
  (there 1 (s_world s) /\ there 1 (s_world s') /\ mail SF 7 1 (w_log (s_world s')) = [Val 7 10; Val 7 20; Val 7 30]).
Proof.
  apply (tplay_example SF _ _ (fun w w' => there 1 w /\ there 1 w' /\ mail SF 7 1 (w_log w') = [Val 7 10; Val 7 20; Val 7 30]) [CSpawn 0 false false; CSpawn 0 false false]
    [mine7 10; TTheirs (CSend (DsOne (DPid (PLocal 1))) (Val 8 5)); mine7 20; TTheirs (CExit 2 (PLocal 1) RNormal); TMine (CFrame nodeA (PLocal 2) (FSend [TPid 1] (ser SF (Val 7 30))))]).
  - repeat constructor.
  - repeat constructor; cbn; lia.
  - unfold there. vm_compute. split_and!; [eexists; reflexivity..|reflexivity].
Qed.
(** Process 1 of A sends two messages to process 1 of B, with an exit sent by another process in between. *)
Definition sent2 : list frame := [FSend [TPid 1] (ser SF (Val 7 10)); FExit 9 1 RKill; FSend [TPid 1] (ser SF (Val 7 20))].
Example C86_example : exists sA rs sA' tr st sB rsB sB',
  (reach (calls_of SF (other_types SF 7)) (Sys world0 []) sA /\ results sA rs /\
   in_turn SF (fun c => other_types SF 7 c /\ leaves_record "a" (SA4 1 5) (PLocal 2) Connected c) sA
     [CSend (DsOne (DPid (PRemote 1 1))) (Val 7 10); CSend (DsOne (DPid (PRemote 1 1))) (Val 7 20)] sA' /\
   (linked "a" (SA4 1 5) 1 (PLocal 2) 3 (s_world sA) /\ is_Some (w_regs (s_world sA') !! 3%N) /\ default [] (w_out (s_world sA') !! 3%N) = sent2)) /\
  (runs defaults free (fresh 0 (fun _ => 0%N) (fun _ => [])) tr st /\
   (handed A tr = sent2 /\ sd_sending (get A st) = true /\ sd_queue (get A st) = [] /\ sd_out (get A st) = [] /\ fst (decode (sd_buf (get B st))) = NeedMore /\
    snd <$> got B tr = sent2)) /\
  (reach (calls_of SF (other_types SF 7)) (Sys world0 []) sB /\ results sB rsB /\
   in_turn SF (other_types SF 7) sB (CFrame nodeA (PLocal 2) <$> sent2) sB' /\
   (there 1 (s_world sB) /\ there 1 (s_world sB') /\ mail SF 7 1 (w_log (s_world sB')) = [Val 7 10; Val 7 20])).
Proof.
  destruct (tplay_example SF (other_types SF 7) (fun c => other_types SF 7 c /\ leaves_record "a" (SA4 1 5) (PLocal 2) Connected c)
    (fun w w' => linked "a" (SA4 1 5) 1 (PLocal 2) 3 w /\ is_Some (w_regs w' !! 3%N) /\ default [] (w_out w' !! 3%N) = sent2)
    [CSpawn 0 false false; CConnect nodeA; CSupervise 2 "a" (SA4 1 5)]
    [TMine (CSend (DsOne (DPid (PRemote 1 1))) (Val 7 10)); TTheirs (CExit 1 (PRemote 9 1) RKill); TMine (CSend (DsOne (DPid (PRemote 1 1))) (Val 7 20))]) as (sA & rs & sA' & HA).
  { repeat constructor. } { repeat constructor. }
  { unfold linked. vm_compute. split_and!; try reflexivity; [eexists; split_and!; reflexivity|eexists; reflexivity..]. }
  destruct (hplay_example defaults (fun _ _ _ => true) free (fresh 0 (fun _ => 0%N) (fun _ => []))
    [MSend A; MHand A (FSend [TPid 1] (ser SF (Val 7 10))); MSend A; MRead B 9; MHand A (FExit 9 1 RKill); MHand A (FSend [TPid 1] (ser SF (Val 7 20))); MSend A; MSend A; MRead B 200; MFrame B; MFrame B; MFrame B]
    (fun tr st => handed A tr = sent2 /\ sd_sending (get A st) = true /\ sd_queue (get A st) = [] /\ sd_out (get A st) = [] /\ fst (decode (sd_buf (get B st))) = NeedMore /\
    snd <$> got B tr = sent2)) as (tr & st & HT); [done|vm_compute; split_and!; reflexivity|].
  destruct (tplay_example SF (other_types SF 7) (other_types SF 7)
    (fun w w' => there 1 w /\ there 1 w' /\ mail SF 7 1 (w_log w') = [Val 7 10; Val 7 20])
    [CSpawn 0 false false; CSpawn 0 false false] (TMine <$> (CFrame nodeA (PLocal 2) <$> sent2))) as (sB & rsB & sB' & HB).
  { repeat constructor. } { repeat constructor. }
  { unfold there. vm_compute. split_and!; [eexists; reflexivity..|reflexivity]. }
  exists sA, rs, sA', tr, st, sB, rsB, sB'. exact (conj HA (conj HT HB)).
Qed.
Example C86_example_sendable : Forall sendable sent2.
Proof. repeat (apply List.Forall_cons; [split_and!; [vm_compute; reflexivity..|exact I]|]). apply List.Forall_nil. Qed.
Example C86_example_serde : serde_typed SF /\ told_apart SF 7 /\ Forall (comes_back SF 7) [Val 7 10; Val 7 20].
Proof. split; [exact SF_typed|]. split; [exact (SF_apart 7)|]. repeat constructor; apply (SF_back (Val 7 _)). Qed.
