(** C80: the notices of a monitor are about what was monitored, and go to the process that monitors. *)
From stdpp Require Import base list gmap numbers strings countable sorting relations.
From Coq Require Import Lia.
From Verif Require Import Prog ProgProofs ProgInv Types Mailbox MailboxSpec World ProcApi NodeApi Api Steps Hist Labels SchedSpec SchedProofs SchedProps ProcProofs
  OriginSpec TruthProps OrderProps Client ClientSpec ClientStep ClientRun ClientFlush ClientProps AppProps Once NoticeSpec NoticeProofs.

Section runs.
  Context (S : serde) (Hty : serde_typed S) (me k : N).
  Notation grows := (fun w w' : world => w_log w `prefix_of` w_log w').
  (** What is kept along a run of a client. *)
  Record held {R} (X : sys world val * cstate R) (x : option use) : Prop := Held {
    hd_settled : settled (J k) (fst X) x;
    hd_busy : match snd X with Busy c p _ => (exists st, known st x /\ once (J k) (said k c) st p) /\ guar grows p | _ => True end;
    hd_grows : Forall (guar grows) (s_threads (fst X));
    hd_quiet : quiet me (fst X);
    hd_backed : exists own, backed S (fst X) (match snd X with Busy _ p _ => p :: own | _ => own end) }.
  Definition told (w : world) (x : option use) (d : deed) : Prop :=
    match d with
    | Did c v => said k c x v
    | Got m => exists y, (me, y) ∈ w_log w /\ readable S y m
    | _ => True
    end.
  Lemma told_mono w w' x x' d : grows w w' -> known x x' -> told w x d -> told w' x' d.
  Proof.
    intros Hw Hx. destruct d as [c v|m| |]; cbn; auto.
    - unfold said. destruct c; auto; destruct v; auto; by apply right_known.
    - intros (y & Hy & Hm). exists y. split; [|done]. destruct Hw as [l ->]. apply elem_of_app. by left.
  Qed.
  Lemma call_grows c : guar grows (call_prog S c).
  Proof. eapply guar_mono; [|apply call_fp]. intros x y (a & _ & ->). apply does_log. Qed.
  Lemma J_loc w w' x : w_next_ref w' = w_next_ref w -> w_log w' = w_log w -> w_mons w' = w_mons w -> w_nmons w' = w_nmons w -> J k w x -> J k w' x.
  Proof.
    intros E1 E2 E3 E4. destruct x as [e|]; cbn; intros [H1 [F1 F2 F3]]; (split; [by rewrite E1|]); split; rewrite ?E2, ?E3, ?E4; done.
  Qed.
  Lemma receive_world T f w w1 r : run (try_receive S me T f false) w = Done w1 r ->
    w_next_ref w1 = w_next_ref w /\ w_log w1 = w_log w /\ w_mons w1 = w_mons w /\ w_nmons w1 = w_nmons w.
  Proof.
    unfold try_receive. cbn [run atom]. unfold receive_op. destruct (w_loc w !! me) as [l|].
    - destruct (select S T f false l) as [s l']. intros H. injection H as <- <-. done.
    - intros H. injection H as <- <-. done.
  Qed.
  Lemma backed_reachable s own : backed S s own -> exists us, reachable S (Sys (s_world s) us).
  Proof. intros (us & H & _). by exists us. Qed.
  Lemma held_step {R} (X Y : sys world val * cstate R) a x : cstep S me X a Y -> held X x ->
    exists x', held Y x' /\ known x x' /\ grows (s_world (fst X)) (s_world (fst Y)) /\ Forall (told (s_world (fst Y)) x') a.
  Proof.
    intros Hs [H1 H2 H3 H4 H5].
    assert (cruns S me X (a ++ []) Y) as Hrun by (econstructor; [exact Hs|constructor]).
    destruct (cruns_backed S Hty me X _ Y Hrun H4 H5) as [Hq Hb]. clear Hrun.
    destruct Hs as [s s' c Ho|s c kk|w ts c g f p kk Hg|s c v kk|s T f limit kk|w ts T f t kk w1 E|w ts T f t kk w1 m E|w ts T f t kk w1 E Hx|w ts T f kk l l' El Er]; cbn [fst snd] in *.
    - destruct (settled_step (J k) (calls_of S (foreign_call me)) s s' x) as (x' & A1 & A2); [|exact Ho|exact H1|].
      { intros p (c' & _ & ->). eapply once_mono; [|apply (n_call S k c')]. done. }
      assert (grows (s_world s) (s_world s') /\ Forall (guar grows) (s_threads s')) as [A3 A4].
      { destruct Ho as [i y z Hi|p y (c' & _ & ->)]; [|split; [done|]; apply Forall_app; split; [done|constructor; [apply call_grows|constructor]]].
        unfold tick in Hi. destruct (s_threads y !! i) as [[| |g f kk]|] eqn:Et; try discriminate. destruct (g (s_world y)) eqn:Eg; inversion Hi; subst; cbn.
        pose proof (Forall_lookup_1 _ _ _ _ H3 Et) as Hk. cbn in Hk. destruct (Hk _ Eg) as [B1 B2]. split; [done|by apply Forall_insert]. }
      exists x'. split; [|split; [done|split; [done|constructor]]]. constructor; cbn [fst snd]; try done.
      destruct c; try done. destruct H2 as [(st & B1 & B2) B3]. split; [|done]. exists st. split; [by eapply known_trans|done].
    - exists x. split; [|split; [done|split; [done|constructor]]]. constructor; cbn [fst snd]; try done.
      split; [|apply call_grows]. exists None. split; [done|apply n_call].
    - destruct H2 as [(st & B1 & B2) B3]. cbn in B2, B3. destruct H1 as [J1 J2]. cbn in J1, J2. destruct (B2 w x Hg J1 B1) as (x' & st' & C1 & C2 & C3 & C4 & C5).
      destruct (B3 w Hg) as [D1 D2].
      exists x'. split; [|split; [done|split; [done|constructor]]]. constructor; cbn [fst snd]; try done.
      + eapply (settled_world (J k) w); [|done|exact C2]. split; done.
      + split; [|done]. by exists st'.
    - destruct H2 as [(st & B1 & B2) B3]. cbn in B2.
      exists x. split; [|split; [done|split; [done|]]]; [by constructor|]. constructor; [|constructor]. eapply (told_mono (s_world s) _ st); [done|exact B1|exact B2].
    - exists x. split; [|split; [done|split; [done|constructor]]]. by constructor.
    - destruct (receive_world _ _ _ _ _ E) as (E1 & E2 & E3 & E4).
      exists x. split; [|split; [done|split; [cbn; rewrite E2; done|constructor]]]. constructor; cbn [fst snd]; try done.
      eapply (settled_world (J k) w); [exact H1| |done]. eapply J_loc; [done..|]. apply H1.
    - destruct (receive_world _ _ _ _ _ E) as (E1 & E2 & E3 & E4).
      exists x. split; [|split; [done|split; [cbn; rewrite E2; done|]]].
      + constructor; cbn [fst snd]; try done. eapply (settled_world (J k) w); [exact H1| |done]. eapply J_loc; [done..|]. apply H1.
      + constructor; [|constructor]. cbn. destruct H5 as (own & H5). destruct (backed_reachable _ _ H5) as (us & Hr).
        destruct (C77_received_had_arrived S _ me T f false w1 m Hr E) as (y & Hy & Hm). cbn in Hy. exists y. rewrite E2. done.
    - destruct (receive_world _ _ _ _ _ E) as (E1 & E2 & E3 & E4).
      exists x. split; [|split; [done|split; [cbn; rewrite E2; done|]]]; [|by repeat constructor]. constructor; cbn [fst snd]; try done.
      eapply (settled_world (J k) w); [exact H1| |done]. eapply J_loc; [done..|]. apply H1.
    - exists x. split; [|split; [done|split; [done|]]]; [|by repeat constructor]. constructor; cbn [fst snd]; try done.
      eapply (settled_world (J k) w); [exact H1| |done]. apply (J_loc w); [done..|]. apply H1.
  Qed.
  Lemma held_runs {R} (X Y : sys world val * cstate R) tr x : cruns S me X tr Y -> held X x ->
    exists x', held Y x' /\ known x x' /\ grows (s_world (fst X)) (s_world (fst Y)) /\ Forall (told (s_world (fst Y)) x') tr.
  Proof.
    intros H. revert x. induction H as [X|X a Y tr Z Hs H IH]; intros x Hx; [exists x; split_and!; [done|done|done|constructor]|].
    destruct (held_step _ _ _ _ Hs Hx) as (x1 & A1 & A2 & A3 & A4). destruct (IH _ A1) as (x2 & B1 & B2 & B3 & B4).
    exists x2. split_and!; [done|by eapply known_trans|by etrans|]. apply Forall_app. split; [|done].
    eapply Forall_impl; [exact A4|]. intros d. by apply told_mono.
  Qed.
  Lemma held_start {R} (sc : script R) : exists x, held (Sys world0 [], At sc) x.
  Proof.
    assert (fits k UOther world0) as Hf.
    { split; cbn; [intros o y Hy; by apply elem_of_nil in Hy| |]; intros ? ? ? H; by rewrite lookup_empty in H. }
    assert (exists x, J k world0 x) as [x Hx].
    { destruct (decide (w_next_ref world0 <= k)%N); [exists None|exists (Some UOther)]; (split; [lia|done]). }
    exists x. constructor; cbn [fst snd]; try done; [split; [done|constructor]|constructor|constructor|]. exists [], []. split; [apply rtc_refl|done].
  Qed.
  Lemma run_told {R} (sc : script R) tr (Y : sys world val * cstate R) : cruns S me (Sys world0 [], At sc) tr Y ->
    exists x, J k (s_world (fst Y)) x /\ Forall (told (s_world (fst Y)) x) tr.
  Proof.
    intros H. destruct (held_start sc) as [x0 H0]. destruct (held_runs _ _ _ _ H H0) as (x & A1 & _ & _ & A4). exists x. split; [apply A1|done].
  Qed.
End runs.

(** ** C80.  A process [me] follows any script from the start of the node, while everybody else makes any calls at
    any time.  If it monitored process [d] and got the reference [r], then every notice with reference [r]
    that ever arrives in a mailbox arrives in that of [me], is a ProcessDown notice, and names [d]; every
    ProcessDown with reference [r] that [me] receives names [d], and it never receives a NodeDown with
    reference [r]. *)
Theorem C80_notices_name_the_monitored (S : serde) (me : N) {R} (sc : script R) tr s c0 c v k d :
  serde_typed S -> cruns S me (Sys world0 [], At sc) tr (s, c0) -> Did c v ∈ tr -> monitors me c v (RLocal k) d ->
  (forall o x, (o, x) ∈ w_log (s_world s) -> is_notice (RLocal k) x -> o = me /\ exists why, x = IProcessDown d (RLocal k) why) /\
  (forall m, Got (MSystem m) ∈ tr -> notice_for (RLocal k) m -> exists why, m = SProcessDown d (RLocal k) why).
Proof.
  intros Hty Hr Hd Hm. destruct (run_told S Hty me k sc tr _ Hr) as (x & HJ & Ht). cbn [fst] in HJ, Ht.
  pose proof (fun d H => proj1 (Forall_forall _ _) Ht d H) as Ht'.
  assert (x = Some (UProcess me d)) as ->.
  { pose proof (Ht' _ Hd) as H. cbn in H. destruct c; cbn in Hm; try done; destruct v; cbn in Hm, H; try done;
      destruct Hm as (-> & -> & <-); by apply H. }
  destruct HJ as [_ [F1 _ _]].
  assert (forall o y, (o, y) ∈ w_log (s_world s) -> is_notice (RLocal k) y -> o = me /\ exists why, y = IProcessDown d (RLocal k) why) as Hlog.
  { intros o y Hy Hn. pose proof (F1 _ _ Hy) as H. destruct y as [b|u|[p why|d' r why|nd r]|d' r why|nd r|r p|i]; cbn in Hn, H; try done.
    - subst r. specialize (H eq_refl). injection H as <- <-. split; [done|by eexists].
    - subst r. by specialize (H eq_refl). }
  split; [exact Hlog|]. intros m Hg Hn. pose proof (Ht' _ Hg) as (y & Hy & Hb).
  assert (is_notice (RLocal k) y) as Hy'.
  { destruct y as [b|u|z|d' r why|nd r|r p|i]; cbn in Hb |- *; try done; try (destruct Hb as (? & ? & _ & ?); done); injection Hb as ->; done. }
  destruct (Hlog _ _ Hy Hy') as [_ (why & ->)]. cbn in Hb. injection Hb as ->. by eexists.
Qed.
Print Assumptions C80_notices_name_the_monitored.
(** The same for Node::monitor. *)
Theorem C80_notices_name_the_node (S : serde) (me : N) {R} (sc : script R) tr s c0 c v k nd :
  serde_typed S -> cruns S me (Sys world0 [], At sc) tr (s, c0) -> Did c v ∈ tr -> monitors_node me c v (RLocal k) nd ->
  (forall o x, (o, x) ∈ w_log (s_world s) -> is_notice (RLocal k) x -> o = me /\ x = INodeDown nd (RLocal k)) /\
  (forall m, Got (MSystem m) ∈ tr -> notice_for (RLocal k) m -> m = SNodeDown nd (RLocal k)).
Proof.
  intros Hty Hr Hd Hm. destruct (run_told S Hty me k sc tr _ Hr) as (x & HJ & Ht). cbn [fst] in HJ, Ht.
  pose proof (fun d H => proj1 (Forall_forall _ _) Ht d H) as Ht'.
  assert (x = Some (UNode me nd)) as ->.
  { pose proof (Ht' _ Hd) as H. cbn in H. destruct c; cbn in Hm; try done; destruct v; cbn in Hm, H; try done;
      destruct Hm as (-> & -> & <-); by apply H. }
  destruct HJ as [_ [F1 _ _]].
  assert (forall o y, (o, y) ∈ w_log (s_world s) -> is_notice (RLocal k) y -> o = me /\ y = INodeDown nd (RLocal k)) as Hlog.
  { intros o y Hy Hn. pose proof (F1 _ _ Hy) as H. destruct y as [b|u|[p why|d' r why|nd' r]|d' r why|nd' r|r p|i]; cbn in Hn, H; try done.
    - subst r. by specialize (H eq_refl).
    - subst r. specialize (H eq_refl). injection H as <- <-. done. }
  split; [exact Hlog|]. intros m Hg Hn. pose proof (Ht' _ Hg) as (y & Hy & Hb).
  assert (is_notice (RLocal k) y) as Hy'.
  { destruct y as [b|u|z|d' r why|nd' r|r p|i]; cbn in Hb |- *; try done; try (destruct Hb as (? & ? & _ & ?); done); injection Hb as ->; done. }
  destruct (Hlog _ _ Hy Hy') as [_ ->]. cbn in Hb. by injection Hb as ->.
Qed.
Print Assumptions C80_notices_name_the_node.

Lemma played_run {R} S me ms (sc : script R) (Q : list deed -> Prop) :
  match cplay S me ms world0 sc with Some (_, _, tr) => Q tr | None => False end ->
  exists s c0 tr, cruns S me (Sys world0 [], At sc) tr (s, c0) /\ Q tr.
Proof.
  destruct (cplay S me ms world0 sc) as [[[w sc'] tr]|] eqn:E; [|done]. intros HQ.
  destruct (cplay_cruns S me ms world0 sc w sc' tr [] E) as (ts & Hr). exists (Sys w ts), (At sc'), tr. split; [exact Hr|exact HQ].
Qed.
(** A process that monitors three others, two of which end, receives one notice for each, with the right name. *)
Definition watcher : script (option message) :=
  SCall (CMonitor 1 (DPid (PLocal 2))) (fun _ => SCall (CMonitorAlias 1 (DNamed "x" NLocal) false) (fun _ => SCall (CSpawn 1 false true) (fun _ =>
  SWait 7 (fun _ => true) None (fun m => SWait 7 (fun _ => true) None (fun m => SRet m))))).
Example C80_example : exists s c0 tr, cruns S0 1 (Sys world0 [], At watcher) tr (s, c0) /\
  Did (CMonitor 1 (DPid (PLocal 2))) (VRef (RLocal 1)) ∈ tr /\ Did (CMonitorAlias 1 (DNamed "x" NLocal) false) (VRef (RLocal 2)) ∈ tr /\
  Did (CSpawn 1 false true) (VPidRef (PLocal 4) (RLocal 3)) ∈ tr /\
  Got (MSystem (SProcessDown (DNamed "x" NLocal) (RLocal 2) (RCustom "boom"))) ∈ tr /\
  Got (MSystem (SProcessDown (DPid (PLocal 4)) (RLocal 3) RNormal)) ∈ tr.
Proof.
  apply (played_run S0 1 [Theirs (CSpawn 0 false false); Theirs (CSpawn 0 false false); Theirs (CSpawn 0 false false); Theirs (CRegister (PLocal 3) "x"); Mine []; Mine []; Mine []; Mine [CCrash 3 (RCustom "boom"); CFinish 4]; Mine []] watcher).
  vm_compute. repeat split; repeat first [apply elem_of_list_here | apply elem_of_list_further].
Qed.
(** ... and a node monitor. *)
Definition node_watcher : script (option message) :=
  SCall (CNodeMonitor 1 (NRemote "b" (SA4 7 80))) (fun _ => SWait 7 (fun _ => true) None (fun m => SRet m)).
Example C80_node_example : exists s c0 tr, cruns S0 1 (Sys world0 [], At node_watcher) tr (s, c0) /\
  Did (CNodeMonitor 1 (NRemote "b" (SA4 7 80))) (VRef (RLocal 1)) ∈ tr /\ Got (MSystem (SNodeDown (NRemote "b" (SA4 7 80)) (RLocal 1))) ∈ tr.
Proof.
  apply (played_run S0 1 [Theirs (CSpawn 0 false false); Theirs (CNodeStart "a" (SA4 1 1)); Mine []; Mine [CSupDown (NRemote "b" (SA4 7 80)) (PLocal 3)]] node_watcher).
  vm_compute. repeat split; repeat first [apply elem_of_list_here | apply elem_of_list_further].
Qed.
