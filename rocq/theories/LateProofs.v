(** No exit signal after the shutdown of a child: proofs. *)
From stdpp Require Import base list gmap numbers strings countable sorting relations.
From Coq Require Import Lia.
From Verif Require Import Prog ProgProofs ProgInv Types Mailbox MailboxSpec MailboxProofs World ProcApi NodeApi Api Steps Hist Labels SchedSpec SchedProofs
  OriginSpec OriginProofs TruthProps OrderSpec OrderProofs OrderProps Client ClientSpec ClientStep ClientRun ClientFlush LateSpec.

(** ** Runs of only some calls *)
Section backed.
  Context (S : serde) (Hty : serde_typed S) (me : N) (ok : call -> Prop) (Hok : forall T f b, ok (CReceive me T f b)).
  Notation api := (calls_of S ok).
  Definition backed_ok (s : sys world val) (own : list (prog world val)) : Prop :=
    exists us, reach api (Sys world0 []) (Sys (s_world s) us) /\ us ≡ₚ s_threads s ++ own.
  Lemma ok_any s : reach api (Sys world0 []) s -> reachable S s.
  Proof. apply rtc_subrel. intros a b [i ? ? H|p ? (c & _ & ->)]; [by eapply step_tick|]. apply step_call. by exists c. Qed.
  Lemma bok_backed s own : backed_ok s own -> backed S s own.
  Proof. intros (us & H1 & H2). exists us. split; [by apply ok_any|done]. Qed.
  Lemma bok_step s s' own : sys_step api s s' -> backed_ok s own -> backed_ok s' own.
  Proof.
    intros Hs (us & Hr & Hp). destruct (step_more _ _ _ own Hs) as (us1 & H1 & H2).
    destruct (step_perm _ _ _ us H1 Hp) as (us2 & H3 & H4). exists us2. split; [eapply rtc_r; [exact Hr|exact H3]|].
    by rewrite H4.
  Qed.
  Lemma bok_begin s own c : ok c -> backed_ok s own -> backed_ok s (call_prog S c :: own).
  Proof.
    intros Hc (us & Hr & Hp). exists (us ++ [call_prog S c]). split.
    - eapply rtc_r; [exact Hr|]. apply (step_call api (call_prog S c) (Sys _ us)). by exists c.
    - rewrite Hp, <- app_assoc. apply Permutation_app_head. cbn [s_threads]. symmetry. apply (Permutation_app_comm [_] own).
  Qed.
  Lemma bok_tick w ts own g f k : g w = true -> backed_ok (Sys w ts) (Atom g f k :: own) -> backed_ok (Sys (f w) ts) (k w :: own).
  Proof.
    intros Hg (us & Hr & Hp). cbn in *.
    assert (sys_step api (Sys w (Atom g f k :: ts ++ own)) (Sys (f w) (k w :: ts ++ own))) as Hs.
    { eapply (step_tick _ 0). unfold tick; cbn. by rewrite Hg. }
    destruct (step_perm _ _ _ us Hs) as (us1 & H1 & H2); [cbn; rewrite Hp; symmetry; apply Permutation_middle|].
    exists us1. split; [eapply rtc_r; [exact Hr|exact H1]|]. cbn in *. rewrite H2. apply Permutation_middle.
  Qed.
  Lemma bok_run w ts own c w1 v : ok c -> run (call_prog S c) w = Done w1 v -> backed_ok (Sys w ts) own -> backed_ok (Sys w1 ts) (Ret v :: own).
  Proof.
    intros Hc E Hb. apply (bok_begin _ _ c Hc) in Hb. revert Hb E. generalize (call_prog S c) as p. intros p. revert w.
    induction p as [a|m|g f k IH]; intros w Hb E; cbn in E; [injection E as <- <-; exact Hb|discriminate|].
    destruct (g w) eqn:Hg; [|discriminate]. eapply IH; [|exact E]. by apply (bok_tick w ts own g f k).
  Qed.
  Lemma bok_receive T f w w1 ts own x : run (try_receive S me T f false) w = Done w1 (Some x) ->
    backed_ok (Sys w ts) own -> backed_ok (Sys w1 ts) (Ret (VReceived (Some x)) :: own).
  Proof.
    intros E. apply (bok_run _ _ _ (CReceive me T f false)); [apply Hok|]. cbn [call_prog]. unfold ret_as. rewrite run_bind, E. done.
  Qed.
  Lemma bok_flush w ts own T f l l' : w_loc w !! me = Some l -> remove S T f false l = Some l' ->
    backed_ok (Sys w ts) own -> exists own', backed_ok (Sys (up_loc (<[me := l']>) w) ts) (own' ++ own).
  Proof.
    intros El Hrm Hb. assert (flushes S T f l l') as Hf.
    { apply (remove_flushes S Hty); [|exact Hrm]. eapply (occurs_plain S); [|exact El]. apply (backed_occurs S _ _ (bok_backed _ _ Hb)). }
    clear Hrm. revert w own El Hb. induction Hf as [l l' E|l m l1 l' E Hf IH]; intros w own El Hb.
    - exists [Ret (VReceived (Some Waiting))]. apply (bok_receive T f w); [|exact Hb].
      unfold try_receive. cbn [run atom]. unfold receive_op. rewrite El, E. reflexivity.
    - assert (backed_ok (Sys (up_loc (<[me := l1]>) w) ts) (Ret (VReceived (Some (Found m))) :: own)) as Hb1.
      { apply (bok_receive T f w); [|exact Hb]. unfold try_receive. cbn [run atom]. unfold receive_op. rewrite El, E. reflexivity. }
      destruct (IH _ _ (lookup_insert _ _ _) Hb1) as (own' & H). exists (own' ++ [Ret (VReceived (Some (Found m)))]).
      rewrite <- app_assoc. cbn [app]. replace (up_loc (<[me:=l']>) w) with (up_loc (<[me:=l']>) (up_loc (<[me:=l1]>) w)); [exact H|].
      unfold up_loc. destruct w; cbn. f_equal. apply insert_insert.
  Qed.
  Definition based {R} (X : sys world val * cstate R) : Prop :=
    exists own, backed_ok (fst X) (match snd X with Busy _ p _ => p :: own | _ => own end).
  Lemma based_step {R} (X Y : sys world val * cstate R) a : cstep S me X a Y -> only_ok S ok X Y -> based X -> based Y.
  Proof.
    intros Hs [Ho1 Ho2] (own & Hb). destruct Hs as [s s' c Ho|s c kk|w ts c g f p kk Hg|s c v kk|s T f limit kk|w ts T f t kk w1 E|w ts T f t kk w1 m E|w ts T f t kk w1 E Hx|w ts T f kk l l' El Er]; cbn [fst snd] in *.
    - assert (sys_step api s s') as Hstep.
      { destruct Ho as [i y z Hi|p y _]; [by apply (step_tick _ i)|]. cbn in Ho2. rewrite app_length in Ho2. cbn in Ho2. destruct Ho2 as [H|(c' & H1 & H2)]; [lia|].
        apply app_inj_tail in H2 as [_ ->]. apply step_call. by exists c'. }
      exists own. cbn. by eapply bok_step.
    - exists own. cbn. apply bok_begin; [|done]. by eapply Ho1.
    - exists own. cbn. by apply (bok_tick w ts own g f p).
    - exists (Ret v :: own). exact Hb.
    - by exists own.
    - eexists. by eapply bok_receive.
    - eexists. by eapply bok_receive.
    - eexists. by eapply bok_receive.
    - destruct (bok_flush _ _ _ _ _ _ _ El Er Hb) as (own' & Hb'). exists (own' ++ own). exact Hb'.
  Qed.
  Lemma based_start {R} (sc : script R) : based (Sys world0 [], At sc).
  Proof. exists [], []. split; [apply rtc_refl|done]. Qed.
  Lemma cruns_ok_based {R} (X Y : sys world val * cstate R) tr : cruns_ok S me ok X tr Y -> based X -> based Y.
  Proof. induction 1; [done|]. intros. eauto using based_step. Qed.
  Lemma cruns_ok_cruns {R} (X Y : sys world val * cstate R) tr : cruns_ok S me ok X tr Y -> cruns S me X tr Y.
  Proof. induction 1; [constructor|]. econstructor; eauto. Qed.
  Lemma idle_ok_idle s : idle_ok S me ok s -> idle S me s.
  Proof. intros (R & sc & sc' & tr & H). exists R, sc, sc', tr. by apply cruns_ok_cruns. Qed.
  Lemma based_at {R R'} s (sc : script R) (sc' : script R') : based (s, At sc) -> based (s, At sc').
  Proof. done. Qed.
End backed.

(** ** What is in a mailbox is old or has arrived since *)
Section since.
  Context (S : serde) (me : N) (A : item -> Prop) (n : nat).
  Definition new_or (w : world) (x : item) : Prop := A x \/ (me, x) ∈ drop n (w_log w).
  Definition since (w : world) : Prop := forall l, w_loc w !! me = Some l -> all_from S (new_or w) (l_items l ++ l_chan l).
  Lemma new_or_grows w w' x : w_log w `prefix_of` w_log w' -> new_or w x -> new_or w' x.
  Proof. intros [g E] [H|H]; [by left|]. right. rewrite E, skipn_app. apply elem_of_app. by left. Qed.
  Lemma since_same w w' : w_log w `prefix_of` w_log w' -> w_loc w' !! me = w_loc w !! me -> since w -> since w'.
  Proof. intros Hg E H l El. rewrite E in El. eapply all_from_mono; [|by apply H]. intros x. by apply new_or_grows. Qed.
  Lemma since_push i x w : n <= length (w_log w) -> since w -> since (push i x w).
  Proof.
    intros Hn H. unfold push. destruct (w_loc w !! i) as [l|] eqn:E; [|done]. intros l' Hj. cbn in Hj.
    assert (forall y, new_or w y -> new_or (up_log (fun g => g ++ [(i, x)]) (up_loc <[i := set_chan (l_chan l ++ [x]) l]> w)) y) as Hm.
    { intros y. apply new_or_grows. by eexists. }
    destruct (decide (i = me)) as [->|Hne].
    - rewrite lookup_insert in Hj. injection Hj as <-. cbn. specialize (H _ E). apply Forall_app in H as [H1 H2].
      apply Forall_app. split; [eapply all_from_mono; [exact Hm|exact H1]|]. apply Forall_app. split; [eapply all_from_mono; [exact Hm|exact H2]|]. repeat constructor.
      exists x. split; [right; cbn; rewrite drop_app_le by done; apply elem_of_app; right; by apply elem_of_list_singleton|by left].
    - rewrite lookup_insert_ne in Hj by done. eapply all_from_mono; [exact Hm|by apply H].
  Qed.
  Lemma since_loc i g w : (forall l, l_items (g l) ++ l_chan (g l) = l_items l ++ l_chan l) -> since w -> since (up_loc (alter g i) w).
  Proof.
    intros Hg H l Hj. cbn in Hj. destruct (decide (i = me)) as [->|Hne].
    - rewrite lookup_alter in Hj. apply fmap_Some in Hj as (l0 & Hj & ->). rewrite Hg. by apply H.
    - rewrite lookup_alter_ne in Hj by done. by apply H.
  Qed.
  Lemma since_new w w' : w_log w' = w_log w -> w_loc w' = <[w_next_pid w := new_plocal]> (w_loc w) -> since w -> since w'.
  Proof.
    intros E1 E2 H l Hj. rewrite E2 in Hj. destruct (decide (w_next_pid w = me)) as [E|Hne].
    - rewrite E, lookup_insert in Hj. injection Hj as <-. constructor.
    - rewrite lookup_insert_ne in Hj by done. eapply all_from_mono; [|by apply H]. intros x [Hx|Hx]; [by left|right; by rewrite E1].
  Qed.
  (** A state that is at least [n] arrivals old. *)
  Definition dated (w : world) : Prop := n <= length (w_log w) /\ since w.
  Lemma dated_same w w' : w_log w' = w_log w -> w_loc w' = w_loc w -> dated w -> dated w'.
  Proof. intros E1 E2 [H1 H2]. split; [by rewrite E1|]. apply (since_same w); [by rewrite E1|by rewrite E2|exact H2]. Qed.
  Lemma dated_push i x w : dated w -> dated (push i x w).
  Proof.
    intros [H1 H2]. split; [|by apply since_push]. unfold push. destruct (w_loc w !! i); [|done]. cbn. rewrite app_length. lia.
  Qed.
  Lemma dated_exit p f y w : dated w -> dated (exit_op p f y w).
  Proof. intros H. unfold exit_op. repeat case_match; try done; try (by apply dated_push); by apply (dated_same w). Qed.
  Lemma dated_exit_linked p f y w : dated w -> dated (exit_linked_op p f y w).
  Proof. intros H. unfold exit_linked_op. repeat case_match; try done; try (by apply dated_push); by apply (dated_same w). Qed.
  Lemma dated_loc i g w : (forall l, l_items (g l) ++ l_chan (g l) = l_items l ++ l_chan l) -> dated w -> dated (up_loc (alter g i) w).
  Proof. intros Hg [H1 H2]. split; [done|by apply since_loc]. Qed.
  Lemma dated_new w w' : w_log w' = w_log w -> w_loc w' = <[w_next_pid w := new_plocal]> (w_loc w) -> dated w -> dated w'.
  Proof. intros E1 E2 [H1 H2]. split; [by rewrite E1|by apply (since_new w)]. Qed.
  Lemma select_dated T f b w l s l' : w_loc w !! me = Some l -> select S T f b l = (s, l') -> dated w -> dated (up_loc (<[me := l']>) w).
  Proof.
    intros E Es [H1 H2]. split; [done|]. intros l0 Hj. cbn in Hj. rewrite lookup_insert in Hj. injection Hj as <-.
    by destruct (select_from S _ _ _ _ _ _ _ Es (H2 _ E)) as [? _].
  Qed.
  Lemma does_dated a w : dated w -> dated (does S a w).
  Proof.
    assert (forall w', w_log w' = w_log w -> w_loc w' = w_loc w -> dated w -> dated w') as Hs by (intros; by eapply dated_same).
    destruct a; cbn [does]; intros H; try done; try (by apply Hs).
    - by apply dated_loc.
    - by apply dated_loc.
    - by apply dated_loc.
    - by apply dated_loc.
    - unfold receive_op. destruct (w_loc w !! me0) as [l|] eqn:E; [|done]. destruct (select S T f b l) as [s l'] eqn:Es. cbn.
      destruct (decide (me0 = me)) as [->|Hne]; [by eapply select_dated|]. destruct H as [H1 H2]. split; [done|].
      intros l0 Hj. cbn in Hj. rewrite lookup_insert_ne in Hj by done. by apply H2.
    - unfold alias_take_op. repeat case_match; by apply Hs.
    - by apply dated_push.
    - unfold send_to. destruct (w_regs w !! i); [by apply dated_push|done].
    - unfold node_register_op, spawn_op. repeat case_match; simplify_eq; cbn; try (by apply Hs); by apply (dated_new w).
    - unfold send_frame, hand_out. repeat case_match; by apply Hs.
    - by apply (dated_new w).
    - unfold register_op. repeat case_match; by apply Hs.
    - by apply dated_exit.
    - by apply dated_exit_linked.
    - destruct H as [H1 H2]. split; [done|]. intros l Hj. cbn in Hj. apply lookup_delete_Some in Hj as [_ Hj]. by apply H2.
    - unfold node_start_op, spawn_op. repeat case_match; simplify_eq; cbn; try done. by apply (dated_new w).
    - unfold node_disconnect_op. repeat case_match; try done; try (by apply Hs).
      eapply (dated_same (exit_op p0 p RKill (up_pend (delete n0) w))); try done. apply dated_exit. by apply Hs.
    - unfold node_accept_op. case_match; [|by apply Hs]. case_match; [|by apply Hs].
      match goal with |- context [if bool_decide _ then ?x else w] => set (w1 := if bool_decide (n_state n2 = Pending) then x else w) end.
      assert (dated w1) as J1. { unfold w1. repeat case_match; try done. by apply dated_exit. }
      clearbody w1. case_match; [exact J1|]. by apply (dated_same w1).
    - unfold node_workers_op, hand_out. repeat case_match; by apply Hs.
    - unfold sup_down_op. repeat case_match; by apply Hs.
  Qed.
  Notation G := (fun w w' : world => dated w -> dated w').
  Lemma call_dated c : guar G (call_prog S c).
  Proof. eapply guar_mono; [|apply call_fp]. intros x y (a & _ & ->). apply does_dated. Qed.
End since.

(** ** Runs *)
Section runs.
  Context (S : serde) (Hty : serde_typed S) (me : N) (ok : call -> Prop) (Hok : forall T f b, ok (CReceive me T f b)).
  Notation based := (based S ok).
  Lemma reach_all_guar (G : world -> world -> Prop) s : (forall c, guar G (call_prog S c)) -> reach (calls_of S ok) (Sys world0 []) s -> Forall (guar G) (s_threads s).
  Proof.
    intros HG R. refine (rtc_ind_r (fun s => Forall (guar G) (s_threads s)) (Sys world0 []) _ _ s R); [constructor|].
    intros y z _ Hstep Hy. destruct Hstep as [i y z Hi|p y (c & _ & ->)].
    - unfold tick in Hi. destruct (s_threads y !! i) as [[| |g f k]|] eqn:Et; try discriminate. destruct (g (s_world y)) eqn:Eg; inversion Hi; subst; cbn.
      apply Forall_insert; [done|]. pose proof (Forall_lookup_1 _ _ _ _ Hy Et) as Hk. cbn in Hk. by destruct (Hk _ Eg).
    - apply Forall_app; split; [done|constructor; [apply HG|constructor]].
  Qed.
  Lemma based_guar (G : world -> world -> Prop) {R} (X : sys world val * cstate R) : (forall c, guar G (call_prog S c)) -> based X ->
    Forall (guar G) (s_threads (fst X)) /\ match snd X with Busy _ p _ => guar G p | _ => True end.
  Proof.
    intros HG (own & us & Hr & Hp). pose proof (reach_all_guar G _ HG Hr) as H. cbn in H. rewrite Hp in H. apply Forall_app in H as [H1 H2].
    split; [done|]. destruct (snd X); [done| |done]. by inversion H2.
  Qed.
  Lemma guar_step (G : world -> world -> Prop) {R} (X Y : sys world val * cstate R) a : (forall w, G w w) -> (forall c, guar G (call_prog S c)) ->
    (forall T f w w1 r, run (try_receive S me T f false) w = Done w1 r -> G w w1) ->
    (forall T f w l l', w_loc w !! me = Some l -> flushes S T f l l' -> G w (up_loc (<[me := l']>) w)) ->
    cstep S me X a Y -> based X -> G (s_world (fst X)) (s_world (fst Y)).
  Proof.
    intros G0 GC GR GF Hs Hb. destruct (based_guar G X GC Hb) as [H1 H2].
    destruct Hs as [s s' c Ho|s c kk|w ts c g f p kk Hg|s c v kk|s T f limit kk|w ts T f t kk w1 E|w ts T f t kk w1 m E|w ts T f t kk w1 E Hx|w ts T f kk l l' El Er]; cbn [fst snd s_world] in *; try apply G0.
    - destruct Ho as [i y z Hi|p y _]; [|apply G0]. unfold tick in Hi. destruct (s_threads y !! i) as [[| |g f kk]|] eqn:Et; try discriminate.
      destruct (g (s_world y)) eqn:Eg; inversion Hi; subst; cbn. pose proof (Forall_lookup_1 _ _ _ _ H1 Et) as Hk. cbn in Hk. by destruct (Hk _ Eg).
    - cbn in H2. by destruct (H2 _ Hg).
    - by eapply GR.
    - by eapply GR.
    - by eapply GR.
    - apply (GF T f w l l' El). apply (remove_flushes S Hty); [|exact Er]. destruct Hb as (own & Hb). eapply (occurs_plain S); [|exact El].
      apply (backed_occurs S _ _ (bok_backed _ _ _ _ Hb)).
  Qed.
  Lemma step_grows {R} (X Y : sys world val * cstate R) a : cstep S me X a Y -> based X -> w_log (s_world (fst X)) `prefix_of` w_log (s_world (fst Y)).
  Proof.
    apply (guar_step (fun w w' => w_log w `prefix_of` w_log w')); [done| | |done].
    - intros c. eapply guar_mono; [|apply call_fp]. intros x y (b & _ & ->). apply does_log.
    - intros T f w w1 r. unfold try_receive. cbn [run atom]. unfold receive_op. destruct (w_loc w !! me) as [l|]; [destruct (select S T f false l)|]; intros E; injection E as <- _; done.
  Qed.
  Lemma runs_grows {R} (X Y : sys world val * cstate R) tr : cruns_ok S me ok X tr Y -> based X -> w_log (s_world (fst X)) `prefix_of` w_log (s_world (fst Y)).
  Proof.
    induction 1 as [|X a Y tr Z Hs Ho H IH]; [done|]. intros Hb. etrans; [by eapply step_grows|]. apply IH. by eapply based_step.
  Qed.
  Context (A : item -> Prop) (n : nat).
  Notation dated := (dated S me A n).
  Lemma receive_dated T f w w1 r : run (try_receive S me T f false) w = Done w1 r -> dated w -> dated w1.
  Proof.
    unfold try_receive. cbn [run atom]. unfold receive_op. destruct (w_loc w !! me) as [l|] eqn:El; [destruct (select S T f false l) as [s l'] eqn:Es|]; intros E; injection E as <- _; [|done].
    by eapply select_dated.
  Qed.
  Lemma flushes_dated T f w l l' : w_loc w !! me = Some l -> flushes S T f l l' -> dated w -> dated (up_loc (<[me := l']>) w).
  Proof.
    intros El Hf. revert w El. induction Hf as [l l' E|l m l1 l' E Hf IH]; intros w El Hd; [by eapply select_dated|].
    pose proof (select_dated S me A n _ _ _ _ _ _ _ El E Hd) as H1. specialize (IH _ (lookup_insert _ _ _) H1).
    replace (up_loc (<[me:=l']>) w) with (up_loc (<[me:=l']>) (up_loc (<[me:=l1]>) w)); [exact IH|].
    unfold up_loc. destruct w; cbn. f_equal. apply insert_insert.
  Qed.
  Lemma step_dated {R} (X Y : sys world val * cstate R) a : cstep S me X a Y -> based X -> dated (s_world (fst X)) ->
    dated (s_world (fst Y)) /\ forall m, Got m ∈ a -> exists z, new_or me A n (s_world (fst Y)) z /\ readable S z m.
  Proof.
    intros Hs Hb Hd. split.
    - revert Hd. apply (guar_step (fun w w' => dated w -> dated w')) with (a := a); try done; [intros c; apply call_dated|intros; by eapply receive_dated|intros; by eapply flushes_dated].
    - intros m Hm. destruct Hs as [s s' c Ho|s c kk|w ts c g f p kk Hg|s c v kk|s T f limit kk|w ts T f t kk w1 E|w ts T f t kk w1 m' E|w ts T f t kk w1 E Hx|w ts T f kk l l' El Er];
        try (by apply elem_of_nil in Hm); apply elem_of_list_singleton in Hm; try discriminate. injection Hm as <-. cbn in Hd |- *.
      destruct (loop_receive S me _ _ _ _ _ E) as (l & l' & El & Es & ->).
      destruct (select_from S _ _ _ _ _ _ _ Es (proj2 Hd _ El)) as [_ Hf]. by apply Hf.
  Qed.
  Lemma runs_dated {R} (X Y : sys world val * cstate R) tr : cruns_ok S me ok X tr Y -> based X -> dated (s_world (fst X)) ->
    forall m, Got m ∈ tr -> exists z, new_or me A n (s_world (fst Y)) z /\ readable S z m.
  Proof.
    induction 1 as [|X a Y tr Z Hs Ho H IH]; intros Hb Hd m Hm; [by apply elem_of_nil in Hm|].
    assert (based Y) as Hb' by (by eapply based_step). destruct (step_dated _ _ _ Hs Hb Hd) as [Hd' Hg].
    apply elem_of_app in Hm as [Hm|Hm]; [|by apply IH]. destruct (Hg _ Hm) as (z & Hz & Hr). exists z. split; [|done].
    eapply new_or_grows; [|exact Hz]. by eapply runs_grows.
  Qed.
End runs.
