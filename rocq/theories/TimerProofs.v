(** Timers under every schedule: proofs. *)
From stdpp Require Import base list gmap numbers strings countable sorting relations.
From Coq Require Import Lia.
From Verif Require Import Prog ProgProofs ProgInv Types Mailbox World ProcApi NodeApi Api Steps Hist Labels SchedSpec SchedProofs TimerSpec.

(** Invariants that hold as long as [T] does, where [T] once lost never comes back. *)
Section during.
  Context {W : Type} (T Inv : W -> Prop).
  Fixpoint during {R} (p : prog W R) : Prop :=
    match p with
    | Ret _ | Panic _ => True
    | Atom g f k => forall w, Inv w -> T w -> g w = true -> T (f w) -> Inv (f w) /\ during (k w)
    end.
  (** With a postcondition. *)
  Fixpoint duringq {R} (Q : R -> Prop) (p : prog W R) : Prop :=
    match p with
    | Ret r => Q r
    | Panic _ => True
    | Atom g f k => forall w, Inv w -> T w -> g w = true -> T (f w) -> Inv (f w) /\ duringq Q (k w)
    end.
  Lemma dur_bind {A B} (Q : A -> Prop) (Q' : B -> Prop) (p : prog W A) (q : A -> prog W B) :
    duringq Q p -> (forall a, Q a -> duringq Q' (q a)) -> duringq Q' (bind p q).
  Proof.
    intros Hp Hq; induction p as [a|m|g f k IH]; cbn in *; auto.
    intros w H1 H2 H3 H4. destruct (Hp w H1 H2 H3 H4). split; auto.
  Qed.
  Lemma dur_guar {A} (G : W -> W -> Prop) (p : prog W A) :
    (forall w w', G w w' -> Inv w -> T w -> Inv w') -> guar G p -> duringq (fun _ => True) p.
  Proof.
    intros H; induction p as [a|m|g f k IH]; cbn; auto.
    intros Hp w H1 H2 H3 H4. destruct (Hp w H3). split; eauto.
  Qed.
  Lemma dur_during {A} (Q : A -> Prop) (p : prog W A) : duringq Q p -> during p.
  Proof.
    induction p as [a|m|g f k IH]; cbn; auto.
    intros Hp w H1 H2 H3 H4. destruct (Hp w H1 H2 H3 H4). split; eauto.
  Qed.
  Lemma dur_atom {A} (Q : A -> Prop) (op : W -> W * A) :
    (forall w, Inv w -> T w -> T (fst (op w)) -> Inv (fst (op w)) /\ Q (snd (op w))) -> duringq Q (atom op).
  Proof. intros H w H1 H2 _ H4. destruct (H w H1 H2 H4). split; cbn; auto. Qed.
  Lemma reach_during {R} (api : prog W R -> Prop) (s s' : sys W R) :
    (forall p, api p -> during p /\ guar (fun w w' => T w' -> T w) p) ->
    Forall (fun p => during p /\ guar (fun w w' => T w' -> T w) p) (s_threads s) ->
    Inv (s_world s) -> reach api s s' -> T (s_world s') -> Inv (s_world s').
  Proof.
    intros Hapi Ht Hw Hr.
    assert (T (s_world s) -> Inv (s_world s) /\ Forall during (s_threads s)) as Hp.
    { intros _. split; [done|]. eapply Forall_impl; [exact Ht|]. by intros ? [? _]. }
    assert (Forall (guar (fun w w' => T w' -> T w)) (s_threads s)) as Hg.
    { eapply Forall_impl; [exact Ht|]. by intros ? [_ ?]. }
    clear Ht Hw.
    induction Hr as [s|s1 s2 s3 Hstep Hr IH]; [intros; by apply Hp|]. apply IH; clear IH Hr.
    - destruct Hstep as [i s s' Hi|p s Hpp].
      + pose proof (guar_tick _ _ _ _ Hg Hi) as [Hb _]. intros HT. destruct (Hp (Hb HT)) as [H1 H2].
        unfold tick in Hi. destruct (s_threads s !! i) as [[| |g f k]|] eqn:E; try discriminate.
        destruct (g (s_world s)) eqn:G; inversion Hi; subst; clear Hi. cbn in *.
        pose proof (Forall_lookup_1 _ _ _ _ H2 E) as Hd. cbn in Hd.
        destruct (Hd _ H1 (Hb HT) G HT). split; [done|]. by apply Forall_insert.
      + cbn. intros HT. destruct (Hp HT). split; [done|]. apply Forall_app; split; [done|].
        constructor; [by apply Hapi|constructor].
    - destruct Hstep as [i s s' Hi|p s Hpp].
      + by apply (guar_tick _ _ _ _ Hg Hi).
      + cbn. apply Forall_app; split; [done|]. constructor; [by apply Hapi|constructor].
  Qed.
End during.

(** The clock never goes back. *)
Lemma exit_now p f r w : w_now (exit_op p f r w) = w_now w.
Proof. unfold exit_op, push. repeat case_match; done. Qed.
Lemma does_now S a w : (w_now w <= w_now (does S a w))%N.
Proof.
  destruct a; cbn; try lia; unfold receive_op, alias_take_op, push, send_to, push, node_register_op, spawn_op, send_frame, hand_out,
    register_op, exit_linked_op, push, gone, node_start_op, spawn_op, node_accept_op, node_workers_op, hand_out, sup_down_op, node_disconnect_op;
    repeat case_match; simplify_eq; cbn; rewrite ?exit_now; cbn; try lia.
  all: try (unfold push; repeat case_match; cbn; lia).
Qed.

(** Why the task of the timer cannot go past its sleep: it is too early, nobody wakes it, or it has
    been aborted or has finished. *)
Inductive mode := MBefore | MNoFire | MDead.
Global Instance mode_eq_dec : EqDecision mode. Proof. solve_decision. Defined.

Section frozen.
  Context (S : serde) (v : value) (k D : N) (ds : dests) (md : mode) (c0 : list (N * item)).
  Notation other_value := (other_value S v).
  Notation carries := (carries S v).
  Notation carried := (carried S v).
  Definition frz_T (w : world) : Prop := md = MBefore -> (w_now w < D)%N.
  Record frz (w : world) : Prop := Frz {
    fz_next : (k < w_next_ref w)%N;
    fz_other : timers_carry_others S v k w;
    fz_dead : md = MDead -> forall t, w_tasks w !! k = Some t -> t_live t = false;
    fz_live : md <> MDead -> w_tasks w !! k = Some (Task D ds v true);
    fz_timer : w_timers w !! k = if decide (md = MDead) then None else Some D;
    fz_car : carried w = c0 }.
  (** Actions that are harmless whenever they happen. *)
  Definition harmless (a : act) : Prop :=
    match a with
    | APush _ x | ASendTo _ x => ~ carries x
    | ATaskAdd i _ u _ => i <> k /\ other_value u
    | ATaskKill i | ATimerDelete i => i <> k \/ md = MDead
    | ATimerAdd i _ => i <> k
    | _ => True
    end.
  Lemma frz_same w w' : (w_next_ref w <= w_next_ref w')%N -> w_tasks w' = w_tasks w -> w_timers w' = w_timers w ->
    w_log w' = w_log w -> frz w -> frz w'.
  Proof.
    intros H1 H2 H3 H4 [ ]. constructor; unfold timers_carry_others, carried in *; rewrite ?H2, ?H3, ?H4; auto. lia.
  Qed.
  Lemma frz_push i x w : ~ carries x -> frz w -> frz (push i x w).
  Proof.
    intros Hx Hf. unfold push. case_match; [|done]. destruct Hf. constructor; auto.
    unfold carried in *; cbn. rewrite list.filter_app, filter_cons_False by exact Hx. by rewrite filter_nil, app_nil_r.
  Qed.
  Lemma frz_exit p f r w : frz w -> frz (exit_op p f r w).
  Proof.
    intros Hf. unfold exit_op. repeat case_match; auto; try (by eapply frz_same; [..|exact Hf]);
      apply frz_push; auto; intros [|]; discriminate.
  Qed.
  Ltac fsame := lazymatch goal with Hf : frz ?w |- _ => apply (frz_same w); cbn; first [exact Hf | reflexivity | lia] end.
  Lemma frz_act a w : harmless a -> frz w -> frz (does S a w).
  Proof.
    intros Ha Hf. destruct a; cbn [does]; try (by fsame); cbn in Ha.
    - unfold receive_op. repeat case_match; fsame.
    - unfold alias_take_op. repeat case_match; fsame.
    - by apply frz_push.
    - unfold send_to. case_match; [by apply frz_push | done].
    - unfold node_register_op, spawn_op. repeat case_match; simplify_eq; fsame.
    - unfold send_frame, hand_out. repeat case_match; fsame.
    - destruct Ha as [Hi Hu]. destruct Hf. constructor; auto.
      + intros j t Hj. cbn. rewrite lookup_insert_Some. intros [[-> <-]|[_ E]]; [exact Hu | eauto].
      + cbn. rewrite lookup_insert_ne by done. auto.
      + cbn. rewrite lookup_insert_ne by done. auto.
    - destruct Hf. constructor; auto.
      + intros j t Hj. cbn. rewrite lookup_alter_Some. intros [[-> (t' & E & ->)]|[_ E]]; [|eauto]. cbn. eauto.
      + intros Hm t. cbn. rewrite lookup_alter_Some. intros [[-> (t' & E & ->)]|[_ E]]; [done|eauto].
      + intros Hm. cbn. rewrite lookup_alter_ne; [auto|]. destruct Ha; congruence.
    - destruct Hf. constructor; auto. cbn. by rewrite lookup_insert_ne by done.
    - destruct Hf. constructor; auto. cbn. destruct (decide (i = k)) as [->|].
      + rewrite lookup_delete. destruct Ha as [|Hm]; [done|]. by rewrite decide_True.
      + by rewrite lookup_delete_ne by done.
    - unfold register_op. repeat case_match; fsame.
    - by apply frz_exit.
    - unfold exit_linked_op. repeat case_match; auto; try fsame; apply frz_push; auto; intros [|]; discriminate.
    - unfold node_start_op, spawn_op. repeat case_match; simplify_eq; fsame.
    - unfold node_disconnect_op. repeat case_match; auto.
      all: match goal with |- frz (up_nregs _ ?x) => cut (frz x); [intros Hf'; fsame|] end.
      + apply frz_exit. fsame.
      + fsame.
    - unfold node_accept_op. repeat case_match; cbn; auto; try fsame; try (by apply frz_exit).
      match goal with |- frz (up_nregs _ ?x) => cut (frz x); [intros Hf'; fsame|] end. by apply frz_exit.
    - unfold node_workers_op, hand_out. repeat case_match; fsame.
    - unfold sup_down_op. repeat case_match; fsame.
  Qed.
  Notation dur := (duringq frz_T frz).
  Notation ok := (dur (fun _ => True)).
  Lemma dur_fp {A} (F : act -> Prop) (p : prog world A) : (forall a, F a -> harmless a) -> guar (lstep S F) p -> ok p.
  Proof. intros HF. apply dur_guar. intros w w' (a & Ha & ->) Hw _. by apply frz_act; auto. Qed.
  Lemma frz_send u l : other_value u -> forall a, fp_send S l u a -> harmless a.
  Proof.
    intros [H1 H2] []; cbn; try done.
    - intros [[->| ->]|(r & _ & ->)]; [done|done|intros [|]; discriminate].
    - intros [->| ->]; done.
  Qed.
  Lemma dur_fresh : dur (fun r => ref_id r <> k) fresh_ref.
  Proof. apply dur_atom. intros w Hw _ _. split; [by apply (frz_act AFreshRef)|]. cbn. destruct Hw. lia. Qed.
  Lemma dur_fire i : (i = k -> md <> MNoFire) -> ok (timer_fire S i).
  Proof.
    intros Hi. unfold timer_fire. eapply (dur_bind _ _ (fun t => match t with Some t => i <> k /\ other_value (t_val t) | None => i <> k end)).
    - cbn. intros w Hw HT Hg HT'. destruct (w_tasks w !! i) as [t|] eqn:E; [|done].
      apply andb_true_iff in Hg as [Hl Hd%bool_decide_eq_true].
      assert (i <> k) as Hne.
      { intros ->. destruct Hw. destruct md eqn:Em.
        - rewrite (fz_live0 ltac:(done)) in E. injection E as <-. cbn in Hd. specialize (HT Em). lia.
        - by apply Hi.
        - rewrite (fz_dead0 eq_refl t E) in Hl. done. }
      split; [apply (frz_act (ATaskKill i)); [by left|done]|]. split; [done|]. by apply (fz_other w Hw i t).
    - intros [t|]; [|by intros; cbn]. intros [Hne Hv]. eapply (dur_bind _ _ (fun _ => True)).
      + eapply dur_fp; [|apply l_send]. by apply frz_send.
      + intros _ _. eapply dur_fp; [|apply l_destroy_timer]. intros []; cbn; try done; intros ->; by left.
  Qed.
  Lemma dur_ret {A} (f : A -> val) (p : prog world A) : ok p -> ok (ret_as f p).
  Proof. intros H. eapply dur_bind; [exact H|]. by intros; cbn. Qed.
  Definition frz_good (c : call) : Prop :=
    carries_others S v c /\ (md = MNoFire -> ~ fires k c) /\ (md <> MDead -> ~ cancels k c).
  Lemma dur_call c : frz_good c -> during frz_T frz (call_prog S c).
  Proof.
    intros (Hc & Hf & Hx). apply (dur_during _ _ (fun _ => True)).
    assert ((forall a, fp S c a -> harmless a) -> ok (call_prog S c)) as Hm by (intros H; by eapply dur_fp; [|apply call_fp]).
    assert (forall x, ~ user_item x -> ~ carries x) as Hu by (intros x Hx' [->| ->]; by apply Hx').
    destruct c; try (apply Hm; intros [] H; try exact I; cbn in H; unfold fp_monitor_alias, fp_monitor, fp_crash, fp_finish, fp_destroy_timer, fp_exit in H; cbn in H;
      naive_solver (intros [|]; discriminate)).
    - apply Hm. cbn. by apply frz_send.
    - cbn [call_prog]. apply dur_ret. unfold send_after. eapply dur_bind; [apply dur_fresh|]. intros r Hr. cbn beta in Hr.
      eapply (dur_bind _ _ (fun _ => True)).
      { apply dur_atom. intros w Hw _ _. split; [|done]. by apply (frz_act (ATaskAdd (ref_id r) ds0 v0 d)). }
      intros _ _. eapply (dur_bind _ _ (fun _ => True)); [|by intros; cbn].
      apply dur_atom. intros w Hw _ _. split; [|done]. by apply (frz_act (ATimerAdd (ref_id r) d)).
    - apply Hm. cbn in Hx. assert (ref_id r <> k \/ md = MDead) as Hk.
      { destruct (decide (md = MDead)); [by right|]. left. auto. }
      intros []; cbn; try done; intros ->; exact Hk.
    - apply dur_ret. apply dur_fire. intros -> ->. by apply Hf.
    - apply Hm. intros []; cbn; try done. intros H. apply Hu. intros Hx'. by destruct x.
    - apply Hm. intros [] H; try exact I; cbn in H; destruct f; try done; cbn in Hc; try (apply Hu; naive_solver).
      + destruct H as [->|[j ->]]; [done|]. intros [|]; discriminate.
      + subst. done.
  Qed.
  Lemma frz_reach w s : frz w -> reach (calls_of S frz_good) (Sys w []) s -> frz_T (s_world s) -> frz (s_world s).
  Proof.
    intros Hw Hr HT. refine (reach_during frz_T frz _ (Sys w []) s _ (Forall_nil_2 _) Hw Hr HT).
    intros p (c & Hc & ->). split; [by apply dur_call|].
    eapply guar_mono; [|apply call_fp]. intros w1 w2 (a & _ & ->) HT' Hm. pose proof (does_now S a w1). specialize (HT' Hm). lia.
  Qed.
End frozen.

(** At most one delivery per local destination, whatever happens: the deliveries so far plus those
    a live task will make. *)
Section once.
  Context (S : serde) (v : value) (k : N) (ds : dests).
  Notation other_value := (other_value S v).
  Notation carries := (carries S v).
  Notation carried := (carried S v).
  Record tm_inv (w : world) : Prop := TmInv {
    ti_next : (k < w_next_ref w)%N;
    ti_other : timers_carry_others S v k w;
    ti_task : forall t, w_tasks w !! k = Some t -> t_dests t = ds /\ t_val t = v }.
  Definition live_task (w : world) : nat :=
    match w_tasks w !! k with Some t => if t_live t then local_dests ds else 0 | None => 0 end.
  Definition tm_cnt (w : world) : nat := length (carried w) + live_task w.
  Definition tm_step (w w' : world) : Prop := (tm_inv w -> tm_inv w') /\ tm_cnt w' <= tm_cnt w.
  Definition calm (a : act) : Prop :=
    match a with
    | APush _ x | ASendTo _ x => ~ carries x
    | ATaskAdd i _ u _ => i <> k /\ other_value u
    | _ => True
    end.
  Lemma tm_same w w' : (w_next_ref w <= w_next_ref w')%N -> w_tasks w' = w_tasks w -> w_log w' = w_log w -> tm_step w w'.
  Proof.
    intros H1 H2 H4. split.
    - intros [ ]. constructor; unfold timers_carry_others in *; rewrite ?H2; auto. lia.
    - unfold tm_cnt, live_task, carried. by rewrite H2, H4.
  Qed.
  Lemma tm_push i x w : tm_inv w -> tm_inv (push i x w) /\ tm_cnt (push i x w) <= tm_cnt w + (if decide (carries x) then 1 else 0).
  Proof.
    intros Hw. unfold push. case_match; [|split; [done|lia]]. split; [destruct Hw; by constructor|].
    unfold tm_cnt, live_task, carried; cbn. rewrite list.filter_app, app_length.
    rewrite filter_cons, filter_nil. cbn. destruct (decide (carries x)); cbn; lia.
  Qed.
  Lemma tm_push_calm i x w : ~ carries x -> tm_step w (push i x w).
  Proof.
    intros Hx. split; [intros Hw; by apply tm_push|]. unfold push. case_match; [|lia].
    unfold tm_cnt, live_task, carried; cbn. rewrite list.filter_app, filter_cons_False by exact Hx. rewrite filter_nil, app_nil_r. lia.
  Qed.
  Lemma tm_trans a b c : tm_step a b -> tm_step b c -> tm_step a c.
  Proof. intros [A1 A2] [B1 B2]. split; [auto | lia]. Qed.
  Lemma tm_exit p f r w : tm_step w (exit_op p f r w).
  Proof.
    unfold exit_op. repeat case_match; try (by apply tm_same); apply tm_push_calm; intros [|]; discriminate.
  Qed.
  Ltac tsame := apply tm_same; cbn; first [reflexivity | lia].
  Lemma tm_act a w : calm a -> tm_step w (does S a w).
  Proof.
    intros Ha. destruct a; cbn [does]; try (by tsame); cbn in Ha.
    - unfold receive_op. repeat case_match; tsame.
    - unfold alias_take_op. repeat case_match; tsame.
    - by apply tm_push_calm.
    - unfold send_to. case_match; [by apply tm_push_calm | tsame].
    - unfold node_register_op, spawn_op. repeat case_match; simplify_eq; tsame.
    - unfold send_frame, hand_out. repeat case_match; tsame.
    - destruct Ha as [Hi Hu]. split.
      + intros [ ]. constructor; auto.
        * intros j t Hj. cbn. rewrite lookup_insert_Some. intros [[-> <-]|[_ E]]; [exact Hu | eauto].
        * cbn. rewrite lookup_insert_ne by done. auto.
      + unfold tm_cnt, live_task, carried; cbn. by rewrite lookup_insert_ne by done.
    - split.
      + intros [ ]. constructor; auto.
        * intros j t Hj. cbn. rewrite lookup_alter_Some. intros [[-> (t' & E & ->)]|[_ E]]; [|eauto]. cbn. eauto.
        * intros t. cbn. rewrite lookup_alter_Some. intros [[-> (t' & E & ->)]|[_ E]]; [|eauto]. cbn. eauto.
      + unfold tm_cnt, live_task, carried; cbn. destruct (decide (i = k)) as [->|].
        * rewrite lookup_alter. destruct (w_tasks w !! k); cbn; lia.
        * by rewrite lookup_alter_ne by done.
    - unfold register_op. repeat case_match; tsame.
    - apply tm_exit.
    - unfold exit_linked_op. repeat case_match; try tsame; apply tm_push_calm; intros [|]; discriminate.
    - unfold node_start_op, spawn_op. repeat case_match; simplify_eq; tsame.
    - unfold node_disconnect_op. repeat case_match; try tsame.
      eapply tm_trans; [|tsame]. eapply tm_trans; [|apply tm_exit]. tsame.
    - unfold node_accept_op. repeat case_match; cbn; try tsame; try (by apply tm_exit).
      eapply tm_trans; [apply tm_exit|tsame].
    - unfold node_workers_op, hand_out. repeat case_match; tsame.
    - unfold sup_down_op. repeat case_match; tsame.
  Qed.
  Notation tk := (tok tm_inv tm_cnt).
  Definition anyh {A} (_ : A) (_ : nat) : Prop := True.
  Lemma tk_calm {A} (F : act -> Prop) (p : prog world A) h :
    (forall a, F a -> calm a) -> guar (lstep S F) p -> tk (fun _ h' => h' = h) h p.
  Proof.
    intros HF Hp. induction p as [a|m|g f kk IH]; cbn; [done|done|].
    intros w Hw Hg. destruct (Hp w Hg) as [(a & Ha & E) H2]. rewrite E. destruct (tm_act a w (HF a Ha)) as [H3 H4].
    split; [auto|]. exists h. split; [lia|]. by apply IH.
  Qed.
  Lemma tk_any {A} h h' (p : prog world A) : tk (fun _ h' => h' = h) h p -> h <= h' -> tk anyh h' p.
  Proof.
    intros H Hle. eapply (tok_weaken _ _ _ h); [by intros|exact Hle|]. eapply tok_mono; [|exact H]. done.
  Qed.
  (** One delivery of the message costs at most one. *)
  Lemma tk_ret {A} (a : A) h : tk (fun _ h' => h' <= h) h (Ret a).
  Proof. cbn. lia. Qed.
  Notation spends h := (fun _ h' => h <= h').
  Lemma tk_push i x h : tk (spends h) (1 + h) (modify (push i x)).
  Proof.
    apply tok_modify. intros w Hw. destruct (tm_push i x w Hw) as [H1 H2]. split; [done|]. exists h.
    split; [|done]. destruct (decide (carries x)); lia.
  Qed.
  Lemma tk_send_to i x h : tk (spends h) (1 + h) (modify (send_to i x)).
  Proof.
    apply tok_modify. intros w Hw. unfold send_to. destruct (w_regs w !! i); [|split; [done|]; exists h; split; [lia|done]].
    destruct (tm_push i x w Hw) as [H1 H2]. split; [done|]. exists h.
    split; [|done]. destruct (decide (carries x)); lia.
  Qed.
  Lemma tk_deliver d x h : tk (spends h) (1 + h) (deliver d x).
  Proof.
    destruct d as [p|n nd|r]; cbn [deliver].
    - apply tk_send_to.
    - eapply tok_bind; [apply (tok_observe _ _ (fun _ h' => h' = 1 + h)); done|]. intros [i|] h' ->; [apply tk_send_to|]. cbn. lia.
    - unfold alias_retrieve. eapply (tok_bind _ _ (fun _ h' => h' = 1 + h)).
      + eapply (tok_bind _ _ (fun _ h' => h' = 1 + h)).
        * apply tok_atom. intros w Hw. destruct (tm_act (AAliasTake r) w I) as [H1 H2]. cbn in H1, H2. split; [auto|].
          exists (1 + h). split; [lia|done].
        * intros [[o []]|] h' ->; cbn; try done.
          intros w Hw _. destruct (tm_act (APush o (IAliasDeactivated (ref_id r))) w) as [H1 H2]; [intros [|]; discriminate|].
          cbn in H1, H2. split; [auto|]. exists (1 + h). split; [lia|done].
      + intros [o|] h' ->; [apply tk_push|]. cbn. lia.
  Qed.
  Lemma tk_weak {A} h h' (p : prog world A) : h <= h' -> tk (spends h) h p -> tk (spends h) h' p.
  Proof. intros Hle H. eapply tok_weaken; [|exact Hle|exact H]. cbn. lia. Qed.
  Lemma tk_target d h : tk (fun _ h' => h' = h) h (remote_target d).
  Proof.
    eapply tk_calm; [|apply (l_remote_target S d [] (Val 0 0))]. intros [] Ha; cbn in Ha |- *; try done.
  Abort.
  Lemma calm_guar {A} (p : prog world A) h : guar (lstep S calm) p -> tk (fun _ h' => h' = h) h p.
  Proof. by apply tk_calm. Qed.
  Lemma tk_target d h : tk (fun _ h' => h' = h) h (remote_target d).
  Proof.
    apply calm_guar. unfold remote_target, node_register. destruct d as [|n [|nm ad]|]; cbn; try done.
    intros w _. split; [exists (ANodeRegister nm ad false); done | done].
  Qed.
  Lemma tk_send_one d u h : tk (spends h) ((if dest_is_local d then 1 else 0) + h) (send_one S d u).
  Proof.
    unfold send_one. destruct (dest_is_local d); [apply tk_deliver|].
    eapply tok_bind; [apply tk_target|]. intros t h' ->. eapply tok_mono; [|apply calm_guar].
    - cbn. intros _ h' ->. lia.
    - apply guar_modify. intros w. eexists (ASendFrame _ _). split; [exact I|reflexivity].
  Qed.
  Notation nloc l := (length (filter (fun d => dest_is_local d = true) l)).
  Lemma tk_loop u l : forall first rem h, (match first with Some d => dest_is_local d = true | None => True end) ->
    tk (fun x h' => h + (match fst x with Some _ => 1 | None => 0 end) <= h' /\ match fst x with Some d => dest_is_local d = true | None => True end)
       (nloc l + (match first with Some _ => 1 | None => 0 end) + h) (send_loop S u l first rem).
  Proof.
    induction l as [|d l IH]; intros first rem h Hf; cbn [send_loop].
    - cbn. split; [|done]. lia.
    - rewrite filter_cons. destruct (dest_is_local d) eqn:Ed.
      + rewrite decide_True by done. cbn [length]. destruct first as [d1|].
        * eapply tok_bind; [apply (tok_weaken _ _ _ (1 + (nloc l + 1 + h))); [|lia|apply tk_deliver]; cbn; lia|].
          cbn. intros _ h' Hh. eapply tok_weaken; [|exact Hh|by apply (IH (Some d1))].
          cbn. intros [f r] h1 h2 [H1 H2] Hle. split; [lia|done].
        * eapply tok_weaken; [| |by apply (IH (Some d))]; [|lia].
          cbn. intros [f r] h1 h2 [H1 H2] Hle. split; [lia|done].
      + rewrite decide_False by congruence. eapply tok_bind; [apply tk_target|]. intros t h' ->. by apply IH.
  Qed.
  Lemma tk_send u ds' h : tk (spends h) (local_dests ds' + h) (send S ds' u).
  Proof.
    unfold local_dests. destruct ds' as [d|l]; cbn [send dests_list].
    - rewrite filter_cons. destruct (dest_is_local d) eqn:Ed.
      + rewrite decide_True by done. rewrite filter_nil. cbn [length]. pose proof (tk_send_one d u h) as H. by rewrite Ed in H.
      + rewrite decide_False by congruence. rewrite filter_nil. pose proof (tk_send_one d u h) as H. by rewrite Ed in H.
    - pose proof (tk_loop u l None [] h I) as Hl. rewrite Nat.add_0_r in Hl. eapply tok_bind; [exact Hl|].
      intros [f r] h' [H1 H2]. cbn [fst] in H1, H2. cbn [fst snd].
      eapply (tok_bind _ _ (spends h)).
      + destruct f as [d|]; [|cbn; lia]. eapply tok_weaken; [|exact H1|]; [cbn; lia|].
        pose proof (tk_send_one d u h) as H. rewrite H2 in H. by rewrite Nat.add_comm.
      + cbn. intros _ h'' Hh. eapply tok_mono; [|apply calm_guar].
        * cbn. intros _ h1 ->. exact Hh.
        * apply guar_each. intros t. apply guar_modify. intros w. eexists (ASendFrame _ _). split; [exact I|reflexivity].
  Qed.
  Lemma calm_send u l : other_value u -> forall a, fp_send S l u a -> calm a.
  Proof.
    intros [H1 H2] []; cbn; try done.
    - intros [[->| ->]|(r & _ & ->)]; [done|done|intros [|]; discriminate].
    - intros [->| ->]; done.
  Qed.
  Lemma tk_fire i : tk anyh 0 (timer_fire S i).
  Proof.
    unfold timer_fire.
    eapply (tok_bind _ _ (fun t h => match t with Some t => (i = k /\ t_dests t = ds /\ local_dests ds <= h) \/ (other_value (t_val t)) | None => True end)).
    - cbn. intros w Hw Hg. destruct (tm_act (ATaskKill i) w I) as [H1 H2]. cbn in H1, H2.
      split; [by apply H1|]. destruct (w_tasks w !! i) as [t|] eqn:E; [|done].
      destruct (decide (i = k)) as [->|Hne].
      + exists (local_dests ds). apply andb_true_iff in Hg as [Hl _]. split.
        * unfold tm_cnt, live_task, carried; cbn. rewrite lookup_alter, E. cbn. rewrite Hl. lia.
        * left. split; [done|]. split; [by apply (ti_task w Hw)|lia].
      + exists 0. split; [change (kill_task) with (fun t => Task (t_due t) (t_dests t) (t_val t) false) in H2; lia|]. right. by apply (ti_other w Hw i t).
    - intros [t|] h; [|by intros; cbn]. intros [(-> & Et & Hh)|Hv].
      + rewrite Et. eapply (tok_bind _ _ (spends 0)).
        * eapply tok_weaken; [|exact Hh|]; [cbn; lia|]. pose proof (tk_send (t_val t) ds 0) as H. by rewrite Nat.add_0_r in H.
        * intros _ h' _. apply (tk_any h'); [|lia]. eapply tk_calm; [|apply l_destroy_timer]. by intros [].
      + apply (tk_any h); [|lia]. eapply tok_bind; [eapply tk_calm; [|apply l_send]; by apply calm_send|].
        intros _ h' ->. eapply tk_calm; [|apply l_destroy_timer]. by intros [].
  Qed.
  Lemma tk_call c : carries_others S v c -> tk anyh 0 (call_prog S c).
  Proof.
    intros Hc.
    assert ((forall a, fp S c a -> calm a) -> tk anyh 0 (call_prog S c)) as Hm
      by (intros H; apply (tk_any 0); [|lia]; by eapply tk_calm; [|apply call_fp]).
    assert (forall x, ~ user_item x -> ~ carries x) as Hu by (intros x Hx' [->| ->]; by apply Hx').
    destruct c; try (apply Hm; intros [] H; try exact I; cbn in H; unfold fp_monitor_alias, fp_monitor, fp_crash, fp_finish, fp_destroy_timer, fp_exit in H; cbn in H;
      naive_solver (intros [|]; discriminate)).
    - apply Hm. cbn. by apply calm_send.
    - cbn [call_prog]. unfold ret_as, send_after.
      eapply (tok_bind _ _ anyh); [|by intros; cbn].
      eapply (tok_bind _ _ (fun r h => ref_id r <> k)).
      { apply tok_atom. intros w Hw. destruct (tm_act AFreshRef w I) as [H1 H2]. cbn in H1, H2. split; [auto|]. exists 0.
        split; [cbn; lia|]. cbn. destruct Hw. lia. }
      intros r h Hr. cbn in Hc.
      apply (tk_any h); [|lia]. apply calm_guar. apply guar_bind.
      { apply guar_modify. intros w. exists (ATaskAdd (ref_id r) ds0 v0 d). split; [split; [exact Hr|exact Hc]|reflexivity]. }
      intros _. apply guar_bind; [|by intros; cbn].
      apply guar_modify. intros w. exists (ATimerAdd (ref_id r) d). split; [exact I|reflexivity].
    - cbn [call_prog]. unfold ret_as. eapply (tok_bind _ _ anyh); [apply tk_fire|by intros; cbn].
    - apply Hm. intros []; cbn; try done. intros H. apply Hu. intros Hx'. by destruct x.
    - apply Hm. intros [] H; try exact I; cbn in H; destruct f; try done; cbn in Hc; try (apply Hu; naive_solver).
      + destruct H as [->|[j ->]]; [done|]. intros [|]; discriminate.
      + subst. done.
  Qed.
  Lemma tm_reach w s : tm_inv w -> reach (calls_of S (carries_others S v)) (Sys w []) s ->
    length (carried (s_world s)) <= length (carried w) + live_task w.
  Proof.
    intros Hw Hr.
    destruct (reach_tok tm_inv tm_cnt (fun _ : val => 0) (calls_of S (carries_others S v)) w s Hw) as [_ H]; [|exact Hr|].
    - intros p (c & Hc & ->). eapply tok_mono; [|by apply tk_call]. cbn. lia.
    - unfold tm_cnt in H. lia.
  Qed.
End once.
