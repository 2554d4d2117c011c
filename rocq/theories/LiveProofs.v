(** In histories a process that has been started and has not ended is registered, and nothing else is. *)
From stdpp Require Import base list gmap numbers strings countable sorting relations.
From Coq Require Import Lia.
From Verif Require Import Prog ProgProofs ProgInv Types Mailbox World ProcApi NodeApi Api Steps Hist Labels SchedSpec Msum SchedProofs ProcSpec ProcProofs ProcInv RegProofs.

Record live_inv (w : world) : Prop := LiveInv {
  lv_running : forall i, i ∈ w_running w <-> is_Some (w_regs w !! i);
  lv_loc : forall i, is_Some (w_loc w !! i) <-> is_Some (w_regs w !! i) }.
Definition vmild (x : act) : Prop := match x with AAlloc | ARunning _ | AInsert _ | ARegDelete _ | AGone _ => False | _ => True end.
Lemma insert_or {A} (m : gmap N A) k j (a : A) : is_Some (<[k:=a]> m !! j) <-> j = k \/ is_Some (m !! j).
Proof.
  destruct (decide (j = k)) as [->|Hne]; [rewrite lookup_insert; split; [by left|eauto]|].
  rewrite lookup_insert_ne by congruence. split; [by right|]. by intros [?|?].
Qed.
Lemma live_same w w' : w_running w' = w_running w -> (forall i, is_Some (w_regs w' !! i) <-> is_Some (w_regs w !! i)) ->
  (forall i, is_Some (w_loc w' !! i) <-> is_Some (w_loc w !! i)) -> live_inv w -> live_inv w'.
Proof. intros E1 E2 E3 [H1 H2]. constructor; intros i; [by rewrite E1, E2|by rewrite E3, E2]. Qed.
Lemma live_spawned w w' : w_running w' = {[w_next_pid w]} ∪ w_running w -> w_regs w' = <[w_next_pid w := new_reg]> (w_regs w) ->
  (forall i, is_Some (w_loc w' !! i) <-> i = w_next_pid w \/ is_Some (w_loc w !! i)) -> live_inv w -> live_inv w'.
Proof.
  intros E1 E2 E3 [H1 H2].
  assert (forall i, is_Some (w_regs w' !! i) <-> i = w_next_pid w \/ is_Some (w_regs w !! i)) as E4.
  { intros i. rewrite E2. apply insert_or. }
  constructor; intros i.
  - rewrite E1, E4, elem_of_union, elem_of_singleton, H1. reflexivity.
  - by rewrite E3, E4, H2.
Qed.
Lemma push_loc i x w j : is_Some (w_loc (push i x w) !! j) <-> is_Some (w_loc w !! j).
Proof.
  unfold push. destruct (w_loc w !! i) as [l|] eqn:E; [|reflexivity]. cbn. destruct (decide (j = i)) as [->|Hne].
  - rewrite lookup_insert, E. split; eauto.
  - by rewrite lookup_insert_ne by congruence.
Qed.
Lemma alter_some {A} (g : A -> A) (m : gmap N A) i j : is_Some (alter g i m !! j) <-> is_Some (m !! j).
Proof.
  destruct (decide (j = i)) as [->|Hne]; [rewrite lookup_alter; apply fmap_is_Some | by rewrite lookup_alter_ne by congruence].
Qed.
Lemma insert_some {A} (m : gmap N A) i j (a b : A) : m !! i = Some a -> is_Some (<[i:=b]> m !! j) <-> is_Some (m !! j).
Proof.
  intros E. destruct (decide (j = i)) as [->|Hne]; [rewrite lookup_insert, E; split; eauto | by rewrite lookup_insert_ne by congruence].
Qed.
Lemma exit_op_live p f y w : live_inv w -> live_inv (exit_op p f y w).
Proof.
  intros H. apply (live_same w); [| | |exact H].
  - unfold exit_op, push. repeat case_match; reflexivity.
  - intros i. destruct (exit_op_reg i p f y w) as [->| ->]; [reflexivity|apply fmap_is_Some].
  - intros i. unfold exit_op. repeat case_match; cbn; try reflexivity; apply push_loc.
Qed.
Lemma exit_linked_op_live p f y w : live_inv w -> live_inv (exit_linked_op p f y w).
Proof.
  intros H. apply (live_same w); [| | |exact H].
  - unfold exit_linked_op, push. repeat case_match; reflexivity.
  - intros i. destruct (exit_linked_op_reg i p f y w) as [->| ->]; [reflexivity|apply fmap_is_Some].
  - intros i. unfold exit_linked_op. repeat case_match; cbn; try reflexivity; apply push_loc.
Qed.
Ltac vsame w := apply (live_same w); [reflexivity|intros; reflexivity|intros; reflexivity|assumption].
Ltac vspawn w := apply (live_spawned w); [reflexivity|reflexivity|intros; cbn; apply insert_or|assumption].
Lemma vmild_inv S x w : vmild x -> live_inv w -> live_inv (does S x w).
Proof.
  intros Hx Hw. destruct x; try contradiction; cbn [does]; try (vsame w);
    try (by (apply (live_same w); [reflexivity|intros; reflexivity|intros; cbn; apply alter_some|exact Hw]));
    try (by (apply (live_same w); [reflexivity|intros; cbn; apply alter_some|intros; reflexivity|exact Hw])).
  - apply (live_same w); [unfold receive_op; repeat case_match; reflexivity|unfold receive_op; repeat case_match; reflexivity| |exact Hw].
    intros i. unfold receive_op. destruct (w_loc w !! me) as [l|] eqn:E; [|reflexivity]. case_match. cbn. by apply (insert_some _ me i l).
  - unfold alias_take_op. repeat case_match; try exact Hw; vsame w.
  - apply (live_same w); [unfold push; repeat case_match; reflexivity|unfold push; repeat case_match; reflexivity|apply push_loc|exact Hw].
  - unfold send_to. case_match; [|exact Hw]. apply (live_same w); [unfold push; repeat case_match; reflexivity|unfold push; repeat case_match; reflexivity|apply push_loc|exact Hw].
  - unfold node_register_op, spawn_op. repeat case_match; simplify_eq; cbn; try exact Hw; try (vsame w); vspawn w.
  - unfold send_frame, hand_out. repeat case_match; try exact Hw; vsame w.
  - unfold register_op. destruct p as [j|]; [|exact Hw]. destruct (w_names w !! n); [case_decide; exact Hw|].
    destruct (w_regs w !! j) as [r|] eqn:Er; [|exact Hw]. destruct (r_name r); [exact Hw|]. cbn.
    apply (live_same w); [reflexivity|intros i; cbn; by apply (insert_some _ j i r)|reflexivity|exact Hw].
  - by apply exit_op_live.
  - by apply exit_linked_op_live.
  - unfold node_start_op, spawn_op. repeat case_match; simplify_eq; cbn; try exact Hw; try (vsame w); vspawn w.
  - unfold node_disconnect_op. repeat case_match; try exact Hw.
    + match goal with |- live_inv (up_nregs _ ?v) => assert (live_inv v) as Hv end; [|vsame (exit_op p0 p RKill (up_pend (delete n) w))].
      apply exit_op_live. vsame w.
    + vsame w.
  - unfold node_accept_op. repeat case_match; cbn; try exact Hw; try (vsame w); simplify_eq; try (by apply exit_op_live);
      (match goal with |- live_inv (up_nregs _ ?v) => assert (live_inv v) as Hv by (by apply exit_op_live); vsame v end).
  - unfold node_workers_op, hand_out. repeat case_match; try exact Hw; vsame w.
  - unfold sup_down_op. repeat case_match; try exact Hw; vsame w.
Qed.
Lemma run_spawn_live me l m w : live_inv w -> exists w' x, run (spawn me l m) w = Done w' x /\ live_inv w'.
Proof.
  intros H. destruct l, m; cbn; eexists _, _; (split; [reflexivity|]); (apply (live_spawned w); [reflexivity|reflexivity| |exact H]);
    intros i; cbn; rewrite ?alter_some; apply insert_or.
Qed.
Lemma quiet_run_live S (F : act -> Prop) {A} (p : prog world A) w :
  guar (lstep S F) p -> (forall x, F x -> vmild x) -> live_inv w -> live_inv (out_world (run p w)).
Proof.
  intros Hg HF Hw. pose proof (post_run live_inv (fun _ => True) p w) as H.
  assert (post live_inv (fun _ : A => True) p) as Hp.
  { eapply post_guar; [|exact Hg]. intros v v' (x & Hx & ->). apply vmild_inv. auto. }
  specialize (H Hp Hw). destruct (run p w); cbn; tauto.
Qed.
Lemma run_drop_live S me w : occurs S w -> live_inv w -> live_inv (out_world (run (drop_process me) w)).
Proof.
  intros Ho [H1 H2]. destruct (w_regs w !! me) as [r|] eqn:Er.
  - destruct (drop_spec me w r Er (occurs_named S w Ho me)) as (w' & -> & Hx). cbn.
    assert (forall i, is_Some (w_regs w' !! i) <-> i <> me /\ is_Some (w_regs w !! i)) as Hr.
    { intros i. destruct (decide (i = me)) as [->|Hne].
      - rewrite (ex_reg _ _ _ _ _ Hx). split; [intros [? ?]; discriminate|tauto].
      - rewrite (ex_regs _ _ _ _ _ Hx i Hne). destruct (linked w me i); rewrite ?fmap_is_Some; tauto. }
    constructor; intros i.
    + rewrite (ex_running _ _ _ _ _ Hx), Hr, elem_of_difference, elem_of_singleton, H1. tauto.
    + rewrite Hr. destruct (decide (i = me)) as [->|Hne].
      * rewrite (ex_loc _ _ _ _ _ Hx). split; [intros [? ?]; discriminate|tauto].
      * rewrite (ex_mail _ _ _ _ _ Hx i Hne), fmap_is_Some, H2. tauto.
  - unfold drop_process. rewrite run_bind, run_atom. cbn [fst snd]. rewrite Er. cbn. constructor; intros i; cbn.
    + rewrite delete_notin by exact Er. rewrite elem_of_difference, elem_of_singleton, H1. split; [tauto|]. intros H. split; [exact H|].
      intros ->. rewrite Er in H. by destruct H.
    + rewrite (delete_notin (w_regs w)) by exact Er. destruct (decide (i = me)) as [->|Hne].
      * rewrite lookup_delete, Er. split; intros [? ?]; discriminate.
      * rewrite lookup_delete_ne by congruence. apply H2.
Qed.
Lemma happens_live S c w w' : occurs S w -> live_inv w -> happens S c w w' -> live_inv w'.
Proof.
  intros Ho Hw Hh.
  assert (forall (p : prog world val), call_prog S c = p -> live_inv (out_world (run p w)) -> live_inv w') as Hout.
  { intros p <-. destruct Hh as [v E|m E]; rewrite E; cbn; auto. }
  assert ((forall x, fp S c x -> vmild x) -> live_inv w') as Hq.
  { intros H. eapply Hout; [reflexivity|]. eapply quiet_run_live; [apply call_fp|exact H|exact Hw]. }
  assert (forall {A} (p : prog world A) (f : A -> val), call_prog S c = ret_as f p -> live_inv (out_world (run p w)) -> live_inv w') as Hret.
  { intros A p f E H. eapply Hout; [exact E|]. unfold ret_as. rewrite run_bind. destruct (run p w); exact H. }
  destruct c; try (apply Hq; intros []; cbn; unfold fp_send, fp_destroy_timer, fp_fire, fp_exit; cbn; done).
  - (* spawn *) eapply Hret; [reflexivity|]. destruct (run_spawn_live me link monitor w Hw) as (w1 & x & -> & H). exact H.
  - (* monitor_alias *) apply Hq. intros []; cbn; unfold fp_monitor_alias, fp_monitor; naive_solver.
  - (* finish *) eapply Hret; [reflexivity|]. by apply (run_drop_live S).
  - (* crash *) eapply Hret; [reflexivity|]. unfold crash. rewrite run_bind, run_modify. cbn [out_world].
    apply (run_drop_live S); [|apply (vmild_inv S (ASetExit me why) w I Hw)].
    destruct Ho as [ts Hr]. eexists (ts ++ [_]). eapply rtc_r; [eapply rtc_r; [exact Hr|apply (step_call (any_call S) (call_prog S (CCrash me why))); by eexists]|].
    eapply (step_tick _ (length ts)). unfold tick; cbn [s_threads s_world]. rewrite lookup_app_r, Nat.sub_diag by lia. cbn.
    rewrite insert_app_r_alt, Nat.sub_diag by lia. reflexivity.
  - (* supervise *) eapply Hret; [reflexivity|]. unfold remote_supervisor. rewrite run_bind, run_atom. 
    pose proof (vmild_inv S (AAccept name addr (PLocal me) (PLocal me)) w I Hw) as H1. cbn [does] in H1.
    destruct (node_accept_op name addr (PLocal me) (PLocal me) w) as [w1 [|]]; cbn [fst snd negb] in *; [|exact H1].
    destruct (run_spawn_live me true false w1 H1) as (w2 & s & E2 & H2). rewrite run_bind, E2.
    destruct (run_spawn_live me true false w2 H2) as (w3 & r & E3 & H3). rewrite run_bind, E3.
    cbn. apply (vmild_inv S (AWorkers (NRemote name addr) s.1 r.1) w3 I H3).
Qed.
Lemma seq_live S w : seq_reachable S w -> live_inv w.
Proof.
  intros [cs H]. remember world0 as w0 eqn:E0. assert (occurs S w0 /\ live_inv w0) as [Ho Hn].
  { subst. split; [apply occurs0|]. constructor; intros; cbn; rewrite !lookup_empty; (split; [try set_solver|]; intros [? ?]; discriminate). }
  clear E0. induction H as [w|w cs w1 c w2 Hh IH Hok Hc]; [exact Hn|].
  eapply happens_live; [eapply history_occurs; [exact Ho|exact Hh] | apply IH; assumption | exact Hc].
Qed.

(** ** Programs whose steps pay for what they do: [pay h p] holds [h] tokens; a step may turn tokens
    of the world ([cnt]) into held ones and back, and must spend [cost w w'] of them. *)
Section pay.
  Context {W : Type} (cnt : W -> nat) (cost : W -> W -> nat).
  Fixpoint pay {R} (Q : R -> nat -> Prop) (h : nat) (p : prog W R) : Prop :=
    match p with
    | Ret r => Q r h
    | Panic _ => True
    | Atom g f k => forall w, g w = true -> exists h', cnt (f w) + h' + cost w (f w) <= cnt w + h /\ pay Q h' (k w)
    end.
  Lemma pay_bind {A B} (Q : A -> nat -> Prop) (Q' : B -> nat -> Prop) h (p : prog W A) (q : A -> prog W B) :
    pay Q h p -> (forall a h', Q a h' -> pay Q' h' (q a)) -> pay Q' h (bind p q).
  Proof.
    revert h; induction p as [a|m|g f k IH]; intros h Hp Hq; cbn in *; auto.
    intros w Hg. destruct (Hp w Hg) as (h' & H1 & H2). eauto.
  Qed.
  Lemma pay_mono {A} (Q Q' : A -> nat -> Prop) h (p : prog W A) : (forall a h, Q a h -> Q' a h) -> pay Q h p -> pay Q' h p.
  Proof. intros H. revert h; induction p as [a|m|g f k IH]; intros h Hp; cbn in *; auto. intros w Hg. destruct (Hp w Hg) as (h' & ? & ?); eauto. Qed.
  Lemma pay_atom {A} (Q : A -> nat -> Prop) h (op : W -> W * A) :
    (forall w, exists h', cnt (fst (op w)) + h' + cost w (fst (op w)) <= cnt w + h /\ Q (snd (op w)) h') -> pay Q h (atom op).
  Proof. intros H w _. destruct (H w) as (h' & ? & ?). exists h'. cbn. auto. Qed.
  Lemma pay_guar {A} (Q : A -> nat -> Prop) h (p : prog W A) :
    guar (fun w w' => cnt w' + cost w w' <= cnt w) p -> (forall a, Q a h) -> pay Q h p.
  Proof.
    intros Hg HQ. induction p as [a|m|g f k IH]; cbn in *; auto. intros w Hgw. destruct (Hg w Hgw) as [H1 H2].
    exists h. split; [lia | auto].
  Qed.
  (** One step of a system of such programs. *)
  Lemma pay_step {R} (api : prog W R -> Prop) s s' hs :
    (forall p, api p -> pay (fun _ _ => True) 0 p) -> (forall w, cost w w = 0) ->
    sys_step api s s' -> Forall2 (fun h p => pay (fun _ _ => True) h p) hs (s_threads s) ->
    exists hs', Forall2 (fun h p => pay (fun _ _ => True) h p) hs' (s_threads s') /\
      cnt (s_world s') + list_sum hs' + cost (s_world s) (s_world s') <= cnt (s_world s) + list_sum hs.
  Proof.
    intros Hapi Hc Hs Hf. destruct Hs as [i s s' Ht|p s Hp].
    - unfold tick in Ht. destruct (s_threads s !! i) as [[| |g f k]|] eqn:E; try discriminate.
      destruct (g (s_world s)) eqn:Hg; inversion Ht; subst; clear Ht.
      destruct (Forall2_lookup_r _ _ _ _ _ Hf E) as (h & Eh & Htok).
      destruct (Htok _ Hg) as (h' & Hle & Htok').
      exists (<[i := h']> hs). split; [by apply Forall2_insert|]. cbn.
      assert (list_sum (<[i := h']> hs) + h = list_sum hs + h') as Hsum.
      { rewrite insert_take_drop by (eapply lookup_lt_Some; exact Eh).
        rewrite <- (take_drop_middle hs i h Eh) at 3.
        rewrite !list_sum_app. unfold list_sum; cbn. lia. }
      lia.
    - exists (hs ++ [0]). split; [apply Forall2_app; [exact Hf|]; constructor; [by apply Hapi|constructor]|].
      cbn. rewrite Hc, list_sum_app. unfold list_sum; cbn. lia.
  Qed.
End pay.

(** ** In every schedule a process is registered at most once: once it is gone, it stays gone. *)
Section once.
  Context (S : serde) (i : N).
  Definition un_cnt (w : world) : nat := unalloc (w_next_pid w) i.
  Definition newly (w w' : world) : nat := match w_regs w !! i, w_regs w' !! i with None, Some _ => 1 | _, _ => 0 end.
  Definition omild (x : act) : Prop := match x with AInsert _ => False | _ => True end.
  Lemma omild_cnt x w : omild x -> un_cnt (does S x w) + newly w (does S x w) <= un_cnt w.
  Proof.
    intros Hx. unfold un_cnt, newly. pose proof (does_next_pid S x w) as Hnp. pose proof (unalloc_mono _ _ i Hnp).
    destruct (regs_change S i x w) as [|why|n r E En Er Em|E|b E|y E|E|E|E Hlt].
    - destruct (w_regs w !! i); lia.
    - destruct (w_regs w !! i); cbn; lia.
    - rewrite Er. lia.
    - destruct (w_regs w !! i); cbn; lia.
    - destruct (w_regs w !! i); cbn; lia.
    - destruct (w_regs w !! i); cbn; lia.
    - destruct (w_regs w !! i); cbn; lia.
    - by rewrite E in Hx.
    - unfold unalloc in *. rewrite <- E in *. rewrite decide_False by lia. rewrite decide_True by lia. destruct (w_regs w !! i); lia.
  Qed.
  Notation tk := (pay un_cnt newly).
  Definition okeeps {A} h : A -> nat -> Prop := fun _ h' => h' = h.
  Lemma ot_quiet {A} (F : act -> Prop) h (p : prog world A) : guar (lstep S F) p -> (forall x, F x -> omild x) -> tk (okeeps h) h p.
  Proof.
  intros Hg HF. apply pay_guar; [|intros; reflexivity]. eapply guar_mono; [|exact Hg]. cbn. intros w w' (x & Hx & ->). apply omild_cnt. auto.
  Qed.
  Lemma ot_do h f x : (forall w, f w = does S x w) -> omild x -> tk (okeeps h) h (modify f).
  Proof. intros Hf Hx. apply pay_atom. intros w. exists h. cbn. rewrite Hf. pose proof (omild_cnt x w Hx). split; [lia|reflexivity]. Qed.
  Ltac nseq := eapply (pay_bind _ _ (okeeps _)); [|intros ? ? ->].
  Lemma ot_spawn me l m h : tk (okeeps h) h (spawn me l m).
  Proof.
    unfold spawn. eapply (pay_bind _ _ (fun j h' => h' = (if decide (j = i) then 1 else 0) + h)).
    { apply pay_atom. intros w. cbn. eexists. split; [|reflexivity].
      unfold un_cnt, newly; cbn. pose proof (unalloc_take (w_next_pid w) i) as H. destruct (w_regs w !! i); repeat case_decide; lia. }
    intros j h' ->. nseq.
    { destruct l; [|reflexivity]. nseq; [by apply (ot_do _ _ (AAddLink j (PLocal me))) | by apply (ot_do _ _ (AAddLink me (PLocal j)))]. }
    nseq.
    { destruct m; [|reflexivity]. nseq; [apply (ot_quiet (fun x => x = AFreshRef)); [apply guar_atom; intros; by exists AFreshRef | by intros ? ->]|].
      nseq; [by apply (ot_do _ _ (AOwnMonitor me a0 (MForProcess (Some (PLocal j)))))|].
      nseq; [by apply (ot_do _ _ (AAddMon j a0 (PLocal me) (Some (DPid (PLocal j)))))|reflexivity]. }
    nseq; [by apply (ot_do _ _ (ARunning j))|]. eapply (pay_bind _ _ (okeeps h)); [|intros ? ? ->; reflexivity].
    apply pay_atom. intros w. exists h. split; [|reflexivity]. unfold un_cnt, newly; cbn.
    destruct (decide (j = i)) as [->|Hne]; [rewrite lookup_insert; destruct (w_regs w !! i); lia | rewrite lookup_insert_ne by congruence; destruct (w_regs w !! i); lia].
  Qed.
  Lemma call_tok_reg c : tk (fun _ _ => True) 0 (call_prog S c).
  Proof.
    assert ((forall x, fp S c x -> omild x) -> tk (fun _ _ => True) 0 (call_prog S c)) as Hm.
    { intros H. eapply pay_mono; [|eapply (ot_quiet (fp S c)); [apply call_fp | exact H]]. auto. }
    destruct c; try (apply Hm; intros []; cbn; unfold fp_send, fp_destroy_timer, fp_fire, fp_exit; cbn; done); cbn [call_prog]; unfold ret_as.
    - nseq; [apply ot_spawn | exact I].
    - apply Hm. intros []; cbn; unfold fp_monitor_alias, fp_monitor; naive_solver.
    - apply Hm. intros []; cbn; unfold fp_crash, fp_finish; naive_solver.
    - nseq; [|exact I]. unfold remote_supervisor. nseq.
      { apply pay_atom. intros w. exists 0. split; [|reflexivity]. pose proof (omild_cnt (AAccept name addr (PLocal me) (PLocal me)) w I). cbn in *. lia. }
      destruct (negb _); [exact I|]. eapply (pay_bind _ _ (okeeps _)); [apply ot_spawn|intros p1 ? ->]. eapply (pay_bind _ _ (okeeps _)); [apply ot_spawn|intros p2 ? ->].
      nseq; [by apply (ot_do _ _ (AWorkers (NRemote name addr) p1.1 p2.1))|reflexivity].
  Qed.
  Lemma any_pay p : any_call S p -> tk (fun (_ : val) _ => True) 0 p.
  Proof. intros [c ->]. apply call_tok_reg. Qed.
  Lemma newly_refl w : newly w w = 0.
  Proof. unfold newly. by destruct (w_regs w !! i). Qed.
  Lemma reachable_pay s : reachable S s -> exists hs, Forall2 (fun h p => tk (fun _ _ => True) h p) hs (s_threads s) /\
    un_cnt (s_world s) + list_sum hs + (match w_regs (s_world s) !! i with Some _ => 1 | None => 0 end) <= 1.
  Proof.
    intros Hr. unfold reachable, reach in Hr.
    refine (rtc_ind_r (fun s => exists hs, Forall2 (fun h p => tk (fun _ _ => True) h p) hs (s_threads s) /\
      un_cnt (s_world s) + list_sum hs + (match w_regs (s_world s) !! i with Some _ => 1 | None => 0 end) <= 1) _ _ _ s Hr).
    - exists []. split; [constructor|]. unfold un_cnt, unalloc. cbn [s_world w_next_pid w_regs world0]. rewrite lookup_empty. unfold list_sum. cbn. case_decide; lia.
    - intros s1 s2 _ Hs (hs & H1 & H2). destruct (pay_step un_cnt newly (any_call S) s1 s2 hs any_pay newly_refl Hs H1) as (hs' & H3 & H4).
      exists hs'. split; [exact H3|]. unfold newly in H4. destruct (w_regs (s_world s1) !! i), (w_regs (s_world s2) !! i); lia.
  Qed.
  Lemma stays_gone s s' hs : reach (any_call S) s s' -> Forall2 (fun h p => tk (fun _ _ => True) h p) hs (s_threads s) ->
    un_cnt (s_world s) + list_sum hs = 0 -> 
    exists hs', Forall2 (fun h p => tk (fun _ _ => True) h p) hs' (s_threads s') /\ un_cnt (s_world s') + list_sum hs' = 0 /\
      (w_regs (s_world s) !! i = None -> w_regs (s_world s') !! i = None).
  Proof.
    intros Hr. revert hs. induction Hr as [s|s1 s2 s3 Hs _ IH]; intros hs H1 H2; [eauto|].
    destruct (pay_step un_cnt newly (any_call S) s1 s2 hs any_pay newly_refl Hs H1) as (hs' & H3 & H4).
    destruct (IH hs' H3) as (hs2 & A1 & A2 & A3); [lia|]. exists hs2. split; [exact A1|]. split; [exact A2|].
    intros E. apply A3. unfold newly in H4. rewrite E in H4. destruct (w_regs (s_world s2) !! i); [lia|reflexivity].
  Qed.
  (** Registered in [s], not registered later in [s1]: not registered in any later [s2]. *)
  Lemma gone_for_good s s1 s2 : reachable S s -> is_Some (w_regs (s_world s) !! i) ->
    reach (any_call S) s s1 -> w_regs (s_world s1) !! i = None -> reach (any_call S) s1 s2 -> w_regs (s_world s2) !! i = None.
  Proof.
    intros Hr [r E] H1 E1 H2. destruct (reachable_pay s Hr) as (hs & A1 & A2). rewrite E in A2.
    destruct (stays_gone s s1 hs H1 A1) as (hs1 & B1 & B2 & _); [lia|].
    destruct (stays_gone s1 s2 hs1 H2 B1 B2) as (hs2 & _ & _ & C). auto.
  Qed.
End once.
