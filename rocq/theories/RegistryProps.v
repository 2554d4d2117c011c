(** C46-C50, C71, C72: registries. *)
From stdpp Require Import base list gmap numbers strings sets.
From Coq Require Import ZArith Lia.
From Verif Require Import Types Super Registry RegistrySpec RegistryProofs RegistryInv.

Section props.
  Context (answers : nat -> answer).
  (** ** Single events *)
  Lemma start_exact srv g k w : reachable w srv g -> g_start g = true -> entry w (g_name g) k = None ->
    exists w', start_by_key answers srv g k w = (w', PStart (match answers (t_tick w) with Up p => inr p | Down r => inl (GStartError r) end)) /\
      did w w' [GStarts (g_name g) k (answers (t_tick w))] /\ t_tick w' = S (t_tick w) /\
      match answers (t_tick w) with Up p => only_entry w w' (g_name g) k (Some p) | Down _ => no_entry_changed w w' end.
  Proof.
    intros [Hs Hn] Hg He. unfold start_by_key. rewrite (entry_lookup w (g_name g) k), He, Hg.
    destruct (answers (t_tick w)) as [p|r].
    - eexists. split; [reflexivity|]. split; [done|]. split; [done|]. split.
      + rewrite entry_register. by rewrite decide_True.
      + intros n k' Hk. rewrite entry_register. by rewrite decide_False.
    - eexists. split; [reflexivity|]. done.
  Qed.
  Lemma start_registered srv g k p w : entry w (g_name g) k = Some p -> start_by_key answers srv g k w = (w, PStart (inl (GAlreadyStarted p))).
  Proof. intros H. unfold start_by_key. by rewrite (entry_lookup w (g_name g) k), H. Qed.

  (** C46, a registered key: its process is returned, and nothing happens. The first two are calls on the registry's
      own node, the others what the registry answers to clients of other nodes. *)
  Theorem C46_registered w name k p : entry w name k = Some p ->
    reg_lookup_or_start answers name k w = (w, inr p) /\
    reg_start_process answers name k w = (w, inl (GAlreadyStarted p)) /\
    (forall srv g, g_name g = name ->
       handle_rcall answers srv g (CLookup k) w = (w, PLookup (Some p)) /\
       handle_rcall answers srv g (CLookupOrStart k) w = (w, PStart (inr p)) /\
       handle_rcall answers srv g (CStart k) w = (w, PStart (inl (GAlreadyStarted p)))).
  Proof.
    intros H. unfold reg_lookup_or_start, reg_start_process. rewrite (entry_lookup w name k), H. split_and!; try done.
    intros srv g <-. cbn. unfold lookup_or_start_by_key. rewrite (entry_lookup w (g_name g) k), H. split_and!; try done. by apply start_registered.
  Qed.
  (** C46, a key not registered: the start routine is called once; if it succeeds its process is registered, and
      nothing else changes; if it fails nothing is registered. *)
  Theorem C46_absent w srv g k : reachable w srv g -> g_start g = true -> entry w (g_name g) k = None ->
    exists w',
      reg_lookup_or_start answers (g_name g) k w = (w', match answers (t_tick w) with Up p => inr p | Down r => inl (GStartError r) end) /\
      reg_start_process answers (g_name g) k w = (w', match answers (t_tick w) with Up p => inr p | Down r => inl (GStartError r) end) /\
      did w w' [GStarts (g_name g) k (answers (t_tick w))] /\
      match answers (t_tick w) with Up p => only_entry w w' (g_name g) k (Some p) | Down _ => no_entry_changed w w' end.
  Proof.
    intros Hr Hg He. destruct (start_exact srv g k w Hr Hg He) as (w' & Hw & Hd & _ & Hm). exists w'. destruct Hr as [Hs Hn].
    unfold reg_lookup_or_start, reg_start_process, call_named. rewrite (entry_lookup w (g_name g) k), He, Hn, Hs. cbn [handle_rcall].
    unfold lookup_or_start_by_key. rewrite (entry_lookup w (g_name g) k), He, Hw.
    destruct (answers (t_tick w)); done.
  Qed.

  (** ** Entries stay *)
  Lemma stays w e name k p : entry w name k = Some p -> ~ removal w name k p e -> entry (rstep answers w e) name k = Some p.
  Proof.
    intros H Hn. destruct e as [srv n start sh opt|srv m|srv q|srv q|srv|srv|n k'|n k']; cbn [rstep]; [| |..].
    - unfold start_registry. cbn [new_reg g_name]. destruct (t_names w !! default n opt) as [q|] eqn:En; cbn [fst]; [|done].
      rewrite entry_drop. cbn [g_name new_reg]. destruct (decide (name = n)) as [->|]; [|done]. destruct Hn. by eapply removal_duplicate.
    - destruct (t_regs w !! srv) as [g|] eqn:Eg; [|done].
      assert (forall k' m', (m' = CStart k' \/ m' = CLookupOrStart k') -> m = m' -> entry (fst (start_by_key answers srv g k' w)) name k = Some p) as Hst.
      { intros k' m' Hm' ->. rewrite entry_start_by_key by done. destruct (entry w (g_name g) k') eqn:Ek'; [done|].
        destruct (g_start g) eqn:Es.
        - destruct (answers (t_tick w)); [|done]. destruct (decide _) as [X|]; [|done]. injection X as -> ->. congruence.
        - destruct (decide (name = g_name g)) as [->|]; [|done]. destruct Hn. by eapply (removal_panic _ _ _ _ srv g k'). }
      destruct m as [k'|k'|k'|k'| | |k']; cbn [handle_rcall fst]; try done.
      + rewrite entry_lookup_or_start. eapply Hst; [by right|done].
      + eapply Hst; [by left|done].
      + rewrite entry_stop. destruct (decide _) as [X|]; [|done]. injection X as -> ->. destruct Hn. by eapply removal_stop.
      + rewrite entry_remove_key. destruct (decide _) as [X|]; [|done]. injection X as -> ->. destruct Hn. by eapply removal_remove.
    - destruct (t_regs w !! srv) as [g|] eqn:Eg; [|done]. destruct (decide _); done.
    - destruct (t_regs w !! srv) as [g|] eqn:Eg; [|done]. rewrite entry_exit. destruct (g_lookup g !! q) as [k'|] eqn:El; [|done].
      destruct (decide _) as [[X Y]|]; [|done]. injection X as -> ->. rewrite H in Y. injection Y as ->. destruct Hn. by eapply removal_exit.
    - rewrite entry_gone. destruct (t_regs (terminate_reg srv w) !! srv) as [g'|] eqn:Eg'.
      + destruct (regs_terminate_name _ _ _ Eg') as (g & Eg & Hg). rewrite Hg, entry_terminate, Eg.
        destruct (decide (name = g_name g)) as [->|Hne]; [destruct Hn; by eapply removal_end|]. rewrite decide_False; [done|]. by intros [? _].
      + apply (proj1 (regs_terminate srv w)) in Eg'. by rewrite entry_terminate, Eg'.
    - rewrite entry_gone. destruct (t_regs w !! srv) as [g|] eqn:Eg; [|done]. destruct (decide (name = g_name g)) as [->|Hne]; [|done]. destruct Hn. by eapply removal_kill.
    - done.
    - rewrite (entry_lookup w n k'). destruct (entry w n k') as [q|] eqn:Ek; [|done].
      change (entry (remove_process n k' w) name k = Some p). rewrite entry_remove. destruct (decide _) as [X|]; [|done]. injection X as -> ->. destruct Hn. apply removal_local.
  Qed.
  (** C46: an entry stays as it is -- above all, the key is not given another process -- until an event that removes it:
      its process exits, it is stopped or removed, or its registry ends. *)
  Theorem C46_stays es : forall w name k p, entry w name k = Some p -> kept answers w name k p es -> entry (rplays answers w es) name k = Some p.
  Proof.
    induction es as [|e es IH]; intros w name k p H Hk; [done|]. destruct Hk as [Hn Hk]. apply IH; [|done]. by apply stays.
  Qed.
  (** The log only grows, and a start routine is called only for a key that is not registered. *)
  Lemma gone_log srv w l : t_log (gone_reg srv w) = t_log w ++ l -> forall x, x ∈ l -> exists p, x = GUnlinks p \/ x = GExits p RKill.
  Proof.
    unfold gone_reg. destruct (t_regs w !! srv) as [g|].
    - cbn. intros <-%app_inv_head x Hx. apply elem_of_list_In, in_concat in Hx as (y & Hy & Hx). apply in_map_iff in Hy as ([q kk] & <- & _).
      exists q. destruct Hx as [<-|[<-|[]]]; auto.
    - intros H. symmetry in H. rewrite <- (app_nil_r (t_log w)) in H at 2. apply app_inv_head in H as ->. by intros x Hx%elem_of_nil.
  Qed.
  Lemma gone_grows srv w : exists l, t_log (gone_reg srv w) = t_log w ++ l.
  Proof. unfold gone_reg. destruct (t_regs w !! srv); [|exists []; by rewrite app_nil_r]. by eexists. Qed.
  Lemma terminate_grows srv w : exists l, t_log (terminate_reg srv w) = t_log w ++ l /\ forall x, x ∈ l -> exists p, x = GExits p (RCustom "shutdown").
  Proof.
    assert (exists l, t_log w = t_log w ++ l /\ forall x : reg_effect, x ∈ l -> exists p, x = GExits p (RCustom "shutdown")) as X.
    { exists []. split; [by rewrite app_nil_r|]. by intros x Hx%elem_of_nil. }
    unfold terminate_reg. destruct (t_regs w !! srv) as [g|]; [|done]. 
    destruct (g_shutdown g); [done| |]; (destruct (t_tables w !! g_name g); [|done]);
    (eexists; split; [reflexivity|]); intros x Hx; apply elem_of_list_In, in_map_iff in Hx as ([q kk] & <- & _); by exists q.
  Qed.
  Lemma step_log w e : exists l, t_log (rstep answers w e) = t_log w ++ l /\
    (forall name k a, GStarts name k a ∈ l -> entry w name k = None /\ exists srv g, serves w srv g /\ g_name g = name /\ (e = QCall srv (CStart k) \/ e = QCall srv (CLookupOrStart k))).
  Proof.
    assert (exists l, t_log w = t_log w ++ l /\ (forall name k a, GStarts name k a ∈ l -> entry w name k = None /\ exists srv g, serves w srv g /\ g_name g = name /\ (e = QCall srv (CStart k) \/ e = QCall srv (CLookupOrStart k)))) as X.
    { exists []. split; [by rewrite app_nil_r|]. by intros * Hx%elem_of_nil. }
    destruct e as [srv n start sh opt|srv m|srv q|srv q|srv|srv|n k'|n k']; cbn [rstep]; [| |..]; try done.
    - unfold start_registry. destruct (t_names w !! _); cbn [fst]; [|done]. eexists. split; [reflexivity|]. cbn. intros * Hx. rewrite map_to_list_empty in Hx. cbn in Hx. by apply elem_of_nil in Hx.
    - destruct (t_regs w !! srv) as [g|] eqn:Eg; [|done].
      assert (forall k, m = CStart k \/ m = CLookupOrStart k -> exists l, t_log (fst (start_by_key answers srv g k w)) = t_log w ++ l /\ (forall name k0 a, GStarts name k0 a ∈ l -> entry w name k0 = None /\ exists srv' g, serves w srv' g /\ g_name g = name /\ (QCall srv m = QCall srv' (CStart k0) \/ QCall srv m = QCall srv' (CLookupOrStart k0)))) as Hst.
      { intros k Hm. unfold start_by_key. rewrite (entry_lookup w (g_name g) k). destruct (entry w (g_name g) k) eqn:Ek; [done|]. destruct (g_start g).
        - exists [GStarts (g_name g) k (answers (t_tick w))]. split; [by destruct (answers (t_tick w))|]. intros * Hx%elem_of_list_singleton. injection Hx as -> -> ->. split; [done|].
          exists srv, g. split_and!; try done. destruct Hm as [-> | ->]; auto.
        - cbn [fst]. destruct (gone_grows srv w) as [l Hl]. exists l. split; [done|]. intros * Hx. destruct (gone_log _ _ _ Hl _ Hx) as (p & [?|?]); done. }
      destruct m as [k'|k'|k'|k'| | |k']; cbn [handle_rcall fst]; try done.
      + rewrite entry_lookup_or_start. apply Hst. by right.
      + apply Hst. by left.
      + unfold stop_by_key. destruct (lookup_process w (g_name g) k'); cbn [fst]; [|done]. eexists. split; [reflexivity|]. intros * Hx. set_solver.
      + unfold remove_by_key. destruct (lookup_process w (g_name g) k'); cbn [fst]; [|done]. eexists. split; [reflexivity|]. intros * Hx. set_solver.
    - destruct (t_regs w !! srv) as [g|] eqn:Eg; [|done]. destruct (decide _); [|done]. eexists. split; [reflexivity|]. intros * Hx. set_solver.
    - destruct (t_regs w !! srv) as [g|] eqn:Eg; [|done]. unfold handle_rexit. by destruct (g_lookup g !! q).
    - destruct (terminate_grows srv w) as (l1 & Hl1 & H1). destruct (gone_grows srv (terminate_reg srv w)) as [l2 Hl2]. exists (l1 ++ l2). split; [by rewrite Hl2, Hl1, app_assoc|].
      intros * [Hx|Hx]%elem_of_app; [by destruct (H1 _ Hx)|]. destruct (gone_log _ _ _ Hl2 _ Hx) as (p & [?|?]); done.
    - destruct (gone_grows srv w) as [l Hl]. exists l. split; [done|]. intros * Hx. destruct (gone_log _ _ _ Hl _ Hx) as (p & [?|?]); done.
    - by destruct (lookup_process w n k').
  Qed.
  (** C46: while a key is registered no start routine is called for it. *)
  Theorem C46_no_second_start es : forall w name k p, entry w name k = Some p -> kept answers w name k p es ->
    exists l, did w (rplays answers w es) l /\ forall a, GStarts name k a ∉ l.
  Proof.
    induction es as [|e es IH]; intros w name k p H Hk.
    - exists []. split; [unfold did; cbn; by rewrite app_nil_r|]. intros a. apply not_elem_of_nil.
    - destruct Hk as [Hn Hk]. pose proof (stays w e name k p H Hn) as H'. destruct (IH _ _ _ _ H' Hk) as (l & Hl & Hno).
      destruct (step_log w e) as (l0 & Hl0 & H0). exists (l0 ++ l). split.
      + unfold did in *. cbn [rplays fold_left]. unfold rplays in Hl. rewrite Hl, Hl0. by rewrite app_assoc.
      + intros a [Hx|Hx]%elem_of_app; [|by apply (Hno a)]. destruct (H0 _ _ _ Hx). congruence.
  Qed.

  (** ** C47 *)
  (** The exit of [p] reaches the registry: the key [p] was started for is unregistered, if it is still [p]'s, and nothing else. *)
  Theorem C47_exit w srv g p : serves w srv g -> forall name k,
    entry (rstep answers w (QExit srv p)) name k =
      if decide (name = g_name g /\ g_lookup g !! p = Some k /\ entry w name k = Some p) then None else entry w name k.
  Proof.
    intros Hs name k. cbn [rstep]. rewrite Hs, entry_exit. destruct (g_lookup g !! p) as [k'|].
    - destruct (decide ((name, k) = (g_name g, k') /\ entry w (g_name g) k' = Some p)) as [[X Y]|Hx].
      + injection X as -> ->. by rewrite decide_True.
      + rewrite decide_False; [done|]. intros (-> & Hk & He). injection Hk as ->. by apply Hx.
    - rewrite decide_False; [done|]. by intros (_ & ? & _).
  Qed.
  (** In every history: the exit of a registered process unregisters its key and no other. *)
  Theorem C47_exit_history es : new_processes answers -> proper_history es -> let w := rplays answers rworld0 es in
    forall name k p, entry w name k = Some p ->
    exists srv g, reachable w srv g /\ g_name g = name /\ only_entry w (rstep answers w (QExit srv p)) name k None.
  Proof.
    intros Hnew Hp w name k p He. pose proof (owned_always answers Hnew es Hp) as Ho. fold w in Ho.
    destruct (ow_entry _ _ _ Ho name k p He) as (srv & g & Hs & Hn & Hl). exists srv, g. split_and!; [split; [done|]|done|split].
    - exact (ow_named _ _ _ Ho _ _ Hs).
    - rewrite (C47_exit w srv g p Hs). by rewrite decide_True.
    - intros n k' Hx. rewrite (C47_exit w srv g p Hs). rewrite decide_False; [done|]. intros (-> & Hk & _). rewrite Hl in Hk. injection Hk as ->. by rewrite Hn in Hx.
  Qed.
  (** In every history no process has two keys. *)
  Theorem C47_one_key es : new_processes answers -> proper_history es -> let w := rplays answers rworld0 es in
    forall name k name' k' p, entry w name k = Some p -> entry w name' k' = Some p -> name = name' /\ k = k'.
  Proof. intros Hnew Hp w name k name' k' p. apply (owned_key answers _ _ _ _ _ _ _ (owned_always answers Hnew es Hp)). Qed.
  (** stop_process: the process is told to exit and its key is unregistered, nothing else; an unknown key is an error. *)
  Theorem C47_stop w srv g k : reachable w srv g ->
    match entry w (g_name g) k with
    | Some p => exists w', reg_stop_process answers (g_name g) k w = (w', None) /\ did w w' [GUnlinks p; GExits p (RCustom "shutdown")] /\ only_entry w w' (g_name g) k None
    | None => reg_stop_process answers (g_name g) k w = (w, Some GNotFound)
    end.
  Proof.
    intros [Hs Hn]. unfold reg_stop_process, call_named. rewrite (entry_lookup w (g_name g) k). destruct (entry w (g_name g) k) as [p|] eqn:Ek; [|done].
    rewrite Hn, Hs. cbn [handle_rcall]. pose proof (entry_stop srv g k w) as Hx. unfold stop_by_key in *. rewrite (entry_lookup w (g_name g) k), Ek in *. cbn [fst] in Hx.
    eexists. split; [reflexivity|]. split; [done|]. split.
    - rewrite Hx. by rewrite decide_True.
    - intros n k' Hk. rewrite Hx. by rewrite decide_False.
  Qed.
  (** remove: the key is unregistered, nothing else; the process is not told to exit. *)
  Theorem C47_remove w name k : let w' := rstep answers w (QRemove name k) in only_entry w w' name k None /\ did w w' [].
  Proof.
    cbn [rstep]. rewrite (entry_lookup w name k). destruct (entry w name k) as [p|] eqn:Ek.
    - split; [|unfold did; cbn; by rewrite app_nil_r]. pose proof (entry_remove name k w) as Hx. split.
      + change (entry (remove_process name k w) name k = None). rewrite Hx. by rewrite decide_True.
      + intros n k' Hk. change (entry (remove_process name k w) n k' = entry w n k'). rewrite Hx. by rewrite decide_False.
    - split; [|unfold did; by rewrite app_nil_r]. split; [done|]. done.
  Qed.
  Theorem C47_remove_remote w srv g k : serves w srv g -> let w' := rstep answers w (QCall srv (CRemove k)) in
    only_entry w w' (g_name g) k None /\ did w w' (match entry w (g_name g) k with Some p => [GUnlinks p] | None => [] end) /\
    snd (handle_rcall answers srv g (CRemove k) w) = PRemove (entry w (g_name g) k).
  Proof.
    intros Hs. cbn [rstep]. rewrite Hs. cbn [handle_rcall]. pose proof (entry_remove_key srv g k w) as Hx. split.
    - split; [rewrite Hx; by rewrite decide_True|]. intros n k' Hk. rewrite Hx. by rewrite decide_False.
    - unfold remove_by_key. rewrite (entry_lookup w (g_name g) k). destruct (entry w (g_name g) k); split; try done. unfold did. by rewrite app_nil_r.
  Qed.

  (** A process that was removed, once the registry has learnt of it, is never told to exit by any registry. *)
  Definition forgotten (w : rworld) (p : pid) : Prop :=
    issued answers w p /\ (forall name k, entry w name k <> Some p) /\ (forall srv g, t_regs w !! srv = Some g -> g_lookup g !! p = None).
  Lemma forgotten_gone w srv p : forgotten w p -> forgotten (gone_reg srv w) p /\ exists l, did w (gone_reg srv w) l /\ forall r, GExits p r ∉ l.
  Proof.
    intros (A & B & C). unfold gone_reg. destruct (t_regs w !! srv) as [g|] eqn:Eg.
    - split.
      + split_and!; [exact A| |].
        * intros name k. rewrite entry_drop. destruct (decide _); [done|]. exact (B name k).
        * intros s g'. cbn. intros [_ H]%lookup_delete_Some. exact (C s g' H).
      + eexists. split; [reflexivity|]. intros r Hx. apply elem_of_list_In, in_concat in Hx as (y & Hy & Hx). apply in_map_iff in Hy as ([q kk] & <- & Hin).
        apply elem_of_list_In, elem_of_map_to_list in Hin. destruct Hx as [X|[X|[]]]; [done|]. injection X as -> _. by rewrite (C srv g Eg) in Hin.
    - split; [by split_and!|]. exists []. split; [unfold did; by rewrite app_nil_r|]. intros r. apply not_elem_of_nil.
  Qed.
  Lemma forgotten_set w srv p f l : forgotten w p -> (forall m, m !! p = None -> f m !! p = None) -> forgotten (set_lookup srv f (glog l w)) p.
  Proof.
    intros (A & B & C) Hf. split_and!; [exact A|exact B|]. intros s g H. destruct (lookup_set _ _ _ _ _ H) as (g0 & H0 & _ & _ & Hg). rewrite Hg. destruct (decide _); [apply Hf|]; exact (C s g0 H0).
  Qed.
  Lemma forgotten_tables w p f : forgotten w p -> (forall name k, entry (with_tables f w) name k <> Some p) -> forgotten (with_tables f w) p.
  Proof. intros (A & B & C) H. by split_and!. Qed.
  Lemma forgotten_step (Hnew : new_processes answers) w e p : forgotten w p ->
    forgotten (rstep answers w e) p /\ exists l, did w (rstep answers w e) l /\ forall r, GExits p r ∉ l.
  Proof.
    intros H. assert (exists l, did w w l /\ forall r, GExits p r ∉ l) as X.
    { exists []. split; [unfold did; by rewrite app_nil_r|]. intros r. apply not_elem_of_nil. }
    pose proof H as (A & B & C).
    destruct e as [srv n start sh opt|srv m|srv q|srv q|srv|srv|n k'|n k']; cbn [rstep]; [| |..]; try done.
    - unfold start_registry. destruct (t_names w !! _); cbn [fst].
      + split.
        * split_and!; [exact A| |exact C]. intros name k. rewrite entry_drop. destruct (decide _); [done|]. exact (B name k).
        * eexists. split; [reflexivity|]. cbn. rewrite map_to_list_empty. intros r. apply not_elem_of_nil.
      + split; [|exact X]. split_and!; [exact A|exact B|]. intros s g. cbn. intros [[_ <-]|[_ Hs]]%lookup_insert_Some; [apply lookup_empty|exact (C s g Hs)].
    - destruct (t_regs w !! srv) as [g|] eqn:Eg; [|done].
      assert (forall k, forgotten (fst (start_by_key answers srv g k w)) p /\ exists l, did w (fst (start_by_key answers srv g k w)) l /\ forall r, GExits p r ∉ l) as Hst.
      { intros k. unfold start_by_key. rewrite (entry_lookup w (g_name g) k). destruct (entry w (g_name g) k) eqn:Ek; [done|]. destruct (g_start g); [|by apply forgotten_gone].
        destruct A as (i & Hi & Hp). destruct (answers (t_tick w)) as [q|r] eqn:Ea; cbn [fst].
        - assert (q <> p) as Hq. { intros ->. pose proof (Hnew _ _ _ Hp Ea). lia. }
          split.
          + split_and!.
            * exists i. split; [cbn; lia|done].
            * intros name k'. rewrite entry_register. destruct (decide _); [congruence|]. exact (B name k').
            * intros s g' Hs. destruct (lookup_set _ _ _ _ _ Hs) as (g0 & H0 & _ & _ & Hg). rewrite Hg. destruct (decide _); [rewrite lookup_insert_ne by congruence|]; exact (C s g0 H0).
          + eexists. split; [reflexivity|]. intros r. set_solver.
        - split; [|eexists; split; [reflexivity|]; intros r'; set_solver]. split_and!; [|exact B|exact C]. exists i. split; [cbn; lia|done]. }
      assert (forall l k q, forgotten (remove_process (g_name g) k (set_lookup srv (delete q) (glog l w))) p) as Hrm.
      { intros l k q. apply (forgotten_tables (set_lookup srv (delete q) (glog l w))).
        - apply forgotten_set; [done|]. intros m' Hm. rewrite lookup_delete_None. by right.
        - intros n' k'. change (entry (remove_process (g_name g) k w) n' k' <> Some p). rewrite entry_remove. destruct (decide _); [done|]. exact (B n' k'). }
      destruct m as [k'|k'|k'|k'| | |k']; cbn [handle_rcall fst]; try done.
      + rewrite entry_lookup_or_start. apply Hst.
      + unfold stop_by_key. rewrite (entry_lookup w (g_name g) k'). destruct (entry w (g_name g) k') as [q|] eqn:Ek; cbn [fst]; [|done]. split; [apply Hrm|].
        eexists. split; [reflexivity|]. intros r Hx. assert (p = q) as -> by set_solver. by apply (B (g_name g) k').
      + unfold remove_by_key. rewrite (entry_lookup w (g_name g) k'). destruct (entry w (g_name g) k') as [q|] eqn:Ek; cbn [fst]; [|done]. split; [exact (Hrm [GUnlinks q] k' q)|].
        eexists. split; [reflexivity|]. intros r Hx. set_solver.
    - destruct (t_regs w !! srv) as [g|] eqn:Eg; [|done]. destruct (decide _); [|done]. split.
      + apply (forgotten_set (with_casts _ w)); [done|]. intros m' Hm. rewrite lookup_delete_None. by right.
      + eexists. split; [reflexivity|]. intros r Hx. set_solver.
    - destruct (t_regs w !! srv) as [g|] eqn:Eg; [|done]. unfold handle_rexit. destruct (g_lookup g !! q) as [k|] eqn:El; [|done]. split; [|exact X].
      apply (forgotten_tables (set_lookup srv (delete q) w)).
      + pose proof (forgotten_set w srv p (delete q) [] H) as Y. unfold glog in Y. rewrite app_nil_r in Y. destruct w. apply Y. intros m' Hm. rewrite lookup_delete_None. by right.
      + intros n' k'. rewrite entry_remove_if. destruct (decide _); [done|]. exact (B n' k').
    - assert (forgotten (terminate_reg srv w) p /\ exists l, did w (terminate_reg srv w) l /\ forall r, GExits p r ∉ l) as [HA (l1 & Hl1 & Hn1)].
      { unfold terminate_reg. destruct (t_regs w !! srv) as [g|] eqn:Eg; [|done].
        assert (forall (t : gmap rkey pid), let w' := set_lookup srv (fun _ => ∅) (glog (map (fun '(q, _) => GExits q (RCustom "shutdown")) (filter (fun '(_, k) => is_Some (t !! k)) (map_to_list (g_lookup g)))) (with_tables (delete (g_name g)) w)) in
          forgotten w' p /\ exists l, did w w' l /\ forall r, GExits p r ∉ l) as Y.
        { intros t. cbn zeta. split.
          - apply forgotten_set; [|intros; apply lookup_empty]. apply forgotten_tables; [done|]. intros n' k'. rewrite entry_delete. destruct (decide _); [done|]. exact (B n' k').
          - eexists. split; [reflexivity|]. intros r Hx. apply elem_of_list_In, in_map_iff in Hx as ([q kk] & Hq & Hin). injection Hq as -> _.
            apply elem_of_list_In, elem_of_list_filter in Hin as [_ Hin]. apply elem_of_map_to_list in Hin. by rewrite (C srv g Eg) in Hin. }
        destruct (g_shutdown g); [done| |]; (destruct (t_tables w !! g_name g); [apply Y|done]). }
      destruct (forgotten_gone _ srv p HA) as [HB (l2 & Hl2 & Hn2)]. split; [exact HB|]. exists (l1 ++ l2). split; [unfold did in *; by rewrite Hl2, Hl1, app_assoc|].
      intros r [Hx|Hx]%elem_of_app; [by apply (Hn1 r)|by apply (Hn2 r)].
    - by apply forgotten_gone.
    - rewrite (entry_lookup w n k'). destruct (entry w n k') as [q|] eqn:Ek; [|done]. split.
      + split_and!; [exact A| |exact C]. intros n' k2. change (entry (remove_process n k' w) n' k2 <> Some p). rewrite entry_remove. destruct (decide _); [done|]. exact (B n' k2).
      + exists []. split; [unfold did; cbn; by rewrite app_nil_r|]. intros r. apply not_elem_of_nil.
  Qed.
  Theorem C47_removed_left_alone_partial es es' : new_processes answers -> proper_history es -> let w := rplays answers rworld0 es in
    forall srv g p, reachable w srv g -> (srv, p) ∈ t_casts w -> g_lookup g !! p <> None ->
    let w1 := rstep answers w (QCast srv p) in
    exists l, did w (rplays answers w1 es') l /\ forall r, GExits p r ∉ l.
  Proof.
    intros Hnew Hp w srv g p [Hs Hn] Hin Hl. pose proof (owned_always answers Hnew es Hp) as Ho. fold w in Ho. destruct (ow_cast _ _ _ Ho _ _ Hin) as [Hi He].
    set (w1 := rstep answers w (QCast srv p)).
    assert (t_log w1 = t_log w ++ [GUnlinks p]) as Hl1. { unfold w1. cbn [rstep]. rewrite Hs. by rewrite decide_True. }
    assert (forgotten w1 p) as Hf.
    { unfold w1. cbn [rstep]. rewrite Hs, decide_True by done. split_and!; [exact Hi|exact He|].
      intros s g' H. destruct (lookup_set _ _ _ _ _ H) as (g0 & H0 & _ & _ & Hg). rewrite Hg. destruct (decide (s = srv)) as [->|Hne]; [apply lookup_delete|].
      destruct (g_lookup g0 !! p) as [k'|] eqn:Ek'; [|done]. destruct (g_lookup g !! p) as [k2|] eqn:Ek2; [|done]. destruct Hne. exact (ow_one _ _ _ Ho _ _ _ _ _ _ _ H0 Ek' Hs Ek2). }
    assert (forall es' w, forgotten w p -> exists l, did w (rplays answers w es') l /\ forall r, GExits p r ∉ l) as Y.
    { clear -Hnew. induction es' as [|e es' IH]; intros w H.
      - exists []. split; [unfold did; cbn; by rewrite app_nil_r|]. intros r. apply not_elem_of_nil.
      - destruct (forgotten_step Hnew w e p H) as [H' (l & Hl & Hno)]. destruct (IH _ H') as (l' & Hl' & Hno'). exists (l ++ l'). split.
        + unfold did in *. cbn [rplays fold_left]. unfold rplays in Hl'. by rewrite Hl', Hl, app_assoc.
        + intros r [Hx|Hx]%elem_of_app; [by apply (Hno r)|by apply (Hno' r)]. }
    destruct (Y es' w1 Hf) as (l & Hd & Hno). exists (GUnlinks p :: l). split.
    - unfold did in *. cbn zeta. fold w1. rewrite Hd, Hl1. by rewrite <- app_assoc.
    - intros r. specialize (Hno r). set_solver.
  Qed.
End props.
Print Assumptions C46_registered.
Print Assumptions C46_absent.
Print Assumptions C46_stays.
Print Assumptions C46_no_second_start.
Print Assumptions C47_exit.
Print Assumptions C47_exit_history.
Print Assumptions C47_one_key.
Print Assumptions C47_stop.
Print Assumptions C47_remove.
Print Assumptions C47_remove_remote.
Print Assumptions C47_removed_left_alone_partial.

(** ** Concrete histories *)
(** The n-th start gives a new process, except that the second fails. *)
Definition example_answers (n : nat) : answer := if Nat.eqb n 1 then Down (RCustom "no") else Up (PLocal (100 + N.of_nat n)).
Lemma example_new : new_processes example_answers.
Proof. intros i j p H1 H2. unfold example_answers in *. destruct (Nat.eqb i 1), (Nat.eqb j 1); try done. injection H1 as <-. injection H2 as E. lia. Qed.
Definition example_history : list revent :=
  [QStart (PLocal 1) "reg" true BrutalKill None; QStart (PLocal 2) "bare" false (Within 5) None;
   QCall (PLocal 1) (CLookupOrStart (KU32 7)); QCall (PLocal 1) (CStart (KString "a")); QCall (PLocal 1) (CStart (KString "b"))].
Example example_proper : proper_history example_history.
Proof. split; [cbn; repeat constructor; set_solver|repeat constructor]. Qed.
Definition example_world : rworld := rplays example_answers rworld0 example_history.
Example example_entries : entry example_world "reg" (KU32 7) = Some (PLocal 100) /\ entry example_world "reg" (KString "a") = None /\ entry example_world "reg" (KString "b") = Some (PLocal 102).
Proof. vm_compute. auto. Qed.
Definition example_reg : reg := Reg "reg" true BrutalKill (<[PLocal 102 := KString "b"]> (<[PLocal 100 := KU32 7]> ∅)).
Example example_reachable : reachable example_world (PLocal 1) example_reg /\ reachable example_world (PLocal 2) (new_reg "bare" false (Within 5)).
Proof. vm_compute. auto. Qed.
(** The key is kept by lookups, starts of other keys, exits of other processes. *)
Example example_kept : kept example_answers example_world "reg" (KU32 7) (PLocal 100)
  [QCall (PLocal 1) (CStart (KU32 7)); QExit (PLocal 1) (PLocal 102); QCall (PLocal 1) (CStart (KI32 3)); QEnd (PLocal 2)].
Proof.
  cbn [kept]. split_and!; [..|exact I]; intros H; inversion H as [srv g Hs Hn Hl E1|srv g Hs Hn E1|srv g Hs Hn E1|E1|srv g Hs Hn E1|srv g Hs Hn E1|srv g k' m Hs Hn Hst Hm He E1|srv st sh opt q Hq E1]; subst.
  - vm_compute in Hs. injection Hs as <-. done.
  - vm_compute in Hs. injection Hs as <-. done.
  - vm_compute in Hs. injection Hs as <-. done.
Qed.

(** ** C47: a process that was removed remains running *)
Definition C47_remove_running_statement : Prop :=
  forall answers es, new_processes answers -> proper_history es -> let w := rplays answers rworld0 es in
  forall name k p srv g, entry w name k = Some p -> reachable w srv g -> g_name g = name ->
  forall r, GExits p r ∉ t_log (rplays answers w [QRemove name k; QKill srv]).
(** Violated: if the registry ends before it handles the notice that the process was removed, it kills the process. *)
Theorem C47_remove_running_refuted : ~ C47_remove_running_statement.
Proof.
  intros H.
  apply (H example_answers example_history example_new example_proper "reg" (KU32 7) (PLocal 100) (PLocal 1) example_reg
    (proj1 example_entries) (proj1 example_reachable) eq_refl RKill).
  set (l := t_log _). vm_compute in l. subst l. set_solver.
Qed.
Print Assumptions C47_remove_running_refuted.
(** The hypotheses of [C47_removed_left_alone_partial] are met after a remove. *)
Example removed_example : let w := rplays example_answers rworld0 (example_history ++ [QRemove "reg" (KU32 7)]) in
  proper_history (example_history ++ [QRemove "reg" (KU32 7)]) /\
  reachable w (PLocal 1) example_reg /\ (PLocal 1, PLocal 100) ∈ t_casts w /\ g_lookup example_reg !! PLocal 100 <> None.
Proof.
  split; [split; [cbn; repeat constructor; set_solver|repeat constructor]|].
  split; [vm_compute; auto|]. split; [|by vm_compute]. cbn zeta. set (l := t_casts _). vm_compute in l. subst l. left.
Qed.
(** C47 needs start routines that give new processes: if one returns the same process for two keys, its exit
    leaves the first key registered. *)
Example same_process_stale : let answers := fun _ : nat => Up (PLocal 100) in
  let w := rplays answers rworld0 [QStart (PLocal 1) "reg" true BrutalKill None; QCall (PLocal 1) (CStart (KU32 7)); QCall (PLocal 1) (CStart (KU32 8)); QExit (PLocal 1) (PLocal 100)] in
  entry w "reg" (KU32 7) = Some (PLocal 100) /\ entry w "reg" (KU32 8) = None.
Proof. vm_compute. auto. Qed.

(** ** C48: no start routine *)
Definition C48_statement : Prop :=
  forall answers es, proper_history es -> let w := rplays answers rworld0 es in
  forall srv g k, reachable w srv g -> g_start g = false -> entry w (g_name g) k = None ->
  reg_lookup_or_start answers (g_name g) k w = (w, inl GStartNotSupported) /\ reg_start_process answers (g_name g) k w = (w, inl GStartNotSupported).
Theorem C48_refuted : ~ C48_statement.
Proof.
  intros H. destruct (H example_answers example_history example_proper (PLocal 2) (new_reg "bare" false (Within 5)) (KU32 1) (proj2 example_reachable) eq_refl eq_refl) as [H1 _].
  apply (f_equal snd) in H1. vm_compute in H1. discriminate.
Qed.
Print Assumptions C48_refuted.
(** What happens instead: the registry process panics; it and its name are gone, with its whole table, the processes it had
    started are killed, and the caller sees the server go down.  (A registered key is still answered, [C46_registered].) *)
Theorem C48_panics_partial answers w srv g k : reachable w srv g -> g_start g = false -> entry w (g_name g) k = None ->
  exists w', reg_lookup_or_start answers (g_name g) k w = (w', inl GServerDown) /\ reg_start_process answers (g_name g) k w = (w', inl GServerDown) /\
    t_regs w' !! srv = None /\ t_names w' !! g_name g = None /\
    (forall k', entry w' (g_name g) k' = None) /\ (forall name k', name <> g_name g -> entry w' name k' = entry w name k') /\
    (forall p, GExits p RKill ∈ t_log w' <-> GExits p RKill ∈ t_log w \/ g_lookup g !! p <> None).
Proof.
  intros [Hs Hn] Hg He. exists (gone_reg srv w).
  unfold reg_lookup_or_start, reg_start_process, call_named. rewrite (entry_lookup w (g_name g) k), He, Hn, Hs. cbn [handle_rcall].
  unfold lookup_or_start_by_key, start_by_key. rewrite (entry_lookup w (g_name g) k), He, Hg. split; [done|]. split; [done|].
  split_and!.
  - unfold gone_reg. rewrite Hs. cbn. apply lookup_delete.
  - unfold gone_reg. rewrite Hs. cbn. apply map_filter_lookup_None. right. intros q Hq. rewrite Hn in Hq. injection Hq as <-. by intros Hx.
  - intros k'. rewrite entry_gone, Hs. by rewrite decide_True.
  - intros name k' Hne. rewrite entry_gone, Hs. by rewrite decide_False.
  - intros p. unfold gone_reg. rewrite Hs. cbn. rewrite elem_of_app. apply or_iff_compat_l. rewrite elem_of_list_In, in_concat. split.
    + intros (y & Hy & Hx). apply in_map_iff in Hy as ([q kk] & <- & Hin). apply elem_of_list_In, elem_of_map_to_list in Hin.
      destruct Hx as [X|[X|[]]]; [done|]. injection X as ->. by rewrite Hin.
    + destruct (g_lookup g !! p) as [kk|] eqn:El; [|done]. intros _. exists [GUnlinks p; GExits p RKill]. split; [|right; by left].
      apply in_map_iff. exists (p, kk). split; [done|]. by apply elem_of_list_In, elem_of_map_to_list.
Qed.
Print Assumptions C48_panics_partial.

(** ** C49: a second registry of the same name *)
Definition C49_statement : Prop :=
  forall answers es, proper_history es -> let w := rplays answers rworld0 es in
  forall srv g new start sh, reachable w srv g ->
  let w' := rstep answers w (QStart new (g_name g) start sh None) in no_entry_changed w w'.
Theorem C49_refuted : ~ C49_statement.
Proof.
  intros H. pose proof (H example_answers example_history example_proper (PLocal 1) example_reg (PLocal 9) true BrutalKill (proj1 example_reachable) "reg" (KU32 7)) as H1.
  vm_compute in H1. discriminate.
Qed.
Print Assumptions C49_refuted.
(** What happens: the start fails with "already_started", the running registry process stays, no process is
    told to exit; but its table is wiped, so every key of that name (and no other) is unregistered. *)
Theorem C49_partial w srv g new start sh : reachable w srv g ->
  exists w', start_registry new (new_reg (g_name g) start sh) None w = (w', inl (RCustom "already_started")) /\
    did w w' [] /\ reachable w' srv g /\
    (forall k, entry w' (g_name g) k = None) /\ (forall name k, name <> g_name g -> entry w' name k = entry w name k).
Proof.
  intros [Hs Hn]. unfold start_registry. cbn [default new_reg g_name]. rewrite Hn. eexists. split; [reflexivity|].
  split_and!.
  - unfold did. cbn. by rewrite map_to_list_empty.
  - by split.
  - intros k. rewrite entry_drop. cbn [g_name]. by rewrite decide_True.
  - intros name k Hne. rewrite entry_drop. cbn [g_name]. by rewrite decide_False.
Qed.
Print Assumptions C49_partial.

(** ** C50: count and list *)
(** Registry::list has exactly the registered keys, each once, and Registry::count is its length. *)
Theorem C50_list w name :
  (forall k p, (k, p) ∈ list_processes w name <-> entry w name k = Some p) /\
  NoDup (map fst (list_processes w name)) /\ count_processes w name = length (list_processes w name).
Proof.
  unfold list_processes, count_processes, entry. destruct (t_tables w !! name) as [t|].
  - split_and!.
    + intros k p. apply elem_of_map_to_list.
    + apply NoDup_fst_map_to_list.
    + reflexivity.
  - split_and!; [|constructor|done]. intros k p. split; [|done]. by intros ?%elem_of_nil.
Qed.
Print Assumptions C50_list.
(** The same for clients of other nodes, who ask the registry process. *)
Theorem C50_remote answers w srv g : 
  handle_rcall answers srv g CCount w = (w, PCount (count_processes w (g_name g))) /\ handle_rcall answers srv g CList w = (w, PList (list_processes w (g_name g))).
Proof. done. Qed.
(** An event about one registry changes nothing in the others, in any state. *)
Theorem C50_separate answers w e name : about w e <> Some name ->
  (forall k, entry (rstep answers w e) name k = entry w name k) /\
  list_processes (rstep answers w e) name = list_processes w name /\ count_processes (rstep answers w e) name = count_processes w name.
Proof.
  intros Ha.
  assert (forall k, entry (rstep answers w e) name k = entry w name k) as He.
  { intros k. destruct e as [srv n start sh opt|srv m|srv q|srv q|srv|srv|n k'|n k']; cbn [rstep about] in *; [| |..].
    - unfold start_registry. destruct (t_names w !! _); cbn [fst]; [|done]. rewrite entry_drop. cbn [g_name new_reg]. rewrite decide_False; [done|]. congruence.
    - destruct (t_regs w !! srv) as [g|] eqn:Eg; [|done]. cbn in Ha. assert (name <> g_name g) as Hne by congruence.
      assert (forall k', entry (fst (start_by_key answers srv g k' w)) name k = entry w name k) as Hst.
      { intros k'. rewrite entry_start_by_key by done. destruct (entry w (g_name g) k'); [done|]. destruct (g_start g); [|by rewrite decide_False].
        destruct (answers (t_tick w)); [|done]. rewrite decide_False; [done|]. congruence. }
      destruct m as [k'|k'|k'|k'| | |k']; cbn [handle_rcall fst]; try done.
      + rewrite entry_lookup_or_start. apply Hst.
      + rewrite entry_stop, decide_False; [done|]. congruence.
      + rewrite entry_remove_key, decide_False; [done|]. congruence.
    - destruct (t_regs w !! srv) as [g|] eqn:Eg; [|done]. by destruct (decide _).
    - destruct (t_regs w !! srv) as [g|] eqn:Eg; [|done]. cbn in Ha. rewrite entry_exit. destruct (g_lookup g !! q); [|done]. rewrite decide_False; [done|]. intros [? _]. congruence.
    - rewrite entry_gone. destruct (t_regs (terminate_reg srv w) !! srv) as [g'|] eqn:Eg'.
      + destruct (regs_terminate_name _ _ _ Eg') as (g & Eg & Hg). rewrite Eg in Ha. cbn in Ha. rewrite Hg, entry_terminate, Eg. rewrite !decide_False; [done| |congruence]. intros [? _]. congruence.
      + apply (proj1 (regs_terminate srv w)) in Eg'. by rewrite entry_terminate, Eg'.
    - rewrite entry_gone. destruct (t_regs w !! srv) as [g|] eqn:Eg; [|done]. cbn in Ha. rewrite decide_False; [done|]. congruence.
    - done.
    - rewrite (entry_lookup w n k'). destruct (entry w n k') as [q|] eqn:Ek; [|done].
      change (entry (remove_process n k' w) name k = entry w name k). rewrite entry_remove, decide_False; [done|]. congruence. }
  split; [exact He|].
  assert (default ∅ (t_tables (rstep answers w e) !! name) = default ∅ (t_tables w !! name)) as Hd.
  { apply map_eq. intros k. specialize (He k). unfold entry in He. destruct (t_tables (rstep answers w e) !! name), (t_tables w !! name); cbn; rewrite ?lookup_empty; done. }
  assert (forall w, list_processes w name = map_to_list (default ∅ (t_tables w !! name))) as Hl.
  { intros w0. unfold list_processes. destruct (t_tables w0 !! name); cbn; [done|]. by rewrite map_to_list_empty. }
  assert (forall w, count_processes w name = size (default ∅ (t_tables w !! name))) as Hc.
  { intros w0. unfold count_processes. destruct (t_tables w0 !! name); cbn; [done|]. by rewrite map_size_empty. }
  by rewrite !Hl, !Hc, Hd.
Qed.
Print Assumptions C50_separate.
Example C50_example : about example_world (QEnd (PLocal 1)) <> Some "bare" /\ count_processes example_world "reg" = 2.
Proof. split; [vm_compute; congruence|by vm_compute]. Qed.

(** ** C71: the end of a registry *)
(** When a registry process ends, by being stopped or killed, its table is gone and every process
    that was registered has been told to exit (killed, or with "shutdown" in an orderly stop with another setting than BrutalKill). *)
Theorem C71_end_of_registry answers es : new_processes answers -> proper_history es -> let w := rplays answers rworld0 es in
  forall srv g (orderly : bool), reachable w srv g ->
  let w' := rstep answers w (if orderly then QEnd srv else QKill srv) in
  t_regs w' !! srv = None /\ (forall k, entry w' (g_name g) k = None) /\ (forall name k, name <> g_name g -> entry w' name k = entry w name k) /\
  exists l, did w w' l /\ forall k p, entry w (g_name g) k = Some p ->
    GExits p (match orderly, g_shutdown g with true, Within _ | true, Infinity => RCustom "shutdown" | _, _ => RKill end) ∈ l.
Proof.
  intros Hnew Hp w srv g orderly [Hs Hn] w'. pose proof (owned_always answers Hnew es Hp) as Ho. fold w in Ho.
  assert (forall k p, entry w (g_name g) k = Some p -> g_lookup g !! p = Some k) as Hown.
  { intros k p Hk. destruct (ow_entry _ _ _ Ho _ _ _ Hk) as (s & g' & Hs' & Hn' & Hl). pose proof (ow_named _ _ _ Ho _ _ Hs') as Hx. rewrite Hn', Hn in Hx. injection Hx as <-.
    rewrite Hs in Hs'. by injection Hs' as <-. }
  assert (t_regs w' !! srv = None) as H1.
  { unfold w'. destruct orderly; cbn [rstep]; unfold gone_reg.
    - destruct (t_regs (terminate_reg srv w) !! srv) eqn:Ex; [|done]. cbn. apply lookup_delete.
    - rewrite Hs. cbn. apply lookup_delete. }
  assert (forall name k, entry w' name k = if decide (name = g_name g) then None else entry w name k) as H2.
  { intros name k. unfold w'. destruct orderly; cbn [rstep]; rewrite entry_gone.
    - destruct (t_regs (terminate_reg srv w) !! srv) as [g'|] eqn:Eg'.
      + destruct (regs_terminate_name _ _ _ Eg') as (g0 & Eg & Hg). rewrite Hs in Eg. injection Eg as <-. rewrite Hg, entry_terminate, Hs. destruct (decide (name = g_name g)); [done|]. rewrite decide_False; [done|]. by intros [? _].
      + apply (proj1 (regs_terminate srv w)) in Eg'. congruence.
    - by rewrite Hs. }
  split; [done|]. split; [intros k; rewrite H2; by rewrite decide_True|]. split; [intros name k Hne; rewrite H2; by rewrite decide_False|].
  assert (forall w0 g0 kk p, t_regs w0 !! srv = Some g0 -> g_lookup g0 !! p = Some kk -> exists l, did w0 (gone_reg srv w0) l /\ GExits p RKill ∈ l) as Hkill.
  { intros w0 g0 kk p H0 Hl. unfold gone_reg. rewrite H0. eexists. split; [reflexivity|]. apply elem_of_list_In, in_concat. exists [GUnlinks p; GExits p RKill]. split; [|right; by left].
    apply in_map_iff. exists (p, kk). split; [done|]. by apply elem_of_list_In, elem_of_map_to_list. }
  assert (forall l l' w0 w1, did w0 w1 l -> did w0 w1 l' -> l = l') as Huniq. { unfold did. intros l l' w0 w1 -> E. by apply app_inv_head in E. }
  destruct orderly.
  - unfold w'. cbn [rstep]. destruct (terminate_grows srv w) as (l1 & Hl1 & _). destruct (gone_grows srv (terminate_reg srv w)) as [l2 Hl2].
    exists (l1 ++ l2). split; [unfold did; by rewrite Hl2, Hl1, app_assoc|]. intros k p Hk. pose proof (Hown k p Hk) as Hl.
    destruct (decide (g_shutdown g = BrutalKill)) as [Hb|Hb].
    + rewrite Hb. apply elem_of_app. right.
      assert (terminate_reg srv w = w) as Ht by (unfold terminate_reg; by rewrite Hs, Hb). rewrite Ht in Hl2. destruct (Hkill w g k p Hs Hl) as (l & Hd & Hin). by rewrite (Huniq _ _ _ _ Hl2 Hd).
    + replace (match g_shutdown g with BrutalKill => RKill | _ => RCustom "shutdown" end) with (RCustom "shutdown") by (by destruct (g_shutdown g)). apply elem_of_app. left. unfold entry in Hk. destruct (t_tables w !! g_name g) as [t|] eqn:Et; [|done].
      assert (terminate_reg srv w = set_lookup srv (fun _ => ∅) (glog (map (fun '(p, _) => GExits p (RCustom "shutdown")) (filter (fun '(_, k) => is_Some (t !! k)) (map_to_list (g_lookup g)))) (with_tables (delete (g_name g)) w))) as Ht.
      { unfold terminate_reg. rewrite Hs, Et. by destruct (g_shutdown g). }
      rewrite Ht in Hl1. cbn in Hl1. apply app_inv_head in Hl1 as <-. apply elem_of_list_In, in_map_iff. exists (p, k). split; [done|]. apply elem_of_list_In, elem_of_list_filter. split; [by exists p|].
      by apply elem_of_map_to_list.
  - unfold w'. cbn [rstep]. destruct (gone_grows srv w) as [l Hl]. exists l. split; [done|]. intros k p Hk.
    destruct (Hkill w g k p Hs (Hown k p Hk)) as (l' & Hd & Hin). by rewrite (Huniq _ _ _ _ Hl Hd).
Qed.
Print Assumptions C71_end_of_registry.

(** ** C72: a started process is found *)
(** After a successful lookup_or_start, lookup with the same arguments finds the process. *)
Definition C72_statement : Prop :=
  forall answers es, NoDup (omap starts_as es) -> let w := rplays answers rworld0 es in
  forall name k w' p, reg_lookup_or_start answers name k w = (w', inr p) -> lookup_process w' name k = Some p.
(** Violated by a registry whose options give it another process name: clients call it by that name, but the table has its own. *)
Theorem C72_refuted : ~ C72_statement.
Proof.
  intros H. assert (NoDup (omap starts_as [QStart (PLocal 1) "reg" true BrutalKill (Some "other")])) as Hnd by (cbn; repeat constructor; set_solver).
  pose proof (H example_answers _ Hnd "other" (KU32 7) (fst (reg_lookup_or_start example_answers "other" (KU32 7) (rplays example_answers rworld0 [QStart (PLocal 1) "reg" true BrutalKill (Some "other")]))) (PLocal 100)) as H1.
  vm_compute in H1. discriminate (H1 eq_refl).
Qed.
Print Assumptions C72_refuted.
Lemma names_keep answers w e : (forall srv n st sh o, e <> QStart srv n st sh o) ->
  (forall n srv, t_names (rstep answers w e) !! n = Some srv -> t_names w !! n = Some srv) /\
  (forall srv g, t_regs (rstep answers w e) !! srv = Some g -> exists g0, t_regs w !! srv = Some g0 /\ g_name g = g_name g0).
Proof.
  intros He.
  assert ((forall n srv, t_names w !! n = Some srv -> t_names w !! n = Some srv) /\ (forall srv g, t_regs w !! srv = Some g -> exists g0, t_regs w !! srv = Some g0 /\ g_name g = g_name g0)) as X by eauto.
  assert (forall s w0, (forall n srv, t_names (gone_reg s w0) !! n = Some srv -> t_names w0 !! n = Some srv) /\ (forall srv g, t_regs (gone_reg s w0) !! srv = Some g -> t_regs w0 !! srv = Some g)) as Hgone.
  { intros s w0. unfold gone_reg. destruct (t_regs w0 !! s); [|done]. cbn. split.
    - intros n srv H. by apply map_filter_lookup_Some in H as [H _].
    - intros srv g H. by apply lookup_delete_Some in H as [_ H]. }
  assert (forall s f w0 srv g, t_regs w0 = t_regs w -> t_regs (set_lookup s f w0) !! srv = Some g -> exists g0, t_regs w !! srv = Some g0 /\ g_name g = g_name g0) as Hset.
  { intros s f w0 srv g Hw H. destruct (lookup_set _ _ _ _ _ H) as (g0 & H0 & Hn & _). rewrite Hw in H0. eauto. }
  destruct e as [srv n start sh opt|srv m|srv q|srv q|srv|srv|n k'|n k']; cbn [rstep]; [by destruct (He srv n start sh opt)| |..].
  - destruct (t_regs w !! srv) as [g|] eqn:Eg; [|done].
    assert (forall k, (forall n s, t_names (fst (start_by_key answers srv g k w)) !! n = Some s -> t_names w !! n = Some s) /\
      (forall s g1, t_regs (fst (start_by_key answers srv g k w)) !! s = Some g1 -> exists g0, t_regs w !! s = Some g0 /\ g_name g1 = g_name g0)) as Hst.
    { intros k. unfold start_by_key. destruct (lookup_process w (g_name g) k); [done|]. destruct (g_start g).
      - destruct (answers (t_tick w)); cbn [fst]; [|done]. split; [done|]. intros s g1 H. eapply Hset; [|exact H]. done.
      - cbn [fst]. destruct (Hgone srv w) as [A B]. split; [exact A|]. eauto. }
    destruct m as [k'|k'|k'|k'| | |k']; cbn [handle_rcall fst]; try done.
    + rewrite entry_lookup_or_start. apply Hst.
    + unfold stop_by_key. destruct (lookup_process w (g_name g) k'); cbn [fst]; [|done]. split; [done|]. intros s g1 H. eapply Hset; [|exact H]. done.
    + unfold remove_by_key. destruct (lookup_process w (g_name g) k'); cbn [fst]; [|done]. split; [done|]. intros s g1 H. eapply Hset; [|exact H]. done.
  - destruct (t_regs w !! srv) as [g|] eqn:Eg; [|done]. destruct (decide _); [|done]. split; [done|]. intros s g1 H. eapply Hset; [|exact H]. done.
  - destruct (t_regs w !! srv) as [g|] eqn:Eg; [|done]. unfold handle_rexit. destruct (g_lookup g !! q); [|done]. split; [done|]. intros s g1 H. eapply (Hset srv (delete q) w); [done|exact H].
  - assert ((forall n s, t_names (terminate_reg srv w) !! n = Some s -> t_names w !! n = Some s) /\ (forall s g, t_regs (terminate_reg srv w) !! s = Some g -> exists g0, t_regs w !! s = Some g0 /\ g_name g = g_name g0)) as [A B].
    { unfold terminate_reg. destruct (t_regs w !! srv) as [g|] eqn:Eg; [|done]. destruct (g_shutdown g); [done| |]; (destruct (t_tables w !! g_name g); [|done]);
      (split; [done|]); intros s g1 H; (eapply Hset; [|exact H]; done). }
    destruct (Hgone srv (terminate_reg srv w)) as [C D]. split; [intros n s H; exact (A n s (C n s H))|intros s g H; exact (B s g (D s g H))].
  - destruct (Hgone srv w) as [C D]. split; [exact C|]. intros s g H. exists g. split; [exact (D s g H)|done].
  - done.
  - destruct (lookup_process w n k'); done.
Qed.
Lemma names_always answers es : proper_history es -> let w := rplays answers rworld0 es in
  ((forall n srv, t_names w !! n = Some srv -> srv ∈ omap starts_as es) /\ (forall srv g, t_regs w !! srv = Some g -> srv ∈ omap starts_as es)) /\
  (forall n srv g, t_names w !! n = Some srv -> t_regs w !! srv = Some g -> g_name g = n).
Proof.
  intros [Hnd Ho]. cbn zeta. induction es as [|e es IH] using rev_ind.
  - split; [split|]; intros *; cbn; rewrite ?lookup_empty; done.
  - unfold rplays. rewrite fold_left_app. cbn [fold_left]. rewrite omap_app in *. apply Forall_app in Ho as [Ho1 Ho2]. apply Forall_inv in Ho2. apply NoDup_app in Hnd as (Hnd1 & Hnd2 & Hnd3).
    destruct (IH Hnd1 Ho1) as [[A B] C]. change (fold_left (rstep answers) es rworld0) with (rplays answers rworld0 es). clear IH. set (w := rplays answers rworld0 es) in *.
    destruct e as [srv n start sh opt|srv m|srv q|srv q|srv|srv|n k'|n k'].
    2-8: match goal with |- context [rstep ?an ?w0 ?e] => destruct (names_keep an w0 e ltac:(intros *; discriminate)) as [X Y] end; split; [split|];
      [ intros n1 s1 H1; apply elem_of_app; left; exact (A n1 s1 (X n1 s1 H1))
      | intros s1 g1 H1; destruct (Y s1 g1 H1) as (g0 & H0 & _); apply elem_of_app; left; exact (B s1 g0 H0)
      | intros n1 s1 g1 H1 H2; destruct (Y s1 g1 H2) as (g0 & H0 & ->); exact (C n1 s1 g0 (X n1 s1 H1) H0) ].
    cbn in Ho2. subst opt. assert (srv ∉ omap starts_as es) as Hf. { intros Hin. apply (Hnd2 srv Hin). cbn. left. }
    cbn [rstep]. unfold start_registry. cbn [default new_reg g_name]. destruct (t_names w !! n) as [q|] eqn:En; cbn [fst].
    + split; [split|]; intros *; cbn [drop_reg glog with_tables t_names t_regs]; rewrite ?elem_of_app; eauto.
    + split; [split|]; intros *; cbn [with_names with_regs t_names t_regs].
      * rewrite elem_of_app. intros [[_ <-]|[_ H]]%lookup_insert_Some; [right; cbn; left|left; eauto].
      * rewrite elem_of_app. intros [[<- _]|[_ H]]%lookup_insert_Some; [right; cbn; left|left; eauto].
      * intros [[<- <-]|[Hn1 H]]%lookup_insert_Some [[E <-]|[Hn2 H2]]%lookup_insert_Some; [done|done| |eauto]. subst. destruct Hf. eauto.
Qed.
(** It holds when registries keep their own names. *)
Theorem C72_partial answers es : proper_history es -> let w := rplays answers rworld0 es in
  forall name k w' p, reg_lookup_or_start answers name k w = (w', inr p) -> lookup_process w' name k = Some p.
Proof.
  intros [Hnd Ho] w name k w' p.
  assert (forall n srv g, t_names w !! n = Some srv -> t_regs w !! srv = Some g -> g_name g = n) as Hn. { exact (proj2 (names_always answers es (conj Hnd Ho))). }
  unfold reg_lookup_or_start. destruct (lookup_process w name k) as [q|] eqn:El; [intros H; by injection H as <- <-|].
  unfold call_named. destruct (t_names w !! name) as [srv|] eqn:En; [|done]. destruct (t_regs w !! srv) as [g|] eqn:Eg; [|done]. cbn [handle_rcall].
  pose proof (Hn _ _ _ En Eg) as Hname. pose proof (entry_lookup_or_start answers srv g k w) as H1. pose proof (entry_start_by_key answers srv g k w name k Eg) as H2.
  rewrite (entry_lookup w name k) in El. rewrite <- H1 in H2. unfold lookup_or_start_by_key, start_by_key in *. rewrite (entry_lookup w (g_name g) k), Hname, El in *.
  destruct (g_start g); [|done]. destruct (answers (t_tick w)) as [q|r]; [|done]. intros H. injection H as <- <-. rewrite entry_lookup. cbn [fst] in H2. rewrite H2. by rewrite decide_True.
Qed.
Print Assumptions C72_partial.
Example C72_example : lookup_process (fst (reg_lookup_or_start example_answers "reg" (KI64 (-3)) example_world)) "reg" (KI64 (-3)) = Some (PLocal 103).
Proof. by vm_compute. Qed.
