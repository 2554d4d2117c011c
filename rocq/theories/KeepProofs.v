(** The life of an alias: from the step that makes its reference, in every schedule. *)
From stdpp Require Import base list gmap numbers strings countable sorting relations.
From Coq Require Import Lia.
From Verif Require Import Prog ProgProofs ProgInv Types Mailbox MailboxSpec World ProcApi NodeApi Api Steps Hist Labels SchedSpec KeepSpec.

(** The counter of references only grows. *)
Lemma counter_rises S a w : (w_next_ref w <= w_next_ref (does S a w))%N.
Proof.
  assert (forall i x w, w_next_ref (push i x w) = w_next_ref w) as Hpush by (intros i x w0; unfold push; by destruct (w_loc w0 !! i)).
  assert (forall p f y w, w_next_ref (exit_op p f y w) = w_next_ref w) as Hexit.
  { intros p f y w0. unfold exit_op. repeat case_match; rewrite ?Hpush; done. }
  destruct a; cbn [does]; try (cbn; lia).
  - unfold receive_op. destruct (w_loc w !! me) as [l|]; [|cbn; lia]. destruct (select S T f b l). cbn; lia.
  - unfold alias_take_op. repeat case_match; cbn; lia.
  - rewrite Hpush. lia.
  - unfold send_to. destruct (w_regs w !! i); rewrite ?Hpush; lia.
  - unfold node_register_op, spawn_op. repeat case_match; simplify_eq; cbn; lia.
  - unfold send_frame, hand_out. repeat case_match; cbn; lia.
  - unfold register_op. repeat case_match; cbn; lia.
  - rewrite Hexit. lia.
  - unfold exit_linked_op. repeat case_match; rewrite ?Hpush; cbn; lia.
  - unfold node_start_op, spawn_op. repeat case_match; simplify_eq; cbn; lia.
  - unfold node_disconnect_op. repeat case_match; try (cbn; lia).
    change (w_next_ref w <= w_next_ref (exit_op p0 p RKill (up_pend (delete n) w)))%N. rewrite Hexit. cbn; lia.
  - unfold node_accept_op. case_match; [|cbn; lia]. case_match; [|cbn; lia].
    match goal with |- context [if bool_decide _ then ?x else w] => set (w1 := if bool_decide (n_state n1 = Pending) then x else w) end.
    assert (w_next_ref w1 = w_next_ref w) as <- by (unfold w1; repeat case_match; rewrite ?Hexit; done).
    clearbody w1. case_match; cbn; lia.
  - unfold node_workers_op, hand_out. repeat case_match; cbn; lia.
  - unfold sup_down_op. repeat case_match; cbn; lia.
Qed.
Lemma sorted_refs_in {A} (m : gmap reference A) r x : (r, x) ∈ sorted_refs m <-> m !! r = Some x.
Proof. unfold sorted_refs. rewrite merge_sort_Permutation. apply elem_of_map_to_list. Qed.

Section keep.
  Context (S : serde) (k me : N) (b : bool).
  Notation r0 := (RLocal k).
  (** Nobody but [me] holds anything under the id [k]. *)
  Record clean (w : world) : Prop := Clean {
    cl_mons : forall j, default ∅ (w_mons w !! j) !! r0 = None;
    cl_nmons : forall nd, default ∅ (w_nmons w !! nd) !! r0 = None;
    cl_tables : forall j l r, w_loc w !! j = Some l -> ref_id r = k -> l_monitors l !! r = None;
    cl_sets : forall j l, w_loc w !! j = Some l -> j <> me -> k ∉ l_aliases l;
    cl_tasks : b = true -> forall i t, w_tasks w !! i = Some t -> names_not k (t_dests t);
  }.
  (** Tables only lose entries by receiving. *)
  Definition less (l l' : plocal) : Prop :=
    (forall r, l_monitors l !! r = None -> l_monitors l' !! r = None) /\ l_aliases l' ⊆ l_aliases l.
  Lemma less_refl l : less l l. Proof. split; auto. Qed.
  Lemma less_trans l1 l2 l3 : less l1 l2 -> less l2 l3 -> less l1 l3.
  Proof. intros [A1 A2] [B1 B2]. split; [auto|set_solver]. Qed.
  Lemma process_item_less T x l r x' l' : process_item S T x l = (r, x', l') -> less l l'.
  Proof.
    unfold process_item. intros H.
    assert (forall r0 r1, l_monitors l !! r0 = None -> delete r1 (l_monitors l) !! r0 = None) as Hd by (intros; apply lookup_delete_None; auto).
    assert (forall r0 r1 p, l_monitors l !! r0 = None -> alter (fun _ : pmonitor => p) r1 (l_monitors l) !! r0 = None) as Ha by (intros; by rewrite lookup_alter_None).
    destruct x; repeat case_match; simplify_eq; split; cbn; auto; set_solver.
  Qed.
  Lemma less_items l l' its : less l l' -> less l (set_items its l'). Proof. by intros [A B]; split. Qed.
  Lemma less_chan l l' its : less l l' -> less l (set_chan its l'). Proof. by intros [A B]; split. Qed.
  Lemma scan_items_less T f b0 its l s its' l' : scan_items S T f b0 its l = (s, its', l') -> less l l'.
  Proof.
    revert l s its' l'; induction its as [|x its IH]; intros l s its' l' H; cbn in H; [simplify_eq; apply less_refl|].
    destruct (process_item S T x l) as [[r x'] l1] eqn:E. apply process_item_less in E.
    repeat case_match; simplify_eq; eauto using less_trans.
  Qed.
  Lemma scan_chan_less T f b0 ch l s l' : scan_chan S T f b0 ch l = (s, l') -> less l l'.
  Proof.
    revert l s l'; induction ch as [|x ch IH]; intros l s l' H; cbn in H; [simplify_eq; by split; cbn|].
    destruct (process_item S T x l) as [[r x'] l1] eqn:E. apply process_item_less in E.
    repeat case_match; simplify_eq; try (by apply less_chan); try (by apply less_items, less_chan); try (by apply less_chan, less_items);
      match goal with H : scan_chan _ _ _ _ _ _ = _ |- _ => apply IH in H end; eapply less_trans; eauto using less_trans, less_items.
  Qed.
  Lemma select_less T f b0 l s l' : select S T f b0 l = (s, l') -> less l l'.
  Proof.
    unfold select. intros H. destruct (scan_items S T f b0 (l_items l) l) as [[s1 i1] l1] eqn:E.
    apply scan_items_less in E. destruct s1; simplify_eq; try (by apply less_items).
    apply scan_chan_less in H. eapply less_trans; [exact E|]. by destruct H as [A B]; split.
  Qed.

  Lemma clean_same w w' : w_mons w' = w_mons w -> w_nmons w' = w_nmons w -> w_loc w' = w_loc w -> w_tasks w' = w_tasks w -> clean w -> clean w'.
  Proof. intros E1 E2 E3 E4 [H1 H2 H3 H4 H5]. constructor; rewrite ?E1, ?E2, ?E3, ?E4; auto. Qed.
  Lemma clean_loc w (g : plocal -> plocal) j :
    (forall l r, ref_id r = k -> l_monitors l !! r = None -> l_monitors (g l) !! r = None) ->
    (j <> me -> forall l, k ∉ l_aliases l -> k ∉ l_aliases (g l)) -> clean w -> clean (up_loc (alter g j) w).
  Proof.
    intros Hg Hg' [H1 H2 H3 H4 H5]. constructor; cbn; auto.
    - intros i l' r Hl Hr. apply lookup_alter_Some in Hl as [(-> & l & Hl & ->)|[_ Hl]]; eauto.
    - intros i l' Hl Hi. apply lookup_alter_Some in Hl as [(-> & l & Hl & ->)|[_ Hl]]; eauto.
  Qed.
  Lemma clean_insert w w' i l l' : w_mons w' = w_mons w -> w_nmons w' = w_nmons w -> w_tasks w' = w_tasks w ->
    w_loc w !! i = Some l -> w_loc w' = <[i := l']> (w_loc w) -> less l l' -> clean w -> clean w'.
  Proof.
    intros E1 E2 E4 El E3 [L1 L2] [H1 H2 H3 H4 H5]. constructor; rewrite ?E1, ?E2, ?E3, ?E4; auto.
    - intros j lj r. rewrite lookup_insert_Some. intros [[<- <-]|[_ E]]; [|eauto]. intros Hr. apply L1. eauto.
    - intros j lj. rewrite lookup_insert_Some. intros [[<- <-]|[_ E]]; [|eauto]. intros Hj Hk. apply (H4 i l El Hj). set_solver.
  Qed.
  Lemma clean_new w w' i : w_mons w' = w_mons w -> w_nmons w' = w_nmons w -> w_tasks w' = w_tasks w ->
    w_loc w' = <[i := new_plocal]> (w_loc w) -> clean w -> clean w'.
  Proof.
    intros E1 E2 E4 E3 [H1 H2 H3 H4 H5]. constructor; rewrite ?E1, ?E2, ?E3, ?E4; auto.
    - intros j lj r. rewrite lookup_insert_Some. intros [[<- <-]|[_ E]]; [|eauto]. intros _. apply lookup_empty.
    - intros j lj. rewrite lookup_insert_Some. intros [[<- <-]|[_ E]]; [|eauto]. intros _. apply not_elem_of_empty.
  Qed.
  Lemma clean_push i x w : clean w -> clean (push i x w).
  Proof.
    intros Hw. unfold push. destruct (w_loc w !! i) as [l|] eqn:E; [|exact Hw].
    apply (clean_insert w _ i l (set_chan (l_chan l ++ [x]) l)); try reflexivity; [exact E|by split; cbn|exact Hw].
  Qed.
  Lemma clean_exit p f y w : clean w -> clean (exit_op p f y w).
  Proof. intros Hw. unfold exit_op. repeat case_match; try exact Hw; try (by apply clean_push); by apply (clean_same w). Qed.
  Lemma clean_exit_linked p f y w : clean w -> clean (exit_linked_op p f y w).
  Proof. intros Hw. unfold exit_linked_op. repeat case_match; try exact Hw; try (by apply clean_push); by apply (clean_same w). Qed.

  (** Actions that cannot touch the alias, whoever performs them. *)
  Definition mild (a : act) : Prop :=
    match a with
    | AOwnAlias i r => i = me \/ ref_id r <> k
    | AOwnMonitor _ r _ | AAliasCreate _ r _ => ref_id r <> k
    | AAliasDelete i => i <> k
    | AAliasTake r => b = true -> ref_id r <> k
    | ATaskAdd _ ds _ _ => b = true -> names_not k ds
    | AAddMon _ r _ _ | AAddNmon _ r _ => r <> r0
    | _ => True
    end.
  Lemma mild_clean a w : mild a -> clean w -> clean (does S a w).
  Proof.
    intros Ha Hw. destruct a; cbn in Ha; cbn [does]; try exact Hw; try (by apply (clean_same w)).
    - apply clean_loc; [by cbn| |exact Hw]. intros Hj l. cbn. destruct Ha as [|Ha]; [done|]. set_solver.
    - apply clean_loc; [by cbn| |exact Hw]. intros Hj l. cbn. set_solver.
    - apply clean_loc; [|by cbn|exact Hw]. cbn. intros l r' Hr Hl. rewrite lookup_insert_ne by congruence. exact Hl.
    - apply clean_loc; [|by cbn|exact Hw]. cbn. intros l r' Hr Hl. apply lookup_delete_None. auto.
    - unfold receive_op. destruct (w_loc w !! me0) as [l|] eqn:E; [|exact Hw]. destruct (select S T f b0 l) as [s l'] eqn:Es. cbn.
      apply (clean_insert w _ me0 l l'); try reflexivity; [exact E|by eapply select_less|exact Hw].
    - unfold alias_take_op. repeat case_match; cbn; try exact Hw; by apply (clean_same w).
    - by apply clean_push.
    - unfold send_to. case_match; [by apply clean_push|exact Hw].
    - unfold node_register_op, spawn_op. repeat case_match; cbn; simplify_eq; try exact Hw; cbn;
        first [by apply (clean_same w) | by apply (clean_new w _ (w_next_pid w))].
    - unfold send_frame, hand_out. repeat case_match; try exact Hw; by apply (clean_same w).
    - destruct Hw as [H1 H2 H3 H4 H5]. constructor; cbn; auto. intros Hb j t. rewrite lookup_insert_Some.
      intros [[<- <-]|[_ E]]; cbn; eauto.
    - destruct Hw as [H1 H2 H3 H4 H5]. constructor; cbn; auto. intros Hb j t E.
      apply lookup_alter_Some in E as [(-> & t0 & E & ->)|[_ E]]; cbn; eauto.
    - by apply (clean_new w _ (w_next_pid w)).
    - unfold register_op. repeat case_match; cbn; try exact Hw; by apply (clean_same w).
    - by apply clean_exit.
    - by apply clean_exit_linked.
    - unfold gone. destruct Hw as [H1 H2 H3 H4 H5]. constructor; cbn; auto.
      + intros j l r. rewrite lookup_delete_Some. intros [_ E]. eauto.
      + intros j l. rewrite lookup_delete_Some. intros [_ E]. eauto.
    - destruct Hw as [H1 H2 H3 H4 H5]. unfold add_mon. constructor; cbn; auto.
      intros j. destruct (decide (i = j)) as [->|Hne]; [|rewrite lookup_insert_ne by congruence; auto].
      rewrite lookup_insert. cbn. rewrite lookup_insert_ne by congruence. auto.
    - destruct Hw as [H1 H2 H3 H4 H5]. unfold del_mon. constructor; cbn; auto.
      intros j. destruct (decide (i = j)) as [->|Hne]; [|rewrite lookup_alter_ne by congruence; auto].
      rewrite lookup_alter. specialize (H1 j). destruct (w_mons w !! j); cbn in *; [|apply lookup_empty].
      apply lookup_delete_None. auto.
    - destruct Hw as [H1 H2 H3 H4 H5]. constructor; cbn; auto.
      intros j. destruct (decide (i = j)) as [->|Hne]; [by rewrite lookup_delete; cbn; rewrite lookup_empty|].
      rewrite lookup_delete_ne by congruence; auto.
    - destruct Hw as [H1 H2 H3 H4 H5]. unfold add_nmon. constructor; cbn; auto.
      intros nd. destruct (decide (n = nd)) as [->|Hne]; [|rewrite lookup_insert_ne by congruence; auto].
      rewrite lookup_insert. cbn. rewrite lookup_insert_ne by congruence. auto.
    - destruct Hw as [H1 H2 H3 H4 H5]. unfold del_nmon. constructor; cbn; auto.
      intros nd. specialize (H2 nd). destruct (decide (n = nd)) as [->|Hne]; [|rewrite lookup_alter_ne by congruence; auto].
      rewrite lookup_alter. destruct (w_nmons w !! nd); cbn in *; [|apply lookup_empty]. apply lookup_delete_None. auto.
    - destruct Hw as [H1 H2 H3 H4 H5]. unfold del_nmons. constructor; cbn; auto.
      intros nd. specialize (H2 nd). destruct (decide (n = nd)) as [->|Hne]; [|rewrite lookup_alter_ne by congruence; auto].
      rewrite lookup_alter. destruct (w_nmons w !! nd) as [m|]; cbn in *; [|apply lookup_empty].
      clear -H2. induction l as [|r l IH]; cbn; [exact H2|]. apply lookup_delete_None. auto.
    - destruct Hw as [H1 H2 H3 H4 H5]. constructor; cbn; auto.
      intros nd. specialize (H2 nd). destruct (decide (n = nd)) as [->|Hne]; [|rewrite lookup_delete_ne by congruence; auto].
      rewrite lookup_delete. apply lookup_empty.
    - unfold node_start_op, spawn_op. repeat case_match; cbn; simplify_eq; try exact Hw. by apply (clean_new w _ (w_next_pid w)).
    - unfold node_disconnect_op. repeat case_match; try exact Hw; [|by apply (clean_same w)].
      match goal with |- context [exit_op ?p ?f ?y ?w1] => assert (clean (exit_op p f y w1)) as Hx end.
      { apply clean_exit. by apply (clean_same w). }
      revert Hx. by apply clean_same.
    - unfold node_accept_op. repeat case_match; cbn; simplify_eq; try exact Hw; try (by apply (clean_same w)); try (by apply clean_exit).
      all: match goal with |- context [exit_op ?p ?f ?y ?w1] => assert (clean (exit_op p f y w1)) as Hx by (by apply clean_exit) end;
        revert Hx; by apply clean_same.
    - unfold node_workers_op, hand_out. repeat case_match; try exact Hw; by apply (clean_same w).
    - unfold sup_down_op. repeat case_match; cbn; try exact Hw; by apply (clean_same w).
  Qed.
  Definition active (w : world) : Prop := w_aliases w !! k = Some (me, b).
  Lemma exit_aliases p f y w : w_aliases (exit_op p f y w) = w_aliases w.
  Proof. unfold exit_op, push. repeat case_match; reflexivity. Qed.
  Lemma mild_active a w : mild a -> active w -> active (does S a w).
  Proof.
    unfold active.
    assert (forall i x w, w_aliases (push i x w) = w_aliases w) as Hpush by (intros i x w0; unfold push; by destruct (w_loc w0 !! i)).
    destruct a; cbn [does mild]; intros Ha Hw; try done; try (cbn; exact Hw).
    - unfold receive_op. destruct (w_loc w !! me0) as [l|]; [|done]. by destruct (select S T f b0 l).
    - cbn. by rewrite lookup_insert_ne.
    - cbn. by rewrite lookup_delete_ne.
    - unfold alias_take_op. destruct (decide (ref_id r = k)) as [E|E].
      + rewrite E, Hw. destruct b; [by specialize (Ha eq_refl)|]. exact Hw.
      + repeat case_match; cbn; try exact Hw. by rewrite lookup_delete_ne.
    - by rewrite Hpush.
    - unfold send_to. case_match; [by rewrite Hpush|done].
    - unfold node_register_op, spawn_op. repeat case_match; simplify_eq; exact Hw.
    - unfold send_frame, hand_out. repeat case_match; exact Hw.
    - unfold register_op. repeat case_match; exact Hw.
    - by rewrite exit_aliases.
    - unfold exit_linked_op. repeat case_match; rewrite ?Hpush; exact Hw.
    - unfold node_start_op, spawn_op. repeat case_match; simplify_eq; exact Hw.
    - unfold node_disconnect_op. repeat case_match; cbn; rewrite ?exit_aliases; exact Hw.
    - unfold node_accept_op. repeat case_match; cbn; rewrite ?exit_aliases; exact Hw.
    - unfold node_workers_op, hand_out. repeat case_match; exact Hw.
    - unfold sup_down_op. repeat case_match; exact Hw.
  Qed.

  (** *** Whole calls *)
  (** A program that leaves the alias alone up to the step that makes the reference [k]. *)
  Fixpoint mindful {R} (Q : R -> Prop) (p : prog world R) : Prop :=
    match p with
    | Ret r => Q r
    | Panic _ => True
    | Atom g f kk => forall w, g w = true -> clean w ->
        clean (f w) /\ (active w -> active (f w)) /\ (w_next_ref w <= w_next_ref (f w))%N /\
        (w_next_ref w <> k \/ (w_next_ref (f w) <= k)%N -> mindful Q (kk w))
    end.
  Notation ok := (mindful (fun _ => True)).
  Lemma mf_bind {A B} (Q : A -> Prop) (Q' : B -> Prop) (p : prog world A) (q : A -> prog world B) :
    mindful Q p -> (forall a, Q a -> mindful Q' (q a)) -> mindful Q' (bind p q).
  Proof.
    intros Hp Hq. induction p as [a|m|g f kk IH]; cbn in *; auto. intros w Hg Hw. destruct (Hp w Hg Hw) as (H1 & H2 & H3 & H4). split_and!; auto.
  Qed.
  Lemma mf_mono {A} (Q Q' : A -> Prop) (p : prog world A) : (forall a, Q a -> Q' a) -> mindful Q p -> mindful Q' p.
  Proof.
    intros HQ. induction p as [a|m|g f kk IH]; cbn; auto. intros Hp w Hg Hw. destruct (Hp w Hg Hw) as (H1 & H2 & H3 & H4). split_and!; auto.
  Qed.
  Lemma ok_mild {A} (F : act -> Prop) (p : prog world A) : (forall a, F a -> mild a) -> guar (lstep S F) p -> ok p.
  Proof.
    intros HF. induction p as [a|m|g f kk IH]; cbn; auto. intros H w Hg Hw. destruct (H w Hg) as ((a & Ha & E) & H2).
    rewrite E. split; [by apply mild_clean; auto|]. split; [by apply mild_active; auto|]. split; [apply counter_rises|]. intros _. by apply IH.
  Qed.
  Lemma mf_atom {A} (Q : A -> Prop) (op : world -> world * A) a0 :
    (forall w, clean w -> exists a, fst (op w) = does S a w /\ mild a /\ Q (snd (op w))) -> a0 = tt -> mindful Q (atom op).
  Proof.
    intros H _ w _ Hw. destruct (H w Hw) as (a & E & Ha & HQ). cbn. rewrite E.
    split; [by apply mild_clean|]. split; [by apply mild_active|]. split; [apply counter_rises|]. intros _. exact HQ.
  Qed.
  Lemma mf_observe {A} (Q : A -> Prop) (f : world -> A) : (forall w, clean w -> Q (f w)) -> mindful Q (observe f).
  Proof. intros H w _ Hw. cbn. split_and!; auto with lia. Qed.
  Lemma mf_each {A} (l : list A) body : (forall x, x ∈ l -> ok (body x)) -> ok (each l body).
  Proof.
    induction l as [|x l IH]; intros H; cbn [each]; [exact I|].
    eapply mf_bind; [apply H; set_solver|]. intros _ _. apply IH. intros; apply H; set_solver.
  Qed.
  Lemma ok_modify f a : (forall w, f w = does S a w) -> mild a -> ok (modify f).
  Proof. intros Hf Ha w _ Hw. cbn. rewrite Hf. split; [by apply mild_clean|]. split; [by apply mild_active|]. split; [apply counter_rises|]. done. Qed.
  Lemma ok_fresh : mindful (fun r => ref_id r <> k /\ ref_is_local r = true) fresh_ref.
  Proof.
    intros w _ Hw. cbn. split; [by apply (clean_same w)|]. split; [done|]. split; [lia|]. intros H. split; [|reflexivity]. cbn. lia.
  Qed.
  Ltac okm a := apply (ok_modify _ a); [reflexivity | cbn; auto].
  Ltac okseq := eapply (mf_bind (fun _ => True)); [|intros ? _].
  Ltac oka a := apply (mf_atom _ _ tt); [|reflexivity]; intros; exists a; split; [reflexivity|split; [cbn; auto|try exact I]].
  Lemma id_ref r : ref_id r <> k -> r <> r0. Proof. by intros H ->. Qed.
  Hint Resolve id_ref : core.
  Lemma ok_node_register nd c : ok (node_register nd c).
  Proof. apply (ok_mild (fp_noderegister c)); [|apply l_node_register]. by intros []. Qed.
  Lemma ok_alias_destroy r : ref_id r <> k -> ok (alias_destroy r).
  Proof. intros Hr. unfold alias_destroy, alias_destroy_op. oka (AAliasDelete (ref_id r)). Qed.
  Lemma ok_self_down m d' r why : ref_id r <> k -> ok (self_down m d' r why).
  Proof.
    intros Hr. unfold self_down. okseq; [okm (APush m (IProcessDown d' r (RCustom why)))|].
    okseq; [by apply ok_alias_destroy | exact I].
  Qed.
  Lemma ok_monitor_remote m n a r d' i nm : ref_id r <> k -> ok (monitor_remote m n a r d' i nm).
  Proof.
    intros Hr. unfold monitor_remote. okseq; [okm (AAddNmon (NRemote n a) r (NMProcess m d'))|].
    okseq; [apply ok_node_register|]. okm (ASendFrame (FMonitor true i nm (Some m) (ref_id r)) a1).
  Qed.
  Lemma ok_monitor_local m i r d' : ref_id r <> k -> ok (monitor_local m i r d').
  Proof.
    intros Hr. unfold monitor_local. okseq; [by apply mf_observe|].
    case_match; [okm (AAddMon i r (PLocal m) (Some d')) | by apply ok_self_down].
  Qed.
  Lemma ok_own_monitor m r x : ref_id r <> k -> ok (own_monitor m r x).
  Proof. intros Hr. okm (AOwnMonitor m r x). Qed.
  Lemma ok_monitor_install m d' r : ref_id r <> k -> ok (monitor_install m d' r).
  Proof.
    intros Hr. unfold monitor_install. destruct d' as [p|n [|nm a]|]; [| | |exact I].
    - case_decide; [exact I|]. okseq; [by apply ok_own_monitor|]. destruct (pid_is_local p); [by apply ok_monitor_local|].
      okseq; [by apply mf_observe|]. case_match; [case_match; by apply ok_monitor_remote | by apply ok_self_down].
    - okseq; [by apply mf_observe|]. case_match.
      + okseq; [by apply ok_own_monitor | by apply ok_monitor_local].
      + okseq; [by apply ok_own_monitor | by apply ok_self_down].
    - okseq; [by apply ok_own_monitor | by apply ok_monitor_remote].
  Qed.
  Lemma ok_monitor_destroy p r : ok (monitor_destroy p r).
  Proof.
    unfold monitor_destroy. case_match; [okm (ADelMon (pid_id p) r)|].
    okseq; [okm (ASendFrame (FMonitor false (Some (pid_id p)) None None (ref_id r)) (ref_node r))|].
    okseq; [by apply mf_observe|]. case_match; [|exact I]. case_match. okm (ADelNmon (NRemote s s0) r).
  Qed.
  Lemma ok_demonitor m r : ok (demonitor m r).
  Proof.
    unfold demonitor. eapply (mf_bind (fun x => ref_id r = k -> x = None)).
    - unfold take_monitor. oka (AOwnDemonitor m r). cbn. intros Hr. destruct (w_loc w !! m) as [l|] eqn:E; [|reflexivity].
      by eapply cl_tables.
    - intros [[[p|]|]|] Hx; try exact I. assert (ref_id r <> k) as Hr by (intros E; by specialize (Hx E)).
      okseq; [by apply ok_monitor_destroy|]. okseq; [by apply ok_alias_destroy|exact I].
  Qed.
  Lemma ok_link_down i why : ok (link_process_down (PLocal i) why).
  Proof.
    apply (ok_mild (fun a => match a with ANone | ALinksDelete _ | ADelLink _ _ | AExitLinked _ _ _ | ADelNlinks _ _ | ASendFrame _ _ => True | _ => False end)).
    - by intros [].
    - unfold link_process_down. apply guar_bind; [apply guar_atom; intros w; by exists (ALinksDelete i)|]. intros [ls|]; [|exact I].
      apply guar_bind.
      + apply guar_each. intros p. apply guar_bind; [|intros _]; apply guar_modify; intros w;
          [by exists (ADelLink (pid_id p) (PLocal i)) | by exists (AExitLinked p (PLocal i) why)].
      + intros _. apply guar_each. intros g. apply guar_bind; [apply guar_observe; intros; by exists ANone|]. intros n.
        apply guar_bind.
        * case_match; [case_match|exact I]. apply guar_modify; intros w. by eexists (ADelNlinks _ _).
        * intros _. apply guar_modify; intros w. by eexists (ASendFrame _ _).
  Qed.
  Lemma local_id r : ref_is_local r = true -> r <> r0 -> ref_id r <> k.
  Proof. destruct r; cbn; [|done]. intros _ H ->. by apply H. Qed.
  Lemma ok_monitor_down i why : ok (monitor_process_down (PLocal i) why).
  Proof.
    unfold monitor_process_down. eapply (mf_bind (fun ms => default ∅ ms !! r0 = None)).
    - oka (AMonsDelete i). cbn. by apply cl_mons.
    - intros [ms|] Hms; [|exact I]. cbn in Hms. okseq.
      + apply mf_each. intros [r [from d']] Hx. apply sorted_refs_in in Hx. cbn [fst snd].
        assert (r <> r0) as Hr by congruence. okseq.
        * case_match; [|exact I]. case_match; [okm (ASendTo (pid_id from) (IProcessDown d r why))|].
          okseq; [by apply mf_observe|]. case_match; exact I.
        * case_match; [|exact I]. okseq; [by apply ok_alias_destroy, local_id|exact I].
      + apply mf_each. intros g _. okseq; [by apply mf_observe|]. okseq.
        * case_match; [case_match|exact I]. okm (ADelNmons (NRemote s s0) (map fst g.2)).
        * okm (ASendFrame (FMonitorDown (map (fun x => ref_id x.1) g.2) why) g.1).
  Qed.
  Lemma ok_finish i : i <> me -> ok (drop_process i).
  Proof.
    intros Hm. unfold drop_process. okseq; [oka (ARegDelete i)|].
    case_match; [|okseq; [okm (AGone i)|exact I]].
    okseq; [case_match; [okm (ANameDelete s)|exact I]|].
    okseq; [apply ok_link_down|]. okseq; [by apply ok_monitor_down|].
    eapply (mf_bind (fun l => match l with Some l => (forall r, ref_id r = k -> l_monitors l !! r = None) /\ k ∉ l_aliases l | None => True end)).
    { apply mf_observe. intros w Hw. destruct (w_loc w !! i) as [l|] eqn:E; [|exact I].
      split; [intros r' Hr; by eapply cl_tables|by eapply cl_sets]. }
    intros l Hl. okseq.
    - unfold monitor_destroy_all. apply mf_each. intros [rf m] Hx. cbn [fst snd].
      assert (ref_id rf <> k) as Hr. { intros E. destruct l as [l|]; [|by apply elem_of_nil in Hx]. apply sorted_refs_in in Hx. destruct Hl as [Hl _]. rewrite (Hl rf E) in Hx. discriminate. }
      destruct m as [[p|]|nd]; [|exact I|].
      + okseq; [destruct (pid_is_local p); [okm (ADelMon (pid_id p) rf) | okm (ASendFrame (FMonitor false (Some (pid_id p)) None None (ref_id rf)) (ref_node rf))]|].
        destruct (ref_is_local rf); [|exact I]. okseq; [by apply ok_alias_destroy|exact I].
      + okseq; [okm (ADelNmon nd rf)|]. destruct (ref_is_local rf); [|exact I]. okseq; [by apply ok_alias_destroy|exact I].
    - okseq; [|okm (AGone i)]. unfold alias_destroy_all. apply mf_each. intros j Hj. okm (AAliasDelete j).
      intros ->. destruct l as [l|]; [|by apply elem_of_nil in Hj]. apply Hl. unfold sorted_ids in Hj. rewrite merge_sort_Permutation in Hj. by apply elem_of_elements in Hj.
  Qed.
  Lemma ok_supdown nd p : ok (supervisor_down nd p).
  Proof.
    unfold supervisor_down. okseq; [oka (ASupDown nd p)|].
    case_match; [exact I|]. okseq; [oka (ANlinksDelete nd)|].
    okseq.
    { apply mf_each. intros x _. okseq; [okm (ADelLink x.2 x.1) | okm (AExitLinked (PLocal x.2) x.1 (RCustom "noconnection"))]. }
    eapply (mf_bind (fun ms => default ∅ ms !! r0 = None)).
    { oka (ANmonsDelete nd). by apply cl_nmons. }
    intros ms Hms. okseq; [|okm (APendDelete nd)].
    apply mf_each. intros [r m] Hx. apply sorted_refs_in in Hx. cbn [fst snd]. assert (r <> r0) as Hr by congruence.
    okseq.
    - destruct m as [i|i d'|i]; [okm (ASendTo i (INodeDown nd r)) | okm (ASendTo i (IProcessDown d' r (RCustom "noconnection")))|].
      by apply ok_monitor_destroy.
    - case_match; [|exact I]. okseq; [by apply ok_alias_destroy, local_id|exact I].
  Qed.
  Lemma ok_spawn m l b0 : ok (spawn m l b0).
  Proof.
    destruct b0; [|apply (ok_mild (fp_spawn m l false)); [|apply l_spawn]; intros []; cbn; intuition congruence].
    unfold spawn. okseq; [oka AAlloc|].
    okseq. { destruct l; [|exact I]. okseq; [okm (AAddLink a (PLocal m)) | okm (AAddLink m (PLocal a))]. }
    okseq.
    { eapply mf_bind; [apply ok_fresh|]. intros r [Hr _]. okseq; [by apply ok_own_monitor|].
      okseq; [okm (AAddMon a r (PLocal m) (Some (DPid (PLocal a)))) | exact I]. }
    okseq; [okm (ARunning a)|]. okseq; [okm (AInsert a)|exact I].
  Qed.
  Lemma ok_frame nd p f : leaves_alias k me b (CFrame nd p f) -> ok (receive_frame nd p f).
  Proof.
    intros Hl. apply (ok_mild (fp_frame nd f)); [|apply l_frame].
    intros []; destruct f; cbn in *; intros Ha; try exact I; try contradiction.
    all: try (intros ->; naive_solver).
    all: try (intros Hb E; subst; naive_solver).
    all: naive_solver.
  Qed.
  Lemma ok_node_monitor m nd : ok (node_monitor m nd).
  Proof.
    unfold node_monitor. destruct nd; [exact I|]. eapply mf_bind; [apply ok_fresh|]. intros r [Hr _].
    okseq; [by apply ok_own_monitor|]. okseq; [okm (AAddNmon (NRemote name addr) r (NMNode m))|].
    okseq; [apply ok_node_register|exact I].
  Qed.
  Lemma fp_send_mild ds v a : (b = true -> names_not k ds) -> fp_send S (dests_list ds) v a -> mild a.
  Proof. intros H. destruct a; cbn; try done. intros Hr Hb. by apply (H Hb). Qed.
  Lemma ok_fire i : ok (timer_fire S i).
  Proof.
    unfold timer_fire. intros w _ Hw. cbn. split; [apply (mild_clean (ATaskKill i) w I Hw)|]. split; [done|]. split; [lia|]. intros _.
    destruct (w_tasks w !! i) as [t|] eqn:E; [|exact I]. okseq.
    - apply (ok_mild (fp_send S (dests_list (t_dests t)) (t_val t))); [|apply l_send]. intros a. apply fp_send_mild.
      intros Hb. by eapply cl_tasks.
    - apply (ok_mild (fp_destroy_timer i) (destroy_timer (RLocal i))); [by intros []|apply (l_destroy_timer S (RLocal i))].
  Qed.
  Lemma ok_alias m r : ok (alias m r).
  Proof.
    unfold alias. eapply mf_bind; [apply ok_fresh|]. intros rf [Hr _]. okseq; [okm (AOwnAlias m rf)|].
    okseq; [okm (AAliasCreate m rf r)|exact I].
  Qed.
  Lemma ok_send_after ds v d : (b = true -> names_not k ds) -> ok (send_after ds v d).
  Proof.
    intros H. unfold send_after. eapply mf_bind; [apply ok_fresh|]. intros rf [Hr _].
    okseq; [okm (ATaskAdd (ref_id rf) ds v d)|]. okseq; [okm (ATimerAdd (ref_id rf) d)|exact I].
  Qed.
  Lemma ok_call c : leaves_alias k me b c -> ok (call_prog S c).
  Proof.
    intros Hc.
    assert ((forall a, fp S c a -> mild a) -> ok (call_prog S c)) as Hm.
    { intros H. eapply ok_mild; [exact H | apply call_fp]. }
    destruct c; cbn in Hc; cbn [call_prog]; unfold ret_as;
      try (apply Hm; intros []; cbn; unfold fp_destroy_timer, fp_fire, fp_link, fp_unlink, fp_exit, fp_supervise, msg_item;
           cbn; try done; try (by intuition (subst; auto)); fail).
    - okseq; [apply ok_alias|exact I].
    - apply Hm. intros a. cbn. by apply fp_send_mild.
    - okseq; [apply ok_fire|exact I].
    - okseq; [apply ok_spawn|exact I].
    - okseq; [|exact I]. unfold monitor. eapply mf_bind; [apply ok_fresh|]. intros r [Hr _].
      okseq; [by apply ok_monitor_install|exact I].
    - okseq; [|exact I]. unfold monitor_alias. eapply mf_bind; [apply ok_fresh|]. intros r [Hr _].
      okseq; [okm (AAliasCreate me0 r reply)|]. okseq; [by apply ok_monitor_install|exact I].
    - okseq; [by apply ok_demonitor|exact I].
    - okseq; [by apply ok_finish|exact I].
    - okseq; [|exact I]. unfold crash. okseq; [okm (ASetExit me0 why)|]. by apply ok_finish.
    - okseq; [apply ok_node_monitor|exact I].
    - okseq; [apply ok_supdown|exact I].
    - okseq; [by apply (ok_frame nd sup)|exact I].
  Qed.

  (** *** Schedules *)
  Definition rises (w w' : world) : Prop := (w_next_ref w <= w_next_ref w')%N.
  Notation ticking := (guar rises).
  Lemma call_ticking c : ticking (call_prog S c).
  Proof. eapply guar_mono; [|apply call_fp]. intros x y (a & _ & ->). apply counter_rises. Qed.
  Lemma tick_some i (s s' : sys world val) : tick i s = Some s' -> exists g f kk, s_threads s !! i = Some (Atom g f kk) /\
    g (s_world s) = true /\ s' = Sys (f (s_world s)) (<[i := kk (s_world s)]> (s_threads s)).
  Proof.
    unfold tick. intros Ht. destruct (s_threads s !! i) as [[| |g f kk]|] eqn:E; try discriminate.
    destruct (g (s_world s)) eqn:Hg; [|discriminate]. injection Ht as <-. eauto 7.
  Qed.
  (** Before the reference [k] is made. *)
  Definition unmade (s : sys world val) : Prop := (w_next_ref (s_world s) <= k)%N -> clean (s_world s) /\ Forall ok (s_threads s).
  Definition early (s : sys world val) : Prop := Forall ticking (s_threads s) /\ unmade s.
  Lemma step_early s s' : sys_step (calls_of S (leaves_alias k me b)) s s' -> early s -> early s'.
  Proof.
    intros Hs [Ht Hu]. destruct Hs as [i s s' Hi|p s (c & Hc & ->)].
    - apply tick_some in Hi as (g & f & kk & E & Hg & ->). cbn.
      destruct (Forall_lookup_1 _ _ _ _ Ht E _ Hg) as [R1 R2]. split; [cbn; by apply Forall_insert|].
      intros Hk. cbn in Hk |- *. unfold rises in R1. destruct (Hu ltac:(lia)) as [Hc Hf].
      destruct (Forall_lookup_1 _ _ _ _ Hf E _ Hg Hc) as (A1 & _ & _ & A4). split; [exact A1|]. apply Forall_insert; [exact Hf|]. apply A4. by right.
    - split; cbn; [apply Forall_app; split; [exact Ht|constructor; [apply call_ticking|constructor]]|].
      intros Hk. destruct (Hu Hk) as [A B]. split; [exact A|]. apply Forall_app. split; [exact B|]. constructor; [by apply ok_call|constructor].
  Qed.
  Lemma world0_early : early (Sys world0 []).
  Proof.
    split; [constructor|]. intros _. split; [|constructor]. constructor; cbn; intros; rewrite ?lookup_empty in *; cbn; rewrite ?lookup_empty; try reflexivity; discriminate.
  Qed.
  Lemma reach_early s s' : reach (calls_of S (leaves_alias k me b)) s s' -> early s -> early s'.
  Proof. induction 1 as [|x y z H1 _ IH]; [done|]. intros H. eauto using step_early. Qed.

  (** What is left of the call of alias. *)
  Definition stA : prog world val := call_prog S (CAlias me b).
  Definition stB (r : reference) : prog world val :=
    ret_as VRef (do! own me (upd_aliases (fun a => {[ref_id r]} ∪ a)) in do! modify (alias_create_op me r b) in Ret r).
  Definition stC (r : reference) : prog world val := ret_as VRef (do! modify (alias_create_op me r b) in Ret r).
  Definition stD (r : reference) : prog world val := Ret (VRef r).
  Section at_n.
    Context (n : nat).
    Inductive phase (s : sys world val) : Prop :=
    | phase_before : s_threads s !! n = Some stA -> unmade s -> phase s
    | phase_other r p : s_threads s !! n = Some p -> p = stB r \/ p = stC r \/ p = stD r -> r <> r0 -> phase s
    | phase_mine : (k < w_next_ref (s_world s))%N -> clean (s_world s) ->
        (forall i p, i <> n -> s_threads s !! i = Some p -> ok p) ->
        s_threads s !! n = Some (stB r0) \/ s_threads s !! n = Some (stC r0) \/ (s_threads s !! n = Some (stD r0) /\ active (s_world s)) -> phase s.
    Lemma insert_n (s : list (prog world val)) i p q : s !! n = Some p -> i <> n -> <[i := q]> s !! n = Some p.
    Proof. intros H Hi. by rewrite list_lookup_insert_ne. Qed.
    Lemma insert_at (s : list (prog world val)) p q : s !! n = Some p -> <[n := q]> s !! n = Some q.
    Proof. intros H. apply list_lookup_insert. by eapply lookup_lt_Some. Qed.
    Lemma step_phase s s' : sys_step (calls_of S (leaves_alias k me b)) s s' -> Forall ticking (s_threads s) -> phase s -> phase s'.
    Proof.
      intros Hs Ht Hp. destruct Hs as [i s s' Hi|p s (c & Hc & ->)].
      - pose proof Hi as Hi'. apply tick_some in Hi as (g & f & kk & E & Hg & ->). destruct (decide (i = n)) as [->|Hin].
        + destruct Hp as [Hn Hu|r p Hn Hq Hr|Hk Hcl Ho Hn].
          * rewrite Hn in E. injection E as <- <- <-. clear Hi'. cbn [s_world s_threads] in *.
            destruct (decide (w_next_ref (s_world s) = k)) as [Ek|Ek].
            -- apply phase_mine; cbn [s_world s_threads].
               ++ cbn. lia.
               ++ destruct (Hu ltac:(lia)) as [A _]. by apply (clean_same (s_world s)).
               ++ intros j p Hj. rewrite list_lookup_insert_ne by congruence. intros E. destruct (Hu ltac:(lia)) as [_ B]. exact (Forall_lookup_1 _ _ _ _ B E).
               ++ left. erewrite insert_at by exact Hn. rewrite <- Ek. reflexivity.
            -- apply (phase_other _ (RLocal (w_next_ref (s_world s))) (stB (RLocal (w_next_ref (s_world s))))); cbn [s_world s_threads].
               ++ erewrite insert_at by exact Hn. reflexivity.
               ++ by left.
               ++ congruence.
          * rewrite Hn in E. injection E as ->. destruct Hq as [E|[E|E]]; [| |discriminate]; injection E as -> -> ->.
            -- apply (phase_other _ r (stC r)); [cbn [s_world s_threads]; erewrite insert_at by exact Hn; reflexivity|by right; left|exact Hr].
            -- apply (phase_other _ r (stD r)); [cbn [s_world s_threads]; erewrite insert_at by exact Hn; reflexivity|by right; right|exact Hr].
          * destruct Hn as [Hn|[Hn|[Hn _]]]; rewrite Hn in E; [| |discriminate]; injection E as <- <- <-.
            -- apply phase_mine; cbn [s_world s_threads].
               ++ exact Hk.
               ++ apply (mild_clean (AOwnAlias me r0)); [by left|exact Hcl].
               ++ intros j p Hj. rewrite list_lookup_insert_ne by congruence. eauto.
               ++ right; left. erewrite insert_at by exact Hn. reflexivity.
            -- apply phase_mine; cbn [s_world s_threads].
               ++ exact Hk.
               ++ by apply (clean_same (s_world s)).
               ++ intros j p Hj. rewrite list_lookup_insert_ne by congruence. eauto.
               ++ right; right. split; [erewrite insert_at by exact Hn; reflexivity|]. unfold active. cbn. apply lookup_insert.
        + destruct Hp as [Hn Hu|r p Hn Hq Hr|Hk Hcl Ho Hn].
          * apply phase_before; [cbn; by apply insert_n|]. exact (proj2 (step_early s _ (step_tick _ i _ _ Hi') (conj Ht Hu))).
          * apply (phase_other _ r p); [cbn; by apply insert_n|exact Hq|exact Hr].
          * destruct (Ho i _ Hin E _ Hg Hcl) as (A1 & A2 & A3 & A4). apply phase_mine; cbn.
            -- lia.
            -- exact A1.
            -- intros j p Hj Ej. apply list_lookup_insert_Some in Ej as [(-> & <- & _)|[_ Ej]]; [|by eapply Ho]. apply A4. left. lia.
            -- destruct Hn as [Hn|[Hn|[Hn Ha]]]; [left|right; left|right; right; split; [|by apply A2]]; by apply insert_n.
      - assert (forall p, s_threads s !! n = Some p -> (s_threads s ++ [call_prog S c]) !! n = Some p) as Happ.
        { intros p Hn. apply lookup_app_l_Some. exact Hn. }
        destruct Hp as [Hn Hu|r p Hn Hq Hr|Hk Hcl Ho Hn].
        + apply phase_before; [cbn; by apply Happ|]. refine (proj2 (step_early s _ (step_call _ _ _ _) (conj Ht Hu))). by exists c.
        + apply (phase_other _ r p); [cbn; by apply Happ|exact Hq|exact Hr].
        + apply phase_mine; cbn; auto.
          * intros j p Hj Ej. apply lookup_app_Some in Ej as [Ej|[_ Ej]]; [by eapply Ho|].
            apply list_lookup_singleton_Some in Ej as [_ <-]. by apply ok_call.
          * destruct Hn as [Hn|[Hn|[Hn Ha]]]; auto.
    Qed.
  End at_n.
  Lemma alias_life s0 s :
    reach (calls_of S (leaves_alias k me b)) (Sys world0 []) s0 ->
    reach (calls_of S (leaves_alias k me b)) (Sys (s_world s0) (s_threads s0 ++ [call_prog S (CAlias me b)])) s ->
    s_threads s !! length (s_threads s0) = Some (Ret (VRef r0)) -> active (s_world s).
  Proof.
    intros H0 H1 Hn. set (n := length (s_threads s0)) in *.
    assert (phase n (Sys (s_world s0) (s_threads s0 ++ [call_prog S (CAlias me b)])) /\
            Forall ticking (s_threads s0 ++ [call_prog S (CAlias me b)])) as [Hp Ht].
    { destruct (step_early s0 (Sys (s_world s0) (s_threads s0 ++ [call_prog S (CAlias me b)]))) as [A B].
      - apply step_call. exists (CAlias me b). split; [exact I|reflexivity].
      - apply (reach_early _ _ H0), world0_early.
      - split; [|exact A]. apply phase_before; [|exact B]. cbn. unfold n. by rewrite lookup_app_r, Nat.sub_diag by lia. }
    assert (phase n s) as Hf.
    { clear Hn. remember (Sys (s_world s0) (s_threads s0 ++ [call_prog S (CAlias me b)])) as s1 eqn:Es.
      assert (Forall ticking (s_threads s1)) as Ht1 by (by rewrite Es). clear Es Ht H0. induction H1 as [|x y z Hxy _ IH]; [exact Hp|].
      apply IH; [by eapply step_phase|].
      destruct Hxy as [i x y Hi|p x (c & _ & ->)].
      - apply tick_some in Hi as (g & f & kk & E & Hg & ->). cbn. apply Forall_insert; [exact Ht1|]. by apply (Forall_lookup_1 _ _ _ _ Ht1 E _ Hg).
      - cbn. apply Forall_app. split; [exact Ht1|]. constructor; [apply call_ticking|constructor]. }
    destruct Hf as [Hm _|r p Hm Hq Hr|_ _ _ Hm].
    - rewrite Hn in Hm. discriminate.
    - rewrite Hn in Hm. injection Hm as <-. destruct Hq as [Hq|[Hq|Hq]]; try discriminate. injection Hq as <-. by destruct Hr.
    - destruct Hm as [Hm|[Hm|[_ Hm]]]; [rewrite Hn in Hm; discriminate..|exact Hm].
  Qed.

  (** The process itself stays. *)
  Definition stays (w w' : world) : Prop := is_Some (w_loc w !! me) -> is_Some (w_loc w' !! me).
  Lemma does_stays a w : (forall i, a = AGone i -> i <> me) -> stays w (does S a w).
  Proof.
    unfold stays. intros Ha Hw.
    assert (forall i x w, is_Some (w_loc w !! me) -> is_Some (w_loc (push i x w) !! me)) as Hpush.
    { intros i x w1 H. unfold push. destruct (w_loc w1 !! i); [|done]. cbn. apply lookup_insert_is_Some'. auto. }
    assert (forall p f y w, is_Some (w_loc w !! me) -> is_Some (w_loc (exit_op p f y w) !! me)) as Hexit.
    { intros p f y w1 H. unfold exit_op. repeat case_match; cbn; auto. }
    destruct a; cbn [does]; try exact Hw; try (cbn; by rewrite lookup_alter_is_Some).
    - unfold receive_op. destruct (w_loc w !! me0) as [l|]; [|done]. destruct (select S T f b0 l). cbn. apply lookup_insert_is_Some'. auto.
    - unfold alias_take_op. by repeat case_match.
    - by apply Hpush.
    - unfold send_to. case_match; [by apply Hpush|done].
    - unfold node_register_op, spawn_op. repeat case_match; cbn; simplify_eq; try exact Hw; cbn; apply lookup_insert_is_Some'; auto.
    - unfold send_frame, hand_out. by repeat case_match.
    - cbn. apply lookup_insert_is_Some'. auto.
    - unfold register_op. by repeat case_match.
    - by apply Hexit.
    - unfold exit_linked_op. repeat case_match; cbn; auto.
    - cbn. apply lookup_delete_is_Some. split; [|done]. by apply Ha.
    - unfold node_start_op, spawn_op. repeat case_match; cbn; simplify_eq; try exact Hw. cbn. apply lookup_insert_is_Some'. auto.
    - unfold node_disconnect_op. repeat case_match; cbn; auto.
    - unfold node_accept_op. repeat case_match; cbn; auto.
    - unfold node_workers_op, hand_out. by repeat case_match.
    - unfold sup_down_op. by repeat case_match.
  Qed.
  Lemma call_stays c : leaves_alias k me b c -> guar stays (call_prog S c).
  Proof.
    intros Hc. eapply guar_mono; [|apply call_fp]. intros x y (a & Ha & ->). apply does_stays. intros i ->.
    destruct c; cbn in Ha, Hc; try done; try (by subst); try (repeat case_match; done).
    all: try (by destruct Ha).
    destruct Ha as [Ha|[]]. cbn in Ha. by subst.
  Qed.
  Lemma owner_stays s0 s :
    reach (calls_of S (leaves_alias k me b)) (Sys world0 []) s0 ->
    reach (calls_of S (leaves_alias k me b)) (Sys (s_world s0) (s_threads s0 ++ [call_prog S (CAlias me b)])) s ->
    is_Some (w_loc (s_world s0) !! me) -> is_Some (w_loc (s_world s) !! me).
  Proof.
    intros H0 H1. assert (forall p, calls_of S (leaves_alias k me b) p -> guar stays p) as Hapi by (intros p (c & Hc & ->); by apply call_stays).
    assert (Forall (guar stays) (s_threads s0)) as Hf by (apply (reach_guar_threads _ _ (Sys world0 []) s0 Hapi (Forall_nil_2 _) H0)).
    refine (proj1 (reach_guar stays _ _ s _ _ Hapi _ H1)); unfold stays; auto.
    cbn. apply Forall_app. split; [exact Hf|]. constructor; [by apply (call_stays (CAlias me b))|constructor].
  Qed.
End keep.
