(** The notices of a monitor are about what was monitored: proofs. *)
From stdpp Require Import base list gmap numbers strings countable sorting relations.
From Coq Require Import Lia.
From Verif Require Import Prog ProgProofs ProgInv Types Mailbox World ProcApi NodeApi Api Steps Hist Labels SchedSpec SchedProofs ProcProofs Once.

(** What a reference was handed out for. *)
Inductive use := UOther | UProcess (o : N) (d : dest) | UNode (o : N) (nd : node).

Section notice.
  Context (S : serde) (k : N).
  Notation r0 := (RLocal k).
  Definition names (e : use) (o : N) (x : item) : Prop :=
    match x with
    | IProcessDown d r _ => r = r0 -> e = UProcess o d
    | INodeDown n r => r = r0 -> e = UNode o n
    | ISystem (SExit _ _) => True
    | ISystem _ => False
    | _ => True
    end.
  Definition nfits (e : use) (nd : node) (x : nmonitor) : Prop :=
    match x with NMNode i => e = UNode i nd | NMProcess i d => e = UProcess i d | NMCleanup _ => False end.
  Definition mfits (e : use) (x : pid * option dest) : Prop := exists d, snd x = Some d /\ e = UProcess (pid_id (fst x)) d.
  Record fits (e : use) (w : world) : Prop := Fits {
    ft_log : forall o x, (o, x) ∈ w_log w -> names e o x;
    ft_mons : forall i t x, w_mons w !! i = Some t -> t !! r0 = Some x -> mfits e x;
    ft_nmons : forall nd t x, w_nmons w !! nd = Some t -> t !! r0 = Some x -> nfits e nd x }.
  Definition J (w : world) (x : option use) : Prop :=
    match x with None => (w_next_ref w <= k)%N /\ fits UOther w | Some e => (k < w_next_ref w)%N /\ fits e w end.

  (** ** Steps *)
  Definition keeps (w w' : world) : Prop :=
    (w_next_ref w <= w_next_ref w')%N /\ forall e, fits e w -> fits e w'.
  Lemma keeps_refl w : keeps w w. Proof. split; [lia|done]. Qed.
  Lemma keeps_trans a b c : keeps a b -> keeps b c -> keeps a c.
  Proof. intros [H1 H2] [H3 H4]. split; [lia|auto]. Qed.
  Lemma keeps_J w w' x : keeps w w' -> J w x -> exists x', J w' x' /\ known x x'.
  Proof.
    intros [H1 H2]. destruct x as [e|]; cbn; intros [H3 H4]; [exists (Some e); cbn; split; [split; [lia|auto]|done]|].
    destruct (decide (w_next_ref w' <= k)%N); [exists None|exists (Some UOther)]; cbn; (split; [split; [lia|auto]|apply known_none]).
  Qed.
  Lemma keeps_same w w' : (w_next_ref w <= w_next_ref w')%N -> w_log w' = w_log w -> w_mons w' = w_mons w -> w_nmons w' = w_nmons w -> keeps w w'.
  Proof. intros H0 H1 H2 H3. split; [done|]. intros e [F1 F2 F3]. split; rewrite ?H1, ?H2, ?H3; done. Qed.
  Lemma fits_push e o x w : fits e w -> names e o x -> fits e (push o x w).
  Proof.
    intros [F1 F2 F3] Hx. unfold push. destruct (w_loc w !! o); [|done]. split; [|done..].
    cbn. intros o' x' H. apply elem_of_app in H as [H|H]; [auto|]. apply elem_of_list_singleton in H as [= -> ->]. done.
  Qed.
  Lemma push_ref o x w : w_next_ref (push o x w) = w_next_ref w.
  Proof. unfold push. by destruct (w_loc w !! o). Qed.
  Lemma keeps_push o x w : (forall e, names e o x) -> keeps w (push o x w).
  Proof. intros Hx. split; [rewrite push_ref; lia|]. intros e Hf. by apply fits_push. Qed.
  Definition mute (x : item) : Prop :=
    match x with IProcessDown _ r _ | INodeDown _ r => r <> r0 | ISystem (SExit _ _) => True | ISystem _ => False | _ => True end.
  Lemma mute_names x : mute x -> forall e o, names e o x.
  Proof. destruct x as [| |[]| | | |]; cbn; done. Qed.
  Definition calm (a : act) : Prop :=
    match a with
    | APush _ x | ASendTo _ x => mute x
    | AAddMon _ r _ _ | AAddNmon _ r _ => r <> r0
    | _ => True
    end.
  Lemma keeps_exit p f y w : keeps w (exit_op p f y w).
  Proof.
    assert (keeps w (push (pid_id p) (ISystem (SExit f y)) w)) as Hp by (apply keeps_push; done).
    unfold exit_op. repeat case_match; try apply keeps_refl; try exact Hp; apply keeps_same; cbn; done || lia.
  Qed.
  Lemma keeps_exit_linked p f y w : keeps w (exit_linked_op p f y w).
  Proof.
    assert (keeps w (push (pid_id p) (ISystem (SExit f y)) w)) as Hp by (apply keeps_push; done).
    unfold exit_linked_op. repeat case_match; try apply keeps_refl; try exact Hp; apply keeps_same; cbn; done || lia.
  Qed.
  Ltac ksame := apply keeps_same; cbn; first [reflexivity | lia].
  Lemma calm_keeps a w : calm a -> keeps w (does S a w).
  Proof.
    destruct a; cbn [does calm]; intros Ha; try apply keeps_refl; try (by ksame).
    - unfold receive_op. destruct (w_loc w !! me) as [l|]; [|apply keeps_refl]. destruct (select S T f b l). ksame.
    - unfold alias_take_op. repeat case_match; ksame.
    - apply keeps_push. intros. by apply mute_names.
    - unfold send_to. destruct (w_regs w !! i); [apply keeps_push; intros; by apply mute_names | apply keeps_refl].
    - unfold node_register_op, spawn_op. repeat case_match; simplify_eq; ksame.
    - unfold send_frame, hand_out. repeat case_match; ksame.
    - unfold register_op. repeat case_match; ksame.
    - apply keeps_exit.
    - apply keeps_exit_linked.
    - split; [cbn; lia|]. intros e [F1 F2 F3]. split; [done| |done]. cbn. intros j t x H1 H2. destruct (decide (i = j)) as [<-|Hne].
      + rewrite lookup_insert in H1. injection H1 as <-. rewrite lookup_insert_ne in H2 by done.
        destruct (w_mons w !! i) as [t|] eqn:E; cbn in H2; [eauto|by rewrite lookup_empty in H2].
      + rewrite lookup_insert_ne in H1 by done. eauto.
    - split; [cbn; lia|]. intros e [F1 F2 F3]. split; [done| |done]. cbn. intros j t x H1 H2.
      destruct (decide (i = j)) as [<-|Hne]; [|rewrite lookup_alter_ne in H1 by done; eauto].
      rewrite lookup_alter in H1. apply fmap_Some in H1 as (t' & H1 & ->). apply lookup_delete_Some in H2 as [_ H2]. eauto.
    - split; [cbn; lia|]. intros e [F1 F2 F3]. split; [done| |done]. cbn. intros j t x H1 H2. apply lookup_delete_Some in H1 as [_ H1]. eauto.
    - split; [cbn; lia|]. intros e [F1 F2 F3]. split; [done|done|]. cbn. intros j t x H1 H2. destruct (decide (n = j)) as [<-|Hne].
      + rewrite lookup_insert in H1. injection H1 as <-. rewrite lookup_insert_ne in H2 by done.
        destruct (w_nmons w !! n) as [t|] eqn:E; cbn in H2; [eauto|by rewrite lookup_empty in H2].
      + rewrite lookup_insert_ne in H1 by done. eauto.
    - split; [cbn; lia|]. intros e [F1 F2 F3]. split; [done|done|]. cbn. intros j t x H1 H2.
      destruct (decide (n = j)) as [<-|Hne]; [|rewrite lookup_alter_ne in H1 by done; eauto].
      rewrite lookup_alter in H1. apply fmap_Some in H1 as (t' & H1 & ->). apply lookup_delete_Some in H2 as [_ H2]. eauto.
    - split; [cbn; lia|]. intros e [F1 F2 F3]. split; [done|done|]. cbn. intros j t x H1 H2.
      destruct (decide (n = j)) as [<-|Hne]; [|rewrite lookup_alter_ne in H1 by done; eauto].
      rewrite lookup_alter in H1. apply fmap_Some in H1 as (t' & H1 & ->). eapply F3; [exact H1|].
      clear H1. induction l as [|y l IH]; cbn in H2; [done|]. apply lookup_delete_Some in H2 as [_ H2]. auto.
    - split; [cbn; lia|]. intros e [F1 F2 F3]. split; [done|done|]. cbn. intros j t x H1 H2. apply lookup_delete_Some in H1 as [_ H1]. eauto.
    - unfold node_start_op, spawn_op. repeat case_match; simplify_eq; ksame.
    - unfold node_disconnect_op. case_match; [|apply keeps_refl]. case_match; [|apply keeps_refl]. case_match; [|ksame].
      eapply keeps_trans; [apply (keeps_same w (up_pend (delete n) w)); cbn; first [reflexivity | lia]|].
      eapply keeps_trans; [apply (keeps_exit p0 p RKill (up_pend (delete n) w))|]. ksame.
    - unfold node_accept_op. case_match; [|ksame]. case_match; [|ksame].
      match goal with |- context [if bool_decide _ then ?x else w] => set (w1 := if bool_decide (n_state n1 = Pending) then x else w) end.
      assert (keeps w w1) as H1.
      { unfold w1. repeat case_match; try apply keeps_refl. apply keeps_exit. }
      clearbody w1. eapply keeps_trans; [exact H1|]. case_match; [|ksame]. ksame.
    - unfold node_workers_op, hand_out. repeat case_match; ksame.
    - unfold sup_down_op. repeat case_match; ksame.
  Qed.

  (** ** Programs *)
  Notation kn := (once J).
  Notation anyQ := (fun _ _ => True).
  Lemma n_guar {A} (F : act -> Prop) st (p : prog world A) : (forall a, F a -> calm a) -> guar (lstep S F) p -> kn anyQ st p.
  Proof. intros HF Hp. eapply once_guar; [|exact Hp]. intros w x w' Hj (a & Ha & ->). eapply keeps_J; [|exact Hj]. by apply calm_keeps, HF. Qed.
  (** A step that changes nothing of interest; what the thread knows stays. *)
  Lemma n_atom {A} (Q : option use -> A -> Prop) st (op : world -> world * A) :
    (forall w, keeps w (fst (op w))) -> (forall w x st', J w x -> known st st' -> known st' x -> Q st' (snd (op w))) -> kn Q st (atom op).
  Proof.
    intros Hk HQ. apply once_atom. intros w x Hj Hx. destruct (keeps_J _ _ _ (Hk w) Hj) as (x' & H1 & H2).
    exists x', st. split_and!; [done|done|done|by eapply known_trans|]. by eapply HQ.
  Qed.
  (** A step at which the thread learns what there is to know. *)
  Lemma n_learn {A} (Q : option use -> A -> Prop) st (op : world -> world * A) :
    (forall w, keeps w (fst (op w))) -> (forall w x, J w x -> known st x -> Q x (snd (op w))) -> kn Q st (atom op).
  Proof.
    intros Hk HQ. apply once_atom. intros w x Hj Hx. destruct (keeps_J _ _ _ (Hk w) Hj) as (x' & H1 & H2).
    exists x', x. split_and!; [done|done|done|done|]. by eapply HQ.
  Qed.
  Lemma n_act {A} (Q : option use -> A -> Prop) st a (op : world -> world * A) : calm a -> (forall w, fst (op w) = does S a w) ->
    (forall st' v, Q st' v) -> kn Q st (atom op).
  Proof. intros Ha He HQ. apply n_atom; [intros w; rewrite He; by apply calm_keeps|]. intros. apply HQ. Qed.
  Lemma n_observe {A} st (f : world -> A) : kn anyQ st (observe f).
  Proof. apply n_atom; [intros; apply keeps_refl|done]. Qed.
  (** A notice, sent by one who knows. *)
  Definition may (st : option use) (o : N) (x : item) : Prop := mute x \/ exists e, st = Some e /\ names e o x.
  Lemma may_known st st' o x : known st st' -> may st o x -> may st' o x.
  Proof. intros H [H1|(e & H1 & H2)]; [by left|]. right. exists e. split; [by apply H|done]. Qed.
  Lemma J_push w x o y st : J w x -> known st x -> may st o y -> J (push o y w) x.
  Proof.
    intros Hj Hx [Hm|(e & -> & Hn)].
    - destruct x as [e|]; cbn in *; rewrite push_ref; (split; [tauto|]); apply fits_push; try tauto; by apply mute_names.
    - specialize (Hx e eq_refl). subst x. cbn in *. rewrite push_ref. split; [tauto|]. apply fits_push; tauto.
  Qed.
  Lemma n_push st o y : may st o y -> kn anyQ st (modify (push o y)).
  Proof. intros Hm. apply once_atom. intros w x Hj Hx. exists x, st. split_and!; try done. by eapply J_push. Qed.
  Lemma n_send st o y : may st o y -> kn anyQ st (modify (send_to o y)).
  Proof.
    intros Hm. apply once_atom. intros w x Hj Hx. exists x, st. split_and!; try done. cbn. unfold send_to. destruct (w_regs w !! o); [by eapply J_push|done].
  Qed.
  Lemma n_alias_destroy st r : kn anyQ st (do! alias_destroy r in Ret tt).
  Proof. eapply (once_bind _ anyQ); [|cbn; done]. unfold alias_destroy, alias_destroy_op. by apply (n_act _ _ (AAliasDelete (ref_id r))). Qed.
  Lemma n_frame st f i : kn anyQ st (modify (send_frame f i)).
  Proof. by apply (n_act _ _ (ASendFrame f i)). Qed.
  Lemma n_node_register st nd c : kn anyQ st (node_register nd c).
  Proof. destruct nd as [|name addr]; [exact I|]. by apply (n_act _ _ (ANodeRegister name addr c)). Qed.
  (** The reference may be used for [e]. *)
  Definition right (st : option use) (r : reference) (e : use) : Prop := r = r0 -> st = Some e.
  Lemma right_known st st' r e : known st st' -> right st r e -> right st' r e.
  Proof. intros H Hr E. apply H, Hr, E. Qed.
  Lemma right_may st r o d why : right st r (UProcess o d) -> may st o (IProcessDown d r why).
  Proof. intros H. destruct (decide (r = r0)) as [->|Hne]; [|by left]. right. exists (UProcess o d). split; [by apply H|done]. Qed.
  (** A new reference, for [e]. *)
  Lemma n_fresh st e : kn (fun st' r => right st' r e) st fresh_ref.
  Proof.
    apply once_atom. intros w x Hj Hx. cbn. destruct (decide (w_next_ref w = k)) as [Ek|Hne].
    - destruct x as [e'|]; cbn in Hj; [lia|]. exists (Some e), (Some e). split_and!; try done; [|by intros a Ha; specialize (Hx a Ha)].
      cbn. split; [lia|]. destruct Hj as [_ [F1 F2 F3]]. split.
      + intros o y H. specialize (F1 _ _ H). destruct y as [| |[]| | | |]; cbn in F1 |- *; try done; intros E; by specialize (F1 E).
      + intros i t y H1 H2. destruct (F2 _ _ _ H1 H2) as (? & _ & ?). done.
      + intros nd t y H1 H2. specialize (F3 _ _ _ H1 H2). by destruct y.
    - destruct (keeps_J w (up_next_ref N.succ w) x) as (x' & H1 & H2); [|done|].
      { apply keeps_same; cbn; done || lia. }
      exists x', st. split_and!; [done|done|done|by eapply known_trans|]. intros E. congruence.
  Qed.
  Lemma J_add_mon w x i r o d st : J w x -> known st x -> right st r (UProcess o d) -> J (add_mon i r (PLocal o) (Some d) w) x.
  Proof.
    intros Hj Hx Hr. assert (forall e, x = Some e \/ (x = None /\ e = UOther) -> fits e w -> fits e (add_mon i r (PLocal o) (Some d) w)) as Hf.
    { intros e He [F1 F2 F3]. split; [done| |done]. cbn. intros j t y H1 H2. destruct (decide (i = j)) as [<-|Hne]; [|rewrite lookup_insert_ne in H1 by done; eauto].
      rewrite lookup_insert in H1. injection H1 as <-. destruct (decide (r = r0)) as [->|Hne].
      - rewrite lookup_insert in H2. injection H2 as <-. exists d. split; [done|]. cbn. specialize (Hx _ (Hr eq_refl)). destruct He as [He|[He _]]; congruence.
      - rewrite lookup_insert_ne in H2 by done. destruct (w_mons w !! i) as [t|] eqn:E; cbn in H2; [eauto|by rewrite lookup_empty in H2]. }
    destruct x as [e|]; cbn in *; (split; [tauto|]); apply Hf; tauto.
  Qed.
  Lemma n_add_mon st i r o d : right st r (UProcess o d) -> kn anyQ st (modify (add_mon i r (PLocal o) (Some d))).
  Proof. intros Hr. apply once_atom. intros w x Hj Hx. exists x, st. split_and!; try done. by eapply J_add_mon. Qed.
  Lemma J_add_nmon w x nd r y st : J w x -> known st x -> (r = r0 -> exists e, st = Some e /\ nfits e nd y) -> J (add_nmon nd r y w) x.
  Proof.
    intros Hj Hx Hr. assert (forall e, x = Some e \/ (x = None /\ e = UOther) -> fits e w -> fits e (add_nmon nd r y w)) as Hf.
    { intros e He [F1 F2 F3]. split; [done|done|]. cbn. intros j t z H1 H2. destruct (decide (nd = j)) as [<-|Hne]; [|rewrite lookup_insert_ne in H1 by done; eauto].
      rewrite lookup_insert in H1. injection H1 as <-. destruct (decide (r = r0)) as [->|Hne].
      - rewrite lookup_insert in H2. injection H2 as <-. destruct (Hr eq_refl) as (e' & H3 & H4). specialize (Hx _ H3). destruct He as [He|[He _]]; congruence.
      - rewrite lookup_insert_ne in H2 by done. destruct (w_nmons w !! nd) as [t|] eqn:E; cbn in H2; [eauto|by rewrite lookup_empty in H2]. }
    destruct x as [e|]; cbn in *; (split; [tauto|]); apply Hf; tauto.
  Qed.
  Lemma n_add_nmon st nd r y : (r = r0 -> exists e, st = Some e /\ nfits e nd y) -> kn anyQ st (modify (add_nmon nd r y)).
  Proof. intros Hr. apply once_atom. intros w x Hj Hx. exists x, st. split_and!; try done. by eapply J_add_nmon. Qed.
  Lemma n_own st me f : kn anyQ st (own me f).
  Proof. apply n_atom; [|done]. intros. by apply keeps_same. Qed.
  (** ** Monitoring *)
  Lemma n_self_down st me d r why : right st r (UProcess me d) -> kn anyQ st (self_down me d r why).
  Proof. intros H. eapply (once_bind _ anyQ); [by apply n_push, right_may|]. intros. apply n_alias_destroy. Qed.
  Lemma n_monitor_local st me i r d : right st r (UProcess me d) -> kn anyQ st (monitor_local me i r d).
  Proof.
    intros H. eapply (once_bind _ anyQ); [apply n_observe|]. intros st' [|] Hs _; [apply n_add_mon|apply n_self_down]; by eapply right_known.
  Qed.
  Lemma n_monitor_remote st me name addr r d i s : right st r (UProcess me d) -> kn anyQ st (monitor_remote me name addr r d i s).
  Proof.
    intros H. unfold monitor_remote. eapply (once_bind _ anyQ).
    { apply n_add_nmon. intros ->. exists (UProcess me d). split; [by apply H|done]. }
    intros. eapply (once_bind _ anyQ); [apply n_node_register|]. intros. apply n_frame.
  Qed.
  Lemma n_monitor_install st me d r : right st r (UProcess me d) -> kn anyQ st (monitor_install me d r).
  Proof.
    intros H. destruct d as [p|s [|name addr]|a]; cbn [monitor_install]; [| | |exact I].
    - destruct (decide (p = PLocal me)); [exact I|]. eapply (once_bind _ anyQ); [apply n_own|]. intros st1 _ H1 _. pose proof (right_known _ _ _ _ H1 H) as Hr1.
      destruct p as [i|i j]; cbn [pid_is_local pid_id]; [by apply n_monitor_local|].
      eapply (once_bind _ anyQ); [apply n_observe|]. intros st2 [[name addr]|] H2 _; [apply n_monitor_remote|apply n_self_down]; by eapply right_known.
    - eapply (once_bind _ anyQ); [apply n_observe|]. intros st1 [i|] H1 _; pose proof (right_known _ _ _ _ H1 H) as Hr1;
        (eapply (once_bind _ anyQ); [apply n_own|]); intros st2 _ H2 _; [apply n_monitor_local|apply n_self_down]; by eapply right_known.
    - eapply (once_bind _ anyQ); [apply n_own|]. intros st1 _ H1 _. apply n_monitor_remote. by eapply right_known.
  Qed.
  (** What the value a call returns says about the reference. *)
  Definition returns (me : N) (d : dest) (st : option use) (r : reference) : Prop := right st r (UProcess me d).
  Lemma once_keep {A} (Q : option use -> A -> Prop) (P : option use -> Prop) st (p : prog world A) : (forall st st', known st st' -> P st -> P st') ->
    P st -> kn Q st p -> kn (fun st' a => P st' /\ Q st' a) st p.
  Proof.
    intros HP. revert st. induction p as [a|m|g f kk IH]; intros st H0 Hp; cbn in *; auto.
    intros w x Hg Hj Hx. destruct (Hp w x Hg Hj Hx) as (x' & st' & H1 & H2 & H3 & H4 & H5). exists x', st'. split_and!; try done. apply IH; [by eapply HP|done].
  Qed.
  Lemma n_monitor st me d : kn (fun st' r => right st' r (UProcess me d)) st (monitor me d).
  Proof.
    eapply once_bind; [apply (n_fresh _ (UProcess me d))|]. intros st1 r H1 Hr.
    eapply (once_bind _ (fun st' _ => right st' r (UProcess me d) /\ True)); [|by intros st2 _ _ [H _]].
    apply (once_keep anyQ (fun st => right st r (UProcess me d))); [intros; by eapply right_known|done|by apply n_monitor_install].
  Qed.
  Lemma n_monitor_alias st me d b : kn (fun st' r => right st' r (UProcess me d)) st (monitor_alias me d b).
  Proof.
    eapply once_bind; [apply (n_fresh _ (UProcess me d))|]. intros st1 r H1 Hr.
    eapply (once_bind _ (fun st' _ => right st' r (UProcess me d) /\ True)).
    { apply (once_keep anyQ (fun st => right st r (UProcess me d))); [intros; by eapply right_known|done|]. by apply (n_act _ _ (AAliasCreate me r b)). }
    intros st2 _ _ [Hr2 _].
    eapply (once_bind _ (fun st' _ => right st' r (UProcess me d) /\ True)); [|by intros st3 _ _ [H _]].
    apply (once_keep anyQ (fun st => right st r (UProcess me d))); [intros; by eapply right_known|done|by apply n_monitor_install].
  Qed.
  Lemma n_spawn st me l b : kn (fun st' x => match snd x with Some r => right st' r (UProcess me (DPid (fst x))) | None => True end) st (spawn me l b).
  Proof.
    unfold spawn. eapply (once_bind _ anyQ); [apply n_atom; [intros; by apply keeps_same|done]|]. intros st1 i _ _.
    eapply (once_bind _ anyQ).
    { destruct l; [|exact I]. eapply (once_bind _ anyQ); [by apply (n_act _ _ (AAddLink i (PLocal me)))|]. intros. by apply (n_act _ _ (AAddLink me (PLocal i))). }
    intros st2 _ _ _. eapply (once_bind _ (fun st' r => match r with Some r => right st' r (UProcess me (DPid (PLocal i))) | None => True end)).
    { destruct b; [|exact I]. eapply once_bind; [apply (n_fresh _ (UProcess me (DPid (PLocal i))))|]. intros st3 r _ Hr.
      eapply (once_bind _ (fun st' _ => right st' r (UProcess me (DPid (PLocal i))) /\ True)).
      { apply (once_keep anyQ (fun st => right st r _)); [intros; by eapply right_known|done|apply n_own]. }
      intros st4 _ _ [Hr4 _]. eapply (once_bind _ (fun st' _ => right st' r (UProcess me (DPid (PLocal i))) /\ True)); [|by intros ? ? ? [? _]].
      apply (once_keep anyQ (fun st => right st r _)); [intros; by eapply right_known|done|by apply n_add_mon]. }
    intros st3 r _ Hr.
    set (P := fun st' => match r with Some r => right st' r (UProcess me (DPid (PLocal i))) | None => True end).
    assert (forall st st', known st st' -> P st -> P st') as HP by (unfold P; intros; destruct r; [by eapply right_known|done]).
    eapply (once_bind _ (fun st' _ => P st' /\ True)); [apply (once_keep anyQ P); [done|done|by apply (n_act _ _ (ARunning i))]|]. intros st4 _ _ [Hr4 _].
    eapply (once_bind _ (fun st' _ => P st' /\ True)); [apply (once_keep anyQ P); [done|done|by apply (n_act _ _ (AInsert i))]|]. intros st5 _ _ [Hr5 _].
    exact Hr5.
  Qed.
  Lemma n_node_monitor st me nd : kn (fun st' r => right st' r (UNode me nd)) st (node_monitor me nd).
  Proof.
    destruct nd as [|name addr]; [exact I|]. cbn [node_monitor]. eapply once_bind; [apply (n_fresh _ (UNode me (NRemote name addr)))|]. intros st1 r _ Hr.
    set (P := fun st' => right st' r (UNode me (NRemote name addr))).
    assert (forall st st', known st st' -> P st -> P st') as HP by (unfold P; intros; by eapply right_known).
    eapply (once_bind _ (fun st' _ => P st' /\ True)); [apply (once_keep anyQ P); [done|done|apply n_own]|]. intros st2 _ _ [H2 _].
    eapply (once_bind _ (fun st' _ => P st' /\ True)); [apply (once_keep anyQ P); [done|done|]|].
    { apply n_add_nmon. intros ->. eexists. split; [by apply H2|done]. }
    intros st3 _ _ [H3 _].
    eapply (once_bind _ (fun st' _ => P st' /\ True)); [apply (once_keep anyQ P); [done|done|apply n_node_register]|]. intros st4 _ _ [H4 _]. exact H4.
  Qed.
  (** ** Ends *)
  Lemma n_monitor_process_down st p why : kn anyQ st (monitor_process_down p why).
  Proof.
    unfold monitor_process_down.
    eapply (once_bind _ (fun st' ms => forall t x, ms = Some t -> t !! r0 = Some x -> exists e, st' = Some e /\ mfits e x)).
    { apply n_learn; [intros w; apply (calm_keeps (AMonsDelete (pid_id p)) w); exact I|]. intros w x Hj Hx t y H1 H2. cbn in H1.
      destruct x as [e|]; cbn in Hj; destruct Hj as [_ [F1 F2 F3]]; [exists e; split; [done|eauto]|]. destruct (F2 _ _ _ H1 H2) as (? & _ & ?). done. }
    intros st1 [t|] _ Ht; [|exact I]. eapply (once_bind _ anyQ).
    - apply once_each. intros [r [q d]] st2 Hx Hs. apply sorted_refs_elem in Hx. cbn [fst snd]. eapply (once_bind _ anyQ).
      + destruct (pid_is_local q) eqn:Eq; [|exact I]. destruct d as [d|].
        * apply n_send, right_may. intros ->. destruct (Ht t _ eq_refl Hx) as (e & He & d' & Hd & ->). cbn in Hd. injection Hd as <-. by apply Hs.
        * eapply (once_bind _ anyQ); [apply n_observe|]. intros ? [|] _ _; exact I.
      + intros. destruct (ref_is_local r); [apply n_alias_destroy|exact I].
    - intros. apply once_each. intros g st3 _ _. eapply (once_bind _ anyQ); [apply n_observe|].
      intros st4 [[name addr]|] _ _; (eapply (once_bind _ anyQ); [|intros; apply n_frame]); [|exact I].
      by apply (n_act _ _ (ADelNmons (NRemote name addr) (map fst g.2))).
  Qed.
  Lemma n_link_process_down st p why : kn anyQ st (link_process_down p why).
  Proof.
    unfold link_process_down. eapply (once_bind _ anyQ); [by apply (n_act _ _ (ALinksDelete (pid_id p)))|]. intros st1 [ls|] _ _; [|exact I].
    eapply (once_bind _ anyQ).
    - apply once_each. intros q st2 _ _. eapply (once_bind _ anyQ); [by apply (n_act _ _ (ADelLink (pid_id q) p))|]. intros. by apply (n_act _ _ (AExitLinked q p why)).
    - intros. apply once_each. intros g st3 _ _. eapply (once_bind _ anyQ); [apply n_observe|].
      intros st4 [[name addr]|] _ _; (eapply (once_bind _ anyQ); [|intros; apply n_frame]); [|exact I].
      apply n_atom; [|done]. intros w. by apply keeps_same.
  Qed.
  Lemma n_finish st i : kn anyQ st (drop_process i).
  Proof.
    unfold drop_process. eapply (once_bind _ anyQ); [by apply (n_act _ _ (ARegDelete i))|]. intros st0 [r|] _ _.
    - eapply (once_bind _ anyQ); [destruct (r_name r) as [nm|]; [by apply (n_act _ _ (ANameDelete nm))|exact I]|].
      intros. eapply (once_bind _ anyQ); [apply n_link_process_down|]. intros. eapply (once_bind _ anyQ); [apply n_monitor_process_down|].
      intros. eapply (once_bind _ anyQ); [apply n_observe|]. intros st4 l _ _. eapply (once_bind _ anyQ).
      { apply once_each. intros [r' x] st5 _ _. cbn [fst snd]. destruct x as [[p|]|nd]; [|exact I|].
        - eapply (once_bind _ anyQ).
          + destruct (pid_is_local p); [|apply n_frame]. by apply (n_act _ _ (ADelMon (pid_id p) r')).
          + intros. destruct (ref_is_local r'); [apply n_alias_destroy|exact I].
        - eapply (once_bind _ anyQ); [by apply (n_act _ _ (ADelNmon nd r'))|]. intros. destruct (ref_is_local r'); [apply n_alias_destroy|exact I]. }
      intros. eapply (once_bind _ anyQ).
      + apply once_each. intros y st5 _ _. apply n_atom; [intros; by apply keeps_same|done].
      + intros. apply n_atom; [intros; by apply keeps_same|done].
    - eapply (once_bind _ anyQ); [by apply (n_act _ _ (AGone i))|]. done.
  Qed.
  Lemma n_crash st i why : kn anyQ st (crash i why).
  Proof. unfold crash. eapply (once_bind _ anyQ); [by apply (n_act _ _ (ASetExit i why))|]. intros. apply n_finish. Qed.
  Lemma n_npmd st nd r why : kn anyQ st (node_process_monitor_down nd r why).
  Proof.
    unfold node_process_monitor_down.
    eapply (once_bind _ (fun st' x => forall i d, x = Some (NMProcess i d) -> right st' r (UProcess i d))).
    { apply n_learn; [intros w; apply (calm_keeps (ADelNmon nd r) w); exact I|]. intros w x Hj Hx i d H Er. subst r. cbn in H.
      destruct (w_nmons w !! nd) as [t|] eqn:E; [|done].
      destruct x as [e|]; cbn in Hj; destruct Hj as [_ [F1 F2 F3]]; specialize (F3 _ _ _ E H); cbn in F3; [by subst|done]. }
    intros st1 x _ Hx. eapply (once_bind _ (fun st' _ => (forall i d, x = Some (NMProcess i d) -> right st' r (UProcess i d)) /\ True)).
    { apply (once_keep anyQ (fun st' => forall i d, x = Some (NMProcess i d) -> right st' r (UProcess i d))); [intros ? ? ? Hr ? ? ?; eapply right_known; [done|by apply Hr]|done|].
      unfold alias_destroy, alias_destroy_op. by apply (n_act _ _ (AAliasDelete (ref_id r))). }
    intros st2 _ _ [H2 _]. destruct x as [[|i d|]|]; try exact I. apply n_send, right_may. by apply H2.
  Qed.
  Lemma n_supdown st nd p : kn anyQ st (supervisor_down nd p).
  Proof.
    unfold supervisor_down. eapply (once_bind _ anyQ); [by apply (n_act _ _ (ASupDown nd p))|]. intros st1 [|] _ _; [|exact I]. cbn [negb].
    eapply (once_bind _ anyQ); [by apply (n_act _ _ (ANlinksDelete nd))|]. intros st2 ls _ _. eapply (once_bind _ anyQ).
    { apply once_each. intros [q i] st3 _ _. cbn [fst snd]. eapply (once_bind _ anyQ).
      - unfold link_destroy. cbn [pid_is_local pid_id]. by apply (n_act _ _ (ADelLink i q)).
      - intros. by apply (n_act _ _ (AExitLinked (PLocal i) q (RCustom "noconnection"))). }
    intros st3 _ _ _.
    eapply (once_bind _ (fun st' ms => forall t x, ms = Some t -> t !! r0 = Some x -> exists e, st' = Some e /\ nfits e nd x)).
    { apply n_learn; [intros w; apply (calm_keeps (ANmonsDelete nd) w); exact I|]. intros w x Hj Hx t y H1 H2. cbn in H1.
      destruct x as [e|]; cbn in Hj; destruct Hj as [_ [F1 F2 F3]]; [exists e; split; [done|eauto]|]. specialize (F3 _ _ _ H1 H2). by destruct y. }
    intros st4 ms _ Hms. eapply (once_bind _ anyQ).
    { apply once_each. intros [r x] st5 Hx Hs. apply sorted_refs_elem in Hx. cbn [fst snd]. eapply (once_bind _ anyQ).
      - assert (r = r0 -> exists e, st5 = Some e /\ nfits e nd x) as Hr.
        { intros ->. destruct ms as [t|]; cbn in Hx; [|by rewrite lookup_empty in Hx]. destruct (Hms _ _ eq_refl Hx) as (e & He & Hf). exists e. split; [by apply Hs|done]. }
        destruct x as [i|i d|i].
        + apply n_send. destruct (decide (r = r0)) as [->|Hne]; [|by left]. destruct (Hr eq_refl) as (e & -> & ->). right. eexists. split; [done|]. cbn. done.
        + apply n_send, right_may. intros E. destruct (Hr E) as (e & -> & ->). done.
        + unfold monitor_destroy. cbn [pid_is_local pid_id]. by apply (n_act _ _ (ADelMon i r)).
      - intros. destruct (ref_is_local r); [apply n_alias_destroy|exact I]. }
    intros. apply n_atom; [intros; by apply keeps_same|done].
  Qed.
  (** ** Calls *)
  Definition said (c : call) (st : option use) (v : val) : Prop :=
    match c, v with
    | CMonitor o d, VRef r | CMonitorAlias o d _, VRef r => right st r (UProcess o d)
    | CSpawn o _ _, VPidRef p r => right st r (UProcess o (DPid p))
    | CNodeMonitor o nd, VRef r => right st r (UNode o nd)
    | _, _ => True
    end.
  Lemma n_call c st : kn (said c) st (call_prog S c).
  Proof.
    assert ((forall st v, said c st v) -> (forall a, fp S c a -> calm a) -> kn (said c) st (call_prog S c)) as Hfp.
    { intros H0 H. eapply once_mono; [|eapply n_guar; [exact H|apply call_fp]]. intros; apply H0. }
    destruct c; try (apply Hfp; clear Hfp; [intros ? []; exact I|]; intros a Ha; destruct a; cbn in Ha |- *; try exact I; try done; unfold msg_item, user_item, fp_monitor_alias, fp_crash, fp_exit in *; repeat case_match; naive_solver);
      cbn [call_prog]; unfold ret_as.
    - eapply once_bind; [apply n_spawn|]. cbn. intros st1 [p [r|]] _ Hr; done.
    - eapply once_bind; [apply n_monitor|]. by intros st1 r _ Hr.
    - eapply once_bind; [apply n_monitor_alias|]. by intros st1 r _ Hr.
    - eapply (once_bind _ anyQ); [apply n_finish|done].
    - eapply (once_bind _ anyQ); [apply n_crash|done].
    - eapply once_bind; [apply n_node_monitor|]. by intros st1 r _ Hr.
    - eapply (once_bind _ anyQ); [apply n_supdown|done].
    - eapply (once_bind _ anyQ); [|done]. destruct f; try (unfold receive_frame; exact I).
      all: try (eapply n_guar; [|apply (l_frame S nd sup)]; intros a Ha; destruct a; cbn in Ha |- *; try exact I; try done; repeat case_match; naive_solver).
      cbn [receive_frame]. apply once_each. intros. apply n_npmd.
  Qed.
End notice.
