(** Exit signals come before down notices, in every schedule: proofs. *)
From stdpp Require Import base list gmap numbers strings countable sorting relations.
From Coq Require Import Lia.
From Verif Require Import Prog ProgProofs ProgInv Types Mailbox World ProcApi NodeApi Api Steps Hist Labels SchedSpec SchedProofs ProcProofs Own OrderSpec.

Inductive phase := Spawning | Linking | Noting.
Section order.
  Context (S : serde) (p me : N).
  Definition harmless (o : N) (x : item) : Prop :=
    match x with
    | IProcessDown d _ why => d = DPid (PLocal p) -> why = RCustom "noproc"
    | ISystem (SExit q _) => ~ (q = PLocal p /\ o = me)
    | _ => True
    end.
  Definition mon_ok (i : N) (d : dest) : Prop := match d with DPid q => q = PLocal i | _ => True end.
  Definition nmon_ok (d : dest) : Prop := match d with DPid (PLocal _) => False | _ => True end.
  Record base (w : world) : Prop := Base {
    bs_mons : forall i t r f d, w_mons w !! i = Some t -> t !! r = Some (f, Some d) -> mon_ok i d;
    bs_nmons : forall nd t r i d, w_nmons w !! nd = Some t -> t !! r = Some (NMProcess i d) -> nmon_ok d;
    bs_nlinks : forall nd t q i, w_nlinks w !! nd = Some t -> (q, i) ∈ t -> pid_is_local q = false }.
  Definition unreported (w : world) : Prop := Forall (fun x => ~ end_notice p x) (w_log w).
  Definition there (w : world) : Prop := is_Some (w_regs w !! p).
  Definition J (w : world) (x : option phase) : Prop :=
    base w /\ exits_first p me (w_log w) /\
    match x with
    | None => unreported w /\ ((w_next_pid w <= p)%N /\ ~ there w \/ (p < w_next_pid w)%N /\ there w)
    | Some Noting => (p < w_next_pid w)%N /\ ~ there w
    | Some _ => unreported w /\ (p < w_next_pid w)%N /\ ~ there w
    end.
  (** ** Steps that tell nothing about [p] *)
  Definition calm (w w' : world) : Prop :=
    (exists g, w_log w' = w_log w ++ g /\ Forall (fun x => harmless (fst x) (snd x)) g) /\
    (forall i t' r f d, w_mons w' !! i = Some t' -> t' !! r = Some (f, Some d) ->
       mon_ok i d \/ exists t, w_mons w !! i = Some t /\ t !! r = Some (f, Some d)) /\
    (forall nd t' r i d, w_nmons w' !! nd = Some t' -> t' !! r = Some (NMProcess i d) ->
       nmon_ok d \/ exists t, w_nmons w !! nd = Some t /\ t !! r = Some (NMProcess i d)) /\
    (forall nd t' q i, w_nlinks w' !! nd = Some t' -> (q, i) ∈ t' ->
       pid_is_local q = false \/ exists t, w_nlinks w !! nd = Some t /\ (q, i) ∈ t) /\
    (((p < w_next_pid w)%N <-> (p < w_next_pid w')%N) /\ (there w <-> there w') \/
     (~ (p < w_next_pid w)%N /\ (p < w_next_pid w')%N /\ there w')).
  Lemma harmless_notice o x : harmless o x -> ~ end_notice p (o, x).
  Proof. intros H (r & why & E & Hw). cbn in E. subst x. cbn in H. auto. Qed.
  Lemma harmless_exit o x : harmless o x -> ~ exit_signal p me (o, x).
  Proof. intros H (why & [= -> ->]). cbn in H. tauto. Qed.
  Lemma first_app l g : exits_first p me l -> Forall (fun x => ~ exit_signal p me x) g -> exits_first p me (l ++ g).
  Proof.
    intros Hl Hg i j x y Hi Hj Hx Hy. destruct (decide (j < length l)) as [Hlt|Hge].
    - rewrite lookup_app_l in Hj by done. destruct (decide (i < length l)); [rewrite lookup_app_l in Hi by done; by eapply Hl|lia].
    - rewrite lookup_app_r in Hj by lia. exfalso. by apply (Forall_lookup_1 _ _ _ _ Hg Hj).
  Qed.
  Lemma first_unreported l g : Forall (fun x => ~ end_notice p x) (l ++ g) -> exits_first p me (l ++ g).
  Proof. intros Hl i j x y Hi Hj Hx Hy. exfalso. by apply (Forall_lookup_1 _ _ _ _ Hl Hi). Qed.
  Lemma calm_J w x w' : J w x -> calm w w' -> J w' x.
  Proof.
    intros ([B1 B2 B3] & Ho & Hx) ((g & Eg & Hg) & K2 & K3 & K4 & K5). split; [|split].
    - split; intros; [edestruct K2 as [?|(? & ? & ?)]|edestruct K3 as [?|(? & ? & ?)]|edestruct K4 as [?|(? & ? & ?)]]; eauto.
    - rewrite Eg. apply first_app; [done|]. eapply Forall_impl; [exact Hg|]. intros [o y]. apply harmless_exit.
    - assert (unreported w -> unreported w') as Hu.
      { unfold unreported. rewrite Eg. intros Hu. apply Forall_app. split; [done|]. eapply Forall_impl; [exact Hg|]. intros [o y]. apply harmless_notice. }
      destruct x as [[]|]; destruct K5 as [[K5 K6]|(K5 & K6 & K7)]; try (destruct Hx as [H1 H2]); try (split_and!; tauto).
      split; [auto|]. destruct H2 as [[H2 H3]|[H2 H3]]; [left|right]; split; try tauto. apply N.le_ngt. rewrite <- K5. by apply N.le_ngt.
  Qed.
  Lemma calm_refl w : calm w w.
  Proof. split; [exists []; rewrite app_nil_r; auto|]. split_and!; intros; eauto. all: left; tauto. Qed.
  Lemma calm_same w w' : w_log w' = w_log w -> w_mons w' = w_mons w -> w_nmons w' = w_nmons w -> w_nlinks w' = w_nlinks w ->
    w_next_pid w' = w_next_pid w -> (is_Some (w_regs w !! p) <-> is_Some (w_regs w' !! p)) -> calm w w'.
  Proof. intros H1 H2 H3 H4 H5 H6. split; [exists []; rewrite app_nil_r; auto|]. rewrite H2, H3, H4, H5. split_and!; intros; eauto. all: left; split; [tauto|exact H6]. Qed.
  Lemma calm_trans_same w1 w2 w3 : calm w1 w2 -> w_log w3 = w_log w2 -> w_mons w3 = w_mons w2 -> w_nmons w3 = w_nmons w2 -> w_nlinks w3 = w_nlinks w2 ->
    w_next_pid w3 = w_next_pid w2 -> w_regs w3 = w_regs w2 -> calm w1 w3.
  Proof. intros K H1 H2 H3 H4 H5 H6. unfold calm, there in *. rewrite H1, H2, H3, H4, H5, H6. exact K. Qed.
  Lemma calm_push i x w : harmless i x -> calm w (push i x w).
  Proof.
    intros Hx. unfold push. destruct (w_loc w !! i); [|apply calm_refl]. split; [exists [(i, x)]; split; [done|by repeat constructor]|].
    cbn. split_and!; intros; eauto. all: left; done.
  Qed.
  Lemma dom_insert (m : gmap N registration) i r : is_Some (m !! i) -> is_Some (m !! p) <-> is_Some (<[i := r]> m !! p).
  Proof. intros H. destruct (decide (i = p)) as [->|Hne]; [rewrite lookup_insert|by rewrite lookup_insert_ne]. split; eauto. Qed.
  Lemma dom_alter (m : gmap N registration) i f : is_Some (m !! p) <-> is_Some (alter f i m !! p).
  Proof. destruct (decide (i = p)) as [->|Hne]; [rewrite lookup_alter|by rewrite lookup_alter_ne]. by rewrite fmap_is_Some. Qed.
  Definition mild (a : act) : Prop :=
    match a with
    | APush o x | ASendTo o x => harmless o x
    | AAddMon i _ _ (Some d) => mon_ok i d
    | AAddNmon _ _ (NMProcess _ d) => nmon_ok d
    | AExit q f r => r = RKill \/ ~ (f = PLocal p /\ pid_id q = me)
    | AExitLinked q f r => ~ (f = PLocal p /\ pid_id q = me)
    | AAddNlink _ q _ => pid_is_local q = false
    | AAlloc | ARegDelete _ => False
    | AInsert i => i <> p
    | _ => True
    end.
  Lemma calm_exit q f y w : y = RKill \/ ~ (f = PLocal p /\ pid_id q = me) -> calm w (exit_op q f y w).
  Proof.
    intros Hx. unfold exit_op. assert (y <> RKill -> calm w (push (pid_id q) (ISystem (SExit f y)) w)) as Ht.
    { intros Hy. apply calm_push. cbn. by destruct Hx. }
    destruct (w_regs w !! pid_id q) as [r|] eqn:E; [|apply calm_refl].
    repeat case_match; try apply calm_refl; try (by apply Ht); apply calm_same; try done; apply dom_insert; eauto.
  Qed.
  Lemma calm_exit_linked q f y w : ~ (f = PLocal p /\ pid_id q = me) -> calm w (exit_linked_op q f y w).
  Proof.
    intros Hx. unfold exit_linked_op. destruct (w_regs w !! pid_id q) as [r|] eqn:E; [|apply calm_refl].
    repeat case_match; try apply calm_refl; try (by apply calm_push); apply calm_same; try done; apply dom_insert; eauto.
  Qed.
  Ltac ksame := apply calm_same; cbn; reflexivity.
  Lemma calm_spawned w w1 : calm w w1 -> w_next_pid w1 = w_next_pid w -> w_regs w1 = w_regs w -> calm w (fst (spawn_op w1)).
  Proof.
    intros K En Er. unfold spawn_op. cbn. destruct K as (K1 & K2 & K3 & K4 & _). split; [exact K1|]. cbn. split_and!; try assumption.
    unfold there. cbn. rewrite En, Er. destruct (decide (w_next_pid w = p)) as [->|Hne].
    - right. rewrite lookup_insert. split_and!; [lia|lia|eauto].
    - left. rewrite lookup_insert_ne by done. split; [lia|done].
  Qed.
  Lemma mild_calm a w : mild a -> calm w (does S a w).
  Proof.
    destruct a; cbn [does mild]; intros Ha; try done; try apply calm_refl; try (by ksame).
    - unfold receive_op. destruct (w_loc w !! me0) as [l|]; [|apply calm_refl]. destruct (select S T f b l). ksame.
    - unfold alias_take_op. repeat case_match; ksame.
    - by apply calm_push.
    - unfold send_to. destruct (w_regs w !! i); [by apply calm_push | apply calm_refl].
    - unfold node_register_op. destruct (w_nmap w !! NRemote n a) as [id|]; cbn.
      + destruct c; [|apply calm_refl]. destruct (w_nregs w !! id) as [r|]; [|apply calm_refl]. destruct (n_sup r); [apply calm_refl|].
        pose proof (calm_spawned w w (calm_refl w) eq_refl eq_refl) as K. unfold spawn_op in *. cbn in *. eapply calm_trans_same; [exact K|done..].
      + destruct c.
        * pose proof (calm_spawned w (up_next_node N.succ w)) as K. unfold spawn_op in *. cbn in *.
          eapply calm_trans_same; [apply K; [ksame|done..]|done..].
        * ksame.
    - unfold send_frame, hand_out. repeat case_match; ksame.
    - apply calm_same; try done. cbn. by rewrite lookup_insert_ne.
    - unfold register_op. destruct p0 as [j|]; [|apply calm_refl]. destruct (w_names w !! n) as [j'|]; [destruct (decide (j' = j)); apply calm_refl|].
      destruct (w_regs w !! j) eqn:E; [|apply calm_refl]. destruct (r_name r); [apply calm_refl|]. apply calm_same; try done. apply dom_insert; eauto.
    - apply calm_same; try done. apply dom_alter.
    - apply calm_same; try done. apply dom_alter.
    - apply calm_same; try done. apply dom_alter.
    - by apply calm_exit.
    - by apply calm_exit_linked.
    - split; [exists []; cbn; rewrite app_nil_r; auto|]. split; [|cbn; split_and!; intros; eauto; left; done].
      cbn. intros j t' r' f d' H1 H2. destruct (decide (i = j)) as [<-|Hne].
      + rewrite lookup_insert in H1. injection H1 as <-. destruct (decide (r = r')) as [<-|Hr]; [rewrite lookup_insert in H2; injection H2 as -> ->; by left|].
        rewrite lookup_insert_ne in H2 by done. destruct (w_mons w !! i) as [t|]; cbn in H2; [eauto|by rewrite lookup_empty in H2].
      + rewrite lookup_insert_ne in H1 by done. eauto.
    - split; [exists []; cbn; rewrite app_nil_r; auto|]. split; [|cbn; split_and!; intros; eauto; left; done]. cbn. intros j t' r' f d' H1 H2.
      destruct (decide (i = j)) as [<-|Hne]; [|rewrite lookup_alter_ne in H1 by done; eauto].
      rewrite lookup_alter in H1. apply fmap_Some in H1 as (t & H1 & ->). apply lookup_delete_Some in H2 as [_ H2]. eauto.
    - split; [exists []; cbn; rewrite app_nil_r; auto|]. split; [|cbn; split_and!; intros; eauto; left; done]. cbn. intros j t' r' f d' H1 H2. apply lookup_delete_Some in H1 as [_ H1]. eauto.
    - split; [exists []; cbn; rewrite app_nil_r; auto|]. split; [cbn; eauto|]. split; [cbn; eauto|]. split; [|left; done]. cbn. intros nd t' q j H1 H2.
      destruct (decide (n = nd)) as [<-|Hne]; [|rewrite lookup_insert_ne in H1 by done; eauto].
      rewrite lookup_insert in H1. injection H1 as <-. apply elem_of_union in H2 as [H2|H2]; [apply elem_of_singleton in H2 as [= -> ->]; by left|].
      destruct (w_nlinks w !! n) as [t|]; cbn in H2; [eauto|set_solver].
    - split; [exists []; cbn; rewrite app_nil_r; auto|]. split; [cbn; eauto|]. split; [cbn; eauto|]. split; [|left; done]. cbn. intros nd t' q j H1 H2.
      destruct (decide (n = nd)) as [<-|Hne]; [|rewrite lookup_alter_ne in H1 by done; eauto].
      rewrite lookup_alter in H1. apply fmap_Some in H1 as (t & H1 & ->). right. exists t. split; [done|]. set_solver.
    - split; [exists []; cbn; rewrite app_nil_r; auto|]. split; [cbn; eauto|]. split; [cbn; eauto|]. split; [|left; done]. cbn. intros nd t' q j H1 H2. apply lookup_delete_Some in H1 as [_ H1]. eauto.
    - split; [exists []; cbn; rewrite app_nil_r; auto|]. split; [cbn; eauto|]. split; [cbn|cbn; split_and!; intros; eauto; left; done]. intros j t' r' i d' H1 H2.
      destruct (decide (n = j)) as [<-|Hne].
      + rewrite lookup_insert in H1. injection H1 as <-. destruct (decide (r = r')) as [<-|Hr]; [rewrite lookup_insert in H2; injection H2 as ->; by left|].
        rewrite lookup_insert_ne in H2 by done. destruct (w_nmons w !! n) as [t|]; cbn in H2; [eauto|by rewrite lookup_empty in H2].
      + rewrite lookup_insert_ne in H1 by done. eauto.
    - split; [exists []; cbn; rewrite app_nil_r; auto|]. split; [cbn; eauto|]. split; [cbn|cbn; split_and!; intros; eauto; left; done]. intros j t' r' i d' H1 H2.
      destruct (decide (n = j)) as [<-|Hne]; [|rewrite lookup_alter_ne in H1 by done; eauto].
      rewrite lookup_alter in H1. apply fmap_Some in H1 as (t & H1 & ->). apply lookup_delete_Some in H2 as [_ H2]. eauto.
    - split; [exists []; cbn; rewrite app_nil_r; auto|]. split; [cbn; eauto|]. split; [cbn|cbn; split_and!; intros; eauto; left; done]. intros j t' r' i d' H1 H2.
      destruct (decide (n = j)) as [<-|Hne]; [|rewrite lookup_alter_ne in H1 by done; eauto].
      rewrite lookup_alter in H1. apply fmap_Some in H1 as (t & H1 & ->). right. exists t. split; [done|].
      clear H1. induction l as [|x l IH]; cbn in H2; [done|]. apply lookup_delete_Some in H2 as [_ H2]. auto.
    - split; [exists []; cbn; rewrite app_nil_r; auto|]. split; [cbn; eauto|]. split; [cbn|cbn; split_and!; intros; eauto; left; done]. intros j t' r' i d' H1 H2. apply lookup_delete_Some in H1 as [_ H1]. eauto.
    - unfold node_start_op. destruct (w_nmap w !! NLocal); [apply calm_refl|].
      pose proof (calm_spawned w w (calm_refl w) eq_refl eq_refl) as K. unfold spawn_op in *. cbn in *. eapply calm_trans_same; [exact K|done..].
    - unfold node_disconnect_op. case_match; [|apply calm_refl]. case_match; [|apply calm_refl]. case_match; [|ksame].
      eapply calm_trans_same; [apply (calm_exit p1 p0 RKill (up_pend (delete n) w)); by left|done..].
    - unfold node_accept_op. case_match; [|ksame]. case_match; [|ksame].
      match goal with |- context [if bool_decide _ then ?x else w] => set (w1 := if bool_decide (n_state n1 = Pending) then x else w) end.
      assert (calm w w1) as H1.
      { unfold w1. repeat case_match; try apply calm_refl. apply calm_exit. by left. }
      clearbody w1. case_match; [exact H1|]. eapply calm_trans_same; [exact H1|done..].
    - unfold node_workers_op, hand_out. repeat case_match; ksame.
    - unfold sup_down_op. repeat case_match; ksame.
  Qed.

  (** ** Programs *)
  Notation owns := (own J).
  Notation keep st := (fun st' _ => st' = st).
  Lemma o_guar {A} st (pr : prog world A) : guar (lstep S mild) pr -> owns (keep st) st pr.
  Proof. apply own_guar. intros w x w' Hj (a & Ha & ->). eapply calm_J; [exact Hj|]. by apply mild_calm. Qed.
  Lemma o_fp {A} (F : act -> Prop) st (pr : prog world A) : (forall a, F a -> mild a) -> guar (lstep S F) pr -> owns (keep st) st pr.
  Proof. intros H Hp. apply o_guar. eapply guar_mono; [apply lstep_mono, H|exact Hp]. Qed.
  Lemma o_atom {A} (Q : A -> Prop) st (op : world -> world * A) :
    (forall w, calm w (fst (op w))) -> (forall w, base w -> Q (snd (op w))) -> owns (fun st' a => st' = st /\ Q a) st (atom op).
  Proof. intros H HQ. apply own_keep. intros w x Hj _. split; [by eapply calm_J|]. apply HQ. apply Hj. Qed.
  Lemma o_atom' {A} st (op : world -> world * A) : (forall w, calm w (fst (op w))) -> owns (keep st) st (atom op).
  Proof. intros H. eapply own_mono; [|apply (o_atom (fun _ => True) st op H); done]. intros ? ? [? _]; done. Qed.
  Lemma o_modify st f : (forall w, calm w (f w)) -> owns (keep st) st (modify f).
  Proof. intros H. by apply o_atom'. Qed.
  Lemma o_observe {A} st (f : world -> A) : owns (keep st) st (observe f).
  Proof. apply o_atom'. intros. apply calm_refl. Qed.
  Lemma o_frame st f i : owns (keep st) st (modify (send_frame f i)).
  Proof. apply o_modify. intros w. apply (mild_calm (ASendFrame f i) w). exact I. Qed.
  Lemma o_alias_destroy st r : owns (keep st) st (do! alias_destroy r in Ret tt).
  Proof. eapply own_bind; [apply o_atom'; intros w; apply (mild_calm (AAliasDelete (ref_id r)) w); exact I|]. by intros ? ? ->. Qed.
  Lemma o_own st m f : owns (keep st) st (ProcApi.own m f).
  Proof. apply o_modify. intros w. by apply calm_same. Qed.
  Lemma o_fresh st : owns (keep st) st fresh_ref.
  Proof. apply o_atom'. intros w. by apply calm_same. Qed.
  Lemma o_node_register st nd c : owns (keep st) st (node_register nd c).
  Proof. eapply o_fp; [|apply (l_node_register S nd c)]. intros []; done. Qed.
  Lemma o_add_mon st i r f d : mon_ok i d -> owns (keep st) st (modify (add_mon i r f (Some d))).
  Proof. intros H. apply o_modify. intros w. by apply (mild_calm (AAddMon i r f (Some d)) w). Qed.
  Lemma o_push st o x : harmless o x -> owns (keep st) st (modify (push o x)).
  Proof. intros H. apply o_modify. intros w. by apply calm_push. Qed.
  Lemma o_tell st o x : harmless o x -> owns (keep st) st (modify (send_to o x)).
  Proof. intros H. apply o_modify. intros w. by apply (mild_calm (ASendTo o x) w). Qed.
  (** *** Monitors *)
  Lemma o_self_down st m d r why : nmon_ok d \/ why = "noproc"%string -> owns (keep st) st (self_down m d r why).
  Proof.
    intros H. unfold self_down. eapply own_bind; [apply o_push|intros ? ? ->; apply o_alias_destroy]. cbn. intros ->. cbn in H. by destruct H as [[]| ->].
  Qed.
  Lemma o_monitor_local st m i r d : mon_ok i d -> owns (keep st) st (monitor_local m i r d).
  Proof.
    intros H. unfold monitor_local. eapply own_bind; [apply o_observe|]. intros ? [] ->; [by apply o_add_mon|]. apply o_self_down. by right.
  Qed.
  Lemma o_monitor_remote st m name addr r d id nm : nmon_ok d -> owns (keep st) st (monitor_remote m name addr r d id nm).
  Proof.
    intros H. unfold monitor_remote. eapply own_bind.
    - apply o_modify. intros w. by apply (mild_calm (AAddNmon (NRemote name addr) r (NMProcess m d)) w).
    - intros ? _ ->. eapply own_bind; [apply o_node_register|]. intros ? ? ->. apply o_frame.
  Qed.
  Lemma o_monitor_install st m d r : owns (keep st) st (monitor_install m d r).
  Proof.
    unfold monitor_install, own_monitor, name_lookup. destruct d as [q|n [|name addr]|]; [| | |exact I].
    - destruct (decide (q = PLocal m)); [exact I|]. eapply own_bind; [apply o_own|]. intros ? _ ->. destruct q as [i|i n']; cbn [pid_is_local].
      + by apply o_monitor_local.
      + eapply own_bind; [apply o_observe|]. intros ? [[name addr]|] ->; [by apply o_monitor_remote|]. apply o_self_down. by left.
    - eapply own_bind; [apply o_observe|]. intros ? [i|] ->; (eapply own_bind; [apply o_own|]; intros ? _ ->); [by apply o_monitor_local|].
      apply o_self_down. by left.
    - eapply own_bind; [apply o_own|]. intros ? _ ->. by apply o_monitor_remote.
  Qed.
  Lemma o_monitor st m d : owns (keep st) st (monitor m d).
  Proof.
    unfold monitor. eapply own_bind; [apply o_fresh|]. intros ? r ->. eapply own_bind; [apply o_monitor_install|]. by intros ? _ ->.
  Qed.
  Lemma o_monitor_alias st m d b : owns (keep st) st (monitor_alias m d b).
  Proof.
    unfold monitor_alias. eapply own_bind; [apply o_fresh|]. intros ? r ->.
    eapply own_bind; [apply o_modify; intros w; by apply (mild_calm (AAliasCreate m r b) w)|]. intros ? _ ->.
    eapply own_bind; [apply o_monitor_install|]. by intros ? _ ->.
  Qed.
  (** *** The beginning of a process *)
  Lemma o_alloc : owns (fun st i => (i = p /\ st = Some Spawning) \/ (i <> p /\ st = None)) None
    (atom (fun w => (up_loc (<[w_next_pid w := new_plocal]>) (up_next_pid N.succ w), w_next_pid w))).
  Proof.
    intros w x _ Hj _. cbn. destruct (decide (w_next_pid w = p)) as [E|Hne].
    - exists (Some Spawning). split; [by left|]. left. destruct Hj as ([B1 B2 B3] & Ho & Hx). destruct x as [[]|]; try (exfalso; lia).
      split; [done|]. split; [by split|]. split; [done|]. destruct Hx as [H1 H2]. unfold unreported, there in *. cbn. split; [done|]. split; [lia|].
      destruct H2 as [[_ H2]|[H2 _]]; [done|lia].
    - exists None. split; [by right|]. right. split; [done|]. split; [done|]. eapply calm_J; [exact Hj|].
      split; [exists []; cbn; rewrite app_nil_r; auto|]. cbn. split_and!; intros; eauto. all: left; cbn; split; [lia|done].
  Qed.
  Lemma o_insert st i : (i = p /\ st = Some Spawning) \/ (i <> p /\ st = None) -> owns (keep None) st (modify (up_regs (<[i := new_reg]>))).
  Proof.
    intros [[-> ->]|[Hne ->]]; [|apply o_modify; intros w; by apply (mild_calm (AInsert i) w)].
    intros w x _ Hj Hx. cbn. exists None. split; [done|]. left. pose proof (Hx _ eq_refl) as ->. split; [done|].
    destruct Hj as ([B1 B2 B3] & Ho & H1 & H2 & H3). split; [by split|]. split; [done|]. split; [done|]. right. split; [done|].
    unfold there. cbn. rewrite lookup_insert. eauto.
  Qed.
  Lemma o_spawn m l b : owns (keep None) None (spawn m l b).
  Proof.
    unfold spawn. eapply own_bind; [apply o_alloc|]. intros st i Hst. cbn beta in Hst.
    eapply (own_bind _ (keep st)).
    { destruct l; [|done]. eapply own_bind; [apply o_modify; intros; by apply calm_same|]. intros ? _ ->. apply o_modify; intros; by apply calm_same. }
    intros ? _ ->. eapply (own_bind _ (keep st)).
    { destruct b; [|done]. eapply own_bind; [apply o_fresh|]. intros ? r ->. eapply own_bind; [apply o_own|]. intros ? _ ->.
      eapply own_bind; [by apply o_add_mon|]. by intros ? _ ->. }
    intros ? r ->. eapply own_bind; [apply o_modify; intros; by apply calm_same|]. intros ? _ ->.
    eapply own_bind; [by apply o_insert|]. by intros ? _ ->.
  Qed.
  (** *** The end of a process *)
  (** What the thread that ends process [i] knows. *)
  Definition ends (i : N) (ph : phase) (st : option phase) : Prop := st = if decide (i = p) then Some ph else None.
  Lemma o_link_process_down i why st : ends i Linking st -> owns (keep st) st (link_process_down (PLocal i) why).
  Proof.
    intros Hst. unfold link_process_down. cbn [pid_id]. eapply own_bind; [apply o_atom'; intros; by apply calm_same|].
    intros ? [ls|] ->; [|done]. eapply own_bind.
    - apply own_each. intros q _. eapply own_bind; [apply o_modify; intros; by apply calm_same|]. intros ? _ ->.
      unfold ends in Hst. destruct (decide (i = p)) as [->|Hne].
      + eapply own_mono; [|apply (own_keep J (fun _ => True))]; [by intros ? ? [? _]|]. intros w x Hj Hx. split; [|done].
        subst st. pose proof (Hx _ eq_refl) as ->. cbn.
        assert (calm w w -> J w (Some Linking)) as _ by done. unfold exit_linked_op. destruct (w_regs w !! pid_id q) as [r|] eqn:E; [|done].
        assert (forall w', calm w w' -> J w' (Some Linking)) as Hc by (intros; by eapply calm_J).
        destruct (r_trap r).
        * unfold push. destruct (w_loc w !! pid_id q); [|done]. destruct Hj as ([B1 B2 B3] & Ho & H1 & H2 & H3).
          assert (unreported (up_log (fun g => g ++ [(pid_id q, ISystem (SExit (PLocal p) why))]) w)) as Hu.
          { unfold unreported. cbn. apply Forall_app. split; [exact H1|]. repeat constructor. intros (r' & y & Ey & _). discriminate. }
          split; [by split|]. split; [by apply first_unreported|]. split; [exact Hu|]. done.
        * destruct why; try done; apply Hc, calm_same; try done; apply dom_insert; eauto.
      + apply o_modify. intros w. apply calm_exit_linked. intros [[= ->] _]. done.
    - intros ? _ ->. apply own_each. intros g _. eapply own_bind; [apply o_observe|]. intros ? [[name addr]|] ->; (eapply (own_bind _ (keep st)); [|intros ? _ ->; apply o_frame]); [|done].
      apply o_modify. intros w. apply (mild_calm (ADelNlinks (NRemote name addr) (map (fun p => (p, i)) g.2)) w). exact I.
  Qed.
  (** A notice of [p]'s end may be sent while noting. *)
  Lemma o_note o d r why : owns (keep (Some Noting)) (Some Noting) (modify (send_to o (IProcessDown d r why))).
  Proof.
    eapply own_mono; [|apply (own_keep J (fun _ => True))]; [by intros ? ? [? _]|]. intros w x Hj Hx. split; [|done].
    pose proof (Hx _ eq_refl) as ->. cbn. unfold send_to. destruct (w_regs w !! o); [|done]. unfold push. destruct (w_loc w !! o); [|done].
    destruct Hj as ([B1 B2 B3] & Ho & H2 & H3). split; [by split|]. split; [|done]. cbn. apply first_app; [done|]. repeat constructor.
    intros (y & [= ]).
  Qed.
  Lemma o_mons i st : ends i Linking st ->
    owns (fun st' ms => ends i Noting st' /\ match ms with Some t => forall r f d, t !! r = Some (f, Some d) -> mon_ok i d | None => True end) st
      (atom (fun w => (up_mons (delete i) w, w_mons w !! i))).
  Proof.
    intros Hst w x _ Hj Hx. cbn. assert (calm w (up_mons (delete i) w)) as Hc by (apply (mild_calm (AMonsDelete i) w); exact I).
    assert (match w_mons w !! i with Some t => forall r f d, t !! r = Some (f, Some d) -> mon_ok i d | None => True end) as Hm.
    { destruct (w_mons w !! i) as [t|] eqn:E; [|done]. intros. destruct Hj as ([B1 B2 B3] & _). by eapply B1. }
    exists (if decide (i = p) then Some Noting else None). unfold ends in *. split; [done|]. destruct (decide (i = p)) as [->|Hne].
    - left. subst st. pose proof (Hx _ eq_refl) as ->. split; [done|]. pose proof (calm_J _ _ _ Hj Hc) as (H1 & H2 & H3). split; [done|]. split; [done|]. apply H3.
    - right. split; [done|]. split; [done|]. by eapply calm_J.
  Qed.
  Lemma o_monitor_process_down i why st : ends i Linking st -> owns (fun st' _ => ends i Noting st') st (monitor_process_down (PLocal i) why).
  Proof.
    intros Hst. unfold monitor_process_down. cbn [pid_id]. eapply own_bind; [by apply o_mons|]. intros st' ms [Hst' Hms].
    destruct ms as [t|]; [|done]. eapply (own_bind _ (keep st')).
    - apply own_each. intros [r [q d]] Hx. apply sorted_refs_elem in Hx. cbn [fst snd]. eapply (own_bind _ (keep st')).
      + destruct (pid_is_local q); [|done]. destruct d as [d|].
        * unfold ends in Hst'. destruct (decide (i = p)) as [->|Hne]; [subst st'; apply o_note|]. apply o_tell. cbn. intros ->.
          specialize (Hms _ _ _ Hx). cbn in Hms. congruence.
        * eapply own_bind; [apply o_observe|]. by intros ? [] ->.
      + intros ? _ ->. destruct (ref_is_local r); [apply o_alias_destroy|done].
    - intros ? _ ->. eapply own_mono; [|apply (own_each J st')]; [by intros ? ? ->|]. intros g _. eapply own_bind; [apply o_observe|]. intros ? [[name addr]|] ->; (eapply (own_bind _ (keep st')); [|intros ? _ ->; apply o_frame]); [|done].
      apply o_modify. intros w. apply (mild_calm (ADelNmons (NRemote name addr) (map fst g.2)) w). exact I.
  Qed.
  Lemma o_finish i : owns (fun _ _ => True) None (drop_process i).
  Proof.
    unfold drop_process. eapply (own_bind _ (fun st r => match r with Some _ => ends i Linking st | None => True end)).
    { intros w x _ Hj _. cbn. destruct (decide (i = p)) as [->|Hne].
      - destruct (w_regs w !! p) as [r|] eqn:E.
        + exists (Some Linking). split; [unfold ends; by rewrite decide_True|]. left. destruct Hj as ([B1 B2 B3] & Ho & Hx).
          assert (x = None) as ->. { destruct x as [[]|]; try done; exfalso; unfold there in Hx; rewrite E in Hx; destruct Hx as [? Hx]; [destruct Hx as [_ Hx]..|]; apply Hx; eauto. }
          split; [done|]. split; [by split|]. split; [done|]. destruct Hx as [H1 H2]. split; [done|]. unfold there in *. cbn. rewrite E in H2. rewrite lookup_delete.
          split; [|by intros [? ?]]. destruct H2 as [[_ H2]|[H2 _]]; [exfalso; apply H2; eauto|done].
        + exists None. split; [done|]. right. split; [done|]. split; [done|]. eapply calm_J; [exact Hj|]. apply calm_same; try done. cbn. rewrite lookup_delete, E. done.
      - exists None. split; [destruct (w_regs w !! i); [unfold ends; by rewrite decide_False|done]|]. right. split; [done|]. split; [done|]. eapply calm_J; [exact Hj|]. apply calm_same; try done. cbn. by rewrite lookup_delete_ne. }
    intros st [r|] Hst.
    - eapply (own_bind _ (keep st)).
      { destruct (r_name r); [|done]. apply o_modify; intros; by apply calm_same. }
      intros ? _ ->. eapply own_bind; [by apply o_link_process_down|]. intros ? _ ->.
      eapply own_bind; [by apply o_monitor_process_down|]. intros st' _ _.
      eapply own_mono; [by intros; exact I|]. eapply own_bind; [apply o_observe|]. intros ? l ->.
      eapply (own_bind _ (keep st')).
      { apply own_each. intros [r' x] _. cbn [fst snd]. destruct x as [[q|]|nd]; [|done|].
        - eapply (own_bind _ (keep st')).
          + destruct (pid_is_local q); [|apply o_frame]. apply o_modify. intros w. apply (mild_calm (ADelMon (pid_id q) r') w). exact I.
          + intros ? _ ->. destruct (ref_is_local r'); [apply o_alias_destroy|done].
        - eapply (own_bind _ (keep st')).
          + apply o_modify. intros w. apply (mild_calm (ADelNmon nd r') w). exact I.
          + intros ? _ ->. destruct (ref_is_local r'); [apply o_alias_destroy|done]. }
      intros ? _ ->. eapply (own_bind _ (keep st')); [apply own_each; intros; apply o_modify; intros; by apply calm_same|].
      intros ? _ ->. apply o_modify; intros; by apply calm_same.
    - eapply (own_bind _ (keep st)); [apply o_modify; intros; by apply calm_same|]. done.
  Qed.
  Lemma o_crash i why : owns (fun _ _ => True) None (crash i why).
  Proof.
    unfold crash. eapply own_bind; [apply o_modify|]; [intros w; apply (mild_calm (ASetExit i why) w); exact I|]. intros ? _ ->. apply o_finish.
  Qed.
  (** *** What other nodes say *)
  Lemma o_npmd st nd r why : owns (keep st) st (node_process_monitor_down nd r why).
  Proof.
    unfold node_process_monitor_down.
    eapply own_bind; [apply (o_atom (fun x => match x with Some (NMProcess i d) => nmon_ok d | _ => True end))|].
    { intros w. apply (mild_calm (ADelNmon nd r) w). exact I. }
    { intros w [B1 B2 B3]. cbn. destruct (w_nmons w !! nd) as [t|] eqn:E; [|done]. destruct (t !! r) as [[]|] eqn:E'; try done. by eapply B2. }
    intros ? x [-> Hx]. eapply own_bind; [apply o_atom'; intros w; apply (mild_calm (AAliasDelete (ref_id r)) w); exact I|]. intros ? _ ->.
    destruct x as [[|i d|]|]; try done. apply o_tell. cbn. intros ->. done.
  Qed.
  Lemma o_supdown st nd q : owns (keep st) st (supervisor_down nd q).
  Proof.
    unfold supervisor_down. eapply own_bind; [apply o_atom'; intros w; apply (mild_calm (ASupDown nd q) w); exact I|].
    intros ? [] ->; [|done]. cbn [negb].
    eapply own_bind; [apply (o_atom (fun ls => match ls with Some t => forall q i, (q, i) ∈ t -> pid_is_local q = false | None => True end))|].
    { intros w. apply (mild_calm (ANlinksDelete nd) w). exact I. }
    { intros w [B1 B2 B3]. cbn. destruct (w_nlinks w !! nd) as [t|] eqn:E; [|done]. intros. by eapply B3. }
    intros ? ls [-> Hls]. eapply own_bind; [apply own_each|].
    { intros [q' i] Hx. rewrite merge_sort_Permutation in Hx. apply elem_of_elements in Hx. cbn [fst snd]. eapply own_bind.
      - unfold link_destroy. cbn [pid_is_local]. apply o_modify; intros; by apply calm_same.
      - intros ? _ ->. apply o_modify. intros w. apply calm_exit_linked. intros [-> _]. destruct ls as [t|]; cbn in Hx; [|set_solver]. by specialize (Hls _ _ Hx). }
    intros ? _ ->. eapply own_bind; [apply (o_atom (fun ms => match ms with Some t => forall r i d, t !! r = Some (NMProcess i d) -> nmon_ok d | None => True end))|].
    { intros w. apply (mild_calm (ANmonsDelete nd) w). exact I. }
    { intros w [B1 B2 B3]. cbn. destruct (w_nmons w !! nd) as [t|] eqn:E; [|done]. intros. by eapply B2. }
    intros ? ms [-> Hms]. eapply own_bind; [apply own_each|].
    { intros [r x] Hx. apply sorted_refs_elem in Hx. cbn [fst snd]. eapply (own_bind _ (keep st)).
      - destruct x as [i|i d|i].
        + by apply o_tell.
        + destruct ms as [t|]; cbn in Hx; [|by rewrite lookup_empty in Hx]. specialize (Hms _ _ _ Hx). apply o_tell. cbn. intros ->. done.
        + unfold monitor_destroy. cbn [pid_is_local pid_id]. apply o_modify. intros w. apply (mild_calm (ADelMon i r) w). exact I.
      - intros ? _ ->. destruct (ref_is_local r); [apply o_alias_destroy|done]. }
    intros ? _ ->. apply o_modify; intros; by apply calm_same.
  Qed.
  Lemma o_supervise m name addr : owns (keep None) None (remote_supervisor m name addr).
  Proof.
    unfold remote_supervisor. eapply own_bind; [apply o_atom'; intros w; apply (mild_calm (AAccept name addr (PLocal m) (PLocal m)) w); exact I|].
    intros ? [] ->; [|exact I]. cbn [negb]. eapply own_bind; [apply o_spawn|]. intros ? s ->. eapply own_bind; [apply o_spawn|]. intros ? r ->.
    eapply own_bind; [apply o_modify; intros w; apply (mild_calm (AWorkers (NRemote name addr) s.1 r.1) w); exact I|]. by intros ? _ ->.
  Qed.
  Lemma o_call c : no_late_link p me c -> owns (fun _ _ => True) None (call_prog S c).
  Proof.
    intros Hc. assert ((forall a, fp S c a -> mild a) -> owns (fun _ _ => True) None (call_prog S c)) as Hfp.
    { intros H. eapply own_mono; [|eapply o_fp; [exact H|apply call_fp]]. done. }
    destruct c; try (apply Hfp; clear Hfp; intros a Ha; destruct a; cbn in Ha |- *; try exact I; try done; unfold msg_item, user_item, fp_monitor_alias, fp_crash, fp_exit in *; cbn in Hc; repeat case_match; naive_solver);
      cbn [call_prog]; unfold ret_as.
    - eapply own_bind; [apply o_spawn|done].
    - eapply own_bind; [apply o_monitor|done].
    - eapply own_bind; [apply o_monitor_alias|done].
    - eapply own_bind; [apply o_finish|done].
    - eapply own_bind; [apply o_crash|done].
    - eapply own_bind; [apply o_supervise|done].
    - eapply own_bind; [apply o_supdown|done].
    - eapply (own_bind _ (keep None)); [|done]. destruct f; try (unfold receive_frame; exact I); try done.
      1,2,4-7: (eapply o_fp; [|apply (l_frame S nd sup)]; intros a Ha; destruct a; cbn in Ha |- *; try exact I; try done; repeat case_match; naive_solver).
      cbn [receive_frame]. apply own_each. intros. apply o_npmd.
  Qed.
  (** ** Systems *)
  Lemma owned_start : exists x, owned J (R := val) world0 [] x.
  Proof.
    assert (base world0) as Hb by (split; intros ? ? ? ? *; cbn; rewrite ?lookup_empty; done).
    exists (if decide (p = 0%N) then Some Noting else None). split; [|exists []; split; [constructor|]; split; intros; done].
    split; [done|]. split; [intros i j x y H; cbn in H; discriminate|]. unfold there, unreported. cbn. rewrite lookup_empty.
    destruct (decide (p = 0%N)) as [->|Hne]; cbn; [split; [lia|by intros [? ?]]|]. split; [constructor|]. left. split; [lia|by intros [? ?]].
  Qed.
  Lemma reach_first s : reach (calls_of S (no_late_link p me)) (Sys world0 []) s -> exits_first p me (w_log (s_world s)).
  Proof.
    intros Hr. destruct owned_start as [x Hx]. destruct (owned_reach J (calls_of S (no_late_link p me)) (Sys world0 []) s x) as (x' & (_ & H & _) & _); [|done..].
    intros pr (c & Hc & ->). by apply o_call.
  Qed.
End order.
