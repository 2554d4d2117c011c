(** Removing messages from the own mailbox (process_receiver.rs:110-147) is the same as receiving them
    one after the other until none is left; and a process that has followed a script is a thread like
    any other. *)
From stdpp Require Import base list gmap numbers strings countable sorting relations.
From Coq Require Import Lia.
From Verif Require Import Prog ProgProofs ProgInv Types Mailbox MailboxSpec MailboxProofs World ProcApi NodeApi Api Steps Hist Labels SchedSpec SchedProofs
  DownProofs ProcSpec FreshProofs GenServer Client ClientSpec ClientStep ClientRun.

Section flush.
  Context (S : serde) (Hty : serde_typed S) (T : N) (f : message -> bool).

  (** What a select leaves in [items]. *)
  Definition plain (x : item) : Prop := match x with IUserRemote _ | IUserLocal _ | ISystem _ => True | _ => False end.
  Definition inert (x : item) : Prop := plain x /\ forall l, exists r, process_item S T x l = (r, x, l) /\ match r with PMsg m => f m = false | PSkip => False | PErr => True end.

  Lemma item_plain x l r x' l' : process_item S T x l = (r, x', l') -> plain x -> l' = l /\ plain x' /\ r <> PSkip.
  Proof.
    unfold process_item. destruct x; cbn; try done; intros H _; repeat case_match; simplify_eq; cbn; done.
  Qed.
  Lemma item_inert x l r x' l' : process_item S T x l = (r, x', l') ->
    match r with PMsg m => f m = false | PSkip => False | PErr => True end -> inert x'.
  Proof.
    unfold process_item, inert. intros H Hr. destruct x as [b|v|m|d rf why|n rf|rf p|i].
    - destruct (de S T b) as [v|] eqn:E.
      + rewrite (decide_True _ _ (Hty _ _ _ E)) in H. simplify_eq. split; [done|]. intros l0. cbn.
        rewrite (decide_True _ _ (Hty _ _ _ E)). eauto.
      + simplify_eq. split; [done|]. intros l0. exists PErr. fold (process_item S T (IUserRemote b) l0). assert (process_item S T (IUserRemote b) l0 = (PErr, IUserRemote b, l0)) as H0 by (unfold process_item; rewrite E; done). split; [exact H0|done].
    - simplify_eq. split; [done|]. intros l0. eexists. split; [reflexivity|]. by destruct (decide _).
    - simplify_eq. split; [done|]. intros l0. eexists. split; [reflexivity|]. done.
    - destruct (l_monitors l !! rf); simplify_eq; [|done]. split; [done|]. intros l0. eexists. split; [reflexivity|]. done.
    - destruct (l_monitors l !! rf); simplify_eq; [|done]. split; [done|]. intros l0. eexists. split; [reflexivity|]. done.
    - simplify_eq. done.
    - simplify_eq. done.
  Qed.

  Lemma scan_items_plain its l s its' l' : scan_items S T f false its l = (s, its', l') -> Forall plain its ->
    l' = l /\ Forall plain its'.
  Proof.
    revert s its' l'; induction its as [|x its IH]; intros s its' l' H Hp; cbn in H; [by simplify_eq|].
    inversion_clear Hp as [|? ? Hx Hi]. destruct (process_item S T x l) as [[r x1] l1] eqn:E.
    apply item_plain in E as (-> & Hx1 & Hr); [|exact Hx].
    destruct (scan_items S T f false its l) as [[s2 i2] l2] eqn:E2. destruct (IH _ _ _ eq_refl Hi) as [-> H2].
    destruct r as [m| |]; [|done|]; [destruct (f m)|]; simplify_eq; auto.
  Qed.
  Lemma scan_chan_plain ch l s l' : scan_chan S T f false ch l = (s, l') -> Forall plain (l_items l) -> Forall plain (l_items l').
  Proof.
    revert l; induction ch as [|x ch IH]; intros l H Hp; cbn in H; [by simplify_eq|].
    destruct (process_item S T x l) as [[r x1] l1] eqn:E. pose proof (item_inert _ _ _ _ _ E) as Hin.
    assert (l_items l1 = l_items l) as El by (apply (item_step S Hty) in E; tauto).
    destruct r as [m| |].
    - destruct (f m) eqn:Ef; [simplify_eq; cbn; by rewrite El|]. eapply IH; [exact H|]. cbn. rewrite El. apply Forall_app. split; [done|].
      constructor; [|constructor]. by destruct (Hin eq_refl).
    - eapply IH; [exact H|]. by rewrite El.
    - eapply IH; [exact H|]. cbn. rewrite El. apply Forall_app. split; [done|]. constructor; [|constructor]. by destruct (Hin I).
  Qed.

  (** A select that finds nothing leaves what remove leaves. *)
  Lemma scan_retain its l its' l' : scan_items S T f false its l = (Waiting, its', l') -> retain_items S T f false its l = Some (its', l').
  Proof.
    revert l its' l'; induction its as [|x its IH]; intros l its' l' H; cbn in *; [by simplify_eq|].
    destruct (process_item S T x l) as [[r x1] l1]. destruct (scan_items S T f false its l1) as [[s2 i2] l2] eqn:E2.
    destruct r as [m| |]; [destruct (f m)|..]; simplify_eq; by rewrite (IH _ _ _ E2).
  Qed.
  Lemma scan_drain ch l l' : scan_chan S T f false ch l = (Waiting, l') -> drain_chan S T f false ch l = Some l'.
  Proof.
    revert l; induction ch as [|x ch IH]; intros l H; cbn in *; [by simplify_eq|].
    destruct (process_item S T x l) as [[r x1] l1]. destruct r as [m| |]; [destruct (f m)|..]; simplify_eq; by apply IH.
  Qed.
  Lemma select_end l l' : select S T f false l = (Waiting, l') -> remove S T f false l = Some l'.
  Proof.
    unfold select, remove. destruct (scan_items S T f false (l_items l) l) as [[[m| |] its] l1] eqn:E; try discriminate. intros H.
    rewrite (scan_retain _ _ _ _ E). cbn. by apply scan_drain.
  Qed.
  (** A select that finds something leaves no less to do. *)
  Lemma scan_found its l m its' l' : scan_items S T f false its l = (Found m, its', l') -> Forall plain its ->
    retain_items S T f false its l = retain_items S T f false its' l /\ length its' < length its.
  Proof.
    revert its' l'; induction its as [|x its IH]; intros its' l' H Hp; cbn in H; [discriminate|].
    inversion_clear Hp as [|? ? Hx Hi]. cbn [retain_items length]. destruct (process_item S T x l) as [[r x1] l1] eqn:E.
    pose proof (item_inert _ _ _ _ _ E) as Hin. apply item_plain in E as (-> & Hx1 & Hr); [|exact Hx].
    destruct (scan_items S T f false its l) as [[s2 i2] l2] eqn:E2.
    destruct (scan_items_plain _ _ _ _ _ E2 Hi) as [E3 _].
    destruct r as [m1| |]; [|done|].
    - destruct (f m1) eqn:Ef.
      + injection H as _ <- _. split; [|lia]. by destruct (retain_items S T f false its l) as [[? ?]|].
      + injection H as Hs <- _; subst s2. destruct (IH _ _ eq_refl Hi) as [-> Hl]. split; [|cbn; lia]. cbn [retain_items].
        destruct (Hin eq_refl) as [_ Hi1]. destruct (Hi1 l) as (r & -> & Hm). destruct r as [m2| |]; [|done|done]. by rewrite Hm.
    - injection H as Hs <- _; subst s2. destruct (IH _ _ eq_refl Hi) as [-> Hl]. split; [|cbn; lia]. cbn [retain_items].
      destruct (Hin I) as [_ Hi1]. destruct (Hi1 l) as (r & -> & Hm). destruct r as [m2| |]; [|done|done]. by rewrite Hm.
  Qed.
  Lemma retain_inert its l : Forall inert its -> retain_items S T f false its l = Some (its, l).
  Proof.
    induction 1 as [|x its Hx H IH]; [done|]. cbn. destruct Hx as [_ Hx]. destruct (Hx l) as (r & -> & Hr). rewrite IH.
    destruct r as [m| |]; [|done|done]. cbn. by rewrite Hr.
  Qed.
  Lemma scan_inert its l its' l' : scan_items S T f false its l = (Waiting, its', l') -> Forall plain its -> Forall inert its'.
  Proof.
    revert l its' l'; induction its as [|x its IH]; intros l its' l' H Hp; cbn in *; [by simplify_eq|].
    inversion_clear Hp as [|? ? Hx Hi]. destruct (process_item S T x l) as [[r x1] l1] eqn:E.
    pose proof (item_inert _ _ _ _ _ E) as Hin. apply item_plain in E as (-> & Hx1 & Hr); [|exact Hx].
    destruct (scan_items S T f false its l) as [[s2 i2] l2] eqn:E2.
    destruct r as [m1| |]; [destruct (f m1) eqn:Ef|done|]; simplify_eq; constructor; eauto.
  Qed.
  Lemma process_chan x c l : process_item S T x (set_chan c l) = (fst (process_item S T x l), set_chan c (snd (process_item S T x l))).
  Proof. unfold process_item. destruct x; cbn; repeat case_match; reflexivity. Qed.
  Lemma drain_set ch c l : drain_chan S T f false ch (set_chan c l) = drain_chan S T f false ch l.
  Proof.
    revert l; induction ch as [|x ch IH]; intros l; [reflexivity|]. cbn [drain_chan]. rewrite process_chan.
    destruct (process_item S T x l) as [[r x1] l1]. cbn [fst snd]. destruct r as [m| |].
    - destruct (f m); [apply IH|]. apply (IH (set_items (l_items l1 ++ [x1]) l1)).
    - apply IH.
    - apply (IH (set_items (l_items l1 ++ [x1]) l1)).
  Qed.
  Lemma scan_chan_found ch l m l' : scan_chan S T f false ch l = (Found m, l') -> Forall inert (l_items l) ->
    drain_chan S T f false ch l = drain_chan S T f false (l_chan l') l' /\ Forall inert (l_items l') /\
    length (l_items l') + length (l_chan l') < length (l_items l) + length ch.
  Proof.
    revert l; induction ch as [|x ch IH]; intros l H Hp; cbn [scan_chan] in H; [discriminate|]. cbn [drain_chan length].
    destruct (process_item S T x l) as [[r x1] l1] eqn:E. pose proof (item_inert _ _ _ _ _ E) as Hin.
    assert (l_items l1 = l_items l) as El by (apply (item_step S Hty) in E; tauto).
    destruct r as [m1| |].
    - destruct (f m1) eqn:Ef.
      + simplify_eq. cbn. rewrite drain_set, El. split; [done|]. split; [done|]. lia.
      + apply IH in H as (H1 & H2 & H3); [|cbn; rewrite El; apply Forall_app; split; [done|]; constructor; [auto|constructor]].
        split; [done|]. split; [done|]. cbn in H3. rewrite El, app_length in H3. cbn in H3. lia.
    - apply IH in H as (H1 & H2 & H3); [|by rewrite El]. rewrite El in H3. split; [done|]. split; [done|]. lia.
    - apply IH in H as (H1 & H2 & H3); [|cbn; rewrite El; apply Forall_app; split; [done|]; constructor; [auto|constructor]].
      split; [done|]. split; [done|]. cbn in H3. rewrite El, app_length in H3. cbn in H3. lia.
  Qed.
  Lemma set_items_id l : set_items (l_items l) l = l. Proof. by destruct l. Qed.
  Lemma select_more l m l' : select S T f false l = (Found m, l') -> Forall plain (l_items l) ->
    remove S T f false l = remove S T f false l' /\ Forall plain (l_items l') /\
    length (l_items l') + length (l_chan l') < length (l_items l) + length (l_chan l).
  Proof.
    unfold select. destruct (scan_items S T f false (l_items l) l) as [[s its] l1] eqn:E. intros H Hp.
    destruct (scan_items_plain _ _ _ _ _ E Hp) as [-> Hp1]. destruct s as [m1| |]; [| |discriminate].
    - injection H as -> <-. destruct (scan_found _ _ _ _ _ E Hp) as [H1 H2]. split; [|split; [done|cbn; lia]].
      unfold remove. rewrite H1. cbn [set_items l_items l_chan].
      assert (forall i l, Forall plain i -> forall j, retain_items S T f false i (set_items j l) = (fun x => (fst x, set_items j (snd x))) <$> retain_items S T f false i l) as Hr.
      { clear. intros i l Hi j. induction Hi as [|x i Hx Hi IH]; [reflexivity|]. cbn [retain_items].
        destruct (process_item S T x l) as [[r x1] l1] eqn:E.
        assert (process_item S T x (set_items j l) = (r, x1, set_items j l)) as ->.
        { revert E Hx. unfold process_item. destruct x; cbn; try done; repeat case_match; intros; by simplify_eq. }
        apply item_plain in E as (-> & _ & _); [|done]. rewrite IH. destruct r as [m| |]; destruct (retain_items S T f false i l) as [[? ?]|]; reflexivity. }
      rewrite (Hr its l Hp1 its). assert (exists i, retain_items S T f false its l = Some (i, l)) as (i & ->).
      { clear -Hp1. induction Hp1 as [|x i Hx Hi IH]; [by exists []|]. destruct IH as (i1 & IH). cbn [retain_items].
        destruct (process_item S T x l) as [[r x1] l1] eqn:E. apply item_plain in E as (-> & _ & Hr); [|done]. rewrite IH.
        destruct r; [by eexists|done|by eexists]. }
      reflexivity.
    - pose proof (scan_retain _ _ _ _ E) as Hr. pose proof (scan_inert _ _ _ _ E Hp) as Hi.
      assert (length its = length (l_items l)) as El.
      { clear -E. revert its E. generalize (l_items l). intros i. induction i as [|x i IH]; intros its E; cbn in E; [by simplify_eq|].
        destruct (process_item S T x l) as [[r x1] l1]. destruct (scan_items S T f false i l1) as [[s2 i2] l2] eqn:E2.
        assert (s2 = Waiting -> l2 = l -> length i2 = length i) as H0.
        { intros -> ->. clear IH E. revert l1 i2 E2. induction i as [|y i IH]; intros l1 i2 E2; cbn in E2; [by simplify_eq|].
          destruct (process_item S T y l1) as [[r1 y1] l3]. destruct (scan_items S T f false i l3) as [[s3 i3] l4] eqn:E3.
          destruct r1 as [m| |]; [destruct (f m)|..]; simplify_eq; cbn; f_equal; eauto. }
        destruct r as [m| |]; [destruct (f m)|..]; simplify_eq; cbn; f_equal; auto. }
      apply scan_chan_found in H as (H1 & H2 & H3); [|exact Hi]. cbn [set_items l_items l_chan] in *. split; [|split].
      + unfold remove. rewrite Hr. cbn. rewrite (retain_inert _ _ H2). cbn. rewrite set_items_id. exact H1.
      + eapply Forall_impl; [exact H2|]. by intros x [? _].
      + lia.
  Qed.
  (** remove = select until there is nothing left to select. *)
  Inductive flushes : plocal -> plocal -> Prop :=
  | flushes_end l l' : select S T f false l = (Waiting, l') -> flushes l l'
  | flushes_more l m l1 l' : select S T f false l = (Found m, l1) -> flushes l1 l' -> flushes l l'.
  Lemma remove_flushes l l' : Forall plain (l_items l) -> remove S T f false l = Some l' -> flushes l l'.
  Proof.
    remember (length (l_items l) + length (l_chan l)) as n eqn:En. revert l En. induction (lt_wf n) as [n _ IH]. intros l -> Hp H.
    destruct (select S T f false l) as [[m| |] l1] eqn:E.
    - destruct (select_more _ _ _ E Hp) as (H1 & H2 & H3). eapply flushes_more; [exact E|]. eapply IH; [exact H3|reflexivity|exact H2|congruence].
    - apply flushes_end. rewrite E. pose proof (select_end _ _ E) as H1. congruence.
    - apply (select_spec S Hty) in E as (_ & ? & ? & _ & _ & _ & ? & _). discriminate.
  Qed.
  Lemma select_plain s l l' : select S T f false l = (s, l') -> Forall plain (l_items l) -> Forall plain (l_items l').
  Proof.
    unfold select. destruct (scan_items S T f false (l_items l) l) as [[s1 its] l1] eqn:E. intros H Hp.
    destruct (scan_items_plain _ _ _ _ _ E Hp) as [-> Hp1]. destruct s1; simplify_eq; try done. by eapply scan_chan_plain.
  Qed.
End flush.

Section plain.
  Context (S : serde).
  Lemma item_out T x l r x' l' : process_item S T x l = (r, x', l') -> l_items l' = l_items l /\ (plain x -> plain x' /\ l' = l) /\ (r <> PSkip -> plain x').
  Proof. unfold process_item. intros H. destruct x; cbn in *; repeat case_match; simplify_eq; cbn; auto; done. Qed.
  Lemma scan_items_out T f b its l s its' l' : scan_items S T f b its l = (s, its', l') -> Forall plain its -> Forall plain its'.
  Proof.
    revert l s its' l'; induction its as [|x its IH]; intros l s its' l' H Hp; cbn in H; [by simplify_eq|].
    inversion_clear Hp as [|? ? Hx Hi]. destruct (process_item S T x l) as [[r x1] l1] eqn:E.
    apply item_out in E as (_ & H1 & _). destruct (H1 Hx) as [Hx1 ->].
    destruct (scan_items S T f b its l) as [[s2 i2] l2] eqn:E2. pose proof (IH _ _ _ _ E2 Hi) as H2.
    destruct r as [m| |]; [destruct (f m)| |destruct b]; simplify_eq; auto.
  Qed.
  Lemma scan_chan_out T f b ch l s l' : scan_chan S T f b ch l = (s, l') -> Forall plain (l_items l) -> Forall plain (l_items l').
  Proof.
    revert l; induction ch as [|x ch IH]; intros l H Hp; cbn in H; [by simplify_eq|].
    destruct (process_item S T x l) as [[r x1] l1] eqn:E. apply item_out in E as (El & _ & H1).
    destruct r as [m| |]; [destruct (f m)| |destruct b]; simplify_eq; cbn; rewrite ?El; try done.
    - eapply IH; [exact H|]. cbn. rewrite El. apply Forall_app. split; [done|]. constructor; [|constructor]. by apply H1.
    - eapply IH; [exact H|]. by rewrite El.
    - eapply IH; [exact H|]. cbn. rewrite El. apply Forall_app. split; [done|]. constructor; [|constructor]. by apply H1.
  Qed.
  Lemma select_out T f b l s l' : select S T f b l = (s, l') -> Forall plain (l_items l) -> Forall plain (l_items l').
  Proof.
    unfold select. destruct (scan_items S T f b (l_items l) l) as [[s1 its] l1] eqn:E. intros H Hp.
    pose proof (scan_items_out _ _ _ _ _ _ _ _ E Hp) as Hp1. destruct s1; simplify_eq; try done. eapply scan_chan_out; [exact H|]. done.
  Qed.
  Definition all_plain (w : world) : Prop := forall j l, w_loc w !! j = Some l -> Forall plain (l_items l).
  Lemma plain_same w w' : w_loc w' = w_loc w -> all_plain w -> all_plain w'.
  Proof. intros E1 H j l. rewrite E1. apply H. Qed.
  Lemma plain_alter w (g : plocal -> plocal) i : (forall l, l_items (g l) = l_items l) -> all_plain w -> all_plain (up_loc (alter g i) w).
  Proof.
    intros Hg H j l. cbn. intros E. apply lookup_alter_Some in E as [(-> & l0 & E & ->)|[_ E]]; [|by eapply H].
    rewrite Hg. by eapply H.
  Qed.
  Lemma plain_push i x w : all_plain w -> all_plain (push i x w).
  Proof.
    intros H. unfold push. destruct (w_loc w !! i) as [l|] eqn:E; [|exact H]. intros j l1. cbn.
    rewrite lookup_insert_Some. intros [[<- <-]|[_ E1]]; [cbn; by eapply H|by eapply H].
  Qed.
  Lemma plain_exit p f y w : all_plain w -> all_plain (exit_op p f y w).
  Proof. intros H. unfold exit_op. repeat case_match; try exact H; try (by apply plain_push); by apply (plain_same w). Qed.
  Lemma plain_exit_linked p f y w : all_plain w -> all_plain (exit_linked_op p f y w).
  Proof. intros H. unfold exit_linked_op. repeat case_match; try exact H; try (by apply plain_push); by apply (plain_same w). Qed.
  Lemma plain_new w i w' : w_loc w' = <[i := new_plocal]> (w_loc w) -> all_plain w -> all_plain w'.
  Proof. intros E1 H j l. rewrite E1, lookup_insert_Some. intros [[<- <-]|[_ E]]; [constructor|by eapply H]. Qed.
  Lemma act_plain a w : all_plain w -> all_plain (does S a w).
  Proof.
    intros Hw. destruct a; cbn [does]; try exact Hw; try (by apply (plain_same w)); try (by apply plain_alter).
    - unfold receive_op. destruct (w_loc w !! me) as [l|] eqn:E; [|exact Hw]. destruct (select S T f b l) as [s l'] eqn:Es.
      intros j l1. cbn. rewrite lookup_insert_Some. intros [[<- <-]|[_ E1]]; [|by eapply Hw]. eapply select_out; [exact Es|]. by eapply Hw.
    - unfold alias_take_op. repeat case_match; by apply (plain_same w).
    - by apply plain_push.
    - unfold send_to. case_match; [by apply plain_push | exact Hw].
    - unfold node_register_op, spawn_op. repeat case_match; cbn; simplify_eq; try exact Hw;
        first [by apply (plain_same w) | by apply (plain_new w (w_next_pid w))].
    - unfold send_frame, hand_out. repeat case_match; by apply (plain_same w).
    - by apply (plain_new w (w_next_pid w)).
    - unfold register_op. repeat case_match; by apply (plain_same w).
    - by apply plain_exit.
    - by apply plain_exit_linked.
    - intros j l. cbn. rewrite lookup_delete_Some. intros [_ E]. by eapply Hw.
    - unfold node_start_op, spawn_op. repeat case_match; cbn; simplify_eq; try exact Hw. by apply (plain_new w (w_next_pid w)).
    - unfold node_disconnect_op. repeat case_match; try exact Hw.
      match goal with |- all_plain (?g ?x) => apply (plain_same x); [reflexivity..|] end. apply plain_exit. by apply (plain_same w).
    - unfold node_accept_op. repeat case_match; cbn; simplify_eq; try exact Hw; try (by apply (plain_same w)); try (by apply plain_exit).
      all: match goal with |- all_plain (up_nregs ?g ?x) => apply (plain_same x); [reflexivity..|] end; by apply plain_exit.
    - apply (plain_same w); [|exact Hw]; unfold node_workers_op, hand_out; repeat case_match; reflexivity.
    - apply (plain_same w); [|exact Hw]; unfold sup_down_op; repeat case_match; reflexivity.
  Qed.
  Lemma occurs_plain w : occurs S w -> all_plain w.
  Proof.
    intros [ts Hr].
    refine (proj1 (reach_guar (fun w w' => all_plain w -> all_plain w') (any_call S) _ _ _ _ _ _ Hr) _); [auto|auto| |apply Forall_nil_2|].
    - intros p [c ->]. eapply guar_mono; [|apply call_fp]. intros w1 w2 (a & _ & ->). apply act_plain.
    - intros j l. cbn. by rewrite lookup_empty.
  Qed.
End plain.

Section idle.
  Context (S : serde) (Hty : serde_typed S) (me : N).
  Notation backed := (backed S).
  Notation quiet := (quiet me).
  Lemma backed_flush w ts own T f l l' : w_loc w !! me = Some l -> remove S T f false l = Some l' ->
    backed (Sys w ts) own -> exists own', backed (Sys (up_loc (<[me := l']>) w) ts) (own' ++ own).
  Proof.
    intros El Hrm Hb. assert (flushes S T f l l') as Hf.
    { apply (remove_flushes S Hty); [|exact Hrm]. eapply (occurs_plain S); [|exact El]. by apply (backed_occurs S _ _ Hb). }
    clear Hrm. revert w own El Hb. induction Hf as [l l' E|l m l1 l' E Hf IH]; intros w own El Hb.
    - exists [Ret (VReceived (Some Waiting))]. apply (backed_receive S me T f w); [|exact Hb].
      unfold try_receive. cbn [run atom]. unfold receive_op. rewrite El, E. reflexivity.
    - assert (backed (Sys (up_loc (<[me := l1]>) w) ts) (Ret (VReceived (Some (Found m))) :: own)) as Hb1.
      { apply (backed_receive S me T f w); [|exact Hb]. unfold try_receive. cbn [run atom]. unfold receive_op. rewrite El, E. reflexivity. }
      destruct (IH _ _ (lookup_insert _ _ _) Hb1) as (own' & H). exists (own' ++ [Ret (VReceived (Some (Found m)))]).
      rewrite <- app_assoc. cbn [app]. replace (up_loc (<[me:=l']>) w) with (up_loc (<[me:=l']>) (up_loc (<[me:=l1]>) w)); [exact H|].
      unfold up_loc. destruct w; cbn. f_equal. apply insert_insert.
  Qed.
  (** Where a script has got to is a state of the node in which the client's calls are calls like any
      other. *)
  Lemma cruns_backed {R} (x : sys world val * cstate R) tr y : cruns S me x tr y ->
    quiet (fst x) -> (exists own, backed (fst x) (match snd x with Busy _ p _ => p :: own | _ => own end)) ->
    quiet (fst y) /\ (exists own, backed (fst y) (match snd y with Busy _ p _ => p :: own | _ => own end)).
  Proof.
    induction 1 as [x|x a y tr z Hs H IH]; [auto|]. intros Hq Hb. apply IH; destruct Hs; cbn [fst snd] in *;
      try exact Hq; try (by (eapply other_still; eassumption)); try (destruct Hb as (own & Hb)).
    - destruct c; eauto using backed_other.
    - exists own. by apply backed_begin.
    - exists own. by apply (backed_tick S w ts own g f p).
    - exists (Ret v :: own). exact Hb.
    - exists own. exact Hb.
    - eexists. by eapply backed_receive.
    - eexists. by eapply backed_receive.
    - eexists. by eapply backed_receive.
    - destruct (backed_flush _ _ _ _ _ _ _ H0 H1 Hb) as (own' & ?). eauto.
  Qed.
  Lemma idle_backed s : idle S me s -> quiet s /\ exists own, backed s own.
  Proof.
    intros (R & sc & sc' & tr & H). apply cruns_backed in H; [exact H|constructor|]. exists [], []. split; [apply rtc_refl|done].
  Qed.
End idle.
