(** The mailbox of a waiting client: what is kept, and when its monitor fires for good. *)
From stdpp Require Import base list gmap numbers strings countable sorting relations.
From Coq Require Import Lia.
From Verif Require Import Prog ProgProofs ProgInv Types Mailbox MailboxSpec MailboxProofs World ProcApi NodeApi Api Steps Hist Labels Msum SchedSpec SchedProofs
  DownProofs RecvProofs ProcSpec ProcInv FreshProofs ProcProps GenServer Client ClientSpec ClientStep ClientRun ClientNode ClientFlush.

(** ** Looking at the mailbox through a filter *)
Section keep.
  Context (S : serde) (Hty : serde_typed S) (T : N).
  Notation same := (kept_mailbox S T).
  (** [P] picks messages; it cannot tell bytes from the value read from them, and does not depend on
      which of the monitors [K] are installed. *)
  Record pick (K : reference -> Prop) (P : pend -> Prop) {Pdec : forall p, Decision (P p)} : Prop := {
    pick_kept : forall p q, kept S T p q -> P p <-> P q;
    pick_off : forall M M' q, (forall r, ~ K r -> r ∈ M <-> r ∈ M') -> filter P (visible M q) = filter P (visible M' q) }.
  Lemma pick_all : pick (fun _ => False) (fun _ => True).
  Proof. split; [done|]. intros M M' q H. assert (M = M') as -> by set_solver. done. Qed.
  Lemma kept_about k p q : kept S T p q -> about k p <-> about k q.
  Proof. by intros [->|(b & v & -> & _ & ->)]. Qed.
  Lemma pick_about k : pick (fun r => r = RLocal k) (fun p => ~ about k p).
  Proof.
    split; [intros p q H; by rewrite (kept_about k p q H)|].
    intros M M' q. revert M M'. induction q as [|x q IH]; intros M M' H; [done|].
    destruct x as [b|v|m|d r why|n r|r p|i]; cbn [visible]; try (by apply IH).
    - rewrite !filter_cons_True by (cbn; auto). f_equal. by apply IH.
    - rewrite !filter_cons_True by (cbn; auto). f_equal. by apply IH.
    - rewrite !filter_cons. case_decide; [f_equal|]; by apply IH.
    - destruct (decide (r = RLocal k)) as [->|Hne].
      + repeat case_decide; rewrite ?filter_cons_False by (cbn; auto); apply IH; set_solver.
      + destruct (decide (r ∈ M)) as [Hin|Hin].
        * rewrite decide_True by set_solver. rewrite !filter_cons_True by (cbn; auto). f_equal. apply IH; set_solver.
        * rewrite decide_False by set_solver. apply IH; set_solver.
    - destruct (decide (r = RLocal k)) as [->|Hne].
      + repeat case_decide; rewrite ?filter_cons_False by (cbn; auto); apply IH; set_solver.
      + destruct (decide (r ∈ M)) as [Hin|Hin].
        * rewrite decide_True by set_solver. rewrite !filter_cons_True by (cbn; auto). f_equal. apply IH; set_solver.
        * rewrite decide_False by set_solver. apply IH; set_solver.
  Qed.

  Context (K : reference -> Prop) (P : pend -> Prop) {Pdec : forall p, Decision (P p)} (HP : pick K P).
  Lemma same_filter a b : same a b -> same (filter P a) (filter P b).
  Proof.
    induction 1 as [|x y a b Hx H IH]; [constructor|]. destruct (decide (P x)) as [Hp|Hp].
    - rewrite !filter_cons_True by (try done; by apply (pick_kept _ _ HP _ _ Hx)). by constructor.
    - rewrite !filter_cons_False; [done| |done]. by rewrite <- (pick_kept _ _ HP _ _ Hx).
  Qed.
  (** From [l0], after the arrival of [xs], the mailbox has become that of [l], as far as [P] goes. *)
  Definition became (l0 : plocal) (xs : list item) (l : plocal) : Prop :=
    forall ys, same (filter P (mailbox (arrive (xs ++ ys) l0))) (filter P (mailbox (arrive ys l))).
  Lemma arrive0 l : arrive [] l = l.
  Proof. unfold arrive. rewrite app_nil_r. by destruct l. Qed.
  Lemma became_refl l : became l [] l.
  Proof. intros ys. apply same_refl. Qed.
  Lemma became_touch l0 xs l zs l' : became l0 xs l -> l_items l' = l_items l -> l_chan l' = l_chan l ++ zs ->
    (forall r, ~ K r -> l_monitors l' !! r = l_monitors l !! r) -> became l0 (xs ++ zs) l'.
  Proof.
    intros HJ Hi Hc Hm ys. rewrite <- app_assoc. eapply same_trans; [apply HJ|].
    assert (filter P (mailbox (arrive (zs ++ ys) l)) = filter P (mailbox (arrive ys l'))) as ->; [|apply same_refl].
    unfold mailbox. cbn. rewrite Hi, Hc, <- app_assoc. apply (pick_off _ _ HP). intros r Hr. rewrite !elem_of_dom, Hm by done. done.
  Qed.
  Context (f : message -> bool).
  Lemma became_wait l0 xs l l' : became l0 xs l -> select S T f false l = (Waiting, l') -> became l0 xs l'.
  Proof.
    intros HJ E ys. eapply same_trans; [apply HJ|]. apply same_filter.
    destruct (waited_same S Hty T f false l [] l' (waited_start _ _ _ _ _ _ E)) as [_ H]. apply (H ys).
  Qed.
  Lemma wait_unwanted l l' : select S T f false l = (Waiting, l') -> Forall (fun p => wanted S T f p = false) (mailbox l).
  Proof.
    intros E. destruct (waited_same S Hty T f false l [] l' (waited_start _ _ _ _ _ _ E)) as [H _]. change (concat []) with (@nil item) in H. by rewrite arrive0 in H.
  Qed.
  (** A message was taken that [P] does not pick. *)
  Lemma became_take l0 xs l m l' : became l0 xs l -> select S T f false l = (Found m, l') ->
    (forall p, read S T p = Some m -> ~ P p) -> became l0 xs l'.
  Proof.
    intros HJ E Hm ys. eapply same_trans; [apply HJ|]. apply (select_spec S Hty) in E as (_ & pre & pre' & Hs & _ & _ & p & Hr & _ & H).
    destruct (H ys) as (post & -> & ->). rewrite !list.filter_app, filter_cons_False by auto. apply same_app; [by apply same_filter|apply same_refl].
  Qed.
  (** A message was taken that [P] picks. *)
  Lemma became_got l0 xs l m l' : became l0 xs l -> select S T f false l = (Found m, l') ->
    (forall p, read S T p = Some m -> P p) ->
    exists pre, Forall (fun p => wanted S T f p = false) pre /\ forall ys, exists p post, read S T p = Some m /\
      filter P (mailbox (arrive (xs ++ ys) l0)) = pre ++ p :: post /\ same (pre ++ post) (filter P (mailbox (arrive ys l'))).
  Proof.
    intros HJ E Hm. apply (select_spec S Hty) in E as (_ & pre & pre' & Hs & Hu & _ & p & Hr & Hf & H).
    assert (forall ys, exists pre0 p0 post0, filter P (mailbox (arrive (xs ++ ys) l0)) = pre0 ++ p0 :: post0 /\ same pre0 (filter P pre) /\
       read S T p0 = Some m /\ same (pre0 ++ post0) (filter P (mailbox (arrive ys l')))) as Hall.
    { intros ys. destruct (H ys) as (post & E1 & E2). pose proof (HJ ys) as Hj. rewrite E1, list.filter_app, filter_cons_True in Hj by auto.
      unfold kept_mailbox in Hj. apply Forall2_app_inv_r in Hj as (pre0 & q0 & Hj1 & Hj2 & ->).
      inversion Hj2 as [|p0 ? post0 ? Hp Hpost E3 E4]; subst. exists pre0, p0, post0. split; [done|]. split; [done|]. split.
      - by rewrite <- (kept_read S Hty T _ _ Hp).
      - rewrite E2, list.filter_app. apply same_app; [|done]. eapply same_trans; [exact Hj1|]. by apply same_filter. }
    destruct (Hall []) as (pre0 & p0 & post0 & E1 & E2 & E3 & E4). exists pre0. split.
    - apply Forall_forall. intros q Hq. apply elem_of_list_lookup in Hq as [i Hq]. destruct (Forall2_lookup_l _ _ _ _ _ E2 Hq) as (q' & Hq' & Hk).
      rewrite <- (kept_wanted S Hty T f _ _ Hk). apply elem_of_list_lookup_2 in Hq'. apply elem_of_list_filter in Hq' as [_ Hq'].
      by apply (proj1 (Forall_forall _ _) Hu).
    - intros ys. destruct (Hall ys) as (pre1 & p1 & post1 & F1 & F2 & F3 & F4).
      assert (pre1 = pre0) as ->; [|eauto].
      assert (exists z, filter P (mailbox (arrive (xs ++ ys) l0)) = filter P (mailbox (arrive xs l0)) ++ z) as (z & Ez).
      { assert (forall M q q', exists z, visible M (q ++ q') = visible M q ++ z) as Hv.
        { clear. intros M q. revert M. induction q as [|x q IH]; intros M q'; [by eexists|].
          destruct x; cbn [app visible]; repeat case_decide; try apply IH;
            match goal with |- context [visible ?M (q ++ ?q')] => destruct (IH M q') as (z & ->) end; by exists z. }
        unfold mailbox. cbn. rewrite (app_assoc (l_chan l0)), (app_assoc (l_items l0)). destruct (Hv (dom (l_monitors l0)) (l_items l0 ++ l_chan l0 ++ xs) ys) as (z & ->).
        rewrite list.filter_app. by eexists. }
      rewrite app_nil_r in E1. rewrite Ez, E1, <- app_assoc in F1. cbn in F1.
      apply Forall2_length in E2. apply Forall2_length in F2. apply app_inj_1 in F1 as [-> _]; [done|]. congruence.
  Qed.
End keep.

(** ** The monitor entry stays while nothing is found *)
Section watch.
  Context (S : serde) (k : N).
  Notation r0 := (RLocal k).
  (** No converted notice for [k], and no node-down notice. *)
  Definition clean (x : item) : Prop :=
    match x with ISystem m => mdown k m = 0 | INodeDown _ r => r <> r0 | _ => True end.
  Notation fires m := (exists d why, m = MSystem (SProcessDown d r0 why)).
  Lemma item_keeps T x l r x' l' : process_item S T x l = (r, x', l') -> clean x -> is_Some (l_monitors l !! r0) ->
    (exists d why, x = IProcessDown d r0 why /\ r = PMsg (MSystem (SProcessDown d r0 why))) \/
    (is_Some (l_monitors l' !! r0) /\ forall d why, r <> PMsg (MSystem (SProcessDown d r0 why))).
  Proof.
    unfold process_item. intros H Hc Hm. destruct x as [b|v|m|d rf why|n rf|rf p|i].
    - right. destruct (de S T b); repeat case_match; simplify_eq; split; try done; intros; discriminate.
    - right. repeat case_match; simplify_eq; split; try done; intros; discriminate.
    - right. simplify_eq. split; [done|]. intros d why [= ->]. cbn in Hc. rewrite decide_True in Hc by done. discriminate.
    - destruct (decide (rf = r0)) as [->|Hne].
      + destruct Hm as [pm Hm]. rewrite Hm in H. simplify_eq. left. eauto.
      + right. destruct (l_monitors l !! rf); simplify_eq; cbn; rewrite ?lookup_delete_ne by done; (split; [done|]); intros; congruence.
    - right. cbn in Hc. destruct (l_monitors l !! rf); simplify_eq; cbn; rewrite ?lookup_delete_ne by done; (split; [done|]); intros; congruence.
    - right. simplify_eq. cbn. split; [|intros; discriminate]. destruct (decide (rf = r0)) as [->|Hne].
      + rewrite lookup_alter. destruct Hm as [? ->]. by eexists.
      + by rewrite lookup_alter_ne.
    - right. simplify_eq. cbn. split; [done|intros; discriminate].
  Qed.
  Context (T : N) (f : message -> bool) (Hf : forall d why, f (MSystem (SProcessDown d r0 why)) = true).
  Definition fired (s : sel) (its : list item) : Prop := exists d why, IProcessDown d r0 why ∈ its /\ s = Found (MSystem (SProcessDown d r0 why)).
  Definition unfired (s : sel) (l' : plocal) : Prop := is_Some (l_monitors l' !! r0) /\ forall d why, s <> Found (MSystem (SProcessDown d r0 why)).
  Lemma scan_items_keeps its l s its' l' : scan_items S T f false its l = (s, its', l') -> Forall clean its -> is_Some (l_monitors l !! r0) ->
    fired s its \/ unfired s l'.
  Proof.
    revert l s its' l'; induction its as [|x its IH]; intros l s its' l' H Hc Hm; cbn in H; [simplify_eq; right; split; [done|intros; discriminate]|].
    inversion_clear Hc as [|? ? Hx Hi]. destruct (process_item S T x l) as [[r x1] l1] eqn:E.
    destruct (item_keeps _ _ _ _ _ _ E Hx Hm) as [(d & why & -> & ->)|[Hm1 Hr]].
    - rewrite Hf in H. simplify_eq. left. exists d, why. split; [set_solver|done].
    - destruct (scan_items S T f false its l1) as [[s2 i2] l2] eqn:E2.
      assert (fired s2 (x :: its) \/ unfired s2 l2) as H2.
      { destruct (IH _ _ _ _ E2 Hi Hm1) as [(d & why & H1 & H2)|?]; [|by right]. left. exists d, why. split; [set_solver|done]. }
      destruct r as [m| |]; [destruct (f m)| |]; simplify_eq; try done. right. split; [done|]. intros d why [= ->]. by eapply Hr.
  Qed.
  Lemma scan_chan_keeps ch l s l' : scan_chan S T f false ch l = (s, l') -> Forall clean ch -> is_Some (l_monitors l !! r0) ->
    fired s ch \/ unfired s l'.
  Proof.
    revert l; induction ch as [|x ch IH]; intros l H Hc Hm; cbn in H; [simplify_eq; right; split; [done|intros; discriminate]|].
    inversion_clear Hc as [|? ? Hx Hi]. destruct (process_item S T x l) as [[r x1] l1] eqn:E.
    destruct (item_keeps _ _ _ _ _ _ E Hx Hm) as [(d & why & -> & ->)|[Hm1 Hr]].
    - rewrite Hf in H. simplify_eq. left. exists d, why. split; [set_solver|done].
    - assert (forall l2, scan_chan S T f false ch l2 = (s, l') -> is_Some (l_monitors l2 !! r0) -> fired s (x :: ch) \/ unfired s l') as H2.
      { intros l2 E2 Hm2. destruct (IH _ E2 Hi Hm2) as [(d & why & H1 & H2)|?]; [|by right]. left. exists d, why. split; [set_solver|done]. }
      destruct r as [m| |]; [destruct (f m)| |]; try (by eapply H2). simplify_eq. right. split; [done|]. intros d why [= ->]. by eapply Hr.
  Qed.
  Lemma select_keeps l s l' : select S T f false l = (s, l') -> Forall clean (l_items l ++ l_chan l) -> is_Some (l_monitors l !! r0) ->
    fired s (l_items l ++ l_chan l) \/ unfired s l'.
  Proof.
    unfold select. intros H Hc Hm. apply Forall_app in Hc as [Hc1 Hc2].
    destruct (scan_items S T f false (l_items l) l) as [[s1 its] l1] eqn:E.
    assert (l_chan l1 = l_chan l) as Ec by (by apply scan_items_count with (k := k) in E as [_ ?]).
    destruct (scan_items_keeps _ _ _ _ _ E Hc1 Hm) as [(d & why & H1 & ->)|[Hm1 Hs]].
    - simplify_eq. left. exists d, why. split; [set_solver|done].
    - destruct s1 as [m| |]; simplify_eq; [by right| |by right]. rewrite Ec in H.
      destruct (scan_chan_keeps _ _ _ _ H Hc2) as [(d & why & H1 & ->)|?]; [done| |by right]. left. exists d, why. split; [set_solver|done].
  Qed.
End watch.

(** ** After a monitor has fired or been removed nothing comes of it any more *)
Section dead.
  Context (S : serde) (Hty : serde_typed S) (me k : N).
  Local Arguments ripes : simpl never.
  Notation r0 := (RLocal k).
  Notation other := (other S me).
  Notation tk := (tok (fun _ : world => True) (rcv_cnt k) (fun v h => received_down k v <= h)).
  Definition dead (s : sys world val) : Prop := rcv_cnt k (s_world s) = 0 /\ Forall (tk 0) (s_threads s).
  Lemma dead_tick g f (kk : world -> prog world val) w : tk 0 (Atom g f kk) -> g w = true -> rcv_cnt k w = 0 ->
    rcv_cnt k (f w) = 0 /\ tk 0 (kk w).
  Proof. intros H Hg H0. destruct (H w I Hg) as (_ & h & H1 & H2). assert (h = 0) as -> by lia. split; [lia|exact H2]. Qed.
  Lemma dead_other s s' : other s s' -> dead s -> dead s'.
  Proof.
    intros [i ? ? Ht|p ? (c & Hc & ->)] [H0 Hf].
    - unfold tick in Ht. destruct (s_threads s0 !! i) as [[| |g f kk]|] eqn:E; try discriminate.
      destruct (g (s_world s0)) eqn:Hg; [|discriminate]. injection Ht as <-.
      pose proof (Forall_lookup_1 _ _ _ _ Hf E) as Hp. destruct (dead_tick _ _ _ _ Hp Hg H0) as [A B].
      split; [exact A|]. cbn. apply Forall_insert; [exact Hf|exact B].
    - split; [exact H0|]. cbn. apply Forall_app. split; [exact Hf|]. constructor; [|constructor]. apply call_tok_rcv.
  Qed.
  Lemma dead_others s s' : rtc other s s' -> dead s -> dead s'.
  Proof. induction 1; [done|]. intros. eauto using dead_other. Qed.
  Lemma dead_busy s p v s' : busy S me s p v s' -> tk 0 p -> dead s -> dead s' /\ received_down k v = 0.
  Proof.
    induction 1 as [s v|s s1 p v s2 H1 H IH|w ts g f kk v s2 Hg H IH]; intros Hp Hs.
    - split; [done|]. cbn in Hp. lia.
    - apply IH; [done|]. by eapply dead_other.
    - destruct Hs as [H0 Hf]. destruct (dead_tick _ _ _ _ Hp Hg H0) as [A B]. apply IH; [exact B|]. by split.
  Qed.
  Lemma dead_loc w ts l l' : w_loc w !! me = Some l -> mcount k l' <= mcount k l -> dead (Sys w ts) -> dead (Sys (up_loc (<[me := l']>) w) ts).
  Proof.
    intros El Hc [H0 Hf]. split; [|exact Hf]. cbn in *. unfold rcv_cnt in *; cbn.
    pose proof (msum_insert (mcount k) (w_loc w) me l') as H. rewrite El in H. lia.
  Qed.
  Lemma retain_count T f its l its' l' : retain_items S T f false its l = Some (its', l') ->
    has k (l_monitors l') + ripes k its' <= has k (l_monitors l) + ripes k its /\ l_chan l' = l_chan l.
  Proof.
    revert l its' l'; induction its as [|x its IH]; intros l its' l' H; cbn in H; [by simplify_eq|].
    destruct (process_item S T x l) as [[r x1] l1] eqn:E. apply (process_item_count S k) in E as (E1 & E2 & E3 & E4).
    destruct (retain_items S T f false its l1) as [[i2 l2]|] eqn:E5; [|by destruct r].
    destruct (IH _ _ _ E5) as [F1 F2]. destruct r as [m| |]; [destruct (f m)| |]; cbn in H; simplify_eq;
      rewrite ?ripes_cons; (split; [lia|congruence]).
  Qed.
  Lemma drain_count T f ch l l' : drain_chan S T f false ch l = Some l' ->
    mcount k l' <= has k (l_monitors l) + ripes k (l_items l) + ripes k ch.
  Proof.
    revert l; induction ch as [|x ch IH]; intros l H; cbn in H; [simplify_eq; unfold mcount; cbn [l_monitors l_items l_chan set_chan]; rewrite ripes_nil; lia|].
    destruct (process_item S T x l) as [[r x1] l1] eqn:E. apply (process_item_count S k) in E as (E1 & E2 & E3 & E4).
    rewrite ripes_cons. destruct r as [m| |].
    - destruct (f m); apply IH in H; [rewrite E3 in H; lia|]. cbn in H. rewrite ripes_app, E3 in H. change (ripes k [x1]) with (ripe k x1 + 0) in H. lia.
    - apply IH in H. rewrite E3 in H. lia.
    - apply IH in H. cbn in H. rewrite ripes_app, E3 in H. change (ripes k [x1]) with (ripe k x1 + 0) in H. lia.
  Qed.
  Lemma remove_count T f l l' : remove S T f false l = Some l' -> mcount k l' <= mcount k l.
  Proof.
    unfold remove. destruct (retain_items S T f false (l_items l) l) as [[its l1]|] eqn:E; [|discriminate]. cbn. intros H.
    apply retain_count in E as [E1 E2]. apply drain_count in H. cbn in H. unfold mcount at 2. rewrite E2 in H. lia.
  Qed.
  Lemma dead_mcount w ts l : dead (Sys w ts) -> w_loc w !! me = Some l -> mcount k l = 0.
  Proof. intros [H _] El. cbn in H. unfold rcv_cnt in H. pose proof (msum_ge (mcount k) _ _ _ El). lia. Qed.

  (** A deed by which the client sees a notice of the monitor [k]. *)
  Definition saw (d : deed) : Prop :=
    match d with
    | Got (MSystem m) => about k (PSys m)
    | Did _ v => got_notice k v
    | _ => False
    end.
  Lemma mdown_about m : mdown k m = 0 -> ~ about k (PSys m).
  Proof. destruct m; cbn; try tauto; case_decide; try done. Qed.
  Lemma dead_step {R} (x : sys world val * cstate R) a y : cstep S me x a y ->
    dead (fst x) -> match snd x with Busy _ p _ => tk 0 p | _ => True end ->
    (dead (fst y) /\ match snd y with Busy _ p _ => tk 0 p | _ => True end) /\ Forall (fun d => ~ saw d) a.
  Proof.
    intros Hs Hd Hb. destruct Hs; cbn [fst snd] in *; try (split; [split; [done|done]|constructor]; fail).
    - split; [|constructor]. split; [by eapply dead_other|done].
    - split; [|constructor]. split; [done|apply call_tok_rcv].
    - split; [|constructor]. destruct Hd as [H0 Hf]. destruct (dead_tick _ _ _ _ Hb H H0) as [A B]. by split.
    - split; [by split|]. constructor; [|constructor]. cbn. cbn in Hb. rewrite received_got in Hb. destruct (decide (got_notice k v)); [lia|done].
    - apply loop_receive in H as (l & l' & El & Es & ->). split; [|constructor]. split; [|done].
      apply (dead_loc w ts l); [done| |done]. apply (select_count S k) in Es. lia.
    - apply loop_receive in H as (l & l' & El & Es & ->). apply (select_count S k) in Es. pose proof (dead_mcount _ _ _ Hd El). split.
      + split; [|done]. apply (dead_loc w ts l); [done|lia|done].
      + constructor; [|constructor]. destruct m as [v|m]; [cbn; tauto|]. cbn. apply mdown_about. cbn in Es. lia.
    - apply loop_receive in H as (l & l' & El & Es & ->). split; [|constructor; [tauto|constructor]]. split; [|done].
      apply (dead_loc w ts l); [done| |done]. apply (select_count S k) in Es. lia.
    - split; [|constructor; [tauto|constructor]]. split; [|done]. apply (dead_loc w ts l); [done| |done]. by eapply remove_count.
  Qed.
  Lemma dead_silent {R} (x : sys world val * cstate R) tr y : cruns S me x tr y ->
    dead (fst x) -> match snd x with Busy _ p _ => tk 0 p | _ => True end -> Forall (fun d => ~ saw d) tr.
  Proof.
    induction 1 as [x|x a y tr z Hs H IH]; intros Hd Hb; [constructor|]. destruct (dead_step _ _ _ Hs Hd Hb) as [[H1 H2] H3].
    apply Forall_app. split; [done|]. by apply IH.
  Qed.
  Lemma dead_mailbox l : mcount k l = 0 -> filter (fun p => ~ about k p) (mailbox l) = mailbox l.
  Proof.
    intros H. unfold mcount in H.
    assert (ripes k (l_items l ++ l_chan l) = 0) as Hr by (rewrite ripes_app; lia).
    assert (r0 ∉ (dom (l_monitors l) : gset reference)) as Hm.
    { rewrite not_elem_of_dom. unfold has in H. destruct (l_monitors l !! r0); [lia|done]. }
    unfold mailbox. revert Hr Hm. generalize (l_items l ++ l_chan l) (dom (l_monitors l) : gset reference). clear.
    intros q. induction q as [|x q IH]; intros M Hr Hm; [done|]. rewrite ripes_cons in Hr.
    destruct x as [b|v|m|d r why|n r|r p|i]; cbn [visible].
    - rewrite filter_cons_True by (cbn; auto). f_equal. apply IH; [lia|done].
    - rewrite filter_cons_True by (cbn; auto). f_equal. apply IH; [lia|done].
    - rewrite filter_cons_True by (apply mdown_about; cbn in Hr; lia). f_equal. apply IH; [lia|done].
    - case_decide; [|apply IH; [lia|done]]. rewrite filter_cons_True by (cbn; congruence). f_equal. apply IH; [lia|set_solver].
    - case_decide; [|apply IH; [lia|done]]. rewrite filter_cons_True by (cbn; congruence). f_equal. apply IH; [lia|set_solver].
    - apply IH; [lia|done].
    - apply IH; [lia|done].
  Qed.

  (** The one receipt, and the removal. *)
  Lemma backed_spent s own w' : backed S s own -> 1 <= rcv_cnt k (s_world s) -> rcv_cnt k w' + 1 <= rcv_cnt k (s_world s) ->
    dead (Sys w' (s_threads s)).
  Proof.
    intros (us & Hr & Hp) H1 H2. destruct (reachable_rcv S k _ Hr) as (hs & A1 & A2). cbn in *. split; [cbn; lia|]. cbn.
    assert (list_sum hs = 0) as H0 by lia. apply sum0 in H0. apply Forall_forall. intros p Hin.
    assert (p ∈ us) as Hu by (rewrite Hp; set_solver). apply elem_of_list_lookup_1 in Hu as [i Ei].
    destruct (Forall2_lookup_r _ _ _ _ _ A1 Ei) as (h & Eh & Ht). by pose proof (Forall_lookup_1 _ _ _ _ H0 Eh) as <-.
  Qed.
  Lemma spent_found w ts own l m l' T f : backed S (Sys w ts) own -> w_loc w !! me = Some l -> select S T f false l = (Found (MSystem m), l') ->
    about k (PSys m) -> dead (Sys (up_loc (<[me := l']>) w) ts).
  Proof.
    intros Hb El Es Hm. apply (select_count S k) in Es. cbn in Es.
    assert (mdown k m = 1) as Em by (destruct m; cbn in *; try done; by rewrite decide_True).
    pose proof (msum_ge (mcount k) _ _ _ El). apply (backed_spent _ _ _ Hb); cbn.
    - unfold rcv_cnt. lia.
    - unfold rcv_cnt; cbn. pose proof (msum_insert (mcount k) (w_loc w) me l') as Hi. rewrite El in Hi. lia.
  Qed.
  Lemma spent_removed w ts own l : backed S (Sys w ts) own -> w_loc w !! me = Some l -> is_Some (l_monitors l !! r0) ->
    dead (Sys (up_loc (alter (upd_monitors (delete r0)) me) w) ts).
  Proof.
    intros Hb El [pm Hm]. assert (mcount k (upd_monitors (delete r0) l) + 1 = mcount k l) as Hc.
    { unfold mcount, has; cbn. rewrite lookup_delete, Hm. lia. }
    assert (alter (upd_monitors (delete r0)) me (w_loc w) = <[me := upd_monitors (delete r0) l]> (w_loc w)) as Ea.
    { apply map_eq; intros j. destruct (decide (j = me)) as [->|Hne].
      - by rewrite lookup_alter, lookup_insert, El.
      - by rewrite lookup_alter_ne, lookup_insert_ne by done. }
    pose proof (msum_ge (mcount k) _ _ _ El). apply (backed_spent _ _ _ Hb); cbn.
    - unfold rcv_cnt. lia.
    - unfold rcv_cnt; cbn. rewrite Ea. pose proof (msum_insert (mcount k) (w_loc w) me (upd_monitors (delete r0) l)) as Hi. rewrite El in Hi. lia.
  Qed.
End dead.
