(** Proofs about the mailbox model. *)
From stdpp Require Import base list gmap numbers strings countable.
From Verif Require Import Types Mailbox MailboxSpec.

Section proofs.
  Context (S : serde) (Hty : serde_typed S).
  Context (T : N) (f : message -> bool).

  Notation mons l := (dom (l_monitors l) : gset reference).
  Notation same := (kept_mailbox S T).
  Notation unwanted := (Forall (fun p => wanted S T f p = false)).

  (** [its] contributes exactly [a] to the mailbox, whatever monitors of [M0] are left. *)
  Definition settled (M0 : gset reference) (its : list item) (a : list pend) : Prop :=
    forall M, M ⊆ M0 -> forall q, visible M (its ++ q) = a ++ visible M q.

  Lemma settled_nil M : settled M [] [].
  Proof. intros M' _ q. reflexivity. Qed.
  Lemma settled_mono M M' its a : settled M its a -> M' ⊆ M -> settled M' its a.
  Proof. intros H Hs M'' H'' q. apply H. set_solver. Qed.
  Lemma settled_app M i1 a1 i2 a2 : settled M i1 a1 -> settled M i2 a2 -> settled M (i1 ++ i2) (a1 ++ a2).
  Proof. intros H1 H2 M' HM q. rewrite <- !app_assoc, H1, H2 by assumption. reflexivity. Qed.
  Lemma settled_cons M x a i2 a2 : settled M [x] a -> settled M i2 a2 -> settled M (x :: i2) (a ++ a2).
  Proof. intros H1 H2. apply (settled_app M [x] a i2 a2 H1 H2). Qed.

  Lemma kept_refl p : kept S T p p.
  Proof. left. reflexivity. Qed.
  Lemma kept_read p q : kept S T p q -> read S T q = read S T p.
  Proof.
    intros [->|(b & v & -> & E & ->)]; [reflexivity|]. cbn. rewrite E.
    rewrite (decide_True _ _ (Hty _ _ _ E)). reflexivity.
  Qed.
  Lemma kept_wanted p q : kept S T p q -> wanted S T f q = wanted S T f p.
  Proof. intros H. unfold wanted. rewrite (kept_read p q H). reflexivity. Qed.
  Lemma same_refl l : same l l.
  Proof. induction l; constructor; auto using kept_refl. Qed.
  Lemma same_app a b c d : same a b -> same c d -> same (a ++ c) (b ++ d).
  Proof. apply Forall2_app. Qed.
  Lemma same_trans a b c : same a b -> same b c -> same a c.
  Proof.
    intros H1. revert c. induction H1 as [|x y a b Hx H IH]; intros c H2; inversion H2 as [|? z ? c' Hz Hc]; subst; constructor.
    - destruct Hx as [->|(b0 & v & -> & E & ->)]; [exact Hz|]. destruct Hz as [->|(b1 & v1 & [=] & _)].
      right. exists b0, v. auto.
    - apply IH. assumption.
  Qed.
  Lemma same_all a b : serde_unambiguous S -> same a b -> same_mailbox S a b.
  Proof.
    intros Hun. induction 1 as [|x y a b Hx H IH]; constructor; [|exact IH].
    intros T'. destruct Hx as [->|(b0 & v & -> & E & ->)]; [reflexivity|]. cbn.
    destruct (de S T' b0) as [v'|] eqn:E'; cbn.
    - assert (T = T') by (eapply Hun; eauto). subst T'. rewrite E in E'. injection E' as <-.
      rewrite (decide_True _ _ (Hty _ _ _ E)). reflexivity.
    - rewrite (Hty _ _ _ E). rewrite decide_False; [reflexivity|]. intros ->. congruence.
  Qed.

  Lemma item_step x l r x' l' :
    process_item S T x l = (r, x', l') ->
    l_items l' = l_items l /\ l_chan l' = l_chan l /\ mons l' ⊆ mons l /\
    match r with
    | PMsg m => exists p p', (forall q, visible (mons l) (x :: q) = p :: visible (mons l') q) /\
                  read S T p = Some m /\ kept S T p p' /\ settled (mons l') [x'] [p']
    | PErr => exists p, (forall q, visible (mons l) (x :: q) = p :: visible (mons l') q) /\
                  read S T p = None /\ settled (mons l') [x'] [p]
    | PSkip => (forall q, visible (mons l) (x :: q) = visible (mons l') q) /\ settled (mons l') [x'] []
    end.
  Proof.
    unfold process_item. destruct x as [b|v|m|d rf why|n rf|rf p|i].
    - destruct (de S T b) as [v|] eqn:E.
      + rewrite (decide_True _ _ (Hty _ _ _ E)). intros [= <- <- <-]. repeat split; try set_solver.
        exists (PBytes b), (PVal v). repeat split.
        * cbn. rewrite E. reflexivity.
        * right. exists b, v. auto.
      + intros [= <- <- <-]. repeat split; try set_solver. exists (PBytes b). repeat split. cbn. rewrite E. reflexivity.
    - destruct (decide (v_type v = T)) as [E|E]; intros [= <- <- <-]; repeat split; try set_solver.
      + exists (PVal v), (PVal v). repeat split; [|apply kept_refl]. cbn. rewrite decide_True by exact E. reflexivity.
      + exists (PVal v). repeat split. cbn. rewrite decide_False by exact E. reflexivity.
    - intros [= <- <- <-]. repeat split; try set_solver. exists (PSys m), (PSys m). repeat split. apply kept_refl.
    - destruct (l_monitors l !! rf) as [pm|] eqn:E; intros [= <- <- <-]; repeat split; try (cbn; set_solver).
      + exists (PSys (SProcessDown d rf why)), (PSys (SProcessDown d rf why)). repeat split; [|apply kept_refl].
        intros q. cbn. rewrite decide_True by (apply elem_of_dom; eauto). rewrite dom_delete_L. reflexivity.
      + intros q. cbn. rewrite decide_False by (apply not_elem_of_dom; exact E). reflexivity.
      + intros M HM q. cbn. rewrite decide_False; [reflexivity|]. apply not_elem_of_dom in E. set_solver.
    - destruct (l_monitors l !! rf) as [pm|] eqn:E; intros [= <- <- <-]; repeat split; try (cbn; set_solver).
      + exists (PSys (SNodeDown n rf)), (PSys (SNodeDown n rf)). repeat split; [|apply kept_refl].
        intros q. cbn. rewrite decide_True by (apply elem_of_dom; eauto). rewrite dom_delete_L. reflexivity.
      + intros q. cbn. rewrite decide_False by (apply not_elem_of_dom; exact E). reflexivity.
      + intros M HM q. cbn. rewrite decide_False; [reflexivity|]. apply not_elem_of_dom in E. set_solver.
    - intros [= <- <- <-]. assert (mons (upd_monitors (alter (fun _ => MForProcess (Some p)) rf) l) = mons l) as Hd.
      { cbn. apply dom_alter_L. }
      rewrite Hd. repeat split; try set_solver.
    - intros [= <- <- <-]. repeat split; try set_solver.
  Qed.

  Definition readable (p : pend) : Prop := read S T p <> None.

  Lemma scan_items_spec strict its l s its' l' :
    scan_items S T f strict its l = (s, its', l') ->
    l_items l' = l_items l /\ l_chan l' = l_chan l /\ mons l' ⊆ mons l /\
    exists pre pre', same pre pre' /\ unwanted pre /\ (strict = true -> Forall readable pre) /\
    match s with
    | Waiting => (forall q, visible (mons l) (its ++ q) = pre ++ visible (mons l') q) /\ settled (mons l') its' pre'
    | Found m => exists its1 rest p, its' = its1 ++ rest /\ read S T p = Some m /\ f m = true /\
        (forall q, visible (mons l) (its ++ q) = pre ++ p :: visible (mons l') (rest ++ q)) /\ settled (mons l') its1 pre'
    | TypePanic => strict = true /\ exists p rest, read S T p = None /\
        (forall q, visible (mons l) (its ++ q) = pre ++ p :: visible (mons l') (rest ++ q))
    end.
  Proof.
    revert l s its' l'; induction its as [|x its IH]; intros l s its' l' H; cbn [scan_items] in H.
    { injection H as <- <- <-. repeat split; try set_solver. exists [], []. repeat split; constructor. }
    destruct (process_item S T x l) as [[r x1] l1] eqn:E.
    apply item_step in E as (Hi & Hc & Hm & Hr).
    assert (Hrec : forall s its1 l2 p p',
      scan_items S T f strict its l1 = (s, its1, l2) ->
      (forall q, visible (mons l) (x :: q) = p ++ visible (mons l1) q) -> same p p' -> settled (mons l1) [x1] p' ->
      unwanted p -> (strict = true -> Forall readable p) -> s = s -> 
      l_items l2 = l_items l /\ l_chan l2 = l_chan l /\ mons l2 ⊆ mons l /\
      exists pre pre', same pre pre' /\ unwanted pre /\ (strict = true -> Forall readable pre) /\
      match s with
      | Waiting => (forall q, visible (mons l) ((x :: its) ++ q) = pre ++ visible (mons l2) q) /\ settled (mons l2) (x1 :: its1) pre'
      | Found m => exists i1 rest p, x1 :: its1 = i1 ++ rest /\ read S T p = Some m /\ f m = true /\
          (forall q, visible (mons l) ((x :: its) ++ q) = pre ++ p :: visible (mons l2) (rest ++ q)) /\ settled (mons l2) i1 pre'
      | TypePanic => strict = true /\ exists p rest, read S T p = None /\
          (forall q, visible (mons l) ((x :: its) ++ q) = pre ++ p :: visible (mons l2) (rest ++ q))
      end).
    { intros s0 its1 l2 p p' Hs Hv Hsame Hset Hw Hrd _. apply IH in Hs as (Hi2 & Hc2 & Hm2 & pre & pre' & Hsm & Hun' & Hrd' & Hmain).
      split; [congruence|]. split; [congruence|]. split; [set_solver|].
      exists (p ++ pre), (p' ++ pre'). split; [apply same_app; assumption|].
      split; [apply Forall_app; auto|]. split; [intros; apply Forall_app; auto|].
      destruct s0 as [m| |].
      - destruct Hmain as (i1 & rest & p0 & -> & Hrp & Hf & Hq & Hst).
        exists (x1 :: i1), rest, p0. repeat split; try assumption.
        + intros q. cbn [app]. rewrite Hv, Hq, <- ?app_assoc. reflexivity.
        + apply settled_cons; [eapply settled_mono; eauto|exact Hst].
      - destruct Hmain as (Hq & Hst). split.
        + intros q. cbn [app]. rewrite Hv, Hq, <- ?app_assoc. reflexivity.
        + apply settled_cons; [eapply settled_mono; eauto|exact Hst].
      - destruct Hmain as (Hstr & p0 & rest & Hrp & Hq). split; [exact Hstr|]. exists p0, rest. split; [exact Hrp|].
        intros q. cbn [app]. rewrite Hv, Hq, <- ?app_assoc. reflexivity. }
    destruct r as [m| |].
    - destruct Hr as (p & p' & Hv & Hrp & Hsm & Hst).
      destruct (f m) eqn:Ef.
      + injection H as <- <- <-. split; [exact Hi|]. split; [exact Hc|]. split; [exact Hm|].
        exists [], []. split; [constructor|]. split; [constructor|]. split; [constructor|].
        exists [], its, p. repeat split; try assumption. intros q. cbn [app]. apply Hv.
      + destruct (scan_items S T f strict its l1) as [[s0 its1] l2] eqn:Es. injection H as <- <- <-.
        eapply (Hrec s0 its1 l2 [p] [p']); try reflexivity.
        * exact Hv. * constructor; [exact Hsm|constructor]. * exact Hst.
        * constructor; [|constructor]. unfold wanted. rewrite Hrp. exact Ef.
        * intros _. constructor; [|constructor]. unfold readable. congruence.
    - destruct Hr as (Hv & Hst).
      destruct (scan_items S T f strict its l1) as [[s0 its1] l2] eqn:Es. injection H as <- <- <-.
      eapply (Hrec s0 its1 l2 [] []); try reflexivity; try assumption; try constructor.
    - destruct Hr as (p & Hv & Hrp & Hst). destruct strict.
      + injection H as <- <- <-. split; [exact Hi|]. split; [exact Hc|]. split; [exact Hm|].
        exists [], []. split; [constructor|]. split; [constructor|]. split; [constructor|].
        split; [reflexivity|]. exists p, its. split; [exact Hrp|]. intros q. cbn [app]. apply Hv.
      + destruct (scan_items S T f false its l1) as [[s0 its1] l2] eqn:Es. injection H as <- <- <-.
        eapply (Hrec s0 its1 l2 [p] [p]); try reflexivity.
        * exact Hv. * apply same_refl. * exact Hst.
        * constructor; [|constructor]. unfold wanted. rewrite Hrp. reflexivity.
        * discriminate.
  Qed.

  Lemma scan_chan_spec strict ch l s l' a :
    settled (mons l) (l_items l) a ->
    scan_chan S T f strict ch l = (s, l') ->
    mons l' ⊆ mons l /\
    exists pre pre', same pre pre' /\ unwanted pre /\ (strict = true -> Forall readable pre) /\
    match s with
    | Waiting => l_chan l' = [] /\ (forall q, visible (mons l) (ch ++ q) = pre ++ visible (mons l') q) /\
                 settled (mons l') (l_items l') (a ++ pre')
    | Found m => exists p, read S T p = Some m /\ f m = true /\
        (forall q, visible (mons l) (ch ++ q) = pre ++ p :: visible (mons l') (l_chan l' ++ q)) /\
        settled (mons l') (l_items l') (a ++ pre')
    | TypePanic => strict = true /\ exists p rest, read S T p = None /\
        (forall q, visible (mons l) (ch ++ q) = pre ++ p :: visible (mons l') (rest ++ q))
    end.
  Proof.
    revert l s l' a; induction ch as [|x ch IH]; intros l s l' a Ha H; cbn [scan_chan] in H.
    { injection H as <- <-. split; [reflexivity|]. exists [], []. repeat split; try constructor.
      rewrite app_nil_r. exact Ha. }
    destruct (process_item S T x l) as [[r x1] l1] eqn:E.
    apply item_step in E as (Hi & Hc & Hm & Hr).
    assert (Hrec : forall l1' s l2 p p' add,
      scan_chan S T f strict ch l1' = (s, l2) ->
      mons l1' = mons l1 -> l_items l1' = l_items l1 ++ add ->
      (forall q, visible (mons l) (x :: q) = p ++ visible (mons l1) q) -> same p p' -> settled (mons l1) add p' ->
      unwanted p -> (strict = true -> Forall readable p) -> 
      mons l2 ⊆ mons l /\
      exists pre pre', same pre pre' /\ unwanted pre /\ (strict = true -> Forall readable pre) /\
      match s with
      | Waiting => l_chan l2 = [] /\ (forall q, visible (mons l) ((x :: ch) ++ q) = pre ++ visible (mons l2) q) /\
                   settled (mons l2) (l_items l2) (a ++ pre')
      | Found m => exists p, read S T p = Some m /\ f m = true /\
          (forall q, visible (mons l) ((x :: ch) ++ q) = pre ++ p :: visible (mons l2) (l_chan l2 ++ q)) /\
          settled (mons l2) (l_items l2) (a ++ pre')
      | TypePanic => strict = true /\ exists p rest, read S T p = None /\
          (forall q, visible (mons l) ((x :: ch) ++ q) = pre ++ p :: visible (mons l2) (rest ++ q))
      end).
    { intros l1' s0 l2 p p' add Hs Hm1 Hi1 Hv Hsame Hset Hw Hrd.
      eapply (IH l1' s0 l2 (a ++ p')) in Hs as (Hm2 & pre & pre' & Hsm & Hun' & Hrd' & Hmain).
      2:{ rewrite Hm1, Hi1. apply settled_app; [|exact Hset]. rewrite Hi. eapply settled_mono; eauto. }
      rewrite Hm1 in *. split; [set_solver|].
      exists (p ++ pre), (p' ++ pre'). split; [apply same_app; assumption|].
      split; [apply Forall_app; auto|]. split; [intros; apply Forall_app; auto|].
      destruct s0 as [m| |].
      - destruct Hmain as (p0 & Hrp & Hf & Hq & Hst). exists p0. repeat split; try assumption.
        + intros q. cbn [app]. rewrite Hv, Hq, <- ?app_assoc. reflexivity.
        + rewrite app_assoc. exact Hst.
      - destruct Hmain as (Hch & Hq & Hst). repeat split; [exact Hch| |].
        + intros q. cbn [app]. rewrite Hv, Hq, <- ?app_assoc. reflexivity.
        + rewrite app_assoc. exact Hst.
      - destruct Hmain as (Hstr & p0 & rest & Hrp & Hq). split; [exact Hstr|]. exists p0, rest. split; [exact Hrp|].
        intros q. cbn [app]. rewrite Hv, Hq, <- ?app_assoc. reflexivity. }
    destruct r as [m| |].
    - destruct Hr as (p & p' & Hv & Hrp & Hsm & Hst).
      destruct (f m) eqn:Ef.
      + injection H as <- <-. split; [exact Hm|].
        exists [], []. split; [constructor|]. split; [constructor|]. split; [constructor|].
        exists p. split; [exact Hrp|]. split; [exact Ef|]. split; [intros q; cbn [app]; apply Hv|].
        rewrite app_nil_r. cbn [set_chan l_items]. rewrite Hi. eapply settled_mono; eauto.
      + eapply (Hrec _ _ _ [p] [p'] [x1] H); try reflexivity; try assumption.
        * constructor; [exact Hsm|constructor].
        * constructor; [|constructor]. unfold wanted. rewrite Hrp. exact Ef.
        * intros _. constructor; [|constructor]. unfold readable. congruence.
    - destruct Hr as (Hv & Hst).
      eapply (Hrec _ _ _ [] [] [] H); try reflexivity; try assumption; try constructor.
      rewrite app_nil_r. reflexivity.
    - destruct Hr as (p & Hv & Hrp & Hst). destruct strict.
      + injection H as <- <-. split; [exact Hm|].
        exists [], []. split; [constructor|]. split; [constructor|]. split; [constructor|].
        split; [reflexivity|]. exists p, ch. split; [exact Hrp|]. intros q. cbn [app]. apply Hv.
      + eapply (Hrec _ _ _ [p] [p] [x1] H); try reflexivity; try assumption.
        * apply same_refl.
        * constructor; [|constructor]. unfold wanted. rewrite Hrp. reflexivity.
        * discriminate.
  Qed.

  Definition arrive (xs : list item) (l : plocal) : plocal := set_chan (l_chan l ++ xs) l.

  (** The whole of select. *)
  Lemma select_spec strict l s l' :
    select S T f strict l = (s, l') ->
    mons l' ⊆ mons l /\
    exists pre pre', same pre pre' /\ unwanted pre /\ (strict = true -> Forall readable pre) /\
    match s with
    | Waiting => l_chan l' = [] /\ settled (mons l') (l_items l') pre' /\
        (forall q, visible (mons l) ((l_items l ++ l_chan l) ++ q) = pre ++ visible (mons l') q)
    | Found m => exists p, read S T p = Some m /\ f m = true /\
        forall xs, exists post, mailbox (arrive xs l) = pre ++ p :: post /\ mailbox (arrive xs l') = pre' ++ post
    | TypePanic => strict = true /\ exists p post, read S T p = None /\ mailbox l = pre ++ p :: post
    end.
  Proof.
    unfold select. destruct (scan_items S T f strict (l_items l) l) as [[s0 its1] l1] eqn:E.
    apply scan_items_spec in E as (Hi & Hc & Hm & pre & pre' & Hsm & Hu & Hrd & Hmain).
    destruct s0 as [m| |]; intros H.
    - injection H as <- <-. split; [exact Hm|]. exists pre, pre'. split; [exact Hsm|]. split; [exact Hu|].
      split; [exact Hrd|]. destruct Hmain as (i1 & rest & p & -> & Hrp & Hf & Hq & Hst).
      exists p. split; [exact Hrp|]. split; [exact Hf|]. intros xs.
      exists (visible (mons l1) (rest ++ l_chan l ++ xs)). split.
      + unfold mailbox. cbn. apply Hq.
      + unfold mailbox. cbn. rewrite Hc, <- app_assoc. apply Hst. reflexivity.
    - destruct Hmain as (Hq & Hst).
      eapply (scan_chan_spec strict _ (set_items its1 l1) _ _ pre') in H; [|exact Hst].
      destruct H as (Hm2 & pre2 & pre2' & Hsm2 & Hu2 & Hrd2 & Hmain2). cbn [set_items l_monitors] in *.
      split; [set_solver|]. exists (pre ++ pre2), (pre' ++ pre2').
      split; [apply same_app; assumption|]. split; [apply Forall_app; auto|].
      split; [intros; apply Forall_app; auto|].
      destruct s as [m| |].
      + destruct Hmain2 as (p & Hrp & Hf & Hq2 & Hst2). exists p. split; [exact Hrp|]. split; [exact Hf|].
        intros xs. exists (visible (mons l') (l_chan l' ++ xs)). split.
        * unfold mailbox. cbn. rewrite Hq, <- Hc, Hq2, app_assoc. reflexivity.
        * unfold mailbox. cbn. apply Hst2. reflexivity.
      + destruct Hmain2 as (Hch & Hq2 & Hst2). split; [exact Hch|]. split; [exact Hst2|].
        intros q. rewrite <- app_assoc, Hq, <- Hc, Hq2, app_assoc. reflexivity.
      + destruct Hmain2 as (Hstr & p & rest & Hrp & Hq2). split; [exact Hstr|]. eexists p, _. split; [exact Hrp|].
        unfold mailbox. rewrite Hq, <- Hc. rewrite <- (app_nil_r (l_chan l1)), Hq2, app_assoc. reflexivity.
    - injection H as <- <-. split; [exact Hm|]. exists pre, pre'. split; [exact Hsm|]. split; [exact Hu|].
      split; [exact Hrd|]. destruct Hmain as (Hstr & p & rest & Hrp & Hq). split; [exact Hstr|].
      eexists p, _. split; [exact Hrp|]. unfold mailbox. rewrite Hq. reflexivity.
  Qed.

  (** ** Abandoned receives *)
  (** A receive that waited for some arrivals [chunks] and was then abandoned: it left the mailbox
      [l'], having returned nothing. *)
  Inductive waited (strict : bool) : plocal -> list (list item) -> plocal -> Prop :=
  | waited_start l l' : select S T f strict l = (Waiting, l') -> waited strict l [] l'
  | waited_more l l1 cs c l' : waited strict l cs l1 ->
      resume S T f strict (arrive c l1) = (Waiting, l') -> waited strict l (cs ++ [c]) l'.

  Lemma waited_spec strict l cs l' :
    waited strict l cs l' ->
    l_chan l' = [] /\ mons l' ⊆ mons l /\
    exists pre pre', same pre pre' /\ unwanted pre /\ (strict = true -> Forall readable pre) /\
      settled (mons l') (l_items l') pre' /\
      (forall q, visible (mons l) ((l_items l ++ l_chan l) ++ concat cs ++ q) = pre ++ visible (mons l') q).
  Proof.
    induction 1 as [l l' H|l l1 cs c l' H IH Hr].
    - apply select_spec in H as (Hm & pre & pre' & Hsm & Hu & Hrd & Hch & Hst & Hq).
      split; [exact Hch|]. split; [exact Hm|]. exists pre, pre'. repeat split; assumption.
    - destruct IH as (Hch & Hm & pre & pre' & Hsm & Hu & Hrd & Hst & Hq).
      unfold resume in Hr. cbn [arrive set_chan l_chan] in Hr. rewrite Hch in Hr. cbn in Hr.
      eapply (scan_chan_spec strict c _ _ _ pre') in Hr; [|exact Hst].
      destruct Hr as (Hm2 & pre2 & pre2' & Hsm2 & Hu2 & Hrd2 & Hch2 & Hq2 & Hst2). cbn [arrive set_chan l_monitors] in *.
      split; [exact Hch2|]. split; [set_solver|]. exists (pre ++ pre2), (pre' ++ pre2').
      split; [apply same_app; assumption|]. split; [apply Forall_app; auto|].
      split; [intros; apply Forall_app; auto|]. split; [exact Hst2|].
      intros q. rewrite concat_app. cbn [concat]. rewrite app_nil_r, <- (app_assoc (concat cs)), Hq.
      change (arrive c l1) with (arrive c l1) in Hq2. rewrite Hq2, app_assoc. reflexivity.
  Qed.

  Lemma waited_same strict l cs l' :
    waited strict l cs l' ->
    unwanted (mailbox (arrive (concat cs) l)) /\
    forall xs, same (mailbox (arrive (concat cs ++ xs) l)) (mailbox (arrive xs l')).
  Proof.
    intros H. apply waited_spec in H as (Hch & Hm & pre & pre' & Hsm & Hu & Hrd & Hst & Hq).
    assert (Hmb : forall xs, mailbox (arrive (concat cs ++ xs) l) = pre ++ visible (mons l') xs).
    { intros xs. unfold mailbox. cbn. rewrite <- Hq, app_assoc. reflexivity. }
    split.
    - rewrite <- (app_nil_r (concat cs)), Hmb. cbn. rewrite app_nil_r. exact Hu.
    - intros xs. rewrite Hmb. unfold mailbox. cbn. rewrite Hch. cbn. rewrite Hst by reflexivity.
      apply same_app; [exact Hsm|apply same_refl].
  Qed.

  (** ** remove *)
  Lemma filter_unw_cons p l :
    filter (fun p => wanted S T f p = false) (p :: l) =
    if wanted S T f p then filter (fun p => wanted S T f p = false) l
    else p :: filter (fun p => wanted S T f p = false) l.
  Proof. rewrite filter_cons. destruct (wanted S T f p) eqn:E; [rewrite decide_False by congruence|rewrite decide_True by congruence]; reflexivity. Qed.

  Notation keep := (filter (fun p => wanted S T f p = false)).

  Lemma retain_items_spec its l its' l' strict :
    retain_items S T f strict its l = Some (its', l') ->
    l_items l' = l_items l /\ l_chan l' = l_chan l /\ mons l' ⊆ mons l /\
    exists pre pre', same (keep pre) pre' /\ (strict = true -> Forall readable pre) /\
      (forall q, visible (mons l) (its ++ q) = pre ++ visible (mons l') q) /\ settled (mons l') its' pre'.
  Proof.
    revert l its' l'; induction its as [|x its IH]; intros l its' l' H; cbn [retain_items] in H.
    { injection H as <- <-. repeat split; try set_solver. exists [], []. repeat split; constructor. }
    destruct (process_item S T x l) as [[r x1] l1] eqn:E.
    apply item_step in E as (Hi & Hc & Hm & Hr).
    assert (Hrec : forall its1 l2 p p' add,
      retain_items S T f strict its l1 = Some (its1, l2) ->
      (forall q, visible (mons l) (x :: q) = p ++ visible (mons l1) q) -> same (keep p) p' -> settled (mons l1) add p' ->
      (strict = true -> Forall readable p) ->
      l_items l2 = l_items l /\ l_chan l2 = l_chan l /\ mons l2 ⊆ mons l /\
      exists pre pre', same (keep pre) pre' /\ (strict = true -> Forall readable pre) /\
        (forall q, visible (mons l) ((x :: its) ++ q) = pre ++ visible (mons l2) q) /\ settled (mons l2) (add ++ its1) pre').
    { intros its1 l2 p p' add Hs Hv Hsame Hset Hrd.
      apply IH in Hs as (Hi2 & Hc2 & Hm2 & pre & pre' & Hsm & Hrd' & Hq & Hst).
      split; [congruence|]. split; [congruence|]. split; [set_solver|].
      exists (p ++ pre), (p' ++ pre'). rewrite list.filter_app. split; [apply same_app; assumption|].
      split; [intros; apply Forall_app; auto|]. split.
      - intros q. cbn [app]. rewrite Hv, Hq, <- ?app_assoc. reflexivity.
      - apply settled_app; [eapply settled_mono; eauto|exact Hst]. }
    destruct r as [m| |].
    - destruct (retain_items S T f strict its l1) as [[its1 l2]|] eqn:Es; [|discriminate].
      cbn in H. injection H as <- <-. destruct Hr as (p & p' & Hv & Hrp & Hsm & Hst).
      assert (Hw : wanted S T f p = f m) by (unfold wanted; rewrite Hrp; reflexivity).
      assert (Hrd0 : strict = true -> Forall readable [p]) by (intros _; constructor; [unfold readable; congruence|constructor]).
      destruct (f m) eqn:Ef.
      + apply (Hrec its1 l2 [p] [] []); try reflexivity; try assumption; [|apply settled_nil].
        rewrite filter_unw_cons, Hw. constructor.
      + apply (Hrec its1 l2 [p] [p'] [x1]); try reflexivity; try assumption.
        rewrite filter_unw_cons, Hw. constructor; [assumption|constructor].
    - destruct (retain_items S T f strict its l1) as [[its1 l2]|] eqn:Es; [|discriminate].
      cbn in H. injection H as <- <-. destruct Hr as (Hv & Hst).
      apply (Hrec its1 l2 [] [] [x1]); try reflexivity; try assumption; constructor.
    - destruct strict; [discriminate|]. destruct (retain_items S T f false its l1) as [[its1 l2]|] eqn:Es; [|discriminate].
      cbn in H. injection H as <- <-. destruct Hr as (p & Hv & Hrp & Hst).
      assert (Hw : wanted S T f p = false) by (unfold wanted; rewrite Hrp; reflexivity).
      apply (Hrec its1 l2 [p] [p] [x1]); try reflexivity; try assumption; [|discriminate].
      rewrite filter_unw_cons, Hw. apply same_refl.
  Qed.

  Lemma drain_chan_spec strict ch l l' a :
    settled (mons l) (l_items l) a ->
    drain_chan S T f strict ch l = Some l' ->
    l_chan l' = [] /\ mons l' ⊆ mons l /\
    exists pre pre', same (keep pre) pre' /\ (strict = true -> Forall readable pre) /\
      (forall q, visible (mons l) (ch ++ q) = pre ++ visible (mons l') q) /\
      settled (mons l') (l_items l') (a ++ pre').
  Proof.
    revert l a; induction ch as [|x ch IH]; intros l a Ha H; cbn [drain_chan] in H.
    { injection H as <-. repeat split; try set_solver. exists [], []. repeat split; try constructor.
      rewrite app_nil_r. exact Ha. }
    destruct (process_item S T x l) as [[r x1] l1] eqn:E.
    apply item_step in E as (Hi & Hc & Hm & Hr).
    assert (Hrec : forall l1' p p' add,
      drain_chan S T f strict ch l1' = Some l' ->
      mons l1' = mons l1 -> l_items l1' = l_items l1 ++ add ->
      (forall q, visible (mons l) (x :: q) = p ++ visible (mons l1) q) -> same (keep p) p' -> settled (mons l1) add p' ->
      (strict = true -> Forall readable p) ->
      l_chan l' = [] /\ mons l' ⊆ mons l /\
      exists pre pre', same (keep pre) pre' /\ (strict = true -> Forall readable pre) /\
        (forall q, visible (mons l) ((x :: ch) ++ q) = pre ++ visible (mons l') q) /\
        settled (mons l') (l_items l') (a ++ pre')).
    { intros l1' p p' add Hs Hm1 Hi1 Hv Hsame Hset Hrd.
      eapply (IH l1' (a ++ p')) in Hs as (Hch & Hm2 & pre & pre' & Hsm & Hrd' & Hq & Hst).
      2:{ rewrite Hm1, Hi1. apply settled_app; [|exact Hset]. rewrite Hi. eapply settled_mono; eauto. }
      rewrite Hm1 in *. split; [exact Hch|]. split; [set_solver|].
      exists (p ++ pre), (p' ++ pre'). rewrite list.filter_app. split; [apply same_app; assumption|].
      split; [intros; apply Forall_app; auto|]. split.
      - intros q. cbn [app]. rewrite Hv, Hq, <- ?app_assoc. reflexivity.
      - rewrite app_assoc. exact Hst. }
    destruct r as [m| |].
    - destruct Hr as (p & p' & Hv & Hrp & Hsm & Hst).
      assert (Hw : wanted S T f p = f m) by (unfold wanted; rewrite Hrp; reflexivity).
      assert (Hrd0 : strict = true -> Forall readable [p]) by (intros _; constructor; [unfold readable; congruence|constructor]).
      destruct (f m) eqn:Ef.
      + apply (Hrec l1 [p] [] []); try reflexivity; try assumption; [| |apply settled_nil].
        * rewrite app_nil_r. reflexivity.
        * rewrite filter_unw_cons, Hw. constructor.
      + eapply (Hrec _ [p] [p'] [x1] H); try reflexivity; try assumption.
        rewrite filter_unw_cons, Hw. constructor; [assumption|constructor].
    - destruct Hr as (Hv & Hst).
      apply (Hrec l1 [] [] []); try reflexivity; try assumption; try constructor.
      rewrite app_nil_r. reflexivity.
    - destruct strict; [discriminate|]. destruct Hr as (p & Hv & Hrp & Hst).
      assert (Hw : wanted S T f p = false) by (unfold wanted; rewrite Hrp; reflexivity).
      eapply (Hrec _ [p] [p] [x1] H); try reflexivity; try assumption; [|discriminate].
      rewrite filter_unw_cons, Hw. apply same_refl.
  Qed.

  Lemma remove_spec strict l l' :
    remove S T f strict l = Some l' ->
    (strict = true -> Forall readable (mailbox l)) /\
    forall xs, exists new, mailbox (arrive xs l) = mailbox l ++ new /\
                           same (keep (mailbox l) ++ new) (mailbox (arrive xs l')).
  Proof.
    unfold remove. destruct (retain_items S T f strict (l_items l) l) as [[its1 l1]|] eqn:E; [|intros H; discriminate H].
    intros H. cbn in H. apply retain_items_spec in E as (Hi & Hc & Hm & pre & pre' & Hsm & Hrd & Hq & Hst).
    eapply (drain_chan_spec _ _ (set_items its1 l1) _ pre') in H; [|exact Hst].
    destruct H as (Hch & Hm2 & pre2 & pre2' & Hsm2 & Hrd2 & Hq2 & Hst2). cbn [set_items l_monitors] in *.
    assert (Hmb : forall xs, mailbox (arrive xs l) = (pre ++ pre2) ++ visible (mons l') xs).
    { intros xs. unfold mailbox. cbn. rewrite Hq, <- Hc, Hq2, app_assoc. reflexivity. }
    assert (Hml : mailbox l = pre ++ pre2).
    { pose proof (Hmb []) as H0. unfold arrive in H0. rewrite app_nil_r in H0.
      destruct l; cbn in H0. rewrite app_nil_r in H0. exact H0. }
    split.
    - intros Hs. rewrite Hml. apply Forall_app. auto.
    - intros xs. exists (visible (mons l') xs). split; [rewrite Hmb, Hml; reflexivity|].
      unfold mailbox at 2. cbn. rewrite Hch. cbn. rewrite Hst2 by reflexivity.
      rewrite Hml, list.filter_app. apply same_app; [|apply same_refl].
      apply same_app; assumption.
  Qed.

  Lemma remove_total l : remove S T f false l <> None.
  Proof.
    unfold remove. assert (Hr : forall its l, retain_items S T f false its l <> None).
    { induction its as [|x its IH]; intros l0; cbn [retain_items]; [discriminate|].
      destruct (process_item S T x l0) as [[r x1] l1].
      specialize (IH l1). destruct (retain_items S T f false its l1) as [[? ?]|]; [|contradiction]. destruct r; discriminate. }
    specialize (Hr (l_items l) l). destruct (retain_items S T f false (l_items l) l) as [[its l1]|]; [|contradiction]. cbn.
    generalize (set_items its l1). generalize (l_chan l1). clear.
    induction l as [|x ch IH]; intros l; cbn [drain_chan]; [discriminate|].
    destruct (process_item S T x l) as [[[] ?] ?]; apply IH.
  Qed.
End proofs.
