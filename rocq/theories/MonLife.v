(** From the monitor call to the notice. *)
From stdpp Require Import base list gmap numbers strings countable sorting relations.
From Coq Require Import Lia.
From Verif Require Import Prog ProgProofs ProgInv Types Mailbox MailboxSpec World ProcApi NodeApi Api Steps Hist Labels SchedSpec SchedProofs ProcSpec ProcProofs ProcInv FreshProofs MonProofs.

(** *** What the mailbox makes of notices *)
Lemma visible_unmentioned k M q xs : Forall (fun x => ~ mentions k x) q ->
  exists M', (RLocal k ∈ M' <-> RLocal k ∈ M) /\ filter (about k) (visible M (q ++ xs)) = filter (about k) (visible M' xs).
Proof.
  revert M; induction q as [|x q IH]; intros M H; [by exists M|]. apply Forall_cons in H as [Hx H].
  assert (forall r, r <> RLocal k -> exists M', (RLocal k ∈ M' <-> RLocal k ∈ M) /\
     filter (about k) (visible (M ∖ {[r]}) (q ++ xs)) = filter (about k) (visible M' xs)) as Hd.
  { intros r Hr. destruct (IH (M ∖ {[r]}) H) as (M' & E1 & E2). exists M'. split; [|exact E2]. rewrite E1. set_solver. }
  destruct (IH M H) as (M' & E1 & E2).
  destruct x as [b|v|m|d r y|nd r|r p|i]; cbn [app visible]; cbn in Hx;
    try (by (exists M'; split; [exact E1 | rewrite ?filter_cons_False by (cbn; tauto); exact E2])).
  - case_decide; [|by exists M']. rewrite filter_cons_False by exact Hx. by apply Hd.
  - case_decide; [|by exists M']. rewrite filter_cons_False by exact Hx. by apply Hd.
Qed.
Lemma notices_none k l : Forall (fun x => ~ mentions k x) (l_items l) -> Forall (fun x => ~ mentions k x) (l_chan l) -> notices k l = [].
Proof.
  intros H1 H2. unfold notices, mailbox. destruct (visible_unmentioned k (dom (l_monitors l)) (l_items l ++ l_chan l) []) as (M & _ & E).
  - by apply Forall_app.
  - rewrite app_nil_r in E. rewrite E. reflexivity.
Qed.
Lemma notices_one k l xs d why ys : expecting k l -> Forall (fun x => ~ mentions k x) xs -> Forall (fun x => ~ mentions k x) ys ->
  notices k (after_arrival (xs ++ IProcessDown d (RLocal k) why :: ys) l) = [PSys (SProcessDown d (RLocal k) why)].
Proof.
  intros (Hm & H1 & H2) Hx Hy. unfold notices, mailbox, after_arrival. cbn [l_items l_chan set_chan l_monitors].
  rewrite !(assoc_L app). destruct (visible_unmentioned k (dom (l_monitors l)) ((l_items l ++ l_chan l) ++ xs) (IProcessDown d (RLocal k) why :: ys)) as (M & E1 & E2).
  { rewrite !Forall_app. auto. }
  rewrite E2. cbn [visible]. rewrite decide_True by (apply E1; apply elem_of_dom; exact Hm).
  rewrite filter_cons_True by reflexivity. f_equal.
  destruct (visible_unmentioned k (M ∖ {[RLocal k]}) ys [] Hy) as (M' & _ & E). rewrite app_nil_r in E. by rewrite E.
Qed.
Lemma down_notices_one k w a why me d : is_Some (w_regs w !! me) ->
  default ∅ (w_mons w !! a) !! RLocal k = Some (PLocal me, Some d) ->
  exists xs ys, down_notices w a why me = xs ++ IProcessDown d (RLocal k) why :: ys /\
    Forall (fun x => ~ mentions k x) xs /\ Forall (fun x => ~ mentions k x) ys.
Proof.
  intros [r Hr] Hk. unfold down_notices. rewrite Hr.
  set (m := default ∅ (w_mons w !! a)) in *.
  pose proof (proj2 (sorted_refs_elem m (RLocal k) _) Hk) as Hin. pose proof (sorted_refs_nodup m) as Hnd.
  apply elem_of_list_split in Hin as (l1 & l2 & E). rewrite E in Hnd |- *.
  rewrite fmap_app, fmap_cons in Hnd. apply NoDup_app in Hnd as (_ & Hn1 & Hn2). apply NoDup_cons in Hn2 as [Hn2 _].
  set (g := fun x : reference * (pid * option dest) => match x.2 with
     | (from, Some d) => if decide (from = PLocal me) then Some (IProcessDown d x.1 why) else None | _ => None end).
  exists (omap g l1), (omap g l2). split; [|split].
  - rewrite omap_app. f_equal. cbn. by rewrite decide_True by reflexivity.
  - apply Forall_forall. intros x Hx. apply elem_of_list_omap in Hx as ([r1 [from d1]] & Hin & Eg).
    unfold g in Eg; cbn in Eg. destruct d1; [|discriminate]. case_decide; [|discriminate]. simplify_eq. cbn. intros ->.
    eapply Hn1; [apply elem_of_list_fmap; eexists; split; [|exact Hin]; reflexivity | set_solver].
  - apply Forall_forall. intros x Hx. apply elem_of_list_omap in Hx as ([r1 [from d1]] & Hin & Eg).
    unfold g in Eg; cbn in Eg. destruct d1; [|discriminate]. case_decide; [|discriminate]. simplify_eq. cbn. intros ->.
    apply Hn2. apply elem_of_list_fmap. eexists; split; [|exact Hin]. reflexivity.
Qed.

(** *** The monitor call *)
Section life.
  Context (S : serde).
  Lemma monitor_alive me target d w : occurs S w -> me <> target -> is_Some (w_regs w !! me) -> is_Some (w_loc w !! me) ->
    is_Some (w_regs w !! target) -> means w d target ->
    exists w1, run (monitor me d) w = Done w1 (RLocal (w_next_ref w)) /\ watching (w_next_ref w) me target d w1.
  Proof.
    intros Ho Hne Hme [l Hl] Ht Hd.
    pose proof (occurs_unmentioned S (w_next_ref w) w Ho ltac:(lia)) as [U1 U2 U3 U4].
    pose proof (occurs_allocated S w Ho me (mk_is_Some _ _ Hl)) as Ha.
    set (k := w_next_ref w) in *.
    set (w1 := add_mon target (RLocal k) (PLocal me) (Some d)
                 (up_loc (alter (upd_monitors (<[RLocal k := MForProcess (Some (PLocal target))]>)) me) (up_next_ref N.succ w))).
    exists w1. split.
    - assert (exists_proc target w = true) as He by (unfold exists_proc; by apply bool_decide_eq_true_2).
      unfold monitor. cbn. destruct Hd as [->|(n & -> & Hn)]; unfold monitor_install.
      + rewrite decide_False by congruence. cbn. unfold exists_proc in *; cbn. rewrite He. reflexivity.
      + cbn. rewrite Hn. cbn. unfold exists_proc in *; cbn. rewrite He. reflexivity.
    - constructor; cbn.
      + lia.
      + exact Ha.
      + rewrite lookup_insert. cbn. by rewrite lookup_insert.
      + intros j Hj. rewrite lookup_insert_ne by congruence. apply U1.
      + exact U2.
      + intros j l1 E Hj. rewrite lookup_alter_ne in E by congruence. by apply (U3 j).
      + exists (upd_monitors (<[RLocal k := MForProcess (Some (PLocal target))]>) l). rewrite lookup_alter, Hl. split; [reflexivity|].
        assert (Forall (fun x => ~ mentions k x) (l_items l ++ l_chan l)) as Hf.
        { apply Forall_forall. intros x Hx. specialize (U4 me l x Hl Hx). destruct x as [| |[]| | | |]; cbn in *; auto. }
        apply Forall_app in Hf as [F1 F2]. split_and!; cbn; auto. rewrite lookup_insert. eauto.
      + exact Hme.
  Qed.
  Lemma monitor_dead me target d w : occurs S w -> me <> target -> is_Some (w_loc w !! me) ->
    w_regs w !! target = None -> means w d target ->
    exists w1 l l1, run (monitor me d) w = Done w1 (RLocal (w_next_ref w)) /\ w_loc w !! me = Some l /\ w_loc w1 !! me = Some l1 /\
      notices (w_next_ref w) l = [] /\ notices (w_next_ref w) l1 = [PSys (SProcessDown d (RLocal (w_next_ref w)) (RCustom "noproc"))].
  Proof.
    intros Ho Hne [l Hl] Ht Hd.
    pose proof (occurs_unmentioned S (w_next_ref w) w Ho ltac:(lia)) as [U1 U2 U3 U4].
    set (k := w_next_ref w) in *.
    assert (Forall (fun x => ~ mentions k x) (l_items l ++ l_chan l)) as Hf.
    { apply Forall_forall. intros x Hx. specialize (U4 me l x Hl Hx). destruct x as [| |[]| | | |]; cbn in *; auto. }
    apply Forall_app in Hf as [F1 F2].
    set (l1 := upd_monitors (<[RLocal k := MForProcess (Some (PLocal target))]>) l).
    set (w1 := up_loc (alter (upd_monitors (<[RLocal k := MForProcess (Some (PLocal target))]>)) me) (up_next_ref N.succ w)).
    set (w2 := up_aliases (delete k) (push me (IProcessDown d (RLocal k) (RCustom "noproc")) w1)).
    assert (w_loc w1 !! me = Some l1) as El by (cbn; by rewrite lookup_alter, Hl).
    exists w2, l, (after_arrival ([] ++ [IProcessDown d (RLocal k) (RCustom "noproc")]) l1). split; [|split; [exact Hl|split; [|split]]].
    - assert (exists_proc target w = false) as He by (unfold exists_proc; apply bool_decide_eq_false_2; rewrite Ht; intros [? ?]; discriminate).
      unfold monitor. cbn. destruct Hd as [->|(n & -> & Hn)]; unfold monitor_install.
      + rewrite decide_False by congruence. cbn. unfold exists_proc in *; cbn. rewrite He. reflexivity.
      + cbn. rewrite Hn. cbn. unfold exists_proc in *; cbn. rewrite He. reflexivity.
    - unfold w2, push. rewrite El. cbn. by rewrite lookup_insert.
    - by apply notices_none.
    - apply (notices_one k l1 [] d (RCustom "noproc") []); [|constructor..].
      split_and!; cbn; auto. rewrite lookup_insert. eauto.
  Qed.
  (** *** The end of the target *)
  Lemma watched_drop k me target d w r : watching k me target d w -> all_named w -> me <> target -> w_regs w !! target = Some r ->
    exists w2 l l2, run (drop_process target) w = Done w2 tt /\ w_loc w !! me = Some l /\ w_loc w2 !! me = Some l2 /\
      notices k l = [] /\ notices k l2 = [PSys (SProcessDown d (RLocal k) (final_reason r))].
  Proof.
    intros Hw Hn Hne Hr. destruct (drop_spec target w r Hr (Hn target)) as (w2 & E & Hx).
    destruct Hw as [H1 H2 H3 H4 H5 H6 (l & H7 & H7') H8].
    exists w2, l, (after_arrival (exit_message w target (final_reason r) me ++ down_notices w target (final_reason r) me) l).
    split; [exact E|]. split; [exact H7|]. split; [rewrite (ex_mail _ _ _ _ _ Hx me Hne), H7; reflexivity|]. split.
    - destruct H7' as (_ & A1 & A2). by apply notices_none.
    - destruct (down_notices_one k w target (final_reason r) me d H8 H3) as (xs & ys & -> & F1 & F2).
      rewrite (assoc_L app). apply notices_one; [exact H7'| |exact F2]. apply Forall_app. split; [|exact F1].
      unfold exit_message. repeat case_match; constructor; cbn; auto.
  Qed.
End life.
