(** C29: what Process::send does. *)
From stdpp Require Import base list gmap numbers strings countable sorting.
From Coq Require Import Lia.
From Verif Require Import Prog ProgProofs Types Mailbox MailboxSpec World ProcApi NodeApi Api Play SchedSpec ProcSpec SendSpec SendProofs SchedProps.

Lemma recipient_local w d j : recipient w d = Some j -> dest_is_local d = true.
Proof. by destruct d as [[]|? []|[]]. Qed.
Lemma serve_perm S v l : map fst (serve_order S v l) ≡ₚ filter (fun d => dest_is_local d = true) l.
Proof.
  unfold serve_order. destruct (filter _ l) as [|d rest]; [done|]. rewrite map_app, map_map. cbn.
  rewrite map_id. by rewrite Permutation_app_comm.
Qed.
Lemma serve_carries S v l : Forall (fun x => carries S v (snd x)) (serve_order S v l).
Proof.
  unfold serve_order. destruct (filter _ l) as [|d rest]; [constructor|]. apply Forall_app. split.
  - apply Forall_map, Forall_true. intros x. right. done.
  - constructor; [by left|constructor].
Qed.
Lemma recipient_after w d d' : ~ (one_shot_alias w d = true /\ d' = d) ->
  recipient (up_aliases (fun _ => aliases_after w d) w) d' = recipient w d' /\
  one_shot_alias (up_aliases (fun _ => aliases_after w d) w) d' = one_shot_alias w d'.
Proof.
  intros H. unfold aliases_after. destruct (one_shot_alias w d) eqn:E; [|by destruct w].
  destruct d as [|? ?|[k|]]; try done. cbn [ref_id].
  destruct d' as [| |[k'|]]; try done. cbn. rewrite lookup_delete_ne; [done|]. intros ->. by destruct H.
Qed.
Notation one_shots w := (filter (fun d => one_shot_alias w d = true)).
Lemma count_arrivals S v j s : forall w,
  Forall (fun x => carries S v (snd x)) s -> NoDup (one_shots w (map fst s)) ->
  length (filter (carries S v) (mail_for j (arrivals w s))) = length (filter (fun d => recipient w d = Some j) (map fst s)).
Proof.
  induction s as [|[d x] s IH]; intros w Hc Hn; [done|].
  apply Forall_cons in Hc as [Hx Hc]. cbn [snd] in Hx. cbn [arrivals map fst]. cbn [map fst] in Hn.
  rewrite mail_for_app, list.filter_app, app_length.
  set (w1 := up_aliases (fun _ => aliases_after w d) w).
  assert (forall d', d' ∈ map fst s -> ~ (one_shot_alias w d = true /\ d' = d)) as Hd.
  { intros d' Hd' [H1 ->]. rewrite filter_cons, decide_True in Hn by done. apply NoDup_cons in Hn as [Hn _].
    apply Hn. by apply elem_of_list_filter. }
  assert (filter (fun d => recipient w1 d = Some j) (map fst s) = filter (fun d => recipient w d = Some j) (map fst s)) as E1.
  { clear -Hd. induction (map fst s) as [|d' l IH]; [done|]. rewrite !filter_cons.
    assert (recipient w1 d' = recipient w d') as -> by (apply recipient_after, Hd; set_solver).
    destruct (decide _); [f_equal|]; apply IH; intros; apply Hd; set_solver. }
  assert (one_shots w1 (map fst s) = one_shots w (map fst s)) as E2.
  { clear -Hd. induction (map fst s) as [|d' l IH]; [done|]. rewrite !filter_cons.
    assert (one_shot_alias w1 d' = one_shot_alias w d') as -> by (apply recipient_after, Hd; set_solver).
    destruct (decide _); [f_equal|]; apply IH; intros; apply Hd; set_solver. }
  rewrite (IH w1 Hc).
  2:{ rewrite E2. rewrite filter_cons in Hn. destruct (decide _); [by apply NoDup_cons in Hn as [_ ?] | done]. }
  rewrite E1. rewrite filter_cons. unfold arrives.
  assert (forall k, ~ carries S v (IAliasDeactivated k)) as Ha by (intros k [|]; discriminate).
  destruct (recipient w d) as [i|].
  - assert (length (filter (carries S v) (mail_for j [(i, x)])) = if decide (Some i = Some j) then 1 else 0) as E.
    { rewrite mail_for_one. destruct (decide (i = j)) as [->|Hne].
      - rewrite filter_cons, !decide_True by done. done.
      - rewrite (decide_False (P := Some i = Some j)) by congruence. done. }
    assert (length (filter (carries S v) (mail_for j [(i, IAliasDeactivated (match d with DAlias r => ref_id r | _ => 0%N end)); (i, x)])) =
            length (filter (carries S v) (mail_for j [(i, x)]))) as E'.
    { unfold mail_for. rewrite (filter_cons _ (i, IAliasDeactivated _)). cbn [fst].
      destruct (decide (i = j)); [|done]. cbn [map snd]. by rewrite filter_cons_False by apply Ha. }
    destruct d as [p|n nd|r]; [| |destruct (one_shot_alias w (DAlias r)); [rewrite E'|]]; rewrite E;
      destruct (decide (Some i = Some j)); reflexivity.
  - rewrite decide_False by done. done.
Qed.

(** C29.  Run by itself, a send always returns, and has exactly the effect [sends] (SendSpec.v): the
    mail of every process, the used one-shot aliases, one frame per node, nothing else. *)
Theorem C29_send_effect :
  forall S ds v w, exists w', run (call_prog S (CSend ds v)) w = Done w' VUnit /\ sends S v (dests_list ds) w w'.
Proof.
  intros S ds v w. destruct (run_send S v ds w) as (w' & E & H). exists w'. split; [|done].
  cbn [call_prog]. unfold ret_as. by rewrite run_bind, E.
Qed.
Print Assumptions C29_send_effect.

(** Every process gets the message once per mention, whatever the destinations are called; besides
    the message only the notices that an alias is used up arrive.  (An alias that allows one message
    delivers the first time it is served only, so it is mentioned at most once here.) *)
Theorem C29_once_per_mention :
  forall S ds v w w' j l, run (call_prog S (CSend ds v)) w = Done w' VUnit ->
    NoDup (filter (fun d => one_shot_alias w d = true) (dests_list ds)) ->
    w_loc w !! j = Some l ->
    exists xs, w_loc w' !! j = Some (after_arrival xs l) /\
      length (filter (carries S v) xs) = length (filter (fun d => recipient w d = Some j) (dests_list ds)) /\
      Forall (fun x => carries S v x \/ exists k, x = IAliasDeactivated k) xs.
Proof.
  intros S ds v w w' j l E Hn Hl. destruct (C29_send_effect S ds v w) as (w1 & E1 & H).
  rewrite E in E1. injection E1 as <-. exists (mail_for j (arrivals w (serve_order S v (dests_list ds)))).
  split; [by rewrite (sn_mail _ _ _ _ _ H), Hl|].
  assert (forall P `{!forall d, Decision (P d)} (l : list dest), (forall d, P d -> dest_is_local d = true) ->
    filter P (filter (fun d => dest_is_local d = true) l) = filter P l) as Hf.
  { intros P HP l' HPl. induction l' as [|d l' IH]; [done|]. rewrite !filter_cons.
    destruct (decide (dest_is_local d = true)) as [Hd|Hd].
    - rewrite filter_cons. by rewrite IH.
    - rewrite IH. destruct (decide (P d)) as [Hp|]; [by apply HPl in Hp | done]. }
  pose proof (serve_perm S v (dests_list ds)) as Hp.
  split.
  - rewrite count_arrivals; [|apply serve_carries|].
    + rewrite Hp. rewrite Hf; [done|]. intros d. apply recipient_local.
    + rewrite Hp. rewrite Hf; [done|]. intros [|? ?|[]]; cbn; done.
  - pose proof (serve_carries S v (dests_list ds)) as Hc.
    revert Hc. generalize (serve_order S v (dests_list ds)) as s. clear. intros s. revert w.
    induction s as [|[d x] s IH]; intros w Hc; [constructor|]. apply Forall_cons in Hc as [Hx Hc].
    cbn [arrivals]. rewrite mail_for_app. apply Forall_app. split; [|by apply IH].
    apply Forall_forall. intros y Hy. unfold mail_for in Hy.
    apply elem_of_list_In, in_map_iff in Hy as ([i y'] & <- & Hy%elem_of_list_In). cbn [snd].
    apply elem_of_list_filter in Hy as [_ Hy]. unfold arrives in Hy. cbn [snd] in Hx.
    destruct (recipient w d); [|by apply elem_of_nil in Hy].
    destruct d as [| |r]; [| |destruct (one_shot_alias w (DAlias r))];
      rewrite ?elem_of_cons, ?elem_of_nil in Hy; naive_solver.
Qed.
Print Assumptions C29_once_per_mention.

(** One frame per remote node, with exactly the targets on that node in the order mentioned: for a
    node whose channel (connection or pending queue) is its own. *)
Theorem C29_one_frame_per_node :
  forall S ds v w w' n c, run (call_prog S (CSend ds v)) w = Done w' VUnit ->
    channel_of w' n = Some c -> (forall m, channel_of w' m = Some c -> m = n) ->
    queued w' c = queued w c ++
      match targets_on w' n (dests_list ds) with [] => [] | ts => [FSend ts (ser S v)] end.
Proof.
  intros S ds v w w' n c E Hc Hu. destruct (C29_send_effect S ds v w) as (w1 & E1 & H).
  rewrite E in E1. injection E1 as <-. rewrite (sn_frames _ _ _ _ _ H). f_equal. unfold frames_for.
  set (l := dests_list ds).
  assert (NoDup (sorted_ids (nodes_meant w' l))) as Hnd.
  { unfold sorted_ids. rewrite merge_sort_Permutation. apply NoDup_elements. }
  assert (n ∈ sorted_ids (nodes_meant w' l) <-> targets_on w' n l <> []) as Hin.
  { unfold sorted_ids. rewrite merge_sort_Permutation, elem_of_elements. unfold nodes_meant, targets_on.
    rewrite elem_of_list_to_set. generalize (omap (on_node w') l) as ts. intros ts.
    induction ts as [|[m t] ts IH]; cbn [map fst]; [set_solver|]. rewrite filter_cons. cbn [fst].
    rewrite elem_of_cons, IH. destruct (decide (m = n)) as [->|Hne]; cbn [map].
    - split; [done|]. by left.
    - split; [intros [->|?]; done | by right]. }
  revert Hnd Hin. generalize (sorted_ids (nodes_meant w' l)) as ns. intros ns Hnd Hin.
  assert (filter (fun m => channel_of w' m = Some c) ns = if decide (n ∈ ns) then [n] else []) as ->.
  { clear Hin. induction ns as [|m ns IH]; [done|]. apply NoDup_cons in Hnd as [Hm Hnd]. rewrite filter_cons.
    rewrite (IH Hnd). destruct (decide (m = n)) as [->|Hne].
    - rewrite (decide_True (P := channel_of w' n = Some c)) by done. rewrite (decide_False (P := n ∈ ns)) by done. by rewrite decide_True by set_solver.
    - rewrite decide_False by (intros Hx; by apply Hne, Hu). destruct (decide (n ∈ ns)).
      + by rewrite decide_True by set_solver.
      + by rewrite decide_False by set_solver. }
  destruct (decide (n ∈ ns)) as [Hi|Hi]; cbn.
  - destruct (targets_on w' n l) eqn:Et; [|done]. by apply Hin in Hi.
  - destruct (targets_on w' n l) eqn:Et; [done|]. exfalso. apply Hi, Hin. done.
Qed.
Print Assumptions C29_one_frame_per_node.

(** A destination that does not exist is ignored: without any existing destination nothing arrives
    anywhere and no frame leaves. *)
Theorem C29_nobody_there :
  forall S ds v w w', run (call_prog S (CSend ds v)) w = Done w' VUnit ->
    (forall d, d ∈ dests_list ds -> recipient w d = None) ->
    (forall d n t, d ∈ dests_list ds -> on_node w' d = Some (n, t) -> channel_of w' n = None) ->
    w_loc w' = w_loc w /\ w_aliases w' = w_aliases w /\ forall c, queued w' c = queued w c.
Proof.
  intros S ds v w w' E Hr Hc. destruct (C29_send_effect S ds v w) as (w1 & E1 & H).
  rewrite E in E1. injection E1 as <-.
  assert (forall s, (forall d x, (d, x) ∈ s -> recipient w d = None) -> arrivals w s = [] /\ aliases_left w s = w_aliases w) as Ha.
  { intros s. induction s as [|[d x] s IH]; intros Hs; [done|]. cbn [arrivals aliases_left].
    assert (recipient w d = None) as Hd by (apply (Hs d x); left).
    assert (one_shot_alias w d = false) as Ho.
    { destruct d as [|? ?|[k|]]; cbn in Hd |- *; try done. destruct (w_aliases w !! k) as [[]|]; done. }
    assert (aliases_after w d = w_aliases w) as -> by (unfold aliases_after; by rewrite Ho).
    replace (up_aliases (fun _ => w_aliases w) w) with w by (by destruct w).
    unfold arrives. rewrite Hd. apply IH. intros d' x' Hin. apply (Hs d' x'). by right. }
  destruct (Ha (serve_order S v (dests_list ds))) as [Ea El].
  { intros d x Hin. apply Hr. apply (elem_of_list_fmap_1 fst) in Hin.
    change (d ∈ map fst (serve_order S v (dests_list ds))) in Hin. rewrite serve_perm in Hin.
    by apply elem_of_list_filter in Hin as [_ ?]. }
  split; [|split].
  - apply map_eq. intros j. rewrite (sn_mail _ _ _ _ _ H), Ea. symmetry. apply (same_loc w j).
  - by rewrite (sn_aliases _ _ _ _ _ H).
  - intros c. rewrite (sn_frames _ _ _ _ _ H). unfold frames_for.
    assert (filter (fun n => channel_of w' n = Some c) (sorted_ids (nodes_meant w' (dests_list ds))) = []) as ->.
    { set (L := sorted_ids _).
      assert (forall n, n ∈ L -> channel_of w' n = None) as HL.
      { intros n. unfold L, sorted_ids. rewrite merge_sort_Permutation, elem_of_elements. unfold nodes_meant.
        rewrite elem_of_list_to_set. intros ([m t] & -> & (d & Hd & Et)%elem_of_list_omap)%elem_of_list_fmap.
        exact (Hc d m t Hd Et). }
      clearbody L. clear -HL. induction L as [|n L IH]; [done|].
      rewrite filter_cons_False by (rewrite HL by set_solver; done). apply IH. intros; apply HL; set_solver. }
    by rewrite app_nil_r.
Qed.
Print Assumptions C29_nobody_there.

(** Three processes, one of them mentioned by pid and by name, a one-shot alias, a process that does
    not exist, and two named processes on a node being connected to. *)
Example C29_example :
  exists w, seq_reachable S0 w /\
    match run (call_prog S0 (CSend (DsMany [DPid (PLocal 1); DAlias (RLocal 1); DNamed "a" (NRemote "n" (SA4 1 5));
       DNamed "x" NLocal; DPid (PLocal 99); DNamed "b" (NRemote "n" (SA4 1 5))]) (Val 0 7))) w with
    | Done w' VUnit =>
        (l_chan <$> w_loc w' !! 1%N) = Some [IUserRemote []; IUserLocal (Val 0 7)] /\
        (l_chan <$> w_loc w' !! 2%N) = Some [IAliasDeactivated 1; IUserRemote []] /\
        (l_chan <$> w_loc w' !! 3%N) = Some [] /\
        w_pend w' !! NRemote "n" (SA4 1 5) = Some [FSend [TNamed "a"; TNamed "b"] []]
    | _ => False
    end.
Proof.
  apply (play_some S0 _ [CSpawn 0 false false; CSpawn 0 false false; CSpawn 0 false false; CRegister (PLocal 1) "x";
    CAlias 2 true; CConnect (NRemote "n" (SA4 1 5))]). vm_compute. auto 6.
Qed.
