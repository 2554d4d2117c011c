(** What a node does with the frames about links and monitors that reach it. *)
From stdpp Require Import base list gmap numbers strings countable sorting.
From Coq Require Import Lia.
From Verif Require Import Prog ProgProofs ProgInv Types Mailbox MailboxSpec World ProcApi NodeApi Api Steps SchedSpec SchedProofs
  ProcSpec ProcProofs SendSpec SendProofs NetSpec NetProofs NetExit.

Lemma run_known nm ad w n : w_nmap w !! NRemote nm ad = Some n -> run (node_register (NRemote nm ad) false) w = Done w n.
Proof. intros E. cbn. unfold node_register_op. by rewrite E. Qed.

(** ** LinkDown *)
Definition hit (from : pid) (why : exit_reason) (nd : node) (l : N) (w : world) : world :=
  if bool_decide ((from, l) ∈ links_to w nd) then exit_linked_op (PLocal l) from why (del_nlinks nd [(from, l)] w)
  else del_nlinks nd [(from, l)] w.
Lemma run_hit from why nd l w : run (node_process_link_down nd (PLocal l) from why) w = Done (hit from why nd l w) tt.
Proof.
  unfold node_process_link_down. rewrite run_bind, run_atom. cbn [fst snd pid_id]. unfold hit, links_to.
  destruct (bool_decide _); reflexivity.
Qed.
Lemma links_to_del w nd l nd' x : x ∈ links_to (del_nlinks nd l w) nd' <-> x ∈ links_to w nd' /\ ~ (nd' = nd /\ x ∈ l).
Proof.
  unfold links_to, del_nlinks; cbn. destruct (decide (nd' = nd)) as [->|Hne].
  - rewrite lookup_alter. destruct (w_nlinks w !! nd); cbn; [rewrite elem_of_difference, elem_of_list_to_set; tauto | set_solver].
  - rewrite lookup_alter_ne by congruence. tauto.
Qed.
Definition hit_news (from : pid) (why : exit_reason) (nd : node) (ls : list N) (w : world) (j : N) : list item :=
  if bool_decide (j ∈ ls /\ (from, j) ∈ links_to w nd) then
    match w_regs w !! j with Some r => if r_trap r then [ISystem (SExit from why)] else [] | None => [] end
  else [].
Definition but_nlinks (w w' : world) : Prop := exists g u, only_core w u /\ w' = up_nlinks g u.
Lemma but_nlinks_refl w : but_nlinks w w.
Proof. exists (fun x => x), w. split; [apply only_core_refl|]. by destruct w. Qed.
Lemma but_nlinks_trans a b c : but_nlinks a b -> but_nlinks b c -> but_nlinks a c.
Proof.
  intros (g & u & (?&?&?&?&?&?&->) & ->) (g' & u' & (a1&b1&c1&d1&e1&f1&->) & ->).
  exists (fun x => g' (g x)), (set_core a1 b1 c1 d1 e1 f1 a). split; [by eexists _, _, _, _, _, _|]. reflexivity.
Qed.
Lemma hit_spec from why nd l w :
  let w' := hit from why nd l w in
  (forall j, w_regs w' !! j = if decide (j = l /\ (from, j) ∈ links_to w nd) then signalled why <$> w_regs w !! j else w_regs w !! j) /\
  received (hit_news from why nd [l] w) w w' /\
  (forall nd' x, x ∈ links_to w' nd' <-> x ∈ links_to w nd' /\ ~ (nd' = nd /\ x = (from, l))) /\
  w_links w' = w_links w /\ w_mons w' = w_mons w /\ w_aliases w' = w_aliases w /\ but_nlinks w w'.
Proof.
  unfold hit. set (w0 := del_nlinks nd [(from, l)] w). cbn zeta.
  assert (but_nlinks w w0) as Hb by (exists (alter (fun s => s ∖ list_to_set [(from, l)]) nd), w; split; [apply only_core_refl|reflexivity]).
  destruct (bool_decide ((from, l) ∈ links_to w nd)) eqn:E.
  - apply bool_decide_eq_true in E. destruct (exit_linked_spec l from why w0) as (E1 & E2 & E3).
    change (w_regs w0) with (w_regs w) in *.
    set (w1 := exit_linked_op (PLocal l) from why w0) in *.
    split; [|split; [|split; [|split; [|split; [|split]]]]].
    + intros j. rewrite E1. destruct (decide (j = l)) as [->|Hne].
      * rewrite lookup_alter. by rewrite decide_True.
      * rewrite lookup_alter_ne by congruence. by rewrite decide_False by tauto.
    + eapply received_ext; [|eapply received_eq; [| |exact E2]; reflexivity]. intros j. unfold hit_news.
      destruct (decide (j = l)) as [->|Hne].
      * by rewrite bool_decide_true by (split; [set_solver|done]).
      * by rewrite bool_decide_false by set_solver.
    + intros nd' x. replace (links_to w1 nd') with (links_to w0 nd') by (unfold links_to; by rewrite (se_nlinks _ _ E3)).
      unfold w0. rewrite links_to_del. set_solver.
    + by rewrite (se_links _ _ E3).
    + by rewrite (se_mons _ _ E3).
    + by rewrite (se_aliases _ _ E3).
    + eapply but_nlinks_trans; [exact Hb|]. exists (fun x => x), w1. split; [apply only_core_exit_linked|]. by destruct w1.
  - apply bool_decide_eq_false in E. split; [|split; [|split; [|split; [|split; [|split]]]]]; try done.
    + intros j. rewrite decide_False; [done|]. by intros [-> ?].
    + eapply received_ext; [|by apply received_refl]. intros j. unfold hit_news. rewrite bool_decide_false; [done|].
      intros [->%elem_of_list_singleton ?]. done.
    + intros nd' x. unfold w0. rewrite links_to_del. set_solver.
Qed.
Lemma hits from why nd ls w :
  let w' := fold_left (fun w l => hit from why nd l w) ls w in
  (forall j, w_regs w' !! j = if decide (j ∈ ls /\ (from, j) ∈ links_to w nd) then signalled why <$> w_regs w !! j else w_regs w !! j) /\
  received (hit_news from why nd ls w) w w' /\
  (forall nd' x, x ∈ links_to w' nd' <-> x ∈ links_to w nd' /\ ~ (nd' = nd /\ exists l, l ∈ ls /\ x = (from, l))) /\
  w_links w' = w_links w /\ w_mons w' = w_mons w /\ w_aliases w' = w_aliases w /\ but_nlinks w w'.
Proof.
  revert w; induction ls as [|l ls IH]; intros w; cbn [fold_left].
  - split; [intros j; by rewrite decide_False by set_solver|].
    split. { eapply received_ext; [|by apply received_refl]. intros j. unfold hit_news. by rewrite bool_decide_false by set_solver. }
    split; [set_solver|]. repeat (split; [done|]). apply but_nlinks_refl.
  - destruct (hit_spec from why nd l w) as (A1 & A2 & A3 & A4 & A5 & A6 & A7). set (w1 := hit from why nd l w) in *.
    destruct (IH w1) as (B1 & B2 & B3 & B4 & B5 & B6 & B7). cbn zeta in *. clear IH.
    split; [|split; [|split; [|split; [|split; [|split]]]]]; try congruence.
    + intros j. rewrite B1, A1. destruct (decide (j = l)) as [->|Hne].
      * destruct (decide ((from, l) ∈ links_to w nd)) as [Hl|Hl].
        -- rewrite (decide_True (P := l = l /\ _)) by done. rewrite (decide_True (P := l ∈ l :: ls /\ _)) by (split; [set_solver|done]).
           rewrite decide_False; [done|]. intros [_ H]. apply A3 in H as [_ H]. by apply H.
        -- rewrite (decide_False (P := l = l /\ _)) by tauto. rewrite (decide_False (P := l ∈ l :: ls /\ _)) by tauto.
           rewrite decide_False; [done|]. intros [_ H]. apply A3 in H as [H _]. done.
      * rewrite (decide_False (P := j = l /\ _)) by tauto.
        destruct (decide (j ∈ ls /\ (from, j) ∈ links_to w1 nd)) as [[H1 H2]|H].
        -- rewrite decide_True; [done|]. apply A3 in H2 as [H2 _]. set_solver.
        -- rewrite decide_False; [done|]. intros [H1 H2]. apply H. split; [set_solver|]. apply A3. split; [done|]. intros [_ [=]]. done.
    + eapply received_ext; [|eapply received_trans; [exact A2|exact B2]]. intros j. cbn. unfold hit_news. rewrite A1.
      destruct (decide (j = l)) as [->|Hne].
      * rewrite (bool_decide_ext (l ∈ [l] /\ (from, l) ∈ links_to w nd) (l ∈ l :: ls /\ (from, l) ∈ links_to w nd)) by set_solver.
        rewrite (bool_decide_false (l ∈ ls /\ (from, l) ∈ links_to w1 nd)); [by rewrite app_nil_r|].
        intros [_ H]. apply A3 in H as [_ H]. by apply H.
      * rewrite (bool_decide_false (j ∈ [l] /\ _)) by set_solver. rewrite (decide_False (P := j = l /\ _)) by tauto. cbn [app].
        rewrite (bool_decide_ext (j ∈ ls /\ (from, j) ∈ links_to w1 nd) (j ∈ l :: ls /\ (from, j) ∈ links_to w nd)); [done|].
        rewrite A3. set_solver.
    + intros nd' x. rewrite B3, A3. set_solver.
    + by eapply but_nlinks_trans.
Qed.
Lemma run_link_down_frame sup nm ad ls from why w n : w_nmap w !! NRemote nm ad = Some n ->
  run (receive_frame (NRemote nm ad) sup (FLinkDown ls from why)) w =
  Done (fold_left (fun w l => hit (PRemote from n) why (NRemote nm ad) l w) ls w) tt.
Proof.
  intros E. unfold receive_frame. rewrite run_bind, (run_known _ _ _ _ E).
  apply run_each. intros l u _. apply run_hit.
Qed.

(** ** MonitorDown *)
Definition told (nd : node) (why : exit_reason) (k : N) (w : world) : world :=
  let w1 := up_aliases (delete k) (del_nmon nd (RLocal k) w) in
  match monitors_to w nd !! RLocal k with
  | Some (NMProcess i d) => send_to i (IProcessDown d (RLocal k) why) w1
  | _ => w1
  end.
Lemma run_told nd why k w : run (node_process_monitor_down nd (RLocal k) why) w = Done (told nd why k w) tt.
Proof.
  unfold node_process_monitor_down. rewrite run_bind, run_atom. cbn [fst snd]. unfold alias_destroy. rewrite run_bind, run_atom. cbn [fst snd].
  unfold told, monitors_to. destruct (w_nmons w !! nd) as [t|]; cbn [from_option id].
  - destruct (t !! RLocal k) as [[]|]; reflexivity.
  - rewrite lookup_empty. reflexivity.
Qed.
Lemma monitors_to_del w nd r nd' x : monitors_to (del_nmon nd r w) nd' !! x = if decide (nd' = nd /\ x = r) then None else monitors_to w nd' !! x.
Proof.
  unfold monitors_to, del_nmon; cbn. destruct (decide (nd' = nd)) as [->|Hne].
  - rewrite lookup_alter. destruct (decide (x = r)) as [->|Hx].
    + rewrite decide_True by done. destruct (w_nmons w !! nd); cbn; [apply lookup_delete|done].
    + rewrite decide_False by tauto. destruct (w_nmons w !! nd); cbn; [by apply lookup_delete_ne|done].
  - rewrite lookup_alter_ne by congruence. by rewrite decide_False by tauto.
Qed.
(** The notice about reference [k] for [j], if [j] is its monitoring process. *)
Definition told_news (nd : node) (why : exit_reason) (w : world) (j k : N) : list item :=
  match monitors_to w nd !! RLocal k with
  | Some (NMProcess i d) => if decide (i = j) then match w_regs w !! j with Some _ => [IProcessDown d (RLocal k) why] | None => [] end else []
  | _ => []
  end.
Lemma told_spec nd why k w :
  let w' := told nd why k w in
  w_regs w' = w_regs w /\ w_links w' = w_links w /\ w_mons w' = w_mons w /\ w_nlinks w' = w_nlinks w /\
  received (fun j => told_news nd why w j k) w w' /\
  (forall nd' x, monitors_to w' nd' !! x = if decide (nd' = nd /\ x = RLocal k) then None else monitors_to w nd' !! x) /\
  (forall i, w_aliases w' !! i = if decide (i = k) then None else w_aliases w !! i).
Proof.
  unfold told. set (w1 := up_aliases (delete k) (del_nmon nd (RLocal k) w)). cbn zeta.
  assert (forall i, w_aliases w1 !! i = if decide (i = k) then None else w_aliases w !! i) as Ha.
  { intros i. cbn. case_decide; [subst; apply lookup_delete | by apply lookup_delete_ne]. }
  assert (forall nd' x, monitors_to w1 nd' !! x = if decide (nd' = nd /\ x = RLocal k) then None else monitors_to w nd' !! x) as Hm
    by (intros; apply (monitors_to_del w)).
  unfold told_news. destruct (monitors_to w nd !! RLocal k) as [[i|i d|i]|].
  - repeat (split; [done|]). split; [by apply received_refl|]. split; [exact Hm|exact Ha].
  - destruct (send_to_spec i (IProcessDown d (RLocal k) why) w1) as (D1 & D2 & D3).
    split; [exact D1|]. split; [apply (se_links _ _ D2)|]. split; [apply (se_mons _ _ D2)|]. split; [apply (se_nlinks _ _ D2)|].
    split. { eapply received_ext; [|eapply received_eq; [| |exact D3]; reflexivity]. intros j. change (w_regs w1) with (w_regs w). cbn.
             destruct (w_regs w !! j); destruct (decide (j = i)), (decide (i = j)); by subst. }
    split; [|intros x; by rewrite (se_aliases _ _ D2)].
    intros nd' x. rewrite <- Hm. unfold monitors_to. by rewrite (se_nmons _ _ D2).
  - repeat (split; [done|]). split; [by apply received_refl|]. split; [exact Hm|exact Ha].
  - repeat (split; [done|]). split; [by apply received_refl|]. split; [exact Hm|exact Ha].
Qed.
Definition wipes (nd : node) (ks : list N) (nd' : node) (x : reference) : bool :=
  bool_decide (nd' = nd) && match x with RLocal k => bool_decide (k ∈ ks) | RRemote _ _ => false end.
Lemma wipes_cons nd k ks nd' x : wipes nd (k :: ks) nd' x = bool_decide (nd' = nd /\ x = RLocal k) || wipes nd ks nd' x.
Proof.
  unfold wipes. destruct (decide (nd' = nd)) as [->|Hn].
  - rewrite (bool_decide_true (nd = nd)) by done. cbn. destruct x as [i|i n].
    + rewrite (bool_decide_ext (nd = nd /\ RLocal i = RLocal k) (i = k)) by naive_solver.
      destruct (decide (i = k)) as [->|]; [rewrite (bool_decide_true (k = k)) by done; by rewrite bool_decide_true by set_solver|].
      rewrite (bool_decide_false (i = k)) by done. cbn. apply bool_decide_ext. set_solver.
    + rewrite bool_decide_false; [done|]. by intros [_ ?].
  - rewrite (bool_decide_false (nd' = nd)) by done. rewrite bool_decide_false; [done|]. by intros [? _].
Qed.
Lemma concat_filter {A B} `{EqDecision A} (x : A) (f g : A -> list B) (l : list A) : g x = [] -> (forall y, y <> x -> g y = f y) ->
  concat (map g l) = concat (map f (filter (fun y => y <> x) l)).
Proof.
  intros Hx Hy. induction l as [|y l IH]; [done|]. cbn [map concat]. rewrite IH. destruct (decide (y = x)) as [->|Hn].
  - rewrite filter_cons_False by tauto. by rewrite Hx.
  - rewrite filter_cons_True by done. cbn. by rewrite Hy.
Qed.
Lemma tolds nd why ks w :
  let w' := fold_left (fun w k => told nd why k w) ks w in
  w_regs w' = w_regs w /\ w_links w' = w_links w /\ w_mons w' = w_mons w /\ w_nlinks w' = w_nlinks w /\
  received (fun j => concat (map (told_news nd why w j) (firsts ks))) w w' /\
  (forall nd' x, monitors_to w' nd' !! x = if wipes nd ks nd' x then None else monitors_to w nd' !! x) /\
  (forall i, w_aliases w' !! i = if decide (i ∈ ks) then None else w_aliases w !! i).
Proof.
  revert w. induction ks as [|k ks IH]; intros w; cbn [fold_left].
  - repeat (split; [done|]). split; [by apply received_refl|]. split; [|intros; by rewrite decide_False by set_solver].
    intros nd' x. replace (wipes nd [] nd' x) with false; [done|]. unfold wipes. destruct x; [|by rewrite andb_false_r].
    rewrite (bool_decide_false (_ ∈ [])) by set_solver. by rewrite andb_false_r.
  - destruct (told_spec nd why k w) as (A1 & A2 & A3 & A4 & A5 & A6 & A7). set (w1 := told nd why k w) in *.
    destruct (IH w1) as (B1 & B2 & B3 & B4 & B5 & B6 & B7). cbn zeta in *. clear IH.
    repeat (split; [congruence|]). split; [|split].
    + eapply received_ext; [|eapply received_trans; [exact A5|exact B5]]. intros j. cbn [firsts map concat]. f_equal.
      apply concat_filter.
      * unfold told_news. rewrite A6. by rewrite decide_True.
      * intros k' Hk'. unfold told_news. rewrite A1, A6. rewrite decide_False; [done|]. intros [_ [= ->]]. done.
    + intros nd' x. rewrite B6, A6, wipes_cons. destruct (wipes nd ks nd' x); [by rewrite orb_true_r|]. rewrite orb_false_r.
      destruct (decide (nd' = nd /\ x = RLocal k)) as [H|H]; [by rewrite bool_decide_true|by rewrite bool_decide_false].
    + intros i. rewrite B7, A7. destruct (decide (i ∈ ks)); [by rewrite decide_True by set_solver|].
      destruct (decide (i = k)) as [->|]; [by rewrite decide_True by set_solver|]. by rewrite decide_False by set_solver.
Qed.
Lemma firsts_elem x l : x ∈ firsts l <-> x ∈ l.
Proof.
  induction l as [|y l IH]; cbn; [done|]. rewrite !elem_of_cons, elem_of_list_filter, IH.
  destruct (decide (x = y)); tauto.
Qed.
Lemma firsts_nodup l : NoDup (firsts l).
Proof.
  induction l as [|y l IH]; cbn; constructor; [|by apply NoDup_filter]. rewrite elem_of_list_filter. tauto.
Qed.
Lemma run_monitor_down_frame nd sup ks why w :
  run (receive_frame nd sup (FMonitorDown ks why)) w = Done (fold_left (fun w k => told nd why k w) ks w) tt.
Proof. unfold receive_frame. apply run_each. intros k u _. apply run_told. Qed.
