(** Proofs about the loss of a connection. *)
From stdpp Require Import base list gmap numbers strings countable sorting.
From Coq Require Import Lia.
From Verif Require Import Prog ProgProofs ProgInv Types Mailbox MailboxSpec World ProcApi NodeApi Api Steps SchedSpec SchedProofs
  ProcSpec ProcProofs SendSpec NetSpec.

Definition set_core a b c d e f (w : world) : world :=
  up_log (fun _ => a) (up_loc (fun _ => b) (up_regs (fun _ => c) (up_links (fun _ => d) (up_mons (fun _ => e) (up_aliases (fun _ => f) w))))).
Definition only_core (w w' : world) : Prop := exists a b c d e f, w' = set_core a b c d e f w.
Lemma only_core_refl w : only_core w w.
Proof. exists (w_log w), (w_loc w), (w_regs w), (w_links w), (w_mons w), (w_aliases w). by destruct w. Qed.
Lemma only_core_trans a b c : only_core a b -> only_core b c -> only_core a c.
Proof. intros (?&?&?&?&?&?&->) (a1&b1&c1&d1&e1&f1&->). exists a1, b1, c1, d1, e1, f1. reflexivity. Qed.
Lemma only_core_push i x w : only_core w (push i x w).
Proof.
  unfold push. destruct (w_loc w !! i); [|apply only_core_refl].
  exists (w_log w ++ [(i, x)]), (<[i := set_chan (l_chan p ++ [x]) p]> (w_loc w)), (w_regs w), (w_links w), (w_mons w), (w_aliases w).
  by destruct w.
Qed.
Lemma only_core_send i x w : only_core w (send_to i x w).
Proof. unfold send_to. destruct (w_regs w !! i); [apply only_core_push | apply only_core_refl]. Qed.
Lemma only_core_regs f w : only_core w (up_regs f w).
Proof. exists (w_log w), (w_loc w), (f (w_regs w)), (w_links w), (w_mons w), (w_aliases w). by destruct w. Qed.
Lemma only_core_links f w : only_core w (up_links f w).
Proof. exists (w_log w), (w_loc w), (w_regs w), (f (w_links w)), (w_mons w), (w_aliases w). by destruct w. Qed.
Lemma only_core_mons f w : only_core w (up_mons f w).
Proof. exists (w_log w), (w_loc w), (w_regs w), (w_links w), (f (w_mons w)), (w_aliases w). by destruct w. Qed.
Lemma only_core_aliases f w : only_core w (up_aliases f w).
Proof. exists (w_log w), (w_loc w), (w_regs w), (w_links w), (w_mons w), (f (w_aliases w)). by destruct w. Qed.
Lemma only_core_exit_linked p from why w : only_core w (exit_linked_op p from why w).
Proof.
  unfold exit_linked_op. destruct (w_regs w !! pid_id p) as [r|]; [|apply only_core_refl].
  destruct (r_trap r); [apply only_core_push|]. destruct why; first [apply only_core_refl | apply only_core_regs].
Qed.
Lemma only_core_exit p from why w : only_core w (exit_op p from why w).
Proof.
  unfold exit_op. destruct (w_regs w !! pid_id p) as [r|]; [|apply only_core_refl].
  destruct why; try apply only_core_regs;
    (destruct (decide (p = from)); [apply only_core_regs|]); destruct (r_trap r);
    first [apply only_core_push | apply only_core_refl | apply only_core_regs].
Qed.

(** ** Links *)
Definition cut (x : pid * N) (w : world) : world := exit_linked_op (PLocal (snd x)) (fst x) lost (del_link (snd x) (fst x) w).
Definition cut_news (l : list (pid * N)) (w : world) (j : N) : list item :=
  match w_regs w !! j with
  | Some r => if r_trap r then map (fun x => ISystem (SExit (fst x) lost)) (filter (fun x => snd x = j) l) else []
  | None => []
  end.
Lemma signalled_twice why r : signalled why (signalled why r) = signalled why r.
Proof. unfold signalled. destruct (r_trap r) eqn:E; [by rewrite E|]. destruct why; cbn; rewrite ?E; done. Qed.
Lemma signalled_trap why r : r_trap (signalled why r) = r_trap r.
Proof. unfold signalled. destruct (r_trap r) eqn:E; [done|]. by destruct why; cbn. Qed.
Global Instance some_link_dec (l : list (pid * N)) j : Decision (exists p, (p, j) ∈ l).
Proof.
  destruct (decide (j ∈ l.*2)) as [H|H].
  - left. apply elem_of_list_fmap in H as ([p j'] & -> & H). by exists p.
  - right. intros [p Hp]. apply H. apply elem_of_list_fmap. by exists (p, j).
Defined.
Lemma cut_rounds l w :
  let w' := fold_left (fun w x => cut x w) l w in
  (forall j, (exists p, (p, j) ∈ l) -> w_regs w' !! j = signalled lost <$> w_regs w !! j) /\
  (forall j, ~ (exists p, (p, j) ∈ l) -> w_regs w' !! j = w_regs w !! j) /\
  received (cut_news l w) w w' /\
  (forall j p, p ∈ default ∅ (w_links w' !! j) <-> p ∈ default ∅ (w_links w !! j) /\ (p, j) ∉ l) /\
  w_mons w' = w_mons w /\ w_aliases w' = w_aliases w /\ only_core w w'.
Proof.
  revert w; induction l as [|[q i] l IH]; intros w; cbn [fold_left].
  - split; [intros j [p Hp]; by apply elem_of_nil in Hp|]. split; [done|].
    split. { eapply received_ext; [|by apply received_refl]. intros j. unfold cut_news. destruct (w_regs w !! j) as [r|]; [|done]. by destruct (r_trap r). }
    split; [intros j p; split; [intros; split; [done|apply not_elem_of_nil] | by intros []]|].
    repeat (split; [done|]). apply only_core_refl.
  - destruct (exit_linked_spec i q lost (del_link i q w)) as (E1 & E2 & E3).
    destruct (IH (cut (q, i) w)) as (A1 & A2 & A3 & A4 & A5 & A6 & A7). clear IH.
    assert (only_core w (cut (q, i) w)) as Hc.
    { eapply only_core_trans; [|apply only_core_exit_linked]. apply only_core_links. }
    unfold cut in *; cbn [fst snd] in *. set (w1 := exit_linked_op (PLocal i) q lost (del_link i q w)) in *.
    change (w_regs (del_link i q w)) with (w_regs w) in *.
    assert (forall j, w_regs w1 !! j = if decide (j = i) then signalled lost <$> w_regs w !! j else w_regs w !! j) as R.
    { intros j. rewrite E1. destruct (decide (j = i)) as [->|]; [by rewrite lookup_alter | by rewrite lookup_alter_ne]. }
    split; [|split; [|split; [|split]]].
    + intros j [p Hp]. destruct (decide (exists p, (p, j) ∈ l)) as [Hl|Hl].
      * rewrite (A1 j Hl), R. destruct (decide (j = i)); [|done].
        destruct (w_regs w !! j); cbn; [by rewrite signalled_twice | done].
      * rewrite (A2 j Hl), R. apply elem_of_cons in Hp as [[= -> ->]|Hp]; [by rewrite decide_True|].
        exfalso. eauto.
    + intros j Hn. rewrite A2 by (intros [p Hp]; apply Hn; exists p; by right). rewrite R.
      rewrite decide_False; [done|]. intros ->. apply Hn. exists q. by left.
    + eapply received_ext; [|eapply received_trans; [eapply received_eq; [| |exact E2]; reflexivity | exact A3]].
      intros j. cbn. unfold cut_news. rewrite R, filter_cons; cbn [fst snd].
      destruct (decide (j = i)) as [->|Hne].
      * rewrite (decide_True (P := i = i)) by done. destruct (w_regs w !! i) as [r|]; cbn; [|done].
        rewrite signalled_trap. by destruct (r_trap r).
      * rewrite (decide_False (P := i = j)) by congruence. done.
    + destruct E3 as [_ _ _ _ _ _ El _ _ _ _ _ _ _ _ _ _]. cbn in El.
      intros j p. rewrite A4, El. destruct (decide (j = i)) as [->|Hne].
      * rewrite lookup_alter, elem_of_cons. destruct (w_links w !! i); cbn;
          [rewrite elem_of_difference, elem_of_singleton; naive_solver | set_solver].
      * rewrite lookup_alter_ne, elem_of_cons by congruence. naive_solver.
    + rewrite A5, A6. destruct E3 as [_ _ _ _ _ _ _ Em Ea _ _ _ _ _ _ _ _]. rewrite Em, Ea.
      repeat (split; [done|]). by eapply only_core_trans.
Qed.

(** ** Monitors *)
Definition report (nd : node) (x : reference * nmonitor) (w : world) : world :=
  let w := match snd x with
           | NMNode i => send_to i (INodeDown nd (fst x)) w
           | NMProcess i d => send_to i (IProcessDown d (fst x) lost) w
           | NMCleanup i => del_mon i (fst x) w
           end in
  if ref_is_local (fst x) then up_aliases (delete (ref_id (fst x))) w else w.
Global Instance nmonitor_eq_dec : EqDecision nmonitor. Proof. solve_decision. Defined.
Lemma report_send nd r m i x w :
  (forall j, option_list (lost_notice nd j (r, m)) = if decide (j = i) then [x] else []) ->
  (forall j, m <> NMCleanup j) ->
  w_regs (send_to i x w) = w_regs w /\ w_links (send_to i x w) = w_links w /\ only_core w (send_to i x w) /\
  w_aliases (send_to i x w) = w_aliases w /\
  received (fun j => match w_regs w !! j with Some _ => option_list (lost_notice nd j (r, m)) | None => [] end) w (send_to i x w) /\
  (forall j y, default ∅ (w_mons (send_to i x w) !! j) !! y =
     if decide (y = r /\ m = NMCleanup j) then None else default ∅ (w_mons w !! j) !! y).
Proof.
  intros Hn Hm. destruct (send_to_spec i x w) as (D1 & D2 & D3).
  split; [exact D1|]. split; [by apply se_links|]. split; [apply only_core_send|]. split; [by apply se_aliases|]. split.
  - eapply received_ext; [|exact D3]. intros j; cbn. by rewrite Hn.
  - intros j y. rewrite decide_False by (intros []; by eapply Hm). by rewrite (se_mons _ _ D2).
Qed.
Lemma report_rounds nd l w : NoDup l.*1 ->
  let w' := fold_left (fun w x => report nd x w) l w in
  w_regs w' = w_regs w /\ w_links w' = w_links w /\ only_core w w' /\
  received (fun j => match w_regs w !! j with Some _ => omap (lost_notice nd j) l | None => [] end) w w' /\
  (forall j x, (x, NMCleanup j) ∈ l -> default ∅ (w_mons w' !! j) !! x = None) /\
  (forall j x, (x, NMCleanup j) ∉ l -> default ∅ (w_mons w' !! j) !! x = default ∅ (w_mons w !! j) !! x) /\
  (forall k, w_aliases w' !! k = if bool_decide (RLocal k ∈ l.*1) then None else w_aliases w !! k).
Proof.
  revert w; induction l as [|[r m] l IH]; intros w Hnd; cbn [fold_left].
  - split; [done|]. split; [done|]. split; [apply only_core_refl|].
    split; [eapply received_ext; [|by apply received_refl]; intros j; by destruct (w_regs w !! j)|].
    split; [intros j x Hx; by apply elem_of_nil in Hx|]. split; [done|].
    intros k. rewrite bool_decide_false; [done|]. cbn. apply not_elem_of_nil.
  - cbn [fmap list_fmap fst] in Hnd. apply NoDup_cons in Hnd as [Hni Hnd].
    destruct (IH (report nd (r, m) w) Hnd) as (A1 & A2 & A3 & A4 & A5 & A6 & A7). clear IH.
    assert (w_regs (report nd (r, m) w) = w_regs w /\ w_links (report nd (r, m) w) = w_links w /\ only_core w (report nd (r, m) w) /\
      received (fun j => match w_regs w !! j with Some _ => option_list (lost_notice nd j (r, m)) | None => [] end) w (report nd (r, m) w) /\
      (forall j x, default ∅ (w_mons (report nd (r, m) w) !! j) !! x =
         if decide (x = r /\ m = NMCleanup j) then None else default ∅ (w_mons w !! j) !! x) /\
      (forall k, w_aliases (report nd (r, m) w) !! k = if decide (r = RLocal k) then None else w_aliases w !! k))
      as (B1 & B2 & B3 & B4 & B5 & B6).
    { unfold report; cbn [fst snd]. set (w1 := match m with NMNode i => _ | NMProcess i d => _ | NMCleanup i => _ end).
      assert (w_regs w1 = w_regs w /\ w_links w1 = w_links w /\ only_core w w1 /\ w_aliases w1 = w_aliases w /\
        received (fun j => match w_regs w !! j with Some _ => option_list (lost_notice nd j (r, m)) | None => [] end) w w1 /\
        (forall j x, default ∅ (w_mons w1 !! j) !! x =
           if decide (x = r /\ m = NMCleanup j) then None else default ∅ (w_mons w !! j) !! x)) as (C1 & C2 & C3 & C4 & C5 & C6).
      { unfold w1. destruct m as [i|i d|i].
        - apply report_send; [|naive_solver]. intros j. unfold lost_notice; cbn. destruct (decide (j = i)), (decide (i = j)); by subst.
        - apply report_send; [|naive_solver]. intros j. unfold lost_notice; cbn. destruct (decide (j = i)), (decide (i = j)); by subst.
        - split; [done|]. split; [done|]. split; [apply only_core_mons|]. split; [done|]. split.
        { eapply received_ext; [|by apply received_refl]. intros j; cbn. by destruct (w_regs w !! j). }
          intros j x. cbn. destruct (decide (i = j)) as [->|Hne].
          + rewrite lookup_alter. destruct (decide (x = r)) as [->|Hx].
            * rewrite decide_True by done. destruct (w_mons w !! j); cbn; [apply lookup_delete | done].
            * rewrite decide_False by naive_solver. destruct (w_mons w !! j); cbn; [by apply lookup_delete_ne|done].
          + rewrite lookup_alter_ne by done. rewrite decide_False by naive_solver. done. }
      clearbody w1. destruct r as [k0|k0 n0]; cbn [ref_is_local ref_id].
      - split; [exact C1|]. split; [exact C2|].
        split; [eapply only_core_trans; [exact C3|apply only_core_aliases]|].
        split; [eapply received_eq; [| |exact C5]; reflexivity|]. split; [exact C6|]. intros k. cbn. rewrite C4.
        case_decide as E; [injection E as ->; apply lookup_delete | apply lookup_delete_ne; congruence].
      - split; [exact C1|]. split; [exact C2|]. split; [exact C3|]. split; [exact C5|]. split; [exact C6|].
        intros k. by rewrite C4. }
    rewrite B1 in A4. rewrite A1, B1, A2, B2.
    split; [done|]. split; [done|]. split; [by eapply only_core_trans|].
    split. { eapply received_ext; [|eapply received_trans; [exact B4 | exact A4]].
      intros j. cbn. destruct (w_regs w !! j); [|done]. by destruct (lost_notice nd j (r, m)). }
    split; [|split].
    + intros j x Hx. destruct (decide ((x, NMCleanup j) ∈ l)) as [Hl|Hl].
      * by apply A5.
      * rewrite A6 by done. rewrite B5. apply elem_of_cons in Hx as [[= -> <-]|]; [|done]. by rewrite decide_True.
    + intros j x Hx. rewrite A6 by (intros ?; apply Hx; by right). rewrite B5.
      rewrite decide_False; [done|]. intros [-> ->]. apply Hx. by left.
    + intros k. rewrite A7, B6. cbn [fmap list_fmap fst].
      destruct (decide (r = RLocal k)) as [E|E].
      * rewrite (bool_decide_true (_ ∈ _ :: _)) by (rewrite E; by left). by case_bool_decide.
      * rewrite (bool_decide_ext (RLocal k ∈ r :: l.*1) (RLocal k ∈ l.*1)); [done|].
        rewrite elem_of_cons. naive_solver.
Qed.

(** ** The whole call *)
Lemma served_links_elem w nd x : x ∈ served_links w nd <-> x ∈ links_to w nd.
Proof. unfold served_links. rewrite merge_sort_Permutation. apply elem_of_elements. Qed.
Lemma links_none w nd : w_nlinks w !! nd = None -> links_to w nd = ∅.
Proof. intros E. unfold links_to. by rewrite E. Qed.

Lemma run_supervisor_down nd sup w id r : responsible w nd sup id r ->
  exists w', run (supervisor_down nd sup) w = Done w' tt /\ connection_lost w nd id r w'.
Proof.
  intros (Em & Er & Hs). unfold supervisor_down. rewrite run_bind, run_atom.
  assert (sup_down_op nd sup w = (up_nregs (<[id := unconnected r]>) w, true)) as Eop.
  { unfold sup_down_op. rewrite Em, Er. destruct Hs as [-> | ->]; [done|]. by rewrite bool_decide_false by auto. }
  rewrite Eop. cbn [fst snd negb]. set (w1 := up_nregs (<[id := unconnected r]>) w).
  rewrite run_bind, run_atom. cbn [fst snd]. set (w2 := up_nlinks (delete nd) w1).
  change (w_nlinks w1) with (w_nlinks w). change (elements (default ∅ (w_nlinks w !! nd))) with (elements (links_to w nd)).
  rewrite run_bind. rewrite (run_each _ _ cut); [|intros x u _; done].
  change (merge_sort _ (elements (links_to w nd))) with (served_links w nd).
  destruct (cut_rounds (served_links w nd) w2) as (A1 & A2 & A3 & A4 & A5 & A6 & A7).
  set (w3 := fold_left _ _ w2) in *.
  rewrite run_bind, run_atom. cbn [fst snd].
  assert (w_nmons w3 = w_nmons w) as En by (destruct A7 as (?&?&?&?&?&?&->); done).
  set (w4 := up_nmons (delete nd) w3). rewrite run_bind.
  rewrite (run_each _ _ (report nd)).
  2: { intros [x []] u _; cbn [fst snd]; destruct x; done. }
  rewrite En. change (sorted_refs (default ∅ (w_nmons w !! nd))) with (sorted_refs (monitors_to w nd)).
  destruct (report_rounds nd (sorted_refs (monitors_to w nd)) w4 (sorted_refs_nodup _)) as (B1 & B2 & B3 & B4 & B5 & B6 & B7).
  set (w5 := fold_left _ _ w4) in *. rewrite run_modify. eexists. split; [reflexivity|].
  assert (only_core w4 w5) as (a&b&c&d&e&f&E5) by exact B3.
  destruct A7 as (a'&b'&c'&d'&e'&f'&E3).
  assert (forall X (g : world -> X), (forall u a b c d e f, g (set_core a b c d e f u) = g u) ->
           (forall u h, g (up_nmons h u) = g u) -> g w5 = g w2) as K.
  { intros X g Hg Hn. rewrite E5, Hg. unfold w4. by rewrite Hn, E3, Hg. }
  assert (w_pend w5 = w_pend w) as Ep by (by rewrite K).
  assert (w_nregs w5 = <[id := unconnected r]> (w_nregs w)) as Enr by (by rewrite K).
  assert (forall j, (exists p, (p, j) ∈ served_links w nd) <-> linked_to w nd j) as Hl.
  { intros j. unfold linked_to. split; intros [p Hp]; exists p; by apply served_links_elem. }
  assert (forall j, is_Some (w_regs w3 !! j) <-> is_Some (w_regs w !! j)) as Hreg.
  { intros j. destruct (decide (exists p, (p, j) ∈ served_links w nd)) as [Hd|Hd];
      [rewrite (A1 j Hd); by rewrite fmap_is_Some | by rewrite (A2 j Hd)]. }
  assert (forall j x, (x, NMCleanup j) ∈ sorted_refs (monitors_to w nd) <-> monitors_to w nd !! x = Some (NMCleanup j)) as Hcl
    by (intros; apply sorted_refs_elem).
  constructor.
  - intros j Hj. cbn. rewrite B1. cbn. by rewrite A1 by (by apply Hl).
  - intros j Hj. cbn. rewrite B1. cbn. apply A2. by rewrite Hl.
  - intros j. cbn. rewrite B4. change (w_loc w4) with (w_loc w3). rewrite A3. change (w_loc w2) with (w_loc w).
    destruct (w_loc w !! j); [|done]. cbn [fmap option_fmap option_map]. rewrite after_arrival_app. f_equal. f_equal. f_equal.
    unfold lost_monitors. change (w_regs w4) with (w_regs w3).
    destruct (w_regs w3 !! j) eqn:E, (w_regs w !! j) eqn:E'; try done.
    + exfalso. destruct (proj1 (Hreg j)) as [? Hx]; [by rewrite E|congruence].
    + exfalso. destruct (proj2 (Hreg j)) as [? Hx]; [by rewrite E'|congruence].
  - cbn. by rewrite K.
  - cbn. rewrite E5. cbn. by rewrite En.
  - cbn. by rewrite Ep.
  - intros j p. cbn. rewrite B2. cbn. rewrite A4. by rewrite served_links_elem.
  - intros j x. cbn. destruct (decide ((x, NMCleanup j) ∈ sorted_refs (monitors_to w nd))) as [Hd|Hd].
    + rewrite B5 by done. apply Hcl in Hd. by rewrite Hd, decide_True.
    + rewrite B6 by done. change (w_mons w4) with (w_mons w3). rewrite A5.
      destruct (monitors_to w nd !! x) as [[]|] eqn:E; try done. case_decide; [|done]. subst. exfalso. apply Hd. by apply Hcl.
  - intros k. cbn. rewrite B7. change (w_aliases w4) with (w_aliases w3). rewrite A6.
    destruct (monitors_to w nd !! RLocal k) eqn:E.
    + rewrite bool_decide_true; [done|]. apply elem_of_list_fmap. exists (RLocal k, n). split; [done|]. by apply sorted_refs_elem.
    + rewrite bool_decide_false; [done|]. intros ([x y] & Ex & Hx)%elem_of_list_fmap. cbn in Ex; subst x.
      apply sorted_refs_elem in Hx. congruence.
  - cbn. by rewrite Enr.
  - cbn. by rewrite K.
  - cbn. by rewrite K.
  - cbn. by rewrite K.
  - cbn. by rewrite K.
  - cbn. by rewrite K.
  - cbn. by rewrite K.
  - cbn. by rewrite K.
  - cbn. by rewrite K.
  - cbn. by rewrite K.
  - cbn. by rewrite K.
Qed.
