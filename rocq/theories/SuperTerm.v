(** Proofs about starting all children and terminating all children. *)
From stdpp Require Import base list gmap numbers strings sets.
From Coq Require Import ZArith Lia.
From Verif Require Import Types Super SuperSpec SuperProofs.

Fixpoint idx (k : nat) (P : child -> bool) (l : list child) : list nat :=
  match l with [] => [] | c :: r => if P c then k :: idx (S k) P r else idx (S k) P r end.
Definition drop_ids (P : child -> bool) (l : list child) (s : sup) : sup :=
  with_ids (fun x => x ∖ list_to_set (map c_id (filter (fun c => P c = true) l))) s.
Definition keep (P : child -> bool) (l : list child) : list child := filter (fun c => P c = false) l.
Lemma remove_all_app l1 l2 w w' : remove_all l1 w = (w', Some tt) -> remove_all (l1 ++ l2) w = remove_all l2 w'.
Proof.
  revert w. induction l1 as [|i l1 IH]; intros w H; cbn in *; [by injection H as ->|]. unfold sbind in *.
  destruct (remove_child i w) as [w1 [c|]]; [|done]. by apply IH.
Qed.
Lemma remove_idx P l : forall s pre post t ca lg,
  remove_all (rev (idx (length pre) P l)) (mk s (pre ++ l ++ post) t ca lg) = (mk (drop_ids P l s) (pre ++ keep P l ++ post) t ca lg, Some tt).
Proof.
  induction l as [|c l IH]; intros s pre post t ca lg.
  - cbn. unfold mk, sret, drop_ids, with_ids. cbn. do 3 f_equal. set_solver.
  - pose proof (IH s (pre ++ [c]) post t ca lg) as E. rewrite app_length in E. cbn [length] in E. rewrite Nat.add_1_r, <- !app_assoc in E. cbn [app] in E.
    cbn [idx]. destruct (P c) eqn:Ep.
    + assert (keep P (c :: l) = keep P l) as -> by (unfold keep; rewrite filter_cons_False; [done|congruence]).
      assert (filter (fun c => P c = true) (c :: l) = c :: filter (fun c => P c = true) l) as Hf by (by rewrite filter_cons_True).
      cbn [rev app]. rewrite (remove_all_app _ _ _ _ E). cbn [remove_all]. unfold sbind. erewrite remove_child_at; [|apply mid]. rewrite mid_delete.
      unfold sret. f_equal. unfold mk, drop_ids, with_ids. rewrite Hf. cbn. do 2 f_equal. set_solver.
    + assert (keep P (c :: l) = c :: keep P l) as -> by (unfold keep; by rewrite filter_cons_True).
      assert (filter (fun c => P c = true) (c :: l) = filter (fun c => P c = true) l) as Hf by (rewrite filter_cons_False; [done|congruence]).
      cbn [rev app]. rewrite E. unfold drop_ids. by rewrite Hf.
Qed.
Definition nopid (c : child) : child := set_pid None c.
Lemma terminate_rev_all l : forall s post t ca lg,
  terminate_rev (length l) (mk s (l ++ post) t ca lg) = (mk s (map nopid l ++ post) t ca (lg ++ stops (rev l)), Some (rev (idx 0 is_temporary l))).
Proof.
  induction l as [|c l IH] using rev_ind; intros s post t ca lg; [cbn; by rewrite app_nil_r|].
  assert (idx 0 is_temporary (l ++ [c]) = idx 0 is_temporary l ++ (if is_temporary c then [length l] else [])) as ->.
  { assert (forall k, idx k is_temporary (l ++ [c]) = idx k is_temporary l ++ (if is_temporary c then [k + length l] else [])) as H; [|apply H].
    clear. induction l as [|x l IH]; intros k; cbn; [rewrite Nat.add_0_r; by destruct (is_temporary c)|].
    rewrite IH, <- Nat.add_succ_comm. destruct (is_temporary x), (is_temporary c); done. }
  rewrite app_length, Nat.add_1_r. cbn [terminate_rev]. rewrite <- app_assoc. cbn [app].
  erewrite sbind_some; [|apply nth_child_at, mid].
  assert ((match c_pid c with None => sret tt | Some p => slet _ := set_child (length l) (set_pid None) in slog (Stops p (c_shutdown c)) end) (mk s (l ++ c :: post) t ca lg) =
          (mk s (l ++ nopid c :: post) t ca (lg ++ stops [c]), Some tt)) as E.
  { unfold stops. cbn [omap list_omap]. destruct (c_pid c) as [p|] eqn:Ep.
    - erewrite sbind_some; [|apply set_child_at, mid]. rewrite mid_insert. reflexivity.
    - rewrite app_nil_r. assert (nopid c = c) as -> by (destruct c; cbn in Ep; by subst). done. }
  erewrite sbind_some; [|exact E]. erewrite sbind_some; [|apply IH].
  rewrite rev_app_distr, (stops_app (rev [c])), map_app, <- !app_assoc. unfold sret. destruct (is_temporary c); rewrite ?rev_app_distr, ?app_nil_r; done.
Qed.
Lemma ids_nopid l : map c_id (filter (fun c => is_temporary c = true) (map nopid l)) = ids_of (filter (fun c => is_temporary c = true) l).
Proof.
  induction l as [|c l IH]; [done|]. cbn [map]. destruct (is_temporary c) eqn:E.
  - rewrite (filter_cons_True _ (nopid c)), filter_cons_True by done. cbn. by f_equal.
  - rewrite (filter_cons_False _ (nopid c)), filter_cons_False; [done|congruence|]. change (is_temporary (nopid c)) with (is_temporary c). congruence.
Qed.
Lemma terminate_children_all w : exists w', terminate_children w = (w', Some tt) /\
  children w' = keep is_temporary (map nopid (children w)) /\ v_log w' = v_log w ++ stops (rev (children w)) /\ v_tick w' = v_tick w /\ v_casts w' = v_casts w /\
  v_sup w' = Sup (children w') (s_ids (v_sup w) ∖ list_to_set (ids_of (filter (fun c => is_temporary c = true) (children w)))) (s_restarts (v_sup w))
               (s_strategy (v_sup w)) (s_auto (v_sup w)) (s_max (v_sup w)) (s_window (v_sup w)).
Proof.
  assert (terminate_children w = terminate_children (mk (v_sup w) (children w) (v_tick w) (v_casts w) (v_log w))) as -> by (by rewrite <- mk_eta). unfold terminate_children, sget. unfold sbind at 1. cbn [v_sup mk s_children].
  pose proof (terminate_rev_all (children w) (v_sup w) [] (v_tick w) (v_casts w) (v_log w)) as E. rewrite !app_nil_r in E.
  erewrite sbind_some; [|exact E].
  assert (forall k l, idx k is_temporary l = idx k is_temporary (map nopid l)) as Hi.
  { intros k l. revert k. induction l as [|c l IH]; intros k; [done|]. cbn. rewrite IH. done. }
  rewrite Hi. pose proof (remove_idx is_temporary (map nopid (children w)) (v_sup w) [] [] (v_tick w) (v_casts w) (v_log w ++ stops (rev (children w)))) as E2.
  cbn [length app] in E2. rewrite !app_nil_r in E2. rewrite E2. eexists. split; [reflexivity|]. unfold drop_ids. rewrite ids_nopid. cbn. split_and!; done.
Qed.

Section start.
Context (answers : nat -> answer).
(** A temporary child whose start was ignored. *)
Definition dropped (c : child) : bool := is_temporary c && bool_decide (c_pid c = None).
Definition from_result (s : sup) (pre l post : list child) (t : nat) (ca : list string) (lg : list effect) (x : sworld * option (exit_reason + list nat)) : Prop :=
  match x with
  | (_, None) => ~ Forall startable l
  | (w', Some (inr r)) => exists es l', w' = mk s (pre ++ l' ++ post) (t + length es) ca (lg ++ es) /\ attempts answers t l es l' None /\ r = idx (length pre) dropped l'
  | (w', Some (inl e)) => exists es l1 c l2, w' = mk s (pre ++ (l1 ++ c :: l2) ++ post) (t + length es) ca (lg ++ es) /\
      attempts answers t l es (l1 ++ retrying c :: l2) (Some (c_id c)) /\ e = RCustom "failed_to_start_child"
  end.
Lemma start_from_all l : forall s pre post t ca lg, from_result s pre l post t ca lg (start_from answers (length pre) (length l) (mk s (pre ++ l ++ post) t ca lg)).
Proof.
  induction l as [|c l IH]; intros s pre post t ca lg.
  - cbn. exists [], []. cbn. rewrite Nat.add_0_r, app_nil_r. split; [done|]. split; [constructor|done].
  - cbn [length start_from app]. destruct (decide (startable c)) as [Hc|Hc].
    2: { unfold sbind at 1. erewrite start_none; [|apply mid|done]. cbn. intros H. by inversion H. }
    erewrite sbind_some; [|apply start_at; [apply mid|done]].
    assert (forall a p, 
      (forall es l' f, attempts answers (S t) l es l' f -> attempts answers t (c :: l) (Starts (c_id c) a :: es) (Child (c_spec c) p false :: l') f) ->
      from_result s pre (c :: l) post t ca lg ((slet _ := started (length pre) p in slet c := nth_child (length pre) in slet r := start_from answers (S (length pre)) (length l) in
            sret (match r with inr l => inr (if is_temporary c && bool_decide (p = None) then length pre :: l else l) | inl e => inl e end))
         (mk s (pre ++ c :: l ++ post) (S t) ca (lg ++ [Starts (c_id c) a])))) as Hgo.
    { intros a p Hstep. erewrite sbind_some; [|apply started_at, mid]. rewrite mid_insert. set (c' := Child (c_spec c) p false). fold c' in Hstep.
      erewrite sbind_some; [|apply nth_child_at, mid].
      pose proof (IH s (pre ++ [c']) post (S t) ca (lg ++ [Starts (c_id c) a])) as E.
      rewrite app_length in E. cbn [length] in E. rewrite Nat.add_1_r in E. rewrite <- !app_assoc in E. cbn [app] in E. unfold sbind.
      destruct (start_from answers _ _ _) as [w' [[e|r]|]]; cbn in E |- *.
      - destruct E as (es & l1 & c1 & l2 & -> & Hat & ->). exists (Starts (c_id c) a :: es), (c' :: l1), c1, l2.
        split; [rewrite <- ?app_assoc; cbn [app length]; f_equal; lia|]. split; [|done]. cbn [app]. by apply Hstep.
      - destruct E as (es & l' & -> & Hat & ->). exists (Starts (c_id c) a :: es), (c' :: l'). split; [|split; [by apply Hstep|]].
        + rewrite <- ?app_assoc; cbn [app length]; f_equal; lia.
        + rewrite app_length. cbn [length idx]. rewrite Nat.add_1_r. unfold dropped at 3. cbn [c_pid c'].
          change (is_temporary c') with (is_temporary c). destruct (is_temporary c && bool_decide (p = None)); done.
      - intros H. inversion H. done. }
    destruct (answers t) as [p|r] eqn:Ea; cbn [outcome].
    + apply (Hgo (Up p) (Some p)). intros es l' f. by apply attempts_up.
    + destruct (decide (r = RIgnore)) as [->|Hr].
      * apply (Hgo (Down RIgnore) None). intros es l' f. by apply attempts_ignore.
      * assert (match r with RIgnore => inr None | _ => inl r end = (inl r : exit_reason + option pid)) as -> by (by destruct r).
        cbn. exists [Starts (c_id c) (Down r)], [], c, l. cbn [length]. rewrite Nat.add_1_r. split; [done|]. split; [by constructor|done].
Qed.
Lemma start_children_all w :
  match start_children answers w with
  | (_, None) => ~ Forall startable (children w)
  | (w', Some None) => exists es l', attempts answers (v_tick w) (children w) es l' None /\
      w' = mk (drop_ids dropped l' (v_sup w)) (keep dropped l') (v_tick w + length es) (v_casts w) (v_log w ++ es)
  | (w', Some (Some e)) => exists es l1 c l2, attempts answers (v_tick w) (children w) es (l1 ++ retrying c :: l2) (Some (c_id c)) /\
      w' = mk (v_sup w) (l1 ++ c :: l2) (v_tick w + length es) (v_casts w) (v_log w ++ es) /\ e = RCustom "failed_to_start_child"
  end.
Proof.
  assert (start_children answers w = start_children answers (mk (v_sup w) (children w) (v_tick w) (v_casts w) (v_log w))) as -> by (by rewrite <- mk_eta). unfold start_children, sget. unfold sbind at 1. cbn [v_sup mk s_children].
  pose proof (start_from_all (children w) (v_sup w) [] [] (v_tick w) (v_casts w) (v_log w)) as E. cbn [length app] in E. rewrite !app_nil_r in E. unfold sbind.
  destruct (start_from answers _ _ _) as [w' [[e|r]|]]; cbn in E |- *.
  - destruct E as (es & l1 & c1 & l2 & -> & Hat & ->). exists es, l1, c1, l2. rewrite app_nil_r. done.
  - destruct E as (es & l' & -> & Hat & ->). rewrite app_nil_r.
    pose proof (remove_idx dropped l' (v_sup w) [] [] (v_tick w + length es) (v_casts w) (v_log w ++ es)) as E2. cbn [length app] in E2. rewrite !app_nil_r in E2. rewrite E2. cbn.
    exists es, l'. done.
  - exact E.
Qed.
End start.
