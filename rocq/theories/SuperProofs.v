(** Proofs about the supervisor's handlers. *)
From stdpp Require Import base list gmap numbers strings sets.
From Coq Require Import ZArith Lia.
From Verif Require Import Types Super SuperSpec.

Definition mk (s : sup) (l : list child) (t : nat) (ca : list string) (lg : list effect) : sworld :=
  SWorld (Sup l (s_ids s) (s_restarts s) (s_strategy s) (s_auto s) (s_max s) (s_window s)) t ca lg.
Lemma mk_eta w : w = mk (v_sup w) (children w) (v_tick w) (v_casts w) (v_log w).
Proof. destruct w as [[] ? ? ?]. reflexivity. Qed.
Lemma sbind_some {A B} (m : sm A) (k : A -> sm B) w w' a : m w = (w', Some a) -> sbind m k w = k a w'.
Proof. unfold sbind. by intros ->. Qed.
Lemma nth_child_at i w c : children w !! i = Some c -> nth_child i w = (w, Some c).
Proof. intros H. unfold nth_child, sbind, sget. unfold children in H. by rewrite H. Qed.
Lemma set_child_at s l t ca lg i c f : l !! i = Some c -> set_child i f (mk s l t ca lg) = (mk s (<[i := f c]> l) t ca lg, Some tt).
Proof.
  intros H. unfold set_child. erewrite sbind_some; [|by apply nth_child_at]. unfold smod, mk, with_children. cbn. do 3 f_equal.
  apply list_eq. intros j. destruct (decide (i = j)) as [<-|].
  - rewrite list_lookup_alter, H, list_lookup_insert; [done|by eapply lookup_lt_Some].
  - by rewrite list_lookup_alter_ne, list_lookup_insert_ne.
Qed.
Lemma started_at s l t ca lg i c p : l !! i = Some c -> started i p (mk s l t ca lg) = (mk s (<[i := Child (c_spec c) p false]> l) t ca lg, Some tt).
Proof.
  intros H. unfold started. erewrite sbind_some; [|by eapply set_child_at].
  erewrite set_child_at; [|apply list_lookup_insert; by eapply lookup_lt_Some]. by rewrite list_insert_insert.
Qed.
Lemma remove_child_at s l t ca lg i c : l !! i = Some c ->
  remove_child i (mk s l t ca lg) = (mk (with_ids (fun x => x ∖ {[c_id c]}) s) (delete i l) t ca lg, Some c).
Proof. intros H. unfold remove_child. erewrite sbind_some; [|by apply nth_child_at]. reflexivity. Qed.

Lemma mid {A} (pre : list A) x post : (pre ++ x :: post) !! length pre = Some x.
Proof. apply list_lookup_middle. done. Qed.
Lemma mid_insert {A} (pre : list A) x y post : <[length pre := y]> (pre ++ x :: post) = pre ++ y :: post.
Proof. by rewrite <- (Nat.add_0_r (length pre)), insert_app_r. Qed.
Lemma mid_delete {A} (pre : list A) x post : delete (length pre) (pre ++ x :: post) = pre ++ post.
Proof. by apply delete_middle. Qed.

Section proofs.
Context (answers : nat -> answer).
Definition startable (c : child) : Prop := sp_start (c_spec c) = true.
(** What start_child_by_index makes of an answer. *)
Definition outcome (a : answer) : exit_reason + option pid :=
  match a with Up p => inr (Some p) | Down RIgnore => inr None | Down r => inl r end.
Lemma start_at s l t ca lg i c : l !! i = Some c -> startable c ->
  start_child_by_index answers i (mk s l t ca lg) = (mk s l (S t) ca (lg ++ [Starts (c_id c) (answers t)]), Some (outcome (answers t))).
Proof.
  intros H Hs. unfold start_child_by_index. erewrite sbind_some; [|by apply nth_child_at]. unfold startable in Hs. rewrite Hs. reflexivity.
Qed.
Lemma terminate_at s pre c post t ca lg :
  terminate_child_by_index (length pre) (mk s (pre ++ c :: post) t ca lg) = (mk s (pre ++ stopped c :: post) t ca (lg ++ stops [c]), Some tt).
Proof.
  unfold terminate_child_by_index. erewrite sbind_some; [|apply nth_child_at, mid]. unfold stopped, stops. cbn [omap list_omap]. destruct (c_pid c) as [p|] eqn:E.
  - erewrite sbind_some; [|apply set_child_at, mid]. rewrite mid_insert. erewrite sbind_some; [|apply set_child_at, mid]. rewrite mid_insert. reflexivity.
  - by rewrite app_nil_r.
Qed.
Lemma stops_app l l' : stops (l ++ l') = stops l ++ stops l'.
Proof. apply omap_app. Qed.
Lemma stops_cons c l : stops (c :: l) = stops [c] ++ stops l.
Proof. apply (stops_app [c] l). Qed.

(** terminate_others over the indices after [pre], which do not contain [k]. *)
Lemma terminate_others_seq k l : forall s pre post t ca lg, (k < length pre \/ length pre + length l <= k)%nat ->
  terminate_others k (seq (length pre) (length l)) (mk s (pre ++ l ++ post) t ca lg) = (mk s (pre ++ map stopped l ++ post) t ca (lg ++ stops l), Some tt).
Proof.
  induction l as [|c l IH]; intros s pre post t ca lg Hk.
  - cbn. by rewrite app_nil_r.
  - cbn [seq length terminate_others]. cbn [length] in Hk. rewrite (proj2 (Nat.eqb_neq k (length pre))) by lia. cbn [app].
    erewrite sbind_some; [|apply terminate_at].
    pose proof (IH s (pre ++ [stopped c]) post t ca (lg ++ stops [c])) as E. rewrite app_length in E. cbn [length] in E. rewrite Nat.add_1_r in E.
    rewrite <- !app_assoc in E. cbn [app] in E. rewrite E by lia. cbn [map]. by rewrite (stops_cons c l).
Qed.
Lemma terminate_others_all pre c post s t ca lg :
  terminate_others (length pre) (seq 0 (length (pre ++ c :: post))) (mk s (pre ++ c :: post) t ca lg) =
  (mk s (map stopped pre ++ c :: map stopped post) t ca (lg ++ stops (pre ++ post)), Some tt).
Proof.
  assert (forall (k : nat) l1 l2 w w' , terminate_others k l1 w = (w', Some tt) -> terminate_others k (l1 ++ l2) w = terminate_others k l2 w') as Happ.
  { intros k l1. induction l1 as [|a l1 IH]; intros l2 w w' H; cbn in *; [by injection H as ->|].
    unfold sbind in *. destruct ((if Nat.eqb k a then sret tt else terminate_child_by_index a) w) as [w1 [[]|]]; [|done]. by apply IH. }
  rewrite app_length, seq_app. cbn [length Nat.add].
  pose proof (terminate_others_seq (length pre) pre s [] (c :: post) t ca lg ltac:(cbn; lia)) as E1. cbn [length app] in E1.
  rewrite (Happ _ _ _ _ _ E1). cbn [seq terminate_others]. rewrite Nat.eqb_refl.
  pose proof (terminate_others_seq (length pre) post s (map stopped pre ++ [c]) [] t ca (lg ++ stops pre)) as E2.
  rewrite app_length, map_length in E2. cbn [length] in E2. rewrite Nat.add_1_r in E2. rewrite !app_nil_r, <- !app_assoc in E2. cbn [app] in E2.
  unfold sbind, sret. rewrite E2 by lia. by rewrite stops_app.
Qed.
Lemma terminate_others_rest pre c post s t ca lg :
  terminate_others (length pre) (seq (length pre) (length (pre ++ c :: post) - length pre)) (mk s (pre ++ c :: post) t ca lg) =
  (mk s (pre ++ c :: map stopped post) t ca (lg ++ stops post), Some tt).
Proof.
  rewrite app_length. replace (length pre + length (c :: post) - length pre)%nat with (S (length post)) by (cbn; lia).
  cbn [seq terminate_others]. rewrite Nat.eqb_refl.
  pose proof (terminate_others_seq (length pre) post s (pre ++ [c]) [] t ca lg) as E. rewrite app_length in E. cbn [length] in E. rewrite Nat.add_1_r in E.
  rewrite !app_nil_r, <- !app_assoc in E. cbn [app] in E. unfold sbind, sret. by rewrite E by lia.
Qed.

Lemma start_none s l t ca lg i c : l !! i = Some c -> ~ startable c -> start_child_by_index answers i (mk s l t ca lg) = (mk s l t ca lg, None).
Proof.
  intros H Hs. unfold start_child_by_index. erewrite sbind_some; [|by apply nth_child_at]. unfold startable in Hs. destruct (sp_start (c_spec c)); [done|reflexivity].
Qed.
Global Instance startable_dec c : Decision (startable c) := _ : Decision (_ = _).

(** start_each over consecutive children. *)
Definition each_result (s : sup) (pre l post : list child) (t : nat) (ca : list string) (lg : list effect) (x : sworld * option (option (nat * exit_reason))) : Prop :=
  match x with
  | (_, None) => ~ Forall startable l
  | (w', Some None) => exists es l', w' = mk s (pre ++ l' ++ post) (t + length es) ca (lg ++ es) /\ attempts answers t l es l' None
  | (w', Some (Some (i, _))) => exists es l1 c l2, w' = mk s (pre ++ (l1 ++ c :: l2) ++ post) (t + length es) ca (lg ++ es) /\ i = length pre + length l1 /\
      attempts answers t l es (l1 ++ retrying c :: l2) (Some (c_id c))
  end.
Lemma start_each_seq l : forall s pre post t ca lg,
  each_result s pre l post t ca lg (start_each answers (seq (length pre) (length l)) (mk s (pre ++ l ++ post) t ca lg)).
Proof.
  induction l as [|c l IH]; intros s pre post t ca lg.
  - cbn. exists [], []. cbn. rewrite Nat.add_0_r, app_nil_r. split; [done|]. constructor.
  - cbn [length seq start_each app]. destruct (decide (startable c)) as [Hc|Hc].
    2: { unfold sbind at 1. erewrite start_none; [|apply mid|done]. cbn. intros H. by inversion H. }
    erewrite sbind_some; [|apply start_at; [apply mid|done]].
    assert (forall a c', (forall es l' f, attempts answers (S t) l es l' f -> attempts answers t (c :: l) (Starts (c_id c) a :: es) (c' :: l') f) ->
      each_result s pre (c :: l) post t ca lg (start_each answers (seq (S (length pre)) (length l)) (mk s (pre ++ c' :: l ++ post) (S t) ca (lg ++ [Starts (c_id c) a])))) as Hgo.
    { intros a c' Hstep. pose proof (IH s (pre ++ [c']) post (S t) ca (lg ++ [Starts (c_id c) a])) as E.
      rewrite app_length in E. cbn [length] in E. rewrite Nat.add_1_r in E. rewrite <- !app_assoc in E. cbn [app] in E.
      destruct (start_each answers _ _) as [w' [[[i e]|]|]]; cbn in E |- *.
      - destruct E as (es & l1 & c1 & l2 & -> & -> & Hat). exists (Starts (c_id c) a :: es), (c' :: l1), c1, l2.
        split; [rewrite <- ?app_assoc; cbn [app length]; f_equal; lia|]. split; [cbn; rewrite app_length; cbn; lia|]. cbn [app]. by apply Hstep.
      - destruct E as (es & l' & -> & Hat). exists (Starts (c_id c) a :: es), (c' :: l'). split; [|by apply Hstep]. rewrite <- ?app_assoc; cbn [app length]; f_equal; lia.
      - intros H. inversion H. done. }
    destruct (answers t) as [p|r] eqn:Ea; cbn [outcome].
    + erewrite sbind_some; [|apply started_at, mid]. rewrite mid_insert. apply Hgo. intros es l' f. by apply attempts_up.
    + destruct (decide (r = RIgnore)) as [->|Hr].
      * erewrite sbind_some; [|apply started_at, mid]. rewrite mid_insert. apply Hgo. intros es l' f. by apply attempts_ignore.
      * assert (match r with RIgnore => inr None | _ => inl r end = (inl r : exit_reason + option pid)) as -> by (by destruct r).
        cbn. exists [Starts (c_id c) (Down r)], [], c, l. cbn [length]. rewrite Nat.add_1_r. split; [done|]. split; [cbn; lia|]. by constructor.
Qed.
Lemma try_later_at s l1 c l2 t ca lg : try_later (length l1) (mk s (l1 ++ c :: l2) t ca lg) = (mk s (l1 ++ retrying c :: l2) t (ca ++ [c_id c]) lg, Some tt).
Proof.
  unfold try_later. erewrite sbind_some; [|apply nth_child_at, mid]. erewrite sbind_some; [|apply set_child_at, mid]. rewrite mid_insert. reflexivity.
Qed.
Lemma startable_stopped l : Forall startable (map stopped l) <-> Forall startable l.
Proof. rewrite Forall_map. apply Forall_proper; [|done]. intros c. unfold startable, stopped. cbn. by destruct (c_pid c). Qed.

(** restart, for a child between [pre] and [post]. *)
Lemma restart_at w pre c post : children w = pre ++ c :: post ->
  match restart_index answers (length pre) w with
  | (w', Some _) => exists es l' f, restarted answers w pre c post es l' f w' /\ s_restarts (v_sup w') = s_restarts (v_sup w)
  | (_, None) => ~ Forall startable (children w)
  end.
Proof.
  intros Hc. rewrite (mk_eta w). rewrite Hc in *. set (s := v_sup w). set (t := v_tick w). set (ca := v_casts w). set (lg := v_log w).
  unfold restart_index, sget. unfold sbind at 1. cbn [v_sup mk s_strategy children s_children].
  fold s. destruct (s_strategy s) eqn:Est.
  - (* one for one *)
    destruct (decide (startable c)) as [Hsc|Hsc].
    2: { unfold sbind. erewrite start_none; [|apply mid|done]. intros H. apply Forall_app in H as [_ H]. by inversion H. }
    erewrite sbind_some; [|apply start_at; [apply mid|done]].
    destruct (answers t) as [p|r] eqn:Ea; cbn [outcome].
    + rewrite (started_at _ _ _ _ _ _ c) by apply mid. rewrite mid_insert. exists [Starts (c_id c) (Up p)], [running_as c p], None. split; [|reflexivity]. constructor; cbn; rewrite ?Est; cbn; try done; try lia.
      * constructor; [done|]. constructor.
      * by rewrite app_nil_r.
    + destruct (decide (r = RIgnore)) as [->|Hr].
      * rewrite (started_at _ _ _ _ _ _ c) by apply mid. rewrite mid_insert. exists [Starts (c_id c) (Down RIgnore)], [ignored c], None. split; [|reflexivity]. constructor; cbn; rewrite ?Est; cbn; try done; try lia.
        -- constructor; [done|]. constructor.
        -- by rewrite app_nil_r.
      * assert (match r with RIgnore => inr None | _ => inl r end = (inl r : exit_reason + option pid)) as -> by (by destruct r).
        rewrite try_later_at. exists [Starts (c_id c) (Down r)], [retrying c], (Some (c_id c)). split; [|reflexivity]. constructor; cbn; rewrite ?Est; cbn; try done; try lia.
        by constructor.
  - (* one for all *)
    unfold restart_multiple_children, sget. unfold sbind at 1. unfold sbind at 1. cbn [v_sup mk s_children].
    unfold sbind at 1. erewrite terminate_others_all.
    pose proof (start_each_seq (map stopped pre ++ c :: map stopped post) s [] [] t ca (lg ++ stops (pre ++ post))) as E.
    rewrite !app_nil_r in E. cbn [app length] in E. rewrite app_length, map_length in E. cbn [length] in E. rewrite map_length in E.
    assert (length (pre ++ c :: post) = (length pre + S (length post))%nat) as -> by (by rewrite app_length).
    destruct (start_each answers _ _) as [w' [[[i e]|]|]]; cbn in E |- *.
    + destruct E as (es & l1 & c1 & l2 & -> & -> & Hat). rewrite app_nil_r. cbn [length Nat.add]. rewrite try_later_at.
      exists es, (l1 ++ retrying c1 :: l2), (Some (c_id c1)). split; [|reflexivity]. constructor; cbn; rewrite ?Est; cbn; try done.
      * by rewrite app_assoc.
      * by rewrite app_nil_r.
    + destruct E as (es & l' & -> & Hat). exists es, l', None. split; [|reflexivity]. constructor; cbn; rewrite ?Est; cbn; try done.
      * by rewrite app_assoc.
      * by rewrite app_nil_r.
    + intros H. apply E. apply Forall_app in H as [H1 H]. inversion H. apply Forall_app. split; [by apply startable_stopped|]. constructor; [done|by apply startable_stopped].
  - (* rest for one *)
    unfold restart_multiple_children, sget. unfold sbind at 1. unfold sbind at 1. cbn [v_sup mk s_children].
    unfold sbind at 1. erewrite terminate_others_rest.
    pose proof (start_each_seq (c :: map stopped post) s pre [] t ca (lg ++ stops post)) as E.
    rewrite !app_nil_r in E. cbn [length] in E. rewrite map_length in E.
    assert (length (pre ++ c :: post) - length pre = S (length post))%nat as -> by (rewrite app_length; cbn; lia).
    destruct (start_each answers _ _) as [w' [[[i e]|]|]]; cbn in E |- *.
    + destruct E as (es & l1 & c1 & l2 & -> & -> & Hat). rewrite app_nil_r, app_assoc, <- app_length, try_later_at.
      exists es, (l1 ++ retrying c1 :: l2), (Some (c_id c1)). split; [|reflexivity]. constructor; cbn; rewrite ?Est; cbn; try done.
      * by rewrite app_assoc.
      * by rewrite <- app_assoc, app_nil_r.
    + destruct E as (es & l' & -> & Hat). exists es, l', None. split; [|reflexivity]. constructor; cbn; rewrite ?Est; cbn; try done.
      * by rewrite app_assoc.
      * by rewrite app_nil_r.
    + intros H. apply E. apply Forall_app in H as [_ H]. inversion H. constructor; [done|by apply startable_stopped].
Qed.

(** ** Finding children *)
Lemma position_some {A} (P : A -> bool) l i : position P l = Some i -> exists pre x post, l = pre ++ x :: post /\ length pre = i /\ P x = true /\ Forall (fun y => P y = false) pre.
Proof.
  revert i. induction l as [|y l IH]; intros i H; [done|]. cbn in H. destruct (P y) eqn:E.
  - injection H as <-. by exists [], y, l.
  - destruct (position P l) as [j|]; [|done]. injection H as <-. destruct (IH j eq_refl) as (pre & x & post & -> & <- & Hx & Hp). exists (y :: pre), x, post.
    split_and!; try done. by constructor.
Qed.
Lemma position_none {A} (P : A -> bool) l : position P l = None -> Forall (fun y => P y = false) l.
Proof.
  induction l as [|y l IH]; intros H; [constructor|]. cbn in H. destruct (P y) eqn:E; [done|]. destruct (position P l); [done|]. constructor; auto.
Qed.
Lemma position_none_2 {A} (P : A -> bool) l : Forall (fun y => P y = false) l -> position P l = None.
Proof. induction 1 as [|y l Hy _ IH]; [done|]. cbn. by rewrite Hy, IH. Qed.
Lemma position_here {A} (P : A -> bool) pre x post : Forall (fun y => P y = false) pre -> P x = true -> position P (pre ++ x :: post) = Some (length pre).
Proof. induction 1 as [|y l Hy _ IH]; intros Hx; cbn; [by rewrite Hx|]. by rewrite Hy, (IH Hx). Qed.

(** ** Restart intensity *)
Lemma add_restart_ok now w : window_ok (v_sup w) now ->
  add_restart now w = (SWorld (with_restarts (fun l => filter (in_window (v_sup w) now) l ++ [now]) (v_sup w)) (v_tick w) (v_casts w) (v_log w),
                       Some (bool_decide (too_many (v_sup w) (s_restarts (v_sup w)) now))).
Proof.
  intros H. unfold window_ok in H. unfold add_restart, sbind, sget, smod, sret. rewrite (proj2 (Z.ltb_ge _ _)) by done. do 2 f_equal.
  unfold too_many. rewrite app_length, Nat.add_1_r.
  change (filter (fun t => (now - Z.of_N (s_window (v_sup w)) <= t)%Z) (s_restarts (v_sup w))) with (filter (in_window (v_sup w) now) (s_restarts (v_sup w))).
  rewrite bool_decide_decide. destruct (decide _) as [Hd|Hd]; [by apply N.ltb_lt|]. apply N.ltb_ge. lia.
Qed.
Lemma add_restart_bad now w : ~ window_ok (v_sup w) now -> add_restart now w = (w, None).
Proof.
  intros H. unfold window_ok in H. unfold add_restart, sbind, sget, smod, sret. by rewrite (proj2 (Z.ltb_lt _ _)) by lia.
Qed.
Global Instance window_ok_dec s now : Decision (window_ok s now) := _ : Decision (_ <= _)%Z.
End proofs.
