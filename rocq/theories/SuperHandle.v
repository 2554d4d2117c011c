(** What each handler of a supervisor does to its state, as equations. *)
From stdpp Require Import base list gmap numbers strings sets.
From Coq Require Import ZArith Lia.
From Verif Require Import Types Super SuperSpec SuperProofs SuperTerm.

(** The child whose process is [p]; the child called [id]; and the children before and after it. *)
Record child_of (w : sworld) (p : pid) (pre : list child) (c : child) (post : list child) : Prop := ChildOf {
  co_list : children w = pre ++ c :: post;
  co_pid : c_pid c = Some p;
  co_first : Forall (fun x => c_pid x <> Some p) pre }.
Record child_called (w : sworld) (id : string) (pre : list child) (c : child) (post : list child) : Prop := ChildCalled {
  cc_list : children w = pre ++ c :: post;
  cc_id : c_id c = id;
  cc_first : Forall (fun x => c_id x <> id) pre }.
Definition no_child_of (w : sworld) (p : pid) : Prop := Forall (fun c => c_pid c <> Some p) (children w).
Definition no_child_called (w : sworld) (id : string) : Prop := Forall (fun c => c_id c <> id) (children w).

Lemma find_child_none w p : no_child_of w p -> find_child p (v_sup w) = None.
Proof. intros H. apply position_none_2. eapply Forall_impl; [exact H|]. intros c Hc. by apply bool_decide_eq_false_2. Qed.
Lemma find_child_here w p pre c post : child_of w p pre c post -> find_child p (v_sup w) = Some (length pre).
Proof.
  intros [E Hp Hf]. unfold find_child. unfold children in E. rewrite E. apply position_here; [|by apply bool_decide_eq_true_2].
  eapply Forall_impl; [exact Hf|]. intros x Hx. by apply bool_decide_eq_false_2.
Qed.
Lemma find_child_cases w p : no_child_of w p \/ exists pre c post, child_of w p pre c post.
Proof.
  destruct (find_child p (v_sup w)) as [i|] eqn:E; unfold find_child in E.
  - right. apply position_some in E as (pre & c & post & E & _ & Hc & Hf). exists pre, c, post. split; [done|by apply bool_decide_eq_true_1 in Hc|].
    eapply Forall_impl; [exact Hf|]. intros x Hx. by apply bool_decide_eq_false_1 in Hx.
  - left. apply position_none in E. eapply Forall_impl; [exact E|]. intros x Hx. by apply bool_decide_eq_false_1 in Hx.
Qed.
Lemma find_id_none w id : no_child_called w id -> find_child_id id (v_sup w) = None.
Proof. intros H. apply position_none_2. eapply Forall_impl; [exact H|]. intros c Hc. by apply bool_decide_eq_false_2. Qed.
Lemma find_id_here w id pre c post : child_called w id pre c post -> find_child_id id (v_sup w) = Some (length pre).
Proof.
  intros [E Hp Hf]. unfold find_child_id. unfold children in E. rewrite E. apply position_here; [|by apply bool_decide_eq_true_2].
  eapply Forall_impl; [exact Hf|]. intros x Hx. by apply bool_decide_eq_false_2.
Qed.
Lemma find_id_cases w id : no_child_called w id \/ exists pre c post, child_called w id pre c post.
Proof.
  destruct (find_child_id id (v_sup w)) as [i|] eqn:E; unfold find_child_id in E.
  - right. apply position_some in E as (pre & c & post & E & _ & Hc & Hf). exists pre, c, post. split; [done|by apply bool_decide_eq_true_1 in Hc|].
    eapply Forall_impl; [exact Hf|]. intros x Hx. by apply bool_decide_eq_false_1 in Hx.
  - left. apply position_none in E. eapply Forall_impl; [exact E|]. intros x Hx. by apply bool_decide_eq_false_1 in Hx.
Qed.

(** A world with another list of children / another record of restarts. *)
Definition with_list (w : sworld) (l : list child) : sworld := mk (v_sup w) l (v_tick w) (v_casts w) (v_log w).
Definition counted (w : sworld) (now : Z) : sworld :=
  SWorld (with_restarts (fun l => filter (in_window (v_sup w) now) l ++ [now]) (v_sup w)) (v_tick w) (v_casts w) (v_log w).
Definition removed (w : sworld) (pre : list child) (c : child) (post : list child) : sworld :=
  mk (with_ids (fun x => x ∖ {[c_id c]}) (v_sup w)) (pre ++ post) (v_tick w) (v_casts w) (v_log w).

Lemma remove_at w pre c post : children w = pre ++ c :: post -> remove_child (length pre) w = (removed w pre c post, Some c).
Proof.
  intros E. rewrite (mk_eta w), E. erewrite remove_child_at; [|apply mid]. rewrite mid_delete. reflexivity.
Qed.

Section handle.
Context (answers : nat -> answer).
Notation handle := (handle answers).

Lemma again_at w now pre c post : children w = pre ++ c :: post -> window_ok (v_sup w) now ->
  match again answers now (length pre) w with
  | (w', Some (Some r)) => too_many (v_sup w) (s_restarts (v_sup w)) now /\ w' = counted w now /\ r = give_up
  | (w', Some None) => ~ too_many (v_sup w) (s_restarts (v_sup w)) now /\ exists es l' f, restarted answers (counted w now) pre c post es l' f w' /\ s_restarts (v_sup w') = s_restarts (v_sup (counted w now))
  | (_, None) => ~ Forall startable (children w)
  end.
Proof.
  intros E Hw. unfold again. erewrite sbind_some; [|by apply add_restart_ok]. fold (counted w now).
  destruct (bool_decide_reflect (too_many (v_sup w) (s_restarts (v_sup w)) now)) as [H|H]; [done|].
  pose proof (restart_at answers (counted w now) pre c post E) as Hr. unfold sbind.
  destruct (restart_index answers (length pre) (counted w now)) as [w' [[]|]]; cbn; [|exact Hr]. done.
Qed.
Lemma gone_at w pre c post : children w = pre ++ c :: post ->
  gone (length pre) w = (removed w pre c post,
    Some (if match s_auto (v_sup w) with
             | Never => false
             | AnySignificant => sp_significant (c_spec c)
             | AllSignificant => sp_significant (c_spec c) && existsb (fun c => bool_decide (is_Some (c_pid c)) && sp_significant (c_spec c)) (pre ++ post)
             end then Some give_up else None)).
Proof. intros E. unfold gone. erewrite sbind_some; [|by apply remove_at]. reflexivity. Qed.

(** exit messages *)
Lemma exit_unknown w now p r : no_child_of w p -> handle (VExit now p r) w = (w, Some (inr RpNone)).
Proof. intros H. cbn. unfold restart_exited_child, sbind, sget. by rewrite find_child_none. Qed.
Lemma exit_known w now p r pre c post : child_of w p pre c post ->
  handle (VExit now p r) w = sbind (if decide (to_be_restarted (sp_restart (c_spec c)) r) then again answers now (length pre) else gone (length pre))
    (fun x => sret (match x with Some e => inl e | None => inr RpNone end)) w.
Proof.
  intros H. cbn. unfold restart_exited_child. unfold sbind at 2, sget. unfold sbind at 1. rewrite (find_child_here _ _ _ _ _ H). destruct H as [E Hp Hf].
  erewrite sbind_some; [|apply nth_child_at; rewrite E; apply mid]. unfold sbind.
  destruct (sp_restart (c_spec c)); cbn [to_be_restarted].
  - by rewrite decide_True.
  - by rewrite decide_False by tauto.
  - assert (normal_end r = false <-> (r <> RNormal /\ r <> RCustom "shutdown")) as Hn.
    { destruct r; cbn; try (split; [intros _; split; congruence|done]); try (split; [done|intros [? ?]; congruence]).
      rewrite bool_decide_eq_false. split; [intros H; split; congruence|intros [_ H] ->; done]. }
    destruct (decide _) as [Hd|Hd]; [apply Hn in Hd; by rewrite Hd|]. destruct (normal_end r); [done|]. exfalso. by apply Hd, Hn.
Qed.
Lemma exit_gone w now p r pre c post : child_of w p pre c post -> ~ to_be_restarted (sp_restart (c_spec c)) r ->
  handle (VExit now p r) w = (removed w pre c post,
    Some (if match s_auto (v_sup w) with
             | Never => false
             | AnySignificant => sp_significant (c_spec c)
             | AllSignificant => sp_significant (c_spec c) && existsb (fun c => bool_decide (is_Some (c_pid c)) && sp_significant (c_spec c)) (pre ++ post)
             end then inl give_up else inr RpNone)).
Proof.
  intros H Hr. rewrite (exit_known _ _ _ _ _ _ _ H), decide_False by done. erewrite sbind_some; [|apply gone_at, H]. unfold sret. do 2 f_equal. by destruct (match s_auto (v_sup w) with Never => _ | _ => _ end).
Qed.
Lemma exit_again w now p r pre c post : child_of w p pre c post -> to_be_restarted (sp_restart (c_spec c)) r -> window_ok (v_sup w) now ->
  match handle (VExit now p r) w with
  | (w', Some (inl e)) => too_many (v_sup w) (s_restarts (v_sup w)) now /\ w' = counted w now /\ e = give_up
  | (w', Some (inr x)) => ~ too_many (v_sup w) (s_restarts (v_sup w)) now /\ x = RpNone /\
      exists es l' f, restarted answers (counted w now) pre c post es l' f w' /\ s_restarts (v_sup w') = s_restarts (v_sup (counted w now))
  | (_, None) => ~ Forall startable (children w)
  end.
Proof.
  intros H Hr Hw. rewrite (exit_known _ _ _ _ _ _ _ H), decide_True by done. unfold sbind, sret. pose proof (again_at w now pre c post (co_list _ _ _ _ _ H) Hw) as Ha.
  destruct (again answers now (length pre) w) as [w' [[e|]|]]; [done| |done]. destruct Ha as [? ?]. done.
Qed.
Lemma exit_bad w now p r pre c post : child_of w p pre c post -> to_be_restarted (sp_restart (c_spec c)) r -> ~ window_ok (v_sup w) now ->
  handle (VExit now p r) w = (w, None).
Proof.
  intros H Hr Hw. rewrite (exit_known _ _ _ _ _ _ _ H), decide_True by done. unfold again, sbind. by rewrite add_restart_bad.
Qed.

(** the cast to try again *)
Lemma retry_unknown w now id : no_child_called w id -> handle (VTryAgain now id) w = (w, Some (inr RpNone)).
Proof. intros H. cbn. unfold sbind, sget. by rewrite find_id_none. Qed.
Lemma try_again_at w now pre c post : children w = pre ++ c :: post -> window_ok (v_sup w) now ->
  match try_again_restart answers now (length pre) w with
  | (w', Some (Some e)) => too_many (v_sup w) (s_restarts (v_sup w)) now /\ w' = counted w now /\ e = give_up
  | (w', Some None) => ~ too_many (v_sup w) (s_restarts (v_sup w)) now /\
      if c_restarting c then exists es l' f, restarted answers (counted w now) pre c post es l' f w' /\ s_restarts (v_sup w') = s_restarts (v_sup (counted w now))
      else w' = counted w now
  | (_, None) => ~ Forall startable (children w)
  end.
Proof.
  intros E Hw. unfold try_again_restart. erewrite sbind_some; [|by apply add_restart_ok]. fold (counted w now).
  destruct (bool_decide_reflect (too_many (v_sup w) (s_restarts (v_sup w)) now)) as [H|H]; [done|].
  assert (children (counted w now) = pre ++ c :: post) as E' by exact E.
  erewrite sbind_some; [|apply nth_child_at; rewrite E'; apply mid].
  destruct (c_restarting c); cbn [negb]; [|done]. pose proof (restart_at answers (counted w now) pre c post E') as Hr. unfold sbind.
  destruct (restart_index answers (length pre) (counted w now)) as [w' [[]|]]; cbn; [|exact Hr]. done.
Qed.
Definition retried (w : sworld) (now : Z) (pre : list child) (c : child) (post : list child) (x : sworld * option (exit_reason + reply)) : Prop :=
  match x with
  | (w', Some (inl e)) => too_many (v_sup w) (s_restarts (v_sup w)) now /\ w' = counted w now /\ e = give_up
  | (w', Some (inr x)) => ~ too_many (v_sup w) (s_restarts (v_sup w)) now /\ x = RpNone /\
      if c_restarting c then exists es l' f, restarted answers (counted w now) pre c post es l' f w' /\ s_restarts (v_sup w') = s_restarts (v_sup (counted w now))
      else w' = counted w now
  | (_, None) => ~ Forall startable (children w)
  end.
Lemma retried_of w now pre c post : children w = pre ++ c :: post -> window_ok (v_sup w) now ->
  retried w now pre c post ((slet x := try_again_restart answers now (length pre) in sret (match x with Some e => inl e | None => inr RpNone end)) w).
Proof.
  intros E Hw. pose proof (try_again_at w now pre c post E Hw) as H. unfold sbind, sret. destruct (try_again_restart answers now (length pre) w) as [w' [[e|]|]]; [done| |done].
  cbn. destruct H. done.
Qed.
Lemma retry_known w now id pre c post : child_called w id pre c post -> window_ok (v_sup w) now -> retried w now pre c post (handle (VTryAgain now id) w).
Proof.
  intros H Hw. assert (handle (VTryAgain now id) w = (slet x := try_again_restart answers now (length pre) in sret (match x with Some e => inl e | None => inr RpNone end)) w) as ->.
  { cbn. unfold sbind at 1, sget. by rewrite (find_id_here _ _ _ _ _ H). }
  apply retried_of; [apply H|done].
Qed.
Lemma retry_bad w now id pre c post : child_called w id pre c post -> ~ window_ok (v_sup w) now -> handle (VTryAgain now id) w = (w, None).
Proof. intros H Hw. cbn. unfold sbind at 1, sget. rewrite (find_id_here _ _ _ _ _ H). unfold try_again_restart, sbind. by rewrite add_restart_bad. Qed.
Lemma retrypid_unknown w now p : no_child_of w p -> handle (VTryAgainPid now p) w = (w, Some (inr RpNone)).
Proof. intros H. cbn. unfold sbind, sget. by rewrite find_child_none. Qed.
Lemma retrypid_known w now p pre c post : child_of w p pre c post -> window_ok (v_sup w) now -> retried w now pre c post (handle (VTryAgainPid now p) w).
Proof.
  intros H Hw. assert (handle (VTryAgainPid now p) w = (slet x := try_again_restart answers now (length pre) in sret (match x with Some e => inl e | None => inr RpNone end)) w) as ->.
  { cbn. unfold sbind at 1, sget. by rewrite (find_child_here _ _ _ _ _ H). }
  apply retried_of; [apply H|done].
Qed.
Lemma retrypid_bad w now p pre c post : child_of w p pre c post -> ~ window_ok (v_sup w) now -> handle (VTryAgainPid now p) w = (w, None).
Proof. intros H Hw. cbn. unfold sbind at 1, sget. rewrite (find_child_here _ _ _ _ _ H). unfold try_again_restart, sbind. by rewrite add_restart_bad. Qed.

(** terminate_child *)
Lemma terminate_unknown w id : no_child_called w id -> handle (VTerminate id) w = (w, Some (inr (RpTerminate (Some ENotFound)))).
Proof. intros H. cbn. unfold terminate_child_by_id, sbind, sget. by rewrite find_id_none. Qed.
Lemma terminate_known w id pre c post : child_called w id pre c post ->
  handle (VTerminate id) w = (mk (v_sup w) (pre ++ stopped c :: post) (v_tick w) (v_casts w) (v_log w ++ stops [c]), Some (inr (RpTerminate None))).
Proof.
  intros H. cbn. unfold terminate_child_by_id. unfold sbind at 2, sget. unfold sbind at 1. rewrite (find_id_here _ _ _ _ _ H). unfold sbind.
  rewrite (mk_eta w), (cc_list _ _ _ _ _ H), terminate_at. reflexivity.
Qed.
(** delete_child *)
Lemma delete_unknown w id : no_child_called w id -> handle (VDelete id) w = (w, Some (inr (RpDelete (Some ENotFound)))).
Proof. intros H. cbn. unfold delete_child_by_id, sbind, sget. by rewrite find_id_none. Qed.
Lemma delete_known w id pre c post : child_called w id pre c post ->
  handle (VDelete id) w =
    (if c_restarting c then (w, Some (inr (RpDelete (Some ERestarting))))
     else if decide (is_Some (c_pid c)) then (w, Some (inr (RpDelete (Some ERunning))))
     else (removed w pre c post, Some (inr (RpDelete None)))).
Proof.
  intros H. cbn. unfold delete_child_by_id. unfold sbind at 2, sget. unfold sbind at 1. rewrite (find_id_here _ _ _ _ _ H).
  erewrite sbind_some; [|apply nth_child_at; rewrite (cc_list _ _ _ _ _ H); apply mid]. destruct (c_restarting c); [reflexivity|].
  rewrite bool_decide_decide. destruct (decide _); [reflexivity|]. erewrite sbind_some; [|apply remove_at, H]. reflexivity.
Qed.
(** restart_child *)
Lemma restart_unknown w id : no_child_called w id -> handle (VRestart id) w = (w, Some (inr (RpRestart (inl ENotFound)))).
Proof. intros H. cbn. unfold restart_child_by_id, sbind, sget. by rewrite find_id_none. Qed.
Lemma restart_known w id pre c post : child_called w id pre c post ->
  handle (VRestart id) w =
    (if c_restarting c then (w, Some (inr (RpRestart (inl ERestarting))))
     else if decide (is_Some (c_pid c)) then (w, Some (inr (RpRestart (inl ERunning))))
     else if decide (startable c) then
       (mk (v_sup w) (pre ++ match answers (v_tick w) with Up p => running_as c p | Down _ => c end :: post) (S (v_tick w)) (v_casts w) (v_log w ++ [Starts id (answers (v_tick w))]),
        Some (inr (RpRestart (match answers (v_tick w) with Up p => inr (Some p) | Down RIgnore => inr None | Down r => inl (EStartError r) end))))
     else (w, None)).
Proof.
  intros H. cbn. unfold restart_child_by_id. unfold sbind at 2, sget. unfold sbind at 1. rewrite (find_id_here _ _ _ _ _ H).
  pose proof (cc_list _ _ _ _ _ H) as El. pose proof (cc_id _ _ _ _ _ H) as Ei. clear H.
  erewrite sbind_some; [|apply nth_child_at; rewrite El; apply mid]. destruct (c_restarting c) eqn:Ec; [reflexivity|].
  rewrite bool_decide_decide. destruct (decide _) as [Hs|Hs]; [reflexivity|].
  rewrite (mk_eta w), El. cbn [v_sup v_tick v_casts v_log mk]. unfold sbind.
  destruct (decide (startable c)) as [Hc|Hc]; [|by erewrite start_none by (done || apply mid)].
  erewrite start_at by (done || apply mid). cbn beta iota. rewrite Ei.
  assert (Child (c_spec c) None false = c) as Hn. { destruct c as [sp [q|] b]; cbn in *; [destruct Hs; by exists q|]. by subst. }
  destruct (answers (v_tick w)) as [p|r]; cbn [outcome].
  - erewrite started_at by apply mid. rewrite mid_insert. reflexivity.
  - destruct (decide (r = RIgnore)) as [->|Hr].
    + erewrite started_at by apply mid. rewrite mid_insert, Hn. reflexivity.
    + assert (match r with RIgnore => inr None | _ => inl r end = (inl r : exit_reason + option pid)) as -> by (by destruct r).
      assert (match r with RIgnore => inr None | _ => inl (EStartError r) end = (inl (EStartError r) : sup_error + option pid)) as -> by (by destruct r). reflexivity.
Qed.
(** start_child *)
Lemma start_taken w sp pre c post : sp_id sp ∈ s_ids (v_sup w) -> child_called w (sp_id sp) pre c post ->
  handle (VStart sp) w = (w, Some (inr (RpStart (inl (if decide (is_Some (c_pid c)) then EAlreadyStarted else EAlreadyPresent))))).
Proof.
  intros Hin H. cbn. unfold start_new_child. unfold sbind at 2, sget. unfold sbind at 1. rewrite decide_True by done. rewrite (find_id_here _ _ _ _ _ H).
  erewrite sbind_some; [|apply nth_child_at; rewrite (cc_list _ _ _ _ _ H); apply mid]. rewrite bool_decide_decide. destruct (decide (is_Some (c_pid c))); reflexivity.
Qed.
Lemma start_ghost w sp : sp_id sp ∈ s_ids (v_sup w) -> no_child_called w (sp_id sp) -> handle (VStart sp) w = (w, None).
Proof. intros Hin H. cbn. unfold start_new_child, sbind, sget. rewrite decide_True by done. by rewrite find_id_none. Qed.
Lemma start_new w sp : sp_id sp ∉ s_ids (v_sup w) ->
  handle (VStart sp) w =
    if sp_start sp then
      (mk (with_ids (fun i => {[sp_id sp]} ∪ i) (v_sup w))
          (children w ++ match answers (v_tick w) with
                         | Up p => [Child sp (Some p) false]
                         | Down RIgnore => if decide (sp_restart sp = Temporary) then [] else [Child sp None false]
                         | Down _ => [Child sp None false]
                         end)
          (S (v_tick w)) (v_casts w) (v_log w ++ [Starts (sp_id sp) (answers (v_tick w))]),
       Some (inr (RpStart (match answers (v_tick w) with Up p => inr (Some p) | Down RIgnore => inr None | Down r => inl (EStartError r) end))))
    else (mk (with_ids (fun i => {[sp_id sp]} ∪ i) (v_sup w)) (children w ++ [Child sp None false]) (v_tick w) (v_casts w) (v_log w), None).
Proof.
  intros Hin. cbn. unfold start_new_child. unfold sbind at 2, sget. unfold sbind at 1. rewrite decide_False by done.
  unfold sbind at 2, smod. cbn beta iota. unfold sbind at 2, smod. cbn beta iota. cbn [v_sup v_tick v_casts v_log].
  set (s' := with_ids _ _). unfold sbind.
  match goal with |- context [start_child_by_index answers _ ?w0] => change w0 with (mk s' (children w ++ [Child sp None false]) (v_tick w) (v_casts w) (v_log w)) end.
  change (length (s_children (v_sup w))) with (length (children w)).
  destruct (sp_start sp) eqn:Es.
  2: { erewrite start_none; [reflexivity|apply mid|]. unfold startable. cbn. congruence. }
  erewrite start_at; [|apply mid|done]. cbn beta iota.
  destruct (answers (v_tick w)) as [p|r]; cbn [outcome].
  - erewrite started_at by apply mid. rewrite mid_insert. erewrite nth_child_at by apply mid. cbn beta iota. rewrite andb_false_r. reflexivity.
  - destruct (decide (r = RIgnore)) as [->|Hr].
    + erewrite started_at by apply mid. rewrite mid_insert. erewrite nth_child_at by apply mid. cbn beta iota. cbn [c_spec is_temporary].
      rewrite (bool_decide_eq_true_2 (None = None)) by done. rewrite andb_true_r. unfold is_temporary. cbn [c_spec].
      destruct (sp_restart sp); (rewrite decide_False by done) || (rewrite decide_True by done); try reflexivity.
      unfold mk, smod, with_children. cbn. unfold sret. do 4 f_equal. apply mid_delete.
    + assert (match r with RIgnore => inr None | _ => inl r end = (inl r : exit_reason + option pid)) as -> by (by destruct r).
      assert (match r with RIgnore => inr None | _ => inl (EStartError r) end = (inl (EStartError r) : sup_error + option pid)) as -> by (by destruct r).
      assert (match r with RIgnore => if decide (sp_restart sp = Temporary) then [] else [Child sp None false] | _ => [Child sp None false] end = [Child sp None false]) as -> by (by destruct r). reflexivity.
Qed.
End handle.
