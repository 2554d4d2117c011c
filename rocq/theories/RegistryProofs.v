(** Lemmas on registries. *)
From stdpp Require Import base list gmap numbers strings sets.
From Coq Require Import ZArith Lia.
From Verif Require Import Types Super Registry RegistrySpec.

Lemma entry_lookup w name k : lookup_process w name k = entry w name k.
Proof. unfold lookup_process, entry. by destruct (t_tables w !! name). Qed.
Lemma entry_tables w w' name k : t_tables w' = t_tables w -> entry w' name k = entry w name k.
Proof. unfold entry. by intros ->. Qed.
Lemma entry_register name k p w name' k' :
  entry (register_process name k p w) name' k' = if decide ((name', k') = (name, k)) then Some p else entry w name' k'.
Proof.
  unfold entry, register_process, with_tables. cbn [t_tables].
  destruct (decide (name' = name)) as [->|Hn].
  - rewrite lookup_insert. destruct (decide (k' = k)) as [->|Hk].
    + rewrite lookup_insert. by rewrite decide_True.
    + rewrite lookup_insert_ne by congruence. rewrite decide_False by congruence. destruct (t_tables w !! name); cbn; [done|apply lookup_empty].
  - rewrite lookup_insert_ne by congruence. by rewrite decide_False by congruence.
Qed.
Lemma entry_remove name k w name' k' :
  entry (remove_process name k w) name' k' = if decide ((name', k') = (name, k)) then None else entry w name' k'.
Proof.
  unfold entry, remove_process, with_tables. cbn [t_tables].
  destruct (decide (name' = name)) as [->|Hn].
  - rewrite lookup_alter. destruct (t_tables w !! name) as [t|]; cbn.
    + destruct (decide (k' = k)) as [->|Hk]; [rewrite lookup_delete; by rewrite decide_True|].
      rewrite lookup_delete_ne by congruence. by rewrite decide_False by congruence.
    + by destruct (decide _).
  - rewrite lookup_alter_ne by congruence. by rewrite decide_False by congruence.
Qed.
Lemma entry_delete name w name' k' :
  entry (with_tables (delete name) w) name' k' = if decide (name' = name) then None else entry w name' k'.
Proof.
  unfold entry, with_tables. cbn [t_tables]. destruct (decide (name' = name)) as [->|Hn].
  - by rewrite lookup_delete.
  - by rewrite lookup_delete_ne by congruence.
Qed.
Lemma entry_remove_if name k p w name' k' :
  entry (with_tables (alter (fun t => if decide (t !! k = Some p) then delete k t else t) name) w) name' k' =
  if decide ((name', k') = (name, k) /\ entry w name k = Some p) then None else entry w name' k'.
Proof.
  unfold entry, with_tables. cbn [t_tables].
  destruct (decide (name' = name)) as [->|Hn].
  - rewrite lookup_alter. destruct (t_tables w !! name) as [t|]; cbn.
    + destruct (decide (t !! k = Some p)) as [E|E].
      * destruct (decide (k' = k)) as [->|Hk]; [rewrite lookup_delete; by rewrite decide_True|].
        rewrite lookup_delete_ne by congruence. rewrite decide_False; [done|]. intros [? _]. congruence.
      * rewrite decide_False; [done|]. by intros [_ ?].
    + by destruct (decide _).
  - rewrite lookup_alter_ne by congruence. rewrite decide_False; [done|]. intros [? _]. congruence.
Qed.
Lemma entry_drop g w name k : entry (drop_reg g w) name k = if decide (name = g_name g) then None else entry w name k.
Proof. unfold drop_reg. rewrite <- (entry_delete (g_name g) w). reflexivity. Qed.
Lemma entry_gone srv w name k :
  entry (gone_reg srv w) name k = match t_regs w !! srv with
                                  | Some g => if decide (name = g_name g) then None else entry w name k
                                  | None => entry w name k
                                  end.
Proof. unfold gone_reg. destruct (t_regs w !! srv) as [g|]; [|done]. rewrite entry_drop. by destruct (decide _). Qed.
Global Instance shutdown_eq_dec : EqDecision shutdown. Proof. solve_decision. Defined.
Lemma entry_terminate srv w name k :
  entry (terminate_reg srv w) name k =
    match t_regs w !! srv with
    | Some g => if decide (name = g_name g /\ g_shutdown g <> BrutalKill) then None else entry w name k
    | None => entry w name k
    end.
Proof.
  unfold terminate_reg. destruct (t_regs w !! srv) as [g|] eqn:Eg; [|done].
  assert (g_shutdown g <> BrutalKill -> entry
   match t_tables w !! g_name g with
   | None => w
   | Some t => set_lookup srv (fun _ => ∅) (glog (map (fun '(p, _) => GExits p (RCustom "shutdown")) (filter (fun '(_, k) => is_Some (t !! k)) (map_to_list (g_lookup g)))) (with_tables (delete (g_name g)) w))
   end name k = if decide (name = g_name g) then None else entry w name k) as H.
  { intros _. destruct (t_tables w !! g_name g) eqn:Et.
    - rewrite <- (entry_delete (g_name g) w). reflexivity.
    - destruct (decide (name = g_name g)) as [->|]; [|done]. unfold entry. by rewrite Et. }
  destruct (g_shutdown g) eqn:Es.
  - rewrite decide_False; [done|]. by intros [_ ?].
  - rewrite H by done. destruct (decide (name = g_name g)) as [->|Hn]; [by rewrite decide_True|].
    rewrite decide_False; [done|]. by intros [? _].
  - rewrite H by done. destruct (decide (name = g_name g)) as [->|Hn]; [by rewrite decide_True|].
    rewrite decide_False; [done|]. by intros [? _].
Qed.
Lemma regs_terminate srv w : t_regs (terminate_reg srv w) !! srv = None <-> t_regs w !! srv = None.
Proof.
  unfold terminate_reg. destruct (t_regs w !! srv) as [g|] eqn:Eg; [|by rewrite Eg].
  destruct (g_shutdown g); [by rewrite Eg| |]; (destruct (t_tables w !! g_name g); [|by rewrite Eg]);
  cbn; rewrite lookup_alter, Eg; cbn; by split.
Qed.
Lemma regs_terminate_name srv w g' : t_regs (terminate_reg srv w) !! srv = Some g' -> exists g, t_regs w !! srv = Some g /\ g_name g' = g_name g.
Proof.
  unfold terminate_reg. destruct (t_regs w !! srv) as [g|] eqn:Eg; [|by rewrite Eg].
  intros H. exists g. split; [done|].
  destruct (g_shutdown g); [congruence| |]; (destruct (t_tables w !! g_name g); [|congruence]);
  cbn in H; rewrite lookup_alter, Eg in H; cbn in H; by injection H as <-.
Qed.

(** ** What an event can do to an entry *)
Section answers.
  Context (answers : nat -> answer).
  Lemma entry_start_by_key srv g k w name' k' : t_regs w !! srv = Some g ->
    entry (fst (start_by_key answers srv g k w)) name' k' =
      match entry w (g_name g) k with
      | Some _ => entry w name' k'
      | None => if g_start g then
                  match answers (t_tick w) with
                  | Up p => if decide ((name', k') = (g_name g, k)) then Some p else entry w name' k'
                  | Down _ => entry w name' k'
                  end
                else if decide (name' = g_name g) then None else entry w name' k'
      end.
  Proof.
    intros Hg. unfold start_by_key. rewrite (entry_lookup w (g_name g) k). destruct (entry w (g_name g) k); [done|].
    destruct (g_start g).
    - destruct (answers (t_tick w)) as [p|r]; cbn [fst]; [|done]. rewrite entry_register. by destruct (decide _).
    - cbn [fst]. by rewrite entry_gone, Hg.
  Qed.
  Lemma entry_lookup_or_start srv g k w :
    fst (lookup_or_start_by_key answers srv g k w) = fst (start_by_key answers srv g k w).
  Proof. unfold lookup_or_start_by_key, start_by_key. by destruct (lookup_process w (g_name g) k). Qed.
  Lemma entry_stop srv g k w name' k' :
    entry (fst (stop_by_key srv g k w)) name' k' = if decide ((name', k') = (g_name g, k)) then None else entry w name' k'.
  Proof.
    unfold stop_by_key. rewrite (entry_lookup w (g_name g) k). destruct (entry w (g_name g) k) eqn:E; cbn [fst].
    - exact (entry_remove (g_name g) k (set_lookup srv (delete p) (glog [GUnlinks p; GExits p (RCustom "shutdown")] w)) name' k').
    - destruct (decide _) as [H|]; [|done]. by injection H as -> ->.
  Qed.
  Lemma entry_remove_key srv g k w name' k' :
    entry (fst (remove_by_key srv g k w)) name' k' = if decide ((name', k') = (g_name g, k)) then None else entry w name' k'.
  Proof.
    unfold remove_by_key. rewrite (entry_lookup w (g_name g) k). destruct (entry w (g_name g) k) eqn:E; cbn [fst].
    - exact (entry_remove (g_name g) k w name' k').
    - destruct (decide _) as [H|]; [|done]. by injection H as -> ->.
  Qed.
  Lemma entry_exit srv g p w name' k' :
    entry (handle_rexit srv g p w) name' k' =
      match g_lookup g !! p with
      | Some k => if decide ((name', k') = (g_name g, k) /\ entry w (g_name g) k = Some p) then None else entry w name' k'
      | None => entry w name' k'
      end.
  Proof. unfold handle_rexit. destruct (g_lookup g !! p) as [k|]; [|done]. exact (entry_remove_if (g_name g) k p (set_lookup srv (delete p) w) name' k'). Qed.
End answers.
