(** Property theorems C01-C06: the hash ring (hydra/src/hash_ring.rs). *)
From stdpp Require Import base list gmap numbers strings.
From Verif Require Import Prog ProgProofs HashRing HashRingSpec HashRingProofs HashRingConc.

(** C01.  After any history of calls, a key without an override is answered [None]
    exactly when the ring holds no node, and otherwise with the clockwise successor. *)
Theorem C01_find_is_successor :
  forall {K V : Type} (hash : K -> N) (ops : list (ring_op K V)) (k : K),
    overrides_after hash ops !! hash k = None ->
    (find hash (ring_exec hash ops) k = None <-> table_after hash ops = ∅) /\
    (forall v, find hash (ring_exec hash ops) k = Some v <->
               clockwise_owner (table_after hash ops) (hash k) v).
Proof.
  intros K V hash ops k Hov.
  pose proof (ring_result hash ops (FindNode k)) as H. unfold result_ok in H. rewrite Hov in H.
  fold (find hash (ring_exec hash ops) k) in H.
  destruct (find hash (ring_exec hash ops) k) as [v0|]; cbn in H.
  - split.
    + split; [discriminate|]. intros E. apply clockwise_owner_ne in H. contradiction.
    + intros v. split; [intros [= <-]; exact H|]. intros Hv. f_equal. eapply clockwise_owner_unique; eauto.
  - split; [tauto|]. intros v. split; [discriminate|]. intros Hv. apply clockwise_owner_ne in Hv. contradiction.
Qed.
Print Assumptions C01_find_is_successor.

(** non-vacuity: a ring of three nodes, a lookup between them and a wrapping one *)
Example C01_example :
  let ops := [AddNode 10%N "a"; AddNodes [(30%N, "c"); (20%N, "b")]; RemoveNode 20%N] in
  overrides_after id ops !! 15%N = None /\
  find id (ring_exec id ops) 15%N = Some "c" /\ find id (ring_exec id ops) 31%N = Some "a" /\
  find id (ring_exec id ops) 10%N = Some "a".
Proof. vm_compute. auto. Qed.

(** C02.  The node table is a map from key hash to node: every call returns what the map
    semantics says and leaves the map it says, for every history. *)
Theorem C02_ring_is_map :
  forall {K V : Type} (hash : K -> N) (ops : list (ring_op K V)),
    list_to_map (r_ring (ring_exec hash ops)) = table_after hash ops /\
    NoDup (r_ring (ring_exec hash ops)).*1 /\
    forall o, result_ok hash (overrides_after hash ops) (table_after hash ops) o
                        (snd (ring_step hash (ring_exec hash ops) o)).
Proof.
  intros K V hash ops. split; [exact (ring_exec_tbl hash ops)|].
  split; [apply sorted_nodup; exact (ring_exec_inv hash ops)|]. exact (ring_result hash ops).
Qed.
Print Assumptions C02_ring_is_map.

Example C02_example :
  let ops := [AddNode 10%N "a"; AddNode 20%N "b"; AddNode 10%N "c"] in
  snd (ring_step id (ring_exec id ops) (AddNode 10%N "d")) = Some "c" /\
  snd (ring_step id (ring_exec id ops) (RemoveNode 30%N)) = None /\
  snd (ring_step id (ring_exec id ops) (RemoveNode 20%N)) = Some "b".
Proof. vm_compute. auto. Qed.

(** C03.  Minimal disruption: after adding one node only keys that move to it change
    owner; after removing one only keys it owned do. *)
Theorem C03_minimal_disruption :
  forall {K V : Type} (hash : K -> N) (ops : list (ring_op K V)) (x : K),
    let before := find hash (ring_exec hash ops) x in
    (forall k v,
       let after := find hash (ring_exec hash (ops ++ [AddNode k v])) x in
       after <> before -> after = Some v) /\
    (forall k,
       let after := find hash (ring_exec hash (ops ++ [RemoveNode k])) x in
       after <> before ->
       exists v, before = Some v /\ snd (ring_step hash (ring_exec hash ops) (RemoveNode k)) = Some v).
Proof.
  intros K V hash ops x before.
  assert (Hb := ring_result hash ops (FindNode x)).
  split.
  - intros k v after Hne.
    assert (Ha := ring_result hash (ops ++ [AddNode k v]) (FindNode x)).
    unfold result_ok, overrides_after, table_after in Ha, Hb. rewrite !fold_left_app in Ha. cbn -[ring_step] in Ha.
    fold (overrides_after hash ops) in *. fold (table_after hash ops) in *.
    fold (find hash (ring_exec hash ops) x) in Hb. fold (find hash (ring_exec hash (ops ++ [AddNode k v])) x) in Ha.
    destruct (overrides_after hash ops !! hash x); [exfalso; apply Hne; unfold after, before; congruence|].
    exact (owner_insert _ _ _ _ _ _ Hb Ha Hne).
  - intros k after Hne.
    assert (Ha := ring_result hash (ops ++ [RemoveNode k]) (FindNode x)).
    assert (Hk := ring_result hash ops (RemoveNode k)). cbn -[ring_step] in Hk.
    unfold result_ok, overrides_after, table_after in Ha, Hb. rewrite !fold_left_app in Ha. cbn -[ring_step] in Ha.
    fold (overrides_after hash ops) in *. fold (table_after hash ops) in *.
    fold (find hash (ring_exec hash ops) x) in Hb. fold (find hash (ring_exec hash (ops ++ [RemoveNode k])) x) in Ha.
    destruct (overrides_after hash ops !! hash x); [exfalso; apply Hne; unfold after, before; congruence|].
    destruct (owner_delete _ _ _ _ _ Hb Ha Hne) as (v & H1 & H2). exists v. split; [exact H2|]. congruence.
Qed.
Print Assumptions C03_minimal_disruption.

Example C03_example :
  let ops := [AddNode 10%N "a"; AddNode 30%N "c"] in
  find id (ring_exec id ops) 15%N = Some "c" /\
  find id (ring_exec id (ops ++ [AddNode 20%N "b"])) 15%N = Some "b" /\
  find id (ring_exec id (ops ++ [AddNode 20%N "b"])) 25%N = Some "c".
Proof. vm_compute. auto. Qed.

(** C04.  Overrides: the answer for a key is its override if it has one, else the ring's own
    answer; node calls change no override; override calls act on the override map as
    documented, hence change no other key's answer. *)
Theorem C04_overrides :
  forall {K V : Type} (hash : K -> N) (ops : list (ring_op K V)) (k : K),
    (* resolution *)
    (forall v, overrides_after hash ops !! hash k = Some v -> find hash (ring_exec hash ops) k = Some v) /\
    (overrides_after hash ops !! hash k = None ->
       lookup_answer (table_after hash ops) (hash k) (find hash (ring_exec hash ops) k)) /\
    (* an override survives every node call, including clear *)
    (forall o v, node_call o = true -> overrides_after hash ops !! hash k = Some v ->
       find hash (ring_exec hash (ops ++ [o])) k = Some v) /\
    (* adding one / removing one: this key, and no key with another hash *)
    (forall v, find hash (ring_exec hash (ops ++ [AddOverride k v])) k = Some v) /\
    lookup_answer (table_after hash ops) (hash k) (find hash (ring_exec hash (ops ++ [RemoveOverride k])) k) /\
    (forall k' v, hash k' <> hash k ->
       find hash (ring_exec hash (ops ++ [AddOverride k' v])) k = find hash (ring_exec hash ops) k /\
       find hash (ring_exec hash (ops ++ [RemoveOverride k'])) k = find hash (ring_exec hash ops) k) /\
    (* bulk calls *)
    (forall l, overrides_after hash (ops ++ [AddOverrides l]) = put_all hash (overrides_after hash ops) l /\
               overrides_after hash (ops ++ [SetOverrides l]) = put_all hash ∅ l /\
               r_over (ring_exec hash (ops ++ [AddOverrides l])) = put_all hash (overrides_after hash ops) l /\
               r_over (ring_exec hash (ops ++ [SetOverrides l])) = put_all hash ∅ l).
Proof.
  intros K V hash ops k.
  assert (Hfind : forall ops : list (ring_op K V), find hash (ring_exec hash ops) k =
    match overrides_after hash ops !! hash k with
    | Some v => Some v | None => vec_find (r_ring (ring_exec hash ops)) (hash k) end).
  { intros ops'. unfold find. cbn. rewrite ring_exec_over. reflexivity. }
  assert (Hans : forall ops : list (ring_op K V), lookup_answer (table_after hash ops) (hash k)
                      (vec_find (r_ring (ring_exec hash ops)) (hash k))).
  { intros ops'. rewrite <- ring_exec_tbl. apply vec_find_spec, ring_exec_inv. }
  assert (Hov : forall o : ring_op K V, overrides_after hash (ops ++ [o]) = overrides_step hash (overrides_after hash ops) o).
  { intros o. unfold overrides_after. rewrite fold_left_app. reflexivity. }
  assert (Htb : forall o : ring_op K V, table_after hash (ops ++ [o]) = table_step hash (table_after hash ops) o).
  { intros o. unfold table_after. rewrite fold_left_app. reflexivity. }
  split; [intros v H; rewrite Hfind, H; reflexivity|].
  split; [intros H; rewrite Hfind, H; apply Hans|].
  split. { intros o v Ho H. rewrite Hfind, Hov. destruct o; try discriminate; cbn; rewrite H; reflexivity. }
  split. { intros v. rewrite Hfind, Hov. cbn. rewrite lookup_insert. reflexivity. }
  split. { rewrite Hfind, Hov. cbn. rewrite lookup_delete. rewrite <- (Htb (RemoveOverride k)) at 1. apply Hans. }
  split.
  { intros k' v Hne. rewrite !Hfind, !Hov. cbn. rewrite lookup_insert_ne, lookup_delete_ne by exact Hne.
    rewrite !exec_snoc. split; reflexivity. }
  intros l. rewrite !ring_exec_over, !Hov. auto.
Qed.
Print Assumptions C04_overrides.

Example C04_example :
  let ops := [AddNode 10%N "a"; AddOverride 11%N "x"; AddNode 20%N "b"] in
  overrides_after id ops !! 11%N = Some "x" /\ find id (ring_exec id ops) 11%N = Some "x" /\
  find id (ring_exec id ops) 12%N = Some "b" /\
  find id (ring_exec id (ops ++ [RemoveOverride 11%N])) 11%N = Some "b".
Proof. vm_compute. auto. Qed.

(** C05 (full statement, false of the code): after clear() every lookup returns None. *)
Definition C05_clear_statement : Prop :=
  forall (K V : Type) (hash : K -> N) (ops : list (ring_op K V)) (k : K),
    find hash (ring_exec hash (ops ++ [Clear])) k = None.

Theorem C05_clear_refuted : ~ C05_clear_statement.
Proof.
  intros H. specialize (H N nat id [AddOverride 1%N 7] 1%N). vm_compute in H. discriminate.
Qed.
Print Assumptions C05_clear_refuted.

(** What holds: the nodes are cleared, so every key without an override resolves to None. *)
Theorem C05_clear_partial :
  forall {K V : Type} (hash : K -> N) (ops : list (ring_op K V)) (k : K),
    overrides_after hash ops !! hash k = None ->
    find hash (ring_exec hash (ops ++ [Clear])) k = None.
Proof.
  intros K V hash ops k H. unfold find. cbn. rewrite exec_snoc. cbn. rewrite ring_exec_over, H. reflexivity.
Qed.
Print Assumptions C05_clear_partial.

Example C05_example :
  let ops := [AddNode 10%N "a"; AddOverride 11%N "x"] in
  overrides_after id ops !! 12%N = None /\ find id (ring_exec id ops) 12%N = Some "a".
Proof. vm_compute. auto. Qed.

(** C06.  Any number of concurrent calls, any interleaving of their atomic steps: when all
    have returned there is an order of the calls in which the serial map semantics gives
    exactly the returned results (lookups included) and the final table; before that, no
    deadlock. *)
Theorem C06_concurrent_ring_partial :
  forall {K V : Type} (hash : K -> N) (overrides : gmap N V) (calls : list (ring_op K V))
         (s : sys (rworld K V) (option V)),
    Forall (fun o => node_call o = true) calls ->
    reach (fun _ => False)
      (Sys (RW [] overrides false []) (map (ring_prog hash) calls)) s ->
    ((exists rs, results s rs) \/ exists i s', tick i s = Some s') /\
    forall rs, results s rs ->
      exists order, order ≡ₚ zip calls rs /\ serial hash overrides ∅ order /\
        list_to_map (rw_ring (s_world s)) = table_after hash order.*1.
Proof.
  intros K V hash ov calls s Hc Hr. split.
  - exact (ring_progress hash ov calls s Hc Hr).
  - intros rs Hrs. exact (ring_linearizable hash ov calls s rs Hc Hr Hrs).
Qed.
Print Assumptions C06_concurrent_ring_partial.

(** The clause of C06 about overrides (false of the code): a key that has an override before
    and after a concurrent set_overrides is never seen without one. *)
Definition C06_override_statement : Prop :=
  forall (K V : Type) (hash : K -> N) (ov : gmap N V) (l : list (K * V)) (k : K)
         (s : sys (rworld K V) (option V)) (r1 r2 : option V),
    is_Some (ov !! hash k) -> is_Some (put_all hash ∅ l !! hash k) ->
    reach (fun _ => False)
      (Sys (RW [] ov false []) [ring_prog hash (SetOverrides l); ring_prog hash (FindNode k)]) s ->
    results s [r1; r2] -> is_Some r2.

Theorem C06_override_refuted : ~ C06_override_statement.
Proof.
  intros H.
  specialize (H N nat id {[1%N := 5]} [(1%N, 6)] 1%N).
  set (s0 := Sys _ _) in H.
  assert (E : exec [0; 1; 1; 0] s0 = Some (Sys (RW [] {[1%N := 6]} false [(FindNode 1%N, None)]) [Ret None; Ret None])).
  { vm_compute. reflexivity. }
  specialize (H _ None None ltac:(vm_compute; eauto) ltac:(vm_compute; eauto)
                (exec_reach (fun _ => False) _ _ _ E) eq_refl).
  destruct H; discriminate.
Qed.
Print Assumptions C06_override_refuted.

(** non-vacuity: two writers and a reader, interleaved *)
Example C06_example :
  exists s, exec [0; 2; 0; 0; 0; 1; 1; 2; 1; 1]
    (Sys (RW [] ∅ false []) (map (ring_prog id) [AddNode 10%N "a"; AddNode 20%N "b"; FindNode 15%N])) = Some s /\
    results s [None; None; Some "a"].
Proof. eexists. split; [vm_compute; reflexivity|reflexivity]. Qed.
