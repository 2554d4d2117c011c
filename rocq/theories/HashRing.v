(** Model of hydra/src/hash_ring.rs.  No proofs in this file. *)
From stdpp Require Import base list gmap numbers.
From Verif Require Import Prog.

(** ** The standard library's [slice::binary_search_by] (rust core, slice/mod.rs),
    which every ring operation uses (hash_ring.rs:62, 88, 108, 129, 164).  [keys]
    are the ring keys, [key] the searched hash.  [inl i] is [Ok(i)], [inr i] is
    [Err(i)].  The while loop runs on explicit fuel; [bs_loop] is always called
    with fuel = size, and halving never needs more. *)
Fixpoint bs_loop (fuel : nat) (keys : list N) (key : N) (base size : nat) : nat :=
  match fuel with
  | O => base
  | S fuel =>
      if Nat.leb size 1 then base else
      let half := Nat.div2 size in
      let mid := (base + half)%nat in
      let base := match N.compare (nth mid keys 0%N) key with
                  | Gt => base
                  | _ => mid
                  end in
      bs_loop fuel keys key base (size - half)
  end.

Definition binary_search (keys : list N) (key : N) : nat + nat :=
  match length keys with
  | O => inr O
  | size =>
      let base := bs_loop size keys key 0 size in
      match N.compare (nth base keys 0%N) key with
      | Eq => inl base
      | Lt => inr (S base)
      | Gt => inr base
      end
  end.

Section ring.
  Context {K V : Type}.
  (** hash_ring.rs:213-215 [hash_key]: the hasher is an arbitrary function (an oracle). *)
  Variable hash : K -> N.

  (** hash_ring.rs:12-15 [Node { key, node }] and 33-38 [HashRing]. *)
  Record ring := Ring { r_ring : list (N * V); r_over : gmap N V }.

  (** hash_ring.rs:45-52 [new]. *)
  Definition ring_new : ring := Ring [] ∅.

  (** The vector update shared by add_node (62-77), add_nodes (108-113) and
      set_nodes (129-134): binary search, replace on Ok, insert on Err.  Returns
      the replaced node. *)
  Definition vec_put (l : list (N * V)) (h : N) (v : V) : list (N * V) * option V :=
    match binary_search (map fst l) h with
    | inl i => (take i l ++ (h, v) :: drop (S i) l, snd <$> (l !! i))
    | inr i => (take i l ++ (h, v) :: drop i l, None)
    end.

  (** remove_node's vector update, hash_ring.rs:88-96: nothing is stored when the key is absent. *)
  Definition vec_del (l : list (N * V)) (h : N) : list (N * V) * option V :=
    match binary_search (map fst l) h with
    | inl i => (take i l ++ drop (S i) l, snd <$> (l !! i))
    | inr _ => (l, None)
    end.

  (** The for loops of add_nodes (105-114) and set_nodes (126-135). *)
  Definition vec_put_all (l : list (N * V)) (kvs : list (K * V)) : list (N * V) :=
    fold_left (fun l kv => fst (vec_put l (hash (fst kv)) (snd kv))) kvs l.

  (** map_node's lookup once overrides have been consulted, hash_ring.rs:158-173. *)
  Definition vec_find (l : list (N * V)) (h : N) : option V :=
    match l with
    | [] => None
    | (_, v0) :: _ =>
        let i := match binary_search (map fst l) h with inl i => i | inr i => i end in
        if Nat.eqb i (length l) then Some v0 else snd <$> (l !! i)
    end.

  (** The loop of add_overrides (183-185) and set_overrides (192-194). *)
  Definition over_put_all (m : gmap N V) (kvs : list (K * V)) : gmap N V :=
    fold_left (fun m kv => <[hash (fst kv) := snd kv]> m) kvs m.

  (** The public operations. *)
  Inductive ring_op : Type :=
  | AddNode (k : K) (v : V)              (* hash_ring.rs:55-78 *)
  | RemoveNode (k : K)                   (* 81-97 *)
  | AddNodes (l : list (K * V))          (* 100-117 *)
  | SetNodes (l : list (K * V))          (* 120-138 *)
  | FindNode (k : K)                     (* 141-147, through map_node 151-174 *)
  | AddOverride (k : K) (v : V)          (* 177-179 *)
  | AddOverrides (l : list (K * V))      (* 182-186 *)
  | SetOverrides (l : list (K * V))      (* 189-195 *)
  | RemoveOverride (k : K)               (* 198-202 *)
  | Clear.                               (* 205-209 *)

  (** One call, run without interruption.  The second component is the return value
      ([None] for calls returning unit as well). *)
  Definition ring_step (r : ring) (o : ring_op) : ring * option V :=
    match o with
    | AddNode k v =>
        let '(l, old) := vec_put (r_ring r) (hash k) v in (Ring l (r_over r), old)
    | RemoveNode k =>
        let '(l, old) := vec_del (r_ring r) (hash k) in (Ring l (r_over r), old)
    | AddNodes kvs => (Ring (vec_put_all (r_ring r) kvs) (r_over r), None)
    | SetNodes kvs => (Ring (vec_put_all [] kvs) (r_over r), None)
    | FindNode k =>
        (r, match r_over r !! hash k with
            | Some v => Some v
            | None => vec_find (r_ring r) (hash k)
            end)
    | AddOverride k v => (Ring (r_ring r) (<[hash k := v]> (r_over r)), r_over r !! hash k)
    | AddOverrides kvs => (Ring (r_ring r) (over_put_all (r_over r) kvs), None)
    | SetOverrides kvs => (Ring (r_ring r) (over_put_all ∅ kvs), None)
    | RemoveOverride k => (Ring (r_ring r) (delete (hash k) (r_over r)), r_over r !! hash k)
    | Clear => (Ring [] (r_over r), None)      (* 205-209: only the ring is replaced *)
    end.

  (** A history of calls. *)
  Definition ring_exec (ops : list ring_op) : ring :=
    fold_left (fun r o => fst (ring_step r o)) ops ring_new.

  (** [find_node] as a pure observation. *)
  Definition find (r : ring) (k : K) : option V := snd (ring_step r (FindNode k)).

  (** ** Concurrent calls (hash_ring.rs:55-209, at the granularity of the code's own
      atomic operations): ring_lock.lock() / ring.load() / ring.store() / unlock (guard
      drop) for writers; overrides.get() and ring.load() for readers; one DashMap
      operation per override update (DashMap::clear, which locks shard by shard, is one step
      here: coarser than the code).  [rw_log] is a ghost field: the calls in the order
      in which they took effect, with their results; no step reads it. *)
  Record rworld := RW { rw_ring : list (N * V); rw_over : gmap N V; rw_locked : bool;
                        rw_log : list (ring_op * option V) }.

  Definition rw_acquire : prog rworld unit :=
    await (fun w => negb (rw_locked w)) (fun w => RW (rw_ring w) (rw_over w) true (rw_log w)).
  Definition rw_release : prog rworld unit :=
    modify (fun w => RW (rw_ring w) (rw_over w) false (rw_log w)).
  Definition rw_load : prog rworld (list (N * V)) := observe rw_ring.
  (** [ring.store]; the ghost log records the call. *)
  Definition rw_store (l : list (N * V)) (o : ring_op) (res : option V) : prog rworld unit :=
    modify (fun w => RW l (rw_over w) (rw_locked w) (rw_log w ++ [(o, res)])).
  (** A call that took effect without touching shared state (ghost only). *)
  Definition rw_note (o : ring_op) (res : option V) (w : rworld) : rworld :=
    RW (rw_ring w) (rw_over w) (rw_locked w) (rw_log w ++ [(o, res)]).

  Definition over_insert (h : N) (v : V) : prog rworld (option V) :=
    atom (fun w => (RW (rw_ring w) (<[h := v]> (rw_over w)) (rw_locked w) (rw_log w), rw_over w !! h)).

  Definition ring_prog (o : ring_op) : prog rworld (option V) :=
    match o with
    | AddNode k v =>                                            (* 55-78 *)
        do! rw_acquire in
        let! l := rw_load in
        let '(l', old) := vec_put l (hash k) v in
        do! rw_store l' o old in
        do! rw_release in Ret old
    | RemoveNode k =>                                           (* 81-97 *)
        do! rw_acquire in
        (* ring.load(); when the key is absent nothing is stored and this is where the
           call takes effect *)
        let! l := atom (fun w =>
                    (match binary_search (map fst (rw_ring w)) (hash k) with
                     | inl _ => w
                     | inr _ => rw_note o None w
                     end, rw_ring w)) in
        match binary_search (map fst l) (hash k) with
        | inl i =>
            do! rw_store (fst (vec_del l (hash k))) o (snd (vec_del l (hash k))) in
            do! rw_release in Ret (snd (vec_del l (hash k)))
        | inr _ => do! rw_release in Ret None
        end
    | AddNodes kvs =>                                           (* 100-117 *)
        do! rw_acquire in
        let! l := rw_load in
        do! rw_store (vec_put_all l kvs) o None in
        do! rw_release in Ret None
    | SetNodes kvs =>                                           (* 120-138 *)
        do! rw_acquire in
        do! rw_store (vec_put_all [] kvs) o None in
        do! rw_release in Ret None
    | Clear =>                                                  (* 205-209 *)
        do! rw_acquire in
        do! rw_store [] o None in
        do! rw_release in Ret None
    | FindNode k =>                                             (* 141-174 *)
        let! ov := atom (fun w => (match rw_over w !! hash k with
                                   | Some v => rw_note o (Some v) w
                                   | None => w
                                   end, rw_over w !! hash k)) in
        match ov with
        | Some v => Ret (Some v)
        | None =>
            atom (fun w => (rw_note o (vec_find (rw_ring w) (hash k)) w,
                            vec_find (rw_ring w) (hash k)))
        end
    | AddOverride k v => over_insert (hash k) v                 (* 177-179 *)
    | RemoveOverride k =>                                       (* 198-202 *)
        atom (fun w => (RW (rw_ring w) (delete (hash k) (rw_over w)) (rw_locked w) (rw_log w),
                        rw_over w !! hash k))
    | AddOverrides kvs =>                                       (* 182-186 *)
        do! each kvs (fun kv => do! over_insert (hash (fst kv)) (snd kv) in Ret tt) in Ret None
    | SetOverrides kvs =>                                       (* 189-195 *)
        do! modify (fun w => RW (rw_ring w) ∅ (rw_locked w) (rw_log w)) in
        do! each kvs (fun kv => do! over_insert (hash (fst kv)) (snd kv) in Ret tt) in Ret None
    end.
End ring.
Global Arguments ring V : clear implicits.
Global Arguments rworld K V : clear implicits.
Global Arguments ring_op K V : clear implicits.
