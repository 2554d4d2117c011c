(** Independent specification of the hash ring: two finite maps.  Only the type of calls
    is taken from the model of the code. *)
From stdpp Require Import base list gmap numbers.
From Verif Require Import HashRing.

Section spec.
  Context {V : Type}.

  (** [v] is stored at the first position at or after [h], going clockwise: the smallest
      position >= [h] if there is one, the smallest position of all otherwise. *)
  Definition clockwise_owner (m : gmap N V) (h : N) (v : V) : Prop :=
    exists h', m !! h' = Some v /\
      ((h <= h' /\ forall x, is_Some (m !! x) -> h <= x -> h' <= x) \/
       ((forall x, is_Some (m !! x) -> x < h) /\ forall x, is_Some (m !! x) -> h' <= x))%N.

  (** What a lookup at position [h] must answer on a ring holding [m]. *)
  Definition lookup_answer (m : gmap N V) (h : N) (r : option V) : Prop :=
    match r with
    | None => m = ∅
    | Some v => clockwise_owner m h v
    end.

  Context {K : Type} (hash : K -> N).

  (** Inserting a list of pairs one after the other (the last one for a key wins). *)
  Definition put_all (m : gmap N V) (l : list (K * V)) : gmap N V :=
    fold_left (fun m kv => <[hash (fst kv) := snd kv]> m) l m.

  (** The node table as a map, call by call. *)
  Definition table_step (m : gmap N V) (o : ring_op K V) : gmap N V :=
    match o with
    | AddNode k v => <[hash k := v]> m
    | RemoveNode k => delete (hash k) m
    | AddNodes l => put_all m l
    | SetNodes l => put_all ∅ l
    | Clear => ∅
    | _ => m
    end.
  Definition table_after (ops : list (ring_op K V)) : gmap N V := fold_left table_step ops ∅.

  (** The override table as a map, call by call, as the code has it ([Clear] keeps it). *)
  Definition overrides_step (m : gmap N V) (o : ring_op K V) : gmap N V :=
    match o with
    | AddOverride k v => <[hash k := v]> m
    | RemoveOverride k => delete (hash k) m
    | AddOverrides l => put_all m l
    | SetOverrides l => put_all ∅ l
    | _ => m
    end.
  Definition overrides_after (ops : list (ring_op K V)) : gmap N V := fold_left overrides_step ops ∅.

  (** What each call must return, on table [m] and overrides [ov]. *)
  Definition result_ok (ov m : gmap N V) (o : ring_op K V) (res : option V) : Prop :=
    match o with
    | AddNode k _ | RemoveNode k => res = m !! hash k
    | FindNode k => match ov !! hash k with
                    | Some v => res = Some v
                    | None => lookup_answer m (hash k) res
                    end
    | AddOverride k _ | RemoveOverride k => res = ov !! hash k
    | _ => res = None
    end.

  (** [l], calls with their results, is a legal serial execution from table [m] under the
      fixed overrides [ov]. *)
  Fixpoint serial (ov m : gmap N V) (l : list (ring_op K V * option V)) : Prop :=
    match l with
    | [] => True
    | (o, res) :: l => result_ok ov m o res /\ serial ov (table_step m o) l
    end.

  (** A call that reads or updates the node table (and not the overrides). *)
  Definition node_call (o : ring_op K V) : bool :=
    match o with
    | AddNode _ _ | RemoveNode _ | AddNodes _ | SetNodes _ | Clear | FindNode _ => true
    | _ => false
    end.
End spec.
