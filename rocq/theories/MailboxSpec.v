(** Specification of a mailbox: the sequence of pending messages a process may still receive,
    oldest first, computed from nothing but what has arrived and which monitors are installed. *)
From stdpp Require Import base list gmap numbers strings countable.
From Verif Require Import Types Mailbox.

(** A pending message: bytes from another node (or a multi-send), a local value, or a system
    message. *)
Inductive pend := PBytes (b : bytes) | PVal (v : value) | PSys (m : sysmsg).

(** Down notifications count only while their monitor is installed, and once; monitor updates and
    alias deactivations are never visible. *)
Fixpoint visible (mons : gset reference) (q : list item) : list pend :=
  match q with
  | [] => []
  | IUserRemote b :: q => PBytes b :: visible mons q
  | IUserLocal v :: q => PVal v :: visible mons q
  | ISystem m :: q => PSys m :: visible mons q
  | IProcessDown d r why :: q =>
      if decide (r ∈ mons) then PSys (SProcessDown d r why) :: visible (mons ∖ {[r]}) q else visible mons q
  | INodeDown n r :: q =>
      if decide (r ∈ mons) then PSys (SNodeDown n r) :: visible (mons ∖ {[r]}) q else visible mons q
  | IProcessUpdate _ _ :: q | IAliasDeactivated _ :: q => visible mons q
  end.
Definition mailbox (l : plocal) : list pend :=
  visible (dom (l_monitors l)) (l_items l ++ l_chan l).

(** What a receiver of messages of type [T] makes of a pending message. *)
Definition read (S : serde) (T : N) (p : pend) : option message :=
  match p with
  | PBytes b => MUser <$> de S T b
  | PVal v => if decide (v_type v = T) then Some (MUser v) else None
  | PSys m => Some (MSystem m)
  end.
Definition wanted (S : serde) (T : N) (f : message -> bool) (p : pend) : bool :=
  match read S T p with Some m => f m | None => false end.

(** Deserialising gives a value of the requested type. *)
Definition serde_typed (S : serde) : Prop := forall T b v, de S T b = Some v -> v_type v = T.
(** What a receiver of type [T] may do to a message it looks at without taking it: nothing, except
    that bytes it can read are replaced by the value it read. *)
Definition kept (S : serde) (T : N) (p q : pend) : Prop :=
  q = p \/ exists b v, p = PBytes b /\ de S T b = Some v /\ q = PVal v.
Definition kept_mailbox (S : serde) (T : N) : list pend -> list pend -> Prop := Forall2 (kept S T).

(** No byte string is a valid encoding of values of two different types. *)
Definition serde_unambiguous (S : serde) : Prop :=
  forall T T' b v v', de S T b = Some v -> de S T' b = Some v' -> T = T'.
(** Two mailboxes are the same to every receiver of every type. *)
Definition same_mailbox (S : serde) : list pend -> list pend -> Prop :=
  Forall2 (fun p q => forall T, read S T p = read S T q).
