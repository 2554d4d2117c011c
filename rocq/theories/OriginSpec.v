(** Specification vocabulary for "nothing is received that did not arrive" (C77) and "no message out of
    thin air" (C78). *)
From stdpp Require Import base list gmap numbers strings countable.
From Verif Require Import Types Mailbox World ProcApi NodeApi Api.

(** What arrived may be read as the message [m] by somebody. *)
Definition readable (S : serde) (x : item) (m : message) : Prop :=
  match x with
  | IUserLocal v => m = MUser v
  | IUserRemote b => exists T v, de S T b = Some v /\ m = MUser v
  | ISystem s => m = MSystem s
  | IProcessDown d r why => m = MSystem (SProcessDown d r why)
  | INodeDown n r => m = MSystem (SNodeDown n r)
  | IProcessUpdate _ _ | IAliasDeactivated _ => False
  end.
(** The bytes [b] cannot be read as anything but a value of [P]. *)
Definition says (S : serde) (P : value -> Prop) (b : bytes) : Prop := forall T v, de S T b = Some v -> P v.
(** Calls that send, and frames that carry, only values of [P]. *)
Definition sends_only (S : serde) (P : value -> Prop) (c : call) : Prop :=
  match c with
  | CSend _ v | CSendAfter _ v _ => P v
  | CFrame _ _ (FSend _ b) => says S P b
  | _ => True
  end.
(** Serialising does not turn a value of [P] into bytes that read as something else. *)
Definition serde_keeps (S : serde) (P : value -> Prop) : Prop := forall v, P v -> says S P (ser S v).
