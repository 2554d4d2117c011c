(** Specification vocabulary for the order of messages (C85, C86). *)
From stdpp Require Import base list gmap numbers strings countable.
From Verif Require Import Prog Types Mailbox MailboxSpec World ProcApi NodeApi Api SchedSpec OriginSpec.

Section fifo.
  Context (S : serde) (ok : call -> Prop).
  (** A call is carried out step by step while others make any calls in [ok]. *)
  Inductive carried_out : sys world val -> prog world val -> val -> sys world val -> Prop :=
  | co_ret s v : carried_out s (Ret v) v s
  | co_other s s1 p v s2 : sys_step (calls_of S ok) s s1 -> carried_out s1 p v s2 -> carried_out s p v s2
  | co_tick w ts g f k v s2 : g w = true -> carried_out (Sys (f w) ts) (k w) v s2 -> carried_out (Sys w ts) (Atom g f k) v s2.
  (** One task makes the calls [cs] one after the other, each of which returns; before, between and
      during them others make any calls in [ok]. *)
  Inductive in_turn : sys world val -> list call -> sys world val -> Prop :=
  | it_end s : in_turn s [] s
  | it_other s s1 cs s2 : sys_step (calls_of S ok) s s1 -> in_turn s1 cs s2 -> in_turn s cs s2
  | it_call s c cs v s1 s2 : carried_out s (call_prog S c) v s1 -> in_turn s1 cs s2 -> in_turn s (c :: cs) s2.
End fifo.

Section spec.
  Context (S : serde) (T : N) (q : N).
  (** The messages of type [T] among what arrived at the process [q], in order of arrival. *)
  Definition reads_as (x : item) : option value :=
    match x with
    | IUserLocal v => if decide (v_type v = T) then Some v else None
    | IUserRemote b => de S T b
    | _ => None
    end.
  Definition mail (log : list (N * item)) : list value :=
    omap (fun x => if decide (fst x = q) then reads_as (snd x) else None) log.
  (** Calls that send, and frames that carry, no message of type [T]. *)
  Definition other_types (c : call) : Prop := sends_only S (fun v => v_type v <> T) c.
  (** No serialised value of another type can be read as one of type [T]. *)
  Definition told_apart : Prop := forall v, v_type v <> T -> de S T (ser S v) = None.
  (** Serialised, the value is read back as itself. *)
  Definition comes_back (v : value) : Prop := de S T (ser S v) = Some v.
  (** Calls that send one message of type [T] to [q]: a send to the pid of [q], or the arrival of a frame for it. *)
  Definition message_for (c : call) : option value :=
    match c with
    | CSend (DsOne (DPid (PLocal i))) v => if decide (i = q /\ v_type v = T) then Some v else None
    | CFrame _ _ (FSend [TPid i] b) => if decide (i = q) then de S T b else None
    | _ => None
    end.
  (** The process [q] is there: it has a mailbox and is registered. *)
  Definition there (w : world) : Prop := is_Some (w_loc w !! q) /\ is_Some (w_regs w !! q).
  (** The frames that carry a message of type [T]. *)
  Definition carrying (fs : list frame) : list frame :=
    filter (fun f => (match f with FSend _ b => bool_decide (is_Some (de S T b)) | _ => false end) = true) fs.
End spec.

(** The node [nm] at [ad] is known under the id [id] and connected: its connection has the supervisor [p] and the sender
    process [sender], which is registered. *)
Definition linked (nm : string) (ad : sockaddr) (id : N) (p : pid) (sender : N) (w : world) : Prop :=
  w_nmap w !! NRemote nm ad = Some id /\
  (exists r, w_nregs w !! id = Some r /\ n_sup r = Some p /\ n_state r = Connected /\ n_sender r = Some (PLocal sender) /\
             n_name r = nm /\ n_addr r = ad) /\
  is_Some (w_regs w !! sender).
