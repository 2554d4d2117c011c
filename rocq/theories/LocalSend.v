(** Model of sending a message that may not be serialisable: hydra/src/local.rs:1-73 ([Local<T>]), as sent by
    hydra/src/process_kernel.rs:23-133 and hydra/src/node_kernel.rs:55-84.  [ProcApi.send] is the same code for messages
    that can be serialised.  No proofs in this file. *)
From stdpp Require Import base list gmap numbers strings countable.
From Verif Require Import Prog Types Mailbox World ProcApi.

Section lsend.
  (** [can v]: [v] contains no [Local]. *)
  Context (S : serde) (can : value -> bool).
  (** serialize.rs:7-9, local.rs:50-60: serialising a [Local] panics. *)
  Definition serialized (v : value) : prog world bytes :=
    if can v then Ret (ser S v) else Panic "Can't send `Local<T>` to a remote process!".
  (** process_kernel.rs:106-133 process_send_optimal, node_kernel.rs:55-84: the message is serialised before anything else. *)
  Definition lsend_one (d : dest) (v : value) : prog world unit :=
    if dest_is_local d then deliver d (IUserLocal v)
    else let! b := serialized v in
         let! t := remote_target d in
         modify (send_frame (FSend [snd t] b) (fst t)).
  (** process_kernel.rs:47-70: a remote name is registered (:58-60) before get_serialized (:66), which is called for every
      remote destination (the argument of or_insert). *)
  Fixpoint lsend_loop (v : value) (l : list dest) (first : option dest) (rem : list (N * send_target))
    : prog world (option dest * list (N * send_target)) :=
    match l with
    | [] => Ret (first, rem)
    | d :: l =>
        if dest_is_local d then
          match first with
          | None => lsend_loop v l (Some d) rem
          | Some _ => let! b := serialized v in do! deliver d (IUserRemote b) in lsend_loop v l first rem
          end
        else let! t := remote_target d in let! b := serialized v in lsend_loop v l first (rem ++ [t])
    end.
  (** process_kernel.rs:23-83.  The frames are sent only after every remote destination went through get_serialized. *)
  Definition lsend (ds : dests) (v : value) : prog world unit :=
    match ds with
    | DsOne d => lsend_one d v
    | DsMany l =>
        let! x := lsend_loop v l None [] in
        do! match fst x with Some d => lsend_one d v | None => Ret tt end in
        each (group fst (snd x)) (fun t => modify (send_frame (FSend (map snd (snd t)) (ser S v)) (fst t)))
    end.
End lsend.
