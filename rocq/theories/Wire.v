(** Model of how pids, references and nodes travel inside messages: pid.rs:79-119, reference.rs:92-135,
    node.rs:286-333.  No proofs in this file.

    A wire value here is what its decoder returns for what its encoder wrote; the bytes (MessagePack, rmp_serde) are
    modelled in MsgPack.v, which proves that they give back exactly [transmit].  What the format loses is modelled: serde writes an IPv6 socket address
    in a binary format as (ip, port), so the flow label and scope id come back as 0. *)
From stdpp Require Import base list gmap numbers strings countable.
From Verif Require Import Prog Types World ProcApi NodeApi.

(** pid.rs:15-19 PidWire, reference.rs:17-21 ReferenceWire. *)
Inductive id_wire := WithNode (id : N) (name : string) (addr : sockaddr) | NodeUnavailable (id : N).
(** node.rs:28-32 NodeWire. *)
Record node_wire := NodeWire { nw_name : string; nw_addr : option sockaddr }.

(** serde's binary form of SocketAddr, there and back. *)
Definition wire_addr (a : sockaddr) : sockaddr := match a with SA4 ip port => SA4 ip port | SA6 ip port _ _ => SA6 ip port 0 0 end.
Definition transmit (x : id_wire) : id_wire :=
  match x with WithNode i n a => WithNode i n (wire_addr a) | NodeUnavailable i => NodeUnavailable i end.
Definition transmit_node (x : node_wire) : node_wire := NodeWire (nw_name x) (wire_addr <$> nw_addr x).

(** pid.rs:79-97, reference.rs:92-110 Serialize. *)
Definition wire_of (i : N) (l : option (string * sockaddr)) : id_wire :=
  match l with Some (n, a) => WithNode i n a | None => NodeUnavailable i end.
Definition pid_to_wire (p : pid) : prog world id_wire :=
  match p with
  | PLocal i => let! l := observe lookup_local in Ret (wire_of i l)
  | PRemote i n => let! l := observe (lookup_remote n) in Ret (wire_of i l)
  end.
Definition ref_to_wire (r : reference) : prog world id_wire :=
  match r with
  | RLocal i => let! l := observe lookup_local in Ret (wire_of i l)
  | RRemote i n => let! l := observe (lookup_remote n) in Ret (wire_of i l)
  end.
(** pid.rs:99-119, reference.rs:112-135 Deserialize. *)
Definition pid_of_wire (x : id_wire) : prog world pid :=
  match x with
  | WithNode i nm ad =>
      let! l := observe lookup_local in
      match l with
      | Some (n, a) => if decide (n = nm /\ a = ad) then Ret (PLocal i)
                       else let! id := node_register (NRemote nm ad) false in Ret (PRemote i id)
      | None => Ret (PRemote i INVALID_NODE_ID)
      end
  | NodeUnavailable i => Ret (PRemote i INVALID_NODE_ID)
  end.
Definition ref_of_wire (x : id_wire) : prog world reference :=
  match x with
  | WithNode i nm ad =>
      let! l := observe lookup_local in
      match l with
      | Some (n, a) => if decide (n = nm /\ a = ad) then Ret (RLocal i)
                       else let! id := node_register (NRemote nm ad) false in Ret (RRemote i id)
      | None => Ret (RRemote i INVALID_NODE_ID)
      end
  | NodeUnavailable i => Ret (RRemote i INVALID_NODE_ID)
  end.
(** node.rs:286-309 Serialize. *)
Definition node_to_wire (nd : node) : prog world node_wire :=
  match nd with
  | NLocal => let! l := observe lookup_local in
              Ret (match l with Some (n, a) => NodeWire n (Some a) | None => NodeWire "nohost" None end)
  | NRemote n a => Ret (NodeWire n (Some a))
  end.
(** node.rs:311-333 Deserialize; an address that is missing for another name is the unwrap at :327. *)
Definition node_of_wire (x : node_wire) : prog world node :=
  let! l := observe lookup_local in
  match l with
  | Some (n, a) =>
      if decide (nw_name x = n /\ (nw_addr x = None \/ nw_addr x = Some a)) then Ret NLocal
      else match nw_addr x with
           | Some ad => Ret (NRemote (nw_name x) ad)
           | None => Panic "called `Option::unwrap()` on a `None` value"
           end
  | None => Ret NLocal
  end.
