(** Model of the handshake: frame/hello.rs:15-67 and the hello exchange of node_remote.rs:321-445.
    No proofs in this file.

    Not modelled: the sockets, the handshake timeout (a hello that does not come is [None]), tracing. *)
From stdpp Require Import base list gmap numbers strings pretty.
From Coq Require Import Ascii.
From Verif Require Import Prog Types World ProcApi NodeApi Sha.
Local Open Scope N_scope.

(** ** std: Display of SocketAddr (hello.rs:39, :61 [to_string]) *)
Definition octet (i x : N) : N := N.shiftr x (8 * i) mod 256.
Definition show_ip4 (ip : N) : string :=
  pretty (octet 3 ip) +:+ "." +:+ pretty (octet 2 ip) +:+ "." +:+ pretty (octet 1 ip) +:+ "." +:+ pretty (octet 0 ip).
Definition hex_char (d : N) : ascii := ascii_of_N (if d <? 10 then 48 + d else 87 + d).
(** A 16-bit group in hexadecimal without leading zeros. *)
Definition show_group (x : N) : string :=
  let d3 := x / 4096 in let d2 := x / 256 mod 16 in let d1 := x / 16 mod 16 in let d0 := x mod 16 in
  if d3 =? 0 then
    if d2 =? 0 then
      if d1 =? 0 then String (hex_char d0) ""
      else String (hex_char d1) (String (hex_char d0) "")
    else String (hex_char d2) (String (hex_char d1) (String (hex_char d0) ""))
  else String (hex_char d3) (String (hex_char d2) (String (hex_char d1) (String (hex_char d0) ""))).
Definition groups6 (ip : N) : list N := map (fun i => N.shiftr ip (16 * i) mod 65536) [7; 6; 5; 4; 3; 2; 1; 0].
Definition show_groups (l : list N) : string := String.concat ":" (map show_group l).
(** The first of the longest runs of zero groups: (start, length); core::net Ipv6Addr Display. *)
Fixpoint zero_run (i start len : nat) (best : nat * nat) (l : list N) : nat * nat :=
  match l with
  | [] => best
  | x :: r =>
      if x =? 0 then
        let start := if Nat.eqb len 0 then i else start in
        let len := S len in
        zero_run (S i) start len (if Nat.ltb (snd best) len then (start, len) else best) r
      else zero_run (S i) 0 0 best r
  end.
Definition show_ip6 (ip : N) : string :=
  if N.shiftr ip 32 =? 0xffff then "::ffff:" +:+ show_ip4 (ip mod 2 ^ 32)
  else
    let g := groups6 ip in
    let '(s, n) := zero_run 0 0 0 (0, 0)%nat g in
    if Nat.ltb 1 n then show_groups (take s g) +:+ "::" +:+ show_groups (drop (s + n) g)
    else show_groups g.
Definition show_addr (a : sockaddr) : string :=
  match a with
  | SA4 ip port => show_ip4 ip +:+ ":" +:+ pretty port
  | SA6 ip port _ scope =>
      "[" +:+ show_ip6 ip +:+ (if scope =? 0 then "" else "%" +:+ pretty scope) +:+ "]:" +:+ pretty port
  end.

(** ** frame/hello.rs *)
(** :28-32, :50-54 the key. *)
Definition cookie_key (cookie : option string) : bytes :=
  match cookie with Some s => text s | None => ["000"%char] end.
(** :27-39, :49-63 the challenge for a name and address: the two texts one after the other. *)
Definition challenge_of (cookie : option string) (name : string) (addr : sockaddr) : bytes :=
  hmac (cookie_key cookie) (text name ++ text (show_addr addr)).
(** :25-45 Hello::new. *)
Definition hello_new (cookie : option string) (name : string) (addr : sockaddr) : frame :=
  FHello name addr (challenge_of cookie name addr).
(** :48-66 Hello::validate. *)
Definition hello_validate (cookie : option string) (name : string) (addr : sockaddr) (challenge : bytes) : bool :=
  bool_decide (challenge_of cookie name addr = challenge).

(** ** node_remote.rs *)
(** :411-445 node_remote_connector from the answer to its hello on; [got] is the frame that came, if one
    did; [me] is the connector process, [dialled] the node it was started for.  node.rs:227-234 is
    the comparison with the node dialled. *)
Definition is_node (nd : node) (name : string) (addr : sockaddr) : bool :=
  match nd with NLocal => false | NRemote n a => bool_decide (n = name) && bool_decide (a = addr) end.
Definition connector_hello (cookie : option string) (me : N) (dialled : node) (got : option frame) : prog world (pid * pid) :=
  match got with
  | None => Panic "Failed to receive hello handshake packet!"
  | Some (FHello name addr challenge) =>
      if hello_validate cookie name addr challenge && is_node dialled name addr then remote_supervisor me name addr
      else if negb (is_node dialled name addr) then Panic "Node was not the expected node"
      else Panic "Node handshake failed validation!"
  | Some _ => Panic "Received incorrect frame for node handshake!"
  end.
(** :343-364 node_remote_accepter from the peer's hello on: a process is spawned (:351-352), which runs
    node_remote_supervisor. *)
Definition accepter_hello (cookie : option string) (me : N) (got : option frame) : prog world (pid * pid) :=
  match got with
  | None => Panic "Failed to receive hello handshake packet!"
  | Some (FHello name addr challenge) =>
      if hello_validate cookie name addr challenge then
        let! s := spawn me false false in
        remote_supervisor (pid_id (fst s)) name addr
      else Panic "Node handshake failed validation!"
  | Some _ => Panic "Received incorrect frame for node handshake!"
  end.
