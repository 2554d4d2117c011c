(** Model of nodes written as text: node.rs:182-285 (the conversions and comparisons of Node), with std's
    parser of socket addresses.  No proofs in this file.

    The parser of socket addresses is that of core::net (core/src/net/parser.rs, Rust 1.8x, which is not part of
    /repo), written out function by function.  [None] is a panic of the conversion. *)
From stdpp Require Import base list gmap numbers strings pretty.
From Coq Require Import Ascii.
From Verif Require Import Types Sha Hello.
Local Open Scope N_scope.

(** ** std *)
(** str::split_once with a character: at its first occurrence. *)
Fixpoint split_once (c : ascii) (s : string) : option (string * string) :=
  match s with
  | EmptyString => None
  | String d r => if decide (d = c) then Some (EmptyString, r)
                  else match split_once c r with Some (a, b) => Some (String d a, b) | None => None end
  end.
Definition is_digit (c : ascii) : bool := (48 <=? N_of_ascii c) && (N_of_ascii c <=? 57).
(** The digits at the front, and the rest. *)
Fixpoint digits (l : bytes) : bytes * bytes :=
  match l with
  | [] => ([], [])
  | c :: r => if is_digit c then let '(d, s) := digits r in (c :: d, s) else ([], l)
  end.
Fixpoint decval (acc : N) (l : bytes) : N :=
  match l with [] => acc | c :: r => decval (acc * 10 + (N_of_ascii c - 48)) r end.
(** core::net::parser read_number with radix 10, on the digits at the front. *)
Definition number (limit : N) (max_digits : option nat) (zero_prefix : bool) (d : bytes) : option N :=
  let long := match max_digits with Some m => Nat.ltb m (length d) | None => false end in
  let zero := match d with c :: _ :: _ => bool_decide (c = "0"%char) && negb zero_prefix | _ => false end in
  if match d with [] => true | _ => false end || long || (limit <? decval 0 d) || zero then None else Some (decval 0 d).
Definition read_number (limit : N) (max_digits : option nat) (zero_prefix : bool) (l : bytes) : option (N * bytes) :=
  let '(d, r) := digits l in n ← number limit max_digits zero_prefix d; Some (n, r).
Definition read_char (c : ascii) (l : bytes) : option bytes :=
  match l with d :: r => if decide (d = c) then Some r else None | [] => None end.
Definition read_octet := read_number 255 (Some 3%nat) false.
Definition read_port := read_number 65535 None true.
(** read_ipv4_addr. *)
Definition read_ip4 (l : bytes) : option (N * bytes) :=
  '(a, l) ← read_octet l; l ← read_char "." l;
  '(b, l) ← read_octet l; l ← read_char "." l;
  '(c, l) ← read_octet l; l ← read_char "." l;
  '(d, l) ← read_octet l; Some (((a * 256 + b) * 256 + c) * 256 + d, l).
(** read_socket_addr_v4, and nothing may follow. *)
Definition parse4 (s : string) : option sockaddr :=
  '(ip, l) ← read_ip4 (text s); l ← read_char ":" l; '(p, l) ← read_port l;
  match l with [] => Some (SA4 ip p) | _ => None end.

(** Hexadecimal digits, in either case (char::to_digit). *)
Definition is_hex (c : ascii) : bool :=
  let n := N_of_ascii c in is_digit c || (97 <=? n) && (n <=? 102) || (65 <=? n) && (n <=? 70).
Definition hex_of (c : ascii) : N :=
  let n := N_of_ascii c in if is_digit c then n - 48 else if 97 <=? n then n - 87 else n - 55.
Fixpoint hex_digits (l : bytes) : bytes * bytes :=
  match l with
  | [] => ([], [])
  | c :: r => if is_hex c then let '(d, s) := hex_digits r in (c :: d, s) else ([], l)
  end.
Fixpoint hexnum (acc : N) (l : bytes) : N := match l with [] => acc | c :: r => hexnum (acc * 16 + hex_of c) r end.
(** read_number with radix 16, at most 4 digits, zeros in front allowed. *)
Definition read_group (l : bytes) : option (N * bytes) :=
  let '(d, r) := hex_digits l in
  if match d with [] => true | _ => false end || Nat.ltb 4 (length d) then None else Some (hexnum 0 d, r).
(** read_separator with ':'. *)
Definition separated (first : bool) (p : bytes -> option (N * bytes)) (l : bytes) : option (N * bytes) :=
  if first then p l else l ← read_char ":" l; p l.
(** read_groups of read_ipv6_addr: at most [k] groups, the last two perhaps as an IPv4 address; the groups, whether
    they end with an IPv4 address, and the rest. *)
Fixpoint read_groups (k : nat) (first : bool) (l : bytes) : list N * bool * bytes :=
  match k with
  | O => ([], false, l)
  | S k =>
      match (if Nat.eqb k 0 then None else separated first read_ip4 l) with
      | Some (a, r) => ([a / 65536; a mod 65536], true, r)
      | None =>
          match separated first read_group l with
          | Some (g, r) => let '(gs, v4, r) := read_groups k false r in (g :: gs, v4, r)
          | None => ([], false, l)
          end
      end
  end.
Definition of_groups (g : list N) : N := fold_left (fun a x => a * 65536 + x) g 0.
(** read_ipv6_addr. *)
Definition read_ip6 (l : bytes) : option (N * bytes) :=
  let '(head, v4, l) := read_groups 8 true l in
  if Nat.eqb (length head) 8 then Some (of_groups head, l)
  else if v4 then None
  else
    l ← read_char ":" l; l ← read_char ":" l;
    let '(tail, _, l) := read_groups (8 - (length head + 1)) true l in
    Some (of_groups (head ++ replicate (8 - length head - length tail) 0 ++ tail), l).
(** read_scope_id, or 0. *)
Definition read_scope (l : bytes) : N * bytes :=
  match (r ← read_char "%" l; read_number (2 ^ 32 - 1) None true r) with Some x => x | None => (0, l) end.
(** read_socket_addr_v6, and nothing may follow. *)
Definition parse6 (s : string) : option sockaddr :=
  l ← read_char "[" (text s); '(ip, l) ← read_ip6 l;
  let '(scope, l) := read_scope l in
  l ← read_char "]" l; l ← read_char ":" l; '(p, l) ← read_port l;
  match l with [] => Some (SA6 ip p 0 scope) | _ => None end.

(** FromStr for SocketAddr: read_socket_addr. *)
Definition parse_addr (s : string) : option sockaddr :=
  match parse4 s with Some a => Some a | None => parse6 s end.
(** node.rs:200-213 From<&str>, :215-219 From<String>. *)
Definition node_from (s : string) : option node :=
  if decide (s = "local"%string) then Some NLocal
  else '(name, addr) ← split_once "@" s; a ← parse_addr addr; Some (NRemote name a).
(** :239-263 PartialEq<&str>, :265-283 the other directions. *)
Definition node_is (nd : node) (s : string) : bool :=
  match nd with
  | NLocal => bool_decide (s = "local"%string)
  | NRemote name addr =>
      match split_once "@" s with
      | Some (name', addr') =>
          bool_decide (name = name') &&
          match parse_addr addr' with Some a => bool_decide (addr = a) | None => false end
      | None => false
      end
  end.
(** :188-198 From<(&str, SocketAddr)>, :221-237 PartialEq with a pair. *)
Definition node_of (x : string * sockaddr) : node := NRemote (fst x) (snd x).
Definition node_is_pair (nd : node) (x : string * sockaddr) : bool :=
  match nd with NLocal => false | NRemote name addr => bool_decide (name = fst x) && bool_decide (addr = snd x) end.
