(** Specification vocabulary for the codec: which frames are Rust values, and which part of a
    frame the format transmits. *)
From stdpp Require Import base list gmap numbers strings.
From Coq Require Import Ascii NArith.
From Verif Require Import Types Codec.
Local Open Scope N_scope.

Definition u16 (n : N) : bool := n <? 2 ^ 16.
Definition u32 (n : N) : bool := n <? 2 ^ 32.
Definition u64 (n : N) : bool := n <? 2 ^ 64.
Definition nonzero_u64 (n : N) : bool := (0 <? n) && u64 n.
(** A Rust String is valid UTF-8. *)
Definition rust_string (s : string) : bool := utf8 (list_ascii_of_string s).
Definition rust_addr (a : sockaddr) : bool :=
  match a with
  | SA4 ip port => (ip <? 2 ^ 32) && u16 port
  | SA6 ip port flow scope => (ip <? 2 ^ 128) && u16 port && u32 flow && u32 scope
  end.
Definition rust_reason (r : exit_reason) : bool :=
  match r with RCustom s => rust_string s | _ => true end.
Definition rust_target (t : send_target) : bool :=
  match t with TPid i | TAlias i => nonzero_u64 i | TNamed s => rust_string s end.
Definition opt_all {A} (p : A -> bool) (o : option A) : bool := match o with None => true | Some a => p a end.

(** Every value of the Rust type Frame: field ranges and UTF-8 strings. *)
Definition rust_frame (f : frame) : bool :=
  match f with
  | FHello n a _ => rust_string n && rust_addr a
  | FPing | FPong => true
  | FSend ts _ => forallb rust_target ts
  | FMonitor _ p nm fr r => opt_all u64 p && opt_all rust_string nm && opt_all u64 fr && u64 r
  | FMonitorDown ms r => forallb u64 ms && rust_reason r
  | FMonitorUpdate p f r => u64 p && u64 f && u64 r
  | FLink _ p f => u64 p && u64 f
  | FLinkDown ls f r => forallb u64 ls && u64 f && rust_reason r
  | FExit p f r => u64 p && u64 f && rust_reason r
  end.

(** The body is smaller than 4 GiB. *)
Definition fits (f : frame) : bool := N.of_nat (length (e_frame f)) <? 2 ^ 32.

(** What the format transmits: everything but an IPv6 address' flow label and scope id. *)
Definition wire_view (f : frame) : frame :=
  match f with
  | FHello n (SA6 ip port _ _) c => FHello n (SA6 ip port 0 0) c
  | f => f
  end.

(** A length-prefixed unit as a peer may send it. *)
Definition unit_of (body : bytes) : bytes := e_u32 (N.of_nat (length body)) ++ body.
