(** Model of the frame codec: hydra/src/frame/mod.rs:42-187 and the derived
    Encode/Decode implementations of the frames (bincode 2, configuration
    [standard().with_fixed_int_encoding().with_little_endian()], frame/mod.rs:43-45).
    No proofs in this file.

    bincode's contract as modelled: integers are fixed-width little endian; an enum is a u32
    variant index in declaration order followed by the fields; bool and the Option tag are one
    byte (0/1, anything else is an error); Vec and String are a u64 length followed by the
    elements; String must be UTF-8; NonZeroU64 must not be 0; SocketAddr is a u32 variant (0 =
    V4: 4 octets, u16 port; 1 = V6: 16 octets, u16 port; flow info and scope id are not
    transmitted and decode as 0).  Running out of input is [UnexpectedEnd]; every other
    failure is an error of another kind.  Memory exhaustion on huge announced lengths is not
    modelled. *)
From stdpp Require Import base list gmap numbers strings.
From Coq Require Import Ascii NArith.
From Verif Require Import Types.
Local Open Scope N_scope.

(** ** Encoding *)
Fixpoint le (n : nat) (x : N) : bytes :=
  match n with
  | O => []
  | S n => ascii_of_N (x mod 256) :: le n (x / 256)
  end.
(** network-order octets of an address *)
Definition be (n : nat) (x : N) : bytes := rev (le n x).

Definition e_u16 := le 2.
Definition e_u32 := le 4.
Definition e_u64 := le 8.
Definition e_bool (b : bool) : bytes := [ascii_of_N (if b then 1 else 0)].
Definition e_opt {A} (e : A -> bytes) (o : option A) : bytes :=
  match o with None => [ascii_of_N 0] | Some a => ascii_of_N 1 :: e a end.
Definition e_vec {A} (e : A -> bytes) (l : list A) : bytes :=
  e_u64 (N.of_nat (length l)) ++ concat (map e l).
Definition e_blob (b : bytes) : bytes := e_u64 (N.of_nat (length b)) ++ b.
Definition e_str (s : string) : bytes := e_blob (list_ascii_of_string s).
Definition e_addr (a : sockaddr) : bytes :=
  match a with
  | SA4 ip port => e_u32 0 ++ be 4 ip ++ e_u16 port
  | SA6 ip port _ _ => e_u32 1 ++ be 16 ip ++ e_u16 port
  end.
Definition e_reason (r : exit_reason) : bytes :=
  match r with
  | RNormal => e_u32 0
  | RKill => e_u32 1
  | RIgnore => e_u32 2
  | RCustom s => e_u32 3 ++ e_str s
  end.
Definition e_target (t : send_target) : bytes :=
  match t with
  | TPid i => e_u32 0 ++ e_u64 i
  | TNamed s => e_u32 1 ++ e_str s
  | TAlias i => e_u32 2 ++ e_u64 i
  end.
(** #[derive(Encode)] for Frame, frame/mod.rs:51-63. *)
Definition e_frame (f : frame) : bytes :=
  match f with
  | FHello n a c => e_u32 0 ++ e_str n ++ e_addr a ++ e_blob c
  | FPing => e_u32 1
  | FPong => e_u32 2
  | FSend ts m => e_u32 3 ++ e_vec e_target ts ++ e_blob m
  | FMonitor i p nm fr r => e_u32 4 ++ e_bool i ++ e_opt e_u64 p ++ e_opt e_str nm ++ e_opt e_u64 fr ++ e_u64 r
  | FMonitorDown ms r => e_u32 5 ++ e_vec e_u64 ms ++ e_reason r
  | FMonitorUpdate p f r => e_u32 6 ++ e_u64 p ++ e_u64 f ++ e_u64 r
  | FLink i p f => e_u32 7 ++ e_bool i ++ e_u64 p ++ e_u64 f
  | FLinkDown ls f r => e_u32 8 ++ e_vec e_u64 ls ++ e_u64 f ++ e_reason r
  | FExit p f r => e_u32 9 ++ e_u64 p ++ e_u64 f ++ e_reason r
  end.

(** Codec::encode, frame/mod.rs:139-150: append a zero marker, append the body, then patch the
    marker with [size as u32]. *)
Definition encode (f : frame) (dst : bytes) : bytes :=
  let marker := length dst in
  let body := e_frame f in
  let dst := dst ++ e_u32 0 ++ body in
  take marker dst ++ e_u32 (N.of_nat (length body) mod 2 ^ 32) ++ drop (marker + 4) dst.

(** ** Decoding *)
Inductive dres (A : Type) :=
| DOk (a : A) (rest : bytes)
| DEnd                           (* DecodeError::UnexpectedEnd *)
| DErr.                          (* any other DecodeError *)
Global Arguments DOk {A} a rest.
Global Arguments DEnd {A}.
Global Arguments DErr {A}.
Definition dec (A : Type) := bytes -> dres A.

Definition d_ret {A} (a : A) : dec A := fun b => DOk a b.
Definition d_fail {A} : dec A := fun _ => DErr.
Definition d_bind {A B} (d : dec A) (k : A -> dec B) : dec B :=
  fun b => match d b with DOk a b => k a b | DEnd => DEnd | DErr => DErr end.
Notation "'let*' x ':=' d 'in' k" := (d_bind d (fun x => k))
  (at level 200, x name, d at level 100, k at level 200, right associativity).

(** read exactly [n] bytes *)
Definition d_take (n : N) : dec bytes := fun b =>
  if N.of_nat (length b) <? n then DEnd
  else DOk (take (N.to_nat n) b) (drop (N.to_nat n) b).
Fixpoint unle (b : bytes) : N :=
  match b with [] => 0 | c :: b => N_of_ascii c + 256 * unle b end.
Definition d_int (n : N) : dec N := let* b := d_take n in d_ret (unle b).
Definition d_u8 := d_int 1.
Definition d_u16 := d_int 2.
Definition d_u32 := d_int 4.
Definition d_u64 := d_int 8.
Definition d_be (n : N) : dec N := let* b := d_take n in d_ret (unle (rev b)).
Definition d_bool : dec bool :=
  let* t := d_u8 in match t with 0 => d_ret false | 1 => d_ret true | _ => d_fail end.
Definition d_opt {A} (d : dec A) : dec (option A) :=
  let* t := d_u8 in
  match t with 0 => d_ret None | 1 => (let* a := d in d_ret (Some a)) | _ => d_fail end.
(** the element loop of Vec::decode; the fuel is the input length + 1, and every element decoder
    used here consumes input, so it cannot run out first *)
Fixpoint d_list {A} (fuel : nat) (d : dec A) (n : N) : dec (list A) :=
  match n with
  | 0 => d_ret []
  | _ => match fuel with
         | O => d_fail
         | S fuel => let* a := d in let* l := d_list fuel d (N.pred n) in d_ret (a :: l)
         end
  end.
Definition d_vec {A} (d : dec A) : dec (list A) :=
  let* n := d_u64 in fun b => d_list (S (length b)) d n b.
Definition d_blob : dec bytes := let* n := d_u64 in d_take n.

(** Well-formed UTF-8 (core::str::from_utf8): the standard table of byte sequences. *)
Definition in_range (lo hi : N) (c : ascii) : bool := (lo <=? N_of_ascii c) && (N_of_ascii c <=? hi).
Fixpoint utf8 (b : bytes) : bool :=
  match b with
  | [] => true
  | c0 :: b0 =>
      let cont := in_range 128 191 in
      if in_range 0 127 c0 then utf8 b0 else
      match b0 with
      | [] => false
      | c1 :: b1 =>
          if in_range 194 223 c0 then cont c1 && utf8 b1 else
          match b1 with
          | [] => false
          | c2 :: b2 =>
              if in_range 224 239 c0 then
                (match N_of_ascii c0 with
                 | 224 => in_range 160 191 c1
                 | 237 => in_range 128 159 c1
                 | _ => cont c1
                 end) && cont c2 && utf8 b2
              else
              match b2 with
              | [] => false
              | c3 :: b3 =>
                  in_range 240 244 c0 &&
                  (match N_of_ascii c0 with
                   | 240 => in_range 144 191 c1
                   | 244 => in_range 128 143 c1
                   | _ => cont c1
                   end) && cont c2 && cont c3 && utf8 b3
              end
          end
      end
  end.
Definition d_str : dec string :=
  let* b := d_blob in if utf8 b then d_ret (string_of_list_ascii b) else d_fail.
Definition d_nonzero : dec N := let* n := d_u64 in if n =? 0 then d_fail else d_ret n.
Definition d_addr : dec sockaddr :=
  let* t := d_u32 in
  match t with
  | 0 => let* ip := d_be 4 in let* port := d_u16 in d_ret (SA4 ip port)
  | 1 => let* ip := d_be 16 in let* port := d_u16 in d_ret (SA6 ip port 0 0)
  | _ => d_fail
  end.
Definition d_reason : dec exit_reason :=
  let* t := d_u32 in
  match t with
  | 0 => d_ret RNormal
  | 1 => d_ret RKill
  | 2 => d_ret RIgnore
  | 3 => let* s := d_str in d_ret (RCustom s)
  | _ => d_fail
  end.
Definition d_target : dec send_target :=
  let* t := d_u32 in
  match t with
  | 0 => let* i := d_nonzero in d_ret (TPid i)
  | 1 => let* s := d_str in d_ret (TNamed s)
  | 2 => let* i := d_nonzero in d_ret (TAlias i)
  | _ => d_fail
  end.
(** #[derive(Decode)] for Frame, frame/mod.rs:51-63. *)
Definition d_frame : dec frame :=
  let* t := d_u32 in
  match t with
  | 0 => let* n := d_str in let* a := d_addr in let* c := d_blob in d_ret (FHello n a c)
  | 1 => d_ret FPing
  | 2 => d_ret FPong
  | 3 => let* ts := d_vec d_target in let* m := d_blob in d_ret (FSend ts m)
  | 4 => let* i := d_bool in let* p := d_opt d_u64 in let* nm := d_opt d_str in
         let* fr := d_opt d_u64 in let* r := d_u64 in d_ret (FMonitor i p nm fr r)
  | 5 => let* ms := d_vec d_u64 in let* r := d_reason in d_ret (FMonitorDown ms r)
  | 6 => let* p := d_u64 in let* f := d_u64 in let* r := d_u64 in d_ret (FMonitorUpdate p f r)
  | 7 => let* i := d_bool in let* p := d_u64 in let* f := d_u64 in d_ret (FLink i p f)
  | 8 => let* ls := d_vec d_u64 in let* f := d_u64 in let* r := d_reason in d_ret (FLinkDown ls f r)
  | 9 => let* p := d_u64 in let* f := d_u64 in let* r := d_reason in d_ret (FExit p f r)
  | _ => d_fail
  end.

(** Codec::decode, frame/mod.rs:157-186: outcome and the buffer afterwards.  The body is decoded
    from [&src[4..]], which is not cut at the announced length (line 173). *)
Inductive decoded := Frame (f : frame) | NeedMore | Bad.
Definition decode (src : bytes) : decoded * bytes :=
  if N.of_nat (length src) <? 4 then (NeedMore, src) else
  let len := unle (take 4 src) in
  if N.of_nat (length src) <? 4 + len then (NeedMore, src) else
  match d_frame (drop 4 src) with
  | DOk f _ => (Frame f, drop (N.to_nat (4 + len)) src)
  | DEnd => (NeedMore, src)
  | DErr => (Bad, src)
  end.

(** tokio_util's Framed read loop: append a chunk to the buffer and decode until more input is
    needed or an error occurs (which ends the stream).  Fuel: the buffer length + 1; every
    decoded frame consumes at least 4 bytes. *)
Fixpoint drain (fuel : nat) (buf : bytes) : list frame * option bytes :=
  match fuel with
  | O => ([], None)
  | S fuel =>
      match decode buf with
      | (NeedMore, buf) => ([], Some buf)
      | (Bad, _) => ([], None)
      | (Frame f, buf) => let '(fs, st) := drain fuel buf in (f :: fs, st)
      end
  end.
Fixpoint feed (buf : bytes) (chunks : list bytes) : list frame * option bytes :=
  match chunks with
  | [] => ([], Some buf)
  | c :: chunks =>
      match drain (S (length (buf ++ c))) (buf ++ c) with
      | (fs, Some buf) => let '(fs', st) := feed buf chunks in (fs ++ fs', st)
      | (fs, None) => (fs, None)
      end
  end.
