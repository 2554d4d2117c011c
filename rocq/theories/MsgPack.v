(** Model of how the messages of the user travel between nodes: serialize.rs:7-14, which is
    rmp_serde::to_vec_named and rmp_serde::from_slice, and the types that the crate itself sends this way
    (gen_server.rs:22-33, exit_reason.rs:8-19, from.rs:7-13, pid.rs:15-19, reference.rs:17-21, node.rs:27-32).
    No proofs in this file.

    The format is written out from the MessagePack specification and the documentation of rmp_serde 1.3 and of
    serde's derive macros (their sources are not part of /repo).  Simplifications: the bytes are parsed as a whole
    and then read at a type, where rmp_serde does both at once (a difference only for bytes that no serialiser
    wrote); an integer or float is not read as the other; not modelled: char, 128 bit integers, byte strings
    (serde_bytes), extension types, serde attributes other than rename, types with Serialize written by hand other
    than those above.  The nesting limit of the reader (1024) is a parameter. *)
From stdpp Require Import base list gmap numbers strings.
From Coq Require Import Ascii NArith ZArith.
From Verif Require Import Types Codec Prog World ProcApi NodeApi Wire.
Local Open Scope N_scope.

(** ** MessagePack *)
Inductive mp :=
| PNil | PBool (b : bool) | PInt (z : Z) | PF32 (bits : N) | PF64 (bits : N) | PStr (s : string)
| PArr (l : list mp) | PMap (l : list (mp * mp)).

Definition byte (n : N) : ascii := ascii_of_N n.
Definition len {A} (l : list A) : N := N.of_nat (length l).
(** rmp::encode::write_sint / write_uint: the shortest form. *)
Definition e_int (z : Z) : bytes :=
  if (0 <=? z)%Z then
    let n := Z.to_N z in
    if n <? 2 ^ 7 then [byte n] else if n <? 2 ^ 8 then byte 0xcc :: be 1 n else if n <? 2 ^ 16 then byte 0xcd :: be 2 n
    else if n <? 2 ^ 32 then byte 0xce :: be 4 n else byte 0xcf :: be 8 n
  else
    let two's (bits : Z) := Z.to_N (2 ^ bits + z) in
    if (-32 <=? z)%Z then [byte (two's 8%Z)] else if (-2 ^ 7 <=? z)%Z then byte 0xd0 :: be 1 (two's 8%Z)
    else if (-2 ^ 15 <=? z)%Z then byte 0xd1 :: be 2 (two's 16%Z) else if (-2 ^ 31 <=? z)%Z then byte 0xd2 :: be 4 (two's 32%Z)
    else byte 0xd3 :: be 8 (two's 64%Z).
(** rmp::encode::write_str_len, write_array_len, write_map_len. *)
Definition e_str_len (n : N) : bytes :=
  if n <? 32 then [byte (0xa0 + n)] else if n <? 2 ^ 8 then byte 0xd9 :: be 1 n
  else if n <? 2 ^ 16 then byte 0xda :: be 2 n else byte 0xdb :: be 4 n.
Definition e_arr_len (n : N) : bytes :=
  if n <? 16 then [byte (0x90 + n)] else if n <? 2 ^ 16 then byte 0xdc :: be 2 n else byte 0xdd :: be 4 n.
Definition e_map_len (n : N) : bytes :=
  if n <? 16 then [byte (0x80 + n)] else if n <? 2 ^ 16 then byte 0xde :: be 2 n else byte 0xdf :: be 4 n.
Fixpoint e_mp (m : mp) : bytes :=
  match m with
  | PNil => [byte 0xc0]
  | PBool b => [byte (if b then 0xc3 else 0xc2)]
  | PInt z => e_int z
  | PF32 n => byte 0xca :: be 4 n
  | PF64 n => byte 0xcb :: be 8 n
  | PStr s => e_str_len (len (list_ascii_of_string s)) ++ list_ascii_of_string s
  | PArr l => e_arr_len (len l) ++ concat (map e_mp l)
  | PMap l => e_map_len (len l) ++ concat (map (fun kv => e_mp (fst kv) ++ e_mp (snd kv)) l)
  end.

(** Reading: a result and the bytes after it. *)
Definition rd (A : Type) := bytes -> option (A * bytes).
Definition r_take (n : N) : rd bytes := fun b =>
  if len b <? n then None else Some (take (N.to_nat n) b, drop (N.to_nat n) b).
Definition r_be (n : N) : rd N := fun b => match r_take n b with Some (x, b) => Some (unle (rev x), b) | None => None end.
(** The integer of [n] bytes, two's complement if [signed]. *)
Definition r_int (n : N) (signed : bool) : rd mp := fun b =>
  match r_be n b with
  | Some (x, b) => Some (PInt (if signed && (2 ^ (8 * n - 1) <=? x) then (Z.of_N x - Z.of_N (2 ^ (8 * n)))%Z else Z.of_N x), b)
  | None => None
  end.
(** [n] elements one after the other.  The fuel is the number of bytes + 1: every element takes one at least. *)
Fixpoint r_many {A} (fuel : nat) (r : rd A) (n : N) : rd (list A) := fun b =>
  match n with
  | 0 => Some ([], b)
  | _ => match fuel with
         | O => None
         | S fuel => match r b with
                     | Some (a, b) => match r_many fuel r (N.pred n) b with Some (l, b) => Some (a :: l, b) | None => None end
                     | None => None
                     end
         end
  end.
Definition r_str (n : N) : rd mp := fun b =>
  match r_take n b with
  | Some (x, b) => if utf8 x then Some (PStr (string_of_list_ascii x), b) else None
  | None => None
  end.
Definition r_pair {A} (r : rd A) : rd (A * A) := fun b =>
  match r b with Some (x, b) => match r b with Some (y, b) => Some ((x, y), b) | None => None end | None => None end.
Definition r_arr (r : rd mp) (n : N) : rd mp := fun b =>
  match r_many (S (length b)) r n b with Some (l, b) => Some (PArr l, b) | None => None end.
Definition r_map (r : rd mp) (n : N) : rd mp := fun b =>
  match r_many (S (length b)) (r_pair r) n b with Some (l, b) => Some (PMap l, b) | None => None end.
Definition r_len (n : N) (k : N -> rd mp) : rd mp := fun b =>
  match r_be n b with Some (x, b) => k x b | None => None end.
(** rmp_serde's Deserializer: the first byte says what follows; [depth] levels at most. *)
Fixpoint r_mp (depth : nat) : rd mp := fun b =>
  match depth, b with
  | S depth, c :: b =>
      let m := N_of_ascii c in let r := r_mp depth in
      if m <? 0x80 then Some (PInt (Z.of_N m), b)
      else if m <? 0x90 then r_map r (m - 0x80) b
      else if m <? 0xa0 then r_arr r (m - 0x90) b
      else if m <? 0xc0 then r_str (m - 0xa0) b
      else if 0xe0 <=? m then Some (PInt (Z.of_N m - 256)%Z, b)
      else match m with
           | 0xc0 => Some (PNil, b) | 0xc2 => Some (PBool false, b) | 0xc3 => Some (PBool true, b)
           | 0xca => match r_be 4 b with Some (x, b) => Some (PF32 x, b) | None => None end
           | 0xcb => match r_be 8 b with Some (x, b) => Some (PF64 x, b) | None => None end
           | 0xcc => r_int 1 false b | 0xcd => r_int 2 false b | 0xce => r_int 4 false b | 0xcf => r_int 8 false b
           | 0xd0 => r_int 1 true b | 0xd1 => r_int 2 true b | 0xd2 => r_int 4 true b | 0xd3 => r_int 8 true b
           | 0xd9 => r_len 1 r_str b | 0xda => r_len 2 r_str b | 0xdb => r_len 4 r_str b
           | 0xdc => r_len 2 (r_arr r) b | 0xdd => r_len 4 (r_arr r) b
           | 0xde => r_len 2 (r_map r) b | 0xdf => r_len 4 (r_map r) b
           | _ => None
           end
  | _, _ => None
  end.

(** ** serde: the types of messages and their values *)
(** A tuple struct is a tuple and a newtype its content; a variant has no payload, or one: the tuple of its
    fields if it has several, a struct if they have names (they are written the same way). *)
Inductive ty :=
| TUnit | TUnitStruct | TBool | TInt (lo hi : Z) | TF32 | TF64 | TStr
| TOpt (t : ty) | TSeq (t : ty) | TTup (ts : list ty) | TMap (k v : ty)
| TStruct (fs : list (string * ty)) | TEnum (vs : list (string * option ty)).
Inductive datum :=
| Dunit | Dempty | Dbool (b : bool) | Dint (z : Z) | Df32 (bits : N) | Df64 (bits : N) | Dstr (s : string)
| Dopt (o : option datum) | Dseq (l : list datum) | Dmap (l : list (datum * datum))
| Drec (l : list (string * datum)) | Denum (variant : string) (o : option datum).

(** rmp_serde's Serializer with struct maps (to_vec_named). *)
Fixpoint to_mp (d : datum) : mp :=
  match d with
  | Dunit => PNil
  | Dempty => PArr []
  | Dbool b => PBool b
  | Dint z => PInt z
  | Df32 n => PF32 n
  | Df64 n => PF64 n
  | Dstr s => PStr s
  | Dopt None => PNil
  | Dopt (Some d) => to_mp d
  | Dseq l => PArr (map to_mp l)
  | Dmap l => PMap (map (fun kv => (to_mp (fst kv), to_mp (snd kv))) l)
  | Drec l => PMap (map (fun f => (PStr (fst f), to_mp (snd f))) l)
  | Denum n None => PStr n
  | Denum n (Some d) => PMap [(PStr n, to_mp d)]
  end.

(** serde's derived identifiers: a field or variant is named by its text or by its index. *)
Definition ident_is (k : mp) (i : Z) (n : string) : bool :=
  match k with PStr s => bool_decide (s = n) | PInt z => bool_decide (z = i) | _ => false end.
Definition is_ident (k : mp) : bool := match k with PStr _ => true | PInt z => (0 <=? z)%Z | _ => false end.
(** No field is given twice. *)
Fixpoint given_once {A} (i : Z) (fs : list (string * A)) (kvs : list (mp * mp)) : bool :=
  match fs with
  | [] => true
  | (n, _) :: fs => (length (filter (fun kv => ident_is (fst kv) i n = true) kvs) <=? 1)%nat && given_once (i + 1)%Z fs kvs
  end.
Definition get (kvs : list (mp * mp)) (i : Z) (n : string) : option mp :=
  snd <$> head (filter (fun kv => ident_is (fst kv) i n = true) kvs).
(** serde's Deserialize of the standard types and of derived ones, on rmp_serde's Deserializer. *)
Fixpoint of_mp (t : ty) (m : mp) : option datum :=
  match t, m with
  | TUnit, PNil => Some Dunit
  | TUnitStruct, PNil => Some Dempty
  | TUnitStruct, PArr [] => Some Dempty
  | TBool, PBool b => Some (Dbool b)
  | TInt lo hi, PInt z => if ((lo <=? z) && (z <=? hi))%Z then Some (Dint z) else None
  | TF32, PF32 n => Some (Df32 n)
  | TF64, PF64 n => Some (Df64 n)
  | TStr, PStr s => Some (Dstr s)
  | TOpt _, PNil => Some (Dopt None)
  | TOpt t, m => (fun d => Dopt (Some d)) <$> of_mp t m
  | TSeq t, PArr l => Dseq <$> mapM (of_mp t) l
  | TTup ts, PArr l =>
      Dseq <$> (fix go ts l := match ts, l with
                               | [], [] => Some []
                               | t :: ts, m :: l => match of_mp t m, go ts l with Some d, Some r => Some (d :: r) | _, _ => None end
                               | _, _ => None
                               end) ts l
  | TMap k v, PMap l => Dmap <$> mapM (fun e => match of_mp k (fst e), of_mp v (snd e) with Some a, Some b => Some (a, b) | _, _ => None end) l
  | TStruct fs, PMap kvs =>
      if forallb (fun kv => is_ident (fst kv)) kvs && given_once 0 fs kvs then
        Drec <$> (fix go i fs := match fs with
                                 | [] => Some []
                                 | (n, t) :: fs =>
                                     match (match get kvs i n with
                                            | Some m => of_mp t m
                                            | None => match t with TOpt _ => Some (Dopt None) | _ => None end
                                            end), go (i + 1)%Z fs with
                                     | Some d, Some r => Some ((n, d) :: r)
                                     | _, _ => None
                                     end
                                 end) 0%Z fs
      else None
  | TStruct fs, PArr l =>
      Drec <$> (fix go fs l := match fs, l with
                               | [], [] => Some []
                               | (n, t) :: fs, m :: l => match of_mp t m, go fs l with Some d, Some r => Some ((n, d) :: r) | _, _ => None end
                               | _, _ => None
                               end) fs l
  | TEnum vs, PMap [(k, m)] =>
      (fix go i vs := match vs with
                      | [] => None
                      | (n, ot) :: vs => if ident_is k i n then
                                           match ot, m with
                                           | None, PNil => Some (Denum n None)
                                           | None, _ => None
                                           | Some t, m => (fun d => Denum n (Some d)) <$> of_mp t m
                                           end
                                         else go (i + 1)%Z vs
                      end) 0%Z vs
  | TEnum vs, k =>
      (fix go i vs := match vs with
                      | [] => None
                      | (n, ot) :: vs => if ident_is k i n then match ot with None => Some (Denum n None) | Some _ => None end
                                         else go (i + 1)%Z vs
                      end) 0%Z vs
  | _, _ => None
  end.

(** serialize.rs:7-9. *)
Definition serialize (d : datum) : bytes := e_mp (to_mp d).
(** serialize.rs:12-14; from_slice does not look at bytes after the value. *)
Definition deserialize (limit : nat) (t : ty) (b : bytes) : option datum :=
  match r_mp limit b with Some (m, _) => of_mp t m | None => None end.

(** ** The types of the crate *)
Definition u8_ty : ty := TInt 0 255.
Definition u16_ty : ty := TInt 0 65535.
Definition u64_ty : ty := TInt 0 (2 ^ 64 - 1).
(** core's NonZeroU64: an integer that is not zero. *)
Definition nonzero_ty : ty := TInt 1 (2 ^ 64 - 1).
(** serde's SocketAddr in a format that is not for humans: the octets and the port. *)
Definition addr_ty : ty :=
  TEnum [("V4"%string, Some (TTup [TTup (replicate 4 u8_ty); u16_ty])); ("V6"%string, Some (TTup [TTup (replicate 16 u8_ty); u16_ty]))].
(** pid.rs:15-19 PidWire, reference.rs:17-21 ReferenceWire. *)
Definition id_ty : ty :=
  TEnum [("WithNode"%string, Some (TTup [nonzero_ty; TStr; addr_ty])); ("NodeUnavailable"%string, Some nonzero_ty)].
(** node.rs:27-32 NodeWire. *)
Definition node_ty : ty := TStruct [("name"%string, TStr); ("address"%string, TOpt addr_ty)].
(** exit_reason.rs:8-19. *)
Definition reason_ty : ty :=
  TEnum [("Normal"%string, None); ("Kill"%string, None); ("Ignore"%string, None); ("Custom"%string, Some TStr)].
(** from.rs:7-13. *)
Definition from_ty : ty := TStruct [("pid"%string, id_ty); ("tag"%string, id_ty); ("alias"%string, TBool)].
(** gen_server.rs:22-33 GenServerMessage<T>. *)
Definition gen_ty (T : ty) : ty :=
  TEnum [("$gen_cast"%string, Some T); ("$gen_call"%string, Some (TTup [from_ty; T]));
         ("$gen_reply"%string, Some (TTup [id_ty; T])); ("$gen_stop"%string, Some reason_ty)].

(** Their values. *)
Definition octets (n : nat) (x : N) : datum := Dseq (map (fun c => Dint (Z.of_N (N_of_ascii c))) (be n x)).
Definition addr_datum (a : sockaddr) : datum :=
  match a with
  | SA4 ip port => Denum "V4" (Some (Dseq [octets 4 ip; Dint (Z.of_N port)]))
  | SA6 ip port _ _ => Denum "V6" (Some (Dseq [octets 16 ip; Dint (Z.of_N port)]))
  end.
Definition id_datum (x : id_wire) : datum :=
  match x with
  | WithNode i n a => Denum "WithNode" (Some (Dseq [Dint (Z.of_N i); Dstr n; addr_datum a]))
  | NodeUnavailable i => Denum "NodeUnavailable" (Some (Dint (Z.of_N i)))
  end.
Definition node_datum (x : node_wire) : datum :=
  Drec [("name"%string, Dstr (nw_name x)); ("address"%string, Dopt (addr_datum <$> nw_addr x))].
Definition reason_datum (r : exit_reason) : datum :=
  match r with
  | RNormal => Denum "Normal" None | RKill => Denum "Kill" None | RIgnore => Denum "Ignore" None
  | RCustom s => Denum "Custom" (Some (Dstr s))
  end.
