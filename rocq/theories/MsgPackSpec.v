(** Specification for C100, C101: which values a type has, and what a value is after it has travelled.
    Uses the types and values of MsgPack.v only, not its reader or writer. *)
From stdpp Require Import base list numbers strings.
From Coq Require Import NArith ZArith.
From Verif Require Import Types Codec MsgPack.
Local Open Scope N_scope.

(** The value [d] is of the type [t]. *)
Fixpoint has_type (t : ty) (d : datum) : Prop :=
  match t, d with
  | TUnit, Dunit | TUnitStruct, Dempty | TBool, Dbool _ | TF32, Df32 _ | TF64, Df64 _ | TStr, Dstr _ => True
  | TInt lo hi, Dint z => (lo <= z <= hi)%Z
  | TOpt _, Dopt None => True
  | TOpt t, Dopt (Some d) => has_type t d
  | TSeq t, Dseq l => Forall (has_type t) l
  | TTup ts, Dseq l =>
      (fix go ts l := match ts, l with [], [] => True | t :: ts, d :: l => has_type t d /\ go ts l | _, _ => False end) ts l
  | TMap k v, Dmap l => Forall (fun e => has_type k (fst e) /\ has_type v (snd e)) l
  | TStruct fs, Drec l =>
      (fix go fs l := match fs, l with
                      | [], [] => True
                      | (n, t) :: fs, (m, d) :: l => n = m /\ has_type t d /\ go fs l
                      | _, _ => False
                      end) fs l
  | TEnum vs, Denum n o =>
      (fix go vs := match vs with
                    | [] => False
                    | (m, ot) :: vs => m = n /\ match ot, o with None, None => True | Some t, Some d => has_type t d | _, _ => False end
                                       \/ go vs
                    end) vs
  | _, _ => False
  end.
(** Fields, and variants, have different names (the compiler sees to it). *)
Fixpoint distinct_names (t : ty) : Prop :=
  match t with
  | TOpt t | TSeq t => distinct_names t
  | TTup ts => (fix go ts := match ts with [] => True | t :: ts => distinct_names t /\ go ts end) ts
  | TMap k v => distinct_names k /\ distinct_names v
  | TStruct fs => NoDup (map fst fs) /\ (fix go fs := match fs with [] => True | (_, t) :: fs => distinct_names t /\ go fs end) fs
  | TEnum vs => NoDup (map fst vs) /\
      (fix go vs := match vs with [] => True | (_, ot) :: vs => match ot with Some t => distinct_names t | None => True end /\ go vs end) vs
  | _ => True
  end.
(** Everything is of a size that exists: integers of at most 64 bits, texts that are Unicode, no more than 2^32
    elements or bytes at a time. *)
Definition text_ok (s : string) : Prop := utf8 (list_ascii_of_string s) = true /\ len (list_ascii_of_string s) < 2 ^ 32.
Definition each {A} (P : A -> Prop) : list A -> Prop := fix go l := match l with [] => True | x :: l => P x /\ go l end.
Fixpoint sizes_ok (d : datum) : Prop :=
  match d with
  | Dint z => (-2 ^ 63 <= z < 2 ^ 64)%Z
  | Df32 n => n < 2 ^ 32
  | Df64 n => n < 2 ^ 64
  | Dstr s => text_ok s
  | Dopt (Some d) => sizes_ok d
  | Dseq l => len l < 2 ^ 32 /\ each sizes_ok l
  | Dmap l => len l < 2 ^ 32 /\ each (fun e => sizes_ok (fst e) /\ sizes_ok (snd e)) l
  | Drec l => len l < 2 ^ 32 /\ each (fun f => text_ok (fst f) /\ sizes_ok (snd f)) l
  | Denum n o => text_ok n /\ match o with Some d => sizes_ok d | None => True end
  | _ => True
  end.
(** How many levels of lists, maps and variants are inside each other. *)
Definition maximum : list nat -> nat := foldr Nat.max 0%nat.
Fixpoint levels (d : datum) : nat :=
  match d with
  | Dopt (Some d) => levels d
  | Dseq l => S (maximum (map levels l))
  | Dmap l => S (maximum (map (fun e => Nat.max (levels (fst e)) (levels (snd e))) l))
  | Drec l => S (maximum (map (fun f => Nat.max 1 (levels (snd f))) l))
  | Denum _ (Some d) => S (Nat.max 1 (levels d))
  | _ => 1%nat
  end.

(** "Nothing": the unit value, None, and Some of nothing.  MessagePack has one word for all of them. *)
Fixpoint nothing (d : datum) : bool :=
  match d with Dunit | Dopt None => true | Dopt (Some d) => nothing d | _ => false end.
(** What arrives when [d] is sent: [d], except that every Some of nothing is None. *)
Fixpoint travelled (d : datum) : datum :=
  match d with
  | Dopt (Some d) => if nothing d then Dopt None else Dopt (Some (travelled d))
  | Dseq l => Dseq (map travelled l)
  | Dmap l => Dmap (map (fun e => (travelled (fst e), travelled (snd e))) l)
  | Drec l => Drec (map (fun f => (fst f, travelled (snd f))) l)
  | Denum n (Some d) => Denum n (Some (travelled d))
  | d => d
  end.
(** No option of the type has nothing as its content: its content is neither an option nor the unit type. *)
Definition something (t : ty) : Prop := match t with TUnit | TOpt _ => False | _ => True end.
Fixpoint no_some_nothing (t : ty) : Prop :=
  match t with
  | TOpt t => something t /\ no_some_nothing t
  | TSeq t => no_some_nothing t
  | TTup ts => (fix go ts := match ts with [] => True | t :: ts => no_some_nothing t /\ go ts end) ts
  | TMap k v => no_some_nothing k /\ no_some_nothing v
  | TStruct fs => (fix go fs := match fs with [] => True | (_, t) :: fs => no_some_nothing t /\ go fs end) fs
  | TEnum vs => (fix go vs := match vs with [] => True | (_, ot) :: vs => match ot with Some t => no_some_nothing t | None => True end /\ go vs end) vs
  | _ => True
  end.

(** The kinds of words of MessagePack. *)
Inductive kind := KNil | KBool | KInt | KF32 | KF64 | KStr | KArr | KMap.
(** The kinds a value of the type may be written as, and the kinds a value of it is read from. *)
Fixpoint written_as (t : ty) : list kind :=
  match t with
  | TUnit => [KNil] | TUnitStruct => [KArr] | TBool => [KBool] | TInt _ _ => [KInt] | TF32 => [KF32] | TF64 => [KF64] | TStr => [KStr]
  | TOpt t => KNil :: written_as t
  | TSeq _ | TTup _ => [KArr]
  | TMap _ _ | TStruct _ => [KMap]
  | TEnum _ => [KStr; KMap]
  end.
Fixpoint read_as (t : ty) : list kind :=
  match t with
  | TUnit => [KNil] | TUnitStruct => [KNil; KArr] | TBool => [KBool] | TInt _ _ => [KInt] | TF32 => [KF32] | TF64 => [KF64] | TStr => [KStr]
  | TOpt t => KNil :: read_as t
  | TSeq _ | TTup _ => [KArr]
  | TMap _ _ => [KMap]
  | TStruct _ => [KMap; KArr]
  | TEnum _ => [KStr; KMap; KInt]
  end.
