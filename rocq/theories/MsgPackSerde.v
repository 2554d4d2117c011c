(** C107: the serialisation of messages (MsgPack.v) as the one the rest of the model is about (Types.v [serde]): for a
    program with any list of types of messages, the conditions under which C85, C86 and others speak of it. *)
From stdpp Require Import base list gmap numbers strings countable.
From Coq Require Import Ascii NArith ZArith Lia ZifyNat ZifyN ZifyBool.
From Verif Require Import Types Codec Prog Mailbox MailboxSpec World ProcApi NodeApi Wire MsgPack MsgPackSpec MsgPackProofs MsgPackProps MsgPackRead MsgPackFormat MsgPackForward.
From Verif Require Import Api SchedSpec OriginSpec OrderProps LiveProofs ConnLasts ConnProps FifoSpec FifoProofs FifoProps.
From Verif Require Import ClientRun CodecSpec Options Heart HeartSpec HeartProofs HeartProps.
Local Open Scope N_scope.

(** ** Values as numbers *)
(** The model's values carry a number (Types.v [v_data]); a message is numbered by way of a tree. *)
Definition leaf : Type := Z * string.
Definition num (z : Z) : gen_tree leaf := GenLeaf (z, ""%string).
Definition txt (s : string) : gen_tree leaf := GenLeaf (0%Z, s).
Fixpoint tree (d : datum) : gen_tree leaf :=
  match d with
  | Dunit => GenNode 0 []
  | Dempty => GenNode 1 []
  | Dbool b => GenNode 2 [num (if b then 1 else 0)]
  | Dint z => GenNode 3 [num z]
  | Df32 n => GenNode 4 [num (Z.of_N n)]
  | Df64 n => GenNode 5 [num (Z.of_N n)]
  | Dstr s => GenNode 6 [txt s]
  | Dopt None => GenNode 7 []
  | Dopt (Some d) => GenNode 7 [tree d]
  | Dseq l => GenNode 8 (map tree l)
  | Dmap l => GenNode 9 (map (fun e => GenNode 0 [tree (fst e); tree (snd e)]) l)
  | Drec l => GenNode 10 (map (fun f => GenNode 0 [txt (fst f); tree (snd f)]) l)
  | Denum n None => GenNode 11 [txt n]
  | Denum n (Some d) => GenNode 11 [txt n; tree d]
  end.
Fixpoint untree (t : gen_tree leaf) : option datum :=
  match t with
  | GenNode 0 [] => Some Dunit
  | GenNode 1 [] => Some Dempty
  | GenNode 2 [GenLeaf (z, _)] => Some (Dbool (z =? 1)%Z)
  | GenNode 3 [GenLeaf (z, _)] => Some (Dint z)
  | GenNode 4 [GenLeaf (z, _)] => Some (Df32 (Z.to_N z))
  | GenNode 5 [GenLeaf (z, _)] => Some (Df64 (Z.to_N z))
  | GenNode 6 [GenLeaf (_, s)] => Some (Dstr s)
  | GenNode 7 [] => Some (Dopt None)
  | GenNode 7 [t] => (fun d => Dopt (Some d)) <$> untree t
  | GenNode 8 l => Dseq <$> (fix go l := match l with
                                         | [] => Some []
                                         | t :: l => match untree t, go l with Some d, Some r => Some (d :: r) | _, _ => None end
                                         end) l
  | GenNode 9 l => Dmap <$> (fix go l := match l with
                                         | [] => Some []
                                         | GenNode _ [a; b] :: l =>
                                             match untree a, untree b, go l with Some x, Some y, Some r => Some ((x, y) :: r) | _, _, _ => None end
                                         | _ => None
                                         end) l
  | GenNode 10 l => Drec <$> (fix go l := match l with
                                          | [] => Some []
                                          | GenNode _ [GenLeaf (_, n); b] :: l =>
                                              match untree b, go l with Some y, Some r => Some ((n, y) :: r) | _, _ => None end
                                          | _ => None
                                          end) l
  | GenNode 11 [GenLeaf (_, n)] => Some (Denum n None)
  | GenNode 11 [GenLeaf (_, n); t] => (fun d => Denum n (Some d)) <$> untree t
  | _ => None
  end.
Lemma untree_tree d : untree (tree d) = Some d.
Proof.
  induction d as [ | |b|z|n|n|s| |d IH|l IH|l IH|l IH|n|n d IH] using datum_ind'; cbn; try done.
  - by destruct b.
  - by rewrite N2Z.id.
  - by rewrite N2Z.id.
  - by rewrite IH.
  - induction IH as [|d l Hd Hl IH]; [done|]. cbn. rewrite Hd.
    match goal with |- context [match ?x with Some _ => _ | None => None end] => destruct x eqn:E; cbn in IH |- *; congruence end.
  - induction IH as [|[a b] l [Ha Hb] Hl IH]; [done|]. cbn in *. rewrite Ha, Hb.
    match goal with |- context [match ?x with Some _ => _ | None => None end] => destruct x eqn:E; cbn in IH |- *; congruence end.
  - induction IH as [|[a b] l Hb Hl IH]; [done|]. cbn in *. rewrite Hb.
    match goal with |- context [match ?x with Some _ => _ | None => None end] => destruct x eqn:E; cbn in IH |- *; congruence end.
  - by rewrite IH.
Qed.
Definition number (d : datum) : N := N.pos (countable.encode (tree d)).
Definition value_at (n : N) : option datum := match n with N.pos p => match countable.decode p with Some t => untree t | None => None end | 0 => None end.
Lemma value_at_number d : value_at (number d) = Some d.
Proof. unfold value_at, number. by rewrite decode_encode, untree_tree. Qed.
Lemma number_inj d d' : number d = number d' -> d = d'.
Proof. intros E. apply (f_equal value_at) in E. rewrite !value_at_number in E. by injection E. Qed.

Arguments number : simpl never.
Arguments value_at : simpl never.

(** Whether a value is of a type, and of a size that exists (MsgPackSpec.v [has_type], [sizes_ok]), as booleans. *)
Fixpoint typed (t : ty) (d : datum) : bool :=
  match t, d with
  | TUnit, Dunit | TUnitStruct, Dempty | TBool, Dbool _ | TF32, Df32 _ | TF64, Df64 _ | TStr, Dstr _ => true
  | TInt lo hi, Dint z => (lo <=? z)%Z && (z <=? hi)%Z
  | TOpt _, Dopt None => true
  | TOpt t, Dopt (Some d) => typed t d
  | TSeq t, Dseq l => forallb (typed t) l
  | TTup ts, Dseq l =>
      (fix go ts l := match ts, l with [], [] => true | t :: ts, d :: l => typed t d && go ts l | _, _ => false end) ts l
  | TMap k v, Dmap l => forallb (fun e => typed k (fst e) && typed v (snd e)) l
  | TStruct fs, Drec l =>
      (fix go fs l := match fs, l with
                      | [], [] => true
                      | (n, t) :: fs, (m, d) :: l => bool_decide (n = m) && (typed t d && go fs l)
                      | _, _ => false
                      end) fs l
  | TEnum vs, Denum n o =>
      (fix go vs := match vs with
                    | [] => false
                    | (m, ot) :: vs => (bool_decide (m = n) && match ot, o with None, None => true | Some t, Some d => typed t d | _, _ => false end)
                                       || go vs
                    end) vs
  | _, _ => false
  end.
Lemma forallb_iff {A} (f : A -> bool) (P : A -> Prop) l : (forall x, f x = true <-> P x) -> forallb f l = true <-> Forall P l.
Proof. intros H. rewrite forallb_forall, List.Forall_forall. by setoid_rewrite H. Qed.
Lemma typed_spec t : forall d, typed t d = true <-> has_type t d.
Proof.
  induction t as [ | | |lo hi| | | |t IH|t IH|ts IH|k v IHk IHv|fs IH|vs IH] using ty_ind'; intros d; destruct d as [| |b|z|n|n|s|o|l|l|l|n o]; cbn;
    try (split; done); try tauto.
  - lia.
  - destruct o as [d|]; [apply IH|split; done].
  - by apply forallb_iff.
  - revert l. induction IH as [|t ts Ht Hts IH]; intros [|d l]; try (split; done). by rewrite andb_true_iff, Ht, IH.
  - apply forallb_iff. intros [a b]. cbn. by rewrite andb_true_iff, IHk, IHv.
  - revert l. induction IH as [|[n t] fs Ht Hfs IH]; intros [|[m d] l]; try (split; done). cbn in Ht. by rewrite !andb_true_iff, bool_decide_eq_true, Ht, IH.
  - induction IH as [|[m ot] vs Ht Hvs IH]; [split; done|]. rewrite orb_true_iff, andb_true_iff, bool_decide_eq_true, IH.
    destruct ot as [t|], o as [d|]; cbn in Ht; try rewrite Ht; [tauto|intuition discriminate|intuition discriminate|tauto].
Qed.
Definition text_fits (s : string) : bool := utf8 (list_ascii_of_string s) && (len (list_ascii_of_string s) <? 2 ^ 32).
Fixpoint fits (d : datum) : bool :=
  match d with
  | Dint z => (-2 ^ 63 <=? z)%Z && (z <? 2 ^ 64)%Z
  | Df32 n => n <? 2 ^ 32
  | Df64 n => n <? 2 ^ 64
  | Dstr s => text_fits s
  | Dopt (Some d) => fits d
  | Dseq l => (len l <? 2 ^ 32) && forallb fits l
  | Dmap l => (len l <? 2 ^ 32) && forallb (fun e => fits (fst e) && fits (snd e)) l
  | Drec l => (len l <? 2 ^ 32) && forallb (fun f => text_fits (fst f) && fits (snd f)) l
  | Denum n o => text_fits n && match o with Some d => fits d | None => true end
  | _ => true
  end.
Lemma text_fits_spec s : text_fits s = true <-> text_ok s.
Proof. unfold text_fits, text_ok. rewrite andb_true_iff, N.ltb_lt. done. Qed.
Lemma forallb_each {A} (f : A -> bool) (P : A -> Prop) l : Forall (fun x => f x = true <-> P x) l -> forallb f l = true <-> each P l.
Proof. induction 1 as [|x l Hx Hl IH]; [split; done|]. cbn. by rewrite andb_true_iff, Hx, IH. Qed.
Lemma fits_spec d : fits d = true <-> sizes_ok d.
Proof.
  induction d as [ | |b|z|n|n|s| |d IH|l IH|l IH|l IH|n|n d IH] using datum_ind'; cbn [fits sizes_ok]; try (split; done);
    rewrite ?andb_true_iff, ?N.ltb_lt, ?text_fits_spec; try done.
  - rewrite Z.leb_le, Z.ltb_lt. done.
  - by rewrite (forallb_each fits sizes_ok).
  - rewrite (forallb_each _ (fun e => sizes_ok (fst e) /\ sizes_ok (snd e))); [done|].
    eapply List.Forall_impl; [|exact IH]. intros [a b] [Ha Hb]. cbn in *. by rewrite andb_true_iff, Ha, Hb.
  - rewrite (forallb_each _ (fun f => text_ok (fst f) /\ sizes_ok (snd f))); [done|].
    eapply List.Forall_impl; [|exact IH]. intros [a b] Hb. cbn in *. by rewrite andb_true_iff, text_fits_spec, Hb.
  - tauto.
  - by rewrite IH.
Qed.

(** ** The serialisation of a program *)
(** serialize.rs:7-14, for a program whose types of messages are [tys].  (A number that stands for no value of its type is
    given no bytes: there is no such value.) *)
Definition rmp (limit : nat) (tys : N -> option ty) : serde :=
  Serde (fun v => match tys (v_type v), value_at (v_data v) with
                  | Some t, Some d => if typed t d && fits d then serialize d else []
                  | _, _ => []
                  end)
        (fun T b => match tys T with
                    | Some t => match deserialize limit t b with Some d => Some (Val T (number d)) | None => None end
                    | None => None
                    end).
(** Bytes are read as values of the type asked for (the condition of C26, C35, C61 and others), *)
Theorem C107_typed limit tys : serde_typed (rmp limit tys).
Proof. intros T b v. cbn. destruct (tys T) as [t|]; [|done]. destruct (deserialize limit t b); [|done]. by intros [= <-]. Qed.
Lemma rmp_ser limit tys T t d : tys T = Some t -> has_type t d -> sizes_ok d -> ser (rmp limit tys) (Val T (number d)) = serialize d.
Proof. intros E Ht Hs. cbn. rewrite E, value_at_number. apply typed_spec in Ht. apply fits_spec in Hs. by rewrite Ht, Hs. Qed.
Lemma rmp_ser_cases limit tys v : ser (rmp limit tys) v = [] \/ exists t d, tys (v_type v) = Some t /\ has_type t d /\ sizes_ok d /\ ser (rmp limit tys) v = serialize d.
Proof.
  cbn. destruct (tys (v_type v)) as [t|]; [|by left]. destruct (value_at (v_data v)) as [d|]; [|by left].
  destruct (typed t d && fits d) eqn:E; [|by left]. apply andb_true_iff in E as [E1 E2]. apply typed_spec in E1. apply fits_spec in E2. right. by exists t, d.
Qed.
Lemma read_nothing limit t : deserialize limit t [] = None.
Proof. unfold deserialize. by destruct limit. Qed.
(** Whatever the limit, what is read of what was written is it. *)
Lemma read_back limit t d d' : sizes_ok d -> deserialize limit t (serialize d) = Some d' -> of_mp t (to_mp d) = Some d'.
Proof.
  intros Hs H. unfold deserialize in H. destruct (r_mp limit (serialize d)) as [[m rest]|] eqn:E; [|discriminate].
  apply C106_reader in E as (w & E & Hw & _). destruct (C106_writer d Hs) as [Hd _].
  assert (serialize d ++ [] = w ++ rest) as E' by (by rewrite app_nil_r).
  destruct (C106_unambiguous _ _ _ _ _ _ Hd Hw E') as [-> _]. exact H.
Qed.

(** ** Types that cannot be confused *)
(** No value of the first type is ever read as one of the second: they are written with different kinds of words; or are
    integers of disjoint ranges; or structs of which the second has a field, not an option, that the first does not have,
    or they have a field of the same name whose types are such; or tuples of different lengths, or with such types at the
    same place; or the second is an option of such a type (and the first has no nil); or they are enums of which every
    variant they have in common carries such types; or an enum and a struct with a field, not an option, that no variant
    is named after; or a struct that has not exactly one field, or one that no variant is named after, and an enum; or a
    tuple and a struct, like two tuples; or a list and a tuple, or a tuple and a list, that have such types at some place;
    or a tuple or struct that is not empty, and one without content; or a struct and a map whose keys are no texts, or
    whose values are not like one of the fields. *)
Inductive apart : ty -> ty -> Prop :=
| ap_kinds t t' : (forall k, k ∈ written_as t -> k ∉ read_as t') -> apart t t'
| ap_range lo hi lo' hi' : (hi < lo' \/ hi' < lo)%Z -> apart (TInt lo hi) (TInt lo' hi')
| ap_missing fs fs' n t' : (n, t') ∈ fs' -> n ∉ map fst fs -> (forall u, t' <> TOpt u) -> apart (TStruct fs) (TStruct fs')
| ap_field fs fs' n t t' : (n, t) ∈ fs -> (n, t') ∈ fs' -> apart t t' -> apart (TStruct fs) (TStruct fs')
| ap_length ts ts' : length ts <> length ts' -> apart (TTup ts) (TTup ts')
| ap_place ts ts' i t t' : ts !! i = Some t -> ts' !! i = Some t' -> apart t t' -> apart (TTup ts) (TTup ts')
| ap_option t t' : KNil ∉ written_as t -> apart t t' -> apart t (TOpt t')
| ap_enum vs vs' :
    (forall n, (n, None) ∈ vs -> (n, None) ∉ vs') ->
    (forall n t, (n, Some t) ∈ vs -> (n, None) ∈ vs' -> KNil ∉ written_as t) ->
    (forall n t t', (n, Some t) ∈ vs -> (n, Some t') ∈ vs' -> apart t t') -> apart (TEnum vs) (TEnum vs')
| ap_enum_struct vs fs' n t' : (n, t') ∈ fs' -> n ∉ map fst vs -> (forall u, t' <> TOpt u) -> apart (TEnum vs) (TStruct fs')
| ap_struct_enum fs vs' : (length fs <> 1%nat \/ exists n, n ∈ map fst fs /\ n ∉ map fst vs') -> apart (TStruct fs) (TEnum vs')
| ap_tuple_struct ts fs' : length ts <> length fs' -> apart (TTup ts) (TStruct fs')
| ap_tuple_field ts fs' i t n t' : ts !! i = Some t -> fs' !! i = Some (n, t') -> apart t t' -> apart (TTup ts) (TStruct fs')
| ap_seq_tuple t ts' i t' : ts' !! i = Some t' -> apart t t' -> apart (TSeq t) (TTup ts')
| ap_tuple_seq ts i t t' : ts !! i = Some t -> apart t t' -> apart (TTup ts) (TSeq t')
| ap_tuple_unit ts : ts <> [] -> apart (TTup ts) TUnitStruct
| ap_unit_tuple ts' : ts' <> [] -> apart TUnitStruct (TTup ts')
| ap_unit_struct fs' : fs' <> [] -> apart TUnitStruct (TStruct fs')
| ap_struct_keys fs k v : fs <> [] -> apart TStr k -> apart (TStruct fs) (TMap k v)
| ap_struct_map fs n t k v : (n, t) ∈ fs -> apart t v -> apart (TStruct fs) (TMap k v).
Lemma not_nil t d : has_type t d -> KNil ∉ written_as t -> to_mp d <> PNil.
Proof. intros Ht Hn E. apply Hn. pose proof (written_kind d t Ht) as H. by rewrite E in H. Qed.
Lemma fields_at fs l n t : fields_typed fs l -> (n, t) ∈ fs -> exists i d, l !! i = Some (n, d) /\ has_type t d.
Proof.
  intros H Hin. revert l H. induction fs as [|[m u] fs IH]; intros [|[m' d] l] H; try done; [by apply elem_of_nil in Hin|].
  destruct H as (<- & Hd & H). apply elem_of_cons in Hin as [[= <- <-]|Hin]; [by exists 0%nat, d|].
  destruct (IH Hin l H) as (i & d' & E & H'). by exists (Datatypes.S i), d'.
Qed.
Lemma tuple_at ts l i t : tuple_typed ts l -> ts !! i = Some t -> exists d, l !! i = Some d /\ has_type t d.
Proof.
  revert l i. induction ts as [|u ts IH]; intros [|d l] [|i] H E; try done; destruct H as [Hd H]; [|by apply (IH l i)].
  injection E as <-. by exists d.
Qed.
Lemma tuple_len ts l : tuple_typed ts l -> length ts = length l.
Proof. revert l. induction ts as [|u ts IH]; intros [|d l] H; try done. destruct H as [Hd H]. cbn. f_equal. by apply IH. Qed.
Lemma read_tuple_len ts l r : read_tuple ts l = Some r -> length ts = length l.
Proof.
  revert l r. induction ts as [|u ts IH]; intros [|m l] r; cbn [read_tuple]; try done. destruct (of_mp u m); [|done]. fold read_tuple.
  destruct (read_tuple ts l) eqn:E; [|done]. intros _. cbn. f_equal. by eapply IH.
Qed.
Lemma read_tuple_at ts l r i t m : read_tuple ts l = Some r -> ts !! i = Some t -> l !! i = Some m -> exists d, of_mp t m = Some d.
Proof.
  revert l r i. induction ts as [|u ts IH]; intros [|x l] r [|i] H E E'; try done; cbn [read_tuple] in H.
  - injection E as ->. injection E' as ->. destruct (of_mp t m) eqn:Em; [by eexists|done].
  - destruct (of_mp u x); [|done]. destruct (read_tuple ts l) eqn:El; [|done]. by apply (IH l l0 i).
Qed.
Lemma distinct_field fs n t : distinct_names (TStruct fs) -> (n, t) ∈ fs -> distinct_names t.
Proof.
  intros [_ H]. induction fs as [|[m u] fs IH]; [by intros ?%elem_of_nil|]. destruct H as [H1 H2]. intros Hin. apply elem_of_cons in Hin as [[= <- <-]|Hin]; [done|by apply IH].
Qed.
Lemma distinct_place ts i t : distinct_names (TTup ts) -> ts !! i = Some t -> distinct_names t.
Proof. revert i. induction ts as [|u ts IH]; intros [|i] H E; try done; destruct H as [H1 H2]; [by injection E as <-|by apply (IH i)]. Qed.
Lemma distinct_variant vs n t : distinct_names (TEnum vs) -> (n, Some t) ∈ vs -> distinct_names t.
Proof.
  intros [_ H]. induction vs as [|[m u] fs IH]; [by intros ?%elem_of_nil|]. destruct H as [H1 H2]. intros Hin. apply elem_of_cons in Hin as [[= <- <-]|Hin]; [done|by apply IH].
Qed.
Lemma read_fields_len fs l r : read_fields_arr fs l = Some r -> length fs = length l.
Proof.
  revert l r. induction fs as [|[n u] fs IH]; intros [|m l] r; cbn [read_fields_arr]; try done. destruct (of_mp u m); [|done]. fold read_fields_arr.
  destruct (read_fields_arr fs l) eqn:E; [|done]. intros _. cbn. f_equal. by eapply IH.
Qed.
Lemma read_fields_at fs l r i n t m : read_fields_arr fs l = Some r -> fs !! i = Some (n, t) -> l !! i = Some m -> exists d, of_mp t m = Some d.
Proof.
  revert l r i. induction fs as [|[n' u] fs IH]; intros [|x l] r [|i] H E E'; try done; cbn [read_fields_arr] in H.
  - injection E as -> ->. injection E' as ->. destruct (of_mp t m) eqn:Em; [by eexists|done].
  - destruct (of_mp u x); [|done]. destruct (read_fields_arr fs l) eqn:El; [|done]. by apply (IH l l0 i).
Qed.
Lemma mapped_at {A B} (f : A -> B) (l : list A) i x : l !! i = Some x -> map f l !! i = Some (f x).
Proof. intros H. change ((f <$> l) !! i = Some (f x)). by rewrite list_lookup_fmap, H. Qed.
Lemma mapM_at {A B} (f : A -> option B) l r i x : mapM f l = Some r -> l !! i = Some x -> exists y, f x = Some y.
Proof.
  revert r i. induction l as [|a l IH]; intros r [|i] H E; try done; cbn in H.
  - injection E as ->. destruct (f x); [by eexists|done].
  - destruct (f a); [|done]. cbn in H. destruct (mapM f l) eqn:El; [|done]. by apply (IH l0 i).
Qed.
Lemma names_read (fs : list (string * ty)) (r : list (string * datum)) i n t : map fst r = map fst fs -> fs !! i = Some (n, t) -> exists x, r !! i = Some (n, x).
Proof.
  intros Hf Hi. assert (map fst r !! i = Some n) as Hri by (rewrite Hf; change (map fst fs) with (fst <$> fs); by rewrite list_lookup_fmap, Hi).
  change (map fst r) with (fst <$> r) in Hri. rewrite list_lookup_fmap in Hri. destruct (r !! i) as [[a x]|]; [|done]. injection Hri as ->. by exists x.
Qed.
Lemma not_read t t' : apart t t' -> forall d d', distinct_names t' -> has_type t d -> of_mp t' (to_mp d) = Some d' -> False.
Proof.
  induction 1 as [t t' Hk|lo hi lo' hi' Hr|fs fs' n t' Hin Hout Hno|fs fs' n t t' Hin Hin' _ IH|ts ts' Hl|ts ts' i t t' E E' _ IH|t t' Hn _ IH|vs vs' H1 H2 _ IH|vs fs' n t' Hin Hout Hno|fs vs' Hf
    |ts fs' Hl|ts fs' i t n t' E E' _ IH|t ts' i t' E' _ IH|ts i t t' E _ IH|ts Hne|ts' Hne|fs' Hne|fs k v Hne _ IH|fs n t k v Hin _ IH];
    intros d d' Hd Ht Hof.
  - exact (Hk _ (written_kind d t Ht) (read_kind t' _ _ Hof)).
  - destruct d; try done. cbn in Ht, Hof. destruct (_ && _) eqn:E; [|done]. lia.
  - destruct d as [| | | | | | | | | |l|]; try done. cbn [to_mp] in Hof. apply record_spec in Hof as (r & -> & Hk & Hf & Hat).
    apply elem_of_list_lookup in Hin as [i Hi].
    destruct (names_read fs' r i n t' Hf Hi) as [x Hx].
    destruct (Hat i n t' x Hi Hx) as [(j & k & m & Hj & Hnm & _)|(_ & [u Hu] & _)]; [|by apply (Hno u)].
    apply elem_of_list_lookup_2, elem_of_list_In, in_map_iff in Hj as ([a y] & [= <- <-] & Hin).
    destruct Hnm as [[= ->]|]; [|done]. apply Hout. rewrite <- (fields_names fs l Ht). by apply elem_of_list_In, (in_map fst l (n, y)).
  - destruct d as [| | | | | | | | | |l|]; try done. cbn [to_mp] in Hof. apply record_spec in Hof as (r & -> & Hk & Hf & Hat).
    pose proof (distinct_field fs' n t' Hd Hin') as Hdt.
    apply elem_of_list_lookup in Hin' as [i Hi].
    destruct (names_read fs' r i n t' Hf Hi) as [x Hx].
    destruct (fields_at fs l n t Ht Hin) as (j0 & e & Hj0 & He).
    assert (map (fun f => (PStr (fst f), to_mp (snd f))) l !! j0 = Some (PStr n, to_mp e)) as Hw.
    { change (((fun f : string * datum => (PStr (fst f), to_mp (snd f))) <$> l) !! j0 = Some (PStr n, to_mp e)). by rewrite list_lookup_fmap, Hj0. }
    destruct (Hat i n t' x Hi Hx) as [(j & k & m & Hj & Hnm & Hm & Hu)|(Hno & _)]; [|by apply (Hno j0 _ _ Hw); left].
    assert (j0 = j) as -> by (apply (Hu _ _ _ Hw); by left). rewrite Hw in Hj. injection Hj as <- <-. by apply (IH e x).
  - destruct d as [| | | | | | | |l| | |]; try done; cbn [to_mp of_mp] in Hof. fold read_tuple in Hof. fold (tuple_typed ts l) in Ht.
    destruct (read_tuple ts' (map to_mp l)) as [r|] eqn:E; [|done]. apply read_tuple_len in E. apply tuple_len in Ht. rewrite map_length in E. congruence.
  - destruct d as [| | | | | | | |l| | |]; try done; cbn [to_mp of_mp] in Hof. fold read_tuple in Hof. fold (tuple_typed ts l) in Ht.
    destruct (read_tuple ts' (map to_mp l)) as [r|] eqn:Er; [|done]. destruct (tuple_at ts l i t Ht E) as (e & He & Het).
    destruct (read_tuple_at ts' (map to_mp l) r i t' (to_mp e) Er E') as [x Hx].
    { change ((to_mp <$> l) !! i = Some (to_mp e)). by rewrite list_lookup_fmap, He. }
    apply (IH e x); [by eapply distinct_place|done|done].
  - rewrite of_opt in Hof by (by eapply not_nil). destruct (of_mp t' (to_mp d)) as [x|] eqn:E; [|done]. by apply (IH d x).
  - destruct d as [| | | | | | | | | | |n o]; try done. cbn in Ht. fold (variant_typed n o vs) in Ht. apply variant_in in Ht as (ot & Hin & Hot).
    pose proof Hd as [Hnd _]. apply (enum_spec vs' _ _ Hnd) in Hof as (i & n' & ot' & Hi & Hv). apply elem_of_list_lookup_2 in Hi.
    destruct o as [e|], ot as [t|]; try done; cbn [to_mp] in Hv.
    + destruct Hv as [([?|?] & _)|(k & x & [= <- <-] & Hnm & Hx)]; [done|done|]. destruct Hnm as [[= <-]|]; [|done].
      destruct ot' as [t'|].
      * destruct Hx as (y & Hy & _). apply (IH n t t' Hin Hi e y); [by eapply distinct_variant|done|done].
      * destruct Hx as [Hx _]. exact (not_nil t e Hot (H2 n t Hin Hi) Hx).
    + destruct Hv as [(Hnm & -> & _)|(k & x & [=] & _)]. destruct Hnm as [[= <-]|]; [|done]. exact (H1 n Hin Hi).
  - destruct d as [| | | | | | | | | | |v o]; try done. cbn in Ht. fold (variant_typed v o vs) in Ht. apply variant_in in Ht as (ot & Hv & _).
    destruct o as [e|]; cbn [to_mp] in Hof; [|done]. apply record_spec in Hof as (r & -> & Hk & Hf & Hat).
    apply elem_of_list_lookup in Hin as [i Hi]. destruct (names_read fs' r i n t' Hf Hi) as [x Hx].
    destruct (Hat i n t' x Hi Hx) as [(j & k & m & Hj & Hnm & _)|(_ & [u Hu] & _)]; [|by apply (Hno u)].
    destruct j as [|j]; [|done]. injection Hj as <- <-. destruct Hnm as [[= <-]|]; [|done]. apply Hout. by apply elem_of_list_In, (in_map fst vs (v, ot)), elem_of_list_In.
  - destruct d as [| | | | | | | | | |l|]; try done. cbn [to_mp] in Hof. pose proof Hd as [Hnd _]. apply (enum_spec vs' _ _ Hnd) in Hof as (i & n & ot & Hi & Hv).
    pose proof (fields_names fs l Ht) as Hnames. apply elem_of_list_lookup_2 in Hi.
    destruct Hv as [([?|?] & _)|(k & x & Hk & Hnm & _)]; [done|done|].
    destruct l as [|[a e] [|]]; try done. injection Hk as <- <-. destruct Hnm as [[= ->]|]; [|done]. destruct fs as [|[b u] [|]]; try done. injection Hnames as <-.
    destruct Hf as [Hf|(n' & Hn & Hout)]; [by apply Hf|]. apply elem_of_list_singleton in Hn as ->. apply Hout. by apply elem_of_list_In, (in_map fst vs' (n, ot)), elem_of_list_In.
  - destruct d as [| | | | | | | |l| | |]; try done. cbn [to_mp of_mp] in Hof. fold read_fields_arr in Hof. fold (tuple_typed ts l) in Ht.
    destruct (read_fields_arr fs' (map to_mp l)) as [r|] eqn:E; [|done]. apply read_fields_len in E. apply tuple_len in Ht. rewrite map_length in E. congruence.
  - destruct d as [| | | | | | | |l| | |]; try done. cbn [to_mp of_mp] in Hof. fold read_fields_arr in Hof. fold (tuple_typed ts l) in Ht.
    destruct (read_fields_arr fs' (map to_mp l)) as [r|] eqn:Er; [|done]. destruct (tuple_at ts l i t Ht E) as (e & He & Het).
    destruct (read_fields_at fs' (map to_mp l) r i n t' (to_mp e) Er E') as [x Hx]; [by apply mapped_at|].
    apply (IH e x); [|done|done]. eapply distinct_field; [exact Hd|by eapply elem_of_list_lookup_2].
  - destruct d as [| | | | | | | |l| | |]; try done. cbn [to_mp of_mp] in Hof. fold read_tuple in Hof. cbn in Ht.
    destruct (read_tuple ts' (map to_mp l)) as [r|] eqn:Er; [|done]. pose proof (read_tuple_len _ _ _ Er) as Hl. rewrite map_length in Hl.
    destruct (lookup_lt_is_Some_2 l i) as [e He]; [rewrite <- Hl; by eapply lookup_lt_Some|].
    destruct (read_tuple_at ts' (map to_mp l) r i t' (to_mp e) Er E') as [x Hx]; [by apply mapped_at|].
    apply (IH e x); [by eapply distinct_place| |done]. rewrite List.Forall_forall in Ht. apply Ht. by apply elem_of_list_In, (elem_of_list_lookup_2 _ i).
  - destruct d as [| | | | | | | |l| | |]; try done. cbn [to_mp of_mp] in Hof. fold (tuple_typed ts l) in Ht.
    destruct (tuple_at ts l i t Ht E) as (e & He & Het). destruct (mapM (of_mp t') (map to_mp l)) as [r|] eqn:Er; [|done].
    destruct (mapM_at _ _ _ i (to_mp e) Er) as [x Hx]; [by apply mapped_at|]. by apply (IH e x).
  - destruct d as [| | | | | | | |l| | |]; try done. fold (tuple_typed ts l) in Ht. apply tuple_len in Ht. destruct ts; [done|]. by destruct l.
  - destruct d; try done. by destruct ts'.
  - destruct d; try done. cbn [to_mp of_mp] in Hof. destruct fs' as [|[n t] fs']; done.
  - destruct d as [| | | | | | | | | |l|]; try done. cbn [to_mp of_mp] in Hof. destruct fs as [|[n t] fs]; [done|]. destruct l as [|[m e] l]; [done|].
    destruct (mapM _ _) as [r|] eqn:Er; [|done]. destruct (mapM_at _ _ _ 0%nat _ Er eq_refl) as [x Hx]. cbn [fst snd] in Hx.
    destruct (of_mp k (PStr m)) as [y|] eqn:Ek; [|done]. apply (IH (Dstr m) y); [by destruct Hd|done|exact Ek].
  - destruct d as [| | | | | | | | | |l|]; try done. cbn [to_mp of_mp] in Hof. destruct (fields_at fs l n t Ht Hin) as (j & e & Hj & He).
    destruct (mapM _ _) as [r|] eqn:Er; [|done]. destruct (mapM_at _ _ _ j (PStr n, to_mp e) Er) as [x Hx]; [by apply (mapped_at (fun f => (PStr (fst f), to_mp (snd f))) l j (n, e))|].
    cbn [fst snd] in Hx. destruct (of_mp k (PStr n)); [|done]. destruct (of_mp v (to_mp e)) as [y|] eqn:Ev; [|done]. apply (IH e y); [by destruct Hd|done|exact Ev].
Qed.

(** ** C107 *)
(** The bytes of a value of a type that cannot be confused with [t] are never read as one of [t]. *)
Theorem C107_never_read : forall t t' limit d, apart t t' -> distinct_names t' -> has_type t d -> sizes_ok d -> deserialize limit t' (serialize d) = None.
Proof.
  intros t t' limit d Ha Hd Ht Hs. destruct (deserialize limit t' (serialize d)) as [x|] eqn:E; [|done].
  apply read_back in E; [|done]. destruct (not_read t t' Ha d x Hd Ht E).
Qed.
Print Assumptions C107_never_read.
(** The conditions of C85 and C86 on a program's types of messages, in terms of these types only: no type but [T] can be
    confused with [T], *)
Definition not_confused (tys : N -> option ty) (T : N) : Prop :=
  forall t, tys T = Some t -> distinct_names t /\ forall T' t', T' <> T -> tys T' = Some t' -> apart t' t.
Theorem C107_told_apart : forall limit tys T, not_confused tys T -> told_apart (rmp limit tys) T.
Proof.
  intros limit tys T H v Hv. destruct (rmp_ser_cases limit tys v) as [->|(t' & d & E' & Ht & Hs & ->)]; cbn; destruct (tys T) as [t|] eqn:E; try done.
  - by rewrite read_nothing.
  - destruct (H t E) as [Hd Ha]. by rewrite (C107_never_read t' t limit d (Ha _ t' Hv E') Hd Ht Hs).
Qed.
Print Assumptions C107_told_apart.
(** and the messages are values of [T] of a possible size, with no Some of nothing in them (C100). *)
Definition message (limit : nat) (t : ty) (d : datum) : Prop := has_type t d /\ sizes_ok d /\ (levels d <= limit)%nat /\ travelled d = d.
Theorem C107_comes_back : forall limit tys T t d, tys T = Some t -> distinct_names t -> message limit t d ->
  comes_back (rmp limit tys) T (Val T (number d)).
Proof.
  intros limit tys T t d E Hd (Ht & Hs & Hl & Htr). unfold comes_back. rewrite (rmp_ser limit tys T t d E Ht Hs). cbn. rewrite E.
  rewrite (C100_what_arrives t d limit Ht Hd Hs Hl). by rewrite Htr.
Qed.
Print Assumptions C107_comes_back.
(** No bytes at all are read as two different types if no kind of word is. *)
Theorem C107_unambiguous : forall limit tys,
  (forall T T' t t', T <> T' -> tys T = Some t -> tys T' = Some t' -> forall k, k ∈ read_as t -> k ∉ read_as t') -> serde_unambiguous (rmp limit tys).
Proof.
  intros limit tys H T T' b v v' E E'. destruct (decide (T = T')) as [|Hne]; [done|]. exfalso. cbn in E, E'.
  destruct (tys T) as [t|] eqn:Et; [|done]. destruct (tys T') as [t'|] eqn:Et'; [|done]. unfold deserialize in E, E'.
  destruct (r_mp limit b) as [[m rest]|]; [|done]. destruct (of_mp t m) as [d|] eqn:Ed; [|done]. destruct (of_mp t' m) as [d'|] eqn:Ed'; [|done].
  exact (H T T' t t' Hne Et Et' _ (read_kind t m d Ed) (read_kind t' m d' Ed')).
Qed.
Print Assumptions C107_unambiguous.

(** The values among the messages in a mailbox. *)
Definition contents (vs : list value) : list datum := omap (fun v => value_at (v_data v)) vs.
Definition as_values (T : N) (ds : list datum) : list value := (fun d => Val T (number d)) <$> ds.
Lemma contents_values T ds : contents (as_values T ds) = ds.
Proof. unfold contents, as_values. induction ds as [|d ds IH]; [done|]. cbn. rewrite value_at_number. by rewrite IH. Qed.
Lemma all_back limit tys T t ds : tys T = Some t -> not_confused tys T -> Forall (message limit t) ds -> Forall (comes_back (rmp limit tys) T) (as_values T ds).
Proof.
  intros E Hn H. destruct (Hn t E) as [Hd _]. unfold as_values. induction H as [|d ds Hx _ IH]; [constructor|]. constructor; [|exact IH].
  by eapply C107_comes_back.
Qed.
(** So, of C85 and C86, for any program: if its other types of messages cannot be confused with [T], the values of [T] that
    a process of node A sends to a process of node B arrive in the order in which they were sent, *)
Theorem C107_across_nodes :
  forall limit tys T t (ds : list datum) q nm ad id p sender sA rs sA' o may t0 h pending w tr st nd sup sB sB',
    let S := rmp limit tys in
    tys T = Some t -> not_confused tys T -> Forall (message limit t) ds ->
    reach (calls_of S (other_types S T)) (Sys world0 []) sA -> results sA rs -> linked nm ad id p sender (s_world sA) ->
    in_turn S (fun c => other_types S T c /\ leaves_record nm ad p Connected c) sA ((fun v => CSend (DsOne (DPid (PRemote q id))) v) <$> as_values T ds) sA' ->
    runs o may (fresh t0 h pending) tr st ->
    Forall sendable (pending w ++ handed w tr) ->
    pending w ++ handed w tr `prefix_of` default [] (w_out (s_world sA') !! sender) ->
    reach (calls_of S (other_types S T)) (Sys world0 []) sB -> there q (s_world sB) ->
    in_turn S (other_types S T) sB (CFrame nd sup <$> (snd <$> got (peer w) tr)) sB' ->
    contents (mail S T q (w_log (s_world sB'))) `prefix_of` ds.
Proof.
  intros limit tys T t ds q nm ad id p sender sA rs sA' o may t0 h pending w tr st nd sup sB sB' S E Hn Hds HrA Hres Hlink HtA Hrun Hsend Hhand HrB HqB HtB.
  rewrite <- (contents_values T ds). apply omap_prefix.
  exact (C86_across_nodes S T q nm ad id p sender sA rs (as_values T ds) sA' o may t0 h pending w tr st nd sup sB sB' (C107_typed limit tys)
    (C107_told_apart limit tys T Hn) HrA Hres Hlink (all_back limit tys T t ds E Hn Hds) HtA Hrun Hsend Hhand HrB HqB HtB).
Qed.
Print Assumptions C107_across_nodes.
(** and all of them if the connection lasts and both processes do. *)
Theorem C107_nothing_lost :
  forall limit tys T t (ds : list datum) q nm ad id p sender sA rs sA' o may t0 h pending w tr st nd sup sB sB',
    let S := rmp limit tys in
    tys T = Some t -> not_confused tys T -> Forall (message limit t) ds ->
    reach (calls_of S (other_types S T)) (Sys world0 []) sA -> results sA rs -> linked nm ad id p sender (s_world sA) ->
    in_turn S (fun c => other_types S T c /\ leaves_record nm ad p Connected c) sA ((fun v => CSend (DsOne (DPid (PRemote q id))) v) <$> as_values T ds) sA' ->
    is_Some (w_regs (s_world sA') !! sender) ->
    runs o may (fresh t0 h pending) tr st ->
    Forall sendable (pending w ++ handed w tr) ->
    pending w ++ handed w tr = default [] (w_out (s_world sA') !! sender) ->
    sd_sending (get w st) = true -> sd_queue (get w st) = [] -> sd_out (get w st) = [] -> fst (decode (sd_buf (get (peer w) st))) = NeedMore ->
    reach (calls_of S (other_types S T)) (Sys world0 []) sB -> there q (s_world sB) ->
    in_turn S (other_types S T) sB (CFrame nd sup <$> (snd <$> got (peer w) tr)) sB' -> there q (s_world sB') ->
    contents (mail S T q (w_log (s_world sB'))) = ds.
Proof.
  intros limit tys T t ds q nm ad id p sender sA rs sA' o may t0 h pending w tr st nd sup sB sB' S E Hn Hds HrA Hres Hlink HtA Hsnd Hrun Hsend Hhand Hse Hqu Hou Hde HrB HqB HtB HqB'.
  rewrite <- (contents_values T ds). f_equal.
  exact (C86_nothing_lost S T q nm ad id p sender sA rs (as_values T ds) sA' o may t0 h pending w tr st nd sup sB sB' (C107_typed limit tys)
    (C107_told_apart limit tys T Hn) HrA Hres Hlink (all_back limit tys T t ds E Hn Hds) HtA Hsnd Hrun Hsend Hhand Hse Hqu Hou Hde HrB HqB HtB HqB').
Qed.
Print Assumptions C107_nothing_lost.
(** The same between processes of one node and from connections. *)
Theorem C107_in_order :
  forall limit tys T t q s cs s',
    let S := rmp limit tys in
    tys T = Some t -> not_confused tys T ->
    reach (calls_of S (other_types S T)) (Sys world0 []) s -> there q (s_world s) ->
    in_turn S (other_types S T) s cs s' -> Forall (fun c => other_types S T c \/ is_Some (message_for S T q c)) cs -> there q (s_world s') ->
    mail S T q (w_log (s_world s')) = omap (message_for S T q) cs.
Proof.
  intros limit tys T t q s cs s' S E Hn. apply (C85_all_arrive S T q s cs s'); [apply C107_typed|by apply C107_told_apart].
Qed.
Print Assumptions C107_in_order.

(** A program with three types of messages: 7, an order for a number of items; 8, a command; 9, an order that has an
    address, too. *)
Definition order_ty : ty := TStruct [("item"%string, TStr); ("count"%string, u8_ty)].
Definition command_ty : ty := TEnum [("Stop"%string, None); ("Go"%string, Some u8_ty)].
Definition parcel_ty : ty := TStruct [("item"%string, TStr); ("to"%string, TStr)].
Definition shop (T : N) : option ty := match T with 7 => Some order_ty | 8 => Some command_ty | 9 => Some parcel_ty | _ => None end.
Definition order (item : string) (count : Z) : datum := Drec [("item"%string, Dstr item); ("count"%string, Dint count)].
Example C107_example_types : not_confused shop 7 /\ not_confused shop 8 /\ not_confused shop 9 /\ Forall (message 1024 order_ty) [order "tea" 2; order "milk" 255].
Proof.
  assert (forall T' t', shop T' = Some t' -> (T' = 7 /\ t' = order_ty) \/ (T' = 8 /\ t' = command_ty) \/ (T' = 9 /\ t' = parcel_ty)) as Hs.
  { intros T' t' H. unfold shop in H. repeat case_match; try discriminate; injection H as <-; auto. }
  assert (distinct_names order_ty /\ distinct_names command_ty /\ distinct_names parcel_ty) as (H7 & H8 & H9).
  { split_and!; (split; [apply (bool_decide_unpack _); vm_compute; exact I|vm_compute; tauto]). }
  assert (forall n fs vs, bool_decide (n ∉ map fst vs) = true -> (n, u8_ty) ∈ fs -> apart (TEnum vs) (TStruct fs)) as Hes.
  { intros n fs vs Hn Hin. apply (ap_enum_struct vs fs n u8_ty Hin); [by apply (bool_decide_eq_true _)|done]. }
  split; [|split; [|split]].
  - intros t [= <-]. split; [done|]. intros T' t' Hne E. destruct (Hs T' t' E) as [[-> ->]|[[-> ->]|[-> ->]]]; [done| |].
    + apply (Hes "count"%string); [vm_compute; reflexivity|by right; left].
    + apply (ap_missing _ _ "count" u8_ty); [by right; left|apply (bool_decide_unpack _); vm_compute; exact I|done].
  - intros t [= <-]. split; [done|]. intros T' t' Hne E. destruct (Hs T' t' E) as [[-> ->]|[[-> ->]|[-> ->]]]; [|done|]; apply ap_struct_enum; by left.
  - intros t [= <-]. split; [done|]. intros T' t' Hne E. destruct (Hs T' t' E) as [[-> ->]|[[-> ->]|[-> ->]]]; [| |done].
    + apply (ap_missing _ _ "to" TStr); [by right; left|apply (bool_decide_unpack _); vm_compute; exact I|done].
    + apply (ap_enum_struct _ _ "to" TStr); [by right; left|apply (bool_decide_unpack _); vm_compute; exact I|done].
  - repeat constructor; vm_compute; auto; try discriminate.
Qed.
(** Process 1 of A orders tea and milk of process 1 of B; a command and an exit signal of others are under way at the same
    time.  (The bytes are MessagePack's.) *)
Definition tea : value := Val 7 (number (order "tea" 2)).
Definition milk : value := Val 7 (number (order "milk" 255)).
Definition tea_bytes : bytes := map ascii_of_N [0x82; 0xa4; 105; 116; 101; 109; 0xa3; 116; 101; 97; 0xa5; 99; 111; 117; 110; 116; 2].
Definition ordered : list frame := [FSend [TPid 1] tea_bytes; FExit 9 1 RKill; FSend [TPid 1] (serialize (order "milk" 255))].
Definition SR : serde := rmp 1024 shop.
Example C107_example : exists sA rs sA' tr st sB rsB sB',
  (reach (calls_of SR (other_types SR 7)) (Sys world0 []) sA /\ results sA rs /\
   in_turn SR (fun c => other_types SR 7 c /\ leaves_record "a" (SA4 1 5) (PLocal 2) Connected c) sA
     [CSend (DsOne (DPid (PRemote 1 1))) tea; CSend (DsOne (DPid (PRemote 1 1))) milk] sA' /\
   (linked "a" (SA4 1 5) 1 (PLocal 2) 3 (s_world sA) /\ is_Some (w_regs (s_world sA') !! 3%N) /\ default [] (w_out (s_world sA') !! 3%N) = ordered)) /\
  (runs defaults free (fresh 0 (fun _ => 0%N) (fun _ => [])) tr st /\
   (handed A tr = ordered /\ sd_sending (get A st) = true /\ sd_queue (get A st) = [] /\ sd_out (get A st) = [] /\ fst (decode (sd_buf (get B st))) = NeedMore /\
    snd <$> got B tr = ordered)) /\
  (reach (calls_of SR (other_types SR 7)) (Sys world0 []) sB /\ results sB rsB /\
   in_turn SR (other_types SR 7) sB (CFrame nodeA (PLocal 2) <$> ordered) sB' /\
   (there 1 (s_world sB) /\ there 1 (s_world sB') /\ contents (mail SR 7 1 (w_log (s_world sB'))) = [order "tea" 2; order "milk" 255])).
Proof.
  destruct (tplay_example SR (other_types SR 7) (fun c => other_types SR 7 c /\ leaves_record "a" (SA4 1 5) (PLocal 2) Connected c)
    (fun w w' => linked "a" (SA4 1 5) 1 (PLocal 2) 3 w /\ is_Some (w_regs w' !! 3%N) /\ default [] (w_out w' !! 3%N) = ordered)
    [CSpawn 0 false false; CConnect nodeA; CSupervise 2 "a" (SA4 1 5)]
    [TMine (CSend (DsOne (DPid (PRemote 1 1))) tea); TTheirs (CExit 1 (PRemote 9 1) RKill); TMine (CSend (DsOne (DPid (PRemote 1 1))) milk)]) as (sA & rs & sA' & HA).
  { repeat constructor. } { repeat constructor. }
  { unfold linked. vm_compute. split_and!; try reflexivity; [eexists; split_and!; reflexivity|eexists; reflexivity..]. }
  destruct (hplay_example defaults (fun _ _ _ => true) free (fresh 0 (fun _ => 0%N) (fun _ => []))
    [MSend A; MHand A (FSend [TPid 1] tea_bytes); MSend A; MRead B 9; MHand A (FExit 9 1 RKill); MHand A (FSend [TPid 1] (serialize (order "milk" 255))); MSend A; MSend A; MRead B 200; MFrame B; MFrame B; MFrame B]
    (fun tr st => handed A tr = ordered /\ sd_sending (get A st) = true /\ sd_queue (get A st) = [] /\ sd_out (get A st) = [] /\ fst (decode (sd_buf (get B st))) = NeedMore /\
    snd <$> got B tr = ordered)) as (tr & st & HT); [done|vm_compute; split_and!; reflexivity|].
  destruct (tplay_example SR (other_types SR 7) (other_types SR 7)
    (fun w w' => there 1 w /\ there 1 w' /\ contents (mail SR 7 1 (w_log w')) = [order "tea" 2; order "milk" 255])
    [CSpawn 0 false false; CSpawn 0 false false]
    ([TMine (CFrame nodeA (PLocal 2) (FSend [TPid 1] tea_bytes)); TMine (CFrame nodeA (PLocal 2) (FExit 9 1 RKill)); TTheirs (CSend (DsOne (DPid (PLocal 1))) (Val 8 (number (Denum "Stop" None))));
      TMine (CFrame nodeA (PLocal 2) (FSend [TPid 1] (serialize (order "milk" 255))))])) as (sB & rsB & sB' & HB).
  { repeat constructor. } { repeat constructor; vm_compute; discriminate. }
  { unfold there. vm_compute. split_and!; [eexists; reflexivity..|reflexivity]. }
  exists sA, rs, sA', tr, st, sB, rsB, sB'. exact (conj HA (conj HT HB)).
Qed.
