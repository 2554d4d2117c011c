(** Property theorems C100, C101: the values of messages between nodes (serialize.rs), and C11, C13: the bytes of
    pids, references and nodes. *)
From stdpp Require Import base list numbers strings.
From Coq Require Import Ascii NArith ZArith Lia ZifyNat ZifyN ZifyBool.
From Verif Require Import Types Codec CodecProofs Prog World ProcApi NodeApi Wire MsgPack MsgPackSpec MsgPackProofs.
Local Open Scope N_scope.

(** ** C100 *)
(** What arrives: the value itself, except that Some of nothing is None. *)
Theorem C100_what_arrives :
  forall t d limit, has_type t d -> distinct_names t -> sizes_ok d -> (levels d <= limit)%nat ->
    deserialize limit t (serialize d) = Some (travelled d).
Proof. exact arrives. Qed.
Print Assumptions C100_what_arrives.

Lemma something_not t d : has_type t d -> something t -> nothing d = false.
Proof. intros Ht Hs. destruct d as [| | | | | | |[]| | | |]; try done; destruct t; done. Qed.
Lemma travelled_same t : forall d, has_type t d -> no_some_nothing t -> travelled d = d.
Proof.
  induction t as [ | | |lo hi| | | |t IH|t IH|ts IH|k v IHk IHv|fs IH|vs IH] using ty_ind'; intros d Ht Hn; destruct d as [| |b|z|n|n|s|o|l|l|l|n o]; cbn in Ht; try done.
  - destruct o as [d|]; [|done]. destruct Hn as [Hs Hn]. cbn. rewrite (something_not t d Ht Hs). by rewrite (IH d Ht Hn).
  - cbn. f_equal. cbn in Hn. induction Ht as [|d l Hd Hl IHl]; [done|]. cbn. f_equal; auto.
  - cbn. f_equal. cbn in Hn. revert l Ht. induction ts as [|t ts IHts]; intros [|d l] Ht; try done. destruct Ht, Hn. inversion IH; subst. cbn. f_equal; auto.
  - cbn. f_equal. destruct Hn as [Hk Hv]. induction Ht as [|[a b] l [Ha Hb] Hl IHl]; [done|]. cbn in *. by rewrite IHk, IHv, IHl.
  - cbn. f_equal. cbn in Hn. revert l Ht. induction fs as [|[n t] fs IHfs]; intros [|[m d] l] Ht; try done. destruct Ht as (-> & Ht & Hts), Hn.
    inversion IH as [|? ? IH1 IH2]; subst. cbn in *. rewrite IH1 by done. f_equal. auto.
  - fold (variant_typed n o vs) in Ht. apply variant_in in Ht as (ot & Hin & Hot). destruct ot as [t|], o as [d|]; try done.
    cbn. do 2 f_equal. clear -IH Hin Hot Hn. cbn in Hn. induction vs as [|[m ot] vs IHvs]; [by apply elem_of_nil in Hin|].
    destruct Hn as [Hn Hns]. inversion IH as [|? ? IH1 IH2]; subst. apply elem_of_cons in Hin as [[= <- <-]|Hin]; [by apply IH1|]. exact (IHvs IH2 Hin Hns).
Qed.
(** A value of a type in which no option contains an option or the unit type arrives as it was sent. *)
Theorem C100_arrives_as_sent_partial :
  forall t d limit, no_some_nothing t -> has_type t d -> distinct_names t -> sizes_ok d -> (levels d <= limit)%nat ->
    deserialize limit t (serialize d) = Some d.
Proof. intros t d limit Hn Ht Hd Hs Hl. rewrite arrives by done. by rewrite (travelled_same t d). Qed.
Print Assumptions C100_arrives_as_sent_partial.

(** Any two different values of such a type are told apart by their bytes. *)
Theorem C100_bytes_tell_values_apart :
  forall t d d', no_some_nothing t -> distinct_names t -> has_type t d -> has_type t d' -> sizes_ok d -> sizes_ok d' ->
    serialize d = serialize d' -> d = d'.
Proof.
  intros t d d' Hn Hdn Ht Ht' Hs Hs' E.
  pose proof (C100_arrives_as_sent_partial t d (levels d `max` levels d') Hn Ht Hdn Hs (Nat.le_max_l _ _)) as H1.
  pose proof (C100_arrives_as_sent_partial t d' (levels d `max` levels d') Hn Ht' Hdn Hs' (Nat.le_max_r _ _)) as H2.
  rewrite E in H1. congruence.
Qed.
Print Assumptions C100_bytes_tell_values_apart.

(** C100 as stated, for every type: violated. *)
Definition C100_statement : Prop :=
  forall t d, has_type t d -> distinct_names t -> sizes_ok d -> (levels d <= 1024)%nat -> deserialize 1024 t (serialize d) = Some d.
Theorem C100_refuted : ~ C100_statement.
Proof.
  intros H. specialize (H (TOpt (TOpt TBool)) (Dopt (Some (Dopt None))) I I I). cbn in H. specialize (H ltac:(lia)). discriminate.
Qed.
Print Assumptions C100_refuted.
(** Option<Option<bool>>: Some(None) arrives as None; Option<()>: Some(()) does; Option<u8>: Some(5) arrives. *)
Example C100_example :
  deserialize 1024 (TOpt (TOpt TBool)) (serialize (Dopt (Some (Dopt None)))) = Some (Dopt None) /\
  deserialize 1024 (TOpt TUnit) (serialize (Dopt (Some Dunit))) = Some (Dopt None) /\
  deserialize 1024 (TOpt u8_ty) (serialize (Dopt (Some (Dint 5)))) = Some (Dopt (Some (Dint 5))) /\
  serialize (Drec [("a"%string, Dint 300); ("b"%string, Dopt None); ("c"%string, Dint (-7))])
    = map ascii_of_N [0x83; 0xa1; 97; 0xcd; 1; 44; 0xa1; 98; 0xc0; 0xa1; 99; 0xf9].
Proof. vm_compute. auto. Qed.

Lemma distinct_addr : distinct_names addr_ty.
Proof. split; [apply (bool_decide_unpack _); vm_compute; exact I|]. cbn. auto 40. Qed.
Lemma distinct_id : distinct_names id_ty.
Proof. split; [apply (bool_decide_unpack _); vm_compute; exact I|]. split; [|cbn; auto]. split; [exact I|]. split; [exact I|]. split; [exact distinct_addr|exact I]. Qed.

Lemma distinct_from : distinct_names from_ty.
Proof. split; [apply (bool_decide_unpack _); vm_compute; exact I|]. split; [exact distinct_id|]. split; [exact distinct_id|]. split; exact I. Qed.
(** The messages of the GenServer protocol, for a message type T. *)
Theorem C100_gen_server_messages :
  forall T d limit, no_some_nothing T -> distinct_names T -> has_type (gen_ty T) d -> sizes_ok d -> (levels d <= limit)%nat ->
    deserialize limit (gen_ty T) (serialize d) = Some d.
Proof.
  intros T d limit Hn Hd Ht Hs Hl. apply C100_arrives_as_sent_partial; auto.
  - cbn. auto 30.
  - unfold gen_ty. split; [apply (bool_decide_unpack _); vm_compute; exact I|]. split; [exact Hd|].
    split; [split; [exact distinct_from|]; split; [exact Hd|exact I]|].
    split; [|split; [split; [apply (bool_decide_unpack _); vm_compute; exact I|cbn; auto 10]|exact I]]. split; [exact distinct_id|]. split; [exact Hd|exact I].
Qed.
Print Assumptions C100_gen_server_messages.
Example C100_gen_server_example :
  let d := Denum "$gen_cast" (Some (Dint 5)) in has_type (gen_ty u8_ty) d /\ sizes_ok d /\ levels d = 2%nat /\
  deserialize 1024 (gen_ty u8_ty) (serialize d) = Some d.
Proof. vm_compute. repeat split; auto; try (by left); discriminate. Qed.

(** ** C101 *)
(** Two enums, the protocol messages of two servers for example: a variant is only ever received as the variant of
    the same name. *)
Theorem C101_same_variant :
  forall vs vs' d d' limit, has_type (TEnum vs) d -> sizes_ok d -> (levels d <= limit)%nat ->
    deserialize limit (TEnum vs') (serialize d) = Some d' ->
    exists n o o', d = Denum n o /\ d' = Denum n o' /\ n ∈ map fst vs /\ n ∈ map fst vs'.
Proof.
  intros vs vs' d d' limit Ht Hs Hl. unfold deserialize, serialize. rewrite <- (app_nil_r (e_mp (to_mp d))).
  rewrite read_mp; [|by apply to_mp_wf|pose proof (to_mp_depth d); lia].
  destruct d as [| | | | | | | | | | |n o]; try done. cbn in Ht. fold (variant_typed n o vs) in Ht.
  apply variant_in in Ht as (ot & Hin & _).
  assert (n ∈ map fst vs) as Hn by (by apply elem_of_list_In, (in_map fst vs (n, ot)), elem_of_list_In).
  destruct o as [d|]; cbn [to_mp].
  - change (read_variant (PStr n) (to_mp d) 0%Z vs' = Some d' -> exists n0 o o', Denum n (Some d) = Denum n0 o /\ d' = Denum n0 o' /\ n0 ∈ map fst vs /\ n0 ∈ map fst vs').
    intros H. enough (exists o', d' = Denum n o' /\ n ∈ map fst vs') as (o' & -> & ?) by eauto 10.
    revert H. generalize 0%Z. induction vs' as [|[m ot'] vs' IH]; intros i; cbn [read_variant]; [done|]. rewrite ident_str.
    case_bool_decide as E.
    + subst m. intros H. enough (exists o', d' = Denum n o') as [o' ->]. { exists o'. split; [done|]. cbn. by left. }
      destruct ot' as [t|]; [|destruct (to_mp d); try discriminate; injection H as <-; eauto].
      destruct (of_mp t (to_mp d)); [|done]. cbn in H. injection H as <-. eauto.
    + intros H. destruct (IH _ H) as (o' & -> & ?). exists o'. split; [done|]. cbn. by right.
  - change (read_unit_variant (PStr n) 0%Z vs' = Some d' -> exists n0 o o', Denum n None = Denum n0 o /\ d' = Denum n0 o' /\ n0 ∈ map fst vs /\ n0 ∈ map fst vs').
    intros H. enough (exists o', d' = Denum n o' /\ n ∈ map fst vs') as (o' & -> & ?) by eauto 10.
    revert H. generalize 0%Z. induction vs' as [|[m ot'] vs' IH]; intros i; cbn [read_unit_variant]; [done|]. rewrite ident_str.
    case_bool_decide as E.
    + subst m. intros H. destruct ot' as [t|]; [done|]. injection H as <-. exists None. split; [done|]. cbn. by left.
    + intros H. destruct (IH _ H) as (o' & -> & ?). exists o'. split; [done|]. cbn. by right.
Qed.
Print Assumptions C101_same_variant.
(** Enums without a common variant are never mistaken for each other. *)
Theorem C101_unrelated_enums :
  forall vs vs' d limit, (forall n, n ∈ map fst vs -> n ∉ map fst vs') -> has_type (TEnum vs) d -> sizes_ok d -> (levels d <= limit)%nat ->
    deserialize limit (TEnum vs') (serialize d) = None.
Proof.
  intros vs vs' d limit Hdis Ht Hs Hl. destruct (deserialize limit (TEnum vs') (serialize d)) as [d'|] eqn:E; [|done].
  destruct (C101_same_variant vs vs' d d' limit Ht Hs Hl E) as (n & ? & ? & _ & _ & H1 & H2). by destruct (Hdis n H1).
Qed.
Print Assumptions C101_unrelated_enums.

Definition kind_of (m : mp) : kind :=
  match m with PNil => KNil | PBool _ => KBool | PInt _ => KInt | PF32 _ => KF32 | PF64 _ => KF64 | PStr _ => KStr | PArr _ => KArr | PMap _ => KMap end.
Lemma written_kind d : forall t, has_type t d -> kind_of (to_mp d) ∈ written_as t.
Proof.
  induction d as [ | | | | | | | |d IH| | | |n|n d IH] using datum_ind'; intros t Ht; destruct t; cbn in Ht; try done; cbn [to_mp kind_of written_as];
    try (by apply elem_of_list_here); try (by right; left).
  right. by apply IH.
Qed.
Lemma read_kind t : forall m d, of_mp t m = Some d -> kind_of m ∈ read_as t.
Proof.
  induction t as [ | | |lo hi| | | |t IH|t IH|ts IH|k v IHk IHv|fs IH|vs IH] using ty_ind'; intros m d H; destruct m as [| | | | | |l|l]; try discriminate;
    cbn [kind_of read_as]; try (by apply elem_of_list_here); try (by right; left); try (by right; right; left).
  1-7: (right; rewrite of_opt in H by done; match type of H with _ <$> ?x = _ => destruct x eqn:E; [|done] end; apply (IH _ _ E)).
  all: exfalso; revert H; cbn; generalize 0%Z; clear; induction vs as [|[n ot] vs IHv]; intros i; cbn; [done|]; apply IHv.
Qed.
(** Types that are not written with the same kinds of words are never mistaken for each other: a number is not taken
    for a text, a list not for a map, and so on. *)
Theorem C101_kinds :
  forall t t' d limit, (forall k, k ∈ written_as t -> k ∉ read_as t') -> has_type t d -> sizes_ok d -> (levels d <= limit)%nat ->
    deserialize limit t' (serialize d) = None.
Proof.
  intros t t' d limit Hdis Ht Hs Hl. unfold deserialize, serialize. rewrite <- (app_nil_r (e_mp (to_mp d))).
  rewrite read_mp; [|by apply to_mp_wf|pose proof (to_mp_depth d); lia].
  destruct (of_mp t' (to_mp d)) as [d'|] eqn:E; [|done]. destruct (Hdis _ (written_kind d t Ht) (read_kind t' _ _ E)).
Qed.
Print Assumptions C101_kinds.
Example C101_kinds_example :
  (forall k, k ∈ written_as (TSeq TBool) -> k ∉ read_as (TEnum [("a"%string, None)])) /\
  deserialize 1024 (TEnum [("a"%string, None)]) (serialize (Dseq [Dbool true])) = None.
Proof. split; [|done]. intros k Hk. apply elem_of_list_singleton in Hk as ->. cbn. intros H. repeat (apply elem_of_cons in H as [H|H]; [discriminate|]). by apply elem_of_nil in H. Qed.

(** C101 as stated - a message is only received as a value of the type it was sent as - is violated. *)
Definition C101_statement : Prop :=
  forall t t' d d', t <> t' -> has_type t d -> distinct_names t -> distinct_names t' -> sizes_ok d -> (levels d <= 1024)%nat ->
    deserialize 1024 t' (serialize d) = Some d' -> False.
Theorem C101_refuted : ~ C101_statement.
Proof.
  intros H.
  refine (H (TStruct [("x"%string, u8_ty); ("y"%string, u8_ty)]) (TStruct [("y"%string, u64_ty)])
    (Drec [("x"%string, Dint 1); ("y"%string, Dint 2)]) (Drec [("y"%string, Dint 2)]) _ _ _ _ _ _ _).
  - done.
  - cbn. repeat split; lia.
  - split; [apply (bool_decide_unpack _); vm_compute; exact I|cbn; auto].
  - split; [apply (bool_decide_unpack _); vm_compute; exact I|cbn; auto].
  - vm_compute. repeat split; discriminate.
  - vm_compute. lia.
  - vm_compute. reflexivity.
Qed.
Print Assumptions C101_refuted.
(** The messages of two servers: a cast of one is a cast of the other if its content can be read there. *)
Example C101_gen_server_example :
  deserialize 1024 (gen_ty u64_ty) (serialize (Denum "$gen_cast" (Some (Dint 5)))) = Some (Denum "$gen_cast" (Some (Dint 5))) /\
  deserialize 1024 (gen_ty TStr) (serialize (Denum "$gen_cast" (Some (Dint 5)))) = None /\
  deserialize 1024 id_ty (serialize (Denum "$gen_cast" (Some (Dint 5)))) = None.
Proof. vm_compute. auto. Qed.

(** ** The bytes of pids, references and nodes (C11, C13) *)
(** Values that exist in Rust: 64 bit ids that are not zero, 32 and 128 bit addresses, 16 bit ports, names that are texts. *)
Definition addr_ok (a : sockaddr) : Prop :=
  match a with SA4 ip port => ip < 2 ^ 32 /\ port < 2 ^ 16 | SA6 ip port _ _ => ip < 2 ^ 128 /\ port < 2 ^ 16 end.
Definition id_ok (x : id_wire) : Prop :=
  match x with
  | WithNode i n a => 0 < i < 2 ^ 64 /\ text_ok n /\ addr_ok a
  | NodeUnavailable i => 0 < i < 2 ^ 64
  end.
Lemma octets_typed n x : has_type (TTup (replicate n u8_ty)) (octets n x).
Proof.
  cbn. unfold octets. pose proof (be_length n x) as Hl. revert Hl. generalize (be n x) as b. intros b. revert n.
  induction b as [|c b IH]; intros [|n] Hl; try done. cbn. pose proof (N_ascii_bounded c). split; [lia|]. apply IH. by injection Hl.
Qed.
Lemma octets_sizes n x : (n <= 16)%nat -> sizes_ok (octets n x).
Proof.
  intros Hn. cbn. unfold len. rewrite map_length, be_length. split; [lia|].
  apply each_Forall. rewrite List.Forall_forall. intros y Hy. apply in_map_iff in Hy as (c & <- & _). cbn. pose proof (N_ascii_bounded c). lia.
Qed.
Lemma octets_levels n x : (levels (octets n x) <= 2)%nat.
Proof.
  unfold octets. cbn [levels]. apply le_n_S. unfold maximum. rewrite map_map. generalize (be n x). intros b. induction b as [|c b IH]; cbn [map foldr levels] in *; lia.
Qed.
Lemma octets_travelled n x : travelled (octets n x) = octets n x.
Proof. unfold octets. cbn. f_equal. rewrite map_map. by apply map_ext. Qed.
Lemma octets_inj n x y : x < 256 ^ N.of_nat n -> y < 256 ^ N.of_nat n -> octets n x = octets n y -> x = y.
Proof.
  intros Hx Hy H. unfold octets in H. injection H as H. assert (be n x = be n y) as E.
  { revert H. generalize (be n x) (be n y). induction b as [|c b IH]; intros [|c' b'] H; try done. cbn in H. injection H as H1 H2.
    f_equal; [|by apply IH]. rewrite <- (ascii_N_embedding c), <- (ascii_N_embedding c'). f_equal. lia. }
  unfold be in E. apply (f_equal (@rev _)) in E; rewrite !rev_involutive in E. rewrite <- (unle_le n x Hx), <- (unle_le n y Hy). by rewrite E.
Qed.
Lemma addr_typed a : addr_ok a -> has_type addr_ty (addr_datum a) /\ sizes_ok (addr_datum a) /\ (levels (addr_datum a) <= 4)%nat /\ travelled (addr_datum a) = addr_datum a.
Proof.
  intros Ha. destruct a as [ip port|ip port fl sc]; destruct Ha as [Hip Hp].
  - split_and!.
    + pose proof (octets_typed 4 ip) as Ho. left. split; [done|]. split; [exact Ho|]. split; [cbn; lia|exact I].
    + pose proof (octets_sizes 4 ip ltac:(lia)) as Ho. split; [by vm_compute|]. split; [by vm_compute|]. split; [exact Ho|]. split; [cbn; lia|exact I].
    + pose proof (octets_levels 4 ip) as Ho. unfold addr_datum. cbn -[octets]. unfold maximum. cbn -[octets]. lia.
    + unfold addr_datum. cbn -[octets]. by rewrite octets_travelled.
  - split_and!.
    + pose proof (octets_typed 16 ip) as Ho. right. left. split; [done|]. split; [exact Ho|]. split; [cbn; lia|exact I].
    + pose proof (octets_sizes 16 ip ltac:(lia)) as Ho. split; [by vm_compute|]. split; [by vm_compute|]. split; [exact Ho|]. split; [cbn; lia|exact I].
    + pose proof (octets_levels 16 ip) as Ho. unfold addr_datum. cbn -[octets]. unfold maximum. cbn -[octets]. lia.
    + unfold addr_datum. cbn -[octets]. by rewrite octets_travelled.
Qed.
Lemma addr_transmitted a : addr_datum (wire_addr a) = addr_datum a.
Proof. by destruct a. Qed.
Lemma pair_inj n m a a' p p' : Denum n (Some (Dseq [a; Dint p])) = Denum m (Some (Dseq [a'; Dint p'])) -> n = m /\ a = a' /\ p = p'.
Proof. intros H. injection H. auto. Qed.
Lemma addr_inj a b : addr_ok a -> addr_ok b -> addr_datum a = addr_datum b -> wire_addr a = wire_addr b.
Proof.
  destruct a as [ip port|ip port fl sc], b as [ip' port'|ip' port' fl' sc']; intros [Hi Hp] [Hi' Hp'] H;
    unfold addr_datum in H; apply pair_inj in H as (Hn & Ho & Hport); try discriminate Hn; apply N2Z.inj in Hport; subst port'.
  - apply (octets_inj 4) in Ho; [by subst ip'|exact Hi|exact Hi'].
  - apply (octets_inj 16) in Ho; [by subst ip'|exact Hi|exact Hi'].
Qed.
(** The bytes of a pid or reference give back what Wire.v says they do ([transmit]): the id, the name and the address of
    the node, without the flow label and scope id of an IPv6 address; nothing else is lost. *)
Theorem C11_id_bytes :
  forall x, id_ok x -> deserialize 1024 id_ty (serialize (id_datum x)) = Some (id_datum (transmit x)).
Proof.
  intros x Hx. destruct x as [i n a|i].
  - destruct Hx as (Hi & Hn & Ha). destruct (addr_typed a Ha) as (H1 & H2 & H3 & H4).
    rewrite (C100_what_arrives id_ty _ 1024).
    + cbn [id_datum transmit travelled map]. rewrite H4, addr_transmitted. done.
    + left. split; [done|]. split; [cbn; lia|]. split; [exact I|]. split; [exact H1|exact I].
    + exact distinct_id.
    + split; [by vm_compute|]. split; [by vm_compute|]. split; [cbn; lia|]. split; [exact Hn|]. split; [exact H2|exact I].
    + cbn [id_datum levels map maximum foldr]. unfold maximum. cbn [foldr]. lia.
  - cbn in Hx. rewrite (C100_what_arrives id_ty _ 1024); [done| |exact distinct_id| |].
    + right. left. split; [done|]. cbn. lia.
    + split; [by vm_compute|]. cbn. lia.
    + cbn. lia.
Qed.
Print Assumptions C11_id_bytes.
Theorem C11_id_bytes_tell_apart :
  forall x y, id_ok x -> id_ok y -> serialize (id_datum x) = serialize (id_datum y) -> transmit x = transmit y.
Proof.
  intros x y Hx Hy E. pose proof (C11_id_bytes x Hx) as H1. rewrite E, (C11_id_bytes y Hy) in H1. injection H1 as H1.
  destruct x as [i n a|i], y as [i' n' a'|i']; try discriminate; cbn [transmit id_datum] in *.
  - rewrite !addr_transmitted in H1. injection H1 as Hi Hn Ha. destruct Hx as (? & ? & Hx), Hy as (? & ? & Hy).
    f_equal; [lia|done|]. symmetry. by apply addr_inj.
  - injection H1 as Hi. f_equal. lia.
Qed.
Print Assumptions C11_id_bytes_tell_apart.
Definition node_ok (x : node_wire) : Prop := text_ok (nw_name x) /\ match nw_addr x with Some a => addr_ok a | None => True end.
Theorem C13_node_bytes :
  forall x, node_ok x -> deserialize 1024 node_ty (serialize (node_datum x)) = Some (node_datum (transmit_node x)).
Proof.
  intros [n oa] [Hn Ha]. cbn [nw_name nw_addr] in *.
  assert (Ht : has_type node_ty (node_datum (NodeWire n oa)) /\ sizes_ok (node_datum (NodeWire n oa)) /\ (levels (node_datum (NodeWire n oa)) <= 1024)%nat /\
    travelled (node_datum (NodeWire n oa)) = node_datum (transmit_node (NodeWire n oa))).
  { destruct oa as [a|].
    - destruct (addr_typed a Ha) as (H1 & H2 & H3 & H4). split_and!.
      + split; [done|]. split; [exact I|]. split; [done|]. split; [exact H1|exact I].
      + split; [by vm_compute|]. split; [split; [by vm_compute|exact Hn]|]. split; [split; [by vm_compute|exact H2]|exact I].
      + unfold node_datum. cbn [nw_addr nw_name fmap option_fmap option_map levels map snd maximum foldr]. unfold maximum. cbn [foldr]. lia.
      + unfold node_datum, transmit_node. cbn [nw_addr nw_name fmap option_fmap option_map travelled map fst snd].
        assert (nothing (addr_datum a) = false) as -> by (by destruct a). by rewrite H4, addr_transmitted.
    - split_and!; [cbn; auto| |cbn; lia|done]. split; [by vm_compute|]. split; [split; [by vm_compute|exact Hn]|]. split; [split; [by vm_compute|exact I]|exact I]. }
  destruct Ht as (H1 & H2 & H3 & H4). rewrite (C100_what_arrives node_ty _ 1024); [by rewrite H4|exact H1| |exact H2|exact H3].
  split; [apply (bool_decide_unpack _); vm_compute; exact I|]. split; [exact I|]. split; [exact distinct_addr|exact I].
Qed.
Print Assumptions C13_node_bytes.
Example C11_id_bytes_example :
  let x := WithNode 7 "a" (SA4 0x7f000001 9000) in id_ok x /\
  serialize (id_datum x) = map ascii_of_N [0x81; 0xa8; 87; 105; 116; 104; 78; 111; 100; 101; 0x93; 7; 0xa1; 97;
    0x81; 0xa2; 86; 52; 0x92; 0x94; 127; 0; 0; 1; 0xcd; 35; 40].
Proof. vm_compute. repeat split. Qed.
(** The reasons of exits inside messages. *)
Theorem C100_reasons : forall r limit, (match r with RCustom s => text_ok s | _ => True end) -> (2 <= limit)%nat ->
  deserialize limit reason_ty (serialize (reason_datum r)) = Some (reason_datum r).
Proof.
  intros r limit Hr Hl. apply C100_arrives_as_sent_partial; [cbn; auto 10| | | |].
  - destruct r; cbn; auto 10.
  - split; [apply (bool_decide_unpack _); vm_compute; exact I|cbn; auto 10].
  - destruct r; (split; [by vm_compute|]); [exact I..|exact Hr].
  - destruct r; cbn; lia.
Qed.
Print Assumptions C100_reasons.
(** The words that stand for them: a reason without text is the name of its variant, a MessagePack string of fewer than
    32 bytes; the custom reason is a map of one entry, from "Custom" to its text. *)
Definition short (s : string) : list N := (0xa0 + N.of_nat (String.length s)) :: map N_of_ascii (list_ascii_of_string s).
Theorem C100_reason_words :
  (forall r s, In (r, s) [(RNormal, "Normal"%string); (RKill, "Kill"%string); (RIgnore, "Ignore"%string)] ->
     map N_of_ascii (serialize (reason_datum r)) = short s) /\
  forall s, (String.length s < 32)%nat ->
    map N_of_ascii (serialize (reason_datum (RCustom s))) = 0x81 :: short "Custom" ++ short s.
Proof.
  split.
  - intros r s H. repeat destruct H as [H|H]; [injection H as <- <-; by vm_compute..|by destruct H].
  - intros s Hs.
    assert (Hl : length (list_ascii_of_string s) = String.length s) by (clear; induction s; cbn; congruence).
    change (serialize (reason_datum (RCustom s))) with
      (byte 0x81 :: (e_mp (PStr "Custom") ++ (e_str_len (len (list_ascii_of_string s)) ++ list_ascii_of_string s)) ++ []).
    rewrite app_nil_r. cbn [map]. rewrite !map_app. unfold short, len. rewrite Hl. unfold e_str_len.
    assert ((N.of_nat (String.length s) <? 32) = true) as -> by (apply N.ltb_lt; lia).
    assert (map N_of_ascii (e_mp (PStr "Custom")) = (160 + N.of_nat (String.length "Custom")) :: map N_of_ascii (list_ascii_of_string "Custom")) as ->
      by (by vm_compute).
    cbn [map app]. unfold byte at 2. rewrite (N_ascii_embedding (0xa0 + _)) by lia. by vm_compute (N_of_ascii (byte 0x81)).
Qed.
Print Assumptions C100_reason_words.
Example C100_reason_words_example :
  map N_of_ascii (serialize (reason_datum (RCustom "no"))) = [0x81; 0xa6; 67; 117; 115; 116; 111; 109; 0xa2; 110; 111].
Proof. by vm_compute. Qed.
