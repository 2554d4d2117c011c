(** C105: what has been taken out of bytes can be sent on, and arrives as it is. *)
From stdpp Require Import base list gmap numbers strings.
From Coq Require Import Ascii NArith ZArith Lia ZifyNat ZifyN ZifyBool.
From Verif Require Import Types Codec CodecProofs CodecValid Prog World ProcApi NodeApi Wire MsgPack MsgPackSpec MsgPackProofs MsgPackProps MsgPackRead MsgPackFormat.
Local Open Scope N_scope.

(** The names in a type's definition are Unicode texts, and a struct has fewer than 2^32 fields (the compiler sees to it). *)
Fixpoint names_ok (t : ty) : Prop :=
  match t with
  | TOpt t | TSeq t => names_ok t
  | TTup ts => (fix go ts := match ts with [] => True | t :: ts => names_ok t /\ go ts end) ts
  | TMap k v => names_ok k /\ names_ok v
  | TStruct fs => len fs < 2 ^ 32 /\ (fix go fs := match fs with [] => True | (n, t) :: fs => text_ok n /\ names_ok t /\ go fs end) fs
  | TEnum vs => (fix go vs := match vs with
                              | [] => True
                              | (n, ot) :: vs => text_ok n /\ match ot with Some t => names_ok t | None => True end /\ go vs
                              end) vs
  | _ => True
  end.

(** ** Nothing is lost a second time *)
Definition settled (m : mp) (d : datum) : Prop := travelled d = d /\ (m <> PNil -> nothing d = false).
Definition settles (t : ty) : Prop := forall m d, of_mp t m = Some d -> settled m d.
Lemma settles_struct kvs fs : Forall (fun f => settles (snd f)) fs -> forall i l, read_fields kvs i fs = Some l ->
  map (fun f : string * datum => (fst f, travelled (snd f))) l = l.
Proof.
  induction 1 as [|[n t] fs Hf Hfs IH]; intros i l E; cbn in E; [by injection E as <-|].
  fold (read_fields kvs) in E. destruct (match get kvs i n with Some m => of_mp t m | None => match t with TOpt _ => Some (Dopt None) | _ => None end end) as [d|] eqn:Ed; [|discriminate].
  destruct (read_fields kvs (i + 1)%Z fs) as [r|] eqn:Er; [|discriminate]. injection E as <-. cbn. rewrite (IH _ _ Er). f_equal. f_equal.
  destruct (get kvs i n) as [m|]; [by apply (Hf m)|]. destruct t; try discriminate. injection Ed as <-. done.
Qed.
Lemma settles_arr fs : Forall (fun f => settles (snd f)) fs -> forall l r, read_fields_arr fs l = Some r ->
  map (fun f : string * datum => (fst f, travelled (snd f))) r = r.
Proof.
  induction 1 as [|[n t] fs Hf Hfs IH]; intros l r E; destruct l as [|m l]; cbn in E; try discriminate; [by injection E as <-|].
  fold read_fields_arr in E. destruct (of_mp t m) as [d|] eqn:Ed; [|discriminate]. destruct (read_fields_arr fs l) as [x|] eqn:Er; [|discriminate].
  injection E as <-. cbn. rewrite (IH _ _ Er). f_equal. f_equal. by apply (Hf m).
Qed.
Lemma settles_tuple ts : Forall settles ts -> forall l r, read_tuple ts l = Some r -> map travelled r = r.
Proof.
  induction 1 as [|t ts Hf Hfs IH]; intros l r E; destruct l as [|m l]; cbn in E; try discriminate; [by injection E as <-|].
  fold read_tuple in E. destruct (of_mp t m) as [d|] eqn:Ed; [|discriminate]. destruct (read_tuple ts l) as [x|] eqn:Er; [|discriminate].
  injection E as <-. cbn. rewrite (IH _ _ Er). f_equal. by apply (Hf m).
Qed.
Definition payload_settles (v : string * option ty) : Prop := match snd v with Some t => settles t | None => True end.
Lemma settles_variant k m vs : Forall payload_settles vs -> forall i d, read_variant k m i vs = Some d -> travelled d = d /\ nothing d = false.
Proof.
  induction 1 as [|[n ot] vs Hf Hfs IH]; intros i d E; cbn in E; [discriminate|]. fold (read_variant k m) in E. destruct (ident_is k i n); [|by apply (IH _ _ E)].
  destruct ot as [t|]; [|by destruct m; try discriminate; injection E as <-].
  destruct (of_mp t m) as [x|] eqn:Ex; [|discriminate]. injection E as <-. split; [|done]. cbn. f_equal. f_equal. by apply (Hf m).
Qed.
Lemma settles_unit_variant k vs : forall i d, read_unit_variant k i vs = Some d -> travelled d = d /\ nothing d = false.
Proof.
  induction vs as [|[n ot] vs IH]; intros i d E; cbn in E; [discriminate|]. fold (read_unit_variant k) in E. destruct (ident_is k i n); [|by apply (IH _ _ E)].
  destruct ot as [t|]; [discriminate|]. by injection E as <-.
Qed.
Lemma of_mp_settles t : settles t.
Proof.
  induction t as [ | | |lo hi| | | |t IH|t IH|ts IH|k v IHk IHv|fs IH|vs IH] using ty_ind'; intros m d E; unfold settled.
  - destruct m; try discriminate. by injection E as <-.
  - destruct m as [| | | | | |[|]|]; try discriminate; by injection E as <-.
  - destruct m; try discriminate. by injection E as <-.
  - destruct m; try discriminate. cbn in E. destruct ((lo <=? z)%Z && (z <=? hi)%Z); [|discriminate]. by injection E as <-.
  - destruct m; try discriminate. by injection E as <-.
  - destruct m; try discriminate. by injection E as <-.
  - destruct m; try discriminate. by injection E as <-.
  - assert (m = PNil \/ m <> PNil) as [->|Hm] by (destruct m; auto; by right).
    { by injection E as <-. }
    rewrite of_opt in E by done. destruct (of_mp t m) as [x|] eqn:Ex; [|discriminate]. injection E as <-. destruct (IH m x Ex) as [H1 H2].
    specialize (H2 Hm). cbn. rewrite H2, H1. done.
  - destruct m as [| | | | | |l|]; try discriminate. cbn in E. destruct (mapM (of_mp t) l) as [r|] eqn:Er; [|discriminate]. injection E as <-.
    apply mapM_Some_1 in Er. split; [|done]. cbn. f_equal. clear -Er IH. induction Er as [|m d l r Hm Hr IHr]; [done|]. cbn. rewrite IHr. f_equal. by apply (IH m).
  - destruct m as [| | | | | |l|]; try discriminate. cbn in E. fold read_tuple in E. destruct (read_tuple ts l) as [r|] eqn:Er; [|discriminate]. injection E as <-.
    split; [|done]. cbn. f_equal. by apply (settles_tuple ts IH l).
  - destruct m as [| | | | | | |l]; try discriminate. cbn in E. destruct (mapM _ l) as [r|] eqn:Er; [|discriminate]. injection E as <-.
    apply mapM_Some_1 in Er. split; [|done]. cbn. f_equal. clear -Er IHk IHv. induction Er as [|[a b] d l r Hm Hr IHr]; [done|]. cbn in Hm.
    destruct (of_mp k a) as [x|] eqn:Ea; [|discriminate]. destruct (of_mp v b) as [y|] eqn:Eb; [|discriminate]. injection Hm as <-. cbn.
    rewrite IHr. f_equal. f_equal; [by apply (IHk a)|by apply (IHv b)].
  - destruct m as [| | | | | |l|kvs]; try discriminate; cbn in E.
    + fold read_fields_arr in E. destruct (read_fields_arr fs l) as [r|] eqn:Er; [|discriminate]. injection E as <-. split; [|done]. cbn. f_equal. by apply (settles_arr fs IH l).
    + destruct (forallb _ kvs && given_once 0 fs kvs); [|discriminate]. fold (read_fields kvs) in E. destruct (read_fields kvs 0 fs) as [r|] eqn:Er; [|discriminate].
      injection E as <-. split; [|done]. cbn. f_equal. by apply (settles_struct kvs fs IH 0%Z).
  - assert ((exists k x, of_mp (TEnum vs) m = read_variant k x 0 vs) \/ of_mp (TEnum vs) m = read_unit_variant m 0 vs) as [(k & x & H)|H].
    { destruct m as [| | | | | | |[|[k x] [|]]]; try (right; reflexivity). left. by exists k, x. }
    + rewrite H in E. apply settles_variant in E as [H1 H2]; [done|exact IH].
    + rewrite H in E. by apply settles_unit_variant in E as [H1 H2].
Qed.

(** ** It is of a size that can be written *)
Definition sized (t : ty) : Prop := names_ok t -> forall m d, wf_mp m -> of_mp t m = Some d -> sizes_ok d.
Definition fields_sized : list (string * datum) -> Prop := Forall (fun f => text_ok (fst f) /\ sizes_ok (snd f)).
Definition fields_named : list (string * ty) -> Prop :=
  fix go fs := match fs with [] => True | (n, t) :: fs => text_ok n /\ names_ok t /\ go fs end.
Definition variants_named : list (string * option ty) -> Prop :=
  fix go vs := match vs with
               | [] => True
               | (n, ot) :: vs => text_ok n /\ match ot with Some t => names_ok t | None => True end /\ go vs
               end.
Definition tuple_named : list ty -> Prop := fix go ts := match ts with [] => True | t :: ts => names_ok t /\ go ts end.
Lemma get_in kvs i n m : get kvs i n = Some m -> exists k, In (k, m) kvs.
Proof.
  unfold get. intros H. destruct (filter _ kvs) as [|[k x] l] eqn:E; [discriminate|]. injection H as <-. exists k.
  apply elem_of_list_In. assert (In (k, x) (filter (fun kv => ident_is (fst kv) i n = true) kvs)) as H by (rewrite E; by left).
  apply elem_of_list_In, elem_of_list_filter in H. apply H.
Qed.
Lemma sized_struct kvs fs : Forall (fun e => wf_mp (fst e) /\ wf_mp (snd e)) kvs -> Forall (fun f => sized (snd f)) fs -> fields_named fs ->
  forall i l, read_fields kvs i fs = Some l -> length l = length fs /\ fields_sized l.
Proof.
  intros Hk. induction 1 as [|[n t] fs Hf Hfs IH]; intros Hn i l E; cbn in E; [injection E as <-; split; [done|constructor]|].
  fold (read_fields kvs) in E. destruct (match get kvs i n with Some m => of_mp t m | None => match t with TOpt _ => Some (Dopt None) | _ => None end end) as [d|] eqn:Ed; [|discriminate].
  destruct (read_fields kvs (i + 1)%Z fs) as [r|] eqn:Er; [|discriminate]. injection E as <-. destruct Hn as (H1 & H2 & H3).
  destruct (IH H3 _ _ Er) as [H4 H5]. split; [cbn; by rewrite H4|]. constructor; [|done]. split; [done|]. cbn.
  destruct (get kvs i n) as [m|] eqn:Eg.
  - apply get_in in Eg as (k & Hin). rewrite List.Forall_forall in Hk. destruct (Hk _ Hin) as [_ Hw]. by apply (Hf H2 m).
  - destruct t; try discriminate. by injection Ed as <-.
Qed.
Lemma sized_arr fs : Forall (fun f => sized (snd f)) fs -> fields_named fs -> forall l r, Forall wf_mp l -> read_fields_arr fs l = Some r ->
  length r = length fs /\ fields_sized r.
Proof.
  induction 1 as [|[n t] fs Hf Hfs IH]; intros Hn l r Hl E; destruct l as [|m l]; cbn in E; try discriminate; [injection E as <-; split; [done|constructor]|].
  fold read_fields_arr in E. destruct (of_mp t m) as [d|] eqn:Ed; [|discriminate]. destruct (read_fields_arr fs l) as [x|] eqn:Er; [|discriminate].
  injection E as <-. destruct Hn as (H1 & H2 & H3). inversion Hl; subst. destruct (IH H3 l x) as [H6 H7]; [done|done|]. split; [cbn; by rewrite H6|].
  constructor; [|done]. split; [done|]. by apply (Hf H2 m).
Qed.
Lemma sized_tuple ts : Forall sized ts -> tuple_named ts -> forall l r, Forall wf_mp l -> read_tuple ts l = Some r -> length r = length l /\ Forall sizes_ok r.
Proof.
  induction 1 as [|t ts Hf Hfs IH]; intros Hn l r Hl E; destruct l as [|m l]; cbn in E; try discriminate; [injection E as <-; split; [done|constructor]|].
  fold read_tuple in E. destruct (of_mp t m) as [d|] eqn:Ed; [|discriminate]. destruct (read_tuple ts l) as [x|] eqn:Er; [|discriminate].
  injection E as <-. destruct Hn as [H1 H2]. inversion Hl; subst. destruct (IH H2 l x) as [H6 H7]; [done|done|]. split; [cbn; by rewrite H6|].
  constructor; [|done]. by apply (Hf H1 m).
Qed.
Definition payload_sized (v : string * option ty) : Prop := match snd v with Some t => sized t | None => True end.
Lemma sized_variant k m vs : wf_mp m -> Forall payload_sized vs -> variants_named vs -> forall i d, read_variant k m i vs = Some d -> sizes_ok d.
Proof.
  intros Hm. induction 1 as [|[n ot] vs Hf Hfs IH]; intros Hn i d E; cbn in E; [discriminate|]. fold (read_variant k m) in E. destruct Hn as (H1 & H2 & H3).
  destruct (ident_is k i n); [|by apply (IH H3 _ _ E)].
  destruct ot as [t|]; [|by destruct m; try discriminate; injection E as <-].
  destruct (of_mp t m) as [x|] eqn:Ex; [|discriminate]. injection E as <-. split; [done|]. by apply (Hf H2 m).
Qed.
Lemma sized_unit_variant k vs : variants_named vs -> forall i d, read_unit_variant k i vs = Some d -> sizes_ok d.
Proof.
  induction vs as [|[n ot] vs IH]; intros Hn i d E; cbn in E; [discriminate|]. fold (read_unit_variant k) in E. destruct Hn as (H1 & H2 & H3).
  destruct (ident_is k i n); [|by apply (IH H3 _ _ E)]. destruct ot as [t|]; [discriminate|]. injection E as <-. by split.
Qed.
Lemma of_mp_sized t : sized t.
Proof.
  induction t as [ | | |lo hi| | | |t IH|t IH|ts IH|k v IHk IHv|fs IH|vs IH] using ty_ind'; intros Hn m d Hm E.
  - destruct m; try discriminate. by injection E as <-.
  - destruct m as [| | | | | |[|]|]; try discriminate; by injection E as <-.
  - destruct m; try discriminate. by injection E as <-.
  - destruct m; try discriminate. cbn in E. destruct ((lo <=? z)%Z && (z <=? hi)%Z); [|discriminate]. by injection E as <-.
  - destruct m; try discriminate. by injection E as <-.
  - destruct m; try discriminate. by injection E as <-.
  - destruct m; try discriminate. by injection E as <-.
  - assert (m = PNil \/ m <> PNil) as [->|Hm'] by (destruct m; auto; by right).
    { by injection E as <-. }
    rewrite of_opt in E by done. destruct (of_mp t m) as [x|] eqn:Ex; [|discriminate]. injection E as <-. exact (IH Hn m x Hm Ex).
  - destruct m as [| | | | | |l|]; try discriminate. cbn in E. destruct (mapM (of_mp t) l) as [r|] eqn:Er; [|discriminate]. injection E as <-.
    apply mapM_Some_1 in Er. destruct Hm as [Hl Hm]. apply each_Forall in Hm. cbn. split; [unfold len in *; by rewrite <- (Forall2_length _ _ _ Er)|]. apply each_Forall.
    clear -Er IH Hn Hm. induction Er as [|m d l r Hd Hr IHr]; [constructor|]. inversion Hm; subst. constructor; [by apply (IH Hn m)|by apply IHr].
  - destruct m as [| | | | | |l|]; try discriminate. cbn in E. fold read_tuple in E. destruct (read_tuple ts l) as [r|] eqn:Er; [|discriminate]. injection E as <-.
    destruct Hm as [Hl Hm]. apply each_Forall in Hm. destruct (sized_tuple ts IH Hn l r Hm Er) as [H1 H2]. cbn. split; [unfold len in *; by rewrite H1|by apply each_Forall].
  - destruct m as [| | | | | | |l]; try discriminate. cbn in E. destruct (mapM _ l) as [r|] eqn:Er; [|discriminate]. injection E as <-.
    apply mapM_Some_1 in Er. destruct Hm as [Hl Hm]. apply each_Forall in Hm. cbn. split; [unfold len in *; by rewrite <- (Forall2_length _ _ _ Er)|]. apply each_Forall.
    destruct Hn as [Hk Hv]. clear -Er IHk IHv Hk Hv Hm. induction Er as [|[a b] d l r Hd Hr IHr]; [constructor|]. cbn in Hd. inversion Hm as [|? ? [Ha Hb] Hm']; subst.
    destruct (of_mp k a) as [x|] eqn:Ea; [|discriminate]. destruct (of_mp v b) as [y|] eqn:Eb; [|discriminate]. injection Hd as <-.
    constructor; [|by apply IHr]. cbn. split; [by apply (IHk Hk a)|by apply (IHv Hv b)].
  - destruct Hn as [Hf Hn]. fold fields_named in Hn. destruct m as [| | | | | |l|kvs]; try discriminate; cbn in E; destruct Hm as [Hl Hm]; apply each_Forall in Hm.
    + fold read_fields_arr in E. destruct (read_fields_arr fs l) as [r|] eqn:Er; [|discriminate]. injection E as <-.
      destruct (sized_arr fs IH Hn l r Hm Er) as [H1 H2]. cbn. split; [unfold len in *; by rewrite H1|by apply each_Forall].
    + destruct (forallb _ kvs && given_once 0 fs kvs); [|discriminate]. fold (read_fields kvs) in E. destruct (read_fields kvs 0 fs) as [r|] eqn:Er; [|discriminate].
      injection E as <-. destruct (sized_struct kvs fs Hm IH Hn 0%Z r Er) as [H1 H2]. cbn. split; [unfold len in *; by rewrite H1|by apply each_Forall].
  - cbn in Hn. fold variants_named in Hn.
    assert ((exists k x, wf_mp x /\ of_mp (TEnum vs) m = read_variant k x 0 vs) \/ of_mp (TEnum vs) m = read_unit_variant m 0 vs) as [(k & x & Hx & H)|H].
    { destruct m as [| | | | | | |[|[k x] [|]]]; try (right; reflexivity). left. exists k, x. split; [|done]. destruct Hm as [_ [[_ Hx] _]]. exact Hx. }
    + rewrite H in E. apply sized_variant in E; [exact E|exact Hx|exact IH|exact Hn].
    + rewrite H in E. by apply sized_unit_variant in E.
Qed.

(** ** C105 *)
(** A value that has been taken out of bytes, whoever made them, arrives unchanged when it is sent on. *)
Theorem C105_forwarded : forall t limit limit' b d, distinct_names t -> names_ok t -> deserialize limit t b = Some d ->
  (levels d <= limit')%nat -> deserialize limit' t (serialize d) = Some d.
Proof.
  intros t limit limit' b d Hd Hn H Hl. pose proof (C103_typed _ _ _ _ H) as Ht. unfold deserialize in H.
  destruct (r_mp limit b) as [[m rest]|] eqn:E; [|discriminate]. apply mp_yields in E as (w & _ & Hw & _). apply word_wf in Hw.
  destruct (of_mp_settles t m d H) as [Hs _]. rewrite (C100_what_arrives t d limit' Ht Hd); [by rewrite Hs|by apply (of_mp_sized t Hn m)|done].
Qed.
Print Assumptions C105_forwarded.
(** Each node that receives the message of the one before and sends it on: [n] times. *)
Fixpoint hops (n : nat) (limit : nat) (t : ty) (b : bytes) : option datum :=
  match n with
  | O => deserialize limit t b
  | Datatypes.S n => match deserialize limit t b with Some d => hops n limit t (serialize d) | None => None end
  end.
Theorem C105_any_number_of_times : forall n t limit b d, distinct_names t -> names_ok t -> deserialize limit t b = Some d ->
  (levels d <= limit)%nat -> hops n limit t b = Some d.
Proof.
  intros n t limit b d Hd Hn H Hl. revert b H. induction n as [|n IH]; intros b H; cbn; [done|]. rewrite H. apply IH.
  by apply (C105_forwarded t limit limit b).
Qed.
Print Assumptions C105_any_number_of_times.
(** The crate's types meet the conditions. *)
Lemma crate_names : names_ok id_ty /\ names_ok node_ty /\ names_ok reason_ty /\ names_ok from_ty /\ forall T, names_ok T -> names_ok (gen_ty T).
Proof. split_and!; [vm_compute; tauto..|]. intros T HT. unfold gen_ty, names_ok. fold names_ok. repeat split; auto; vm_compute; tauto. Qed.
(** A record { "on": Option<Option<bool>>, "n": u8 } made by hand: its fields in the wrong order, the number in a form that
    is too long, one option missing. *)
Definition lamp_ty : ty := TStruct [("on"%string, TOpt (TOpt TBool)); ("n"%string, u8_ty)].
Definition lamp_bytes : bytes := map ascii_of_N [0x81; 0xa1; 110; 0xcd; 0; 7].
Example C105_example : distinct_names lamp_ty /\ names_ok lamp_ty /\
  let d := Drec [("on"%string, Dopt None); ("n"%string, Dint 7)] in
  deserialize 3 lamp_ty lamp_bytes = Some d /\ (levels d <= 3)%nat /\ serialize d <> lamp_bytes /\ hops 5 3 lamp_ty lamp_bytes = Some d.
Proof.
  split; [split; [apply (bool_decide_unpack _); vm_compute; exact I|cbn; tauto]|]. split; [vm_compute; tauto|].
  cbv zeta. split; [by vm_compute|]. split; [cbn; lia|]. split; [by vm_compute|by vm_compute].
Qed.
(** In contrast: what has not travelled yet may change on the first way. *)
Example C105_first_way : let d := Drec [("on"%string, Dopt (Some (Dopt None))); ("n"%string, Dint 7)] in
  has_type lamp_ty d /\ deserialize 3 lamp_ty (serialize d) = Some (Drec [("on"%string, Dopt None); ("n"%string, Dint 7)]).
Proof. cbv zeta. split; [cbn; repeat split; lia|by vm_compute]. Qed.
