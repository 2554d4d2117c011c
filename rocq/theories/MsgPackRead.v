(** C103, C104: what a node may take out of bytes that arrive, whoever made them. *)
From stdpp Require Import base list gmap numbers strings.
From Coq Require Import Ascii NArith ZArith Lia.
From Verif Require Import Types Codec CodecProofs Prog World ProcApi NodeApi Wire CodecValid MsgPack MsgPackSpec MsgPackProofs MsgPackProps.
Local Open Scope N_scope.

(** ** C103 *)
Definition read_tuple : list ty -> list mp -> option (list datum) :=
  fix go ts l := match ts, l with
                 | [], [] => Some []
                 | t :: ts, m :: l => match of_mp t m, go ts l with Some d, Some r => Some (d :: r) | _, _ => None end
                 | _, _ => None
                 end.
Definition read_fields_arr : list (string * ty) -> list mp -> option (list (string * datum)) :=
  fix go fs l := match fs, l with
                 | [], [] => Some []
                 | (n, t) :: fs, m :: l => match of_mp t m, go fs l with Some d, Some r => Some ((n, d) :: r) | _, _ => None end
                 | _, _ => None
                 end.
Definition tuple_typed : list ty -> list datum -> Prop :=
  fix go ts l := match ts, l with [], [] => True | t :: ts, d :: l => has_type t d /\ go ts l | _, _ => False end.
Definition gives (t : ty) : Prop := forall m d, of_mp t m = Some d -> has_type t d.

Lemma gives_struct kvs fs : Forall (fun f => gives (snd f)) fs -> forall i l, read_fields kvs i fs = Some l -> fields_typed fs l.
Proof.
  induction 1 as [|[n t] fs Hf Hfs IH]; intros i l E; cbn in E; [by injection E as <-|].
  fold (read_fields kvs) in E. destruct (match get kvs i n with Some m => of_mp t m | None => match t with TOpt _ => Some (Dopt None) | _ => None end end) as [d|] eqn:Ed; [|discriminate].
  destruct (read_fields kvs (i + 1)%Z fs) as [r|] eqn:Er; [|discriminate]. injection E as <-. split; [done|]. split; [|by eapply IH].
  destruct (get kvs i n) as [m|]; [by apply (Hf m)|]. destruct t; try discriminate. injection Ed as <-. exact I.
Qed.
Lemma gives_arr fs : Forall (fun f => gives (snd f)) fs -> forall l r, read_fields_arr fs l = Some r -> fields_typed fs r.
Proof.
  induction 1 as [|[n t] fs Hf Hfs IH]; intros l r E; destruct l as [|m l]; cbn in E; try discriminate; [by injection E as <-|].
  fold read_fields_arr in E. destruct (of_mp t m) as [d|] eqn:Ed; [|discriminate]. destruct (read_fields_arr fs l) as [x|] eqn:Er; [|discriminate].
  injection E as <-. split; [done|]. split; [by apply (Hf m)|by eapply IH].
Qed.
Lemma gives_tuple ts : Forall gives ts -> forall l r, read_tuple ts l = Some r -> tuple_typed ts r.
Proof.
  induction 1 as [|t ts Hf Hfs IH]; intros l r E; destruct l as [|m l]; cbn in E; try discriminate; [by injection E as <-|].
  fold read_tuple in E. destruct (of_mp t m) as [d|] eqn:Ed; [|discriminate]. destruct (read_tuple ts l) as [x|] eqn:Er; [|discriminate].
  injection E as <-. split; [by apply (Hf m)|by eapply IH].
Qed.
Definition read_unit_variant (k : mp) : Z -> list (string * option ty) -> option datum :=
  fix go i vs := match vs with
                 | [] => None
                 | (n, ot) :: vs => if ident_is k i n then match ot with None => Some (Denum n None) | Some _ => None end else go (i + 1)%Z vs
                 end.
Definition payload_gives (v : string * option ty) : Prop := match snd v with Some t => gives t | None => True end.
Lemma gives_variant k m vs : Forall payload_gives vs -> forall i d, read_variant k m i vs = Some d -> exists n o, d = Denum n o /\ variant_typed n o vs.
Proof.
  induction 1 as [|[n ot] vs Hf Hfs IH]; intros i d E; cbn in E; [discriminate|]. fold (read_variant k m) in E. destruct (ident_is k i n).
  - destruct ot as [t|]; [|by destruct m; try discriminate; injection E as <-; exists n, None; split; [done|]; left].
    destruct (of_mp t m) as [x|] eqn:Ex; [|discriminate]. injection E as <-. exists n, (Some x). split; [done|]. left. split; [done|]. by apply (Hf m).
  - destruct (IH _ _ E) as (n' & o & -> & H). exists n', o. split; [done|]. by right.
Qed.
Lemma gives_unit_variant k vs : forall i d, read_unit_variant k i vs = Some d -> exists n, d = Denum n None /\ variant_typed n None vs.
Proof.
  induction vs as [|[n ot] vs IH]; intros i d E; cbn in E; [discriminate|]. fold (read_unit_variant k) in E. destruct (ident_is k i n).
  - destruct ot as [t|]; [discriminate|]. injection E as <-. exists n. split; [done|]. by left.
  - destruct (IH _ _ E) as (n' & -> & H). exists n'. split; [done|]. by right.
Qed.
Lemma of_mp_gives t : gives t.
Proof.
  induction t as [ | | |lo hi| | | |t IH|t IH|ts IH|k v IHk IHv|fs IH|vs IH] using ty_ind'; intros m d E.
  - destruct m; try discriminate. by injection E as <-.
  - destruct m as [| | | | | |[|]|]; try discriminate; by injection E as <-.
  - destruct m; try discriminate. by injection E as <-.
  - destruct m; try discriminate. cbn in E. destruct ((lo <=? z)%Z && (z <=? hi)%Z) eqn:Ez; [|discriminate]. injection E as <-.
    apply andb_true_iff in Ez as [H1 H2]. cbn. lia.
  - destruct m; try discriminate. by injection E as <-.
  - destruct m; try discriminate. by injection E as <-.
  - destruct m; try discriminate. by injection E as <-.
  - assert (m = PNil \/ m <> PNil) as [->|Hm] by (destruct m; auto; by right).
    { injection E as <-. exact I. }
    rewrite of_opt in E by done. destruct (of_mp t m) as [x|] eqn:Ex; [|discriminate]. injection E as <-. by apply (IH m).
  - destruct m as [| | | | | |l|]; try discriminate. cbn in E. destruct (mapM (of_mp t) l) as [r|] eqn:Er; [|discriminate]. injection E as <-.
    apply mapM_Some_1 in Er. cbn. clear -Er IH. induction Er as [|m d l r Hm Hr IHr]; constructor; [by apply (IH m)|done].
  - destruct m as [| | | | | |l|]; try discriminate. cbn in E. fold read_tuple in E. destruct (read_tuple ts l) as [r|] eqn:Er; [|discriminate]. injection E as <-.
    by apply (gives_tuple ts IH l).
  - destruct m as [| | | | | | |l]; try discriminate. cbn in E. destruct (mapM _ l) as [r|] eqn:Er; [|discriminate]. injection E as <-.
    apply mapM_Some_1 in Er. cbn. clear -Er IHk IHv. induction Er as [|[a b] d l r Hm Hr IHr]; constructor; [|done]. cbn in Hm.
    destruct (of_mp k a) as [x|] eqn:Ea; [|discriminate]. destruct (of_mp v b) as [y|] eqn:Eb; [|discriminate]. injection Hm as <-. cbn. split; [by apply (IHk a)|by apply (IHv b)].
  - destruct m as [| | | | | |l|kvs]; try discriminate; cbn in E.
    + fold read_fields_arr in E. destruct (read_fields_arr fs l) as [r|] eqn:Er; [|discriminate]. injection E as <-. by apply (gives_arr fs IH l).
    + destruct (forallb _ kvs && given_once 0 fs kvs); [|discriminate]. fold (read_fields kvs) in E. destruct (read_fields kvs 0 fs) as [r|] eqn:Er; [|discriminate].
      injection E as <-. by apply (gives_struct kvs fs IH 0%Z).
  - assert ((exists k x, of_mp (TEnum vs) m = read_variant k x 0 vs) \/ of_mp (TEnum vs) m = read_unit_variant m 0 vs) as [(k & x & H)|H].
    { destruct m as [| | | | | | |[|[k x] [|]]]; try (right; reflexivity). left. by exists k, x. }
    + rewrite H in E. apply gives_variant in E as (n & o & -> & Hv); [exact Hv|exact IH].
    + rewrite H in E. apply gives_unit_variant in E as (n & -> & Hv). exact Hv.
Qed.
(** Whatever the bytes are: what is taken out of them is a value of the type asked for. *)
Theorem C103_typed : forall t limit b d, deserialize limit t b = Some d -> has_type t d.
Proof. intros t limit b d. unfold deserialize. destruct (r_mp limit b) as [[m r]|]; [|done]. apply of_mp_gives. Qed.
Print Assumptions C103_typed.

(** Every id that is taken out of a message is one that a node could have sent: an id is never 0 and has 64 bits, an
    address has 4 or 16 octets and a port of 16 bits. *)
Lemma dseq_typed ts d : has_type (TTup ts) d -> exists l, d = Dseq l /\ tuple_typed ts l.
Proof. destruct d; try done. eauto. Qed.
Lemma int_typed lo hi d : has_type (TInt lo hi) d -> exists z, d = Dint z /\ (lo <= z <= hi)%Z.
Proof. destruct d; try done. eauto. Qed.
Lemma le_unle b : le (length b) (unle b) = b.
Proof.
  induction b as [|c b IH]; [done|]. cbn [length le unle]. pose proof (N_ascii_bounded c) as Hc.
  assert ((N_of_ascii c + 256 * unle b) mod 256 = N_of_ascii c) as ->.
  { rewrite (N.add_comm (N_of_ascii c)), N.mul_comm, N.add_comm, N.mod_add by lia. by apply N.mod_small. }
  assert ((N_of_ascii c + 256 * unle b) / 256 = unle b) as ->.
  { rewrite N.mul_comm, N.div_add by lia. rewrite N.div_small by lia. lia. }
  by rewrite ascii_N_embedding, IH.
Qed.
Lemma octets_onto n d : has_type (TTup (replicate n u8_ty)) d -> exists x, x < 256 ^ N.of_nat n /\ d = octets n x.
Proof.
  intros H. apply dseq_typed in H as (l & -> & H).
  assert (exists c : bytes, length c = n /\ l = map (fun c => Dint (Z.of_N (N_of_ascii c))) c) as (c & Hc & ->).
  { revert l H. induction n as [|n IH]; intros [|d l] H; try done; [by exists []|]. destruct H as [Hd Hl].
    apply int_typed in Hd as (z & -> & Hz). destruct (IH l Hl) as (c & Hc & ->). exists (ascii_of_N (Z.to_N z) :: c). cbn.
    rewrite N_ascii_embedding by lia. rewrite Z2N.id by lia. by rewrite Hc. }
  exists (unle (rev c)). assert (length (rev c) = n) as Hr by (by rewrite rev_length).
  split; [rewrite <- Hr; apply CodecValid.unle_bound|]. unfold octets, be. rewrite <- Hr at 1. rewrite le_unle. by rewrite rev_involutive.
Qed.

Lemma addr_onto d : has_type addr_ty d -> exists a, d = addr_datum a /\ addr_ok a.
Proof.
  destruct d as [| | | | | | | | | | |n o]; try done. intros [[<- H]|[[<- H]|[]]]; destruct o as [d|]; try done;
    apply dseq_typed in H as (l & -> & H); destruct l as [|x [|p [|]]]; try (by destruct H as (? & ? & ?)); try (by destruct H as (? & ?)); try (by destruct H);
    destruct H as (Hx & Hp & _); apply octets_onto in Hx as (ip & Hip & ->); apply int_typed in Hp as (z & -> & Hz).
  - exists (SA4 ip (Z.to_N z)). split; [unfold addr_datum; by rewrite Z2N.id by lia|]. split; [exact Hip|]. change (2 ^ 16) with 65536. lia.
  - exists (SA6 ip (Z.to_N z) 0 0). split; [unfold addr_datum; by rewrite Z2N.id by lia|]. split; [exact Hip|]. change (2 ^ 16) with 65536. lia.
Qed.
(** The id, with the bounds written out. *)
Definition genuine_id (x : id_wire) : Prop :=
  match x with
  | WithNode i _ (SA4 ip port) => 0 < i <= 18446744073709551615 /\ ip <= 4294967295 /\ port <= 65535
  | WithNode i _ (SA6 ip port _ _) => 0 < i <= 18446744073709551615 /\ ip <= 340282366920938463463374607431768211455 /\ port <= 65535
  | NodeUnavailable i => 0 < i <= 18446744073709551615
  end.
Lemma id_onto d : has_type id_ty d -> exists x, d = id_datum x /\ genuine_id x.
Proof.
  destruct d as [| | | | | | | | | | |n o]; try done. intros [[<- H]|[[<- H]|[]]]; destruct o as [d|]; try done.
  - apply dseq_typed in H as (l & -> & H). destruct l as [|x [|y [|z [|]]]]; try (by repeat destruct H as [? H]).
    destruct H as (Hi & Hn & Ha & _). apply int_typed in Hi as (z' & -> & Hz). destruct y; try done. apply addr_onto in Ha as (a & -> & Ha).
    exists (WithNode (Z.to_N z') s a). split; [unfold id_datum; by rewrite Z2N.id by lia|].
    change (2 ^ 64 - 1)%Z with 18446744073709551615%Z in Hz.
    destruct a as [ip port|ip port f g]; destruct Ha as [H1 H2]; change (2 ^ 16) with 65536 in H2; cbn; [change (2 ^ 32) with 4294967296 in H1|change (2 ^ 128) with 340282366920938463463374607431768211456 in H1]; lia.
  - apply int_typed in H as (z & -> & Hz). change (2 ^ 64 - 1)%Z with 18446744073709551615%Z in Hz.
    exists (NodeUnavailable (Z.to_N z)). split; [unfold id_datum; by rewrite Z2N.id by lia|]. cbn. lia.
Qed.
Theorem C103_ids : forall limit b d, deserialize limit id_ty b = Some d -> exists x, d = id_datum x /\ genuine_id x.
Proof. intros limit b d H. apply id_onto. by eapply C103_typed. Qed.
Print Assumptions C103_ids.
(** The messages of a GenServer: one of the four, with a sender that could exist. *)
Theorem C103_gen_server_messages : forall T limit b d, deserialize limit (gen_ty T) b = Some d ->
  (exists x, d = Denum "$gen_cast" (Some x) /\ has_type T x) \/
  (exists p t a x, d = Denum "$gen_call" (Some (Dseq [Drec [("pid"%string, id_datum p); ("tag"%string, id_datum t); ("alias"%string, Dbool a)]; x])) /\
     genuine_id p /\ genuine_id t /\ has_type T x) \/
  (exists t x, d = Denum "$gen_reply" (Some (Dseq [id_datum t; x])) /\ genuine_id t /\ has_type T x) \/
  (exists r, d = Denum "$gen_stop" (Some (reason_datum r))).
Proof.
  intros T limit b d H. apply C103_typed in H. destruct d as [| | | | | | | | | | |n o]; try done.
  destruct H as [[<- H]|[[<- H]|[[<- H]|[[<- H]|[]]]]]; destruct o as [d|]; try done.
  - left. eauto.
  - right. left. apply dseq_typed in H as (l & -> & H). destruct l as [|f [|x [|]]]; try (by repeat destruct H as [? H]). destruct H as (Hf & Hx & _).
    destruct f as [| | | | | | | | | |l|]; try done. destruct l as [|[n1 p] [|[n2 t] [|[n3 a] [|]]]]; try (by repeat destruct Hf as [? Hf]).
    destruct Hf as (<- & Hp & <- & Ht & <- & Ha & _). apply id_onto in Hp as (p' & -> & Hp). apply id_onto in Ht as (t' & -> & Ht). destruct a; try done. eauto 10.
  - right. right. left. apply dseq_typed in H as (l & -> & H). destruct l as [|t [|x [|]]]; try (by repeat destruct H as [? H]). destruct H as (Ht & Hx & _).
    apply id_onto in Ht as (t' & -> & Ht). eauto 10.
  - right. right. right. destruct d as [| | | | | | | | | | |n o]; try done.
    destruct H as [[<- H]|[[<- H]|[[<- H]|[[<- H]|[]]]]]; destruct o as [d|]; try done; [exists RNormal|exists RKill|exists RIgnore|]; try done.
    destruct d; try done. by exists (RCustom s).
Qed.
Print Assumptions C103_gen_server_messages.
(** Bytes that carry the id 0, an octet 256 or a port 65536 are refused; the largest id is not. *)
Example C103_example :
  deserialize 1024 id_ty (serialize (id_datum (NodeUnavailable 0))) = None /\
  deserialize 1024 id_ty (serialize (id_datum (WithNode 7 "n" (SA4 1 65536)))) = None /\
  deserialize 1024 id_ty (serialize (id_datum (NodeUnavailable 18446744073709551615))) = Some (id_datum (NodeUnavailable 18446744073709551615)) /\
  deserialize 1024 id_ty (serialize (id_datum (WithNode 7 "n" (SA4 16909060 80)))) = Some (id_datum (WithNode 7 "n" (SA4 16909060 80))) /\
  deserialize 1024 (TSeq (TInt 0 255)) (serialize (Dseq [Dint 0; Dint 256])) = None /\
  deserialize 1024 (TInt (-128) 127) (serialize (Dint 200)) = None.
Proof. vm_compute. auto 10. Qed.

(** ** C104 *)
(** A key of a map names the field [n], which is the [i]th, by its text or by its index. *)
Definition names (k : mp) (i : nat) (n : string) : Prop := k = PStr n \/ k = PInt (Z.of_nat i).
(** It can name a field at all. *)
Definition a_name (k : mp) : Prop := (exists s, k = PStr s) \/ (exists z, (0 <= z)%Z /\ k = PInt z).
(** What a struct with the fields [fs] is when it arrives as the map [kvs]: every key can be a name; no field is named
    twice; a field that is named has the value that stands there; a field that is not named is an option, and None. *)
Definition record_of (fs : list (string * ty)) (kvs : list (mp * mp)) (l : list (string * datum)) : Prop :=
  Forall (fun kv => a_name (fst kv)) kvs /\
  map fst l = map fst fs /\
  forall i n t d, fs !! i = Some (n, t) -> l !! i = Some (n, d) ->
    (exists j k m, kvs !! j = Some (k, m) /\ names k i n /\ of_mp t m = Some d /\
       forall j' k' m', kvs !! j' = Some (k', m') -> names k' i n -> j' = j) \/
    ((forall j k m, kvs !! j = Some (k, m) -> ~ names k i n) /\ (exists u, t = TOpt u) /\ d = Dopt None).
Lemma names_ident k i n : ident_is k (Z.of_nat i) n = true <-> names k i n.
Proof.
  unfold names, ident_is. destruct k; try (split; [done|intros [|]; done]); rewrite bool_decide_eq_true; split; try (intros ->; auto); intros [[=]|[=]]; auto.
Qed.
Lemma a_name_ident k : is_ident k = true <-> a_name k.
Proof.
  unfold a_name, is_ident. destruct k; try (split; [done|intros [(? & [=])|(? & ? & [=])]]).
  - rewrite Z.leb_le. split; [eauto|]. intros [(? & [=])|(? & ? & [=])]. by subst.
  - split; [eauto|done].
Qed.
Section one.
  Context {A : Type} (P : A -> Prop) `{forall x, Decision (P x)}.
  Lemma filter_none l : filter P l = [] <-> forall j x, l !! j = Some x -> ~ P x.
  Proof.
    induction l as [|a l IH]; [by split|]. destruct (decide (P a)) as [Ha|Ha].
    - rewrite filter_cons_True by done. split; [done|]. intros H'. by destruct (H' 0%nat a eq_refl).
    - rewrite filter_cons_False by done. rewrite IH. split.
      + intros H' [|j] x E; [by injection E as <-|by eapply H'].
      + intros H' j x E. by apply (H' (Datatypes.S j)).
  Qed.
  Lemma filter_one l x : filter P l = [x] <-> exists j, l !! j = Some x /\ P x /\ forall j' y, l !! j' = Some y -> P y -> j' = j.
  Proof.
    induction l as [|a l IH]; [split; [done|by intros (j & [=] & _)]|]. destruct (decide (P a)) as [Ha|Ha].
    - rewrite filter_cons_True by done. split.
      + intros [= -> H']. exists 0%nat. split; [done|]. split; [done|]. intros [|j'] y E Hy; [done|]. by destruct (proj1 (filter_none l) H' j' y E).
      + intros (j & E & Hx & Hu). assert (j = 0%nat) as -> by (symmetry; by apply (Hu 0%nat a)). injection E as ->. f_equal. apply filter_none.
        intros j y E Hy. by specialize (Hu (Datatypes.S j) y E Hy).
    - rewrite filter_cons_False by done. rewrite IH. split.
      + intros (j & E & Hx & Hu). exists (Datatypes.S j). split; [done|]. split; [done|]. intros [|j'] y E' Hy; [by injection E' as ->|]. f_equal. by eapply Hu.
      + intros ([|j] & E & Hx & Hu); [by injection E as ->|]. exists j. split; [done|]. split; [done|]. intros j' y E' Hy. by specialize (Hu (Datatypes.S j') y E' Hy) as [= ->].
  Qed.
End one.
Definition cell (kvs : list (mp * mp)) (i : Z) (n : string) (t : ty) : option datum :=
  match get kvs i n with Some m => of_mp t m | None => match t with TOpt _ => Some (Dopt None) | _ => None end end.
Definition hits (kvs : list (mp * mp)) (i : Z) (n : string) : list (mp * mp) := filter (fun kv => ident_is (fst kv) i n = true) kvs.
Definition field_of (kvs : list (mp * mp)) (i : nat) (n : string) (t : ty) (d : datum) : Prop :=
  (exists j k m, kvs !! j = Some (k, m) /\ names k i n /\ of_mp t m = Some d /\
     forall j' k' m', kvs !! j' = Some (k', m') -> names k' i n -> j' = j) \/
  ((forall j k m, kvs !! j = Some (k, m) -> ~ names k i n) /\ (exists u, t = TOpt u) /\ d = Dopt None).
Lemma field_spec kvs i n t d : (length (hits kvs (Z.of_nat i) n) <= 1)%nat /\ cell kvs (Z.of_nat i) n t = Some d <-> field_of kvs i n t d.
Proof.
  unfold cell, get. fold (hits kvs (Z.of_nat i) n). split.
  - intros [Hl Hc]. destruct (hits kvs (Z.of_nat i) n) as [|[k m] [|]] eqn:E; cbn in Hl, Hc; [| |lia].
    + right. split.
      * intros j k m Ej. pose proof (proj1 (filter_none _ _) E j _ Ej) as H. cbn in H. by rewrite names_ident in H.
      * destruct t; try discriminate. injection Hc as <-. eauto.
    + left. apply filter_one in E as (j & Ej & Hn & Hu). cbn in Hn. apply names_ident in Hn. exists j, k, m. split; [done|]. split; [done|]. split; [done|].
      intros j' k' m' Ej' Hn'. apply (Hu j' _ Ej'). by apply names_ident.
  - intros [(j & k & m & Ej & Hn & Hd & Hu)|(Hno & (u & ->) & ->)].
    + assert (hits kvs (Z.of_nat i) n = [(k, m)]) as ->.
      { apply filter_one. exists j. split; [done|]. split; [by apply names_ident|]. intros j' [k' m'] Ej' Hn'. apply (Hu j' k' m' Ej'). by apply names_ident. }
      cbn. split; [lia|done].
    + assert (hits kvs (Z.of_nat i) n = []) as ->; [|cbn; split; [lia|done]].
      apply filter_none. intros j [k m] Ej Hn. apply (Hno j k m Ej). by apply names_ident.
Qed.
Lemma fields_spec kvs fs : forall i0 l, (given_once (Z.of_nat i0) fs kvs = true /\ read_fields kvs (Z.of_nat i0) fs = Some l) <->
  map fst l = map fst fs /\ forall i n t d, fs !! i = Some (n, t) -> l !! i = Some (n, d) -> field_of kvs (i0 + i) n t d.
Proof.
  induction fs as [|[n t] fs IH]; intros i0 l.
  - cbn. split; [intros [_ [= <-]]; done|]. intros [H _]. split; [done|]. by destruct l.
  - cbn [given_once read_fields]. fold (read_fields kvs). rewrite andb_true_iff, Nat.leb_le. fold (hits kvs (Z.of_nat i0) n). fold (cell kvs (Z.of_nat i0) n t).
    replace (Z.of_nat i0 + 1)%Z with (Z.of_nat (Datatypes.S i0)) by lia. split.
    + intros [[Hl Hg] Hr]. destruct (cell kvs (Z.of_nat i0) n t) as [d|] eqn:Ec; [|discriminate].
      destruct (read_fields kvs (Z.of_nat (Datatypes.S i0)) fs) as [r|] eqn:Er; [|discriminate]. injection Hr as <-.
      destruct (proj1 (IH (Datatypes.S i0) r) (conj Hg Er)) as [Hn Hf]. split; [cbn; by rewrite Hn|].
      intros [|i] n' t' d' E1 E2.
      * injection E1 as -> ->. injection E2 as ->. rewrite Nat.add_0_r. apply field_spec. done.
      * rewrite Nat.add_succ_r. exact (Hf i n' t' d' E1 E2).
    + intros [Hn Hf]. destruct l as [|[n' d] l]; [discriminate|]. cbn in Hn. injection Hn as -> Hn.
      pose proof (Hf 0%nat n t d eq_refl eq_refl) as H0. rewrite Nat.add_0_r in H0. apply field_spec in H0 as [Hl Hc]. rewrite Hc.
      destruct (proj2 (IH (Datatypes.S i0) l)) as [Hg Hr].
      { split; [done|]. intros i n' t' d' E1 E2. specialize (Hf (Datatypes.S i) n' t' d' E1 E2). by rewrite Nat.add_succ_r in Hf. }
      rewrite Hr. auto.
Qed.
Lemma record_spec fs kvs d : of_mp (TStruct fs) (PMap kvs) = Some d <-> exists l, d = Drec l /\ record_of fs kvs l.
Proof.
  cbn [of_mp]. fold (read_fields kvs). change (read_fields kvs 0 fs) with (read_fields kvs (Z.of_nat 0) fs). change (given_once 0 fs kvs) with (given_once (Z.of_nat 0) fs kvs).
  assert (forallb (fun kv => is_ident (fst kv)) kvs = true <-> Forall (fun kv => a_name (fst kv)) kvs) as Hid.
  { rewrite forallb_forall, List.Forall_forall. split; intros H kv Hkv; apply a_name_ident; auto. }
  split.
  - intros H. destruct (forallb _ kvs) eqn:E1; [|discriminate]. destruct (given_once _ fs kvs) eqn:E2; [|discriminate].
    destruct (read_fields kvs _ fs) as [l|] eqn:E3; [|discriminate]. injection H as <-. exists l. split; [done|].
    destruct (proj1 (fields_spec kvs fs 0%nat l) (conj E2 E3)) as [H1 H2]. split; [by apply Hid|]. split; [exact H1|]. exact H2.
  - intros (l & -> & H1 & H2 & H3). apply Hid in H1. rewrite H1. destruct (proj2 (fields_spec kvs fs 0%nat l) (conj H2 H3)) as [-> ->]. done.
Qed.
(** A struct that arrives with its field names. *)
Theorem C104_records : forall limit fs b kvs rest d, r_mp limit b = Some (PMap kvs, rest) ->
  (deserialize limit (TStruct fs) b = Some d <-> exists l, d = Drec l /\ record_of fs kvs l).
Proof. intros limit fs b kvs rest d E. unfold deserialize. rewrite E. apply record_spec. Qed.
Print Assumptions C104_records.
(** What a variant is when it arrives: its name or number alone if it has no payload; or a map of one entry, from its
    name or number to the payload (to nil, if it has none). *)
Definition variant_of (vs : list (string * option ty)) (m : mp) (d : datum) : Prop :=
  exists i n ot, vs !! i = Some (n, ot) /\
    ((names m i n /\ ot = None /\ d = Denum n None) \/
     (exists k x, m = PMap [(k, x)] /\ names k i n /\
        match ot with None => x = PNil /\ d = Denum n None | Some t => exists y, of_mp t x = Some y /\ d = Denum n (Some y) end)).
Lemma names_same (vs : list (string * option ty)) k i i' n n' ot ot' : NoDup (map fst vs) -> vs !! i = Some (n, ot) -> vs !! i' = Some (n', ot') ->
  names k i n -> names k i' n' -> i = i' /\ n = n' /\ ot = ot'.
Proof.
  intros Hnd E E' [->| ->] [H|H]; try discriminate; injection H as H.
  - subst n'. assert (i = i') as <-; [|split; [done|split; [done|congruence]]].
    apply (NoDup_lookup (map fst vs) i i' n Hnd); rewrite list_lookup_fmap; [by rewrite E|by rewrite E'].
  - assert (i = i') as <- by lia. split; [done|]. by simplify_eq.
Qed.
Lemma variant_spec k x vs : forall i0 d, read_variant k x (Z.of_nat i0) vs = Some d -> exists i n ot, vs !! i = Some (n, ot) /\ names k (i0 + i) n /\
  match ot with None => x = PNil /\ d = Denum n None | Some t => exists y, of_mp t x = Some y /\ d = Denum n (Some y) end.
Proof.
  induction vs as [|[n ot] vs IH]; intros i0 d E; cbn in E; [discriminate|]. fold (read_variant k x) in E. destruct (ident_is k (Z.of_nat i0) n) eqn:En.
  - apply names_ident in En. exists 0%nat, n, ot. rewrite Nat.add_0_r. split; [done|]. split; [done|]. destruct ot as [t|].
    + destruct (of_mp t x) as [y|]; [|discriminate]. injection E as <-. eauto.
    + destruct x; try discriminate. by injection E as <-.
  - replace (Z.of_nat i0 + 1)%Z with (Z.of_nat (Datatypes.S i0)) in E by lia. destruct (IH _ _ E) as (i & n' & ot' & H1 & H2 & H3).
    exists (Datatypes.S i), n', ot'. rewrite Nat.add_succ_r. done.
Qed.
Lemma variant_spec_unit k vs : forall i0 d, read_unit_variant k (Z.of_nat i0) vs = Some d -> exists i n, vs !! i = Some (n, None) /\ names k (i0 + i) n /\ d = Denum n None.
Proof.
  induction vs as [|[n ot] vs IH]; intros i0 d E; cbn in E; [discriminate|]. fold (read_unit_variant k) in E. destruct (ident_is k (Z.of_nat i0) n) eqn:En.
  - apply names_ident in En. destruct ot as [t|]; [discriminate|]. injection E as <-. exists 0%nat, n. rewrite Nat.add_0_r. done.
  - replace (Z.of_nat i0 + 1)%Z with (Z.of_nat (Datatypes.S i0)) in E by lia. destruct (IH _ _ E) as (i & n' & H1 & H2 & H3).
    exists (Datatypes.S i), n'. rewrite Nat.add_succ_r. done.
Qed.
(** The first variant that the key names is the one that is read. *)
Lemma variant_reads k x vs : forall i0 i n ot, vs !! i = Some (n, ot) -> names k (i0 + i) n ->
  (forall i' n' ot', vs !! i' = Some (n', ot') -> names k (i0 + i') n' -> i' = i) ->
  read_variant k x (Z.of_nat i0) vs = match ot, x with None, PNil => Some (Denum n None) | None, _ => None | Some t, _ => (fun y => Denum n (Some y)) <$> of_mp t x end /\
  read_unit_variant k (Z.of_nat i0) vs = match ot with None => Some (Denum n None) | Some _ => None end.
Proof.
  induction vs as [|[n0 ot0] vs IH]; intros i0 i n ot E Hn Hu; [discriminate|]. cbn [read_variant read_unit_variant]. fold (read_variant k x). fold (read_unit_variant k).
  destruct (ident_is k (Z.of_nat i0) n0) eqn:En.
  - apply names_ident in En. assert (i = 0%nat) as ->. { symmetry. apply (Hu 0%nat n0 ot0); [done|by rewrite Nat.add_0_r]. }
    injection E as -> ->. done.
  - destruct i as [|i].
    { injection E as -> ->. rewrite Nat.add_0_r in Hn. apply names_ident in Hn. congruence. }
    replace (Z.of_nat i0 + 1)%Z with (Z.of_nat (Datatypes.S i0)) by lia. apply (IH (Datatypes.S i0) i); [done|by rewrite Nat.add_succ_l, <- Nat.add_succ_r|].
    intros i' n' ot' E' H'. specialize (Hu (Datatypes.S i') n' ot' E'). rewrite Nat.add_succ_r in Hu. specialize (Hu H'). lia.
Qed.
Lemma enum_spec vs m d : NoDup (map fst vs) -> of_mp (TEnum vs) m = Some d <-> variant_of vs m d.
Proof.
  intros Hnd.
  assert (forall k i n ot, vs !! i = Some (n, ot) -> names k i n -> forall i' n' ot', vs !! i' = Some (n', ot') -> names k i' n' -> i' = i) as Hone.
  { intros k i n ot E Hn i' n' ot' E' Hn'. symmetry. by eapply names_same. }
  assert ((exists k x, m = PMap [(k, x)] /\ of_mp (TEnum vs) m = read_variant k x (Z.of_nat 0) vs) \/
          ((forall k x, m <> PMap [(k, x)]) /\ of_mp (TEnum vs) m = read_unit_variant m (Z.of_nat 0) vs)) as [(k & x & -> & ->)|[Hm ->]].
  { destruct m as [| | | | | | |[|[k x] [|]]]; try (right; split; [done|reflexivity]). left. by exists k, x. }
  - split.
    + intros H. apply variant_spec in H as (i & n & ot & H1 & H2 & H3). exists i, n, ot. split; [done|]. right. eauto.
    + intros (i & n & ot & E & [([H|H] & _)|(k' & x' & [= <- <-] & Hn & H)]); try discriminate.
      rewrite (proj1 (variant_reads k x vs 0 i n ot E Hn (Hone k i n ot E Hn))). destruct ot as [t|]; [|by destruct H as [-> ->]].
      destruct H as (y & -> & ->). done.
  - split.
    + intros H. apply variant_spec_unit in H as (i & n & H1 & H2 & H3). exists i, n, None. split; [done|]. by left.
    + intros (i & n & ot & E & [(Hn & -> & ->)|(k' & x' & Hk & _)]); [|by destruct (Hm k' x')].
      by rewrite (proj2 (variant_reads m PNil vs 0 i n None E Hn (Hone m i n None E Hn))).
Qed.
Theorem C104_variants : forall limit vs b m rest d, NoDup (map fst vs) -> r_mp limit b = Some (m, rest) ->
  (deserialize limit (TEnum vs) b = Some d <-> variant_of vs m d).
Proof. intros limit vs b m rest d Hnd E. unfold deserialize. rewrite E. by apply enum_spec. Qed.
Print Assumptions C104_variants.
(** A struct whose fields come in another order, by number, with a field it does not have, and without its optional
    field; the same with a field twice, with a key that is a boolean, and without its other field. *)
Definition person : ty := TStruct [("name"%string, TStr); ("age"%string, TOpt (TInt 0 255)); ("id"%string, TInt 0 65535)].
Definition sent (kvs : list (mp * mp)) : option datum := deserialize 1024 person (e_mp (PMap kvs)).
Example C104_example :
  sent [(PInt 2, PInt 7); (PStr "more", PArr [PNil]); (PStr "name", PStr "x")] =
    Some (Drec [("name"%string, Dstr "x"); ("age"%string, Dopt None); ("id"%string, Dint 7)]) /\
  sent [(PInt 2, PInt 7); (PStr "name", PStr "x"); (PInt 0, PStr "y")] = None /\
  sent [(PInt 2, PInt 7); (PStr "id", PInt 8); (PStr "name", PStr "x")] = None /\
  sent [(PInt 2, PInt 7); (PBool true, PInt 8); (PStr "name", PStr "x")] = None /\
  sent [(PInt (-1), PInt 7); (PStr "id", PInt 8); (PStr "name", PStr "x")] = None /\
  sent [(PStr "id", PInt 8); (PStr "age", PInt 9)] = None /\
  (exists b kvs rest, b = e_mp (PMap kvs) /\ r_mp 1024 b = Some (PMap kvs, rest) /\ record_of [("name"%string, TStr)] kvs [("name"%string, Dstr "x")]) /\
  deserialize 1024 reason_ty (e_mp (PInt 1)) = Some (Denum "Kill" None) /\
  deserialize 1024 reason_ty (e_mp (PMap [(PInt 3, PStr "x")])) = Some (Denum "Custom" (Some (Dstr "x"))) /\
  deserialize 1024 reason_ty (e_mp (PStr "Custom")) = None.
Proof.
  split; [vm_compute; reflexivity|]. split; [vm_compute; reflexivity|]. split; [vm_compute; reflexivity|]. split; [vm_compute; reflexivity|].
  split; [vm_compute; reflexivity|]. split; [vm_compute; reflexivity|]. split; [|split; [vm_compute; reflexivity|split; vm_compute; reflexivity]].
  exists (e_mp (PMap [(PStr "name", PStr "x")])), [(PStr "name", PStr "x")], []. split; [done|]. split; [vm_compute; reflexivity|].
  assert (of_mp (TStruct [("name"%string, TStr)]) (PMap [(PStr "name", PStr "x")]) = Some (Drec [("name"%string, Dstr "x")])) as E by (vm_compute; reflexivity).
  apply record_spec in E as (l & [= <-] & H). exact H.
Qed.
