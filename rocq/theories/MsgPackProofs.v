(** Lemmas for C100, C101. *)
From stdpp Require Import base list numbers strings.
From Coq Require Import Ascii NArith ZArith Lia ZifyNat ZifyN ZifyBool.
From Verif Require Import Types Codec CodecProofs MsgPack MsgPackSpec.
Local Open Scope N_scope.

(** ** Induction *)
Section inds.
  Context (P : mp -> Prop).
  Hypotheses (Hnil : P PNil) (Hb : forall b, P (PBool b)) (Hi : forall z, P (PInt z)) (H32 : forall n, P (PF32 n))
    (H64 : forall n, P (PF64 n)) (Hs : forall s, P (PStr s)) (Ha : forall l, Forall P l -> P (PArr l))
    (Hm : forall l, Forall (fun e => P (fst e) /\ P (snd e)) l -> P (PMap l)).
  Fixpoint mp_ind' (m : mp) : P m :=
    match m with
    | PNil => Hnil | PBool b => Hb b | PInt z => Hi z | PF32 n => H32 n | PF64 n => H64 n | PStr s => Hs s
    | PArr l => Ha l ((fix go l : Forall P l := match l with [] => Forall_nil_2 _ | m :: l => Forall_cons_2 _ _ _ (mp_ind' m) (go l) end) l)
    | PMap l => Hm l ((fix go l : Forall (fun e => P (fst e) /\ P (snd e)) l :=
        match l with [] => Forall_nil_2 _ | e :: l => Forall_cons_2 _ _ _ (conj (mp_ind' (fst e)) (mp_ind' (snd e))) (go l) end) l)
    end.
End inds.
Section indd.
  Context (P : datum -> Prop).
  Hypotheses (H1 : P Dunit) (H2 : P Dempty) (H3 : forall b, P (Dbool b)) (H4 : forall z, P (Dint z)) (H5 : forall n, P (Df32 n))
    (H6 : forall n, P (Df64 n)) (H7 : forall s, P (Dstr s)) (H8 : P (Dopt None)) (H9 : forall d, P d -> P (Dopt (Some d)))
    (Ha : forall l, Forall P l -> P (Dseq l))
    (Hm : forall l, Forall (fun e => P (fst e) /\ P (snd e)) l -> P (Dmap l))
    (Hr : forall l : list (string * datum), Forall (fun e => P (snd e)) l -> P (Drec l))
    (He : forall n, P (Denum n None)) (He' : forall n d, P d -> P (Denum n (Some d))).
  Fixpoint datum_ind' (d : datum) : P d :=
    match d with
    | Dunit => H1 | Dempty => H2 | Dbool b => H3 b | Dint z => H4 z | Df32 n => H5 n | Df64 n => H6 n | Dstr s => H7 s
    | Dopt None => H8 | Dopt (Some d) => H9 d (datum_ind' d)
    | Dseq l => Ha l ((fix go l : Forall P l := match l with [] => Forall_nil_2 _ | m :: l => Forall_cons_2 _ _ _ (datum_ind' m) (go l) end) l)
    | Dmap l => Hm l ((fix go l : Forall (fun e => P (fst e) /\ P (snd e)) l :=
        match l with [] => Forall_nil_2 _ | e :: l => Forall_cons_2 _ _ _ (conj (datum_ind' (fst e)) (datum_ind' (snd e))) (go l) end) l)
    | Drec l => Hr l ((fix go l : Forall (fun e => P (snd e)) l :=
        match l with [] => Forall_nil_2 _ | e :: l => Forall_cons_2 _ _ _ (datum_ind' (snd e)) (go l) end) l)
    | Denum n None => He n | Denum n (Some d) => He' n d (datum_ind' d)
    end.
End indd.

Lemma each_Forall {A} (P : A -> Prop) l : each P l <-> Forall P l.
Proof. induction l as [|x l IH]; cbn; [by split|]. rewrite IH. split; [intros [? ?]; by constructor|by inversion 1]. Qed.

(** ** The format *)
Fixpoint depth (m : mp) : nat :=
  match m with
  | PArr l => S (maximum (map depth l))
  | PMap l => S (maximum (map (fun e => Nat.max (depth (fst e)) (depth (snd e))) l))
  | _ => 1%nat
  end.
Fixpoint wf_mp (m : mp) : Prop :=
  match m with
  | PInt z => (-2 ^ 63 <= z < 2 ^ 64)%Z
  | PF32 n => n < 2 ^ 32
  | PF64 n => n < 2 ^ 64
  | PStr s => text_ok s
  | PArr l => len l < 2 ^ 32 /\ each wf_mp l
  | PMap l => len l < 2 ^ 32 /\ each (fun e => wf_mp (fst e) /\ wf_mp (snd e)) l
  | _ => True
  end.

Lemma be_length n x : length (be n x) = n.
Proof. unfold be. by rewrite rev_length, le_length. Qed.
Lemma r_take_app n x rest : len x = n -> r_take n (x ++ rest) = Some (x, rest).
Proof.
  intros H. unfold r_take, len in *. rewrite app_length.
  destruct (N.ltb_spec (N.of_nat (length x + length rest)) n); [lia|].
  replace (N.to_nat n) with (length x) by lia. by rewrite take_app, drop_app.
Qed.
Lemma r_be_app (n : nat) k x rest : k = N.of_nat n -> x < 256 ^ N.of_nat n -> r_be k (be n x ++ rest) = Some (x, rest).
Proof.
  intros -> H. unfold r_be. rewrite r_take_app by (unfold len; by rewrite be_length).
  unfold be. by rewrite rev_involutive, unle_le.
Qed.
Lemma byte_val n : n < 256 -> N_of_ascii (byte n) = n.
Proof. apply N_ascii_embedding. Qed.
Ltac decides := repeat match goal with
  | |- context [?a <? ?b] => first [rewrite (proj2 (N.ltb_lt a b)) by lia | rewrite (proj2 (N.ltb_ge a b)) by lia]
  | |- context [?a <=? ?b] => first [rewrite (proj2 (N.leb_le a b)) by lia | rewrite (proj2 (N.leb_gt a b)) by lia]
  end.
Lemma r_int_app (n : nat) k signed x rest : k = N.of_nat n -> x < 256 ^ N.of_nat n ->
  r_int k signed (be n x ++ rest) =
  Some (PInt (if signed && (2 ^ (8 * k - 1) <=? x) then (Z.of_N x - Z.of_N (2 ^ (8 * k)))%Z else Z.of_N x), rest).
Proof. intros Hk Hx. unfold r_int. by rewrite (r_be_app n). Qed.
Lemma read_int d z rest : (-2 ^ 63 <= z < 2 ^ 64)%Z -> r_mp (S d) (e_int z ++ rest) = Some (PInt z, rest).
Proof.
  intros H. unfold e_int. destruct (Z.leb_spec 0 z).
  - set (n := Z.to_N z). assert (Hz : z = Z.of_N n) by lia. assert (Hn : n < 2 ^ 64) by lia. clearbody n. subst z. clear H H0.
    destruct (N.ltb_spec n (2 ^ 7)).
    { cbn [app r_mp]. rewrite byte_val by lia. decides. reflexivity. }
    destruct (N.ltb_spec n (2 ^ 8)); [|destruct (N.ltb_spec n (2 ^ 16)); [|destruct (N.ltb_spec n (2 ^ 32))]];
      cbn [app]; unfold byte; cbn [r_mp ascii_of_N N_of_ascii].
    + change (r_int 1 false (be 1 n ++ rest) = Some (PInt (Z.of_N n), rest)). by rewrite (r_int_app 1).
    + change (r_int 2 false (be 2 n ++ rest) = Some (PInt (Z.of_N n), rest)). by rewrite (r_int_app 2).
    + change (r_int 4 false (be 4 n ++ rest) = Some (PInt (Z.of_N n), rest)). by rewrite (r_int_app 4).
    + change (r_int 8 false (be 8 n ++ rest) = Some (PInt (Z.of_N n), rest)). by rewrite (r_int_app 8).
  - destruct (Z.leb_spec (-32) z).
    { cbn [app r_mp]. rewrite byte_val by lia. change (2 ^ 8)%Z with 256%Z. decides. do 2 f_equal. f_equal. lia. }
    destruct (Z.leb_spec (-2 ^ 7) z); [|destruct (Z.leb_spec (-2 ^ 15) z); [|destruct (Z.leb_spec (-2 ^ 31) z)]]; cbn [app].
    + change (r_int 1 true (be 1 (Z.to_N (2 ^ 8 + z)) ++ rest) = Some (PInt z, rest)). rewrite (r_int_app 1) by (reflexivity || (change (256 ^ N.of_nat 1) with 256; lia)).
      change (2 ^ (8 * 1 - 1)) with 128. change (2 ^ (8 * 1)) with 256. decides. cbn [andb]. do 2 f_equal. f_equal. lia.
    + change (r_int 2 true (be 2 (Z.to_N (2 ^ 16 + z)) ++ rest) = Some (PInt z, rest)). rewrite (r_int_app 2) by (reflexivity || (change (256 ^ N.of_nat 2) with 65536; lia)).
      change (2 ^ (8 * 2 - 1)) with 32768. change (2 ^ (8 * 2)) with 65536. decides. cbn [andb]. do 2 f_equal. f_equal. lia.
    + change (r_int 4 true (be 4 (Z.to_N (2 ^ 32 + z)) ++ rest) = Some (PInt z, rest)). rewrite (r_int_app 4) by (reflexivity || (change (256 ^ N.of_nat 4) with 4294967296; lia)).
      change (2 ^ (8 * 4 - 1)) with 2147483648. change (2 ^ (8 * 4)) with 4294967296. decides. cbn [andb]. do 2 f_equal. f_equal. lia.
    + change (r_int 8 true (be 8 (Z.to_N (2 ^ 64 + z)) ++ rest) = Some (PInt z, rest)). rewrite (r_int_app 8) by (reflexivity || (change (256 ^ N.of_nat 8) with 18446744073709551616; lia)).
      change (2 ^ (8 * 8 - 1)) with 9223372036854775808. change (2 ^ (8 * 8)) with 18446744073709551616. decides. cbn [andb]. do 2 f_equal. f_equal. lia.
Qed.
Lemma r_len_app (n : nat) k x rest (f : N -> rd mp) : k = N.of_nat n -> x < 256 ^ N.of_nat n ->
  r_len k f (be n x ++ rest) = f x rest.
Proof. intros Hk Hx. unfold r_len. by rewrite (r_be_app n). Qed.
Lemma read_str_len d n body : n < 2 ^ 32 -> r_mp (S d) (e_str_len n ++ body) = r_str n body.
Proof.
  intros H. unfold e_str_len. destruct (N.ltb_spec n 32).
  { cbn [app r_mp]. rewrite byte_val by lia. decides. f_equal. lia. }
  destruct (N.ltb_spec n (2 ^ 8)); [|destruct (N.ltb_spec n (2 ^ 16))]; cbn [app].
  - change (r_len 1 r_str (be 1 n ++ body) = r_str n body). by rewrite (r_len_app 1).
  - change (r_len 2 r_str (be 2 n ++ body) = r_str n body). by rewrite (r_len_app 2).
  - change (r_len 4 r_str (be 4 n ++ body) = r_str n body). by rewrite (r_len_app 4).
Qed.
Lemma read_arr_len d n body : n < 2 ^ 32 -> r_mp (S d) (e_arr_len n ++ body) = r_arr (r_mp d) n body.
Proof.
  intros H. unfold e_arr_len. destruct (N.ltb_spec n 16).
  { cbn [app r_mp]. rewrite byte_val by lia. decides. f_equal. lia. }
  destruct (N.ltb_spec n (2 ^ 16)); cbn [app].
  - change (r_len 2 (r_arr (r_mp d)) (be 2 n ++ body) = r_arr (r_mp d) n body). by rewrite (r_len_app 2).
  - change (r_len 4 (r_arr (r_mp d)) (be 4 n ++ body) = r_arr (r_mp d) n body). by rewrite (r_len_app 4).
Qed.
Lemma read_map_len d n body : n < 2 ^ 32 -> r_mp (S d) (e_map_len n ++ body) = r_map (r_mp d) n body.
Proof.
  intros H. unfold e_map_len. destruct (N.ltb_spec n 16).
  { cbn [app r_mp]. rewrite byte_val by lia. decides. f_equal. lia. }
  destruct (N.ltb_spec n (2 ^ 16)); cbn [app].
  - change (r_len 2 (r_map (r_mp d)) (be 2 n ++ body) = r_map (r_mp d) n body). by rewrite (r_len_app 2).
  - change (r_len 4 (r_map (r_mp d)) (be 4 n ++ body) = r_map (r_mp d) n body). by rewrite (r_len_app 4).
Qed.
Lemma e_mp_nonempty m : (1 <= length (e_mp m))%nat.
Proof.
  destruct m; cbn; try lia; rewrite ?app_length.
  - unfold e_int. repeat match goal with |- context [if ?c then _ else _] => destruct c end; cbn; lia.
  - unfold e_str_len. repeat match goal with |- context [if ?c then _ else _] => destruct c end; cbn; lia.
  - unfold e_arr_len. repeat match goal with |- context [if ?c then _ else _] => destruct c end; cbn; lia.
  - unfold e_map_len. repeat match goal with |- context [if ?c then _ else _] => destruct c end; cbn; lia.
Qed.
Lemma r_many_app {A} (r : rd A) (e : A -> bytes) l rest fuel :
  Forall (fun x => forall rest, r (e x ++ rest) = Some (x, rest)) l -> (length l <= fuel)%nat ->
  r_many fuel r (len l) (concat (map e l) ++ rest) = Some (l, rest).
Proof.
  revert fuel. induction l as [|x l IH]; intros fuel Hl Hf; [by destruct fuel|].
  destruct fuel as [|fuel]; [cbn in Hf; lia|]. inversion Hl as [|? ? Hx Hl']; subst.
  cbn [map concat]. rewrite <- app_assoc.
  assert (len (x :: l) = N.succ (len l)) as -> by (unfold len; cbn [length]; lia).
  cbn [r_many]. rewrite N.pred_succ. destruct (N.succ (len l)) eqn:E; [lia|]. rewrite Hx, IH by (done || cbn in Hf; lia). done.
Qed.
Lemma concat_length_le {A} (e : A -> bytes) l : (forall x, 1 <= length (e x))%nat -> (length l <= length (concat (map e l)))%nat.
Proof. intros H. induction l as [|x l IH]; cbn; [lia|]. rewrite app_length. specialize (H x). lia. Qed.
Lemma maximum_ge n l : n ∈ l -> (n <= maximum l)%nat.
Proof. induction 1 as [|? ? ? ? IH]; unfold maximum in *; cbn; [apply Nat.le_max_l|]. etransitivity; [exact IH|apply Nat.le_max_r]. Qed.
Lemma read_mp m : forall d rest, wf_mp m -> (depth m <= d)%nat -> r_mp d (e_mp m ++ rest) = Some (m, rest).
Proof.
  induction m as [|b|z|n|n|s|l IH|l IH] using mp_ind'; intros [|d] rest Hw Hd; try (cbn in Hd; lia).
  - done.
  - by destruct b.
  - by apply read_int.
  - cbn [e_mp app]. cbn in Hw. change (match r_be 4 (be 4 n ++ rest) with Some (x, b) => Some (PF32 x, b) | None => None end = Some (PF32 n, rest)).
    by rewrite (r_be_app 4).
  - cbn [e_mp app]. cbn in Hw. change (match r_be 8 (be 8 n ++ rest) with Some (x, b) => Some (PF64 x, b) | None => None end = Some (PF64 n, rest)).
    by rewrite (r_be_app 8).
  - destruct Hw as [Hu Hl]. cbn [e_mp]. rewrite <- app_assoc, read_str_len by exact Hl.
    unfold r_str. rewrite r_take_app by done. rewrite Hu. by rewrite string_of_list_ascii_of_string.
  - destruct Hw as [Hl Hw]. apply each_Forall in Hw. cbn [e_mp]. rewrite <- app_assoc, read_arr_len by exact Hl. unfold r_arr.
    rewrite r_many_app; [done| |].
    + rewrite List.Forall_forall in *. intros x Hx r. apply IH; [done|by apply Hw|]. cbn in Hd.
      enough (depth x <= maximum (map depth l))%nat by lia. apply maximum_ge, elem_of_list_In, in_map, Hx.
    + rewrite app_length. pose proof (concat_length_le e_mp l e_mp_nonempty). lia.
  - destruct Hw as [Hl Hw]. apply each_Forall in Hw. cbn [e_mp]. rewrite <- app_assoc, read_map_len by exact Hl. unfold r_map.
    rewrite r_many_app; [done| |].
    + rewrite List.Forall_forall in *. intros [k v] Hx r. cbn in Hd.
      assert (Nat.max (depth k) (depth v) <= maximum (map (fun e => Nat.max (depth (fst e)) (depth (snd e))) l))%nat
        by (apply maximum_ge, elem_of_list_In, (in_map (fun e => Nat.max (depth (fst e)) (depth (snd e))) l (k, v)), Hx).
      destruct (IH _ Hx) as [IHk IHv], (Hw _ Hx) as [Hk Hv]. cbn in *. unfold r_pair.
      rewrite <- app_assoc, IHk by (done || lia). by rewrite IHv by (done || lia).
    + rewrite app_length. pose proof (concat_length_le (fun e => e_mp (fst e) ++ e_mp (snd e)) l) as Hc.
      assert (H : forall e : mp * mp, (1 <= length (e_mp e.1 ++ e_mp e.2))%nat); [|specialize (Hc H); cbn beta in Hc; clear -Hc; unfold bytes in *; lia].
      intros e. rewrite app_length. pose proof (e_mp_nonempty (fst e)). lia.
Qed.

(** ** What is written is of the right size *)
Lemma to_mp_wf d : sizes_ok d -> wf_mp (to_mp d).
Proof.
  induction d as [ | | | | | | | |d IH|l IH|l IH|l IH| |n d IH] using datum_ind'; cbn; auto.
  - intros _. split; [unfold len; cbn; lia|exact I].
  - intros [Hl H]. apply each_Forall in H. split; [unfold len in *; by rewrite map_length|]. apply each_Forall. rewrite List.Forall_forall in *. intros x Hx.
    apply in_map_iff in Hx as (y & <- & Hy). auto.
  - intros [Hl H]. apply each_Forall in H. split; [unfold len in *; by rewrite map_length|]. apply each_Forall. rewrite List.Forall_forall in *. intros x Hx.
    apply in_map_iff in Hx as (y & <- & Hy). destruct (IH y Hy), (H y Hy). cbn. auto.
  - intros [Hl H]. apply each_Forall in H. split; [unfold len in *; by rewrite map_length|]. apply each_Forall. rewrite List.Forall_forall in *. intros x Hx.
    apply in_map_iff in Hx as (y & <- & Hy). destruct (H y Hy). cbn. auto.
  - by intros [? _].
  - intros [Hn Hd]. split; [unfold len; cbn; lia|]. repeat constructor; cbn; auto; apply Hn.
Qed.
Lemma to_mp_depth d : (depth (to_mp d) <= levels d)%nat.
Proof.
  assert (Hmax : forall {A} (f g : A -> nat) l, (forall x, In x l -> f x <= g x)%nat -> (maximum (map f l) <= maximum (map g l))%nat).
  { intros A f g l H. induction l as [|x l IHl]; cbn; [lia|]. unfold maximum in *. cbn.
    pose proof (H x (or_introl eq_refl)). assert (foldr Nat.max 0 (map f l) <= foldr Nat.max 0 (map g l))%nat by (apply IHl; intros; apply H; by right). lia. }
  induction d as [ | | | | | | | |d IH|l IH|l IH|l IH| |n d IH] using datum_ind'; cbn; try lia.
  - rewrite map_map. rewrite List.Forall_forall in IH. specialize (Hmax _ (fun x => depth (to_mp x)) levels l IH). lia.
  - rewrite map_map. cbn. rewrite List.Forall_forall in IH.
    pose proof (Hmax _ (fun e => Nat.max (depth (to_mp (fst e))) (depth (to_mp (snd e)))) (fun e => Nat.max (levels (fst e)) (levels (snd e))) l).
    assert (forall x, In x l -> Nat.max (depth (to_mp (fst x))) (depth (to_mp (snd x))) <= Nat.max (levels (fst x)) (levels (snd x)))%nat
      by (intros x Hx; destruct (IH x Hx); lia). specialize (H H0). lia.
  - rewrite map_map. cbn -[Nat.max]. rewrite List.Forall_forall in IH.
    pose proof (Hmax _ (fun e : string * datum => Nat.max 1 (depth (to_mp (snd e)))) (fun e => Nat.max 1 (levels (snd e))) l).
    assert (forall x : string * datum, In x l -> Nat.max 1 (depth (to_mp (snd x))) <= Nat.max 1 (levels (snd x)))%nat
      by (intros x Hx; pose proof (IH x Hx); lia). specialize (H H0). lia.
Qed.

(** ** Types and values *)
Section indt.
  Context (P : ty -> Prop).
  Hypotheses (H1 : P TUnit) (H2 : P TUnitStruct) (H3 : P TBool) (H4 : forall lo hi, P (TInt lo hi)) (H5 : P TF32) (H6 : P TF64)
    (H7 : P TStr) (H8 : forall t, P t -> P (TOpt t)) (H9 : forall t, P t -> P (TSeq t)) (Ht : forall ts, Forall P ts -> P (TTup ts))
    (Hm : forall k v, P k -> P v -> P (TMap k v)) (Hs : forall fs : list (string * ty), Forall (fun f => P (snd f)) fs -> P (TStruct fs))
    (He : forall vs : list (string * option ty), Forall (fun v => match snd v with Some t => P t | None => True end) vs -> P (TEnum vs)).
  Fixpoint ty_ind' (t : ty) : P t :=
    match t with
    | TUnit => H1 | TUnitStruct => H2 | TBool => H3 | TInt lo hi => H4 lo hi | TF32 => H5 | TF64 => H6 | TStr => H7
    | TOpt t => H8 t (ty_ind' t) | TSeq t => H9 t (ty_ind' t)
    | TTup ts => Ht ts ((fix go ts : Forall P ts := match ts with [] => Forall_nil_2 _ | t :: ts => Forall_cons_2 _ _ _ (ty_ind' t) (go ts) end) ts)
    | TMap k v => Hm k v (ty_ind' k) (ty_ind' v)
    | TStruct fs => Hs fs ((fix go fs : Forall (fun f : string * ty => P (snd f)) fs :=
        match fs with [] => Forall_nil_2 _ | f :: fs => Forall_cons_2 _ _ _ (ty_ind' (snd f)) (go fs) end) fs)
    | TEnum vs => He vs ((fix go vs : Forall (fun v : string * option ty => match snd v with Some t => P t | None => True end) vs :=
        match vs with
        | [] => Forall_nil_2 _
        | (n, Some t) :: vs => Forall_cons_2 (fun v : string * option ty => match snd v with Some t => P t | None => True end) (n, Some t) vs (ty_ind' t) (go vs)
        | (n, None) :: vs => Forall_cons_2 (fun v : string * option ty => match snd v with Some t => P t | None => True end) (n, None) vs I (go vs)
        end) vs)
    end.
End indt.

Lemma to_mp_nil d t : has_type t d -> to_mp d = PNil <-> nothing d = true.
Proof.
  revert t. induction d as [ | | | | | | | |d IH| | | |n|n d IH] using datum_ind'; intros t Ht; cbn; try (split; done).
  destruct t; cbn in Ht; try done. by apply (IH t).
Qed.
Lemma to_mp_not_nil d t : has_type t d -> nothing d = false -> to_mp d <> PNil.
Proof. intros Ht Hn E. apply (to_mp_nil d t Ht) in E. congruence. Qed.

(** Reading what was written. *)
Lemma of_opt t m : m <> PNil -> of_mp (TOpt t) m = (fun d => Dopt (Some d)) <$> of_mp t m.
Proof. by destruct m. Qed.
Lemma ident_str s i n : ident_is (PStr s) i n = bool_decide (s = n).
Proof. done. Qed.

  (** The struct's map, as written. *)
  Definition written (l : list (string * datum)) : list (mp * mp) := map (fun f => (PStr (fst f), to_mp (snd f))) l.
  Definition matching (n : string) (i : Z) (l : list (string * datum)) : list (mp * mp) :=
    filter (fun kv => ident_is (fst kv) i n = true) (written l).
  Lemma matching_one n i l d : NoDup (map fst l) -> (n, d) ∈ l -> matching n i l = [(PStr n, to_mp d)].
  Proof.
    unfold matching, written. induction l as [|[m e] l IH]; [by intros _ ?%elem_of_nil|]. cbn [map fst snd].
    intros Hnd Hin. inversion Hnd as [|? ? Hm Hnd']; subst.
    destruct (decide (m = n)) as [->|Hne].
    - rewrite filter_cons_True by (cbn; by rewrite bool_decide_true).
      apply elem_of_cons in Hin as [[= <-]|Hin].
      + assert (filter (fun kv => ident_is (fst kv) i n = true) (map (fun f => (PStr (fst f), to_mp (snd f))) l) = []) as ->; [|done].
        clear -Hm. induction l as [|[x y] l IH]; [done|]. cbn [map fst snd]. rewrite filter_cons_False.
        * apply IH. intros H. apply Hm. cbn. by right.
        * cbn. intros E%bool_decide_eq_true. subst x. apply Hm. cbn. by left.
      + exfalso. apply Hm. apply elem_of_list_In, (in_map fst l (n, d)), elem_of_list_In, Hin.
    - rewrite filter_cons_False by (cbn; by rewrite bool_decide_false).
      apply IH; [done|]. apply elem_of_cons in Hin as [[= ? ?]|Hin]; [congruence|done].
  Qed.

Definition fields_typed : list (string * ty) -> list (string * datum) -> Prop :=
  fix go fs l := match fs, l with
                 | [], [] => True
                 | (n, t) :: fs, (m, d) :: l => n = m /\ has_type t d /\ go fs l
                 | _, _ => False
                 end.
Lemma fields_names fs l : fields_typed fs l -> map fst l = map fst fs.
Proof.
  revert l. induction fs as [|[n t] fs IH]; intros [|[m d] l]; cbn; try done. intros (-> & _ & H). f_equal. auto.
Qed.
Definition reads (t : ty) : Prop := forall d, has_type t d -> distinct_names t -> of_mp t (to_mp d) = Some (travelled d).
Definition read_fields (kvs : list (mp * mp)) : Z -> list (string * ty) -> option (list (string * datum)) :=
  fix go i fs := match fs with
                 | [] => Some []
                 | (n, t) :: fs =>
                     match (match get kvs i n with
                            | Some m => of_mp t m
                            | None => match t with TOpt _ => Some (Dopt None) | _ => None end
                            end), go (i + 1)%Z fs with
                     | Some d, Some r => Some ((n, d) :: r)
                     | _, _ => None
                     end
                 end.
Definition distinct_fields : list (string * ty) -> Prop :=
  fix go fs := match fs with [] => True | (_, t) :: fs => distinct_names t /\ go fs end.
Lemma read_struct l0 fs : forall l i, NoDup (map fst l0) -> (forall f, f ∈ l -> f ∈ l0) ->
  Forall (fun f => reads (snd f)) fs -> fields_typed fs l -> distinct_fields fs ->
  read_fields (written l0) i fs = Some (map (fun f => (fst f, travelled (snd f))) l).
Proof.
  induction fs as [|[n t] fs IH]; intros [|[m d] l] i Hnd Hsub Hr Ht Hd; try done. destruct Ht as (<- & Ht & Hts), Hd as [Hd Hds].
  inversion Hr as [|? ? Hrt Hrs]; subst. cbn [snd] in Hrt. cbn [read_fields]. fold (read_fields (written l0)).
  unfold get. pose proof (matching_one n i l0 d Hnd (Hsub (n, d) (elem_of_list_here _ _))) as Hm. unfold matching in Hm. rewrite Hm.
  cbn [head fmap option_fmap option_map snd]. rewrite (Hrt d Ht Hd).
  rewrite (IH l (i + 1)%Z); auto. intros f Hf. apply Hsub. by right.
Qed.
Lemma given_once_written l0 : forall fs i, NoDup (map fst l0) -> (forall n, n ∈ map fst fs -> n ∈ map fst l0) ->
  given_once (A := ty) i fs (written l0) = true.
Proof.
  induction fs as [|[n t] fs IH]; intros i Hnd Hsub; [done|]. cbn [given_once]. rewrite IH; [|done|].
  2:{ intros m Hm. apply Hsub. by right. }
  rewrite andb_true_r. assert (n ∈ map fst l0) as Hin by (apply Hsub; by left).
  apply elem_of_list_In, in_map_iff in Hin as ([n' d] & Hn & Hin). cbn in Hn. subst n'. apply elem_of_list_In in Hin.
  pose proof (matching_one n i l0 d Hnd Hin) as Hm. unfold matching in Hm. by rewrite Hm.
Qed.
Lemma written_idents l : forallb (fun kv => is_ident (fst kv)) (written l) = true.
Proof. induction l as [|[n d] l IH]; cbn; auto. Qed.

Definition variant_typed (n : string) (o : option datum) : list (string * option ty) -> Prop :=
  fix go vs := match vs with
               | [] => False
               | (m, ot) :: vs => m = n /\ match ot, o with None, None => True | Some t, Some d => has_type t d | _, _ => False end \/ go vs
               end.
Definition distinct_variants : list (string * option ty) -> Prop :=
  fix go vs := match vs with [] => True | (_, ot) :: vs => match ot with Some t => distinct_names t | None => True end /\ go vs end.
Lemma variant_in n o vs : variant_typed n o vs <->
  exists ot, (n, ot) ∈ vs /\ match ot, o with None, None => True | Some t, Some d => has_type t d | _, _ => False end.
Proof.
  induction vs as [|[m ot] vs IH]; cbn.
  - split; [done|]. intros (? & H & _). by apply elem_of_nil in H.
  - rewrite IH. split.
    + intros [[-> H]|(ot' & Hin & H)]; [exists ot; split; [by left|done] | exists ot'; split; [by right|done]].
    + intros (ot' & Hin & H). apply elem_of_cons in Hin as [[= -> ->]|Hin]; [by left|right; eauto].
Qed.
Definition read_variant (k m : mp) : Z -> list (string * option ty) -> option datum :=
  fix go i vs := match vs with
                 | [] => None
                 | (n, ot) :: vs => if ident_is k i n then
                                      match ot, m with
                                      | None, PNil => Some (Denum n None)
                                      | None, _ => None
                                      | Some t, m => (fun d => Denum n (Some d)) <$> of_mp t m
                                      end
                                    else go (i + 1)%Z vs
                 end.
Definition read_unit_variant (k : mp) : Z -> list (string * option ty) -> option datum :=
  fix go i vs := match vs with
                 | [] => None
                 | (n, ot) :: vs => if ident_is k i n then match ot with None => Some (Denum n None) | Some _ => None end
                                    else go (i + 1)%Z vs
                 end.
Lemma read_variant_at n t d vs : forall i, NoDup (map fst vs) -> (n, Some t) ∈ vs ->
  read_variant (PStr n) (to_mp d) i vs = (fun d => Denum n (Some d)) <$> of_mp t (to_mp d).
Proof.
  induction vs as [|[m ot] vs IH]; intros i Hnd Hin; [by apply elem_of_nil in Hin|].
  cbn [map fst] in Hnd. inversion Hnd as [|? ? Hm Hnd']; subst. cbn [read_variant ident_is]. fold (read_variant (PStr n) (to_mp d)).
  destruct (decide (n = m)) as [->|Hne].
  - rewrite bool_decide_true by done. apply elem_of_cons in Hin as [[= <-]|Hin]; [done|].
    exfalso. apply Hm. apply elem_of_list_In, (in_map fst vs (m, Some t)), elem_of_list_In, Hin.
  - rewrite bool_decide_false by done. apply IH; [done|]. apply elem_of_cons in Hin as [[= ? ?]|Hin]; [congruence|done].
Qed.
Lemma read_unit_variant_at n vs : forall i, NoDup (map fst vs) -> (n, None) ∈ vs ->
  read_unit_variant (PStr n) i vs = Some (Denum n None).
Proof.
  induction vs as [|[m ot] vs IH]; intros i Hnd Hin; [by apply elem_of_nil in Hin|].
  cbn [map fst] in Hnd. inversion Hnd as [|? ? Hm Hnd']; subst. cbn [read_unit_variant ident_is]. fold (read_unit_variant (PStr n)).
  destruct (decide (n = m)) as [->|Hne].
  - rewrite bool_decide_true by done. apply elem_of_cons in Hin as [[= <-]|Hin]; [done|].
    exfalso. apply Hm. apply elem_of_list_In, (in_map fst vs (m, None)), elem_of_list_In, Hin.
  - rewrite bool_decide_false by done. apply IH; [done|]. apply elem_of_cons in Hin as [[= ? ?]|Hin]; [congruence|done].
Qed.

Lemma mapM_some {A B C} (f : B -> option C) (g : A -> B) (h : A -> C) l :
  (forall x, In x l -> f (g x) = Some (h x)) -> mapM f (map g l) = Some (map h l).
Proof.
  intros H. induction l as [|x l IH]; [done|]. cbn [map mapM]. rewrite (H x (or_introl eq_refl)). cbn.
  by rewrite IH by (intros; apply H; by right).
Qed.
Definition read_tuple : list ty -> list mp -> option (list datum) :=
  fix go ts l := match ts, l with
                 | [], [] => Some []
                 | t :: ts, m :: l => match of_mp t m, go ts l with Some d, Some r => Some (d :: r) | _, _ => None end
                 | _, _ => None
                 end.
Lemma of_to t : reads t.
Proof.
  induction t as [ | | |lo hi| | | |t IH|t IH|ts IH|k v IHk IHv|fs IH|vs IH] using ty_ind'; intros d Ht Hd; destruct d as [| |b|z|n|n|s|o|l|l|l|n o]; cbn in Ht; try done.
  - cbn. destruct (Z.leb_spec lo z); [|lia]. destruct (Z.leb_spec z hi); [done|lia].
  - destruct o as [d|]; [|done]. cbn [to_mp travelled]. destruct (nothing d) eqn:En.
    + apply (to_mp_nil d t Ht) in En. by rewrite En.
    + rewrite of_opt by (by apply (to_mp_not_nil d t)). by rewrite (IH d Ht Hd).
  - cbn [to_mp of_mp travelled]. rewrite (mapM_some (of_mp t) to_mp travelled); [done|].
    rewrite List.Forall_forall in Ht. intros x Hx. apply IH; auto.
  - cbn [to_mp of_mp travelled]. cbn [distinct_names] in Hd. fold read_tuple.
    enough (read_tuple ts (map to_mp l) = Some (map travelled l)) as -> by done.
    revert l Ht. induction ts as [|t ts IHts]; intros [|d l] Ht; try done. destruct Ht as [Ht Hts], Hd as [Hd Hds].
    inversion IH as [|? ? IHt IH']; subst. cbn [read_tuple map]. fold read_tuple. rewrite (IHt d Ht Hd). by rewrite (IHts IH' Hds l Hts).
  - cbn [to_mp of_mp travelled]. destruct Hd as [Hk Hv].
    rewrite (mapM_some _ (fun kv => (to_mp (fst kv), to_mp (snd kv))) (fun e => (travelled (fst e), travelled (snd e)))); [done|].
    rewrite List.Forall_forall in Ht. intros x Hx. cbn. destruct (Ht x Hx). by rewrite IHk, IHv.
  - fold (fields_typed fs l) in Ht. destruct Hd as [Hnd Hds]. fold (distinct_fields fs) in Hds.
    pose proof (fields_names fs l Ht) as Hn.
    change (of_mp (TStruct fs) (PMap (written l)) = Some (travelled (Drec l))). cbn [of_mp travelled].
    rewrite written_idents, given_once_written; [|by rewrite Hn|by rewrite Hn]. cbn [andb].
    fold (read_fields (written l)). rewrite (read_struct l fs l 0%Z); auto. by rewrite Hn.
  - fold (variant_typed n o vs) in Ht. destruct Hd as [Hnd Hds]. fold (distinct_variants vs) in Hds.
    apply variant_in in Ht as (ot & Hin & Hot).
    assert (Hdv : match ot with Some t => distinct_names t /\ reads t | None => True end).
    { clear -Hin IH Hds. induction vs as [|[m ot'] vs IHvs]; [by apply elem_of_nil in Hin|]. destruct Hds as [Hd Hds].
      inversion IH as [|? ? IHt IH']; subst. cbn in IHt. apply elem_of_cons in Hin as [[= <- <-]|Hin]; [destruct ot; auto|exact (IHvs IH' Hin Hds)]. }
    destruct ot as [t|], o as [d|]; try done.
    + destruct Hdv as [Hdt Hrt]. change (read_variant (PStr n) (to_mp d) 0%Z vs = Some (travelled (Denum n (Some d)))).
      rewrite (read_variant_at n t) by done. by rewrite (Hrt d Hot Hdt).
    + change (read_unit_variant (PStr n) 0%Z vs = Some (Denum n None)). by apply read_unit_variant_at.
Qed.
Lemma arrives t d limit : has_type t d -> distinct_names t -> sizes_ok d -> (levels d <= limit)%nat ->
  deserialize limit t (serialize d) = Some (travelled d).
Proof.
  intros Ht Hd Hs Hl. unfold deserialize, serialize. rewrite <- (app_nil_r (e_mp (to_mp d))).
  rewrite read_mp; [by apply of_to|by apply to_mp_wf|]. pose proof (to_mp_depth d). lia.
Qed.
