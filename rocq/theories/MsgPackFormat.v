(** C106: the format of messages, as a specification, and what the reader and the writer have to do with it. *)
From stdpp Require Import base list gmap numbers strings.
From Coq Require Import Ascii NArith ZArith Lia ZifyNat ZifyN ZifyBool.
From Verif Require Import Types Codec CodecProofs CodecValid MsgPack MsgPackSpec MsgPackProofs.
Local Open Scope N_scope.

(** ** The format (https://github.com/msgpack/msgpack/blob/master/spec.md), without byte strings and extension types *)
(** The number that bytes stand for: the most significant byte comes first. *)
Definition number (b : bytes) : N := fold_left (fun a c => 256 * a + N_of_ascii c) b 0.
(** The same, two's complement. *)
Definition signed_number (b : bytes) : Z :=
  let bits := 8 * N.of_nat (length b) in
  if number b <? 2 ^ (bits - 1) then Z.of_N (number b) else (Z.of_N (number b) - Z.of_N (2 ^ bits))%Z.
(** A byte that says that the next bytes are a number, and how many they are. *)
Definition long (marks : list (N * nat)) (w : bytes) (b : bytes) : Prop :=
  exists c, In (N_of_ascii c, length b) marks /\ w = c :: b.
(** The beginning of a list of [n] elements and so on: the number is part of the first byte if it is below [limit],
    otherwise it follows. *)
Definition header (base limit : N) (marks : list (N * nat)) (n : N) (w : bytes) : Prop :=
  (n < limit /\ w = [ascii_of_N (base + n)]) \/ exists b, long marks w b /\ number b = n.
Inductive word : mp -> bytes -> Prop :=
| w_nil c : N_of_ascii c = 0xc0 -> word PNil [c]
| w_false c : N_of_ascii c = 0xc2 -> word (PBool false) [c]
| w_true c : N_of_ascii c = 0xc3 -> word (PBool true) [c]
| w_small c : N_of_ascii c < 128 -> word (PInt (Z.of_N (N_of_ascii c))) [c]
| w_negative c : 224 <= N_of_ascii c -> word (PInt (Z.of_N (N_of_ascii c) - 256)) [c]
| w_unsigned w b : long [(0xcc, 1%nat); (0xcd, 2%nat); (0xce, 4%nat); (0xcf, 8%nat)] w b -> word (PInt (Z.of_N (number b))) w
| w_signed w b : long [(0xd0, 1%nat); (0xd1, 2%nat); (0xd2, 4%nat); (0xd3, 8%nat)] w b -> word (PInt (signed_number b)) w
| w_f32 w b : long [(0xca, 4%nat)] w b -> word (PF32 (number b)) w
| w_f64 w b : long [(0xcb, 8%nat)] w b -> word (PF64 (number b)) w
| w_text h b : header 0xa0 32 [(0xd9, 1%nat); (0xda, 2%nat); (0xdb, 4%nat)] (N.of_nat (length b)) h -> utf8 b = true ->
    word (PStr (string_of_list_ascii b)) (h ++ b)
| w_list h l bs : header 0x90 16 [(0xdc, 2%nat); (0xdd, 4%nat)] (N.of_nat (length l)) h -> Forall2 word l bs ->
    word (PArr l) (h ++ concat bs)
| w_map h l bs : header 0x80 16 [(0xde, 2%nat); (0xdf, 4%nat)] (N.of_nat (length l)) h ->
    Forall2 word (concat (map (fun e => [fst e; snd e]) l)) bs -> word (PMap l) (h ++ concat bs).

(** ** Lemmas *)
Lemma number_unle b : number b = unle (rev b).
Proof.
  unfold number. enough (H : forall a, fold_left (fun a c => 256 * a + N_of_ascii c) b a = unle (rev b) + a * 256 ^ N.of_nat (length b))
    by (rewrite (H 0), N.mul_0_l, N.add_0_r; done).
  induction b as [|c b IH]; intros a; [cbn [fold_left rev length unle]; change (N.of_nat 0) with 0; rewrite N.pow_0_r; lia|]. cbn [fold_left rev length]. rewrite IH.
  assert (Hu : forall x, unle (x ++ [c]) = unle x + 256 ^ N.of_nat (length x) * N_of_ascii c).
  { clear. intros x. induction x as [|y x IH]; [cbn [app unle length]; change (N.of_nat 0) with 0; rewrite N.pow_0_r; lia|].
    cbn [app unle length]. rewrite IH, Nat2N.inj_succ, N.pow_succ_r'. ring. }
  rewrite Hu, rev_length, Nat2N.inj_succ, N.pow_succ_r'. ring.
Qed.
Lemma number_be n x : x < 256 ^ N.of_nat n -> number (be n x) = x.
Proof. intros H. rewrite number_unle. pose proof (r_be_app n (N.of_nat n) x [] eq_refl H) as E. unfold r_be in E.
  rewrite r_take_app in E by (unfold len; by rewrite be_length). by injection E. Qed.
Lemma number_bound b : number b < 256 ^ N.of_nat (length b).
Proof. rewrite number_unle. pose proof (unle_bound (rev b)) as H. by rewrite rev_length in H. Qed.
Lemma take_yields n b x r : r_take n b = Some (x, r) -> b = x ++ r /\ N.of_nat (length x) = n.
Proof.
  unfold r_take. destruct (N.ltb_spec (len b) n) as [|H]; [discriminate|]. intros [= <- <-]. split; [by rewrite take_drop|].
  rewrite take_length. unfold len in H. lia.
Qed.
Lemma be_yields n b v r : r_be n b = Some (v, r) -> exists x, b = x ++ r /\ N.of_nat (length x) = n /\ number x = v.
Proof.
  unfold r_be. destruct (r_take n b) as [[x b']|] eqn:E; [|discriminate]. intros [= <- <-]. apply take_yields in E as [-> H].
  exists x. by rewrite number_unle.
Qed.
Lemma be_reads n b r : N.of_nat (length b) = n -> r_be n (b ++ r) = Some (number b, r).
Proof. intros <-. unfold r_be. rewrite r_take_app by done. by rewrite number_unle. Qed.

(** Reading yields words of the format. *)
Definition sound_rd (P : mp -> bytes -> Prop) (r : rd mp) : Prop := forall b m rest, r b = Some (m, rest) -> exists w, b = w ++ rest /\ P m w.
Lemma many_yields {A} (P : A -> bytes -> Prop) (r : rd A) (Hr : forall b m rest, r b = Some (m, rest) -> exists w, b = w ++ rest /\ P m w) fuel :
  forall n b l rest, r_many fuel r n b = Some (l, rest) -> N.of_nat (length l) = n /\ exists bs, b = concat bs ++ rest /\ Forall2 P l bs.
Proof.
  induction fuel as [|fuel IH]; intros n b l rest E; destruct n as [|p]; cbn [r_many] in E; try discriminate.
  - injection E as <- <-. split; [done|]. exists []. by split; [|constructor].
  - injection E as <- <-. split; [done|]. exists []. by split; [|constructor].
  - destruct (r b) as [[a b1]|] eqn:E1; [|discriminate]. destruct (r_many fuel r (N.pred (N.pos p)) b1) as [[l' b2]|] eqn:E2; [|discriminate].
    injection E as <- <-. apply Hr in E1 as (w & -> & Hw). apply IH in E2 as (Hl & bs & -> & Hbs). split; [cbn [length]; lia|].
    exists (w :: bs). split; [cbn [concat]; by rewrite app_assoc|by constructor].
Qed.
Definition deep (d : nat) (m : mp) (w : bytes) : Prop := word m w /\ (depth m <= d)%nat.
Lemma str_yields n h b m rest : header 0xa0 32 [(0xd9, 1%nat); (0xda, 2%nat); (0xdb, 4%nat)] n h -> r_str n b = Some (m, rest) ->
  exists w, h ++ b = w ++ rest /\ word m w /\ depth m = 1%nat.
Proof.
  unfold r_str. intros Hh. destruct (r_take n b) as [[x b']|] eqn:E; [|discriminate]. destruct (utf8 x) eqn:Eu; [|discriminate].
  intros [= <- <-]. apply take_yields in E as [-> Hx]. exists (h ++ x). split; [by rewrite app_assoc|]. split; [|done].
  apply w_text; [by rewrite Hx|done].
Qed.
Lemma forall2_deep d l bs : Forall2 (deep d) l bs -> Forall2 word l bs /\ (maximum (map depth l) <= d)%nat.
Proof.
  unfold maximum. induction 1 as [|m w l bs [Hw Hd] Hl [IH1 IH2]]; [split; [constructor|cbn; lia]|]. split; [by constructor|]. cbn. lia.
Qed.
Lemma arr_yields d r n h b m rest : sound_rd (deep d) r -> header 0x90 16 [(0xdc, 2%nat); (0xdd, 4%nat)] n h -> r_arr r n b = Some (m, rest) ->
  exists w, h ++ b = w ++ rest /\ word m w /\ (depth m <= S d)%nat.
Proof.
  unfold r_arr. intros Hr Hh. destruct (r_many _ r n b) as [[l b']|] eqn:E; [|discriminate]. intros [= <- <-].
  apply (many_yields (deep d) r Hr) in E as (Hl & bs & -> & Hbs). exists (h ++ concat bs). split; [by rewrite app_assoc|].
  apply forall2_deep in Hbs as [H1 H2]. split; [apply w_list; [by rewrite Hl|done]|]. cbn. lia.
Qed.
Definition deep2 (d : nat) (e : mp * mp) (w : bytes) : Prop := exists w1 w2, w = w1 ++ w2 /\ deep d (fst e) w1 /\ deep d (snd e) w2.
Lemma pair_yields d r b e rest : sound_rd (deep d) r -> r_pair r b = Some (e, rest) -> exists w, b = w ++ rest /\ deep2 d e w.
Proof.
  intros Hr. unfold r_pair. destruct (r b) as [[x b1]|] eqn:E1; [|discriminate]. destruct (r b1) as [[y b2]|] eqn:E2; [|discriminate].
  intros [= <- <-]. apply Hr in E1 as (w1 & -> & H1). apply Hr in E2 as (w2 & -> & H2). exists (w1 ++ w2). split; [by rewrite app_assoc|].
  by exists w1, w2.
Qed.
Lemma forall2_deep2 d l bs : Forall2 (deep2 d) l bs ->
  exists bs', concat bs' = concat bs /\ Forall2 word (concat (map (fun e => [fst e; snd e]) l)) bs' /\
    (maximum (map (fun e => Nat.max (depth (fst e)) (depth (snd e))) l) <= d)%nat.
Proof.
  unfold maximum. induction 1 as [|e w l bs (w1 & w2 & -> & [H1 D1] & [H2 D2]) Hl (bs' & Hc & IH1 & IH2)].
  { exists []. split; [done|]. split; [constructor|cbn; lia]. }
  exists (w1 :: w2 :: bs'). split; [cbn; rewrite Hc; by rewrite app_assoc|]. split; [cbn; by repeat constructor|]. cbn. lia.
Qed.
Lemma map_yields d r n h b m rest : sound_rd (deep d) r -> header 0x80 16 [(0xde, 2%nat); (0xdf, 4%nat)] n h -> r_map r n b = Some (m, rest) ->
  exists w, h ++ b = w ++ rest /\ word m w /\ (depth m <= S d)%nat.
Proof.
  unfold r_map. intros Hr Hh. destruct (r_many _ (r_pair r) n b) as [[l b']|] eqn:E; [|discriminate]. intros [= <- <-].
  apply (many_yields (deep2 d) (r_pair r) (fun b e rest => pair_yields d r b e rest Hr)) in E as (Hl & bs & -> & Hbs).
  apply forall2_deep2 in Hbs as (bs' & <- & H1 & H2). exists (h ++ concat bs'). split; [by rewrite app_assoc|].
  split; [apply w_map; [by rewrite Hl|done]|]. cbn. lia.
Qed.
Lemma len_yields k (f : N -> rd mp) b m rest : r_len k f b = Some (m, rest) -> exists x b', b = x ++ b' /\ N.of_nat (length x) = k /\ f (number x) b' = Some (m, rest).
Proof.
  unfold r_len. destruct (r_be k b) as [[v b']|] eqn:E; [|discriminate]. intros H. apply be_yields in E as (x & -> & Hx & <-). by exists x, b'.
Qed.
Lemma int_yields k s b m rest : r_int k s b = Some (m, rest) ->
  exists x, b = x ++ rest /\ N.of_nat (length x) = k /\ m = PInt (if s then signed_number x else Z.of_N (number x)).
Proof.
  unfold r_int. destruct (r_be k b) as [[v b']|] eqn:E; [|discriminate].
  assert (H : forall z, Some (PInt z, b') = Some (m, rest) -> m = PInt z /\ b' = rest) by (by intros z [= <- <-]).
  intros Hm. apply H in Hm as [-> ->]. apply be_yields in E as (x & -> & Hx & <-).
  exists x. split; [done|]. split; [done|]. f_equal. unfold signed_number. cbv zeta. rewrite Hx. destruct s; [|done].
  rewrite andb_true_l, N.leb_antisym. by destruct (number x <? 2 ^ (8 * k - 1)).
Qed.

Lemma long_one k n c x : N_of_ascii c = k -> N.of_nat (length x) = N.of_nat n -> long [(k, n)] (c :: x) x.
Proof. intros Hc Hx. exists c. split; [left; rewrite Hc; f_equal; lia|done]. Qed.
Lemma mp_yields d : sound_rd (deep d) (r_mp d).
Proof.
  induction d as [|d IH]; intros b m rest E; [discriminate|]. destruct b as [|c b]; [discriminate|].
  cbn [r_mp] in E. pose proof (N_ascii_bounded c) as Hb.
  assert (Hdeep : forall w, c :: b = w ++ rest /\ word m w /\ (depth m <= Datatypes.S d)%nat -> exists w, c :: b = w ++ rest /\ deep (Datatypes.S d) m w)
    by (intros w (? & ? & ?); by exists w).
  destruct (N.ltb_spec (N_of_ascii c) 0x80).
  { injection E as <- <-. apply (Hdeep [c]). split; [done|]. split; [by apply w_small|cbn; lia]. }
  assert (Hbase : forall base l, base <= N_of_ascii c -> base + l <= 256 -> N_of_ascii c < base + l -> [c] = [ascii_of_N (base + (N_of_ascii c - base))]).
  { intros base l H1 H2 H3. f_equal. rewrite <- (ascii_N_embedding c) at 1. f_equal. lia. }
  destruct (N.ltb_spec (N_of_ascii c) 0x90).
  { apply (map_yields d _ _ [c]) in E as (w & Hw); [by apply (Hdeep w)|exact IH|]. left. split; [lia|]. apply (Hbase _ 16); lia. }
  destruct (N.ltb_spec (N_of_ascii c) 0xa0).
  { apply (arr_yields d _ _ [c]) in E as (w & Hw); [by apply (Hdeep w)|exact IH|]. left. split; [lia|]. apply (Hbase _ 16); lia. }
  destruct (N.ltb_spec (N_of_ascii c) 0xc0).
  { apply (str_yields _ [c]) in E as (w & W1 & W2 & W3); [apply (Hdeep w); split; [done|]; split; [done|lia]|]. left. split; [lia|]. apply (Hbase _ 32); lia. }
  destruct (N.leb_spec 0xe0 (N_of_ascii c)).
  { injection E as <- <-. apply (Hdeep [c]). split; [done|]. split; [by apply w_negative|cbn; lia]. }
  assert (Hstr : forall k, r_len k r_str b = Some (m, rest) -> In (N_of_ascii c, N.to_nat k) [(0xd9, 1%nat); (0xda, 2%nat); (0xdb, 4%nat)] ->
    exists w, c :: b = w ++ rest /\ deep (Datatypes.S d) m w).
  { intros k Ek Hin. apply len_yields in Ek as (x & b' & -> & Hx & Ek). apply (str_yields _ (c :: x)) in Ek as (w & W1 & W2 & W3).
    - apply (Hdeep w). split; [exact W1|]. split; [done|lia].
    - right. exists x. split; [|done]. exists c. split; [|done]. by rewrite <- Hx, Nat2N.id in Hin. }
  assert (Harr : forall k, r_len k (r_arr (r_mp d)) b = Some (m, rest) -> In (N_of_ascii c, N.to_nat k) [(0xdc, 2%nat); (0xdd, 4%nat)] ->
    exists w, c :: b = w ++ rest /\ deep (Datatypes.S d) m w).
  { intros k Ek Hin. apply len_yields in Ek as (x & b' & -> & Hx & Ek). apply (arr_yields d _ _ (c :: x)) in Ek as (w & Hw); [by apply (Hdeep w)|exact IH|].
    right. exists x. split; [|done]. exists c. split; [|done]. by rewrite <- Hx, Nat2N.id in Hin. }
  assert (Hmap : forall k, r_len k (r_map (r_mp d)) b = Some (m, rest) -> In (N_of_ascii c, N.to_nat k) [(0xde, 2%nat); (0xdf, 4%nat)] ->
    exists w, c :: b = w ++ rest /\ deep (Datatypes.S d) m w).
  { intros k Ek Hin. apply len_yields in Ek as (x & b' & -> & Hx & Ek). apply (map_yields d _ _ (c :: x)) in Ek as (w & Hw); [by apply (Hdeep w)|exact IH|].
    right. exists x. split; [|done]. exists c. split; [|done]. by rewrite <- Hx, Nat2N.id in Hin. }
  assert (Hint : forall k s, r_int k s b = Some (m, rest) ->
    (In (N_of_ascii c, N.to_nat k) (if s then [(0xd0, 1%nat); (0xd1, 2%nat); (0xd2, 4%nat); (0xd3, 8%nat)] else [(0xcc, 1%nat); (0xcd, 2%nat); (0xce, 4%nat); (0xcf, 8%nat)])) ->
    exists w, c :: b = w ++ rest /\ deep (Datatypes.S d) m w).
  { intros k s Ek Hin. apply int_yields in Ek as (x & -> & Hx & ->). rewrite <- Hx, Nat2N.id in Hin. apply (Hdeep (c :: x)). split; [done|].
    split; [|cbn; lia]. destruct s; [apply w_signed|apply w_unsigned]; by exists c. }
  assert (Hcase : In (N_of_ascii c) (map (fun i => 0xc0 + N.of_nat i) (seq 0 32))).
  { apply in_map_iff. exists (N.to_nat (N_of_ascii c - 0xc0)). split; [lia|]. apply in_seq. lia. }
  clear Hbase. cbn in Hcase.
  repeat (destruct Hcase as [Hc|Hcase]; [rewrite <- Hc in E|]); try by destruct Hcase.
  all: try discriminate E.
  all: try (injection E as <- <-; apply (Hdeep [c]); split; [done|]; split; [by constructor|cbn; lia]).
  all: try (apply (Hint _ _ E); rewrite <- Hc; vm_compute; tauto).
  all: try (apply (Hstr _ E); rewrite <- Hc; vm_compute; tauto).
  all: try (apply (Harr _ E); rewrite <- Hc; vm_compute; tauto).
  all: try (apply (Hmap _ E); rewrite <- Hc; vm_compute; tauto).
  - destruct (r_be 4 b) as [[v b']|] eqn:Ev; [|discriminate]. injection E as <- <-. apply be_yields in Ev as (x & -> & Hx & <-).
    apply (Hdeep (c :: x)). split; [done|]. split; [apply w_f32, long_one; [done|lia]|cbn; lia].
  - destruct (r_be 8 b) as [[v b']|] eqn:Ev; [|discriminate]. injection E as <- <-. apply be_yields in Ev as (x & -> & Hx & <-).
    apply (Hdeep (c :: x)). split; [done|]. split; [apply w_f64, long_one; [done|lia]|cbn; lia].
Qed.

(** Every word of the format is read. *)
Lemma many_reads {A} (r : rd A) (P : A -> bytes -> Prop) l bs : Forall2 P l bs ->
  forall fuel rest, Forall2 (fun x b => forall rest, r (b ++ rest) = Some (x, rest)) l bs -> (length l <= fuel)%nat ->
  r_many fuel r (N.of_nat (length l)) (concat bs ++ rest) = Some (l, rest).
Proof.
  induction 1 as [|x b l bs Hx Hl IH]; intros fuel rest Hr Hf; [by destruct fuel|].
  destruct fuel as [|fuel]; [cbn in Hf; lia|]. inversion Hr as [|? ? ? ? H1 H2]; subst. cbn [concat]. rewrite <- app_assoc.
  cbn [length]. rewrite Nat2N.inj_succ. destruct (N.succ (N.of_nat (length l))) eqn:E; [lia|]. cbn [r_many]. rewrite H1.
  rewrite <- E, N.pred_succ. rewrite IH by (done || cbn in Hf; lia). done.
Qed.
Lemma word_nonempty m w : word m w -> (1 <= length w)%nat.
Proof.
  assert (Hh : forall base limit marks n h, header base limit marks n h -> (1 <= length h)%nat)
    by (intros base limit marks n h [[_ ->]|(b & (c & _ & ->) & _)]; cbn; lia).
  assert (Hl : forall marks w b, long marks w b -> (1 <= length w)%nat) by (intros marks w' b (c & _ & ->); cbn; lia).
  inversion 1; subst; try (cbn; lia); try (by eapply Hl); rewrite app_length; match goal with H : header _ _ _ _ _ |- _ => apply Hh in H; lia end.
Qed.
Lemma forall2_length_le l bs : Forall2 word l bs -> (length l <= length (concat bs))%nat.
Proof. induction 1 as [|m w l bs Hw Hl IH]; cbn; [lia|]. rewrite app_length. apply word_nonempty in Hw. lia. Qed.
(** The first byte of a header. *)
Lemma head_small base n d b : (n < 128)%N -> base + n < 256 -> r_mp (Datatypes.S d) (ascii_of_N (base + n) :: b) =
  let m := base + n in let r := r_mp d in
      if m <? 0x80 then Some (PInt (Z.of_N m), b)
      else if m <? 0x90 then r_map r (m - 0x80) b
      else if m <? 0xa0 then r_arr r (m - 0x90) b
      else if m <? 0xc0 then r_str (m - 0xa0) b
      else r_mp (Datatypes.S d) (ascii_of_N (base + n) :: b).
Proof.
  intros _ H. cbv zeta. cbn [r_mp]. rewrite N_ascii_embedding by done. cbv zeta.
  destruct (base + n <? 0x80); [done|]. destruct (base + n <? 0x90); [done|]. destruct (base + n <? 0xa0); [done|]. by destruct (base + n <? 0xc0).
Qed.
Ltac marked H := repeat (destruct H as [H|H]; [injection H as H ?|]); try by destruct H.
Ltac first_byte Hc := cbn [app r_mp]; rewrite <- Hc; cbv zeta.
Lemma text_reads d n h b : header 0xa0 32 [(0xd9, 1%nat); (0xda, 2%nat); (0xdb, 4%nat)] n h -> r_mp (Datatypes.S d) (h ++ b) = r_str n b.
Proof.
  intros [[Hn ->]|(x & (c & Hc & ->) & <-)].
  - cbn [app]. rewrite head_small by lia. cbv zeta. repeat match goal with |- context [?a <? ?b] => destruct (N.ltb_spec a b); [try lia|try lia] end. f_equal. lia.
  - marked Hc; first_byte Hc; [change (r_len 1 r_str (x ++ b) = r_str (number x) b)|change (r_len 2 r_str (x ++ b) = r_str (number x) b)|change (r_len 4 r_str (x ++ b) = r_str (number x) b)];
      unfold r_len; by rewrite be_reads by lia.
Qed.
Lemma list_reads d n h b : header 0x90 16 [(0xdc, 2%nat); (0xdd, 4%nat)] n h -> r_mp (Datatypes.S d) (h ++ b) = r_arr (r_mp d) n b.
Proof.
  intros [[Hn ->]|(x & (c & Hc & ->) & <-)].
  - cbn [app]. rewrite head_small by lia. cbv zeta. repeat match goal with |- context [?a <? ?b] => destruct (N.ltb_spec a b); [try lia|try lia] end. f_equal. lia.
  - marked Hc; first_byte Hc; [change (r_len 2 (r_arr (r_mp d)) (x ++ b) = r_arr (r_mp d) (number x) b)|change (r_len 4 (r_arr (r_mp d)) (x ++ b) = r_arr (r_mp d) (number x) b)];
      unfold r_len; by rewrite be_reads by lia.
Qed.
Lemma map_reads d n h b : header 0x80 16 [(0xde, 2%nat); (0xdf, 4%nat)] n h -> r_mp (Datatypes.S d) (h ++ b) = r_map (r_mp d) n b.
Proof.
  intros [[Hn ->]|(x & (c & Hc & ->) & <-)].
  - cbn [app]. rewrite head_small by lia. cbv zeta. repeat match goal with |- context [?a <? ?b] => destruct (N.ltb_spec a b); [try lia|try lia] end. f_equal. lia.
  - marked Hc; first_byte Hc; [change (r_len 2 (r_map (r_mp d)) (x ++ b) = r_map (r_mp d) (number x) b)|change (r_len 4 (r_map (r_mp d)) (x ++ b) = r_map (r_mp d) (number x) b)];
      unfold r_len; by rewrite be_reads by lia.
Qed.
Lemma int_reads k s b rest : N.of_nat (length b) = k -> r_int k s (b ++ rest) = Some (PInt (if s then signed_number b else Z.of_N (number b)), rest).
Proof.
  intros Hk. unfold r_int. rewrite be_reads by done. unfold signed_number. cbv zeta. rewrite Hk. destruct s; [|done].
  rewrite andb_true_l, N.leb_antisym. by destruct (number b <? 2 ^ (8 * k - 1)).
Qed.
Lemma mp_reads m : forall d w rest, word m w -> (depth m <= d)%nat -> r_mp d (w ++ rest) = Some (m, rest).
Proof.
  induction m as [|b|z|n|n|s|l IH|l IH] using mp_ind'; intros [|d] w rest Hw Hd; try (cbn in Hd; lia).
  - inversion Hw as [c Hc| | | | | | | | | | |]; subst. cbn [app r_mp]. by rewrite Hc.
  - inversion Hw as [|c Hc|c Hc| | | | | | | | |]; subst; cbn [app r_mp]; by rewrite Hc.
  - inversion Hw as [| | |c Hc|c Hc|w' b Hl|w' b Hl| | | | |]; subst.
    + cbn [app r_mp]. cbv zeta. by destruct (N.ltb_spec (N_of_ascii c) 128); [|lia].
    + cbn [app r_mp]. cbv zeta. pose proof (N_ascii_bounded c).
      repeat match goal with |- context [?a <? ?b] => destruct (N.ltb_spec a b); [lia|] end. by destruct (N.leb_spec 0xe0 (N_of_ascii c)); [|lia].
    + destruct Hl as (c & Hc & ->). marked Hc; first_byte Hc;
        [rewrite <- (int_reads 1 false b)|rewrite <- (int_reads 2 false b)|rewrite <- (int_reads 4 false b)|rewrite <- (int_reads 8 false b)]; (reflexivity || lia).
    + destruct Hl as (c & Hc & ->). marked Hc; first_byte Hc;
        [rewrite <- (int_reads 1 true b)|rewrite <- (int_reads 2 true b)|rewrite <- (int_reads 4 true b)|rewrite <- (int_reads 8 true b)]; (reflexivity || lia).
  - inversion Hw as [| | | | | | |w' b Hl| | | |]; subst. destruct Hl as (c & Hc & ->). marked Hc; first_byte Hc.
    change (match r_be 4 (b ++ rest) with Some (x, b) => Some (PF32 x, b) | None => None end = Some (PF32 (number b), rest)). by rewrite be_reads by lia.
  - inversion Hw as [| | | | | | | |w' b Hl| | |]; subst. destruct Hl as (c & Hc & ->). marked Hc; first_byte Hc.
    change (match r_be 8 (b ++ rest) with Some (x, b) => Some (PF64 x, b) | None => None end = Some (PF64 (number b), rest)). by rewrite be_reads by lia.
  - inversion Hw as [| | | | | | | | |h b Hh Hu| |]; subst. rewrite <- app_assoc. rewrite (text_reads d _ h _ Hh). unfold r_str. rewrite r_take_app by done. by rewrite Hu.
  - inversion Hw as [| | | | | | | | | |h l' bs Hh Hl|]; subst. rewrite <- app_assoc. rewrite (list_reads d _ h _ Hh). unfold r_arr.
    rewrite (many_reads _ word l bs Hl); [done| |rewrite app_length; apply forall2_length_le in Hl; lia].
    assert (Hm : (maximum (map depth l) <= d)%nat) by (cbn in Hd; lia). clear -IH Hl Hm. induction Hl as [|m b l bs Hm' Hl IHl]; constructor.
    + intros rest. inversion IH; subst. unfold maximum in Hm. cbn in Hm. apply H1; [done|lia].
    + inversion IH; subst. unfold maximum in *. cbn in Hm. apply IHl; [done|lia].
  - inversion Hw as [| | | | | | | | | | |h l' bs Hh Hl]; subst. rewrite <- app_assoc. rewrite (map_reads d _ h _ Hh). unfold r_map.
    assert (Hm : (maximum (map (fun e => Nat.max (depth (fst e)) (depth (snd e))) l) <= d)%nat) by (cbn in Hd; lia).
    assert (exists bs', concat bs' = concat bs /\ Forall2 (fun e b => forall rest, r_pair (r_mp d) (b ++ rest) = Some (e, rest)) l bs') as (bs' & Hc & Hp).
    { clear -IH Hl Hm. revert bs Hl. induction l as [|[x y] l IHl]; intros bs Hl; [inversion Hl; subst; exists []; by split; [|constructor]|].
      cbn [map concat fst snd app] in Hl. inversion Hl as [|? b1 ? ? H1 Hl1]; subst. inversion Hl1 as [|? b2 ? bs2 H2 Hl2]; subst.
      inversion IH as [|? ? [Hx Hy] IH']; subst. unfold maximum in *. cbn [map foldr fst snd] in Hm. cbn [fst snd] in Hx, Hy.
      destruct (IHl IH' ltac:(lia) bs2 Hl2) as (bs' & Hc & Hp). exists ((b1 ++ b2) :: bs'). split; [cbn [concat]; by rewrite Hc, app_assoc|].
      constructor; [|done]. intros rest. unfold r_pair. rewrite <- app_assoc. rewrite Hx by (done || lia). by rewrite Hy by (done || lia). }
    rewrite <- Hc. rewrite (many_reads _ (fun _ _ => True) l bs'); [done|by eapply Forall2_impl|done|].
    rewrite app_length, Hc. apply forall2_length_le in Hl. assert (length l <= length (concat (map (fun e : mp * mp => [e.1; e.2]) l)))%nat; [|lia].
    clear. induction l as [|e l IH]; cbn; lia.
Qed.

(** ** Words are of things that exist *)
Lemma long_bound marks w b k : long marks w b -> (forall p, In p marks -> (snd p <= k)%nat) -> number b < 256 ^ N.of_nat k.
Proof.
  intros (c & Hc & _) Hk. specialize (Hk _ Hc). cbn in Hk. pose proof (number_bound b). eapply N.lt_le_trans; [done|].
  apply N.pow_le_mono_r; lia.
Qed.
Lemma header_bound base limit marks n h : header base limit marks n h -> limit <= 2 ^ 32 -> (forall p, In p marks -> (snd p <= 4)%nat) -> n < 2 ^ 32.
Proof. intros [[Hn _]|(b & Hl & <-)] H Hk; [lia|]. change (2 ^ 32) with (256 ^ N.of_nat 4). by eapply long_bound. Qed.
Ltac small_marks := let p := fresh "p" in let H := fresh "Hp" in intros p H; cbn in H; repeat (destruct H as [<-|H]; [cbn; lia|]); by destruct H.
Lemma signed_bound b : (1 <= length b <= 8)%nat -> (-2 ^ 63 <= signed_number b < 2 ^ 63)%Z.
Proof.
  intros Hb. unfold signed_number. cbv zeta. pose proof (number_bound b) as H.
  change 256 with (2 ^ 8) in H. rewrite <- N.pow_mul_r in H. set (n := N.of_nat (length b)) in *.
  assert (Hn : 1 <= n <= 8) by (unfold n; lia). clearbody n.
  assert (2 ^ (8 * n) = 2 * 2 ^ (8 * n - 1)) as Hp by (rewrite <- N.pow_succ_r'; f_equal; lia).
  assert (2 ^ (8 * n - 1) <= 2 ^ 63) as Hq by (apply N.pow_le_mono_r; lia).
  change (2 ^ 63)%Z with (Z.of_N (2 ^ 63)). set (p := 2 ^ (8 * n - 1)) in *. set (q := 2 ^ (8 * n)) in *. set (M := 2 ^ 63) in *. clearbody p q M.
  destruct (N.ltb_spec (number b) p); lia.
Qed.
Lemma word_wf m : forall w, word m w -> wf_mp m.
Proof.
  induction m as [|b|z|n|n|s|l IH|l IH] using mp_ind'; intros w Hw; [exact I|exact I|..].
  - cbn. inversion Hw as [| | |c Hc|c Hc|w' b Hl|w' b Hl| | | | |]; subst.
    + lia.
    + pose proof (N_ascii_bounded c). lia.
    + assert (number b < 256 ^ N.of_nat 8) as H by (eapply long_bound; [exact Hl|small_marks]).
      change (256 ^ N.of_nat 8) with 18446744073709551616 in H. lia.
    + assert (-2 ^ 63 <= signed_number b < 2 ^ 63)%Z by (apply signed_bound; destruct Hl as (c & Hc & _); marked Hc; lia). lia.
  - inversion Hw as [| | | | | | |w' b Hl| | | |]; subst. change (number b < 256 ^ N.of_nat 4). eapply long_bound; [exact Hl|small_marks].
  - inversion Hw as [| | | | | | | |w' b Hl| | |]; subst. change (number b < 256 ^ N.of_nat 8). eapply long_bound; [exact Hl|small_marks].
  - inversion Hw as [| | | | | | | | |h b Hh Hu| |]; subst. unfold wf_mp, text_ok. rewrite list_ascii_of_string_of_list_ascii. split; [done|].
    eapply header_bound; [exact Hh|lia|small_marks].
  - inversion Hw as [| | | | | | | | | |h l' bs Hh Hl|]; subst. split; [unfold len; eapply header_bound; [exact Hh|lia|small_marks]|]. apply each_Forall.
    clear -IH Hl. induction Hl as [|m b l bs Hm Hl IHl]; [constructor|]. inversion IH; subst. constructor; [by eapply H1|by apply IHl].
  - inversion Hw as [| | | | | | | | | | |h l' bs Hh Hl]; subst. split; [unfold len; eapply header_bound; [exact Hh|lia|small_marks]|]. apply each_Forall.
    clear -IH Hl. revert bs Hl. induction l as [|[x y] l IHl]; intros bs Hl; [constructor|].
    cbn [map concat fst snd app] in Hl. inversion Hl as [|? b1 ? ? H1 Hl1]; subst. inversion Hl1 as [|? b2 ? bs2 H2 Hl2]; subst.
    inversion IH as [|? ? [Hx Hy] IH']; subst. constructor; [split; [by eapply Hx|by eapply Hy]|by eapply IHl].
Qed.
Lemma e_mp_word m : wf_mp m -> word m (e_mp m).
Proof.
  intros Hw. pose proof (read_mp m (depth m) [] Hw (le_n _)) as H. apply mp_yields in H as (w & E & Hm & _). rewrite !app_nil_r in E. by subst w.
Qed.
Lemma e_int_shortest z w : word (PInt z) w -> (length (e_int z) <= length w)%nat.
Proof.
  intros H. pose proof (word_wf _ _ H) as Hz. cbn in Hz. pose proof (word_nonempty _ _ H) as H0.
  assert (Hlen : length (e_int z) =
    (if ((-32 <=? z) && (z <? 128))%Z then 1 else if ((-128 <=? z) && (z <? 256))%Z then 2
     else if ((-32768 <=? z) && (z <? 65536))%Z then 3 else if ((-2147483648 <=? z) && (z <? 4294967296))%Z then 5 else 9)%nat).
  { unfold e_int. change (2 ^ 7) with 128. change (2 ^ 8) with 256. change (2 ^ 16) with 65536. change (2 ^ 32) with 4294967296.
    change (-2 ^ 7)%Z with (-128)%Z. change (-2 ^ 15)%Z with (-32768)%Z. change (-2 ^ 31)%Z with (-2147483648)%Z.
    repeat match goal with |- context [if ?c then _ else _] => destruct c eqn:?; try lia end; cbn [length]; rewrite ?be_length; try done; lia. }
  rewrite Hlen. inversion H as [| | |c Hc|c Hc|w' b Hl|w' b Hl| | | | |]; subst.
  - assert ((-32 <=? Z.of_N (N_of_ascii c)) && (Z.of_N (N_of_ascii c) <? 128) = true)%Z as -> by lia. cbn. lia.
  - pose proof (N_ascii_bounded c). assert ((-32 <=? Z.of_N (N_of_ascii c) - 256) && (Z.of_N (N_of_ascii c) - 256 <? 128) = true)%Z as -> by lia. cbn. lia.
  - destruct Hl as (c & Hc & ->). pose proof (number_bound b) as Hb. marked Hc; cbn [length];
    match goal with E : _ = length b |- _ => rewrite <- E in *; clear -Hb; set (n := number b) in *; clearbody n; vm_compute (256 ^ _) in Hb end;
    repeat match goal with |- context [if ?c then _ else _] => destruct c eqn:? end; lia.
  - destruct Hl as (c & Hc & ->). pose proof (number_bound b) as Hb. unfold signed_number. cbv zeta. marked Hc; cbn [length];
    match goal with E : _ = length b |- _ => rewrite <- E in *; clear -Hb; set (n := number b) in *; clearbody n; vm_compute (256 ^ _) in Hb end;
    change (2 ^ (8 * N.of_nat 1 - 1)) with 128; change (2 ^ (8 * N.of_nat 1)) with 256;
    change (2 ^ (8 * N.of_nat 2 - 1)) with 32768; change (2 ^ (8 * N.of_nat 2)) with 65536;
    change (2 ^ (8 * N.of_nat 4 - 1)) with 2147483648; change (2 ^ (8 * N.of_nat 4)) with 4294967296;
    change (2 ^ (8 * N.of_nat 8 - 1)) with 9223372036854775808; change (2 ^ (8 * N.of_nat 8)) with 18446744073709551616;
    match goal with |- context [?a <? ?p] => destruct (N.ltb_spec a p) end;
    repeat match goal with |- context [if ?c then _ else _] => destruct c eqn:? end; lia.
Qed.
Lemma head_len_shortest n h :
  (header 0xa0 32 [(0xd9, 1%nat); (0xda, 2%nat); (0xdb, 4%nat)] n h -> (length (e_str_len n) <= length h)%nat) /\
  (header 0x90 16 [(0xdc, 2%nat); (0xdd, 4%nat)] n h -> (length (e_arr_len n) <= length h)%nat) /\
  (header 0x80 16 [(0xde, 2%nat); (0xdf, 4%nat)] n h -> (length (e_map_len n) <= length h)%nat).
Proof.
  unfold e_str_len, e_arr_len, e_map_len. change (2 ^ 8) with 256. change (2 ^ 16) with 65536.
  split_and!; intros [[Hn ->]|(b & (c & Hc & ->) & <-)].
  all: try (match goal with |- (length (if (?a <? ?b)%N then _ else _) <= _)%nat => destruct (N.ltb_spec a b); [cbn; lia|lia] end).
  all: pose proof (number_bound b) as Hb; marked Hc; cbn [length].
  all: match goal with E : _ = length ?x, Hb : number ?x < _ |- _ => rewrite <- E in *; clear -Hb; let n := fresh "n" in set (n := number x) in *; clearbody n; vm_compute (256 ^ _) in Hb end.
  all: repeat match goal with |- context [if ?a <? ?b then _ else _] => destruct (N.ltb_spec a b) end; cbn [length]; rewrite ?be_length; lia.
Qed.
Lemma word_shortest m : forall w, word m w -> (length (e_mp m) <= length w)%nat.
Proof.
  induction m as [|b|z|n|n|s|l IH|l IH] using mp_ind'; intros w Hw.
  - by apply word_nonempty in Hw.
  - by apply word_nonempty in Hw.
  - by apply e_int_shortest.
  - inversion Hw as [| | | | | | |w' b (c & Hc & ->)| | | |]; subst. marked Hc. cbn [e_mp length]. rewrite be_length. lia.
  - inversion Hw as [| | | | | | | |w' b (c & Hc & ->)| | |]; subst. marked Hc. cbn [e_mp length]. rewrite be_length. lia.
  - inversion Hw as [| | | | | | | | |h b Hh Hu| |]; subst. cbn [e_mp]. rewrite list_ascii_of_string_of_list_ascii, !app_length.
    apply (head_len_shortest (N.of_nat (length b)) h) in Hh. unfold len. lia.
  - inversion Hw as [| | | | | | | | | |h l' bs Hh Hl|]; subst. cbn [e_mp]. rewrite !app_length.
    apply (head_len_shortest (N.of_nat (length l)) h) in Hh. enough (length (concat (map e_mp l)) <= length (concat bs))%nat by (unfold len; lia).
    clear -IH Hl. induction Hl as [|m b l bs Hm Hl IHl]; [done|]. inversion IH as [|? ? H1 H2]; subst. cbn. rewrite !app_length. apply H1 in Hm. apply IHl in H2. lia.
  - inversion Hw as [| | | | | | | | | | |h l' bs Hh Hl]; subst. cbn [e_mp]. rewrite !app_length.
    apply (head_len_shortest (N.of_nat (length l)) h) in Hh.
    enough (length (concat (map (fun e => e_mp (fst e) ++ e_mp (snd e)) l)) <= length (concat bs))%nat by (unfold len, bytes in *; lia).
    clear -IH Hl. revert bs Hl. induction l as [|[x y] l IHl]; intros bs Hl; [cbn; lia|].
    cbn [map concat fst snd app] in Hl. inversion Hl as [|? b1 ? ? H1 Hl1]; subst. inversion Hl1 as [|? b2 ? bs2 H2 Hl2]; subst.
    inversion IH as [|? ? [Hx Hy] IH']; subst. cbn. rewrite !app_length. apply Hx in H1. apply Hy in H2. specialize (IHl IH' _ Hl2). cbn [fst snd] in *. lia.
Qed.

(** ** C106 *)
(** Bytes are read if and only if they begin with a word of the format, not nested too deeply; what is read is what
    the word means, what is left is what follows it. *)
Theorem C106_reader : forall limit b m rest, r_mp limit b = Some (m, rest) <-> exists w, b = w ++ rest /\ word m w /\ (depth m <= limit)%nat.
Proof.
  intros limit b m rest. split; [intros H; apply mp_yields in H as (w & -> & H); by exists w|].
  intros (w & -> & Hw & Hd). by apply mp_reads.
Qed.
Print Assumptions C106_reader.
(** No word is the beginning of another, and a word has one meaning. *)
Theorem C106_unambiguous : forall m m' w w' r r', word m w -> word m' w' -> w ++ r = w' ++ r' -> m = m' /\ w = w' /\ r = r'.
Proof.
  intros m m' w w' r r' H H' E.
  pose proof (mp_reads m (Nat.max (depth m) (depth m')) w r H ltac:(lia)) as H1.
  pose proof (mp_reads m' (Nat.max (depth m) (depth m')) w' r' H' ltac:(lia)) as H2. rewrite E, H2 in H1.
  assert (G : forall (a b : mp) (x y : bytes), Some (a, x) = Some (b, y) -> a = b /\ x = y) by (by intros a b x y [= -> ->]).
  apply G in H1 as [-> ->]. split; [done|]. split; [|done]. by apply app_inv_tail in E.
Qed.
Print Assumptions C106_unambiguous.
(** What is written is the shortest word for what is meant. *)
Theorem C106_writer : forall d, sizes_ok d -> word (to_mp d) (serialize d) /\ forall w, word (to_mp d) w -> (length (serialize d) <= length w)%nat.
Proof. intros d Hd. split; [apply e_mp_word, to_mp_wf, Hd|]. apply word_shortest. Qed.
Print Assumptions C106_writer.
(** Two words for 7, one for [-1, "é"], and two that are none. *)
Example C106_example :
  word (PInt 7) (map ascii_of_N [7]) /\ word (PInt 7) (map ascii_of_N [0xcd; 0; 7]) /\
  word (PArr [PInt (-1); PStr (string_of_list_ascii (map ascii_of_N [0xc3; 0xa9]))]) (map ascii_of_N [0x92; 0xff; 0xa2; 0xc3; 0xa9]) /\
  r_mp 9 (map ascii_of_N [0xc1]) = None /\ r_mp 9 (map ascii_of_N [0xa1; 0xa9]) = None.
Proof.
  assert (H : forall b m, match r_mp 9 b with Some (x, []) => x = m | _ => False end -> word m b).
  { intros b m H. destruct (r_mp 9 b) as [[x [|]]|] eqn:E; try done. subst x. apply mp_yields in E as (w & -> & Hw & _). by rewrite app_nil_r. }
  split; [apply H; by vm_compute|]. split; [apply H; by vm_compute|]. split; [apply H; by vm_compute|]. by vm_compute.
Qed.
