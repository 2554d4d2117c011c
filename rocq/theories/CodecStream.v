(** C10, streams: whatever units a peer sends, in whatever pieces they arrive, the frames up to the first unit
    that is rejected are delivered, and that unit ends the stream.  C74: which strings are accepted. *)
From stdpp Require Import base list gmap numbers strings.
From Coq Require Import Ascii NArith Lia ZifyNat ZifyN ZifyBool.
From Verif Require Import Types Codec CodecSpec CodecProofs CodecProps.
Local Open Scope N_scope.

(** ** Specification *)
(** A unit whose body can be judged by itself: it is a frame (perhaps followed by more) or it is not one;
    it is not the beginning of one. *)
Definition judged (body : bytes) : Prop := N.of_nat (length body) < 2 ^ 32 /\ d_frame body <> DEnd.
(** The frames before the first unit that is not a frame, and whether there is no such unit. *)
Fixpoint frames_of (bodies : list bytes) : list frame * bool :=
  match bodies with
  | [] => ([], true)
  | b :: bs => match d_frame b with DOk f _ => (f :: fst (frames_of bs), snd (frames_of bs)) | _ => ([], false) end
  end.

(** ** Proofs *)
Definition units (bodies : list bytes) : bytes := concat (map unit_of bodies).
Definition begun (buf : bytes) (bodies : list bytes) : Prop :=
  bodies = [] /\ buf = [] \/ exists b bs, bodies = b :: bs /\ buf `prefix_of` unit_of b /\ buf <> unit_of b.
Lemma decode_judged body rest : judged body ->
  decode (unit_of body ++ rest) =
  match d_frame body with DOk f _ => (Frame f, rest) | _ => (Bad, unit_of body ++ rest) end.
Proof.
  intros [Hb Hd]. rewrite decode_unit by exact Hb. pose proof (stable_frame body rest) as Hs.
  destruct (d_frame body) as [f r| |]; [|contradiction|]; by rewrite Hs.
Qed.
Lemma drain_units fuel bodies buf suf :
  Forall judged bodies -> buf ++ suf = units bodies -> (length buf < fuel)%nat ->
  drain fuel buf = (fst (frames_of bodies), None) /\ snd (frames_of bodies) = false \/
  exists fs bodies' buf', drain fuel buf = (fs, Some buf') /\ Forall judged bodies' /\ buf' ++ suf = units bodies' /\
    frames_of bodies = (fs ++ fst (frames_of bodies'), snd (frames_of bodies')) /\ begun buf' bodies'.
Proof.
  revert bodies buf. induction fuel as [|fuel IH]; intros bodies buf Hg Hs Hf; [lia|].
  destruct bodies as [|b bs].
  - cbn in Hs. apply app_eq_nil in Hs as [-> ->]. right. exists [], [], []. cbn.
    split; [done|]. split; [done|]. split; [done|]. split; [done|]. by left.
  - inversion Hg as [|? ? Hb Hg']; subst. unfold units in Hs. cbn [map concat] in Hs. fold (units bs) in Hs.
    destruct (decide (unit_of b `prefix_of` buf)) as [[rest ->]|Hnp].
    + rewrite <- app_assoc in Hs. apply app_inv_head in Hs. cbn [drain]. rewrite decode_judged by done.
      cbn [frames_of]. destruct (d_frame b) as [f r| |] eqn:Ed; [|by left|by left].
      destruct (IH bs rest Hg' Hs) as [[-> E]|(fs & bodies' & buf' & -> & H1 & H2 & H3 & H4)].
      { rewrite app_length, unit_length in Hf. lia. }
      * left. by rewrite E.
      * right. exists (f :: fs), bodies', buf'. rewrite H3. cbn [fst snd app]. auto.
    + assert (buf `prefix_of` unit_of b /\ buf <> unit_of b) as Hpre.
      { assert (Hp : buf `prefix_of` unit_of b ++ units bs) by (exists suf; symmetry; exact Hs).
        assert (Hu : unit_of b `prefix_of` unit_of b ++ units bs) by (exists (units bs); reflexivity).
        destruct (prefix_weak_total _ _ _ Hp Hu) as [H|H]; [|contradiction].
        split; [exact H|]. intros ->. by apply Hnp. }
      right. exists [], (b :: bs), buf. cbn [drain].
      rewrite (decode_prefix b) by (apply Hb || apply Hpre).
      split; [done|]. split; [done|]. split; [exact Hs|].
      split; [cbn [app]; by destruct (frames_of (b :: bs))|]. right. exists b, bs. split; [done|]. exact Hpre.
Qed.
Lemma feed_units chunks bodies buf :
  Forall judged bodies -> buf ++ concat chunks = units bodies -> begun buf bodies ->
  feed buf chunks = (fst (frames_of bodies), if snd (frames_of bodies) then Some [] else None).
Proof.
  revert bodies buf. induction chunks as [|c chunks IH]; intros bodies buf Hg Hs Hb.
  - cbn [concat] in Hs. rewrite app_nil_r in Hs. destruct Hb as [[-> ->]|(b & bs & -> & Hp & Hne)]; [done|].
    exfalso. destruct Hp as [suf Hp]. pose proof (f_equal length Hp) as Hl. rewrite app_length in Hl. unfold units in Hs. cbn [map concat] in Hs.
    assert (length buf = length (unit_of b ++ concat (map unit_of bs))) as E by (by rewrite Hs).
    rewrite app_length in E. destruct suf; [apply Hne; by rewrite Hp, app_nil_r | cbn [length] in Hl; lia].
  - cbn [feed]. cbn [concat] in Hs. rewrite app_assoc in Hs.
    destruct (drain_units (S (length (buf ++ c))) bodies (buf ++ c) (concat chunks) Hg Hs ltac:(lia))
      as [[-> E]|(fs & bodies' & buf' & -> & Hg' & Hs' & E & Hb')]; [by rewrite E|].
    rewrite (IH bodies' buf' Hg' Hs' Hb'). by rewrite E.
Qed.

(** Whatever units the peer sends and however they are cut. *)
Theorem C10_streams_partial :
  forall (bodies chunks : list bytes),
    Forall judged bodies -> concat chunks = concat (map unit_of bodies) ->
    feed [] chunks = (fst (frames_of bodies), if snd (frames_of bodies) then Some [] else None).
Proof.
  intros bodies chunks Hg Hc. apply feed_units; [exact Hg | exact Hc|].
  destruct bodies as [|b bs]; [by left|]. right. exists b, bs. split; [done|]. split; [by apply prefix_nil|].
  intros E. apply (f_equal length) in E. rewrite unit_length in E. cbn in E. lia.
Qed.
Print Assumptions C10_streams_partial.
Example C10_streams_example :
  Forall judged [e_frame FPing; e_u32 77; e_frame FPong] /\
  feed [] [take 5 (units [e_frame FPing; e_u32 77; e_frame FPong]); drop 5 (units [e_frame FPing; e_u32 77; e_frame FPong])]
    = ([FPing], None).
Proof. split; [repeat constructor; discriminate | reflexivity]. Qed.

(** ** UTF-8 (C74) *)
(** The Unicode scalar values, and the bytes of each. *)
Definition scalar (n : N) : Prop := n < 0xD800 \/ 0xE000 <= n < 0x110000.
Definition utf8_of (n : N) : bytes :=
  map ascii_of_N
    (if n <? 0x80 then [n]
     else if n <? 0x800 then [0xC0 + n / 64; 0x80 + n mod 64]
     else if n <? 0x10000 then [0xE0 + n / 4096; 0x80 + n / 64 mod 64; 0x80 + n mod 64]
     else [0xF0 + n / 262144; 0x80 + n / 4096 mod 64; 0x80 + n / 64 mod 64; 0x80 + n mod 64]).
Ltac Zify.zify_post_hook ::= Z.to_euclidean_division_equations.
Lemma in_range_of lo hi n : n < 256 -> in_range lo hi (ascii_of_N n) = (lo <=? n) && (n <=? hi).
Proof. intros H. unfold in_range. by rewrite N_ascii_embedding. Qed.
Lemma three_lead c0 c1 : 224 <= c0 <= 239 ->
  (match c0 with 224 => in_range 160 191 c1 | 237 => in_range 128 159 c1 | _ => in_range 128 191 c1 end) =
  in_range (if c0 =? 224 then 160 else 128) (if c0 =? 237 then 159 else 191) c1.
Proof.
  intros H. assert (c0 = 224 \/ c0 = 225 \/ c0 = 226 \/ c0 = 227 \/ c0 = 228 \/ c0 = 229 \/ c0 = 230 \/ c0 = 231 \/
    c0 = 232 \/ c0 = 233 \/ c0 = 234 \/ c0 = 235 \/ c0 = 236 \/ c0 = 237 \/ c0 = 238 \/ c0 = 239) as Hc by lia.
  repeat (destruct Hc as [-> | Hc]); try subst c0; reflexivity.
Qed.
Lemma four_lead c0 c1 : 240 <= c0 <= 244 ->
  (match c0 with 240 => in_range 144 191 c1 | 244 => in_range 128 143 c1 | _ => in_range 128 191 c1 end) =
  in_range (if c0 =? 240 then 144 else 128) (if c0 =? 244 then 143 else 191) c1.
Proof.
  intros H. assert (c0 = 240 \/ c0 = 241 \/ c0 = 242 \/ c0 = 243 \/ c0 = 244) as Hc by lia.
  repeat (destruct Hc as [-> | Hc]); try subst c0; reflexivity.
Qed.
(** The four forms that [utf8] accepts at the front. *)
Lemma utf8_step c0 b0 : utf8 (c0 :: b0) = true <->
  N_of_ascii c0 < 128 /\ utf8 b0 = true \/
  (exists c1 r, b0 = c1 :: r /\ 194 <= N_of_ascii c0 <= 223 /\ 128 <= N_of_ascii c1 <= 191 /\ utf8 r = true) \/
  (exists c1 c2 r, b0 = c1 :: c2 :: r /\ 224 <= N_of_ascii c0 <= 239 /\
     (if N_of_ascii c0 =? 224 then 160 else 128) <= N_of_ascii c1 <= (if N_of_ascii c0 =? 237 then 159 else 191) /\
     128 <= N_of_ascii c2 <= 191 /\ utf8 r = true) \/
  (exists c1 c2 c3 r, b0 = c1 :: c2 :: c3 :: r /\ 240 <= N_of_ascii c0 <= 244 /\
     (if N_of_ascii c0 =? 240 then 144 else 128) <= N_of_ascii c1 <= (if N_of_ascii c0 =? 244 then 143 else 191) /\
     128 <= N_of_ascii c2 <= 191 /\ 128 <= N_of_ascii c3 <= 191 /\ utf8 r = true).
Proof.
  cbn [utf8]. unfold in_range at 1.
  destruct ((0 <=? N_of_ascii c0) && (N_of_ascii c0 <=? 127)) eqn:E1.
  { split; [intros H; left; split; [lia|done]|].
    intros [[_ H]|[(? & ? & -> & H & _)|[(? & ? & ? & -> & H & _)|(? & ? & ? & ? & -> & H & _)]]]; [done|lia..]. }
  destruct b0 as [|c1 b1].
  { split; [done|]. intros [[H _]|[(? & ? & ? & _)|[(? & ? & ? & ? & _)|(? & ? & ? & ? & ? & _)]]]; [lia|done..]. }
  unfold in_range at 1. destruct ((194 <=? N_of_ascii c0) && (N_of_ascii c0 <=? 223)) eqn:E2.
  { rewrite andb_true_iff. unfold in_range at 1. split.
    - intros [H1 H2]. right. left. exists c1, b1. repeat split; try done; lia.
    - intros [[H _]|[(x & y & [= <- <-] & H & H' & H'')|[(? & ? & ? & _ & H & _)|(? & ? & ? & ? & _ & H & _)]]];
        [lia | split; [lia|done] | lia..]. }
  destruct b1 as [|c2 b2].
  { split; [done|]. intros [[H _]|[(? & ? & _ & H & _)|[(? & ? & ? & ? & _)|(? & ? & ? & ? & ? & _)]]]; [lia|lia|done..]. }
  unfold in_range at 1. destruct ((224 <=? N_of_ascii c0) && (N_of_ascii c0 <=? 239)) eqn:E3.
  { rewrite three_lead by lia. rewrite !andb_true_iff. unfold in_range. split.
    - intros [[H1 H2] H3]. right. right. left. exists c1, c2, b2. repeat split; try done; lia.
    - intros [[H _]|[(? & ? & _ & H & _)|[(x & y & z & [= <- <- <-] & H & H' & H'' & H3)|(? & ? & ? & ? & _ & H & _)]]];
        [lia | lia | split; [split; lia|done] | lia]. }
  destruct b2 as [|c3 b3].
  { split; [done|]. intros [[H _]|[(? & ? & _ & H & _)|[(? & ? & ? & _ & H & _)|(? & ? & ? & ? & ? & _)]]]; [lia|lia|lia|done]. }
  rewrite !andb_true_iff. unfold in_range at 1. split.
  - intros [[[[H0 H1] H2] H3] H4]. rewrite four_lead in H1 by lia. unfold in_range in *.
    right. right. right. exists c1, c2, c3, b3. repeat split; try done; lia.
  - intros [[H _]|[(? & ? & _ & H & _)|[(? & ? & ? & _ & H & _)|(x & y & z & w & [= <- <- <- <-] & H & H' & H'' & H3 & H4)]]];
      [lia | lia | lia|]. rewrite four_lead by lia. unfold in_range. repeat split; try done; lia.
Qed.
Lemma bytes_ascii l m : map N_of_ascii l = m -> l = map ascii_of_N m.
Proof. intros <-. rewrite map_map. induction l as [|c l IH]; cbn; [done|]. by rewrite ascii_N_embedding, <- IH. Qed.
Ltac pick_form n :=
  unfold utf8_of; destruct (N.ltb_spec n 0x80), (N.ltb_spec n 0x800), (N.ltb_spec n 0x10000); try lia.
Lemma utf8_one n r : scalar n -> utf8 (utf8_of n ++ r) = utf8 r.
Proof.
  intros Hn. unfold scalar in Hn. apply eq_true_iff_eq. pick_form n; cbn [map app]; rewrite utf8_step.
  - rewrite !N_ascii_embedding by lia. split.
    + intros [[_ H']|[(? & ? & _ & H' & _)|[(? & ? & ? & _ & H' & _)|(? & ? & ? & ? & _ & H' & _)]]]; [done|lia..].
    + intros H'. left. split; [lia|done].
  - split.
    + intros [[H' _]|[(x & y & [= <- <-] & _ & _ & H')|[(? & ? & ? & _ & H' & _)|(? & ? & ? & ? & _ & H' & _)]]];
        rewrite ?N_ascii_embedding in H' by lia; [lia|done|lia..].
    + intros H'. right. left. eexists _, _. split; [reflexivity|]. rewrite !N_ascii_embedding by lia.
      split; [lia|]. split; [lia|done].
  - split.
    + intros [[H' _]|[(? & ? & _ & H' & _)|[(x & y & z & [= <- <- <-] & _ & _ & _ & H')|(? & ? & ? & ? & _ & H' & _)]]];
        rewrite ?N_ascii_embedding in H' by lia; [lia|lia|done|lia].
    + intros H'. right. right. left. eexists _, _, _. split; [reflexivity|]. rewrite !N_ascii_embedding by lia.
      split; [lia|]. split; [|split; [lia|done]].
      destruct (N.eqb_spec (224 + n / 4096) 224), (N.eqb_spec (224 + n / 4096) 237); lia.
  - split.
    + intros [[H' _]|[(? & ? & _ & H' & _)|[(? & ? & ? & _ & H' & _)|(x & y & z & w & [= <- <- <- <-] & _ & _ & _ & _ & H')]]];
        rewrite ?N_ascii_embedding in H' by lia; [lia|lia|lia|done].
    + intros H'. right. right. right. eexists _, _, _, _. split; [reflexivity|]. rewrite !N_ascii_embedding by lia.
      split; [lia|]. split; [|split; [lia|split; [lia|done]]].
      destruct (N.eqb_spec (240 + n / 262144) 240), (N.eqb_spec (240 + n / 262144) 244); lia.
Qed.
Lemma utf8_front b : b <> [] -> utf8 b = true -> exists n r, scalar n /\ b = utf8_of n ++ r /\ utf8 r = true.
Proof.
  destruct b as [|c0 b0]; [done|]. intros _ H. apply utf8_step in H.
  destruct H as [[H1 H2]|[(c1 & r & -> & H1 & H2 & H3)|[(c1 & c2 & r & -> & H1 & H2 & H3 & H4)|(c1 & c2 & c3 & r & -> & H1 & H2 & H3 & H4 & H5)]]].
  - exists (N_of_ascii c0), b0. split; [left; lia|]. split; [|done].
    assert (utf8_of (N_of_ascii c0) = [c0]) as ->; [|done]. symmetry. pick_form (N_of_ascii c0). by apply bytes_ascii.
  - set (n := (N_of_ascii c0 - 192) * 64 + (N_of_ascii c1 - 128)). exists n, r. split; [left; lia|]. split; [|done].
    assert (utf8_of n = [c0; c1]) as ->; [|done]. symmetry. pick_form n. apply bytes_ascii. cbn. repeat f_equal; lia.
  - set (n := (N_of_ascii c0 - 224) * 4096 + (N_of_ascii c1 - 128) * 64 + (N_of_ascii c2 - 128)).
    assert (128 <= N_of_ascii c1 <= 191 /\ (N_of_ascii c0 = 224 -> 160 <= N_of_ascii c1) /\ (N_of_ascii c0 = 237 -> N_of_ascii c1 <= 159)) as Hc1.
    { destruct (N.eqb_spec (N_of_ascii c0) 224), (N.eqb_spec (N_of_ascii c0) 237); lia. }
    exists n, r. split; [unfold scalar; lia|]. split; [|done].
    assert (utf8_of n = [c0; c1; c2]) as ->; [|done]. symmetry. pick_form n. apply bytes_ascii. cbn. repeat f_equal; lia.
  - set (n := (N_of_ascii c0 - 240) * 262144 + (N_of_ascii c1 - 128) * 4096 + (N_of_ascii c2 - 128) * 64 + (N_of_ascii c3 - 128)).
    assert (128 <= N_of_ascii c1 <= 191 /\ (N_of_ascii c0 = 240 -> 144 <= N_of_ascii c1) /\ (N_of_ascii c0 = 244 -> N_of_ascii c1 <= 143)) as Hc1.
    { destruct (N.eqb_spec (N_of_ascii c0) 240), (N.eqb_spec (N_of_ascii c0) 244); lia. }
    exists n, r. split; [unfold scalar; lia|]. split; [|done].
    assert (utf8_of n = [c0; c1; c2; c3]) as ->; [|done]. symmetry. pick_form n. apply bytes_ascii. cbn. repeat f_equal; lia.
Qed.

(** The strings of a decoded frame are exactly the sequences of Unicode scalar values: overlong forms,
    surrogates and values beyond U+10FFFF are rejected, everything else is accepted. *)
Theorem C74_strings_are_unicode :
  forall b : bytes, utf8 b = true <-> exists l : list N, Forall scalar l /\ b = concat (map utf8_of l).
Proof.
  intros b. split.
  - assert (forall k b, (length b <= k)%nat -> utf8 b = true -> exists l, Forall scalar l /\ b = concat (map utf8_of l)) as H.
    { clear b. induction k as [|k IH]; intros b Hk Hb.
      - destruct b; [by exists [] | cbn in Hk; lia].
      - destruct (decide (b = [])) as [->|Hne]; [by exists []|].
        destruct (utf8_front b Hne Hb) as (n & r & Hn & -> & Hr).
        assert (0 < length (utf8_of n))%nat as Hp by (pick_form n; cbn; lia).
        rewrite app_length in Hk. destruct (IH r ltac:(lia) Hr) as (l & Hl & ->).
        exists (n :: l). split; [by constructor | done]. }
    by apply (H (length b)).
  - intros (l & Hl & ->). induction Hl as [|n l Hn Hl IH]; [done|]. cbn [map concat]. by rewrite utf8_one.
Qed.
Print Assumptions C74_strings_are_unicode.
Example C74_unicode_example :
  utf8 (map ascii_of_N [0xED; 0xA0; 0x80]) = false /\ utf8 (map ascii_of_N [0xE2; 0x82; 0xAC]) = true /\
  utf8_of 0x20AC = map ascii_of_N [0xE2; 0x82; 0xAC] /\ scalar 0x20AC /\ ~ scalar 0xD800.
Proof. repeat split; try reflexivity; unfold scalar; lia. Qed.
