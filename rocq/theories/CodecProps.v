(** Property theorems C07-C10: the frame codec (hydra/src/frame/mod.rs). *)
From stdpp Require Import base list gmap numbers strings.
From Coq Require Import Ascii NArith Lia ZifyNat ZifyN ZifyBool.
From Verif Require Import Types Codec CodecSpec CodecProofs.
Local Open Scope N_scope.

(** What a sender has written after encoding [fs] one after the other into its buffer. *)
Definition written (fs : list frame) : bytes := fold_left (fun dst f => encode f dst) fs [].

Lemma written_app fs dst : Forall good fs -> fold_left (fun d f => encode f d) fs dst = dst ++ stream fs.
Proof.
  revert dst; induction fs as [|f fs IH]; intros dst Hg; cbn [fold_left].
  - unfold stream. cbn. rewrite app_nil_r. reflexivity.
  - inversion Hg as [|? ? [Hr Hf] Hg']; subst. rewrite IH, encode_app by assumption.
    unfold stream. cbn [map concat]. rewrite app_assoc. reflexivity.
Qed.

(** C07.  Encoding keeps what was in the output buffer, and decoding what was appended (followed
    by anything) gives the frame back and leaves exactly what followed it. *)
Theorem C07_round_trip :
  forall (f : frame) (out inp : bytes),
    rust_frame f = true -> fits f = true ->
    exists u, encode f out = out ++ u /\ decode (u ++ inp) = (Frame (wire_view f), inp).
Proof.
  intros f out inp Hr Hf. exists (unit_of (e_frame f)).
  split; [apply encode_app, Hf|apply decode_frame; assumption].
Qed.
Print Assumptions C07_round_trip.

(** [wire_view] only forgets the flow label and scope id of an IPv6 address in a hello. *)
Theorem C07_wire_view_exact :
  forall f, (forall n ip port fl sc c, f <> FHello n (SA6 ip port fl sc) c) -> wire_view f = f.
Proof. intros [n [] c| | | | | | | | |] H; try reflexivity. edestruct H; reflexivity. Qed.
Print Assumptions C07_wire_view_exact.

Example C07_example :
  let f := FSend [TPid 7; TNamed "abc"; TAlias 300] ["x"; "y"]%char in
  rust_frame f = true /\ fits f = true /\
  decode (drop 2 (encode f ["p"; "q"]%char) ++ ["z"]%char) = (Frame f, ["z"]%char) /\
  length (encode f []) = 65%nat.
Proof. vm_compute. repeat split. Qed.

(** C08.  However the stream is cut into chunks, the reader gets exactly the frames written, in
    order, with an empty buffer at the end and no error. *)
Theorem C08_stream_chunking :
  forall (fs : list frame) (chunks : list bytes),
    Forall (fun f => rust_frame f = true /\ fits f = true) fs ->
    concat chunks = written fs ->
    feed [] chunks = (map wire_view fs, Some []).
Proof.
  intros fs chunks Hg Hc. unfold written in Hc. rewrite (written_app fs [] Hg) in Hc.
  destruct fs as [|f fs].
  - apply feed_stream; [exact Hg|exact Hc|]. right. auto.
  - apply feed_stream; [exact Hg|exact Hc|]. left. exists f, fs. split; [reflexivity|].
    split; [exists (unit_of (e_frame f)); reflexivity|]. intros E.
    apply (f_equal length) in E. rewrite unit_length in E. cbn in E. lia.
Qed.
Print Assumptions C08_stream_chunking.

Example C08_example :
  let fs := [FPing; FLink true 3 4; FExit 1 2 (RCustom "boom")] in
  let w := written fs in
  Forall (fun f => rust_frame f = true /\ fits f = true) fs /\
  feed [] [take 3 w; take 20 (drop 3 w); []; drop 23 w] = (fs, Some []) /\
  feed [] (map (fun c => [c]) w) = (fs, Some []).
Proof. cbn zeta. split; [repeat constructor|]. vm_compute. auto. Qed.

(** C09.  A strict prefix of an encoded frame is left alone. *)
Theorem C09_incomplete_frame :
  forall (f : frame) (part missing : bytes),
    fits f = true -> encode f [] = part ++ missing -> missing <> [] ->
    decode part = (NeedMore, part).
Proof.
  intros f part missing Hf He Hm. rewrite encode_app in He by exact Hf. cbn in He.
  apply (decode_prefix (e_frame f)).
  - unfold fits in Hf. lia.
  - exists missing. exact He.
  - intros E. rewrite E in He. apply Hm. apply (app_inv_head (unit_of (e_frame f))).
    rewrite <- He, app_nil_r. reflexivity.
Qed.
Print Assumptions C09_incomplete_frame.

(** The same for any length-prefixed unit, whatever its contents: while bytes are missing nothing
    is consumed, yielded or rejected. *)
Theorem C09_incomplete_unit :
  forall (body part missing : bytes),
    N.of_nat (length body) < 2 ^ 32 -> unit_of body = part ++ missing -> missing <> [] ->
    decode part = (NeedMore, part).
Proof.
  intros body part missing Hb He Hm. apply (decode_prefix body); [exact Hb|exists missing; exact He|].
  intros E. rewrite E in He. apply Hm. apply (app_inv_head (unit_of body)).
  rewrite <- He, app_nil_r. reflexivity.
Qed.
Print Assumptions C09_incomplete_unit.

Example C09_example :
  let w := encode (FLink true 3 4) [] in
  fits (FLink true 3 4) = true /\ length w = 25%nat /\
  forallb (fun n => match decode (take n w) with (NeedMore, b) => bool_decide (b = take n w) | _ => false end)
          (seq 0 25) = true.
Proof. vm_compute. auto. Qed.

(** C10 full statement, for every body a peer may send in a unit: the outcome is the same whatever
    follows the unit, a frame consumes exactly the unit, and a complete unit is never "need more". *)
Definition unit_respected (body : bytes) : Prop :=
  (forall rest1 rest2, fst (decode (unit_of body ++ rest1)) = fst (decode (unit_of body ++ rest2))) /\
  (forall rest f b, decode (unit_of body ++ rest) = (Frame f, b) -> b = rest) /\
  (forall rest, fst (decode (unit_of body ++ rest)) <> NeedMore).

(** It fails: the decoder reads beyond the announced length (frame/mod.rs:173). An empty unit
    followed by different frames decodes to different frames, and alone it blocks the stream for
    ever although it is complete. *)
Theorem C10_boundaries_refuted :
  exists body : bytes, N.of_nat (length body) < 2 ^ 32 /\ ~ unit_respected body /\
    (exists f1 f2 r1 r2, f1 <> f2 /\ decode (unit_of body ++ r1) = (Frame f1, r1) /\
                         decode (unit_of body ++ r2) = (Frame f2, r2)) /\
    decode (unit_of body) = (NeedMore, unit_of body).
Proof.
  exists []. split; [cbn; lia|].
  assert (Hb : decode (unit_of []) = (NeedMore, unit_of [])) by reflexivity.
  split.
  - intros (_ & _ & H). apply (H []). rewrite app_nil_r, Hb. reflexivity.
  - split; [|exact Hb]. exists FPing, FPong, (e_u32 1), (e_u32 2).
    split; [discriminate|]. split; reflexivity.
Qed.
Print Assumptions C10_boundaries_refuted.

(** What does hold: every unit whose contents do not end in the middle of a frame is respected;
    in particular (C10_encoded_units) every unit a hydra peer produces. *)
Theorem C10_boundaries_partial :
  forall body, N.of_nat (length body) < 2 ^ 32 -> d_frame body <> DEnd -> unit_respected body.
Proof.
  intros body Hb Hd.
  assert (H : forall rest, decode (unit_of body ++ rest) =
     match d_frame body with DOk f _ => (Frame f, rest) | _ => (Bad, unit_of body ++ rest) end).
  { intros rest. rewrite decode_unit by exact Hb. pose proof (stable_frame body rest) as Hs.
    destruct (d_frame body) as [f r| |]; [|contradiction|]; rewrite Hs; reflexivity. }
  repeat split.
  - intros r1 r2. rewrite !H. destruct (d_frame body); reflexivity.
  - intros rest f b. rewrite H. destruct (d_frame body); [|discriminate..]. intros [= _ <-]. reflexivity.
  - intros rest. rewrite H. destruct (d_frame body); discriminate.
Qed.
Print Assumptions C10_boundaries_partial.

Theorem C10_encoded_units :
  forall f, rust_frame f = true -> fits f = true -> unit_respected (e_frame f).
Proof.
  intros f Hr Hf. apply C10_boundaries_partial; [unfold fits in Hf; lia|].
  pose proof (rt_frame f [] Hr Hf) as H. rewrite app_nil_r in H. rewrite H. discriminate.
Qed.
Print Assumptions C10_encoded_units.

Example C10_example :  (* trailing garbage inside a unit, and a rejected unit *)
  d_frame (e_u32 1 ++ ["x"]%char) <> DEnd /\ d_frame (e_u32 77) <> DEnd /\
  decode (unit_of (e_u32 77) ++ ["x"]%char) = (Bad, unit_of (e_u32 77) ++ ["x"]%char).
Proof. vm_compute. repeat split; discriminate. Qed.
