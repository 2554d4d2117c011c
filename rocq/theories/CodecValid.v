(** Property C74: only well-formed frames come out of the decoder, and no two frames share an
    encoding. *)
From stdpp Require Import base list gmap numbers strings.
From Coq Require Import Ascii NArith Lia ZifyNat ZifyN ZifyBool.
From Verif Require Import Types Codec CodecSpec CodecProofs.
Local Open Scope N_scope.

(** Everything [d] returns satisfies [P]. *)
Definition yields {A} (d : dec A) (P : A -> Prop) : Prop := forall b a r, d b = DOk a r -> P a.
Lemma yields_bind {A B} (d : dec A) (k : A -> dec B) (P : A -> Prop) (Q : B -> Prop) :
  yields d P -> (forall a, P a -> yields (k a) Q) -> yields (d_bind d k) Q.
Proof. intros Hd Hk b x r. unfold d_bind. destruct (d b) as [a b'| |] eqn:E; [|discriminate..]. apply Hk. by eapply Hd. Qed.
Lemma yields_ret {A} (a : A) (P : A -> Prop) : P a -> yields (d_ret a) P.
Proof. intros H b x r [= <- _]. exact H. Qed.
Lemma yields_fail {A} (P : A -> Prop) : yields (@d_fail A) P.
Proof. intros b x r. discriminate. Qed.
Lemma yields_any {A} (d : dec A) : yields d (fun _ => True).
Proof. by intros b x r _. Qed.
Lemma yields_take n : yields (d_take n) (fun b => N.of_nat (length b) = n).
Proof.
  intros b a r. unfold d_take. destruct (N.of_nat (length b) <? n) eqn:E; [discriminate|]. intros [= <- _].
  rewrite take_length. lia.
Qed.
Lemma unle_bound b : unle b < 256 ^ N.of_nat (length b).
Proof.
  induction b as [|c b IH]; [cbn; lia|]. cbn [unle length]. pose proof (N_ascii_bounded c) as Hc.
  rewrite Nat2N.inj_succ, N.pow_succ_r'. lia.
Qed.
Lemma yields_int n : yields (d_int n) (fun x => x < 256 ^ n).
Proof. eapply yields_bind; [apply yields_take|]. intros b <-. apply yields_ret, unle_bound. Qed.
Lemma yields_be n : yields (d_be n) (fun x => x < 256 ^ n).
Proof. eapply yields_bind; [apply yields_take|]. intros b <-. apply yields_ret. pose proof (unle_bound (rev b)) as H. by rewrite rev_length in H. Qed.
Lemma yields_weaken {A} (d : dec A) (P Q : A -> Prop) : yields d P -> (forall a, P a -> Q a) -> yields d Q.
Proof. intros H HQ b a r E. eapply HQ, H, E. Qed.
Lemma yields_u64 : yields d_u64 (fun x => u64 x = true).
Proof. eapply yields_weaken; [apply yields_int|]. intros x Hx. apply N.ltb_lt. exact Hx. Qed.
Lemma yields_u16 : yields d_u16 (fun x => u16 x = true).
Proof. eapply yields_weaken; [apply yields_int|]. intros x Hx. apply N.ltb_lt. exact Hx. Qed.
Lemma yields_opt {A} (d : dec A) (P : A -> bool) : yields d (fun a => P a = true) -> yields (d_opt d) (fun o => opt_all P o = true).
Proof.
  intros Hd. eapply yields_bind; [apply yields_any|]. intros t _. destruct t as [|[p|p|]]; try apply yields_fail.
  - by apply yields_ret.
  - eapply yields_bind; [exact Hd|]. intros a Ha. by apply yields_ret.
Qed.
Lemma yields_list {A} (d : dec A) (P : A -> bool) : yields d (fun a => P a = true) -> forall fuel n, yields (d_list fuel d n) (fun l => forallb P l = true).
Proof.
  intros Hd fuel. induction fuel as [|fuel IH]; intros n.
  - destruct n; [by apply yields_ret|apply yields_fail].
  - destruct n as [|p]; [by apply yields_ret|]. cbn [d_list]. eapply yields_bind; [exact Hd|]. intros a Ha.
    eapply yields_bind; [apply IH|]. intros l Hl. apply yields_ret. cbn. by rewrite Ha, Hl.
Qed.
Lemma yields_vec {A} (d : dec A) (P : A -> bool) : yields d (fun a => P a = true) -> yields (d_vec d) (fun l => forallb P l = true).
Proof. intros Hd. eapply yields_bind; [apply yields_any|]. intros n _ b l r. apply (yields_list d P Hd). Qed.
Lemma yields_str : yields d_str (fun s => rust_string s = true).
Proof.
  eapply yields_bind; [apply yields_any|]. intros b _. destruct (utf8 b) eqn:E; [|apply yields_fail]. apply yields_ret.
  unfold rust_string. by rewrite list_ascii_of_string_of_list_ascii.
Qed.
Lemma yields_nonzero : yields d_nonzero (fun x => nonzero_u64 x = true).
Proof.
  eapply yields_bind; [apply yields_u64|]. intros n Hn. destruct (n =? 0) eqn:E; [apply yields_fail|]. apply yields_ret. unfold nonzero_u64. rewrite Hn. assert (0 <? n = true) as -> by lia. done.
Qed.
Lemma yields_addr : yields d_addr (fun a => rust_addr a = true).
Proof.
  eapply yields_bind; [apply yields_any|]. intros t _. destruct t as [|[p|p|]]; try apply yields_fail.
  - eapply yields_bind; [apply yields_be|]. intros ip Hip. eapply yields_bind; [apply yields_u16|]. intros port Hp. apply yields_ret.
    unfold rust_addr. rewrite Hp, (proj2 (N.ltb_lt ip (2 ^ 32)) Hip). done.
  - eapply yields_bind; [apply yields_be|]. intros ip Hip. eapply yields_bind; [apply yields_u16|]. intros port Hp. apply yields_ret.
    unfold rust_addr. rewrite Hp, (proj2 (N.ltb_lt ip (2 ^ 128)) Hip). done.
Qed.
Lemma yields_reason : yields d_reason (fun r => rust_reason r = true).
Proof.
  eapply yields_bind; [apply yields_any|]. intros t _. destruct t as [|[[p|p|]|[p|p|]|]]; try apply yields_fail; try by apply yields_ret.
  eapply yields_bind; [apply yields_str|]. intros s Hs. by apply yields_ret.
Qed.
Lemma yields_target : yields d_target (fun t => rust_target t = true).
Proof.
  eapply yields_bind; [apply yields_any|]. intros t _. destruct t as [|[p|[p|p|]|]]; try apply yields_fail.
  - eapply yields_bind; [apply yields_nonzero|]. intros i Hi. by apply yields_ret.
  - eapply yields_bind; [apply yields_nonzero|]. intros i Hi. by apply yields_ret.
  - eapply yields_bind; [apply yields_str|]. intros i Hi. by apply yields_ret.
Qed.
Ltac yield := first [apply yields_u64 | apply yields_str | apply yields_addr | apply yields_reason
  | apply yields_vec; first [apply yields_u64 | apply yields_target] | apply yields_opt; first [apply yields_u64 | apply yields_str] | apply yields_any].
Lemma yields_frame : yields d_frame (fun f => rust_frame f = true).
Proof.
  eapply yields_bind; [apply yields_any|]. intros t _.
  do 5 (try (destruct t as [|t]; [|])); unfold d_frame;
  repeat match goal with |- context [match ?t with _ => _ end] => is_var t; destruct t end;
    try apply yields_fail; try (by apply yields_ret);
    repeat (eapply yields_bind; [yield|intros ? ?]); apply yields_ret; cbn [rust_frame]; repeat (apply andb_true_intro; split); assumption.
Qed.

(** C74.  Whatever bytes are in the buffer, a frame that is decoded is a value of the Rust type: its
    send targets have ids that are not zero, its strings are UTF-8, its integers are in range. *)
Theorem C74_decoded_frames_are_wellformed : forall src f rest, decode src = (Frame f, rest) -> rust_frame f = true.
Proof.
  intros src f rest. unfold decode. destruct (_ <? 4); [discriminate|]. destruct (_ <? _); [discriminate|].
  destruct (d_frame (drop 4 src)) as [f' r| |] eqn:E; [|discriminate..]. intros [= <- _]. by eapply yields_frame.
Qed.
Print Assumptions C74_decoded_frames_are_wellformed.
(** Decoding takes the announced bytes and nothing else off the buffer. *)
Theorem C74_consumes_a_unit : forall src f rest, decode src = (Frame f, rest) ->
  exists body, src = e_u32 (N.of_nat (length body)) ++ body ++ rest.
Proof.
  intros src f rest. unfold decode. destruct (N.of_nat (length src) <? 4) eqn:E4; [discriminate|]. destruct (N.of_nat (length src) <? 4 + unle (take 4 src)) eqn:El; [discriminate|].
  destruct (d_frame (drop 4 src)) as [f' r| |]; intros Heq; [|discriminate Heq|discriminate Heq]. injection Heq as _ <-.
  set (len := unle (take 4 src)) in *. exists (take (N.to_nat len) (drop 4 src)).
  rewrite take_length, drop_length.
  assert (N.of_nat (N.to_nat len `min` (length src - 4)) = len) as -> by lia.
  assert (e_u32 len = take 4 src) as ->.
  { unfold len. assert (length (take 4 src) = 4%nat) as H4 by (rewrite take_length; lia). revert H4. generalize (take 4 src). clear.
    intros b Hb. unfold e_u32. destruct b as [|c0 [|c1 [|c2 [|c3 [|]]]]]; try discriminate.
    assert (forall n c b, le (S n) (N_of_ascii c + 256 * unle b) = c :: le n (unle b)) as Hs.
    { intros n c b. cbn [le]. pose proof (N_ascii_bounded c) as Hc. f_equal.
      - rewrite (N.mul_comm 256), N.mod_add, N.mod_small by lia. apply ascii_N_embedding.
      - f_equal. rewrite (N.mul_comm 256), N.div_add, (N.div_small (N_of_ascii c)) by lia. lia. }
    change (unle [c0; c1; c2; c3]) with (N_of_ascii c0 + 256 * unle [c1; c2; c3]). rewrite Hs.
    change (unle [c1; c2; c3]) with (N_of_ascii c1 + 256 * unle [c2; c3]). rewrite Hs.
    change (unle [c2; c3]) with (N_of_ascii c2 + 256 * unle [c3]). rewrite Hs.
    change (unle [c3]) with (N_of_ascii c3 + 256 * unle []). rewrite Hs. done. }
  rewrite N2Nat.inj_add. change (N.to_nat 4) with 4%nat. rewrite <- drop_drop, take_drop, take_drop. done.
Qed.
Print Assumptions C74_consumes_a_unit.
(** Two frames with the same encoding are the same frame, up to what the format does not transmit. *)
Theorem C74_injective : forall f g, rust_frame f = true -> rust_frame g = true -> fits f = true -> fits g = true ->
  encode f [] = encode g [] -> wire_view f = wire_view g.
Proof.
  intros f g Hf Hg Ff Fg E. pose proof (decode_frame f [] Hf Ff) as H1. pose proof (decode_frame g [] Hg Fg) as H2.
  rewrite !encode_app in E by assumption. cbn [app] in E. rewrite E in H1. rewrite H1 in H2. by injection H2.
Qed.
Print Assumptions C74_injective.
Example C74_example : fst (decode (unit_of (e_u32 3 ++ e_u64 1 ++ e_u32 0 ++ e_u64 0 ++ e_u64 0))) = Bad /\
  decode (unit_of (e_u32 3 ++ e_u64 1 ++ e_u32 0 ++ e_u64 7 ++ e_u64 0)) = (Frame (FSend [TPid 7] []), []).
Proof. vm_compute. auto. Qed.
