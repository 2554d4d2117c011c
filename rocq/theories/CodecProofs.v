(** Proofs about the codec model. *)
From stdpp Require Import base list gmap numbers strings.
From Coq Require Import Ascii NArith Lia ZifyNat ZifyN ZifyBool.
From Verif Require Import Types Codec CodecSpec.
Local Open Scope N_scope.
Local Arguments N.add : simpl never.
Local Arguments N.mul : simpl never.
Local Arguments N.div : simpl never.
Local Arguments N.modulo : simpl never.
Local Arguments N.pow : simpl never.

(** ** Integers *)
Lemma le_length n x : length (le n x) = n.
Proof. revert x; induction n as [|n IH]; intros x; cbn; [reflexivity|f_equal; apply IH]. Qed.

Lemma unle_le n x : x < 256 ^ N.of_nat n -> unle (le n x) = x.
Proof.
  revert x; induction n as [|n IH]; intros x Hx; cbn [le unle].
  - cbn in Hx. lia.
  - assert (Hm : x mod 256 < 256) by (apply N.mod_lt; lia).
    rewrite N_ascii_embedding by exact Hm. rewrite IH.
    + pose proof (N.div_mod x 256). lia.
    + apply N.div_lt_upper_bound; [lia|].
      replace (256 * 256 ^ N.of_nat n) with (256 ^ N.of_nat (S n)); [exact Hx|].
      rewrite Nat2N.inj_succ, N.pow_succ_r'. reflexivity.
Qed.

Lemma be_length n x : length (be n x) = n.
Proof. unfold be. rewrite rev_length. apply le_length. Qed.

Lemma take_app_exact {A} (n : nat) (a b : list A) : length a = n -> take n (a ++ b) = a.
Proof. intros <-. apply take_app. Qed.
Lemma drop_app_exact {A} (n : nat) (a b : list A) : length a = n -> drop n (a ++ b) = b.
Proof. intros <-. apply drop_app. Qed.

Lemma d_take_app n a rest : N.of_nat (length a) = n -> d_take n (a ++ rest) = DOk a rest.
Proof.
  intros H. unfold d_take. rewrite app_length.
  destruct (N.ltb_spec (N.of_nat (length a + length rest)) n) as [Hlt|_]; [lia|].
  rewrite take_app_exact, drop_app_exact by lia. reflexivity.
Qed.

Lemma d_bind_ok {A B} (d : dec A) (k : A -> dec B) b a r : d b = DOk a r -> d_bind d k b = k a r.
Proof. intros H. unfold d_bind. rewrite H. reflexivity. Qed.

Lemma d_int_le (n : nat) x rest : x < 256 ^ N.of_nat n -> d_int (N.of_nat n) (le n x ++ rest) = DOk x rest.
Proof.
  intros H. unfold d_int, d_bind. rewrite d_take_app by (rewrite le_length; reflexivity).
  unfold d_ret. rewrite unle_le by exact H. reflexivity.
Qed.

Lemma rt_u16 x rest : u16 x = true -> d_u16 (e_u16 x ++ rest) = DOk x rest.
Proof. intros H. apply (d_int_le 2). unfold u16 in H. change (256 ^ N.of_nat 2) with (2 ^ 16). lia. Qed.
Lemma rt_u32 x rest : x < 2 ^ 32 -> d_u32 (e_u32 x ++ rest) = DOk x rest.
Proof. intros H. apply (d_int_le 4). change (256 ^ N.of_nat 4) with (2 ^ 32). exact H. Qed.
Lemma rt_u64 x rest : u64 x = true -> d_u64 (e_u64 x ++ rest) = DOk x rest.
Proof. intros H. apply (d_int_le 8). unfold u64 in H. change (256 ^ N.of_nat 8) with (2 ^ 64). lia. Qed.

Lemma rt_be (n : nat) x rest : x < 256 ^ N.of_nat n -> d_be (N.of_nat n) (be n x ++ rest) = DOk x rest.
Proof.
  intros H. unfold d_be, d_bind. rewrite d_take_app by (rewrite be_length; reflexivity).
  unfold d_ret, be. rewrite rev_involutive, unle_le by exact H. reflexivity.
Qed.

Lemma rt_bool b rest : d_bool (e_bool b ++ rest) = DOk b rest.
Proof.
  unfold d_bool, d_u8, e_bool. erewrite d_bind_ok.
  2:{ unfold d_int. erewrite d_bind_ok; [|apply d_take_app; reflexivity]. reflexivity. }
  destruct b; reflexivity.
Qed.

Lemma rt_opt {A} (e : A -> bytes) (d : dec A) (o : option A) rest :
  (forall a, o = Some a -> forall rest, d (e a ++ rest) = DOk a rest) ->
  d_opt d (e_opt e o ++ rest) = DOk o rest.
Proof.
  intros H. unfold d_opt, d_u8. destruct o as [a|]; cbn [e_opt].
  - change ((ascii_of_N 1 :: e a) ++ rest) with ([ascii_of_N 1] ++ (e a ++ rest)).
    erewrite d_bind_ok.
    2:{ unfold d_int. erewrite d_bind_ok; [|apply d_take_app; reflexivity]. reflexivity. }
    change (d_bind d (fun a => d_ret (Some a)) (e a ++ rest) = DOk (Some a) rest).
    erewrite d_bind_ok; [|apply (H a eq_refl)]. reflexivity.
  - erewrite d_bind_ok.
    2:{ unfold d_int. erewrite d_bind_ok; [|apply d_take_app; reflexivity]. reflexivity. }
    reflexivity.
Qed.

Lemma rt_blob b rest : u64 (N.of_nat (length b)) = true -> d_blob (e_blob b ++ rest) = DOk b rest.
Proof.
  intros H. unfold d_blob, e_blob. rewrite <- app_assoc. erewrite d_bind_ok; [|apply rt_u64, H].
  apply d_take_app. reflexivity.
Qed.

Lemma rt_str s rest :
  rust_string s = true -> u64 (N.of_nat (length (list_ascii_of_string s))) = true ->
  d_str (e_str s ++ rest) = DOk s rest.
Proof.
  intros Hu Hl. unfold d_str, e_str. erewrite d_bind_ok; [|apply rt_blob, Hl].
  unfold rust_string in Hu. rewrite Hu. unfold d_ret. rewrite string_of_list_ascii_of_string. reflexivity.
Qed.

Lemma rt_list {A} (e : A -> bytes) (d : dec A) (l : list A) fuel rest :
  (forall a, a ∈ l -> forall rest, d (e a ++ rest) = DOk a rest) ->
  (length l < fuel)%nat ->
  d_list fuel d (N.of_nat (length l)) (concat (map e l) ++ rest) = DOk l rest.
Proof.
  revert fuel; induction l as [|a l IH]; intros fuel He Hf.
  - destruct fuel; reflexivity.
  - destruct fuel as [|fuel]; [cbn in Hf; lia|]. cbn [map concat length]. rewrite <- app_assoc.
    assert (Hd : d_list (S fuel) d (N.of_nat (S (length l))) =
      (let* a := d in let* l' := d_list fuel d (N.of_nat (length l)) in d_ret (a :: l'))).
    { rewrite Nat2N.inj_succ. cbn [d_list]. rewrite N.pred_succ.
      destruct (N.succ (N.of_nat (length l))) eqn:E; [lia|reflexivity]. }
    rewrite Hd. erewrite d_bind_ok; [|apply He; set_solver]. cbn in Hf.
    erewrite d_bind_ok; [|apply IH; [intros; apply He; set_solver|lia]]. reflexivity.
Qed.

Lemma rt_vec {A} (e : A -> bytes) (d : dec A) (l : list A) rest :
  (forall a, a ∈ l -> forall rest, d (e a ++ rest) = DOk a rest) ->
  (forall a, a ∈ l -> (1 <= length (e a))%nat) ->
  u64 (N.of_nat (length l)) = true ->
  d_vec d (e_vec e l ++ rest) = DOk l rest.
Proof.
  intros He Hlen Hu. unfold d_vec, e_vec. rewrite <- app_assoc. erewrite d_bind_ok; [|apply rt_u64, Hu].
  apply rt_list; [exact He|]. rewrite app_length.
  assert (length l <= length (concat (map e l)))%nat; [|lia].
  clear -Hlen. induction l as [|a l IH]; cbn; [lia|]. rewrite app_length.
  pose proof (Hlen a ltac:(set_solver)). specialize (IH ltac:(intros; apply Hlen; set_solver)). lia.
Qed.

Definition addr_view (a : sockaddr) : sockaddr :=
  match a with SA6 ip port _ _ => SA6 ip port 0 0 | a => a end.

Lemma rt_addr a rest : rust_addr a = true -> d_addr (e_addr a ++ rest) = DOk (addr_view a) rest.
Proof.
  destruct a as [ip port|ip port fl sc]; cbn [rust_addr e_addr addr_view]; intros H.
  - apply andb_prop in H as [Hi Hp].
    unfold d_addr. rewrite <- !app_assoc. erewrite d_bind_ok; [|apply rt_u32; lia]. cbv beta iota.
    erewrite d_bind_ok; [|apply (rt_be 4); change (256 ^ N.of_nat 4) with (2 ^ 32); lia].
    erewrite d_bind_ok; [|apply rt_u16, Hp]. reflexivity.
  - apply andb_prop in H as [H Hs]. apply andb_prop in H as [H Hf]. apply andb_prop in H as [Hi Hp].
    unfold d_addr. rewrite <- !app_assoc. erewrite d_bind_ok; [|apply rt_u32; lia]. cbv beta iota.
    erewrite d_bind_ok; [|apply (rt_be 16); change (256 ^ N.of_nat 16) with (2 ^ 128); lia].
    erewrite d_bind_ok; [|apply rt_u16, Hp]. reflexivity.
Qed.

Lemma u64_app_r (a b : bytes) : u64 (N.of_nat (length (a ++ b))) = true -> u64 (N.of_nat (length b)) = true.
Proof. rewrite app_length. unfold u64. generalize (length a), (length b). intros; lia. Qed.
Lemma u64_str s : u64 (N.of_nat (length (e_str s))) = true -> u64 (N.of_nat (length (list_ascii_of_string s))) = true.
Proof. unfold e_str, e_blob. apply u64_app_r. Qed.

Lemma rt_reason r rest :
  rust_reason r = true -> u64 (N.of_nat (length (e_reason r))) = true ->
  d_reason (e_reason r ++ rest) = DOk r rest.
Proof.
  destruct r; cbn [rust_reason e_reason]; intros H Hl; unfold d_reason; rewrite <- ?app_assoc;
    (erewrite d_bind_ok; [|apply rt_u32; lia]); cbv beta iota; try reflexivity.
  erewrite d_bind_ok; [reflexivity|]. apply rt_str; [exact H|].
  apply u64_str. eapply u64_app_r, Hl.
Qed.

Lemma rt_target t rest :
  rust_target t = true -> u64 (N.of_nat (length (e_target t))) = true ->
  d_target (e_target t ++ rest) = DOk t rest.
Proof.
  assert (Hnz : forall i rest, nonzero_u64 i = true -> d_nonzero (e_u64 i ++ rest) = DOk i rest).
  { intros i rest' H. apply andb_prop in H as [H1 H2]. unfold d_nonzero.
    erewrite d_bind_ok; [|apply rt_u64, H2]. destruct (N.eqb_spec i 0); [lia|reflexivity]. }
  destruct t; cbn [rust_target e_target]; intros H Hl; unfold d_target; rewrite <- ?app_assoc;
    (erewrite d_bind_ok; [|apply rt_u32; lia]); cbv beta iota.
  - erewrite d_bind_ok; [|apply Hnz, H]. reflexivity.
  - erewrite d_bind_ok; [reflexivity|]. apply rt_str; [exact H|].
    apply u64_str. eapply u64_app_r, Hl.
  - erewrite d_bind_ok; [|apply Hnz, H]. reflexivity.
Qed.

(** Lengths of parts are bounded by the length of the whole. *)
Lemma vec_len_bound {A} (e : A -> bytes) (l : list A) :
  (forall a, a ∈ l -> (1 <= length (e a))%nat) ->
  (length l <= length (e_vec e l))%nat /\ (forall a, a ∈ l -> (length (e a) <= length (e_vec e l))%nat).
Proof.
  intros H. unfold e_vec. rewrite app_length.
  assert ((length l <= length (concat (map e l)))%nat /\
          forall a, a ∈ l -> (length (e a) <= length (concat (map e l)))%nat) as [H1 H2].
  { induction l as [|a l IH]; cbn; [split; [lia|set_solver]|]. rewrite app_length.
    destruct IH as [I1 I2]; [intros; apply H; set_solver|]. pose proof (H a ltac:(set_solver)).
    split; [lia|]. intros x [->|Hx]%elem_of_cons; [lia|]. specialize (I2 x Hx). lia. }
  split; [lia|]. intros a Ha. specialize (H2 a Ha). lia.
Qed.

Lemma e_u64_length x : length (e_u64 x) = 8%nat.
Proof. apply le_length. Qed.
Lemma e_u32_length x : length (e_u32 x) = 4%nat.
Proof. apply le_length. Qed.
Lemma e_target_length t : (1 <= length (e_target t))%nat.
Proof. destruct t; cbn [e_target]; rewrite app_length, e_u32_length; lia. Qed.

Ltac bnd := unfold u64, fits, e_str, e_blob, e_opt in *; cbv beta iota in *; rewrite ?app_length in *; cbn [length] in *;
  rewrite ?app_length in *;
  repeat match goal with
         | H : context [@length ?A ?x] |- _ => let n := fresh "n" in set (n := @length A x) in *; clearbody n
         | |- context [@length ?A ?x] => let n := fresh "n" in set (n := @length A x) in *; clearbody n
         end; lia.

(** Round trip of the body, with anything following it. *)
Lemma rt_frame f rest :
  rust_frame f = true -> fits f = true -> d_frame (e_frame f ++ rest) = DOk (wire_view f) rest.
Proof.
  intros Hr Hf. unfold fits in Hf.
  destruct f as [n a c| | |ts m|i p nm fr r|ms r|p f r|i p f|ls f r|p f r]; cbn [rust_frame e_frame] in *;
    unfold d_frame; rewrite <- ?app_assoc; (erewrite d_bind_ok; [|apply rt_u32; lia]); cbv beta iota.
  - apply andb_prop in Hr as [Hn Ha].
    erewrite d_bind_ok; [|apply rt_str; [exact Hn|bnd]].
    erewrite d_bind_ok; [|apply rt_addr, Ha].
    erewrite d_bind_ok; [|apply rt_blob; bnd].
    destruct a; reflexivity.
  - reflexivity.
  - reflexivity.
  - destruct (vec_len_bound e_target ts) as [B1 B2]; [intros; apply e_target_length|].
    erewrite d_bind_ok.
    2:{ apply rt_vec; [|intros; apply e_target_length|bnd].
        intros t Ht rest'. apply rt_target; [rewrite forallb_forall in Hr; apply Hr, elem_of_list_In, Ht|].
        specialize (B2 t Ht). bnd. }
    erewrite d_bind_ok; [|apply rt_blob; bnd]. reflexivity.
  - apply andb_prop in Hr as [Hr H4]. apply andb_prop in Hr as [Hr H3]. apply andb_prop in Hr as [H1 H2].
    erewrite d_bind_ok; [|apply rt_bool].
    erewrite d_bind_ok.
    2:{ apply rt_opt. intros x -> rest'. apply rt_u64, H1. }
    erewrite d_bind_ok.
    2:{ apply rt_opt. intros x -> rest'. apply rt_str; [exact H2|]. bnd. }
    erewrite d_bind_ok.
    2:{ apply rt_opt. intros x -> rest'. apply rt_u64, H3. }
    erewrite d_bind_ok; [|apply rt_u64, H4]. reflexivity.
  - apply andb_prop in Hr as [H1 H2].
    destruct (vec_len_bound e_u64 ms) as [B1 _]; [intros; rewrite e_u64_length; lia|].
    erewrite d_bind_ok.
    2:{ apply rt_vec; [|intros; rewrite e_u64_length; lia|bnd].
        intros t Ht rest'. apply rt_u64. rewrite forallb_forall in H1. apply H1, elem_of_list_In, Ht. }
    erewrite d_bind_ok; [|apply rt_reason; [exact H2|bnd]]. reflexivity.
  - apply andb_prop in Hr as [Hr H3]. apply andb_prop in Hr as [H1 H2].
    erewrite d_bind_ok; [|apply rt_u64, H1]. erewrite d_bind_ok; [|apply rt_u64, H2].
    erewrite d_bind_ok; [|apply rt_u64, H3]. reflexivity.
  - apply andb_prop in Hr as [H1 H2].
    erewrite d_bind_ok; [|apply rt_bool]. erewrite d_bind_ok; [|apply rt_u64, H1].
    erewrite d_bind_ok; [|apply rt_u64, H2]. reflexivity.
  - apply andb_prop in Hr as [Hr H3]. apply andb_prop in Hr as [H1 H2].
    destruct (vec_len_bound e_u64 ls) as [B1 _]; [intros; rewrite e_u64_length; lia|].
    erewrite d_bind_ok.
    2:{ apply rt_vec; [|intros; rewrite e_u64_length; lia|bnd].
        intros t Ht rest'. apply rt_u64. rewrite forallb_forall in H1. apply H1, elem_of_list_In, Ht. }
    erewrite d_bind_ok; [|apply rt_u64, H2].
    erewrite d_bind_ok; [|apply rt_reason; [exact H3|bnd]]. reflexivity.
  - apply andb_prop in Hr as [Hr H3]. apply andb_prop in Hr as [H1 H2].
    erewrite d_bind_ok; [|apply rt_u64, H1]. erewrite d_bind_ok; [|apply rt_u64, H2].
    erewrite d_bind_ok; [|apply rt_reason; [exact H3|bnd]]. reflexivity.
Qed.

(** ** The length prefix *)
Lemma encode_app f dst : fits f = true -> encode f dst = dst ++ unit_of (e_frame f).
Proof.
  intros Hf. unfold encode, unit_of, fits in *.
  rewrite take_app_exact by reflexivity. f_equal.
  rewrite N.mod_small by lia. f_equal.
  rewrite app_assoc. rewrite drop_app_exact; [reflexivity|].
  rewrite app_length, e_u32_length. reflexivity.
Qed.

Lemma unit_length b : length (unit_of b) = (4 + length b)%nat.
Proof. unfold unit_of. rewrite app_length, e_u32_length. reflexivity. Qed.

Lemma unit_marker b rest :
  N.of_nat (length b) < 2 ^ 32 -> unle (take 4 (unit_of b ++ rest)) = N.of_nat (length b).
Proof.
  intros H. unfold unit_of. rewrite <- app_assoc, take_app_exact by apply e_u32_length.
  apply unle_le. exact H.
Qed.

Lemma unit_body b rest : drop 4 (unit_of b ++ rest) = b ++ rest.
Proof. unfold unit_of. rewrite <- app_assoc, drop_app_exact by apply e_u32_length. reflexivity. Qed.

(** Decoding a complete unit. *)
Lemma decode_unit b rest :
  N.of_nat (length b) < 2 ^ 32 ->
  decode (unit_of b ++ rest) =
  match d_frame (b ++ rest) with
  | DOk f _ => (Frame f, rest)
  | DEnd => (NeedMore, unit_of b ++ rest)
  | DErr => (Bad, unit_of b ++ rest)
  end.
Proof.
  intros H. unfold decode. rewrite unit_marker by exact H. rewrite unit_body.
  rewrite app_length, unit_length.
  destruct (N.ltb_spec (N.of_nat (4 + length b + length rest)) 4) as [|_]; [lia|].
  destruct (N.ltb_spec (N.of_nat (4 + length b + length rest)) (4 + N.of_nat (length b))) as [|_]; [lia|].
  destruct (d_frame (b ++ rest)); [|reflexivity..].
  rewrite drop_app_exact; [reflexivity|]. rewrite unit_length. lia.
Qed.

Lemma decode_frame f rest :
  rust_frame f = true -> fits f = true ->
  decode (unit_of (e_frame f) ++ rest) = (Frame (wire_view f), rest).
Proof.
  intros Hr Hf. rewrite decode_unit by (unfold fits in Hf; lia).
  rewrite rt_frame by assumption. reflexivity.
Qed.

(** A proper prefix of a unit: nothing happens. *)
Lemma decode_prefix b pre :
  N.of_nat (length b) < 2 ^ 32 -> pre `prefix_of` unit_of b -> pre <> unit_of b ->
  decode pre = (NeedMore, pre).
Proof.
  intros Hb [suf Hs] Hne.
  assert (Hlen : (length pre < 4 + length b)%nat).
  { assert (E : length (unit_of b) = length (pre ++ suf)) by (rewrite Hs; reflexivity).
    rewrite unit_length, app_length in E. destruct suf; [exfalso; apply Hne; rewrite Hs, app_nil_r; reflexivity|].
    cbn in E. lia. }
  unfold decode. destruct (N.ltb_spec (N.of_nat (length pre)) 4) as [|Hge]; [reflexivity|].
  assert (Hm : unle (take 4 pre) = N.of_nat (length b)).
  { rewrite <- (unit_marker b [] Hb), app_nil_r, Hs. rewrite take_app_le by lia. reflexivity. }
  rewrite Hm. destruct (N.ltb_spec (N.of_nat (length pre)) (4 + N.of_nat (length b))) as [|]; [reflexivity|lia].
Qed.

(** ** Streams *)
Definition stream (fs : list frame) : bytes := concat (map (fun f => unit_of (e_frame f)) fs).
Definition good (f : frame) : Prop := rust_frame f = true /\ fits f = true.

(** Draining a buffer that is a prefix of a stream: all complete frames come out, and the rest
    of the buffer is the beginning of the remaining stream. *)
Lemma drain_prefix fuel fs buf suf :
  Forall good fs -> buf ++ suf = stream fs -> (length buf < fuel)%nat ->
  exists k buf', drain fuel buf = (map wire_view (take k fs), Some buf') /\
    buf' ++ suf = stream (drop k fs) /\
    (drop k fs = [] /\ buf' = [] \/ exists f fs', drop k fs = f :: fs' /\ buf' `prefix_of` unit_of (e_frame f) /\ buf' <> unit_of (e_frame f)).
Proof.
  revert fs buf; induction fuel as [|fuel IH]; intros fs buf Hg Hs Hf; [lia|].
  destruct fs as [|f fs].
  - cbn in Hs. apply app_eq_nil in Hs as [-> ->]. exists 0%nat, []. cbn. auto.
  - inversion Hg as [|? ? [Hr Hfit] Hg']; subst. cbn [stream map concat] in Hs. fold (stream fs) in Hs.
    set (u := unit_of (e_frame f)) in *.
    destruct (decide (u `prefix_of` buf)) as [[rest Hrest]|Hnp].
    + subst buf. rewrite <- app_assoc in Hs. apply app_inv_head in Hs.
      cbn [drain]. unfold u at 1. rewrite decode_frame by assumption.
      destruct (IH fs rest Hg' Hs) as (k & buf' & Hd & Hb & Hc).
      { rewrite app_length in Hf. unfold u in Hf. rewrite unit_length in Hf. lia. }
      rewrite Hd. exists (S k), buf'. cbn. auto.
    + assert (Hpre : buf `prefix_of` u /\ buf <> u).
      { assert (Hp : buf `prefix_of` u ++ stream fs) by (exists suf; symmetry; exact Hs).
        assert (Hu : u `prefix_of` u ++ stream fs) by (exists (stream fs); reflexivity).
        destruct (prefix_weak_total _ _ _ Hp Hu) as [H|H]; [|contradiction].
        split; [exact H|]. intros ->. apply Hnp. reflexivity. }
      cbn [drain]. rewrite (decode_prefix (e_frame f)).
      2:{ unfold fits in Hfit. lia. } 2,3: apply Hpre.
      exists 0%nat, buf. cbn [take map drop]. split; [reflexivity|]. split; [exact Hs|].
      right. exists f, fs. split; [reflexivity|]. exact Hpre.
Qed.

Lemma feed_stream chunks buf fs :
  Forall good fs -> buf ++ concat chunks = stream fs ->
  (exists f fs', fs = f :: fs' /\ buf `prefix_of` unit_of (e_frame f) /\ buf <> unit_of (e_frame f)) \/ (fs = [] /\ buf = []) ->
  feed buf chunks = (map wire_view fs, Some []).
Proof.
  revert buf fs; induction chunks as [|c chunks IH]; intros buf fs Hg Hs Hb.
  - cbn [concat] in Hs. rewrite app_nil_r in Hs. destruct Hb as [(f & fs' & -> & [suf Hsuf] & Hne)|[-> ->]]; [|reflexivity].
    exfalso. assert (E : length (unit_of (e_frame f)) = length (buf ++ suf)) by (rewrite Hsuf; reflexivity).
    assert (E2 : length buf = (length (unit_of (e_frame f)) + length (stream fs'))%nat)
      by (rewrite Hs; unfold stream; cbn [map concat]; rewrite app_length; reflexivity).
    rewrite app_length in E.
    destruct suf; [|cbn [length] in E; lia]. apply Hne. rewrite Hsuf, app_nil_r. reflexivity.
  - cbn [feed]. cbn [concat] in Hs. rewrite app_assoc in Hs.
    destruct (drain_prefix (S (length (buf ++ c))) fs (buf ++ c) (concat chunks) Hg Hs) as (k & buf' & Hd & Hs' & Hc); [lia|].
    rewrite Hd. rewrite (IH buf' (drop k fs)).
    + rewrite <- map_app, take_drop. reflexivity.
    + apply Forall_drop, Hg.
    + exact Hs'.
    + destruct Hc as [[-> ->]|Hc]; [right; auto|left; exact Hc].
Qed.

(** ** Extension stability (C10): a decoder that has decided does not look further. *)
Definition stable {A} (d : dec A) : Prop :=
  forall b x, match d b with
              | DOk a r => d (b ++ x) = DOk a (r ++ x)
              | DErr => d (b ++ x) = DErr
              | DEnd => True
              end.
Definition consuming {A} (d : dec A) : Prop :=
  forall b a r, d b = DOk a r -> (length r < length b)%nat.

Lemma stable_bind {A B} (d : dec A) (k : A -> dec B) :
  stable d -> (forall a, stable (k a)) -> stable (d_bind d k).
Proof.
  intros Hd Hk b x. unfold d_bind. specialize (Hd b x). destruct (d b) as [a r| |]; [|exact I|rewrite Hd; reflexivity].
  rewrite Hd. apply Hk.
Qed.
Lemma stable_ret {A} (a : A) : stable (d_ret a).
Proof. intros b x. reflexivity. Qed.
Lemma stable_fail {A} : stable (@d_fail A).
Proof. intros b x. reflexivity. Qed.
Lemma stable_take n : stable (d_take n).
Proof.
  intros b x. unfold d_take. destruct (N.ltb_spec (N.of_nat (length b)) n) as [|H]; [exact I|].
  rewrite app_length. destruct (N.ltb_spec (N.of_nat (length b + length x)) n); [lia|].
  rewrite take_app_le, drop_app_le by lia. reflexivity.
Qed.
Lemma stable_int n : stable (d_int n).
Proof. apply stable_bind; [apply stable_take|intros; apply stable_ret]. Qed.
Lemma stable_be n : stable (d_be n).
Proof. apply stable_bind; [apply stable_take|intros; apply stable_ret]. Qed.
Lemma stable_bool : stable d_bool.
Proof. apply stable_bind; [apply stable_int|]. intros [|[| |]]; auto using stable_ret, stable_fail. Qed.
Lemma stable_opt {A} (d : dec A) : stable d -> stable (d_opt d).
Proof.
  intros Hd. apply stable_bind; [apply stable_int|]. intros [|[| |]]; auto using stable_ret, stable_fail.
  apply stable_bind; auto using stable_ret.
Qed.

Lemma d_list_fuel {A} (d : dec A) : consuming d -> forall fuel fuel' n b,
  (length b < fuel)%nat -> (length b < fuel')%nat -> d_list fuel d n b = d_list fuel' d n b.
Proof.
  intros Hc. induction fuel as [|fuel IH]; intros fuel' n b H1 H2; [lia|].
  destruct fuel' as [|fuel']; [lia|]. cbn [d_list]. destruct n as [|n]; [reflexivity|].
  unfold d_bind. destruct (d b) as [a r| |] eqn:E; [|reflexivity..].
  pose proof (Hc _ _ _ E). rewrite (IH fuel' _ r) by lia. reflexivity.
Qed.

Lemma stable_list {A} (d : dec A) : stable d -> consuming d -> forall fuel n b x,
  (length b < fuel)%nat ->
  match d_list fuel d n b with
  | DOk a r => forall fuel', (length (b ++ x) < fuel')%nat -> d_list fuel' d n (b ++ x) = DOk a (r ++ x)
  | DErr => forall fuel', (length (b ++ x) < fuel')%nat -> d_list fuel' d n (b ++ x) = DErr
  | DEnd => True
  end.
Proof.
  intros Hs Hc. induction fuel as [|fuel IH]; intros n b x Hf; [lia|].
  cbn [d_list]. destruct n as [|n].
  - cbn. intros [|fuel']; reflexivity.
  - unfold d_bind at 1. destruct (d b) as [a r| |] eqn:E; [|exact I|].
    + pose proof (Hc _ _ _ E) as Hlen. specialize (IH (N.pred (N.pos n)) r x ltac:(lia)).
      unfold d_bind. destruct (d_list fuel d (N.pred (N.pos n)) r) as [l r'| |]; [|exact I|];
        cbn [d_ret]; intros [|fuel'] Hf'; try lia; cbn [d_list]; unfold d_bind;
        specialize (Hs b x); rewrite E in Hs; rewrite Hs;
        rewrite IH by (rewrite app_length in *; lia); reflexivity.
    + intros [|fuel'] Hf'; [lia|]. cbn [d_list]. unfold d_bind. specialize (Hs b x). rewrite E in Hs.
      rewrite Hs. reflexivity.
Qed.

Lemma stable_vec {A} (d : dec A) : stable d -> consuming d -> stable (d_vec d).
Proof.
  intros Hs Hc. apply stable_bind; [apply stable_int|]. intros n b x.
  pose proof (stable_list d Hs Hc (S (length b)) n b x ltac:(lia)) as H.
  destruct (d_list (S (length b)) d n b); [|exact I|]; apply H; lia.
Qed.

Lemma stable_blob : stable d_blob.
Proof. apply stable_bind; [apply stable_int|intros; apply stable_take]. Qed.
Lemma stable_str : stable d_str.
Proof. apply stable_bind; [apply stable_blob|]. intros b. destruct (utf8 b); auto using stable_ret, stable_fail. Qed.
Lemma stable_nonzero : stable d_nonzero.
Proof. apply stable_bind; [apply stable_int|]. intros n. destruct (n =? 0); auto using stable_ret, stable_fail. Qed.
Lemma stable_addr : stable d_addr.
Proof.
  apply stable_bind; [apply stable_int|]. intros [|[| |]]; auto using stable_fail;
    (apply stable_bind; [apply stable_be|intros; apply stable_bind; [apply stable_int|auto using stable_ret]]).
Qed.
Lemma stable_reason : stable d_reason.
Proof.
  apply stable_bind; [apply stable_int|].
  intros [|[[| |]|[| |]|]]; auto using stable_fail, stable_ret.
  apply stable_bind; auto using stable_str, stable_ret.
Qed.
Lemma stable_target : stable d_target.
Proof.
  apply stable_bind; [apply stable_int|].
  intros [|[[| |]|[| |]|]]; auto using stable_fail, stable_ret;
    (apply stable_bind; auto using stable_str, stable_nonzero, stable_ret).
Qed.

Lemma take_consuming n : (0 < n) -> consuming (d_take n).
Proof.
  intros Hn b a r. unfold d_take. destruct (N.ltb_spec (N.of_nat (length b)) n); [discriminate|].
  intros [= _ <-]. rewrite drop_length. lia.
Qed.
Definition nonexpanding {A} (d : dec A) : Prop := forall b a r, d b = DOk a r -> (length r <= length b)%nat.
Lemma consuming_bind {A B} (d : dec A) (k : A -> dec B) :
  consuming d -> (forall a, nonexpanding (k a)) -> consuming (d_bind d k).
Proof.
  intros Hd Hk b y r. unfold d_bind. destruct (d b) as [a r'| |] eqn:E; try discriminate.
  intros H. pose proof (Hd _ _ _ E). pose proof (Hk a _ _ _ H). lia.
Qed.
Lemma nonexp_bind {A B} (d : dec A) (k : A -> dec B) :
  nonexpanding d -> (forall a, nonexpanding (k a)) -> nonexpanding (d_bind d k).
Proof.
  intros Hd Hk b y r. unfold d_bind. destruct (d b) as [a r'| |] eqn:E; try discriminate.
  intros H. pose proof (Hd _ _ _ E). pose proof (Hk a _ _ _ H). lia.
Qed.
Lemma nonexp_ret {A} (a : A) : nonexpanding (d_ret a).
Proof. intros b x r [= _ <-]. lia. Qed.
Lemma nonexp_fail {A} : nonexpanding (@d_fail A).
Proof. intros b x r [=]. Qed.
Lemma nonexp_take n : nonexpanding (d_take n).
Proof.
  intros b a r. unfold d_take. destruct (N.ltb_spec (N.of_nat (length b)) n); [discriminate|].
  intros [= _ <-]. rewrite drop_length. lia.
Qed.
Lemma consuming_int n : 0 < n -> consuming (d_int n).
Proof. intros Hn. apply consuming_bind; [apply take_consuming, Hn|intros; apply nonexp_ret]. Qed.
Lemma nonexp_int n : nonexpanding (d_int n).
Proof. apply nonexp_bind; [apply nonexp_take|intros; apply nonexp_ret]. Qed.
Lemma nonexp_blob : nonexpanding d_blob.
Proof. apply nonexp_bind; [apply nonexp_int|intros; apply nonexp_take]. Qed.
Lemma nonexp_str : nonexpanding d_str.
Proof. apply nonexp_bind; [apply nonexp_blob|]. intros b. destruct (utf8 b); auto using nonexp_ret, nonexp_fail. Qed.
Lemma nonexp_nonzero : nonexpanding d_nonzero.
Proof. apply nonexp_bind; [apply nonexp_int|]. intros n. destruct (n =? 0); auto using nonexp_ret, nonexp_fail. Qed.
Lemma consuming_target : consuming d_target.
Proof.
  apply consuming_bind; [apply consuming_int; lia|].
  intros [|[[| |]|[| |]|]]; auto using nonexp_fail, nonexp_ret;
    (apply nonexp_bind; auto using nonexp_str, nonexp_nonzero, nonexp_ret).
Qed.

Ltac stab := repeat first
  [ apply stable_ret | apply stable_fail | apply stable_int | apply stable_bool | apply stable_str
  | apply stable_blob | apply stable_addr | apply stable_reason | apply stable_opt
  | (apply stable_vec; [apply stable_target | apply consuming_target])
  | (apply stable_vec; [apply stable_int | apply consuming_int; lia])
  | (apply stable_bind; [|intros ?]) ].

Lemma stable_frame : stable d_frame.
Proof.
  apply stable_bind; [apply stable_int|].
  intros [|[[[[| |]|[| |]|]|[[| |]|[| |]|]|]|[[[| |]|[| |]|]|[[| |]|[| |]|]|]|]]; stab.
Qed.
