(** C14, C15: the handshake. *)
From stdpp Require Import base list gmap numbers strings pretty.
From Coq Require Import Ascii Lia.
From Verif Require Import Prog ProgProofs Types World ProcApi NodeApi Api Hist NetSpec NetProofs ConnProofs CodecSpec ConnProps Sha Hello HelloProofs AddrProofs SchedProps LifeProps.
Local Open Scope N_scope.

Local Opaque sha256 hmac.
(** ** C14 *)
(** A hello as its receiver sees it is accepted by the receiver. *)
Definition accepts (cookie : option string) (f : frame) : Prop :=
  match f with FHello n a c => hello_validate cookie n a c = true | _ => False end.
Definition no_scope (a : sockaddr) : Prop := match a with SA6 _ _ _ scope => scope = 0 | SA4 _ _ => True end.

(** A node with the same cookie is accepted, after the transmission of its hello ([wire_view], C07). *)
Theorem C14_same_cookie_accepted :
  forall cookie name addr, no_scope addr -> accepts cookie (wire_view (hello_new cookie name addr)).
Proof.
  intros cookie name addr H. destruct addr as [ip p|ip p fl sc]; unfold hello_new, accepts, wire_view, hello_validate; apply bool_decide_eq_true_2; [done|].
  unfold challenge_of, show_addr. cbn in H. by rewrite H.
Qed.
Print Assumptions C14_same_cookie_accepted.

(** What is hashed for a cookie, name and address, inside and outside. *)
Definition inner_text (cookie : option string) (name : string) (addr : sockaddr) : bytes :=
  map (xorb_byte 0x36) (block_key (cookie_key cookie)) ++ text name ++ text (show_addr addr).
Definition outer_text (cookie : option string) (name : string) (addr : sockaddr) : bytes :=
  map (xorb_byte 0x5c) (block_key (cookie_key cookie)) ++ sha256 (inner_text cookie name addr).
(** Two different texts with the same hash: nobody can name such a pair for SHA-256 today. *)
Definition collision (x y : bytes) : Prop := x <> y /\ sha256 x = sha256 y.

Lemma challenge_inv c n a c' n' a' : challenge_of c n a = challenge_of c' n' a' ->
  collision (outer_text c n a) (outer_text c' n' a') \/ collision (inner_text c n a) (inner_text c' n' a') \/
  (block_key (cookie_key c) = block_key (cookie_key c') /\ text n ++ text (show_addr a) = text n' ++ text (show_addr a')).
Proof.
  intros H. change (sha256 (outer_text c n a) = sha256 (outer_text c' n' a')) in H.
  destruct (decide (outer_text c n a = outer_text c' n' a')) as [E|E]; [|left; by split].
  right. unfold outer_text in E. apply app_inj_1 in E as [Ek Ei]; [|rewrite !map_length, !block_key_length; done].
  destruct (decide (inner_text c n a = inner_text c' n' a')) as [E|E]; [|left; by split]. right.
  unfold inner_text in E. apply app_inj_1 in E as [Ek' Em]; [|rewrite !map_length, !block_key_length; done].
  split; [|done]. eapply map_xorb_inj; [|exact Ek']. by right.
Qed.
(** An ordinary cookie: 1 to 64 bytes, none of them zero. *)
Definition ordinary (cookie : option string) : Prop :=
  match cookie with Some s => text s <> [] /\ (length (text s) <= 64)%nat /\ "000"%char ∉ text s | None => False end.
Lemma zeros_app (k k' : bytes) m m' : "000"%char ∉ k -> "000"%char ∉ k' -> k ++ replicate m "000"%char = k' ++ replicate m' "000"%char -> k = k'.
Proof.
  revert k'. induction k as [|a k IH]; intros [|b k'] H H' E.
  - done.
  - exfalso. destruct m; [done|]. cbn in E. injection E as <- _. apply H'. left.
  - exfalso. destruct m'; [done|]. cbn in E. injection E as -> _. apply H. left.
  - cbn in E. injection E as -> E. f_equal. apply not_elem_of_cons in H as [_ H], H' as [_ H']. by apply IH.
Qed.
Lemma block_key_ordinary c c' : ordinary c -> ordinary c' -> block_key (cookie_key c) = block_key (cookie_key c') -> c = c'.
Proof.
  intros H H' E. destruct c as [s|], c' as [s'|]; try done. destruct H as (H1 & H2 & H3), H' as (H1' & H2' & H3').
  cbn [cookie_key] in E. unfold block_key in E. rewrite !decide_False in E by lia. apply zeros_app in E; [|done|done]. f_equal. by apply text_inj.
Qed.
Lemma block_key_none s : text s <> [] -> "000"%char ∉ text s -> (length (text s) <= 64)%nat -> block_key (text s) <> block_key ["000"%char].
Proof.
  intros H1 H2 H3 E. unfold block_key in E. rewrite !decide_False in E by (cbn; lia). destruct (text s) as [|c l]; [done|]. cbn in E. injection E as -> _. apply H2. left.
Qed.

(** Two ordinary cookies, or no cookie on one side. *)
Definition usual (cookie : option string) : Prop := cookie = None \/ ordinary cookie.
(** A challenge that somebody made, with whatever cookie, for whatever name and address, is accepted
    only for the same cookie, the same name and the same address (up to the flow label, which is not
    part of the printed address) - unless two texts that are both at hand here collide.  For cookies
    that are ordinary or absent, and names that do not end with a digit or have an IPv6 address. *)
Theorem C14_only_same_cookie_and_peer_partial :
  forall cookie name addr cookie' name' addr',
    usual cookie -> usual cookie' -> addr_ok addr -> addr_ok addr' ->
    (v6 addr \/ v6 addr' \/ ~ ends_with_digit name /\ ~ ends_with_digit name') ->
    hello_validate cookie name addr (challenge_of cookie' name' addr') = true ->
    (cookie = cookie' /\ name = name' /\ printed addr = printed addr') \/
    collision (outer_text cookie name addr) (outer_text cookie' name' addr') \/
    collision (inner_text cookie name addr) (inner_text cookie' name' addr').
Proof.
  intros c n a c' n' a' Hc Hc' Ha Ha' Hn Hv. apply bool_decide_eq_true_1 in Hv. destruct (challenge_inv _ _ _ _ _ _ Hv) as [H|[H|[Hk Hm]]]; [by right; left|by right; right|left].
  destruct (name_addr_split _ _ _ _ Hm Hn) as [-> Hs]. split; [|split; [done|by apply show_addr_inj]].
  destruct Hc as [-> |Hc], Hc' as [-> |Hc']; [done| | |by apply block_key_ordinary].
  - exfalso. destruct c' as [s|]; [|done]. destruct Hc' as (? & ? & ?). by apply (block_key_none s).
  - exfalso. destruct c as [s|]; [|done]. destruct Hc as (? & ? & ?). by apply (block_key_none s).
Qed.
Print Assumptions C14_only_same_cookie_and_peer_partial.
(** In general: the texts hashed must agree. *)
Theorem C14_accepted_texts :
  forall cookie name addr cookie' name' addr', hello_validate cookie name addr (challenge_of cookie' name' addr') = true ->
    (block_key (cookie_key cookie) = block_key (cookie_key cookie') /\ text name ++ text (show_addr addr) = text name' ++ text (show_addr addr')) \/
    collision (outer_text cookie name addr) (outer_text cookie' name' addr') \/
    collision (inner_text cookie name addr) (inner_text cookie' name' addr').
Proof. intros c n a c' n' a' H. apply bool_decide_eq_true_1, challenge_inv in H. tauto. Qed.
Print Assumptions C14_accepted_texts.
(** A node whose hello is accepted here, and one with another cookie, which is not. *)
Example C14_example :
  accepts (Some "secret") (wire_view (hello_new (Some "secret") "alpha" (SA4 0x7f000001 4369))) /\
  ~ accepts (Some "secret") (wire_view (hello_new (Some "Secret") "alpha" (SA4 0x7f000001 4369))) /\
  usual (Some "secret") /\ addr_ok (SA4 0x7f000001 4369) /\ ~ ends_with_digit "alpha".
Proof.
  split; [by vm_compute|]. split; [by vm_compute|]. split; [right; split; [done|]; split; [vm_compute; lia|]|split; [done|]].
  - cbn. set_solver.
  - intros (l & c & E & [A B]). change (text "alpha") with (text "alph" ++ ["a"%char]) in E. apply app_inj_tail in E as [_ <-]. vm_compute in A, B. congruence.
Qed.

(** The full claim. *)
Definition C14_statement : Prop :=
  forall cookie name addr cookie' name' addr', hello_validate cookie name addr (challenge_of cookie' name' addr') = true ->
    cookie = cookie' /\ name = name' /\ addr = addr'.
(** The name and the address run into each other: the challenge of node "x" at 127.0.0.1 is also
    that of node "x1" at 27.0.0.1. *)
Theorem C14_name_address_refuted : ~ C14_statement.
Proof.
  intros H. destruct (H (Some "secret") "x" (SA4 0x7f000001 80) (Some "secret") "x1" (SA4 0x1b000001 80)) as (_ & E & _); [by vm_compute|]. discriminate.
Qed.
Print Assumptions C14_name_address_refuted.
(** For every cookie, and so for every attacker who records one hello. *)
Theorem C14_name_address_every_cookie :
  forall cookie port, challenge_of cookie "x" (SA4 0x7f000001 port) = challenge_of cookie "x1" (SA4 0x1b000001 port).
Proof.
  intros cookie port. unfold challenge_of. by f_equal.
Qed.
Print Assumptions C14_name_address_every_cookie.
(** No cookie, the empty cookie and a cookie of zero bytes are the same key. *)
Theorem C14_cookie_refuted : forall name addr,
  challenge_of None name addr = challenge_of (Some "") name addr /\ ~ C14_statement.
Proof.
  intros name addr. split; [|intros H].
  { unfold challenge_of, cookie_key. Local Transparent hmac. unfold hmac. Local Opaque hmac. by change (block_key ["000"%char]) with (block_key (text "")). }
  destruct (H None "x" (SA4 0x7f000001 80) (Some "") "x" (SA4 0x7f000001 80)) as (E & _); [by vm_compute|discriminate].
Qed.
Print Assumptions C14_cookie_refuted.
(** A node with the same cookie, at a link-local IPv6 address with a scope id, is rejected: the scope
    is hashed and not transmitted. *)
Theorem C14_scope_refuted : ~ forall cookie name addr, accepts cookie (wire_view (hello_new cookie name addr)).
Proof.
  intros H. pose proof (H (Some "secret") "x" (SA6 0xfe800000000000000000000000000001 80 0 3)) as E. vm_compute in E. discriminate.
Qed.
Print Assumptions C14_scope_refuted.

(** ** C15 *)
(** A hello that carries the name and address of [nd] and the challenge for them. *)
Definition valid_hello_of (cookie : option string) (nd : node) (f : frame) : Prop :=
  exists n a, nd = NRemote n a /\ f = FHello n a (challenge_of cookie n a).
Global Instance valid_hello_of_dec cookie nd f : Decision (valid_hello_of cookie nd f).
Proof.
  destruct nd as [|n a]; [right; by intros (? & ? & ? & _)|]. destruct f as [n' a' c'| | | | | | | | |]; try (right; by intros (? & ? & _ & ?)).
  destruct (decide (n' = n)) as [->|Hn]; [|right; intros (? & ? & E1 & E2); congruence].
  destruct (decide (a' = a)) as [->|Ha]; [|right; intros (? & ? & E1 & E2); congruence].
  destruct (decide (c' = challenge_of cookie n a)) as [E|Hc]; [left; exists n, a; by rewrite E|right; intros (? & ? & E1 & E2); congruence].
Defined.
Lemma connector_ok cookie me n a w : run (connector_hello cookie me (NRemote n a) (Some (FHello n a (challenge_of cookie n a)))) w = run (remote_supervisor me n a) w.
Proof.
  unfold connector_hello, hello_validate, is_node. by rewrite !bool_decide_eq_true_2.
Qed.
Lemma connector_bad cookie me nd got w : (forall f, got = Some f -> ~ valid_hello_of cookie nd f) -> exists msg, run (connector_hello cookie me nd got) w = Panicked w msg.
Proof.
  intros H. destruct got as [f|]; [|cbn; eauto]. destruct f as [n a c| | | | | | | | |]; try (cbn; eauto).
  destruct (hello_validate cookie n a c) eqn:Ev; cbn [andb].
  - destruct (is_node nd n a) eqn:Em; cbn [negb]; [|cbn; eauto]. exfalso. apply (H _ eq_refl). destruct nd as [|n' a']; [done|]. cbn in Em.
    apply andb_prop in Em as [E1 E2]. apply bool_decide_eq_true_1 in E1, E2. subst. apply bool_decide_eq_true_1 in Ev. exists n, a. by rewrite Ev.
  - destruct (negb _); cbn; eauto.
Qed.
(** The connection is promoted only if the peer's hello is the valid hello of the node dialled; then the
    node dialled is connected, by this process. *)
Theorem C15_promoted :
  forall S cookie me nd got w w' v, proper S w -> run (connector_hello cookie me nd got) w = Done w' v ->
    (exists f, got = Some f /\ valid_hello_of cookie nd f) /\ established w' nd (PLocal me).
Proof.
  intros S cookie me nd got w w' v Hp E.
  assert ((exists f, got = Some f /\ valid_hello_of cookie nd f) \/ ~ (exists f, got = Some f /\ valid_hello_of cookie nd f)) as [Hg|Hg].
  { destruct got as [f|]; [|right; by intros (? & ? & _)]. destruct (decide (valid_hello_of cookie nd f)); [left; eauto|right; intros (? & ? & ?); simplify_eq; done]. }
  - split; [done|]. destruct Hg as (f & -> & n & a & -> & ->). rewrite connector_ok in E.
    assert (run (call_prog S (CSupervise me n a)) w = Done w' (VWorkers (fst v) (snd v))) as E'.
    { cbn [call_prog]. unfold ret_as. by rewrite run_bind, E. }
    by apply (C54_accepted S w me n a w' _ Hp E').
  - exfalso. destruct (connector_bad cookie me nd got w) as [msg Hm]; [naive_solver|]. congruence.
Qed.
Print Assumptions C15_promoted.
(** Otherwise the attempt panics, having changed nothing; when the panic drops the connector, the node
    dialled is known and not connected, no node has been registered and nothing else about any other
    node has changed ([connection_lost], NetSpec.v, says who is notified). *)
Theorem C15_fails :
  forall S cookie me nm ad got w, proper S w -> dialling w (NRemote nm ad) (PLocal me) ->
    (forall f, got = Some f -> ~ valid_hello_of cookie (NRemote nm ad) f) ->
    exists msg w', run (connector_hello cookie me (NRemote nm ad) got) w = Panicked w msg /\
      run (call_prog S (CSupDown (NRemote nm ad) (PLocal me))) w = Done w' VUnit /\
      entry w' (NRemote nm ad) = Some (NReg None None None Known nm ad) /\
      w_nmap w' = w_nmap w /\ (forall n a, (n, a) <> (nm, ad) -> entry w' (NRemote n a) = entry w (NRemote n a)).
Proof.
  intros S cookie me nm ad got w Hp (r & Hr & Hs & _) Hg. destruct (connector_bad cookie me _ got w Hg) as [msg Hm].
  unfold entry in Hr. destruct (w_nmap w !! NRemote nm ad) as [id|] eqn:E; [|done].
  pose proof (proper_tables S w Hp) as Ht.
  destruct (tables_entry w nm ad id Ht E) as (r' & Hr' & _ & Hn & Ha & _). rewrite Hr in Hr'. injection Hr' as <-.
  destruct (C52_connection_lost S (NRemote nm ad) (PLocal me) w id r) as (w' & Ew & Hc); [split; [done|]; split; [done|by right]|].
  exists msg, w'. split; [done|]. split; [done|]. split; [|split].
  - unfold entry. rewrite (cl_nmap _ _ _ _ _ Hc), E, (cl_nregs _ _ _ _ _ Hc), lookup_insert. unfold unconnected. by rewrite Hn, Ha.
  - apply Hc.
  - intros n a Hne. unfold entry. rewrite (cl_nmap _ _ _ _ _ Hc). destruct (w_nmap w !! NRemote n a) as [id'|] eqn:E'; [|done].
    rewrite (cl_nregs _ _ _ _ _ Hc), lookup_insert_ne; [done|]. intros ->. destruct (tables_entry w n a id' Ht E') as (r2 & Hr2 & _ & Hn2 & Ha2 & _).
    apply Hne. congruence.
Qed.
Print Assumptions C15_fails.
(** It succeeds if the hello is that of the node dialled and no other process has been accepted as the
    connection in the meantime. *)
Theorem C15_succeeds :
  forall S cookie me nm ad w, proper S w -> (forall p, ~ established w (NRemote nm ad) p) ->
    exists w' v, run (connector_hello cookie me (NRemote nm ad) (Some (FHello nm ad (challenge_of cookie nm ad)))) w = Done w' v.
Proof.
  intros S cookie me nm ad w Hp Hn. rewrite connector_ok.
  destruct (proj2 (C54_accepts_iff_free S w me nm ad Hp)) as (w' & v & E); [naive_solver|].
  cbn [call_prog] in E. unfold ret_as in E. rewrite run_bind in E. destruct (run (remote_supervisor me nm ad) w) as [w1 v1|w1 m|]; try discriminate. eauto.
Qed.
Print Assumptions C15_succeeds.
(** The side that is called promotes the connection only for a valid hello, and connects the node that
    hello names. *)
Theorem C15_accepter :
  forall S cookie me got w w' v, proper S w -> made_by_running (CSpawn me false false) w -> run (accepter_hello cookie me got) w = Done w' v ->
    exists n a, got = Some (FHello n a (challenge_of cookie n a)) /\ established w' (NRemote n a) (PLocal (w_next_pid w)).
Proof.
  intros S cookie me got w w' v [cs Hp] Hme E. destruct got as [f|]; [|done]. destruct f as [n a c| | | | | | | | |]; try done.
  unfold accepter_hello in E. destruct (hello_validate cookie n a c) eqn:Ev; [|done]. apply bool_decide_eq_true_1 in Ev. exists n, a. rewrite Ev. split; [done|].
  rewrite run_bind, run_spawn in E. cbn [fst pid_id] in E.
  assert (proper S (spawned_world me false false w)) as Hp'.
  { exists (cs ++ [CSpawn me false false]). eapply history_snoc; [exact Hp|done|]. eapply happens_done. cbn [call_prog]. unfold ret_as. rewrite run_bind, run_spawn. reflexivity. }
  assert (run (call_prog S (CSupervise (w_next_pid w) n a)) (spawned_world me false false w) = Done w' (VWorkers (fst v) (snd v))) as E'.
  { cbn [call_prog]. unfold ret_as. by rewrite run_bind, E. }
  by apply (C54_accepted S _ _ n a w' _ Hp' E').
Qed.
Print Assumptions C15_accepter.
(** Process 1 dials node "a"; the node that answers is "a" / is "b", with the right cookie. *)
Example C15_example :
  exists w, proper S0 w /\ dialling w nodeA (PLocal 1) /\
    match run (connector_hello (Some "k") 1 nodeA (Some (hello_new (Some "k") "a" (SA4 1 5)))) w with
    | Done w1 _ => (n_sup <$> entry w1 nodeA) = Some (Some (PLocal 1)) | _ => False end /\
    match run (connector_hello (Some "k") 1 nodeA (Some (hello_new (Some "k") "b" (SA4 1 5)))) w with Panicked _ m => m = "Node was not the expected node" | _ => False end /\
    match run (connector_hello (Some "k") 1 nodeA (Some (hello_new (Some "l") "a" (SA4 1 5)))) w with Panicked _ m => m = "Node handshake failed validation!" | _ => False end.
Proof.
  apply (proper_some S0 (fun w => _ /\ _) [CConnect nodeA]); [repeat constructor|]. vm_compute. eauto 10.
Qed.
