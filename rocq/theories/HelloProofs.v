(** Proofs about the handshake's texts and keyed hash. *)
From stdpp Require Import base list gmap numbers strings pretty.
From Coq Require Import Ascii Lia.
From Verif Require Import Types Sha Hello.
Local Open Scope N_scope.

Lemma sha256_length m : length (sha256 m) = 32%nat.
Proof. reflexivity. Qed.
Lemma xorb_involutive k c : k = 0x5c \/ k = 0x36 -> xorb_byte k (xorb_byte k c) = c.
Proof. intros [-> | ->]; destruct c as [[] [] [] [] [] [] [] []]; reflexivity. Qed.
Lemma map_xorb_inj k x y : k = 0x5c \/ k = 0x36 -> map (xorb_byte k) x = map (xorb_byte k) y -> x = y.
Proof.
  intros Hk. revert y. induction x as [|a x IH]; intros [|b y] H; try done. cbn in H. injection H as H1 H2. f_equal; [|by apply IH].
  rewrite <- (xorb_involutive k a Hk), H1. by apply xorb_involutive.
Qed.
Lemma block_key_length k : length (block_key k) = 64%nat.
Proof.
  unfold block_key. rewrite app_length, replicate_length. destruct (decide (64 < length k)%nat); [rewrite sha256_length|]; lia.
Qed.

Lemma text_app s t : text (s +:+ t) = text s ++ text t.
Proof.
  induction s as [|c s IH]; [done|]. change (text (String c s +:+ t)) with (c :: text (s +:+ t)). by rewrite IH.
Qed.
Lemma text_inj s t : text s = text t -> s = t.
Proof.
  revert t. induction s as [|c s IH]; intros [|d t] H; try done. cbn in H. injection H as -> H. f_equal. by apply IH.
Qed.

(** Decimal numbers are non-empty and consist of digits. *)
Definition digit (c : ascii) : Prop := 48 <= N_of_ascii c <= 57.
Lemma pretty_char_digit x : x < 10 -> digit (pretty_N_char x).
Proof.
  intros H. assert (x = 0 \/ x = 1 \/ x = 2 \/ x = 3 \/ x = 4 \/ x = 5 \/ x = 6 \/ x = 7 \/ x = 8 \/ x = 9) as Hx by lia.
  unfold digit. repeat (destruct Hx as [-> | Hx]); try subst x; vm_compute; split; discriminate.
Qed.
Lemma pretty_go_digits x s : Forall digit (text s) -> Forall digit (text (pretty_N_go x s)).
Proof.
  revert s. induction (N.lt_wf_0 x) as [x _ IH]; intros s Hs. destruct (decide (x = 0)) as [-> | Hx].
  - by rewrite pretty_N_go_0.
  - rewrite pretty_N_go_step by lia. apply IH; [apply N.div_lt; lia|]. cbn. constructor; [|done]. apply pretty_char_digit, N.mod_lt. lia.
Qed.
Lemma pretty_digits (x : N) : Forall digit (text (pretty x)).
Proof.
  unfold pretty, pretty_N. case_decide.
  - repeat constructor; vm_compute; discriminate.
  - apply pretty_go_digits. constructor.
Qed.
Lemma pretty_go_nonempty x s : s <> "" \/ x <> 0 -> pretty_N_go x s <> "".
Proof.
  revert s. induction (N.lt_wf_0 x) as [x _ IH]; intros s Hs. destruct (decide (x = 0)) as [-> | Hx].
  - rewrite pretty_N_go_0. naive_solver.
  - rewrite pretty_N_go_step by lia. apply IH; [apply N.div_lt; lia|]. by left.
Qed.
Lemma pretty_nonempty (x : N) : text (pretty x) <> [].
Proof.
  intros H. assert (pretty x = "") as Hp by (by apply text_inj). revert Hp.
  unfold pretty, pretty_N. case_decide; [done|]. apply pretty_go_nonempty. by right.
Qed.

(** Cutting at the first / last occurrence of a byte. *)
Lemma cut_first (d : ascii) x1 y1 x2 y2 : d ∉ x1 -> d ∉ x2 -> x1 ++ d :: y1 = x2 ++ d :: y2 -> x1 = x2 /\ y1 = y2.
Proof.
  revert x2. induction x1 as [|a x1 IH]; intros [|b x2] H1 H2 H; cbn in H.
  - by injection H as ->.
  - injection H as -> H. exfalso. apply H2. left.
  - injection H as -> H. exfalso. apply H1. left.
  - injection H as -> H. apply not_elem_of_cons in H1 as [_ H1], H2 as [_ H2]. by destruct (IH x2 H1 H2 H) as [-> ->].
Qed.
Lemma cut_last (d : ascii) x1 y1 x2 y2 : d ∉ y1 -> d ∉ y2 -> x1 ++ d :: y1 = x2 ++ d :: y2 -> x1 = x2 /\ y1 = y2.
Proof.
  intros H1 H2 H. apply (f_equal (@rev ascii)) in H. rewrite !rev_app_distr in H. cbn in H. rewrite <- !app_assoc in H. cbn in H.
  assert (forall l : list ascii, d ∉ l -> d ∉ rev l) as Hr by (intros l Hl Hi; apply Hl; by rewrite elem_of_list_In, in_rev, <- elem_of_list_In).
  destruct (cut_first d _ _ _ _ (Hr _ H1) (Hr _ H2) H) as [Ha Hb].
  split; [by rewrite <- (rev_involutive x1), Hb, rev_involutive | by rewrite <- (rev_involutive y1), Ha, rev_involutive].
Qed.
Lemma digits_not (c : ascii) l : ~ digit c -> Forall digit l -> c ∉ l.
Proof. intros Hc H Hi. rewrite Forall_forall in H. by apply Hc, H. Qed.

(** The text of an IPv4 address determines it. *)
Lemma show_ip4_shape ip : text (show_ip4 ip) = text (pretty (octet 3 ip)) ++ "."%char :: text (pretty (octet 2 ip)) ++ "."%char ::
  text (pretty (octet 1 ip)) ++ "."%char :: text (pretty (octet 0 ip)).
Proof. unfold show_ip4. rewrite !text_app. reflexivity. Qed.
Lemma octets ip : ip < 2 ^ 32 -> ip = ((octet 3 ip * 256 + octet 2 ip) * 256 + octet 1 ip) * 256 + octet 0 ip.
Proof.
  intros H. unfold octet. rewrite !N.shiftr_div_pow2. change (2 ^ (8 * 0)) with 1. change (2 ^ (8 * 1)) with 256. change (2 ^ (8 * 2)) with 65536. change (2 ^ (8 * 3)) with 16777216.
  change (2 ^ 32) with 4294967296 in H. rewrite N.div_1_r.
  rewrite (N.mod_small (ip / 16777216)) by (apply N.div_lt_upper_bound; lia).
  pose proof (N.div_mod ip 256 ltac:(lia)). pose proof (N.div_mod (ip / 256) 256 ltac:(lia)) as H2. pose proof (N.div_mod (ip / 65536) 256 ltac:(lia)) as H3.
  rewrite N.div_div in H2 by lia. rewrite N.div_div in H3 by lia. change (256 * 256) with 65536 in H2. change (65536 * 256) with 16777216 in H3. lia.
Qed.
Lemma dot_not_digit : ~ digit "."%char. Proof. intros [A B]; vm_compute in A, B; congruence. Qed.
Lemma colon_not_digit : ~ digit ":"%char. Proof. intros [A B]; vm_compute in A, B; congruence. Qed.
Lemma pretty_text_inj (x y : N) : text (pretty x) = text (pretty y) -> x = y.
Proof. intros H. apply text_inj in H. by apply (inj pretty). Qed.
Ltac nodot := apply digits_not; [first [apply dot_not_digit | apply colon_not_digit]|apply pretty_digits].
Lemma show_ip4_inj x y : x < 2 ^ 32 -> y < 2 ^ 32 -> text (show_ip4 x) = text (show_ip4 y) -> x = y.
Proof.
  intros Hx Hy H. rewrite !show_ip4_shape in H.
  apply cut_first in H as [H3 H]; [|nodot|nodot]. apply cut_first in H as [H2 H]; [|nodot|nodot]. apply cut_first in H as [H1 H0]; [|nodot|nodot].
  rewrite (octets x Hx), (octets y Hy). by rewrite (pretty_text_inj _ _ H0), (pretty_text_inj _ _ H1), (pretty_text_inj _ _ H2), (pretty_text_inj _ _ H3).
Qed.

(** Name and address, one after the other. *)
Definition ends_with_digit (s : string) : Prop := exists l c, text s = l ++ [c] /\ digit c.
Lemma show_addr_port a : exists pre (port : N), text (show_addr a) = pre ++ ":"%char :: text (pretty port) /\
  match a with SA4 ip p => pre = text (show_ip4 ip) /\ port = p
  | SA6 ip p _ sc => pre = "["%char :: text (show_ip6 ip) ++ text (if sc =? 0 then "" else "%" +:+ pretty sc) ++ ["]"%char] /\ port = p end.
Proof.
  destruct a as [ip p|ip p fl sc]; cbn [show_addr].
  - exists (text (show_ip4 ip)), p. rewrite !text_app. done.
  - eexists _, p. split; [|done]. rewrite !text_app. cbn. by rewrite <- !app_assoc.
Qed.
Lemma app_split (x1 y1 x2 y2 : bytes) : x1 ++ y1 = x2 ++ y2 ->
  (exists s, x1 = x2 ++ s /\ y2 = s ++ y1) \/ (exists s, x2 = x1 ++ s /\ y1 = s ++ y2).
Proof.
  revert x2. induction x1 as [|a x1 IH]; intros x2 H.
  - right. exists x2. by cbn in H.
  - destruct x2 as [|b x2].
    + left. exists (a :: x1). by cbn in H.
    + cbn in H. injection H as -> H. destruct (IH _ H) as [(s & -> & ->)|(s & -> & ->)]; [left|right]; by exists s.
Qed.
Definition dots (l : list ascii) : nat := length (filter (fun c => c = "."%char) l).
Lemma dots_app x y : dots (x ++ y) = (dots x + dots y)%nat.
Proof. unfold dots. rewrite <- app_length. f_equal. apply list.filter_app. Qed.
Lemma dots_digits l : Forall digit l -> dots l = 0%nat.
Proof.
  induction 1 as [|c l Hc _ IH]; [done|]. unfold dots in *. rewrite filter_cons_False; [done|]. intros ->. by apply dot_not_digit.
Qed.
Lemma dots_ip4 ip : dots (text (show_ip4 ip)) = 3%nat.
Proof.
  rewrite show_ip4_shape. rewrite dots_app.
  assert (forall l, dots ("."%char :: l) = S (dots l)) as Hd by (intros l; unfold dots; by rewrite filter_cons_True).
  rewrite Hd, dots_app, Hd, dots_app, Hd. rewrite !dots_digits by apply pretty_digits. reflexivity.
Qed.
Lemma dots_zero_not l : dots l = 0%nat -> "."%char ∉ l.
Proof.
  intros H Hi. unfold dots in H. apply nil_length_inv in H. assert ("."%char ∈ filter (fun c => c = "."%char) l) by (by apply elem_of_list_filter).
  rewrite H in H0. set_solver.
Qed.
(** An IPv4 text that ends with another one has only digits before it. *)
Lemma ip4_suffix s x y : text (show_ip4 x) = s ++ text (show_ip4 y) -> Forall digit s.
Proof.
  intros H. assert ("."%char ∉ s) as Hs.
  { apply dots_zero_not. pose proof (f_equal dots H) as E. rewrite dots_app, !dots_ip4 in E. lia. }
  rewrite !show_ip4_shape in H. rewrite app_assoc in H. apply cut_first in H as [H _]; [|nodot|].
  - pose proof (pretty_digits (octet 3 x)) as Hd. rewrite H in Hd. by apply Forall_app in Hd as [Hd _].
  - apply not_elem_of_app. split; [done|nodot].
Qed.
Lemma snoc_or_nil (s : bytes) : s = [] \/ exists l c, s = l ++ [c].
Proof. destruct s as [|c l] using rev_ind; eauto. Qed.
Lemma ends_app n l s : text n = l ++ s -> Forall digit s -> s = [] \/ ends_with_digit n.
Proof.
  intros E Hs. destruct (snoc_or_nil s) as [->|(l' & c & ->)]; [by left|right]. exists (l ++ l'), c. rewrite E, <- app_assoc. split; [done|].
  apply Forall_app in Hs as [_ Hs]. by inversion Hs.
Qed.
Lemma ip4_after_digit n n' x y : text n ++ text (show_ip4 x) = text n' ++ text (show_ip4 y) ->
  ~ ends_with_digit n -> ~ ends_with_digit n' -> n = n' /\ text (show_ip4 x) = text (show_ip4 y).
Proof.
  intros H Hn Hn'. apply app_split in H as [(s & E & E')|(s & E & E')]; apply ip4_suffix in E' as Hd.
  - destruct (ends_app _ _ _ E Hd) as [->|]; [|done]. rewrite app_nil_r in E. split; [by apply text_inj|done].
  - destruct (ends_app _ _ _ E Hd) as [->|]; [|done]. rewrite app_nil_r in E. split; [by symmetry; apply text_inj|done].
Qed.
(** The text of an IPv6 address has no bracket. *)
Definition nobracket (l : bytes) : Prop := "["%char ∉ l.
Lemma nobracket_app x y : nobracket x -> nobracket y -> nobracket (x ++ y).
Proof. unfold nobracket. rewrite elem_of_app. tauto. Qed.
Lemma nobracket_pretty (x : N) : nobracket (text (pretty x)).
Proof. apply digits_not; [intros [A B]; vm_compute in A, B; congruence|apply pretty_digits]. Qed.
Lemma hex_char_nobracket d : d < 16 -> hex_char d <> "["%char.
Proof.
  intros H. assert (d = 0 \/ d = 1 \/ d = 2 \/ d = 3 \/ d = 4 \/ d = 5 \/ d = 6 \/ d = 7 \/ d = 8 \/ d = 9 \/ d = 10 \/ d = 11 \/ d = 12 \/ d = 13 \/ d = 14 \/ d = 15) as Hx by lia.
  repeat (destruct Hx as [-> | Hx]); try subst d; done.
Qed.
Lemma nobracket_cons c l : c <> "["%char -> nobracket l -> nobracket (c :: l).
Proof. unfold nobracket. rewrite elem_of_cons. naive_solver. Qed.
Lemma nobracket_nil : nobracket []. Proof. apply not_elem_of_nil. Qed.
Lemma nobracket_group x : x < 65536 -> nobracket (text (show_group x)).
Proof.
  intros H. unfold show_group. cbv zeta.
  assert (x / 4096 < 16) by (apply N.div_lt_upper_bound; lia). assert (x / 256 mod 16 < 16) by (apply N.mod_lt; lia).
  assert (x / 16 mod 16 < 16) by (apply N.mod_lt; lia). assert (x mod 16 < 16) by (apply N.mod_lt; lia).
  destruct (x / 4096 =? 0), (x / 256 mod 16 =? 0), (x / 16 mod 16 =? 0); cbn [text String.list_ascii_of_string];
    repeat (apply nobracket_cons; [by apply hex_char_nobracket|]); apply nobracket_nil.
Qed.
Lemma nobracket_groups l : Forall (fun x => x < 65536) l -> nobracket (text (show_groups l)).
Proof.
  induction 1 as [|x l Hx Hl IH]; [apply nobracket_nil|]. unfold show_groups in *. cbn [map String.concat].
  destruct l as [|y l]; [by apply nobracket_group|]. cbn [map] in *. rewrite !text_app.
  repeat apply nobracket_app; [by apply nobracket_group| |exact IH]. apply nobracket_cons; [done|apply nobracket_nil].
Qed.
Lemma groups6_bounded ip : Forall (fun x => x < 65536) (groups6 ip).
Proof. unfold groups6. repeat constructor; apply N.mod_lt; lia. Qed.
Lemma nobracket_ip4 ip : nobracket (text (show_ip4 ip)).
Proof.
  rewrite show_ip4_shape. repeat (apply nobracket_app || (apply nobracket_cons; [done|])); apply nobracket_pretty.
Qed.
Lemma nobracket_ip6 ip : nobracket (text (show_ip6 ip)).
Proof.
  unfold show_ip6. destruct (_ =? _).
  - rewrite text_app. apply nobracket_app; [|apply nobracket_ip4]. repeat (apply nobracket_cons; [done|]). apply nobracket_nil.
  - cbv zeta. destruct (zero_run _ _ _ _ _) as [s n]. destruct (Nat.ltb 1 n); [|apply nobracket_groups, groups6_bounded].
    rewrite !text_app. repeat apply nobracket_app.
    + apply nobracket_groups, Forall_take, groups6_bounded.
    + repeat (apply nobracket_cons; [done|]). apply nobracket_nil.
    + apply nobracket_groups, Forall_drop, groups6_bounded.
Qed.
Lemma show6_bracket ip p fl sc : exists l, text (show_addr (SA6 ip p fl sc)) = "["%char :: l /\ nobracket l.
Proof.
  cbn [show_addr]. rewrite !text_app. eexists. split; [reflexivity|]. repeat apply nobracket_app.
  - apply nobracket_ip6.
  - destruct (sc =? 0); [apply nobracket_nil|]. rewrite text_app. apply nobracket_app; [|apply nobracket_pretty]. apply nobracket_cons; [done|apply nobracket_nil].
  - repeat (apply nobracket_cons; [done|]). apply nobracket_nil.
  - apply nobracket_pretty.
Qed.
Lemma last_ip4 ip : exists l c, text (show_ip4 ip) = l ++ [c] /\ digit c.
Proof.
  rewrite show_ip4_shape. destruct (snoc_or_nil (text (pretty (octet 0 ip)))) as [E|(l & c & E)]; [by apply pretty_nonempty in E|].
  rewrite E. set (p3 := text (pretty (octet 3 ip))). set (p2 := text (pretty (octet 2 ip))). set (p1 := text (pretty (octet 1 ip))).
  exists (p3 ++ "."%char :: p2 ++ "."%char :: p1 ++ "."%char :: l), c. split; [by repeat (rewrite <- ?app_assoc, <- ?app_comm_cons)|].
  pose proof (pretty_digits (octet 0 ip)) as Hd. rewrite E in Hd. apply Forall_app in Hd as [_ Hd]. by inversion Hd.
Qed.
(** Two names that do not end with a digit are never confused; names before IPv6 addresses never are. *)
Definition v6 (a : sockaddr) : Prop := match a with SA6 _ _ _ _ => True | SA4 _ _ => False end.
Lemma name_addr_split n a n' a' : text n ++ text (show_addr a) = text n' ++ text (show_addr a') ->
  (v6 a \/ v6 a' \/ ~ ends_with_digit n /\ ~ ends_with_digit n') -> n = n' /\ text (show_addr a) = text (show_addr a').
Proof.
  intros H Hc.
  destruct (show_addr_port a) as (p1 & q1 & E1 & S1), (show_addr_port a') as (p2 & q2 & E2 & S2).
  pose proof H as H0. rewrite E1, E2, !app_assoc in H0. apply cut_last in H0 as [Hp Hq]; [|nodot|nodot].
  destruct a as [ip p|ip p fl sc], a' as [ip' p'|ip' p' fl' sc']; destruct S1 as [-> ->], S2 as [-> ->].
  - destruct Hc as [[]|[[]|[Hn Hn']]]. destruct (ip4_after_digit n n' ip ip' Hp Hn Hn') as [-> E]. split; [done|]. by rewrite E1, E2, E, Hq.
  - exfalso. destruct (last_ip4 ip) as (l & c & E & Hd). rewrite E in Hp. rewrite !app_assoc, app_comm_cons, !app_assoc in Hp.
    apply app_inj_tail in Hp as [_ ->]. destruct Hd as [A B]; vm_compute in A, B; congruence.
  - exfalso. destruct (last_ip4 ip') as (l & c & E & Hd). rewrite E in Hp. rewrite !app_assoc, app_comm_cons, !app_assoc in Hp.
    apply app_inj_tail in Hp as [_ <-]. destruct Hd as [A B]; vm_compute in A, B; congruence.
  - destruct (show6_bracket ip p fl sc) as (l & El & Hl), (show6_bracket ip' p' fl' sc') as (l' & El' & Hl'). rewrite El, El' in *.
    apply cut_last in H as [H ->]; [|done|done]. split; [by apply text_inj|done].
Qed.
Lemma show_addr4_inj ip p ip' p' : ip < 2 ^ 32 -> ip' < 2 ^ 32 -> text (show_addr (SA4 ip p)) = text (show_addr (SA4 ip' p')) -> SA4 ip p = SA4 ip' p'.
Proof.
  intros H1 H2 H. destruct (show_addr_port (SA4 ip p)) as (p1 & q1 & E1 & -> & ->), (show_addr_port (SA4 ip' p')) as (p2 & q2 & E2 & -> & ->).
  rewrite E1, E2 in H. apply cut_last in H as [Hp Hq]; [|nodot|nodot]. by rewrite (show_ip4_inj _ _ H1 H2 Hp), (pretty_text_inj _ _ Hq).
Qed.
