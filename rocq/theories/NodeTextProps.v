(** C99: a node written as text. *)
From stdpp Require Import base list gmap numbers strings pretty.
From Coq Require Import Ascii Lia.
From Verif Require Import Types Sha Hello HelloProofs AddrProofs NodeText.
Local Open Scope N_scope.

(** ** Specification *)
(** The text of a node: its name, an '@', and its address as it is printed. *)
Definition node_text (name : string) (addr : sockaddr) : string := name +:+ "@" +:+ show_addr addr.
Definition has_at (s : string) : Prop := exists a b : string, s = a +:+ "@" +:+ b.
Definition an_address (a : sockaddr) : Prop :=
  match a with
  | SA4 ip port => ip < 2 ^ 32 /\ port < 65536
  | SA6 ip port flow scope => ip < 2 ^ 128 /\ port < 65536 /\ flow = 0 /\ scope < 2 ^ 32
  end.

(** The texts of IPv6 addresses (RFC 4291, 2.2): groups of one to four hexadecimal digits with colons between them, the
    last two perhaps written as an IPv4 address; eight of them, or fewer with one "::" for the zeros in between. *)
Definition hex_char_value (c : ascii) (n : nat) : Prop :=
  text "0123456789abcdef" !! n = Some c \/ text "0123456789ABCDEF" !! n = Some c.
Definition group_text (x : N) (d : bytes) : Prop :=
  (1 <= length d <= 4)%nat /\
  exists ns, Forall2 hex_char_value d ns /\ x = fold_left (fun a n => 16 * a + N.of_nat n) ns 0.
Inductive groups_text : list N -> bool -> bytes -> Prop :=
| last_group x d : group_text x d -> groups_text [x] false d
| last_ip4 a : a < 2 ^ 32 -> groups_text [a / 65536; a mod 65536] true (text (show_ip4 a))
| more_groups x d gs v4 l : group_text x d -> groups_text gs v4 l -> groups_text (x :: gs) v4 (d ++ ":"%char :: l).
Definition maybe_groups (gs : list N) (v4 : bool) (l : bytes) : Prop := gs = [] /\ v4 = false /\ l = [] \/ groups_text gs v4 l.
Inductive ip6_text : N -> bytes -> Prop :=
| whole gs v4 l : groups_text gs v4 l -> length gs = 8%nat -> ip6_text (of_groups gs) l
| shortened pre post v4 a b : maybe_groups pre false a -> maybe_groups post v4 b -> (length pre + length post < 8)%nat ->
    ip6_text (of_groups (pre ++ replicate (8 - length pre - length post) 0 ++ post)) (a ++ ":"%char :: ":"%char :: b).
Definition scope_text (scope : N) (l : bytes) : Prop :=
  scope = 0 /\ l = [] \/ scope < 2 ^ 32 /\ exists zeros, l = "%"%char :: repeat "0"%char zeros ++ text (pretty scope).

(** ** Reading numbers *)
Lemma is_digit_spec c : is_digit c = true <-> digit c.
Proof. unfold is_digit, digit. rewrite andb_true_iff, !N.leb_le. done. Qed.
Lemma digits_app d c r : Forall digit d -> ~ digit c -> digits (d ++ c :: r) = (d, c :: r).
Proof.
  induction 1 as [|x d Hx Hd IH]; intros Hc; cbn.
  - destruct (is_digit c) eqn:E; [|done]. by apply is_digit_spec in E.
  - apply is_digit_spec in Hx as ->. by rewrite IH.
Qed.
Lemma digits_all d : Forall digit d -> digits d = (d, []).
Proof. induction 1 as [|x d Hx Hd IH]; cbn; [done|]. apply is_digit_spec in Hx as ->. by rewrite IH. Qed.
Lemma pretty_char_value x : x < 10 -> N_of_ascii (pretty_N_char x) - 48 = x.
Proof.
  intros H. assert (x = 0 \/ x = 1 \/ x = 2 \/ x = 3 \/ x = 4 \/ x = 5 \/ x = 6 \/ x = 7 \/ x = 8 \/ x = 9) as Hx by lia.
  repeat (destruct Hx as [-> | Hx]); try subst x; reflexivity.
Qed.
Lemma decval_go x s : decval 0 (text (pretty_N_go x s)) = decval x (text s).
Proof.
  revert s. induction (N.lt_wf_0 x) as [x _ IH]. intros s. destruct (decide (x = 0)) as [->|Hx].
  - by rewrite pretty_N_go_0.
  - rewrite pretty_N_go_step by lia. rewrite IH by (apply N.div_lt; lia).
    cbn [text String.list_ascii_of_string decval]. rewrite pretty_char_value by (apply N.mod_lt; lia).
    f_equal. pose proof (N.div_mod x 10 ltac:(lia)). lia.
Qed.
Lemma decval_pretty (x : N) : decval 0 (text (pretty x)) = x.
Proof.
  unfold pretty, pretty_N. destruct (decide (x = 0)) as [->|Hx]; [done|]. by rewrite decval_go.
Qed.
Lemma number_octet x : x < 256 -> number 255 (Some 3%nat) false (text (pretty x)) = Some x.
Proof.
  intros Hx. assert (forallb (fun i => bool_decide (number 255 (Some 3%nat) false (text (pretty (N.of_nat i))) = Some (N.of_nat i)))
    (seq 0 256) = true) as H by (vm_compute; reflexivity).
  rewrite forallb_forall in H. specialize (H (N.to_nat x)). rewrite N2Nat.id in H.
  refine (bool_decide_eq_true_1 _ (H _)). apply in_seq. lia.
Qed.
Lemma number_port x : x < 65536 -> number 65535 None true (text (pretty x)) = Some x.
Proof.
  intros Hx. unfold number. rewrite decval_pretty. pose proof (pretty_nonempty x) as Hn.
  destruct (text (pretty x)) as [|c l]; [done|]. rewrite (proj2 (N.ltb_ge _ _)) by lia.
  destruct l; cbn; [done|]. by rewrite andb_false_r.
Qed.
Lemma read_octet_app x c r : x < 256 -> ~ digit c -> read_octet (text (pretty x) ++ c :: r) = Some (x, c :: r).
Proof.
  intros Hx Hc. unfold read_octet, read_number. rewrite digits_app by (done || apply pretty_digits).
  cbn. by rewrite number_octet.
Qed.
Lemma read_port_all x : x < 65536 -> read_port (text (pretty x)) = Some (x, []).
Proof.
  intros Hx. unfold read_port, read_number. rewrite digits_all by apply pretty_digits. cbn. by rewrite number_port.
Qed.
Lemma octet_small i x : octet i x < 256.
Proof. apply N.mod_lt. lia. Qed.
Lemma read_ip4_app ip c r : ip < 2 ^ 32 -> ~ digit c -> read_ip4 (text (show_ip4 ip) ++ c :: r) = Some (ip, c :: r).
Proof.
  intros Hi Hc. unfold read_ip4. rewrite show_ip4_shape. repeat (progress (rewrite <- ?app_assoc; cbn [app])).
  rewrite read_octet_app by (apply octet_small || apply dot_not_digit). cbn [mbind option_bind read_char].
  rewrite decide_True by done. cbn [mbind option_bind].
  rewrite read_octet_app by (apply octet_small || apply dot_not_digit). cbn [mbind option_bind read_char].
  rewrite decide_True by done. cbn [mbind option_bind].
  rewrite read_octet_app by (apply octet_small || apply dot_not_digit). cbn [mbind option_bind read_char].
  rewrite decide_True by done. cbn [mbind option_bind].
  rewrite read_octet_app by (apply octet_small || done). cbn [mbind option_bind]. by rewrite <- (octets ip Hi).
Qed.
Lemma parse4_show ip port : ip < 2 ^ 32 -> port < 65536 -> parse4 (show_addr (SA4 ip port)) = Some (SA4 ip port).
Proof.
  intros Hi Hp. unfold parse4. cbn [show_addr]. rewrite !text_app. cbn [app text String.list_ascii_of_string].
  rewrite read_ip4_app by (done || apply colon_not_digit). cbn [mbind option_bind read_char].
  rewrite decide_True by done. cbn [mbind option_bind]. by rewrite read_port_all by done.
Qed.
Lemma parse4_v6 ip port flow scope : parse4 (show_addr (SA6 ip port flow scope)) = None.
Proof. reflexivity. Qed.

(** ** Reading IPv6 addresses *)
Lemma is_digit_false c : ~ digit c -> is_digit c = false.
Proof. intros H. destruct (is_digit c) eqn:E; [|done]. by apply is_digit_spec in E. Qed.
Lemma not_hex_not_digit c : is_hex c = false -> ~ digit c.
Proof. intros H Hd. apply is_digit_spec in Hd. unfold is_hex in H. by rewrite Hd in H. Qed.
Lemma hex_of_char d : d < 16 -> is_hex (hex_char d) = true /\ hex_of (hex_char d) = d.
Proof. intros H. sixteen d H; done. Qed.
Lemma group_read x : x < 65536 ->
  Forall (fun c => is_hex c = true) (text (show_group x)) /\ (1 <= length (text (show_group x)) <= 4)%nat /\ hexnum 0 (text (show_group x)) = x.
Proof.
  intros H. pose proof (digits16 x H) as E. unfold show_group. cbv zeta.
  assert (x / 4096 < 16) as B3 by (apply N.div_lt_upper_bound; lia). assert (x / 256 mod 16 < 16) as B2 by (apply N.mod_lt; lia).
  assert (x / 16 mod 16 < 16) as B1 by (apply N.mod_lt; lia). assert (x mod 16 < 16) as B0 by (apply N.mod_lt; lia).
  destruct (hex_of_char _ B3) as [C3 D3], (hex_of_char _ B2) as [C2 D2], (hex_of_char _ B1) as [C1 D1], (hex_of_char _ B0) as [C0 D0].
  destruct (N.eqb_spec (x / 4096) 0), (N.eqb_spec (x / 256 mod 16) 0), (N.eqb_spec (x / 16 mod 16) 0);
    cbn [text String.list_ascii_of_string hexnum length]; (split; [repeat (constructor; [done|]); constructor|]); (split; [lia|]); rewrite ?D3, ?D2, ?D1, ?D0; lia.
Qed.
Lemma hex_digits_app d c r : Forall (fun c => is_hex c = true) d -> is_hex c = false -> hex_digits (d ++ c :: r) = (d, c :: r).
Proof. intros Hd Hc. induction Hd as [|x d Hx Hd IH]; cbn; [by rewrite Hc|]. by rewrite Hx, IH. Qed.
Lemma read_group_app x c r : x < 65536 -> is_hex c = false -> read_group (text (show_group x) ++ c :: r) = Some (x, c :: r).
Proof.
  intros Hx Hc. destruct (group_read x Hx) as (Hh & Hl & Hv). unfold read_group. rewrite hex_digits_app by done. cbv iota.
  rewrite Hv. destruct (text (show_group x)) as [|a l] eqn:E; [cbn in Hl; lia|]. rewrite (proj2 (Nat.ltb_ge _ _)) by lia. done.
Qed.
Lemma read_group_none c r : is_hex c = false -> read_group (c :: r) = None.
Proof. intros Hc. unfold read_group. cbn [hex_digits]. by rewrite Hc. Qed.
Lemma read_ip4_none c r : ~ digit c -> read_ip4 (c :: r) = None.
Proof. intros Hc. unfold read_ip4, read_octet, read_number. cbn [digits]. by rewrite (is_digit_false c Hc). Qed.
Lemma digits_stop g c r : Forall (fun x => x <> "."%char) g -> ~ digit c -> c <> "."%char -> exists d e s, digits (g ++ c :: r) = (d, e :: s) /\ e <> "."%char.
Proof.
  intros Hg Hc Hd. induction Hg as [|x g Hx Hg IH]; cbn.
  - rewrite (is_digit_false c Hc). by exists [], c, r.
  - destruct (is_digit x); [|by exists [], x, (g ++ c :: r)]. destruct IH as (d & e & s & -> & He). by exists (x :: d), e, s.
Qed.
Lemma read_ip4_group x c r : x < 65536 -> ~ digit c -> c <> "."%char -> read_ip4 (text (show_group x) ++ c :: r) = None.
Proof.
  intros Hx Hc Hd. unfold read_ip4, read_octet, read_number.
  destruct (digits_stop (text (show_group x)) c r) as (d & e & s & -> & He); [|done|done|].
  - eapply Forall_impl; [by apply group_chars|]. naive_solver.
  - destruct (number _ _ _ d); cbn; [|done]. by rewrite decide_False.
Qed.
(** Nothing more is read here. *)
Definition stops (l : bytes) : Prop := forall k, read_groups k false l = ([], false, l).
Lemma stops_other c r : c <> ":"%char -> stops (c :: r).
Proof. intros Hc [|k]; cbn; [done|]. rewrite decide_False by done. cbn. by destruct (Nat.eqb k 0). Qed.
Lemma stops_colons r : stops (":"%char :: ":"%char :: r).
Proof. intros [|k]; cbn; [done|]. by destruct (Nat.eqb k 0). Qed.
Lemma groups_none k c r : is_hex c = false -> read_groups k true (c :: r) = ([], false, c :: r).
Proof.
  intros Hc. destruct k as [|k]; [done|]. cbn [read_groups separated].
  rewrite read_ip4_none by (by apply not_hex_not_digit). rewrite read_group_none by done. by destruct (Nat.eqb k 0).
Qed.
Lemma groups_step k first l x r : separated first read_ip4 l = None -> separated first read_group l = Some (x, r) ->
  read_groups (Datatypes.S k) first l = (let '(gs, v4, r) := read_groups k false r in (x :: gs, v4, r)).
Proof. intros H4 H6. cbn [read_groups]. rewrite H4, H6. by destruct (Nat.eqb k 0). Qed.
Lemma groups_read gs : forall k (first : bool) c r, Forall (fun x => x < 65536) gs -> gs <> [] -> (length gs <= k)%nat -> is_hex c = false -> c <> "."%char -> stops (c :: r) ->
  read_groups k first ((if first then [] else [":"%char]) ++ text (show_groups gs) ++ c :: r) = (gs, false, c :: r).
Proof.
  induction gs as [|x gs IH]; intros k first c r Hb Hn Hk Hc Hd Hs; [done|]. inversion Hb as [|? ? Hx Hb']; subst.
  destruct k as [|k]; [cbn in Hk; lia|].
  destruct gs as [|y gs].
  - cbn [show_groups map String.concat].
    erewrite groups_step; [by rewrite (Hs k)| |].
    + destruct first; cbn [separated app read_char mbind option_bind]; rewrite ?decide_True by done; cbn [mbind option_bind]; apply read_ip4_group; auto using not_hex_not_digit.
    + destruct first; cbn [separated app read_char mbind option_bind]; rewrite ?decide_True by done; cbn [mbind option_bind]; by apply read_group_app.
  - rewrite text_groups. rewrite <- app_assoc. cbn [app].
    erewrite groups_step; [rewrite (IH k false c r); [reflexivity|done|done|cbn in *; lia|done|done|done]| |].
    + destruct first; cbn [separated app read_char mbind option_bind]; rewrite ?decide_True by done; cbn [mbind option_bind]; apply read_ip4_group; (done || apply colon_not_digit).
    + destruct first; cbn [separated app read_char mbind option_bind]; rewrite ?decide_True by done; cbn [mbind option_bind]; by apply read_group_app.
Qed.
Lemma of_groups6 ip : ip < 2 ^ 128 -> of_groups (groups6 ip) = ip.
Proof. intros H. symmetry. by apply groups_value. Qed.
Lemma read_char_here c l : read_char c (c :: l) = Some l.
Proof. cbn. by rewrite decide_True. Qed.
Lemma read_ip6_app ip c r : ip < 2 ^ 128 -> is_hex c = false -> c <> "."%char -> c <> ":"%char -> read_ip6 (text (show_ip6 ip) ++ c :: r) = Some (ip, c :: r).
Proof.
  intros Hi Hc Hd Hco. destruct (decide (N.shiftr ip 32 = 0xffff)) as [Hm|Hm].
  - rewrite mapped_text by done. unfold read_ip6.
    change (text "::ffff:") with (":"%char :: ":"%char :: text (show_group 65535) ++ [":"%char]). cbn [app]. rewrite <- !app_assoc. cbn [app].
    rewrite groups_none by done. cbn [length Nat.eqb]. rewrite read_char_here. cbn [mbind option_bind]. rewrite read_char_here. cbn [mbind option_bind]. change (8 - (0 + 1))%nat with 7%nat.
    erewrite (groups_step 6); [|apply read_ip4_group; (done || apply colon_not_digit)|by apply read_group_app].
    cbn [read_groups Nat.eqb separated read_char mbind option_bind]. rewrite decide_True by done. cbn [mbind option_bind].
    rewrite read_ip4_app by ((apply N.mod_lt; done) || by apply not_hex_not_digit). cbv iota beta.
    f_equal. f_equal. unfold of_groups. cbn [length Nat.sub replicate app fold_left].
    rewrite N.shiftr_div_pow2 in Hm. pose proof (N.div_mod ip (2 ^ 32) ltac:(done)) as E. rewrite Hm in E.
    pose proof (N.div_mod (ip mod 2 ^ 32) 65536 ltac:(done)) as E2. change (2 ^ 32) with 4294967296 in *. lia.
  - destruct (show_ip6_shape ip Hm) as [->|pre post -> Hp Hq E Hl]; unfold read_ip6.
    + assert (read_groups 8 true (text (show_groups (groups6 ip)) ++ c :: r) = (groups6 ip, false, c :: r)) as ->.
      { apply (groups_read (groups6 ip) 8 true); [apply groups6_bounded|done|done|done|done|by apply stops_other]. }
      change (Nat.eqb (length (groups6 ip)) 8) with true. cbv iota. by rewrite of_groups6.
    + unfold compressed. rewrite <- app_assoc. cbn [app].
      assert (read_groups 8 true (text (show_groups pre) ++ ":"%char :: ":"%char :: text (show_groups post) ++ c :: r) = (pre, false, ":"%char :: ":"%char :: text (show_groups post) ++ c :: r)) as ->.
      { destruct pre as [|x pre]; [by apply groups_none|]. apply (groups_read (x :: pre) 8 true); [done|done|lia|done|done|apply stops_colons]. }
      destruct (Nat.eqb_spec (length pre) 8) as [E8|_]; [lia|]. rewrite read_char_here. cbn [mbind option_bind]. rewrite read_char_here. cbn [mbind option_bind].
      assert (read_groups (8 - (length pre + 1)) true (text (show_groups post) ++ c :: r) = (post, false, c :: r)) as ->.
      { destruct post as [|x post]; [by apply groups_none|]. apply (groups_read (x :: post) _ true); [done|done|lia|done|done|by apply stops_other]. }
      cbv iota beta. rewrite <- E. by rewrite of_groups6.
Qed.
Lemma number_any limit x : x <= limit -> number limit None true (text (pretty x)) = Some x.
Proof.
  intros Hx. unfold number. rewrite decval_pretty. pose proof (pretty_nonempty x) as Hn.
  destruct (text (pretty x)) as [|c l]; [done|]. rewrite (proj2 (N.ltb_ge _ _)) by lia. destruct l; cbn; [done|]. by rewrite andb_false_r.
Qed.
Lemma parse6_show ip port scope : ip < 2 ^ 128 -> port < 65536 -> scope < 2 ^ 32 -> parse6 (show_addr (SA6 ip port 0 scope)) = Some (SA6 ip port 0 scope).
Proof.
  intros Hi Hp Hs. unfold parse6. cbn [show_addr]. rewrite !text_app. change (text "[") with ["["%char]. change (text "]:") with ["]"%char; ":"%char]. cbn [app mbind option_bind read_char].
  rewrite decide_True by done. cbn [mbind option_bind].
  assert (exists c r, text (if N.eqb scope 0 then ""%string else "%" +:+ pretty scope) ++ "]"%char :: ":"%char :: text (pretty port) = c :: r /\
    is_hex c = false /\ c <> "."%char /\ c <> ":"%char /\ read_scope (c :: r) = (scope, "]"%char :: ":"%char :: text (pretty port))) as (c & r & E & H1 & H2 & H3 & H4).
  { destruct (N.eqb_spec scope 0) as [->|Hn].
    - eexists _, _. split; [reflexivity|]. split_and!; try done.
    - rewrite text_app. change (text "%") with ["%"%char]. cbn [app]. eexists _, _. split; [reflexivity|]. split_and!; try done.
      unfold read_scope. cbn [read_char]. rewrite decide_True by done. cbn [mbind option_bind]. unfold read_number.
      rewrite digits_app by (apply pretty_digits || (intros [A B]; vm_compute in A, B; congruence)). rewrite number_any by lia. done. }
  rewrite E, read_ip6_app by done. cbn [mbind option_bind]. rewrite H4. cbv iota beta. rewrite read_char_here. cbn [mbind option_bind].
  rewrite read_char_here. cbn [mbind option_bind]. by rewrite read_port_all by done.
Qed.
Lemma parse_show a : an_address a -> parse_addr (show_addr a) = Some a.
Proof.
  intros Ha. unfold parse_addr. destruct a as [ip port|ip port flow scope].
  - destruct Ha as [Hi Hp]. by rewrite parse4_show.
  - destruct Ha as (Hi & Hp & -> & Hs). rewrite parse4_v6. by apply parse6_show.
Qed.
(** ** Splitting *)
Lemma split_none c s : split_once c s = None -> forall a b, s <> a +:+ String c b.
Proof.
  induction s as [|d s IH]; cbn; intros H a b E.
  - by destruct a.
  - destruct (decide (d = c)); [done|]. destruct (split_once c s) as [[]|] eqn:Es; [done|].
    destruct a as [|e a]; cbn in E; [by injection E as ->|]. injection E as _ E. by eapply IH.
Qed.
Lemma split_some c s a b : split_once c s = Some (a, b) -> s = a +:+ String c b /\ forall x y, a <> x +:+ String c y.
Proof.
  revert a b. induction s as [|d s IH]; cbn; intros a b H; [done|].
  destruct (decide (d = c)) as [->|Hd].
  - injection H as <- <-. split; [done|]. by intros [|] ? ?.
  - destruct (split_once c s) as [[a' b']|] eqn:Es; [|done]. injection H as <- <-.
    destruct (IH _ _ eq_refl) as [-> Hn]. split; [done|]. intros [|e x] y E; cbn in E.
    + by injection E as ->.
    + injection E as _ E. by eapply Hn.
Qed.
Lemma split_step c d r : split_once c (String d r) =
  if decide (d = c) then Some (EmptyString, r)
  else match split_once c r with Some (a, b) => Some (String d a, b) | None => None end.
Proof. reflexivity. Qed.
Lemma split_first c a b : (forall x y, a <> x +:+ String c y) -> split_once c (a +:+ String c b) = Some (a, b).
Proof.
  induction a as [|d a IH]; intros H.
  - change (EmptyString +:+ String c b) with (String c b). rewrite split_step. by rewrite decide_True.
  - change (String d a +:+ String c b) with (String d (a +:+ String c b)). rewrite split_step.
    destruct (decide (d = c)) as [->|Hd]; [by destruct (H EmptyString a)|].
    rewrite IH; [done|]. intros x y E. apply (H (String d x) y). by rewrite E.
Qed.

(** ** C99 *)
(** The text of a node is read as that node. *)
Theorem C99_text_is_read name addr :
  an_address addr -> ~ has_at name ->
  node_from (node_text name addr) = Some (NRemote name addr).
Proof.
  intros Ha Hn. unfold node_from, node_text.
  rewrite decide_False.
  2: { intros E. apply (split_none "@" "local" eq_refl name (show_addr addr)). by rewrite <- E. }
  change ("@" +:+ show_addr addr) with (String "@" (show_addr addr)).
  rewrite split_first by (intros x y E; apply Hn; by exists x, y). cbn. by rewrite parse_show.
Qed.
Print Assumptions C99_text_is_read.

(** A node equals exactly the texts that are read as it. *)
Theorem C99_equality_is_reading nd s : node_is nd s = true <-> node_from s = Some nd.
Proof.
  unfold node_is, node_from. destruct nd as [|name addr].
  - rewrite bool_decide_eq_true. split; [intros ->; done|]. case_decide; [done|].
    destruct (split_once "@" s) as [[]|]; cbn; [|done]. destruct (parse_addr _); done.
  - destruct (decide (s = "local"%string)) as [->|Hs].
    + cbn. split; done.
    + destruct (split_once "@" s) as [[n a]|]; cbn; [|done].
      destruct (parse_addr a) as [x|]; cbn.
      * rewrite andb_true_iff, !bool_decide_eq_true. split; [by intros [-> ->] | by intros [= -> ->]].
      * rewrite andb_false_r. done.
Qed.
Print Assumptions C99_equality_is_reading.

(** Hence no text equals two nodes, and a node read from a text equals it. *)
Theorem C99_one_node nd nd' s : node_is nd s = true -> node_is nd' s = true -> nd = nd'.
Proof. rewrite !C99_equality_is_reading. congruence. Qed.
Print Assumptions C99_one_node.

(** The conversion panics exactly on a text that is neither "local" nor a name, an '@' and an address;
    the name ends at the first '@'. *)
Theorem C99_panics s :
  node_from s = None <->
  s <> "local"%string /\
  forall name addr, s = name +:+ "@" +:+ addr -> ~ has_at name -> parse_addr addr = None.
Proof.
  unfold node_from. case_decide as Hs.
  - split; [done | by intros [? _]].
  - destruct (split_once "@" s) as [[n a]|] eqn:E; cbn.
    + pose proof (split_some _ _ _ _ E) as [Es Hn]. split.
      * intros Hp. split; [done|]. intros name addr Ea Hat.
        assert (split_once "@" s = Some (name, addr)) as E'.
        { rewrite Ea. apply split_first. intros x y Ex. apply Hat. by exists x, y. }
        rewrite E in E'. injection E' as -> ->. by destruct (parse_addr addr).
      * intros [_ H]. rewrite (H n a Es); [done|]. intros (x & y & Ex). by eapply Hn.
    + split; [|done]. intros _. split; [done|]. intros name addr Ea. exfalso. by eapply (split_none _ _ E).
Qed.
Print Assumptions C99_panics.

(** What is read is a name without '@' and the parsed address. *)
Theorem C99_read s name addr :
  node_from s = Some (NRemote name addr) ->
  ~ has_at name /\ exists a, s = name +:+ "@" +:+ a /\ parse_addr a = Some addr.
Proof.
  unfold node_from. case_decide; [done|]. destruct (split_once "@" s) as [[n a]|] eqn:E; cbn; [|done].
  destruct (parse_addr a) as [x|] eqn:Ep; cbn; [|done]. intros [= -> ->].
  destruct (split_some _ _ _ _ E) as [-> Hn]. split; [|by exists a].
  intros (x & y & Ex). by eapply Hn.
Qed.
Print Assumptions C99_read.

(** Comparison with a pair, which needs no parsing, has no exception. *)
Theorem C99_pairs nd x : node_is_pair nd x = true <-> nd = node_of x.
Proof.
  destruct nd as [|name addr], x as [n a]; cbn; [split; discriminate|].
  rewrite andb_true_iff, !bool_decide_eq_true. split; [by intros [-> ->] | by intros [= -> ->]].
Qed.
Print Assumptions C99_pairs.

(** ** Exactly which texts are read *)
Lemma is_digit_value c : is_digit c = true -> N_of_ascii c - 48 < 10 /\ pretty_N_char (N_of_ascii c - 48) = c.
Proof.
  unfold is_digit. rewrite andb_true_iff, !N.leb_le. intros [H1 H2].
  assert (forallb (fun i => negb (is_digit (ascii_of_nat i)) || bool_decide (pretty_N_char (N_of_ascii (ascii_of_nat i) - 48) = ascii_of_nat i)) (seq 0 256) = true) as H by (vm_compute; reflexivity).
  assert (In (nat_of_ascii c) (seq 0 256)) as Hin by (apply in_seq; pose proof (nat_ascii_bounded c); lia).
  rewrite forallb_forall in H. specialize (H _ Hin). rewrite ascii_nat_embedding in H.
  split; [lia|]. assert (is_digit c = true) as E by (unfold is_digit; rewrite andb_true_iff, !N.leb_le; done).
  rewrite E in H. cbn [negb orb] in H. exact (bool_decide_eq_true_1 _ H).
Qed.
Lemma pretty_go_app x s : text (pretty_N_go x s) = text (pretty_N_go x "") ++ text s.
Proof.
  revert s. induction (N.lt_wf_0 x) as [x _ IH]. intros s. destruct (decide (x = 0)) as [->|Hx].
  - by rewrite !pretty_N_go_0.
  - rewrite (pretty_N_go_step x s), (pretty_N_go_step x "") by lia. rewrite IH by (apply N.div_lt; lia).
    rewrite (IH (x `div` 10) ltac:(apply N.div_lt; lia) (String _ "")). by rewrite <- app_assoc.
Qed.
Lemma pretty_snoc v c : 0 < v -> is_digit c = true -> text (pretty (v * 10 + (N_of_ascii c - 48))) = text (pretty v) ++ [c].
Proof.
  intros Hv Hc. apply is_digit_value in Hc as [Hx Hc]. set (x := N_of_ascii c - 48) in *. unfold pretty, pretty_N.
  rewrite !decide_False by lia. rewrite pretty_N_go_step by lia.
  assert ((v * 10 + x) `div` 10 = v) as -> by (rewrite N.div_add_l by lia; rewrite N.div_small by lia; lia).
  assert ((v * 10 + x) `mod` 10 = x) as -> by (rewrite N.add_comm, N.mod_add by lia; by apply N.mod_small).
  rewrite pretty_go_app, Hc. done.
Qed.
Lemma decval_snoc d c : forall a, decval a (d ++ [c]) = decval a d * 10 + (N_of_ascii c - 48).
Proof. induction d as [|x d IH]; intros a; cbn; [done|]. apply IH. Qed.
(** Digits are zeros and the number they denote. *)
Lemma digits_denote d : Forall (fun c => is_digit c = true) d -> d <> [] ->
  exists n, d = repeat "0"%char n ++ text (pretty (decval 0 d)).
Proof.
  induction d as [|c d IH] using rev_ind; intros Hd Hn; [done|]. apply Forall_app in Hd as [Hd Hc']. assert (is_digit c = true) as Hc by (by inversion Hc'). clear Hc'.
  rewrite decval_snoc. destruct (decide (decval 0 d = 0)) as [E|E].
  - rewrite E. exists (length d). destruct (is_digit_value c Hc) as [Hx Hp]. f_equal.
    + destruct d as [|b d]; [done|]. destruct (IH Hd ltac:(done)) as [n Hn']. rewrite E in Hn'. rewrite Hn'.
      change (text (pretty 0)) with (repeat "0"%char 1). rewrite <- repeat_app. by rewrite repeat_length.
    + rewrite N.mul_0_l, N.add_0_l. rewrite <- Hp at 1.
      assert (N_of_ascii c - 48 = 0 \/ 0 < N_of_ascii c - 48) as [->|H0] by lia; [done|].
      unfold pretty, pretty_N. rewrite decide_False by lia. rewrite pretty_N_go_step by done. rewrite N.div_small, N.mod_small by done. by rewrite pretty_N_go_0.
  - destruct d as [|b d]; [done|]. destruct (IH Hd ltac:(done)) as [n Hn'].
    exists n. rewrite pretty_snoc by (done || lia). rewrite app_assoc. by rewrite <- Hn'.
Qed.
Lemma digits_spec l d r : digits l = (d, r) -> l = d ++ r /\ Forall (fun c => is_digit c = true) d.
Proof.
  revert d r. induction l as [|c l IH]; intros d r; cbn; [intros [= <- <-]; auto|].
  destruct (is_digit c) eqn:E; [|intros [= <- <-]; auto].
  destruct (digits l) as [d' s] eqn:El. intros [= <- <-]. destruct (IH _ _ eq_refl) as [-> Hd]. split; [done|]. by constructor.
Qed.
Lemma number_some limit m z d x : number limit m z d = Some x ->
  d <> [] /\ x = decval 0 d /\ x <= limit /\ (z = false -> forall c r, d = "0"%char :: c :: r -> False).
Proof.
  unfold number. destruct d as [|c d]; [done|]. cbn [orb].
  destruct (match m with Some m => Nat.ltb m (length (c :: d)) | None => false end); [done|]. cbn [orb].
  destruct (N.ltb_spec limit (decval 0 (c :: d))) as [|Hlim]; [done|]. cbn [orb]. intros H. split; [done|].
  destruct d as [|c' d]; [injection H as <-; split; [done|]; split; [exact Hlim|]; by intros _ ? ? [=]|].
  destruct (bool_decide (c = "0"%char) && negb z) eqn:Ez; [done|]. injection H as <-. split; [done|]. split; [done|].
  intros -> ? ? [= -> _ _]. by rewrite bool_decide_true in Ez.
Qed.
Lemma read_octet_spec l x r : read_octet l = Some (x, r) -> x < 256 /\ l = text (pretty x) ++ r.
Proof.
  unfold read_octet, read_number. destruct (digits l) as [d s] eqn:E. destruct (number _ _ _ d) as [n|] eqn:En; cbn; [|done].
  intros [= <- <-]. apply digits_spec in E as [-> Hd]. apply number_some in En as (Hn & -> & Hl & Hz). split; [lia|].
  destruct (digits_denote d Hd Hn) as [[|k] Hk]; [cbn in Hk; by rewrite <- Hk|].
  exfalso. cbn in Hk. destruct (repeat "0"%char k ++ text (pretty (decval 0 d))) as [|c q] eqn:Eq.
  - apply app_nil in Eq as [_ Eq]. by apply pretty_nonempty in Eq.
  - by apply (Hz eq_refl c q).
Qed.
Lemma read_port_spec l x r : read_port l = Some (x, r) -> x < 65536 /\ exists n, l = repeat "0"%char n ++ text (pretty x) ++ r.
Proof.
  unfold read_port, read_number. destruct (digits l) as [d s] eqn:E. destruct (number _ _ _ d) as [n|] eqn:En; cbn; [|done].
  intros [= <- <-]. apply digits_spec in E as [-> Hd]. apply number_some in En as (Hn & -> & Hl & _). split; [lia|].
  destruct (digits_denote d Hd Hn) as [k Hk]. exists k. rewrite app_assoc. by rewrite <- Hk.
Qed.
Lemma read_char_spec c l r : read_char c l = Some r -> l = c :: r.
Proof. destruct l as [|d l]; cbn; [done|]. case_decide; [|done]. by intros [= <-]; subst. Qed.
Lemma decval_zeros n l : decval 0 (repeat "0"%char n ++ l) = decval 0 l.
Proof. induction n as [|n IH]; [done|]. exact IH. Qed.
Lemma zeros_digits n : Forall digit (repeat "0"%char n).
Proof. induction n; constructor; [done|done]. Qed.
Lemma number_zeros n x : x < 65536 -> number 65535 None true (repeat "0"%char n ++ text (pretty x)) = Some x.
Proof.
  intros Hx. unfold number. rewrite decval_zeros, decval_pretty. rewrite (proj2 (N.ltb_ge _ _)) by lia.
  destruct (repeat "0"%char n ++ text (pretty x)) as [|c l] eqn:E; [apply app_nil in E as [_ E]; by apply pretty_nonempty in E|].
  destruct l; cbn; [done|]. by rewrite andb_false_r.
Qed.
Lemma octets4 a b c d : a < 256 -> b < 256 -> c < 256 -> d < 256 ->
  let ip := ((a * 256 + b) * 256 + c) * 256 + d in ip < 2 ^ 32 /\ octet 3 ip = a /\ octet 2 ip = b /\ octet 1 ip = c /\ octet 0 ip = d.
Proof.
  intros Ha Hb Hc Hd. cbn zeta. unfold octet. rewrite !N.shiftr_div_pow2.
  change (2 ^ (8 * 0)) with 1. change (2 ^ (8 * 1)) with 256. change (2 ^ (8 * 2)) with 65536. change (2 ^ (8 * 3)) with 16777216. change (2 ^ 32) with 4294967296.
  assert (forall k x y, y < k -> (x * k + y) / k = x) as Hdiv by (intros k x y Hy; rewrite N.div_add_l, N.div_small by lia; lia).
  assert (forall x y, y < 256 -> (x * 256 + y) mod 256 = y) as Hmod by (intros x y Hy; rewrite N.add_comm, N.mod_add by lia; by apply N.mod_small).
  split; [lia|].
  replace (((a * 256 + b) * 256 + c) * 256 + d) with (a * 16777216 + (b * 65536 + c * 256 + d)) at 1 by lia. rewrite Hdiv by lia.
  replace (((a * 256 + b) * 256 + c) * 256 + d) with ((a * 256 + b) * 65536 + (c * 256 + d)) at 1 by lia. rewrite Hdiv by lia. rewrite (Hdiv 256), N.div_1_r by lia.
  rewrite !Hmod by lia. split; [apply N.mod_small; lia|]. done.
Qed.
Lemma read_ip4_spec l ip r : read_ip4 l = Some (ip, r) -> ip < 2 ^ 32 /\ l = text (show_ip4 ip) ++ r.
Proof.
  unfold read_ip4. intros H.
  destruct (read_octet l) as [[a1 l1]|] eqn:E1; cbn in H; [|done]. destruct (read_char "." l1) as [m1|] eqn:F1; cbn in H; [|done].
  destruct (read_octet m1) as [[a2 l2]|] eqn:E2; cbn in H; [|done]. destruct (read_char "." l2) as [m2|] eqn:F2; cbn in H; [|done].
  destruct (read_octet m2) as [[a3 l3]|] eqn:E3; cbn in H; [|done]. destruct (read_char "." l3) as [m3|] eqn:F3; cbn in H; [|done].
  destruct (read_octet m3) as [[a4 l4]|] eqn:E4; cbn in H; [|done]. injection H as <- <-.
  apply read_octet_spec in E1 as [B1 E1], E2 as [B2 E2], E3 as [B3 E3], E4 as [B4 E4]. apply read_char_spec in F1, F2, F3.
  destruct (octets4 a1 a2 a3 a4 B1 B2 B3 B4) as (Hip & O3 & O2 & O1 & O0). split; [exact Hip|].
  rewrite show_ip4_shape, O3, O2, O1, O0. rewrite E1, F1, E2, F2, E3, F3, E4. repeat (progress (rewrite <- ?app_assoc; cbn [app])). done.
Qed.
(** The texts of IPv4 socket addresses: the address as it is printed, a colon, and the port, which may have zeros in front. *)
Theorem C99_ipv4_texts s a :
  parse4 s = Some a <->
  exists ip port zeros, ip < 2 ^ 32 /\ port < 65536 /\ a = SA4 ip port /\
    text s = text (show_ip4 ip) ++ ":"%char :: repeat "0"%char zeros ++ text (pretty port).
Proof.
  split.
  - unfold parse4. intros H.
    destruct (read_ip4 (text s)) as [[ip l1]|] eqn:E1; cbn in H; [|done]. destruct (read_char ":" l1) as [m1|] eqn:F1; cbn in H; [|done].
    destruct (read_port m1) as [[p l2]|] eqn:E2; cbn in H; [|done]. destruct l2; [|done]. injection H as <-.
    apply read_ip4_spec in E1 as [B1 E1]. apply read_char_spec in F1. apply read_port_spec in E2 as (B2 & n & E2).
    exists ip, p, n. split_and!; try done. rewrite app_nil_r in E2. by rewrite E1, F1, E2.
  - intros (ip & port & n & Hi & Hp & -> & Hs). unfold parse4. rewrite Hs.
    rewrite read_ip4_app by (done || apply colon_not_digit). cbn [mbind option_bind]. rewrite read_char_here. cbn [mbind option_bind].
    unfold read_port, read_number. rewrite digits_all by (apply Forall_app; split; [apply zeros_digits|apply pretty_digits]). cbn [mbind option_bind].
    by rewrite number_zeros.
Qed.
Print Assumptions C99_ipv4_texts.
(** Without zeros in front of the port, every address has one text. *)
Theorem C99_ipv4_text_back s ip port :
  parse4 s = Some (SA4 ip port) -> exists zeros, text s = text (show_ip4 ip) ++ ":"%char :: repeat "0"%char zeros ++ text (pretty port).
Proof. intros H. apply C99_ipv4_texts in H as (ip' & port' & n & _ & _ & [= -> ->] & H). by exists n. Qed.
Print Assumptions C99_ipv4_text_back.
(** *** IPv6 *)
Lemma hex_char_value_hex c n : hex_char_value c n -> is_hex c = true /\ hex_of c = N.of_nat n.
Proof. intros [H|H]; do 16 (destruct n as [|n]; [injection H as <-; split; reflexivity|]); discriminate H. Qed.
Lemma hex_value_exists c : is_hex c = true -> hex_char_value c (N.to_nat (hex_of c)).
Proof.
  unfold hex_char_value. destruct c as [[] [] [] [] [] [] [] []]; vm_compute; intros H; try discriminate H; auto.
Qed.
Lemma hexnum_values d ns : Forall2 hex_char_value d ns -> forall a, hexnum a d = fold_left (fun a n => 16 * a + N.of_nat n) ns a.
Proof.
  induction 1 as [|c n d ns Hc Hd IH]; intros a; cbn [hexnum fold_left]; [done|].
  apply hex_char_value_hex in Hc as [_ ->]. rewrite IH. f_equal. lia.
Qed.
Lemma group_text_hex x d : group_text x d <-> Forall (fun c => is_hex c = true) d /\ (1 <= length d <= 4)%nat /\ x = hexnum 0 d.
Proof.
  split.
  - intros (Hl & ns & Hd & ->). split; [|split; [done|by rewrite (hexnum_values _ _ Hd)]].
    clear Hl. induction Hd as [|c n d ns Hc Hd IH]; [apply List.Forall_nil|constructor; [exact (proj1 (hex_char_value_hex _ _ Hc))|exact IH]].
  - intros (Hh & Hl & ->). split; [done|]. exists (map (fun c => N.to_nat (hex_of c)) d).
    assert (Forall2 hex_char_value d (map (fun c => N.to_nat (hex_of c)) d)) as Hd.
    { clear Hl. induction Hh as [|c d Hc Hd IH]; cbn [map]; [constructor|constructor; [by apply hex_value_exists|done]]. }
    split; [done|]. by apply hexnum_values.
Qed.
Lemma hex_not c : is_hex c = true -> c <> "."%char /\ c <> ":"%char.
Proof. intros H. split; intros ->; discriminate H. Qed.
Lemma group_text_read x d c r : group_text x d -> is_hex c = false -> read_group (d ++ c :: r) = Some (x, c :: r).
Proof.
  intros (Hh & Hl & ->)%group_text_hex Hc. unfold read_group. rewrite hex_digits_app by done. cbv iota.
  destruct d as [|a l]; [cbn in Hl; lia|]. rewrite (proj2 (Nat.ltb_ge _ _)) by lia. done.
Qed.
Lemma group_text_not_ip4 x d c r : group_text x d -> ~ digit c -> c <> "."%char -> read_ip4 (d ++ c :: r) = None.
Proof.
  intros (Hh & _)%group_text_hex Hc Hd. unfold read_ip4, read_octet, read_number.
  destruct (digits_stop d c r) as (a & e & s & -> & He); [|done|done|].
  - eapply Forall_impl; [exact Hh|]. intros y Hy. by apply hex_not in Hy as [? _].
  - destruct (number _ _ _ a); cbn; [|done]. by rewrite decide_False.
Qed.
Lemma groups_text_nonempty gs v4 l : groups_text gs v4 l -> (1 <= length gs)%nat.
Proof. induction 1; cbn; lia. Qed.
Lemma groups_text_read gs v4 l : groups_text gs v4 l -> forall k (first : bool) c r, (length gs <= k)%nat -> is_hex c = false -> c <> "."%char -> stops (c :: r) ->
  read_groups k first ((if first then [] else [":"%char]) ++ l ++ c :: r) = (gs, v4, c :: r).
Proof.
  induction 1 as [x d Hx|a Ha|x d gs v4 l Hx Hl IH]; intros k first c r Hk Hc Hd Hs; (destruct k as [|k]; [cbn in Hk; lia|]).
  - erewrite groups_step; [by rewrite (Hs k)| |].
    + destruct first; cbn [separated app read_char mbind option_bind]; rewrite ?decide_True by done; cbn [mbind option_bind]; eapply group_text_not_ip4; eauto using not_hex_not_digit.
    + destruct first; cbn [separated app read_char mbind option_bind]; rewrite ?decide_True by done; cbn [mbind option_bind]; by apply group_text_read.
  - cbn [read_groups]. destruct (Nat.eqb_spec k 0) as [->|_]; [cbn in Hk; lia|].
    assert (separated first read_ip4 ((if first then [] else [":"%char]) ++ text (show_ip4 a) ++ c :: r) = Some (a, c :: r)) as ->; [|done].
    destruct first; cbn [separated app read_char mbind option_bind]; rewrite ?decide_True by done; cbn [mbind option_bind]; apply read_ip4_app; auto using not_hex_not_digit.
  - rewrite <- app_assoc. cbn [app].
    erewrite groups_step; [rewrite (IH k false c r); [reflexivity|cbn in *; lia|done|done|done]| |].
    + destruct first; cbn [separated app read_char mbind option_bind]; rewrite ?decide_True by done; cbn [mbind option_bind]; eapply group_text_not_ip4; eauto using colon_not_digit.
    + destruct first; cbn [separated app read_char mbind option_bind]; rewrite ?decide_True by done; cbn [mbind option_bind]; by apply group_text_read.
Qed.
Lemma hex_digits_spec l d r : hex_digits l = (d, r) -> l = d ++ r /\ Forall (fun c => is_hex c = true) d.
Proof.
  revert d r. induction l as [|c l IH]; intros d r; cbn; [intros [= <- <-]; auto|].
  destruct (is_hex c) eqn:E; [|intros [= <- <-]; auto].
  destruct (hex_digits l) as [d' s] eqn:El. intros [= <- <-]. destruct (IH _ _ eq_refl) as [-> Hd]. split; [done|]. by constructor.
Qed.
Lemma read_group_spec l x r : read_group l = Some (x, r) -> exists d, group_text x d /\ l = d ++ r.
Proof.
  unfold read_group. destruct (hex_digits l) as [d s] eqn:E. apply hex_digits_spec in E as [-> Hd].
  destruct d as [|c d]; [done|]. cbn [orb]. destruct (Nat.ltb_spec 4 (length (c :: d))) as [|Hl]; [done|]. intros [= <- <-].
  exists (c :: d). split; [|done]. apply group_text_hex. split; [done|]. split; [cbn in *; lia|done].
Qed.
Lemma separated_spec first p l x : separated first p l = Some x -> exists l', l = (if first then [] else [":"%char]) ++ l' /\ p l' = Some x.
Proof.
  destruct first; cbn [separated]; [intros H; by exists l|]. destruct (read_char ":" l) as [l'|] eqn:E; cbn; [|done].
  apply read_char_spec in E as ->. intros H. by exists l'.
Qed.
Lemma read_groups_spec k : forall first l gs v4 r, read_groups k first l = (gs, v4, r) ->
  (length gs <= k)%nat /\ (gs = [] /\ v4 = false /\ r = l \/ exists t, groups_text gs v4 t /\ l = (if first then [] else [":"%char]) ++ t ++ r).
Proof.
  induction k as [|k IH]; intros first l gs v4 r; cbn [read_groups].
  - intros [= <- <- <-]. split; [cbn; lia|]. by left.
  - destruct (if Nat.eqb k 0 then None else separated first read_ip4 l) as [[a s]|] eqn:E4.
    + destruct (Nat.eqb_spec k 0) as [|Hk]; [done|]. intros [= <- <- <-]. split; [cbn; lia|]. right.
      apply separated_spec in E4 as (l' & -> & E4). apply read_ip4_spec in E4 as [Ha ->]. exists (text (show_ip4 a)). split; [by constructor|done].
    + clear E4. destruct (separated first read_group l) as [[x s]|] eqn:E6.
      * destruct (read_groups k false s) as [[gs' v'] r'] eqn:Er. intros [= <- <- <-].
        apply separated_spec in E6 as (l' & -> & E6). apply read_group_spec in E6 as (d & Hd & ->).
        destruct (IH _ _ _ _ _ Er) as [Hl [(-> & -> & ->)|(t & Ht & ->)]].
        -- split; [cbn; lia|]. right. exists d. split; [by constructor|done].
        -- split; [cbn; lia|]. right. exists (d ++ ":"%char :: t). split; [by constructor|]. repeat (progress (rewrite <- ?app_assoc; cbn [app])). done.
      * intros [= <- <- <-]. split; [cbn; lia|]. by left.
Qed.
Lemma maybe_read k gs v4 l c r : maybe_groups gs v4 l -> (length gs <= k)%nat -> is_hex c = false -> c <> "."%char -> stops (c :: r) ->
  read_groups k true (l ++ c :: r) = (gs, v4, c :: r).
Proof.
  intros [(-> & -> & ->)|H] Hk Hc Hd Hs; [by apply groups_none|]. by apply (groups_text_read gs v4 l H k true).
Qed.
Lemma maybe_spec k l gs v4 r : read_groups k true l = (gs, v4, r) -> (length gs <= k)%nat /\ exists t, maybe_groups gs v4 t /\ l = t ++ r.
Proof.
  intros H. apply read_groups_spec in H as [Hl [(-> & -> & ->)|(t & Ht & ->)]]; (split; [done|]).
  - exists []. split; [by left|done].
  - exists t. split; [by right|done].
Qed.
Lemma read_ip6_text ip t c r : ip6_text ip t -> is_hex c = false -> c <> "."%char -> c <> ":"%char -> read_ip6 (t ++ c :: r) = Some (ip, c :: r).
Proof.
  intros Ht Hc Hd Hco. unfold read_ip6. destruct Ht as [gs v4 l Hg H8|pre post v4 a b Ha Hb Hl].
  - rewrite (maybe_read 8 gs v4 l c r); [|by right|lia|done|done|by apply stops_other]. by rewrite H8.
  - rewrite <- app_assoc. cbn [app].
    rewrite (maybe_read 8 pre false a); [|done|lia|done|done|apply stops_colons].
    destruct (Nat.eqb_spec (length pre) 8) as [E8|_]; [lia|]. rewrite read_char_here. cbn [mbind option_bind]. rewrite read_char_here. cbn [mbind option_bind].
    rewrite (maybe_read _ post v4 b); [done|done|lia|done|done|by apply stops_other].
Qed.
Lemma read_ip6_spec l ip r : read_ip6 l = Some (ip, r) -> exists t, ip6_text ip t /\ l = t ++ r.
Proof.
  unfold read_ip6. destruct (read_groups 8 true l) as [[pre v4] l1] eqn:E1. apply maybe_spec in E1 as [H1 (a & Ha & ->)].
  destruct (Nat.eqb_spec (length pre) 8) as [E8|E8].
  - intros [= <- <-]. exists a. split; [|done]. destruct Ha as [(-> & _)|Ha]; [done|]. by eapply whole.
  - destruct v4; [done|]. destruct (read_char ":" l1) as [l2|] eqn:F1; cbn; [|done]. destruct (read_char ":" l2) as [l3|] eqn:F2; cbn; [|done].
    destruct (read_groups _ true l3) as [[post v4] l4] eqn:E2. apply maybe_spec in E2 as [H2 (b & Hb & ->)]. intros [= <- <-].
    apply read_char_spec in F1 as ->, F2 as ->. exists (a ++ ":"%char :: ":"%char :: b). split; [|by rewrite <- !app_assoc].
    econstructor; [done|done|lia].
Qed.
Lemma read_scope_spec l scope r : read_scope l = (scope, r) -> exists t, scope_text scope t /\ l = t ++ r.
Proof.
  unfold read_scope. destruct (read_char "%" l) as [l1|] eqn:E; cbn [mbind option_bind].
  - destruct (read_number _ None true l1) as [[x l2]|] eqn:En.
    + intros [= <- <-]. apply read_char_spec in E as ->. unfold read_number in En. destruct (digits l1) as [d s] eqn:Ed.
      destruct (number _ _ _ d) as [n|] eqn:Enn; cbn in En; [|done]. injection En as <- <-. apply digits_spec in Ed as [-> Hd].
      apply number_some in Enn as (Hn & -> & Hl & _). destruct (digits_denote d Hd Hn) as [z Hz].
      exists ("%"%char :: d). split; [|done]. right. split; [lia|]. exists z. by rewrite <- Hz.
    + intros [= <- <-]. exists []. split; [by left|done].
  - intros [= <- <-]. exists []. split; [by left|done].
Qed.
Lemma number_zeros_any limit n x : x <= limit -> number limit None true (repeat "0"%char n ++ text (pretty x)) = Some x.
Proof.
  intros Hx. unfold number. rewrite decval_zeros, decval_pretty. rewrite (proj2 (N.ltb_ge _ _)) by lia.
  destruct (repeat "0"%char n ++ text (pretty x)) as [|c l] eqn:E; [apply app_nil in E as [_ E]; by apply pretty_nonempty in E|].
  destruct l; cbn; [done|]. by rewrite andb_false_r.
Qed.
Lemma read_scope_text scope t r : scope_text scope t -> read_scope (t ++ "]"%char :: r) = (scope, "]"%char :: r).
Proof.
  intros [[-> ->]|(Hs & n & ->)]; [done|]. unfold read_scope. cbn [app]. rewrite read_char_here. cbn [mbind option_bind]. unfold read_number.
  rewrite digits_app; [|apply Forall_app; split; [apply zeros_digits|apply pretty_digits]|intros [A B]; vm_compute in A, B; congruence].
  rewrite number_zeros_any by lia. done.
Qed.
(** The texts of IPv6 socket addresses. *)
Theorem C99_ipv6_texts s a :
  parse6 s = Some a <->
  exists ip port scope zeros t u, ip6_text ip t /\ scope_text scope u /\ port < 65536 /\ a = SA6 ip port 0 scope /\
    text s = "["%char :: t ++ u ++ "]"%char :: ":"%char :: repeat "0"%char zeros ++ text (pretty port).
Proof.
  split.
  - unfold parse6. intros H.
    destruct (read_char "[" (text s)) as [l0|] eqn:F0; cbn in H; [|done]. destruct (read_ip6 l0) as [[ip l1]|] eqn:E1; cbn in H; [|done].
    destruct (read_scope l1) as [scope l2] eqn:E2. destruct (read_char "]" l2) as [l3|] eqn:F3; cbn in H; [|done].
    destruct (read_char ":" l3) as [l4|] eqn:F4; cbn in H; [|done]. destruct (read_port l4) as [[p l5]|] eqn:E5; cbn in H; [|done].
    destruct l5; [|done]. injection H as <-. apply read_char_spec in F0, F3, F4. apply read_ip6_spec in E1 as (t & Ht & ->).
    apply read_scope_spec in E2 as (u & Hu & ->). apply read_port_spec in E5 as (Hp & n & E5). rewrite app_nil_r in E5.
    exists ip, p, scope, n, t, u. split_and!; try done. by rewrite F0, F3, F4, E5.
  - intros (ip & port & scope & n & t & u & Ht & Hu & Hp & -> & Hs). unfold parse6. rewrite Hs. rewrite read_char_here. cbn [mbind option_bind].
    assert (exists c r, u ++ "]"%char :: ":"%char :: repeat "0"%char n ++ text (pretty port) = c :: r /\ is_hex c = false /\ c <> "."%char /\ c <> ":"%char) as (c & r & E & H1 & H2 & H3).
    { destruct Hu as [[_ ->]|(_ & z & ->)]; eexists _, _; (split; [reflexivity|]); done. }
    rewrite E, (read_ip6_text ip t c r Ht H1 H2 H3). cbn [mbind option_bind]. rewrite <- E, (read_scope_text scope u _ Hu). cbv iota beta.
    rewrite read_char_here. cbn [mbind option_bind]. rewrite read_char_here. cbn [mbind option_bind].
    unfold read_port, read_number. rewrite digits_all by (apply Forall_app; split; [apply zeros_digits|apply pretty_digits]). cbn [mbind option_bind].
    by rewrite number_zeros.
Qed.
Print Assumptions C99_ipv6_texts.

(** The two descriptions of a node agree - except that a name with an '@' cannot be written as text. *)
Definition C99_every_node_statement : Prop :=
  forall name addr, an_address addr -> node_is (node_of (name, addr)) (node_text name addr) = true.
Theorem C99_every_node_partial name addr :
  an_address addr -> ~ has_at name ->
  node_is (node_of (name, addr)) (node_text name addr) = true.
Proof. intros Ha Hn. apply C99_equality_is_reading. by apply C99_text_is_read. Qed.
Print Assumptions C99_every_node_partial.
Theorem C99_every_node_refuted : ~ C99_every_node_statement.
Proof.
  intros H. specialize (H "a@b"%string (SA4 2130706433 1337) ltac:(split; reflexivity)).
  apply C99_equality_is_reading, C99_read in H as [Hn _]. apply Hn. by exists "a"%string, "b"%string.
Qed.
Print Assumptions C99_every_node_refuted.

(** *** The printed IPv6 text *)
(** The first of the longest runs of zero groups. *)
Definition first_longest (g : list N) (s n : nat) : Prop :=
  zeros g s n /\ forall s' n', zeros g s' n' -> (n' <= n)%nat /\ (n' = n -> (s <= s')%nat).
Lemma zero_run_longest g : forall l i start len best, drop i g = l -> (i <= length g)%nat ->
  (len = 0%nat \/ (start + len = i)%nat) -> (fst best + snd best <= i)%nat ->
  (forall s' n', zeros g s' n' -> (s' + n' = i)%nat -> (n' <= len)%nat) ->
  (forall s' n', zeros g s' n' -> (s' + n' <= i)%nat -> (1 <= n')%nat -> (n' < snd best)%nat \/ n' = snd best /\ (fst best <= s')%nat) ->
  forall s' n', zeros g s' n' -> (1 <= n')%nat ->
  (n' < snd (zero_run i start len best l))%nat \/ n' = snd (zero_run i start len best l) /\ (fst (zero_run i start len best l) <= s')%nat.
Proof.
  induction l as [|x l IH]; intros i start len best Hd Hi Hc Hb Hcur Hbest s' n' Hz Hn.
  - cbn [zero_run]. apply Hbest; [done| |done]. apply (f_equal length) in Hd. rewrite drop_length in Hd. cbn in Hd. destruct Hz as [Hl _]. lia.
  - cbn [zero_run].
    assert (g !! i = Some x) as Hx. { rewrite <- (Nat.add_0_r i), <- lookup_drop, Hd. done. }
    assert (drop (Datatypes.S i) g = l) as Hd'. { rewrite <- Nat.add_1_r, <- drop_drop, Hd. done. }
    apply lookup_lt_Some in Hx as Hlt.
    assert (forall u m, zeros g u m -> (u + m = Datatypes.S i)%nat -> (1 <= m)%nat -> x = 0 /\ (m <= Datatypes.S len)%nat) as Hend.
    { intros u m [Hl Hm] E H1. split; [|].
      - assert (g !! i = Some 0) as H0 by (apply Hm; lia). congruence.
      - assert ((m - 1 <= len)%nat); [|lia]. apply (Hcur u); [|lia]. split; [lia|]. intros k Hk. apply Hm. lia. }
    destruct (N.eqb_spec x 0) as [->|Hne].
    + set (st := if Nat.eqb len 0 then i else start).
      assert ((st + Datatypes.S len = Datatypes.S i)%nat) as Hst. { unfold st. destruct (Nat.eqb_spec len 0); lia. }
      apply IH; auto; try lia.
      * destruct (Nat.ltb_spec (snd best) (Datatypes.S len)); cbn; lia.
      * intros u m Hu E. destruct (decide (1 <= m)%nat); [|lia]. by apply (Hend u).
      * intros u m Hu E H1. destruct (decide (u + m = Datatypes.S i)%nat) as [E'|E'].
        -- destruct (Hend u m Hu E' H1) as [_ Hm]. destruct (Nat.ltb_spec (snd best) (Datatypes.S len)); cbn [fst snd]; lia.
        -- destruct (Hbest u m Hu ltac:(lia) H1); destruct (Nat.ltb_spec (snd best) (Datatypes.S len)); cbn [fst snd]; lia.
    + apply IH; auto; try lia.
      * intros u m Hu E. destruct (decide (1 <= m)%nat); [|lia]. by destruct (Hend u m Hu E ltac:(done)).
      * intros u m Hu E H1. destruct (decide (u + m = Datatypes.S i)%nat) as [E'|E']; [by destruct (Hend u m Hu E' H1)|]. apply Hbest; [done|lia|done].
Qed.
(** The text of an IPv6 address that is not an IPv4 one in disguise: the eight groups, or, when two zero groups stand
    next to each other, "::" for the first of the longest runs of them (RFC 5952, 4.2). *)
Theorem C99_ipv6_canonical ip :
  N.shiftr ip 32 <> 0xffff ->
  (forall s, ~ zeros (groups6 ip) s 2) /\ text (show_ip6 ip) = text (show_groups (groups6 ip)) \/
  exists s n, (2 <= n)%nat /\ first_longest (groups6 ip) s n /\
    text (show_ip6 ip) = text (show_groups (take s (groups6 ip))) ++ ":"%char :: ":"%char :: text (show_groups (drop (s + n) (groups6 ip))).
Proof.
  intros H. destruct (zero_run 0 0 0 (0, 0)%nat (groups6 ip)) as [s n] eqn:E.
  pose proof (zero_run_longest (groups6 ip) (groups6 ip) 0 0 0 (0, 0)%nat eq_refl ltac:(lia) ltac:(by left) ltac:(cbn; lia)
    ltac:(intros; lia) ltac:(intros; lia)) as Hlong. rewrite E in Hlong. cbn [fst snd] in Hlong.
  pose proof (zero_run_groups ip s n E) as Hz.
  assert (show_ip6 ip = if Nat.ltb 1 n then show_groups (take s (groups6 ip)) +:+ "::" +:+ show_groups (drop (s + n) (groups6 ip)) else show_groups (groups6 ip)) as ->.
  { unfold show_ip6. rewrite (proj2 (N.eqb_neq _ _) H). cbv zeta. by rewrite E. }
  destruct (Nat.ltb_spec 1 n) as [Hn|Hn].
  - right. exists s, n. split; [lia|]. split; [|by rewrite !text_app]. split; [done|]. intros s' n' Hz'.
    destruct (decide (1 <= n')%nat) as [H1|]; [destruct (Hlong s' n' Hz' H1); lia|lia].
  - left. split; [|done]. intros s' Hz'. destruct (Hlong s' 2%nat Hz' ltac:(lia)); lia.
Qed.
Print Assumptions C99_ipv6_canonical.
(** Each case happens. *)
Example C99_ipv6_canonical_example :
  show_ip6 1 = "::1" /\ show_ip6 (of_groups [1; 0; 0; 4; 5; 0; 0; 8]) = "1::4:5:0:0:8" /\
  show_ip6 (of_groups [1; 0; 0; 4; 0; 0; 0; 8]) = "1:0:0:4::8" /\ show_ip6 (of_groups [1; 0; 3; 4; 5; 6; 7; 8]) = "1:0:3:4:5:6:7:8".
Proof. repeat split. Qed.

(** Not vacuous. *)
Example C99_example :
  node_from "hydra-main@127.0.0.1:1337" = Some (NRemote "hydra-main" (SA4 2130706433 1337)) /\
  node_is (NRemote "hydra-main" (SA4 2130706433 1337)) "hydra-main@127.0.0.1:01337" = true /\
  parse4 "127.0.0.01:1" = None /\ parse4 "127.0.0.256:1" = None /\ parse4 "127.0.0.1:65536" = None /\
  parse4 "127.0.0.1:80 " = None /\ node_from "nonode" = None /\
  parse6 "[::1]:80" = Some (SA6 1 80 0 0) /\ parse6 "[fE80::Ab:1.2.3.4%007]:080" = Some (SA6 338288524927261089654018897575804011268 80 0 7) /\
  parse6 "[1:2:3:4:5:6:7::]:1" = Some (SA6 5192455318486707404433266433261568 1 0 0) /\ parse6 "[1:2:3:4:5:6:7:8::]:1" = None /\
  parse6 "[1.2.3.4::]:1" = None /\ parse6 "[12345::]:1" = None /\ parse6 "[::%4294967296]:1" = None /\ parse6 "[::g]:1" = None /\ parse6 "::1:80" = None /\
  ~ has_at "hydra-main" /\ an_address (SA4 2130706433 1337).
Proof.
  repeat split; try reflexivity. intros (x & y & E). by apply (split_none "@" "hydra-main" eq_refl x y).
Qed.
