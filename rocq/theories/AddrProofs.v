(** The text of an IPv6 address determines it (up to the flow label, which is not printed). *)
From stdpp Require Import base list gmap numbers strings pretty.
From Coq Require Import Ascii Lia.
From Verif Require Import Types Sha Hello HelloProofs.
Local Open Scope N_scope.

(** ** Groups *)
Definition unhex (c : ascii) : N := if N_of_ascii c <? 58 then N_of_ascii c - 48 else N_of_ascii c - 87.
Fixpoint hexval (acc : N) (l : bytes) : N := match l with [] => acc | c :: r => hexval (acc * 16 + unhex c) r end.
Ltac sixteen d H :=
  assert (d = 0 \/ d = 1 \/ d = 2 \/ d = 3 \/ d = 4 \/ d = 5 \/ d = 6 \/ d = 7 \/ d = 8 \/ d = 9 \/ d = 10 \/ d = 11 \/ d = 12 \/ d = 13 \/ d = 14 \/ d = 15) as Hx by lia;
  repeat (destruct Hx as [-> | Hx]); try subst d.
Lemma unhex_hex d : d < 16 -> unhex (hex_char d) = d.
Proof. intros H. sixteen d H; reflexivity. Qed.
Lemma hex_char_not d : d < 16 -> hex_char d <> ":"%char /\ hex_char d <> "."%char /\ hex_char d <> "%"%char.
Proof. intros H. sixteen d H; done. Qed.
Lemma digits16 x : x < 65536 -> x = ((x / 4096 * 16 + x / 256 mod 16) * 16 + x / 16 mod 16) * 16 + x mod 16.
Proof.
  intros H. pose proof (N.div_mod x 16 ltac:(lia)). pose proof (N.div_mod (x / 16) 16 ltac:(lia)) as H2. pose proof (N.div_mod (x / 256) 16 ltac:(lia)) as H3.
  rewrite N.div_div in H2 by lia. rewrite N.div_div in H3 by lia. change (16 * 16) with 256 in H2. change (256 * 16) with 4096 in H3. lia.
Qed.
Lemma hexval_group x : x < 65536 -> hexval 0 (text (show_group x)) = x.
Proof.
  intros H. pose proof (digits16 x H) as E. unfold show_group. cbv zeta.
  assert (x / 4096 < 16) as B3 by (apply N.div_lt_upper_bound; lia). assert (x / 256 mod 16 < 16) as B2 by (apply N.mod_lt; lia).
  assert (x / 16 mod 16 < 16) as B1 by (apply N.mod_lt; lia). assert (x mod 16 < 16) as B0 by (apply N.mod_lt; lia).
  destruct (N.eqb_spec (x / 4096) 0), (N.eqb_spec (x / 256 mod 16) 0), (N.eqb_spec (x / 16 mod 16) 0);
    cbn [text String.list_ascii_of_string hexval]; rewrite !unhex_hex by done; lia.
Qed.
Lemma group_chars x : x < 65536 -> Forall (fun c => c <> ":"%char /\ c <> "."%char /\ c <> "%"%char) (text (show_group x)) /\ text (show_group x) <> [].
Proof.
  intros H. unfold show_group. cbv zeta.
  assert (x / 4096 < 16) as B3 by (apply N.div_lt_upper_bound; lia). assert (x / 256 mod 16 < 16) as B2 by (apply N.mod_lt; lia).
  assert (x / 16 mod 16 < 16) as B1 by (apply N.mod_lt; lia). assert (x mod 16 < 16) as B0 by (apply N.mod_lt; lia).
  destruct (x / 4096 =? 0), (x / 256 mod 16 =? 0), (x / 16 mod 16 =? 0); cbn [text String.list_ascii_of_string]; (split; [|done]);
    repeat (constructor; [by apply hex_char_not|]); constructor.
Qed.

(** ** Joining and splitting at colons *)
Fixpoint pieces (l : bytes) : list bytes :=
  match l with
  | [] => [[]]
  | c :: r => if decide (c = ":"%char) then [] :: pieces r else match pieces r with p :: ps => (c :: p) :: ps | [] => [] end
  end.
Lemma pieces_ne l : pieces l <> [].
Proof. induction l as [|c l IH]; [done|]. cbn. case_decide; [done|]. by destruct (pieces l). Qed.
Lemma pieces_app (x y : bytes) : ":"%char ∉ x -> pieces (x ++ ":"%char :: y) = x :: pieces y.
Proof.
  induction x as [|c x IH]; intros H; cbn.
  - done.
  - apply not_elem_of_cons in H as [H1 H2]. rewrite decide_False by done. by rewrite IH.
Qed.
Lemma pieces_one (x : bytes) : ":"%char ∉ x -> pieces x = [x].
Proof.
  induction x as [|c x IH]; intros H; cbn; [done|]. apply not_elem_of_cons in H as [H1 H2]. rewrite decide_False by done. by rewrite IH.
Qed.
Lemma nocolon_group x : x < 65536 -> ":"%char ∉ text (show_group x).
Proof. intros H Hi. destruct (group_chars x H) as [Hf _]. rewrite Forall_forall in Hf. destruct (Hf _ Hi) as [Hc _]. done. Qed.
Definition shown (l : list N) : list bytes := map (fun x => text (show_group x)) l.
Lemma text_groups x y l : text (show_groups (x :: y :: l)) = text (show_group x) ++ ":"%char :: text (show_groups (y :: l)).
Proof. unfold show_groups. cbn [map String.concat]. by rewrite !text_app. Qed.
Lemma pieces_groups l : Forall (fun x => x < 65536) l -> l <> [] -> pieces (text (show_groups l)) = shown l.
Proof.
  induction 1 as [|x l Hx Hl IH]; [done|]. intros _. destruct l as [|y l].
  - cbn. by apply pieces_one, nocolon_group.
  - rewrite text_groups, pieces_app by (by apply nocolon_group). by rewrite IH.
Qed.
Lemma pieces_groups_app l r : Forall (fun x => x < 65536) l -> l <> [] -> pieces (text (show_groups l) ++ ":"%char :: r) = shown l ++ pieces r.
Proof.
  induction 1 as [|x l Hx Hl IH]; [done|]. intros _. destruct l as [|y l].
  - cbn. by apply pieces_app, nocolon_group.
  - rewrite text_groups, <- app_assoc. cbn [app]. rewrite pieces_app by (by apply nocolon_group). by rewrite IH.
Qed.
(** The pieces before the first and after the last empty one. *)
Fixpoint front (l : list bytes) : list bytes := match l with [] | [] :: _ => [] | p :: r => p :: front r end.
Lemma front_shown l r : Forall (fun x => x < 65536) l -> front (shown l ++ [] :: r) = shown l.
Proof.
  induction 1 as [|x l Hx Hl IH]; [done|]. cbn. destruct (group_chars x Hx) as [_ Hn]. destruct (text (show_group x)) eqn:E; [done|]. by f_equal.
Qed.
Lemma front_shown_all l : Forall (fun x => x < 65536) l -> front (shown l) = shown l.
Proof.
  induction 1 as [|x l Hx Hl IH]; [done|]. cbn. destruct (group_chars x Hx) as [_ Hn]. destruct (text (show_group x)) eqn:E; [done|]. by f_equal.
Qed.
Lemma shown_inj l l' : Forall (fun x => x < 65536) l -> Forall (fun x => x < 65536) l' -> shown l = shown l' -> l = l'.
Proof.
  intros H. revert l'. induction H as [|x l Hx Hl IH]; intros [|y l'] H' E; try done. cbn in E. injection E as E1 E2.
  inversion H'; subst. f_equal; [|by apply IH]. rewrite <- (hexval_group x), <- (hexval_group y) by done. by rewrite E1.
Qed.
Definition compressed (pre post : list N) : bytes := text (show_groups pre) ++ ":"%char :: ":"%char :: text (show_groups post).
Lemma pieces_tail post : Forall (fun x => x < 65536) post -> exists q, pieces (text (show_groups post)) = q /\ (q = shown post /\ post <> [] \/ post = [] /\ q = [[]]).
Proof. intros H. eexists. split; [reflexivity|]. destruct post as [|x post]; [by right|left]. split; [|done]. by apply pieces_groups. Qed.
Lemma pieces_compressed pre post : Forall (fun x => x < 65536) pre -> Forall (fun x => x < 65536) post ->
  exists a b, pieces (compressed pre post) = a ++ [] :: b /\ (a = shown pre \/ a = [[]] /\ pre = []) /\ (b = shown post \/ b = [[]] /\ post = []).
Proof.
  intros H1 H2. unfold compressed. destruct pre as [|x pre].
  - exists [[]], (pieces (text (show_groups post))). split; [reflexivity|]. split; [by right|].
    destruct post as [|y post]; [by right|left]. by apply pieces_groups.
  - exists (shown (x :: pre)), (pieces (text (show_groups post))). split; [|split; [by left|]].
    + by rewrite pieces_groups_app.
    + destruct post as [|y post]; [by right|left]. by apply pieces_groups.
Qed.
Lemma front_compressed pre post : Forall (fun x => x < 65536) pre -> Forall (fun x => x < 65536) post ->
  front (pieces (compressed pre post)) = shown pre /\ front (rev (pieces (compressed pre post))) = shown (rev post).
Proof.
  intros H1 H2. destruct (pieces_compressed pre post H1 H2) as (a & b & -> & Ha & Hb). split.
  - destruct Ha as [-> | [-> ->]]; [by apply front_shown|done].
  - rewrite rev_app_distr. cbn. rewrite <- app_assoc. destruct Hb as [-> | [-> ->]]; [|done]. cbn. unfold shown. rewrite <- map_rev. fold (shown (rev post)).
    apply front_shown. apply Forall_forall. intros x Hx. rewrite Forall_forall in H2. apply H2. by rewrite elem_of_list_In, in_rev, <- elem_of_list_In.
Qed.

(** ** The run of zeros *)
Definition zeros (g : list N) (s n : nat) : Prop := (s + n <= length g)%nat /\ forall k, (s <= k < s + n)%nat -> g !! k = Some 0.
Lemma zero_run_ok g : forall l i start len best, drop i g = l -> (i <= length g)%nat ->
  (len = 0%nat \/ (start + len = i)%nat /\ zeros g start len) -> zeros g (fst best) (snd best) ->
  zeros g (fst (zero_run i start len best l)) (snd (zero_run i start len best l)).
Proof.
  induction l as [|x l IH]; intros i start len best Hd Hi Hc Hb; [done|]. cbn [zero_run].
  assert (g !! i = Some x) as Hx. { rewrite <- (Nat.add_0_r i), <- lookup_drop, Hd. done. }
  assert (drop (S i) g = l) as Hd'. { rewrite <- Nat.add_1_r, <- drop_drop, Hd. done. }
  apply lookup_lt_Some in Hx as Hlt.
  destruct (N.eqb_spec x 0) as [->|]; [|apply IH; auto; lia].
  assert (zeros g (if Nat.eqb len 0 then i else start) (S len) /\ ((if Nat.eqb len 0 then i else start) + S len = S i)%nat) as [Hz Hs].
  { destruct (Nat.eqb_spec len 0) as [->|Hn].
    - split; [|lia]. split; [lia|]. intros k Hk. by replace k with i by lia.
    - destruct Hc as [|[Hs [Hl Hz]]]; [done|]. split; [|lia]. split; [lia|]. intros k Hk. destruct (decide (k = i)) as [->|]; [done|]. apply Hz. lia. }
  apply IH; [done|lia|right; by split|]. destruct (Nat.ltb _ _); [exact Hz|exact Hb].
Qed.
Lemma zero_run_groups ip s n : zero_run 0 0 0 (0, 0)%nat (groups6 ip) = (s, n) -> zeros (groups6 ip) s n.
Proof.
  intros E. pose proof (zero_run_ok (groups6 ip) (groups6 ip) 0 0 0 (0, 0)%nat eq_refl ltac:(lia) ltac:(by left) ltac:(split; cbn; [lia|intros k Hk; lia])) as H.
  by rewrite E in H.
Qed.
Lemma zeros_split g s n : zeros g s n -> g = take s g ++ replicate (length g - length (take s g) - length (drop (s + n) g)) 0 ++ drop (s + n) g.
Proof.
  intros [Hl Hz]. assert (take n (drop s g) = replicate n 0) as E.
  { apply list_eq. intros k. destruct (decide (k < n)%nat).
    - rewrite lookup_take, lookup_drop, lookup_replicate_2 by done. apply Hz. lia.
    - rewrite lookup_ge_None_2, lookup_ge_None_2; [done|rewrite replicate_length; lia|rewrite take_length; lia]. }
  rewrite take_length, drop_length. replace (length g - s `min` length g - (length g - (s + n)))%nat with n by lia.
  rewrite <- E. rewrite <- (take_drop s g) at 1. f_equal. rewrite <- drop_drop. by rewrite take_drop.
Qed.

(** ** Addresses *)
Lemma groups_value ip : ip < 2 ^ 128 -> ip = fold_left (fun a x => a * 65536 + x) (groups6 ip) 0.
Proof.
  intros H. unfold groups6. cbn [map fold_left]. rewrite !N.shiftr_div_pow2.
  change (2 ^ (16 * 7)) with (65536 * 2 ^ 96). change (2 ^ (16 * 6)) with (65536 * 2 ^ 80). change (2 ^ (16 * 5)) with (65536 * 2 ^ 64).
  change (2 ^ (16 * 4)) with (65536 * 2 ^ 48). change (2 ^ (16 * 3)) with (65536 * 2 ^ 32). change (2 ^ (16 * 2)) with (65536 * 65536).
  change (2 ^ (16 * 1)) with 65536. change (2 ^ (16 * 0)) with 1. rewrite N.div_1_r.
  change (2 ^ 96) with (65536 * 2 ^ 80). change (2 ^ 80) with (65536 * 2 ^ 64). change (2 ^ 64) with (65536 * 2 ^ 48). change (2 ^ 48) with (65536 * 2 ^ 32). change (2 ^ 32) with (65536 * 65536).
  rewrite <- !N.div_div by done.
  set (q1 := ip / 65536). set (q2 := q1 / 65536). set (q3 := q2 / 65536). set (q4 := q3 / 65536). set (q5 := q4 / 65536). set (q6 := q5 / 65536). set (q7 := q6 / 65536).
  assert (q7 < 65536) as H7.
  { unfold q7, q6, q5, q4, q3, q2, q1. rewrite !N.div_div by done. apply N.div_lt_upper_bound; [done|]. exact H. }
  rewrite (N.mod_small q7) by done.
  pose proof (N.div_mod ip 65536 ltac:(lia)) as E0. pose proof (N.div_mod q1 65536 ltac:(lia)) as E1. pose proof (N.div_mod q2 65536 ltac:(lia)) as E2.
  pose proof (N.div_mod q3 65536 ltac:(lia)) as E3. pose proof (N.div_mod q4 65536 ltac:(lia)) as E4. pose proof (N.div_mod q5 65536 ltac:(lia)) as E5. pose proof (N.div_mod q6 65536 ltac:(lia)) as E6.
  fold q1 in E0. fold q2 in E1. fold q3 in E2. fold q4 in E3. fold q5 in E4. fold q6 in E5. fold q7 in E6. clearbody q1 q2 q3 q4 q5 q6 q7. lia.
Qed.
Lemma groups6_inj x y : x < 2 ^ 128 -> y < 2 ^ 128 -> groups6 x = groups6 y -> x = y.
Proof. intros Hx Hy H. rewrite (groups_value x Hx), (groups_value y Hy). by rewrite H. Qed.
Inductive shape (ip : N) : Prop :=
| Whole (H : text (show_ip6 ip) = text (show_groups (groups6 ip)))
| Short pre post (H : text (show_ip6 ip) = compressed pre post) (Hp : Forall (fun x => x < 65536) pre) (Hq : Forall (fun x => x < 65536) post)
    (E : groups6 ip = pre ++ replicate (8 - length pre - length post) 0 ++ post) (Hl : (length pre + length post < 8)%nat).
Lemma show_ip6_shape ip : N.shiftr ip 32 <> 0xffff -> shape ip.
Proof.
  intros H. unfold show_ip6 in *. destruct (zero_run 0 0 0 (0, 0)%nat (groups6 ip)) as [s n] eqn:E.
  destruct (Nat.ltb_spec 1 n) as [Hn|Hn].
  - pose proof (zero_run_groups ip s n E) as Hz. apply Short with (take s (groups6 ip)) (drop (s + n) (groups6 ip)).
    + unfold show_ip6. rewrite (proj2 (N.eqb_neq _ _) H). cbv zeta. rewrite E, (proj2 (Nat.ltb_lt 1 n) Hn). by rewrite !text_app.
    + apply Forall_take, groups6_bounded.
    + apply Forall_drop, groups6_bounded.
    + exact (zeros_split _ _ _ Hz).
    + destruct Hz as [Hl _]. rewrite take_length, drop_length. change (length (groups6 ip)) with 8%nat in *. lia.
  - apply Whole. unfold show_ip6. rewrite (proj2 (N.eqb_neq _ _) H). cbv zeta. rewrite E. by rewrite (proj2 (Nat.ltb_ge 1 n) Hn).
Qed.
Lemma shown_length l : length (shown l) = length l.
Proof. apply map_length. Qed.
Lemma Forall_rev_b l : Forall (fun x => x < 65536) l -> Forall (fun x => x < 65536) (rev l).
Proof. intros H. apply Forall_forall. intros x Hx. rewrite Forall_forall in H. apply H. by rewrite elem_of_list_In, in_rev, <- elem_of_list_In. Qed.
Lemma groups_inj x y : N.shiftr x 32 <> 0xffff -> N.shiftr y 32 <> 0xffff -> text (show_ip6 x) = text (show_ip6 y) -> groups6 x = groups6 y.
Proof.
  intros Hx Hy H. destruct (show_ip6_shape x Hx) as [Ex|pre post Ex Hp Hq Ex' Hl], (show_ip6_shape y Hy) as [Ey|pre' post' Ey Hp' Hq' Ey' Hl']; rewrite Ex, Ey in H.
  - apply (f_equal pieces) in H. rewrite !pieces_groups in H; [|by apply groups6_bounded|done|by apply groups6_bounded|done].
    apply shown_inj in H; auto using groups6_bounded.
  - exfalso. apply (f_equal (fun z => length (front (pieces z)))) in H. rewrite pieces_groups in H; [|by apply groups6_bounded|done].
    rewrite (proj1 (front_compressed _ _ Hp' Hq')), front_shown_all, !shown_length in H by apply groups6_bounded. change (length (groups6 x)) with 8%nat in H. lia.
  - exfalso. apply (f_equal (fun z => length (front (pieces z)))) in H. rewrite (pieces_groups (groups6 y)) in H; [|by apply groups6_bounded|done].
    rewrite (proj1 (front_compressed _ _ Hp Hq)), front_shown_all, !shown_length in H by apply groups6_bounded. change (length (groups6 y)) with 8%nat in H. lia.
  - destruct (front_compressed _ _ Hp Hq) as [F1 F2], (front_compressed _ _ Hp' Hq') as [F1' F2']. rewrite <- H in F1', F2'. rewrite F1 in F1'. rewrite F2 in F2'.
    apply shown_inj in F1'; [|done|done]. apply shown_inj in F2'; [|by apply Forall_rev_b|by apply Forall_rev_b].
    apply (f_equal (@rev N)) in F2'. rewrite !rev_involutive in F2'. by rewrite Ex', Ey', F1', F2'.
Qed.
(** Dots and percent signs. *)
Lemma dots_none l : Forall (fun c => c <> "."%char) l -> dots l = 0%nat.
Proof. induction 1 as [|c l Hc _ IH]; [done|]. unfold dots in *. by rewrite filter_cons_False. Qed.
Lemma groups_chars l : Forall (fun x => x < 65536) l -> Forall (fun c => c <> "."%char /\ c <> "%"%char) (text (show_groups l)).
Proof.
  induction 1 as [|x l Hx Hl IH]; [constructor|]. destruct l as [|y l].
  - eapply Forall_impl; [apply group_chars, Hx|]. naive_solver.
  - rewrite text_groups. apply Forall_app. split; [eapply Forall_impl; [apply group_chars, Hx|]; naive_solver|]. constructor; [done|exact IH].
Qed.
Lemma ip6_chars ip : N.shiftr ip 32 <> 0xffff -> Forall (fun c => c <> "."%char /\ c <> "%"%char) (text (show_ip6 ip)).
Proof.
  intros H. destruct (show_ip6_shape ip H) as [->|pre post -> Hp Hq _ _]; [apply groups_chars, groups6_bounded|].
  unfold compressed. apply Forall_app. split; [by apply groups_chars|]. repeat (constructor; [done|]). by apply groups_chars.
Qed.
Lemma ip4_chars ip : Forall (fun c => c <> "%"%char) (text (show_ip4 ip)).
Proof.
  assert (forall x : N, Forall (fun c => c <> "%"%char) (text (pretty x))) as Hp.
  { intros x. eapply Forall_impl; [apply pretty_digits|]. intros c [A B] ->. vm_compute in A, B. congruence. }
  rewrite show_ip4_shape. repeat (apply Forall_app; split; [apply Hp|constructor; [done|]]). apply Hp.
Qed.
Lemma mapped_text ip : N.shiftr ip 32 = 0xffff -> text (show_ip6 ip) = text "::ffff:" ++ text (show_ip4 (ip mod 2 ^ 32)).
Proof. intros H. unfold show_ip6. rewrite H. cbn [N.eqb]. by rewrite <- text_app. Qed.
Lemma ip6_percent ip : Forall (fun c => c <> "%"%char) (text (show_ip6 ip)).
Proof.
  destruct (decide (N.shiftr ip 32 = 0xffff)) as [E|E].
  - rewrite mapped_text by done. apply Forall_app. split; [repeat (constructor; [done|]); constructor|apply ip4_chars].
  - eapply Forall_impl; [by apply ip6_chars|]. naive_solver.
Qed.
Lemma show_ip6_inj x y : x < 2 ^ 128 -> y < 2 ^ 128 -> text (show_ip6 x) = text (show_ip6 y) -> x = y.
Proof.
  intros Hx Hy H. destruct (decide (N.shiftr x 32 = 0xffff)) as [Ex|Ex], (decide (N.shiftr y 32 = 0xffff)) as [Ey|Ey].
  - rewrite !mapped_text in H by done. apply app_inv_head in H. apply show_ip4_inj in H; [|apply N.mod_lt; done|apply N.mod_lt; done].
    rewrite N.shiftr_div_pow2 in Ex, Ey. rewrite (N.div_mod x (2 ^ 32)), (N.div_mod y (2 ^ 32)) by done. by rewrite Ex, Ey, H.
  - exfalso. apply (f_equal dots) in H. rewrite mapped_text, dots_app, dots_ip4 in H by done. rewrite (dots_none (text (show_ip6 y))) in H; [cbn in H; lia|].
    eapply Forall_impl; [by apply ip6_chars|]. naive_solver.
  - exfalso. apply (f_equal dots) in H. rewrite (mapped_text y), dots_app, dots_ip4 in H by done. rewrite (dots_none (text (show_ip6 x))) in H; [cbn in H; lia|].
    eapply Forall_impl; [by apply ip6_chars|]. naive_solver.
  - apply groups6_inj; auto using groups_inj.
Qed.
Lemma Forall_not_in (c : ascii) l : Forall (fun x => x <> c) l -> c ∉ l.
Proof. intros H Hi. rewrite Forall_forall in H. by apply (H c). Qed.
Lemma scope_split x y sc sc' : text (show_ip6 x) ++ text (if sc =? 0 then "" else "%" +:+ pretty sc) = text (show_ip6 y) ++ text (if sc' =? 0 then "" else "%" +:+ pretty sc') ->
  text (show_ip6 x) = text (show_ip6 y) /\ sc = sc'.
Proof.
  assert (forall z, "%"%char ∉ text (show_ip6 z)) as Hn by (intros z; apply Forall_not_in, ip6_percent).
  intros H. destruct (N.eqb_spec sc 0) as [->|Hs], (N.eqb_spec sc' 0) as [->|Hs'].
  - cbn [text String.list_ascii_of_string] in H. rewrite !app_nil_r in H. done.
  - exfalso. cbn [text String.list_ascii_of_string] in H. rewrite app_nil_r in H. apply (Hn x). rewrite H. apply elem_of_app. right. rewrite text_app. left.
  - exfalso. cbn [text String.list_ascii_of_string] in H. rewrite app_nil_r in H. apply (Hn y). rewrite <- H. apply elem_of_app. right. rewrite text_app. left.
  - rewrite !text_app in H. apply cut_first in H as [H1 H2]; [|apply Hn|apply Hn]. split; [done|]. by apply pretty_text_inj.
Qed.
Lemma cons_inv {A} (x y : A) k l : x :: k = y :: l -> k = l.
Proof. congruence. Qed.
Definition printed (a : sockaddr) : sockaddr := match a with SA4 i p => SA4 i p | SA6 i p _ s => SA6 i p 0 s end.
Definition addr_ok (a : sockaddr) : Prop := match a with SA4 i _ => i < 2 ^ 32 | SA6 i _ _ _ => i < 2 ^ 128 end.
Lemma show_addr_inj a a' : addr_ok a -> addr_ok a' -> text (show_addr a) = text (show_addr a') -> printed a = printed a'.
Proof.
  intros H1 H2 H. destruct a as [ip p|ip p fl sc], a' as [ip' p'|ip' p' fl' sc']; cbn [printed addr_ok] in *.
  - by apply show_addr4_inj.
  - exfalso. destruct (show6_bracket ip' p' fl' sc') as (l & E & _). rewrite E in H. cbn [show_addr] in H. rewrite !text_app in H.
    assert (nobracket (text (show_ip4 ip) ++ text ":" ++ text (pretty p))) as Hb.
    { repeat apply nobracket_app; [apply nobracket_ip4|apply nobracket_cons; [done|apply nobracket_nil]|apply nobracket_pretty]. }
    apply Hb. rewrite H. left.
  - exfalso. destruct (show6_bracket ip p fl sc) as (l & E & _). rewrite E in H. cbn [show_addr] in H. rewrite !text_app in H.
    assert (nobracket (text (show_ip4 ip') ++ text ":" ++ text (pretty p'))) as Hb.
    { repeat apply nobracket_app; [apply nobracket_ip4|apply nobracket_cons; [done|apply nobracket_nil]|apply nobracket_pretty]. }
    apply Hb. rewrite <- H. left.
  - destruct (show_addr_port (SA6 ip p fl sc)) as (q1 & r1 & E1 & -> & ->), (show_addr_port (SA6 ip' p' fl' sc')) as (q2 & r2 & E2 & -> & ->).
    rewrite E1, E2 in H. apply cut_last in H as [Hp Hq]; [|nodot|nodot]. apply cons_inv in Hp. rewrite !app_assoc in Hp. apply app_inj_tail in Hp as [Hp _].
    apply scope_split in Hp as [Hi ->]. by rewrite (show_ip6_inj _ _ H1 H2 Hi), (pretty_text_inj _ _ Hq).
Qed.
