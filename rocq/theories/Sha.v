(** SHA-256 (FIPS 180-4) and HMAC (RFC 2104) on bytes: the crates sha2 and hmac that
    hydra/src/frame/hello.rs:1-13 uses ([Hmac<Sha256>]).  Those crates are not part of hydra; they are
    modelled by the published definitions, checked at the end of the file on published vectors. *)
From stdpp Require Import base list numbers strings.
From Coq Require Import Ascii.
From Verif Require Import Types.
Local Open Scope N_scope.

Definition w32 (x : N) : N := x mod 2 ^ 32.
Definition addw (x y : N) : N := w32 (x + y).
Definition rotr (n x : N) : N := N.lor (N.shiftr x n) (w32 (N.shiftl x (32 - n))).
Definition notw (x : N) : N := N.lxor x (2 ^ 32 - 1).
Definition ch (x y z : N) : N := N.lxor (N.land x y) (N.land (notw x) z).
Definition maj (x y z : N) : N := N.lxor (N.lxor (N.land x y) (N.land x z)) (N.land y z).
Definition bsig0 (x : N) : N := N.lxor (N.lxor (rotr 2 x) (rotr 13 x)) (rotr 22 x).
Definition bsig1 (x : N) : N := N.lxor (N.lxor (rotr 6 x) (rotr 11 x)) (rotr 25 x).
Definition ssig0 (x : N) : N := N.lxor (N.lxor (rotr 7 x) (rotr 18 x)) (N.shiftr x 3).
Definition ssig1 (x : N) : N := N.lxor (N.lxor (rotr 17 x) (rotr 19 x)) (N.shiftr x 10).

Definition K256 : list N :=
  [0x428a2f98; 0x71374491; 0xb5c0fbcf; 0xe9b5dba5; 0x3956c25b; 0x59f111f1; 0x923f82a4; 0xab1c5ed5;
   0xd807aa98; 0x12835b01; 0x243185be; 0x550c7dc3; 0x72be5d74; 0x80deb1fe; 0x9bdc06a7; 0xc19bf174;
   0xe49b69c1; 0xefbe4786; 0x0fc19dc6; 0x240ca1cc; 0x2de92c6f; 0x4a7484aa; 0x5cb0a9dc; 0x76f988da;
   0x983e5152; 0xa831c66d; 0xb00327c8; 0xbf597fc7; 0xc6e00bf3; 0xd5a79147; 0x06ca6351; 0x14292967;
   0x27b70a85; 0x2e1b2138; 0x4d2c6dfc; 0x53380d13; 0x650a7354; 0x766a0abb; 0x81c2c92e; 0x92722c85;
   0xa2bfe8a1; 0xa81a664b; 0xc24b8b70; 0xc76c51a3; 0xd192e819; 0xd6990624; 0xf40e3585; 0x106aa070;
   0x19a4c116; 0x1e376c08; 0x2748774c; 0x34b0bcb5; 0x391c0cb3; 0x4ed8aa4a; 0x5b9cca4f; 0x682e6ff3;
   0x748f82ee; 0x78a5636f; 0x84c87814; 0x8cc70208; 0x90befffa; 0xa4506ceb; 0xbef9a3f7; 0xc67178f2].

(** The eight working variables / hash words. *)
Record words := Words { wa : N; wb : N; wc : N; wd : N; we : N; wf : N; wg : N; wh : N }.
Definition H256 : words :=
  Words 0x6a09e667 0xbb67ae85 0x3c6ef372 0xa54ff53a 0x510e527f 0x9b05688c 0x1f83d9ab 0x5be0cd19.

(** Message schedule, newest word first. *)
Definition sched_step (r : list N) : list N :=
  addw (addw (ssig1 (nth 1 r 0)) (nth 6 r 0)) (addw (ssig0 (nth 14 r 0)) (nth 15 r 0)) :: r.
Definition schedule (block : list N) : list N := rev (Nat.iter 48 sched_step (rev block)).
Definition round (s : words) (kw : N * N) : words :=
  let t1 := addw (addw (wh s) (bsig1 (we s))) (addw (ch (we s) (wf s) (wg s)) (addw (fst kw) (snd kw))) in
  let t2 := addw (bsig0 (wa s)) (maj (wa s) (wb s) (wc s)) in
  Words (addw t1 t2) (wa s) (wb s) (wc s) (addw (wd s) t1) (we s) (wf s) (wg s).
Definition compress (s : words) (block : list N) : words :=
  let t := fold_left round (zip K256 (schedule block)) s in
  Words (addw (wa s) (wa t)) (addw (wb s) (wb t)) (addw (wc s) (wc t)) (addw (wd s) (wd t))
        (addw (we s) (we t)) (addw (wf s) (wf t)) (addw (wg s) (wg t)) (addw (wh s) (wh t)).

Definition word_bytes (x : N) : bytes :=
  [ascii_of_N (N.shiftr x 24); ascii_of_N (N.shiftr x 16 mod 256); ascii_of_N (N.shiftr x 8 mod 256); ascii_of_N (x mod 256)].
Fixpoint bytes_words (b : bytes) : list N :=
  match b with
  | a :: b :: c :: d :: r =>
      (((N_of_ascii a * 256 + N_of_ascii b) * 256 + N_of_ascii c) * 256 + N_of_ascii d) :: bytes_words r
  | _ => []
  end.
Fixpoint blocks (fuel : nat) (l : list N) : list (list N) :=
  match fuel, l with
  | S f, _ :: _ => take 16 l :: blocks f (drop 16 l)
  | _, _ => []
  end.
Definition padding (len : N) : bytes :=
  "128"%char :: replicate (N.to_nat ((119 - len mod 64) mod 64)) "000"%char
  ++ word_bytes (N.shiftr (8 * len) 32) ++ word_bytes (w32 (8 * len)).
Definition digest (s : words) : bytes :=
  word_bytes (wa s) ++ word_bytes (wb s) ++ word_bytes (wc s) ++ word_bytes (wd s) ++
  word_bytes (we s) ++ word_bytes (wf s) ++ word_bytes (wg s) ++ word_bytes (wh s).
Definition sha256 (m : bytes) : bytes :=
  let ws := bytes_words (m ++ padding (N.of_nat (length m))) in
  digest (fold_left compress (blocks (length ws) ws) H256).

(** RFC 2104. *)
Definition xorb_byte (k : N) (c : ascii) : ascii := ascii_of_N (N.lxor (N_of_ascii c) k).
Definition block_key (key : bytes) : bytes :=
  let k := if decide (64 < length key)%nat then sha256 key else key in
  k ++ replicate (64 - length k) "000"%char.
Definition hmac (key m : bytes) : bytes :=
  let k := block_key key in
  sha256 (map (xorb_byte 0x5c) k ++ sha256 (map (xorb_byte 0x36) k ++ m)).

(** Vectors: FIPS 180-4 "abc" and the 448-bit message; RFC 4231 test case 2 and 6 (key of 131 bytes). *)
Definition hex (b : bytes) : list N := map N_of_ascii b.
Definition text (s : string) : bytes := String.list_ascii_of_string s.
Fixpoint nums (b : bytes) : N := match b with [] => 0 | c :: r => N_of_ascii c * 256 ^ N.of_nat (length r) + nums r end.
Example sha256_abc : nums (sha256 (text "abc")) = 0xba7816bf8f01cfea414140de5dae2223b00361a396177a9cb410ff61f20015ad.
Proof. vm_compute. reflexivity. Qed.
Example sha256_448 : nums (sha256 (text "abcdbcdecdefdefgefghfghighijhijkijkljklmklmnlmnomnopnopq")) =
  0x248d6a61d20638b8e5c026930c3e6039a33ce45964ff2167f6ecedd419db06c1.
Proof. vm_compute. reflexivity. Qed.
Example hmac_2 : nums (hmac (text "Jefe") (text "what do ya want for nothing?")) =
  0x5bdcc146bf60754e6a042426089575c75a003f089d2739839dec58b964ec3843.
Proof. vm_compute. reflexivity. Qed.
Example hmac_6 : nums (hmac (replicate 131 "170"%char) (text "Test Using Larger Than Block-Size Key - Hash Key First")) =
  0x60e431591ee0b67f0d8a26aacbf5b77f8e0bc6213728c5140546040f0ee37f54.
Proof. vm_compute. reflexivity. Qed.
