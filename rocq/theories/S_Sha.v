(** SHA-256 as FIPS 180-4 defines it, on messages of whole bytes. *)
From Verif Require Import Base.
From Coq Require Import NArith.

(** ** 2.2, 3.2: words of 32 bits *)
Definition word (n : N) : N := (n mod 2 ^ 32)%N.
Definition SHR (n x : N) : N := (x / 2 ^ n)%N.
(** the lowest n bits of the word become the highest *)
Definition ROTR (n x : N) : N := (x / 2 ^ n + (x mod 2 ^ n) * 2 ^ (32 - n))%N.
Definition xor3 (x y z : N) : N := N.lxor x (N.lxor y z).
(** 4.1.2 *)
Definition Ch (x y z : N) : N := N.lxor (N.land x y) (N.land (N.lnot x 32) z).
Definition Maj (x y z : N) : N := xor3 (N.land x y) (N.land x z) (N.land y z).
Definition Sigma0 (x : N) : N := xor3 (ROTR 2 x) (ROTR 13 x) (ROTR 22 x).
Definition Sigma1 (x : N) : N := xor3 (ROTR 6 x) (ROTR 11 x) (ROTR 25 x).
Definition sigma0 (x : N) : N := xor3 (ROTR 7 x) (ROTR 18 x) (SHR 3 x).
Definition sigma1 (x : N) : N := xor3 (ROTR 17 x) (ROTR 19 x) (SHR 10 x).

(** ** 4.2.2, 5.3.3: the constants *)
(** the largest number of at most [bits] bits whose [e]-th power is at most [n] *)
Fixpoint root (e : N) (bits : nat) (n acc : N) : N :=
  match bits with
  | 0 => acc
  | S b =>
      let next := (acc + 2 ^ N.of_nat b)%N in
      root e b n (if (next ^ e <=? n)%N then next else acc)
  end.
Definition prime (n : N) : bool :=
  forallb (fun d => negb (n mod d =? 0)%N) (map N.of_nat (seq 2 (N.to_nat n - 2))).
Definition primes : list N := filter prime (map N.of_nat (seq 2 310)).
(** the first 32 bits of the fractional parts of the roots *)
Definition K : list N := map (fun p => word (root 3 40 (p * 2 ^ 96) 0))%N primes.
Definition H0 : list N := map (fun p => word (root 2 40 (p * 2 ^ 64) 0))%N (firstn 8 primes).

(** ** 5.1.1, 5.2.1: padding, and the blocks *)
Definition bytes_of (n : nat) (x : N) : list N :=   (* [n] bytes, the highest first *)
  map (fun i => (x / 2 ^ (8 * N.of_nat i)) mod 2 ^ 8)%N (rev (seq 0 n)).
(** the number of zero bytes: as few as complete a block *)
Definition zeros (len : nat) : nat := (119 - len mod 64) mod 64.
Definition pad (m : list N) : list N :=
  m ++ [0x80%N] ++ repeat 0%N (zeros (length m)) ++ bytes_of 8 (8 * N.of_nat (length m)).
Fixpoint blocks (n : nat) (l : list N) : list (list N) :=  (* [n] blocks of 64 bytes *)
  match n with 0 => [] | S n => firstn 64 l :: blocks n (skipn 64 l) end.
Definition block_word (b : list N) (t : nat) : N :=
  fold_left (fun n c => n * 2 ^ 8 + c)%N (firstn 4 (skipn (4 * t) b)) 0%N.

(** ** 6.2.2 *)
(** the first [n] words of the message schedule *)
Fixpoint schedule (b : list N) (n : nat) : list N :=
  match n with
  | 0 => []
  | S t =>
      let w := schedule b t in
      let W i := nth i w 0%N in
      w ++ [if t <? 16 then block_word b t
            else word (sigma1 (W (t - 2)) + W (t - 7) + sigma0 (W (t - 15)) + W (t - 16))]
  end.
Definition vars := (N * N * N * N * N * N * N * N)%type.
Definition turn (x : vars) (kw : N * N) : vars :=
  let '(a, b, c, d, e, f, g, h) := x in
  let T1 := (h + Sigma1 e + Ch e f g + fst kw + snd kw)%N in
  let T2 := (Sigma0 a + Maj a b c)%N in
  (word (T1 + T2), a, b, c, word (d + T1), e, f, g).
Definition compress (H : vars) (block : list N) : vars :=
  let '(a, b, c, d, e, f, g, h) := H in
  let '(a', b', c', d', e', f', g', h') := fold_left turn (combine K (schedule block 64)) H in
  (word (a' + a), word (b' + b), word (c' + c), word (d' + d),
   word (e' + e), word (f' + f), word (g' + g), word (h' + h)).
Definition listed (x : vars) : list N :=
  let '(a, b, c, d, e, f, g, h) := x in [a; b; c; d; e; f; g; h].
Definition initial : vars :=
  let v i := nth i H0 0%N in (v 0, v 1, v 2, v 3, v 4, v 5, v 6, v 7).
Definition SHA256 (m : list N) : list N :=
  let M := pad m in
  flat_map (bytes_of 4) (listed (fold_left compress (blocks (length M / 64) M) initial)).

(** lowercase hexadecimal, two digits for each byte *)
Definition hex_digit (n : N) : ascii := nth (N.to_nat n) (B "0123456789abcdef") NUL.
Definition hex (l : list N) : bytes := flat_map (fun b => [hex_digit (b / 16); hex_digit (b mod 16)])%N l.

Definition hex_of (m : bytes) : bytes := hex (SHA256 (map N_of_ascii m)).
(** the examples of FIPS 180-2, appendix B *)
Example sha_empty : hex_of [] = B "e3b0c44298fc1c149afbf4c8996fb92427ae41e4649b934ca495991b7852b855".
Proof. vm_compute. reflexivity. Qed.
Example sha_abc : hex_of (B "abc") = B "ba7816bf8f01cfea414140de5dae2223b00361a396177a9cb410ff61f20015ad".
Proof. vm_compute. reflexivity. Qed.
Example sha_two_blocks : hex_of (B "abcdbcdecdefdefgefghfghighijhijkijkljklmklmnlmnomnopnopq") =
  B "248d6a61d20638b8e5c026930c3e6039a33ce45964ff2167f6ecedd419db06c1".
Proof. vm_compute. reflexivity. Qed.
Example primes_64 : length primes = 64. Proof. vm_compute. reflexivity. Qed.
