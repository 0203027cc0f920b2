(** SHA-256: src/sha_256.c, and the hash method of the fs module, src/functions/modules/fs.c.
    Bytes and 32-bit words are natural numbers (N). *)
From Verif Require Import Base.
From Coq Require Import NArith.

(** sha_256.c 30-39 the round constants *)
Definition k : list N := [
  0x428a2f98; 0x71374491; 0xb5c0fbcf; 0xe9b5dba5; 0x3956c25b; 0x59f111f1; 0x923f82a4; 0xab1c5ed5;
  0xd807aa98; 0x12835b01; 0x243185be; 0x550c7dc3; 0x72be5d74; 0x80deb1fe; 0x9bdc06a7; 0xc19bf174;
  0xe49b69c1; 0xefbe4786; 0x0fc19dc6; 0x240ca1cc; 0x2de92c6f; 0x4a7484aa; 0x5cb0a9dc; 0x76f988da;
  0x983e5152; 0xa831c66d; 0xb00327c8; 0xbf597fc7; 0xc6e00bf3; 0xd5a79147; 0x06ca6351; 0x14292967;
  0x27b70a85; 0x2e1b2138; 0x4d2c6dfc; 0x53380d13; 0x650a7354; 0x766a0abb; 0x81c2c92e; 0x92722c85;
  0xa2bfe8a1; 0xa81a664b; 0xc24b8b70; 0xc76c51a3; 0xd192e819; 0xd6990624; 0xf40e3585; 0x106aa070;
  0x19a4c116; 0x1e376c08; 0x2748774c; 0x34b0bcb5; 0x391c0cb3; 0x4ed8aa4a; 0x5b9cca4f; 0x682e6ff3;
  0x748f82ee; 0x78a5636f; 0x84c87814; 0x8cc70208; 0x90befffa; 0xa4506ceb; 0xbef9a3f7; 0xc67178f2]%N.
(** 153 *)
Definition h_init : list N :=
  [0x6a09e667; 0xbb67ae85; 0x3c6ef372; 0xa54ff53a; 0x510e527f; 0x9b05688c; 0x1f83d9ab; 0x5be0cd19]%N.

(** uint32_t arithmetic *)
Definition u32 (x : N) : N := (x mod 2 ^ 32)%N.
Definition u8 (x : N) : N := (x mod 2 ^ 8)%N.
Definition add (x y : N) : N := u32 (x + y).
Definition shr (x c : N) : N := N.shiftr x c.
Definition shl (x c : N) : N := u32 (N.shiftl x c).
Definition inv (x : N) : N := N.lxor x (2 ^ 32 - 1).
(** 48-55 *)
Definition right_rot (value count : N) : N := N.lor (shr value count) (shl value (32 - count)).

(** 41-65 struct buffer_state; [p] is the rest of the input, whose length is the field len *)
Record buffer_state := mkBuf
  { p : list N; total_len : N; single_one_delivered : bool; total_len_delivered : bool }.
Definition init_buf_state (input : list N) : buffer_state :=
  mkBuf input (N.of_nat (length input)) false false.
(** 104-112 the length at the end of the last chunk; size_t has 64 bits *)
Definition store_len (len : N) : list N :=
  let l := N.shiftr len 5 in
  map (fun i => u8 (N.shiftr l (8 * i))) [6; 5; 4; 3; 2; 1; 0]%N ++ [u8 (N.shiftl len 3)].
(** 67-122; [None]: NULL *)
Definition calc_chunk (st : buffer_state) : option (list N * buffer_state) :=
  if total_len_delivered st then None
  else if 64 <=? length (p st) then
    Some (firstn 64 (p st),
          mkBuf (skipn 64 (p st)) (total_len st) (single_one_delivered st) false)
  else
    let chunk := p st ++ (if single_one_delivered st then [] else [0x80%N]) in
    let space_in_chunk := 64 - length chunk in
    if 8 <=? space_in_chunk then
      Some (chunk ++ repeat 0%N (space_in_chunk - 8) ++ store_len (total_len st),
            mkBuf [] (total_len st) true true)
    else Some (chunk ++ repeat 0%N space_in_chunk, mkBuf [] (total_len st) true false).

(** 188-190 reading a word of the chunk *)
Definition read_word (c : list N) : N :=
  let b i := nth i c 0%N in
  N.lor (N.lor (N.lor (shl (b 0) 24) (shl (b 1) 16)) (shl (b 2) 8)) (b 3).
(** 186-221 the body of the inner loop; the state is [p], w and ah *)
Definition round (i j : nat) (st : list N * list N * list N) : list N * list N * list N :=
  let '(p, w, ah) := st in
  let W m := nth (m mod 16) w 0%N in             (* & 0xf *)
  let '(p, w) :=
    if i =? 0 then (skipn 4 p, upd j (read_word p) w)
    else
      let s0 := N.lxor (N.lxor (right_rot (W (j + 1)) 7) (right_rot (W (j + 1)) 18)) (shr (W (j + 1)) 3) in
      let s1 := N.lxor (N.lxor (right_rot (W (j + 14)) 17) (right_rot (W (j + 14)) 19)) (shr (W (j + 14)) 10) in
      (p, upd j (add (add (add (W j) s0) (W (j + 9))) s1) w) in
  let a m := nth m ah 0%N in
  let s1 := N.lxor (N.lxor (right_rot (a 4) 6) (right_rot (a 4) 11)) (right_rot (a 4) 25) in
  let ch := N.lxor (N.land (a 4) (a 5)) (N.land (inv (a 4)) (a 6)) in
  let temp1 := add (add (add (add (a 7) s1) ch) (nth (16 * i + j) k 0%N)) (nth j w 0%N) in
  let s0 := N.lxor (N.lxor (right_rot (a 0) 2) (right_rot (a 0) 13)) (right_rot (a 0) 22) in
  let maj := N.lxor (N.lxor (N.land (a 0) (a 1)) (N.land (a 0) (a 2))) (N.land (a 1) (a 2)) in
  let temp2 := add s0 maj in
  (p, w, [add temp1 temp2; a 0; a 1; a 2; add (a 3) temp1; a 4; a 5; a 6]).
(** 184-222 the two loops; w is not initialised in C, but written before it is read *)
Definition rounds (st : list N * list N * list N) : list N * list N * list N :=
  fold_left (fun st i => fold_left (fun st j => round i j st) (seq 0 16) st) (seq 0 4) st.
(** 161-227 one pass of the while loop *)
Definition chunk_step (h : list N) (c : list N) : list N :=
  let '(_, _, ah) := rounds (c, repeat 0%N 16, h) in
  map (fun i => add (nth i h 0%N) (nth i ah 0%N)) (seq 0 8).
(** 161 the while loop; [None]: still running *)
Fixpoint chunks (fuel : nat) (st : buffer_state) (h : list N) : option (list N) :=
  match fuel with
  | 0 => None
  | S fuel =>
      match calc_chunk st with
      | None => Some h
      | Some (c, st) => chunks fuel st (chunk_step h c)
      end
  end.
(** 132-235 *)
Definition calc_sha_256 (fuel : nat) (input : list N) : option (list N) :=
  option_map
    (fun h => flat_map (fun x => [u8 (shr x 24); u8 (shr x 16); u8 (shr x 8); u8 x]) h)
    (chunks fuel (init_buf_state input) h_init).

(** the lowest hexadecimal digit *)
Definition xdigit (n : N) : ascii :=
  ascii_of_N (if (n <? 10)%N then 48 + n else 87 + n)%N.
(** snprintf with %x of a byte *)
Definition print_x (b : N) : bytes :=
  if (b <? 16)%N then [xdigit b] else [xdigit (b / 16); xdigit (b mod 16)].
(** fs.c 332-341: each byte is printed, with its terminator, two places after the one before;
    make_str takes the buffer up to the first NUL.  [src] is the contents of the file; reading it
    is not modelled. *)
Fixpoint print_hash (bufi : nat) (hash : list N) (buf : bytes) : bytes :=
  match hash with
  | [] => buf
  | b :: hash =>
      let t := print_x b ++ [NUL] in
      print_hash (bufi + 2) hash (firstn bufi buf ++ t ++ skipn (bufi + length t) buf)
  end.
Definition func_module_fs_hash (fuel : nat) (src : bytes) : option bytes :=
  option_map
    (fun hash => fst (span (fun c => negb (ceqb c NUL)) (print_hash 0 hash (repeat NUL 65))))
    (calc_sha_256 fuel (map N_of_ascii src)).
