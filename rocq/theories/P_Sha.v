(** C74: the C code computes SHA-256; C75: what fs.hash prints. *)
From Verif Require Import Base M_Sha S_Sha L_Sha.
From Coq Require Import NArith.

Lemma byte_4 : forall x, [u8 (shr x 24); u8 (shr x 16); u8 (shr x 8); u8 x] = bytes_of 4 x.
Proof.
  intros x. unfold bytes_of, u8, shr. cbn [seq rev map app]. rewrite !N.shiftr_div_pow2.
  assert (E : (x / 2 ^ (8 * N.of_nat 0))%N = x) by (apply N.div_1_r). rewrite E. reflexivity.
Qed.
Lemma h_initial : h_init = listed initial. Proof. vm_compute. reflexivity. Qed.
Lemma initial_small : small8 initial.
Proof. unfold small8. rewrite <- h_initial. unfold h_init. repeat (constructor; [reflexivity|]). constructor. Qed.

(** For every message, the loop ends and the result is the message's digest. *)
Theorem C74_sha256 : forall input,
  Forall (fun b => b < 256)%N input -> (N.of_nat (length input) < 2 ^ 61)%N ->
  exists n, forall fuel, n <= fuel -> calc_sha_256 fuel input = Some (SHA256 input).
Proof.
  intros input F L. exists (length input / 64 + 3). intros fuel Lf. unfold calc_sha_256, init_buf_state.
  rewrite h_initial.
  assert (Fb : Forall byte input) by exact F.
  assert (S0 := initial_small). unfold SHA256. generalize dependent initial. intros init S0.
  rewrite (chunks_blocks (length input / 64) input _ init fuel eq_refl Fb S0 Lf). cbn [option_map].
  rewrite pad_ending by exact L.
  generalize (listed (fold_left compress (blocks (length (ending input (N.of_nat (length input))) / 64) (ending input (N.of_nat (length input)))) init)).
  intros l. f_equal. induction l as [|x l IH]; [reflexivity|]. cbn [flat_map]. rewrite IH. f_equal. apply byte_4.
Qed.
Print Assumptions C74_sha256.

(** ** fs.hash *)
Lemma xdigit_hex : forall n, (n < 16)%N -> xdigit n = hex_digit n.
Proof.
  intros n L.
  assert (X : forall m, m < 16 -> xdigit (N.of_nat m) = hex_digit (N.of_nat m)).
  { intros m Lm. do 16 (destruct m as [|m]; [vm_compute; reflexivity|]). lia. }
  specialize (X (N.to_nat n)). rewrite N2Nat.id in X. apply X. lia.
Qed.
Lemma hex_digit_ok : forall n, (n < 16)%N -> hex_digit n <> NUL.
Proof.
  intros n L.
  assert (X : forall m, m < 16 -> hex_digit (N.of_nat m) <> NUL).
  { intros m Lm. do 16 (destruct m as [|m]; [vm_compute; discriminate|]). lia. }
  specialize (X (N.to_nat n)). rewrite N2Nat.id in X. apply X. lia.
Qed.
Definition two_digits (b : N) : Prop := (16 <= b < 256)%N.
Lemma print_two : forall b, two_digits b -> print_x b = [hex_digit (b / 16); hex_digit (b mod 16)].
Proof.
  intros b [L1 L2]. unfold print_x. destruct (N.ltb_spec b 16); [lia|].
  rewrite !xdigit_hex; [reflexivity| |]; [apply N.mod_lt; discriminate|apply N.div_lt_upper_bound; lia].
Qed.
Lemma hex_length : forall l, length (hex l) = 2 * length l.
Proof. induction l as [|b l IH]; [reflexivity|]. cbn [hex flat_map app length]. fold (hex l). rewrite IH. lia. Qed.
Lemma hex_ok : forall l, Forall (fun b => b < 256)%N l -> Forall (fun c => c <> NUL) (hex l).
Proof.
  induction 1 as [|b l Hb F IH]; [constructor|]. cbn. constructor; [|constructor; [|exact IH]]; apply hex_digit_ok.
  - apply N.div_lt_upper_bound; lia.
  - apply N.mod_lt. discriminate.
Qed.
Lemma hex_app : forall a b, hex (a ++ b) = hex a ++ hex b.
Proof. intros. unfold hex. apply flat_map_app. Qed.
Lemma print_long : forall l rest done n, Forall two_digits l -> 2 * length l + 1 <= n ->
  print_hash (length done) (l ++ rest) (done ++ repeat NUL n) =
  print_hash (length done + 2 * length l) rest (done ++ hex l ++ repeat NUL (n - 2 * length l)).
Proof.
  induction l as [|b l IH]; intros rest done n F L.
  - cbn [app length hex flat_map]. rewrite Nat.mul_0_r, Nat.add_0_r, Nat.sub_0_r. reflexivity.
  - inversion_clear F as [|? ? Fb Fl]. cbn [length] in L. cbn [app print_hash]. rewrite print_two by exact Fb. cbn [app length].
    rewrite firstn_len.
    replace (skipn (length done + 3) (done ++ repeat NUL n)) with (repeat NUL (n - 3)).
    2:{ rewrite skipn_app. rewrite skipn_all2 by lia. replace (length done + 3 - length done) with 3 by lia.
        replace n with (3 + (n - 3)) at 2 by lia. rewrite repeat_app. reflexivity. }
    set (d2 := [hex_digit (b / 16); hex_digit (b mod 16)]).
    replace (done ++ hex_digit (b / 16) :: hex_digit (b mod 16) :: NUL :: repeat NUL (n - 3)) with ((done ++ d2) ++ repeat NUL (n - 2)).
    2:{ rewrite <- app_assoc. f_equal. cbn [d2 app]. f_equal. f_equal. replace (n - 2) with (S (n - 3)) by lia. reflexivity. }
    replace (length done + 2) with (length (done ++ d2)) by (rewrite app_length; reflexivity).
    rewrite IH by (auto; lia). rewrite app_length. cbn [length d2]. f_equal; [lia|]. rewrite <- app_assoc. f_equal.
    cbn [hex flat_map app]. fold (hex l). unfold d2. cbn [app]. do 4 f_equal. lia.
Qed.
Lemma print_keeps : forall l n buf, n <= length buf -> firstn n (print_hash n l buf) = firstn n buf.
Proof.
  assert (G : forall l n m buf, n <= m -> n <= length buf -> firstn n (print_hash m l buf) = firstn n buf).
  { induction l as [|b l IH]; intros n m buf L1 L2; [reflexivity|]. cbn [print_hash]. rewrite IH.
    - rewrite firstn_app, firstn_firstn, Nat.min_l by lia. rewrite firstn_length.
      destruct (Nat.le_gt_cases m (length buf)) as [X|X].
      + rewrite Nat.min_l by lia. replace (n - m) with 0 by lia. rewrite firstn_O, app_nil_r. reflexivity.
      + rewrite Nat.min_r by lia. replace (n - length buf) with 0 by lia. rewrite firstn_O, app_nil_r. reflexivity.
    - lia.
    - rewrite app_length, firstn_length. destruct (Nat.le_gt_cases m (length buf)); lia. }
  intros l n buf L. now apply G.
Qed.
Lemma span_digits : forall l r, Forall (fun c => c <> NUL) l -> 
  fst (span (fun c => negb (ceqb c NUL)) (l ++ NUL :: r)) = l.
Proof.
  induction 1 as [|c l Hc F IH]; [reflexivity|]. cbn. destruct (ceqb_spec c NUL); [contradiction|]. cbn.
  destruct (span _ (l ++ NUL :: r)); cbn in *. now f_equal.
Qed.
Lemma digest_length : forall m, length (SHA256 m) = 32.
Proof.
  intros m. unfold SHA256. destruct (fold_left compress _ initial) as [[[[[[[a b] c] d] e] f] g] h]. reflexivity.
Qed.
Lemma digest_bytes : forall m, Forall (fun b => b < 256)%N (SHA256 m).
Proof.
  intros m. unfold SHA256. apply Forall_flat_map. apply Forall_forall. intros x _. unfold bytes_of. apply Forall_map, Forall_forall. intros i _.
  apply N.mod_lt. discriminate.
Qed.
Lemma source_bytes : forall src, Forall (fun b => b < 256)%N (map N_of_ascii src).
Proof. intros src. apply Forall_map, Forall_forall. intros c _. apply N_ascii_bounded. Qed.
Definition shorter_than_2_61 (src : bytes) : Prop := (N.of_nat (length src) < 2 ^ 61)%N.
Lemma run_hash : forall src, shorter_than_2_61 src -> exists n, forall fuel, n <= fuel ->
  func_module_fs_hash fuel src =
  Some (fst (span (fun c => negb (ceqb c NUL)) (print_hash 0 (SHA256 (map N_of_ascii src)) (repeat NUL 65)))).
Proof.
  intros src L. destruct (C74_sha256 (map N_of_ascii src) (source_bytes src)) as [n H]; [now rewrite map_length|].
  exists n. intros fuel Lf. unfold func_module_fs_hash. now rewrite H.
Qed.

(** fs.hash is the digest in hexadecimal when every byte of the digest has two significant digits.
    Missing: the other digests ([C75_short_bytes], [C75_refuted]). *)
Theorem C75_hex_partial : forall src, shorter_than_2_61 src ->
  Forall (fun b => 16 <= b)%N (SHA256 (map N_of_ascii src)) ->
  exists n, forall fuel, n <= fuel ->
    func_module_fs_hash fuel src = Some (hex (SHA256 (map N_of_ascii src))).
Proof.
  intros src L F. destruct (run_hash src L) as [n H]. exists n. intros fuel Lf. rewrite H by exact Lf. f_equal.
  assert (Len := digest_length (map N_of_ascii src)). assert (Fb := digest_bytes (map N_of_ascii src)).
  generalize dependent (SHA256 (map N_of_ascii src)). intros d F _ Len Fb.
  assert (P := print_long d [] [] 65). cbn [length app] in P. rewrite app_nil_r in P. rewrite P.
  - cbn [print_hash]. rewrite Len. change (65 - 2 * 32) with 1. cbn [repeat]. now apply span_digits, hex_ok.
  - apply Forall_forall. intros b I. rewrite Forall_forall in *. split; auto.
  - lia.
Qed.
(** Otherwise the result ends at the first byte below 16, of which one digit is printed. *)
Theorem C75_short_bytes : forall src a b c, shorter_than_2_61 src ->
  SHA256 (map N_of_ascii src) = a ++ b :: c -> Forall (fun b => 16 <= b)%N a -> (b < 16)%N ->
  exists n, forall fuel, n <= fuel ->
    func_module_fs_hash fuel src = Some (hex a ++ [hex_digit b]).
Proof.
  intros src a b c L E F Lb. destruct (run_hash src L) as [n H]. exists n. intros fuel Lf. rewrite H by exact Lf. f_equal.
  assert (Len := digest_length (map N_of_ascii src)). assert (Fb := digest_bytes (map N_of_ascii src)).
  rewrite E in *. clear E H. rewrite app_length in Len. cbn [length] in Len. apply Forall_app in Fb. destruct Fb as [Fa _].
  assert (P := print_long a (b :: c) [] 65). cbn [length app] in P. rewrite P; clear P.
  - cbn [print_hash Nat.add]. unfold print_x. apply N.ltb_lt in Lb. rewrite Lb. apply N.ltb_lt in Lb. rewrite xdigit_hex by exact Lb. cbn [app length].
    rewrite <- hex_length. rewrite firstn_len.
    set (r := skipn (length (hex a) + 2) _). set (buf := hex a ++ hex_digit b :: NUL :: r).
    assert (K := print_keeps c (length (hex a) + 2) buf). 
    assert (Lbuf : length (hex a) + 2 <= length buf) by (unfold buf; rewrite app_length; cbn [length]; lia).
    specialize (K Lbuf). 
    assert (Eb : firstn (length (hex a) + 2) buf = (hex a ++ [hex_digit b]) ++ [NUL]).
    { unfold buf. rewrite firstn_app. rewrite firstn_all2 by lia. replace (length (hex a) + 2 - length (hex a)) with 2 by lia.
      rewrite <- app_assoc. reflexivity. }
    rewrite <- (firstn_skipn (length (hex a) + 2) (print_hash (length (hex a) + 2) c buf)), K, Eb, <- (app_assoc (hex a ++ [hex_digit b]) [NUL]).
    apply span_digits. apply Forall_app; split; [now apply hex_ok|]. constructor; [now apply hex_digit_ok|constructor].
  - apply Forall_forall. intros x I. rewrite Forall_forall in *. split; auto.
  - lia.
Qed.
(** the hash of a file that contains abc is eleven digits long *)
Theorem C75_refuted : exists n, forall fuel, n <= fuel ->
  func_module_fs_hash fuel (B "abc") = Some (B "ba7816bf8f1") /\
  hex (SHA256 (map N_of_ascii (B "abc"))) = B "ba7816bf8f01cfea414140de5dae2223b00361a396177a9cb410ff61f20015ad".
Proof.
  destruct (C75_short_bytes (B "abc") [186; 120; 22; 191; 143]%N 1
     [207; 234; 65; 65; 64; 222; 93; 174; 34; 35; 176; 3; 97; 163; 150; 23; 122; 156; 180; 16; 255; 97; 242; 0; 21; 173]%N) as [n H].
  - vm_compute. reflexivity.
  - vm_compute. reflexivity.
  - repeat (constructor; [discriminate|]). constructor.
  - reflexivity.
  - exists n. intros fuel Lf. rewrite H by exact Lf. split; vm_compute; reflexivity.
Qed.
Print Assumptions C75_hex_partial.
Print Assumptions C75_short_bytes.
Print Assumptions C75_refuted.
(** a message whose digest has no byte below 16; the C code on a message of two blocks *)
Example C75_case : let m := map N_of_ascii (B "a") in
  Forall (fun b => 16 <= b)%N (SHA256 m) /\ func_module_fs_hash 9 (B "a") = Some (hex (SHA256 m)).
Proof.
  cbv zeta. split; [|vm_compute; reflexivity]. apply Forall_forall. intros b I. apply N.leb_le.
  revert b I. apply forallb_forall. vm_compute. reflexivity.
Qed.
Example C74_case : calc_sha_256 9 (repeat 97%N 119) = Some (SHA256 (repeat 97%N 119)).
Proof. vm_compute. reflexivity. Qed.
