(** The C code's words and chunks against those of the standard. *)
From Verif Require Import Base M_Sha S_Sha.
From Verif Require L_Arena.
From Coq Require Import NArith.

Lemma k_K : k = K. Proof. vm_compute. reflexivity. Qed.
Lemma h_H0 : h_init = H0. Proof. vm_compute. reflexivity. Qed.

(** ** Words *)
Lemma testbit_high : forall a m i, (a < 2 ^ m -> m <= i -> N.testbit a i = false)%N.
Proof.
  intros a m i L I. rewrite <- (N.mod_small a (2 ^ m)) by exact L. apply N.mod_pow2_bits_high. exact I.
Qed.
Lemma lor_add : forall a b m, (a < 2 ^ m)%N -> N.lor a (b * 2 ^ m) = (a + b * 2 ^ m)%N.
Proof.
  intros a b m L.
  assert (D : N.land a (b * 2 ^ m) = 0%N).
  { apply N.bits_inj. intros i. rewrite N.land_spec, N.bits_0. destruct (N.le_gt_cases m i) as [H|H].
    - rewrite (testbit_high a m i L H). reflexivity.
    - rewrite N.mul_pow2_bits_low by exact H. apply andb_false_r. }
  rewrite N.add_nocarry_lxor by exact D. symmetry. now apply N.lxor_lor.
Qed.
Lemma rot_ROTR : forall x n, (x < 2 ^ 32)%N -> (0 < n < 32)%N -> right_rot x n = ROTR n x.
Proof.
  intros x n L Hn. unfold right_rot, ROTR, shr, shl, u32. rewrite N.shiftr_div_pow2, N.shiftl_mul_pow2.
  assert (E : (2 ^ 32 = 2 ^ n * 2 ^ (32 - n))%N) by (rewrite <- N.pow_add_r; f_equal; lia).
  rewrite E at 1. rewrite N.mul_mod_distr_r by (apply N.pow_nonzero; discriminate).
  apply lor_add. apply N.div_lt_upper_bound; [apply N.pow_nonzero; discriminate|]. now rewrite <- E.
Qed.
Lemma inv_lnot : forall x, inv x = N.lnot x 32.
Proof. reflexivity. Qed.
Lemma shr_SHR : forall x n, shr x n = SHR n x.
Proof. intros. apply N.shiftr_div_pow2. Qed.
Definition small (x : N) : Prop := (x < 2 ^ 32)%N.
Lemma word_small : forall x, small (word x). Proof. intros x. apply N.mod_lt. discriminate. Qed.
Lemma lxor_assoc3 : forall x y z, N.lxor (N.lxor x y) z = xor3 x y z.
Proof. intros. unfold xor3. apply N.lxor_assoc. Qed.
Lemma word_l : forall x y, word (word x + y) = word (x + y).
Proof. intros. unfold word. apply N.add_mod_idemp_l. discriminate. Qed.
Lemma word_r : forall x y, word (x + word y) = word (x + y).
Proof. intros. unfold word. apply N.add_mod_idemp_r. discriminate. Qed.
Lemma word_l2 : forall x y z, word (word x + y + z) = word (x + y + z).
Proof. intros. rewrite <- !N.add_assoc. apply word_l. Qed.
Lemma word_l3 : forall x y z u, word (word x + y + z + u) = word (x + y + z + u).
Proof. intros. rewrite <- !N.add_assoc. apply word_l. Qed.
Lemma word_l4 : forall x y z u v, word (word x + y + z + u + v) = word (x + y + z + u + v).
Proof. intros. rewrite <- !N.add_assoc. apply word_l. Qed.
Ltac unword := repeat (rewrite ?word_l, ?word_r, ?word_l2, ?word_l3, ?word_l4, ?N.add_assoc).
Lemma add_word : forall x y, add x y = word (x + y). Proof. reflexivity. Qed.
Ltac words := rewrite ?add_word; unword; apply (f_equal word); lia.

Lemma add5 : forall a b c d e, add (add (add (add a b) c) d) e = word (a + b + c + d + e).
Proof. intros. words. Qed.

(** ** Blocks *)
Definition byte (b : N) : Prop := (b < 2 ^ 8)%N.
Lemma nth_byte : forall l i, Forall byte l -> byte (nth i l 0%N).
Proof.
  intros l i F. destruct (Nat.lt_ge_cases i (length l)) as [L|L].
  - rewrite Forall_forall in F. apply F. now apply nth_In.
  - rewrite nth_overflow by exact L. reflexivity.
Qed.
Lemma byte_shl : forall b c, byte b -> (c <= 24)%N -> shl b c = (b * 2 ^ c)%N.
Proof.
  intros b c L C. unfold shl, u32. rewrite N.shiftl_mul_pow2. apply N.mod_small.
  apply N.lt_le_trans with (2 ^ 8 * 2 ^ c)%N; [apply N.mul_lt_mono_pos_r; [|exact L]; apply N.neq_0_lt_0, N.pow_nonzero; discriminate|].
  rewrite <- N.pow_add_r. apply N.pow_le_mono_r; [discriminate|lia].
Qed.
Lemma read_word_4 : forall b0 b1 b2 b3 l, byte b0 -> byte b1 -> byte b2 -> byte b3 ->
  read_word (b0 :: b1 :: b2 :: b3 :: l) = (((b0 * 2 ^ 8 + b1) * 2 ^ 8 + b2) * 2 ^ 8 + b3)%N.
Proof.
  intros b0 b1 b2 b3 l H0 H1 H2 H3. unfold read_word. cbn [nth]. rewrite !byte_shl by (assumption || lia).
  rewrite (N.lor_comm (b0 * 2 ^ 24)).
  rewrite (lor_add (b1 * 2 ^ 16) b0 24) by (unfold byte in *; change (2 ^ 24)%N with (2 ^ 8 * 2 ^ 16)%N; apply N.mul_lt_mono_pos_r; [reflexivity|assumption]).
  replace (b1 * 2 ^ 16 + b0 * 2 ^ 24)%N with ((b0 * 2 ^ 8 + b1) * 2 ^ 16)%N by (change (2 ^ 24)%N with (2 ^ 8 * 2 ^ 16)%N; ring).
  rewrite (N.lor_comm (_ * 2 ^ 16)).
  rewrite (lor_add (b2 * 2 ^ 8) _ 16) by (unfold byte in *; change (2 ^ 16)%N with (2 ^ 8 * 2 ^ 8)%N; apply N.mul_lt_mono_pos_r; [reflexivity|assumption]).
  replace (b2 * 2 ^ 8 + (b0 * 2 ^ 8 + b1) * 2 ^ 16)%N with (((b0 * 2 ^ 8 + b1) * 2 ^ 8 + b2) * 2 ^ 8)%N by (change (2 ^ 16)%N with (2 ^ 8 * 2 ^ 8)%N; ring).
  rewrite N.lor_comm, lor_add by assumption. ring.
Qed.
Lemma read_block_word : forall b t, Forall byte b -> length b = 64 -> t < 16 ->
  read_word (skipn (4 * t) b) = block_word b t /\ small (block_word b t).
Proof.
  intros b t F L T. unfold block_word.
  assert (Fs : Forall byte (skipn (4 * t) b)).
  { rewrite <- (firstn_skipn (4 * t) b) in F. now apply Forall_app in F. }
  assert (Ls : 4 <= length (skipn (4 * t) b)) by (rewrite skipn_length; lia).
  destruct (skipn (4 * t) b) as [|b0 [|b1 [|b2 [|b3 l]]]]; cbn in Ls; try lia.
  inversion_clear Fs as [|? ? B0 F1]. inversion_clear F1 as [|? ? B1 F2]. inversion_clear F2 as [|? ? B2 F3]. inversion_clear F3 as [|? ? B3 F4].
  rewrite read_word_4 by assumption. cbn [firstn fold_left]. split; [reflexivity|]. unfold small, byte in *.
  change (2 ^ 8)%N with 256%N in *. change (2 ^ 32)%N with 4294967296%N. lia.
Qed.

(** ** The schedule *)
Definition Wt (b : list N) (t : nat) : N := nth t (schedule b (S t)) 0%N.
Lemma schedule_length : forall b n, length (schedule b n) = n.
Proof. induction n as [|n IH]; [reflexivity|]. cbn [schedule]. rewrite app_length, IH. cbn. lia. Qed.
Lemma schedule_nth : forall b n t, t < n -> nth t (schedule b n) 0%N = Wt b t.
Proof.
  induction n as [|n IH]; intros t L; [lia|]. destruct (Nat.eq_dec t n) as [->|N]; [reflexivity|].
  cbn [schedule]. rewrite app_nth1 by (rewrite schedule_length; lia). apply IH. lia.
Qed.
Lemma Wt_block : forall b t, t < 16 -> Wt b t = block_word b t.
Proof.
  intros b t L. unfold Wt. cbn [schedule]. rewrite app_nth2, schedule_length, Nat.sub_diag by (rewrite schedule_length; lia). cbn [nth].
  apply Nat.ltb_lt in L. now rewrite L.
Qed.
Lemma Wt_next : forall b t, 16 <= t ->
  Wt b t = word (sigma1 (Wt b (t - 2)) + Wt b (t - 7) + sigma0 (Wt b (t - 15)) + Wt b (t - 16)).
Proof.
  intros b t L. unfold Wt at 1. cbn [schedule]. rewrite app_nth2, schedule_length, Nat.sub_diag by (rewrite schedule_length; lia). cbn [nth].
  destruct (Nat.ltb_spec t 16); [lia|]. now rewrite !schedule_nth by lia.
Qed.
Lemma Wt_small : forall b t, Forall byte b -> length b = 64 -> small (Wt b t).
Proof.
  intros b t F L. destruct (Nat.lt_ge_cases t 16) as [T|T].
  - rewrite Wt_block by exact T. now apply read_block_word.
  - rewrite Wt_next by exact T. apply word_small.
Qed.

(** ** Rounds *)
Definition small8 (x : vars) : Prop := Forall small (listed x).
Lemma turn_small : forall x kw, small8 x -> small8 (turn x kw).
Proof.
  intros [[[[[[[a b] c] d] e] f] g] h] kw S. unfold small8 in *. cbn in *.
  repeat match goal with H : Forall _ (_ :: _) |- _ => apply Forall_cons_iff in H; destruct H end.
  repeat (constructor; [assumption || apply word_small|]). constructor.
Qed.
Definition after (b : list N) (H : vars) (t : nat) : vars := fold_left turn (firstn t (combine K (schedule b 64))) H.
Lemma after_succ : forall b H t, t < 64 -> after b H (S t) = turn (after b H t) (nth t K 0%N, Wt b t).
Proof.
  intros b H t L. unfold after. assert (LK : length K = 64) by (rewrite <- k_K; reflexivity).
  assert (Len : length (combine K (schedule b 64)) = 64) by (now rewrite combine_length, schedule_length, LK).
  assert (E : forall {A} (l : list A) n d, n < length l -> firstn (S n) l = firstn n l ++ [nth n l d]).
  { intros A. induction l as [|x l IH]; intros n d Ln; [cbn in Ln; lia|]. destruct n as [|n]; [reflexivity|]. cbn [firstn nth app].
    f_equal. apply IH. cbn in Ln. lia. }
  rewrite (E _ _ t (0%N, 0%N)) by lia. rewrite fold_left_app. cbn [fold_left].
  rewrite combine_nth by (now rewrite schedule_length, LK). now rewrite schedule_nth.
Qed.
Definition inv_at (b : list N) (H : vars) (t : nat) (st : list N * list N * list N) : Prop :=
  let '(p, w, ah) := st in
  p = skipn (4 * min t 16) b /\ length w = 16 /\
  (forall t', t' < t -> t <= t' + 16 -> nth (t' mod 16) w 0%N = Wt b t') /\
  ah = listed (after b H t) /\ small8 (after b H t).
Lemma nth_upd_eq : forall (l : list N) i x d, i < length l -> nth i (upd i x l) d = x.
Proof. induction l as [|y l IH]; intros [|i] x d L; cbn in *; try reflexivity; try lia. apply IH. lia. Qed.
Lemma nth_upd_neq : forall (l : list N) i j x d, i <> j -> nth j (upd i x l) d = nth j l d.
Proof. induction l as [|y l IH]; intros [|i] [|j] x d N; cbn; try reflexivity; try congruence. apply IH. congruence. Qed.
Lemma round_step : forall b H t st, Forall byte b -> length b = 64 -> t < 64 -> inv_at b H t st ->
  inv_at b H (S t) (round (t / 16) (t mod 16) st).
Proof.
  intros b H t [[p w] ah] F Lb Lt (Ep & Lw & Hw & Ea & Sm).
  assert (Lj : t mod 16 < 16) by (apply Nat.mod_upper_bound; lia).
  assert (Et : t = 16 * (t / 16) + t mod 16) by (apply Nat.div_mod; lia).
  unfold round.
  set (pw := if t / 16 =? 0 then _ else _).
  assert (P : exists w', pw = (skipn (4 * min (S t) 16) b, w') /\ length w' = 16 /\
            (forall t', t' < S t -> S t <= t' + 16 -> nth (t' mod 16) w' 0%N = Wt b t')).
  { assert (G : forall x, x = Wt b t -> forall t', t' < S t -> S t <= t' + 16 -> nth (t' mod 16) (upd (t mod 16) x w) 0%N = Wt b t').
    { intros x Ex t' L1 L2. destruct (Nat.eq_dec t' t) as [->|N]; [rewrite nth_upd_eq by lia; exact Ex|].
      rewrite nth_upd_neq; [apply Hw; lia|]. intros E.
      assert (Et' : t' = 16 * (t' / 16) + t' mod 16) by (apply Nat.div_mod; lia). lia. }
    unfold pw. clear pw. destruct (Nat.eqb_spec (t / 16) 0) as [Z|Z].
    - assert (T : t < 16) by lia. assert (Ej : t mod 16 = t) by lia. eexists. split; [|split].
      + rewrite Ep, !Nat.min_l by lia. rewrite L_Arena.skipn_skipn. f_equal. f_equal. lia.
      + rewrite upd_length. exact Lw.
      + apply G. rewrite Wt_block by exact T. now apply read_block_word.
    - assert (T : 16 <= t) by lia.
      assert (X : forall d, d <= 16 -> 0 < d -> nth ((t mod 16 + (16 - d)) mod 16) w 0%N = Wt b (t - d)).
      { intros d D1 D2. rewrite Nat.add_mod_idemp_l by lia. replace (t + (16 - d)) with ((t - d) + 1 * 16) by lia.
        rewrite Nat.mod_add by lia. apply Hw; lia. }
      eexists. split; [|split].
      + rewrite Ep, !Nat.min_r by lia. reflexivity.
      + rewrite upd_length. exact Lw.
      + apply G. pose proof (X 15 ltac:(lia) ltac:(lia)) as X1. pose proof (X 2 ltac:(lia) ltac:(lia)) as X2.
        pose proof (X 7 ltac:(lia) ltac:(lia)) as X3. pose proof (X 16 ltac:(lia) ltac:(lia)) as X4.
        change (16 - 15) with 1 in X1. change (16 - 2) with 14 in X2. change (16 - 7) with 9 in X3. change (16 - 16) with 0 in X4.
        rewrite Nat.add_0_r in X4. rewrite X1, X2, X3, X4.
        rewrite (Wt_next b t) by exact T. unfold sigma0, sigma1.
        rewrite !rot_ROTR, !lxor_assoc3, !shr_SHR by (try apply Wt_small; auto; lia). words. }
  destruct P as (w' & -> & Lw' & Hw'). split; [reflexivity|]. split; [exact Lw'|]. split; [exact Hw'|].
  rewrite after_succ by exact Lt. split; [|now apply turn_small].
  rewrite <- Et, Hw', k_K by lia. subst ah. unfold small8 in Sm.
  destruct (after b H t) as [[[[[[[a0 b0] c0] d0] e0] f0] g0] h0]. cbn [listed nth turn fst snd] in *.
  repeat match goal with H : Forall _ (_ :: _) |- _ => apply Forall_cons_iff in H; destruct H end.
  unfold Sigma0, Sigma1, Ch, Maj. rewrite !rot_ROTR, !lxor_assoc3, !inv_lnot by (assumption || lia).
  rewrite !(add5 h0), !add_word, !word_r, !word_l. reflexivity.
Qed.
Lemma rounds_flat : forall st, rounds st = fold_left (fun st t => round (t / 16) (t mod 16) st) (seq 0 64) st.
Proof. intros st. reflexivity. Qed.
Lemma rounds_inv : forall b H st n, Forall byte b -> length b = 64 -> n <= 64 -> inv_at b H 0 st ->
  inv_at b H n (fold_left (fun st t => round (t / 16) (t mod 16) st) (seq 0 n) st).
Proof.
  intros b H st n F Lb. induction n as [|n IH]; intros L I; [exact I|].
  rewrite seq_S, fold_left_app. cbn [fold_left]. apply round_step; auto; try lia. apply IH; [lia|exact I].
Qed.
Lemma compress_step : forall H b, small8 H -> Forall byte b -> length b = 64 ->
  chunk_step (listed H) b = listed (compress H b) /\ small8 (compress H b).
Proof.
  intros H b Sm F Lb. unfold chunk_step. rewrite rounds_flat.
  assert (I : inv_at b H 0 (b, repeat 0%N 16, listed H)).
  { split; [reflexivity|]. split; [reflexivity|]. split; [intros; lia|]. split; [reflexivity|exact Sm]. }
  apply (rounds_inv b H _ 64 F Lb (le_n _)) in I.
  destruct (fold_left (fun st t => round (t / 16) (t mod 16) st) (seq 0 64) (b, repeat 0%N 16, listed H)) as [[p w] ah].
  destruct I as (_ & _ & _ & -> & _). unfold compress, after.
  assert (LK : length K = 64) by (rewrite <- k_K; reflexivity).
  rewrite firstn_all2 by (rewrite combine_length, schedule_length, LK; cbn; lia).
  destruct H as [[[[[[[a0 b0] c0] d0] e0] f0] g0] h0].
  destruct (fold_left turn (combine K (schedule b 64)) (a0, b0, c0, d0, e0, f0, g0, h0)) as [[[[[[[a1 b1] c1] d1] e1] f1] g1] h1].
  split.
  - cbn [listed seq map nth]. rewrite !add_word. rewrite (N.add_comm a0), (N.add_comm b0), (N.add_comm c0), (N.add_comm d0), (N.add_comm e0), (N.add_comm f0), (N.add_comm g0), (N.add_comm h0). reflexivity.
  - unfold small8. cbn [listed]. repeat (constructor; [apply word_small|]). constructor.
Qed.

(** ** Padding *)
Definition ending (l : list N) (len : N) : list N :=
  l ++ [0x80%N] ++ repeat 0%N (zeros (length l)) ++ store_len len.
Lemma store_len_spec : forall n, (n < 2 ^ 61)%N -> store_len n = bytes_of 8 (8 * n).
Proof.
  intros n L. unfold store_len, bytes_of, u8. cbn [seq rev map app]. rewrite N.shiftl_mul_pow2, !N.shiftr_div_pow2.
  rewrite !N.div_div by (try apply N.pow_nonzero; discriminate). rewrite <- !N.pow_add_r.
  assert (E : forall m, (n / 2 ^ (5 + m) = 8 * n / 2 ^ (8 + m))%N).
  { intros m. replace (8 + m)%N with (3 + (5 + m))%N by lia. rewrite (N.pow_add_r 2 3). change (2 ^ 3)%N with 8%N.
    rewrite N.div_mul_cancel_l; [reflexivity|apply N.pow_nonzero; discriminate|discriminate]. }
  rewrite !E. change (N.of_nat 0) with 0%N. cbn [app]. change (8 * 0)%N with 0%N. rewrite N.pow_0_r, N.div_1_r.
  rewrite (N.mul_comm n). reflexivity.
Qed.
Lemma pad_ending : forall m, (N.of_nat (length m) < 2 ^ 61)%N -> pad m = ending m (N.of_nat (length m)).
Proof. intros m L. unfold pad, ending. now rewrite store_len_spec. Qed.
Lemma store_len_length : forall n, length (store_len n) = 8. Proof. reflexivity. Qed.
Lemma store_len_bytes : forall n, Forall byte (store_len n).
Proof. intros n. unfold store_len. cbn [map app]. repeat (constructor; [apply N.mod_lt; discriminate|]). constructor. Qed.
Lemma repeat_bytes : forall n, Forall byte (repeat 0%N n).
Proof. induction n; constructor; [reflexivity|assumption]. Qed.
Lemma firstn_len : forall {A} (l r : list A), firstn (length l) (l ++ r) = l.
Proof. intros A l r. rewrite firstn_app, Nat.sub_diag, firstn_O, app_nil_r. apply firstn_all. Qed.
Lemma skipn_len : forall {A} (l r : list A), skipn (length l) (l ++ r) = r.
Proof. intros A l r. rewrite skipn_app, Nat.sub_diag, skipn_all. reflexivity. Qed.

Lemma firstn_eq : forall {A} n (l r : list A), length l = n -> firstn n (l ++ r) = l.
Proof. intros A n l r <-. apply firstn_len. Qed.
Lemma skipn_eq : forall {A} n (l r : list A), length l = n -> skipn n (l ++ r) = r.
Proof. intros A n l r <-. apply skipn_len. Qed.
Lemma chunks_blocks : forall q l len H fuel, length l / 64 = q -> Forall byte l -> small8 H -> q + 3 <= fuel ->
  chunks fuel (mkBuf l len false false) (listed H) =
  Some (listed (fold_left compress (blocks (length (ending l len) / 64) (ending l len)) H)).
Proof.
  induction q as [|q IH]; intros l len H fuel Eq F Sm Lf.
  - assert (Ll : length l < 64). { apply Nat.div_small_iff in Eq; lia. }
    destruct fuel as [|[|[|fuel]]]; try lia. cbn [chunks]. unfold calc_chunk. cbn [total_len_delivered p single_one_delivered total_len].
    destruct (Nat.leb_spec 64 (length l)); [lia|].
    rewrite app_length. cbn [length]. unfold ending, zeros. rewrite (Nat.mod_small (length l) 64) by exact Ll.
    destruct (Nat.leb_spec 8 (64 - (length l + 1))) as [L8|L8].
    + (* one block *)
      assert (Ez : (119 - length l) mod 64 = 64 - (length l + 1) - 8).
      { replace (119 - length l) with ((55 - length l) + 1 * 64) by lia. rewrite Nat.mod_add, Nat.mod_small by lia. lia. }
      rewrite Ez. rewrite <- (app_assoc l [0x80%N] (repeat 0%N (64 - (length l + 1) - 8) ++ store_len len)).
      set (blk := l ++ [0x80%N] ++ repeat 0%N (64 - (length l + 1) - 8) ++ store_len len).
      assert (Lb : length blk = 64) by (unfold blk; rewrite !app_length, repeat_length, store_len_length; cbn [length]; lia).
      assert (Fb : Forall byte blk).
      { unfold blk. apply Forall_app; split; [exact F|]. apply Forall_app; split; [constructor; [reflexivity|constructor]|].
        apply Forall_app; split; [apply repeat_bytes|apply store_len_bytes]. }
      rewrite Lb. change (64 / 64) with 1. cbn [blocks fold_left total_len_delivered]. rewrite firstn_all2 by lia.
      destruct (compress_step H blk Sm Fb Lb) as [-> _]. reflexivity.
    + (* two blocks *)
      assert (Ez : (119 - length l) mod 64 = (64 - (length l + 1)) + 56) by (rewrite Nat.mod_small by lia; lia).
      rewrite Ez, repeat_app.
      set (blk := (l ++ [0x80%N]) ++ repeat 0%N (64 - (length l + 1))).
      set (blk2 := repeat 0%N 56 ++ store_len len).
      assert (Lb : length blk = 64) by (unfold blk; rewrite !app_length, repeat_length; cbn [length]; lia).
      assert (Lb2 : length blk2 = 64) by reflexivity.
      assert (Fb : Forall byte blk).
      { unfold blk. apply Forall_app; split; [|apply repeat_bytes]. apply Forall_app; split; [exact F|constructor; [reflexivity|constructor]]. }
      assert (Fb2 : Forall byte blk2) by (apply Forall_app; split; [apply repeat_bytes|apply store_len_bytes]).
      assert (EM : l ++ [0x80%N] ++ (repeat 0%N (64 - (length l + 1)) ++ repeat 0%N 56) ++ store_len len = blk ++ blk2).
      { unfold blk, blk2. now rewrite <- !app_assoc. }
      rewrite EM. rewrite (app_length blk blk2), Lb, Lb2. change ((64 + 64) / 64) with 2. cbn [blocks fold_left total_len_delivered p single_one_delivered total_len].
      rewrite (firstn_eq 64 blk blk2 Lb), (skipn_eq 64 blk blk2 Lb). rewrite (firstn_all2 blk2) by lia.
      destruct (compress_step H blk Sm Fb Lb) as [-> Sm1]. cbn [Nat.leb app length Nat.sub].
      change (repeat 0%N (56) ++ store_len len) with blk2.
      destruct (compress_step _ blk2 Sm1 Fb2 Lb2) as [E2 _]. change (([] : list N) ++ blk2) with blk2. rewrite E2. reflexivity.
  - assert (Ll : 64 <= length l). { assert (length l / 64 <> 0) by lia. destruct (Nat.lt_ge_cases (length l) 64) as [X|X]; [|exact X]. apply Nat.div_small in X. lia. }
    destruct fuel as [|fuel]; [lia|]. cbn [chunks]. unfold calc_chunk. cbn [total_len_delivered p single_one_delivered total_len].
    destruct (Nat.leb_spec 64 (length l)); [|lia].
    assert (Lb : length (firstn 64 l) = 64) by (rewrite firstn_length; lia).
    assert (Fs : Forall byte (firstn 64 l) /\ Forall byte (skipn 64 l)) by (rewrite <- (firstn_skipn 64 l) in F; now apply Forall_app in F).
    destruct Fs as [F1 F2]. destruct (compress_step H _ Sm F1 Lb) as [-> Sm1].
    assert (Em : length l = length (skipn 64 l) + 1 * 64) by (rewrite skipn_length; lia).
    assert (Eend : ending l len = firstn 64 l ++ ending (skipn 64 l) len).
    { unfold ending, zeros. rewrite Em, Nat.mod_add by lia. rewrite (app_assoc (firstn 64 l) (skipn 64 l)). now rewrite (firstn_skipn 64 l). }
    rewrite IH; [|rewrite Em, Nat.div_add in Eq by lia; lia|exact F2|exact Sm1|lia].
    rewrite Eend, app_length, Lb. replace (64 + length (ending (skipn 64 l) len)) with (length (ending (skipn 64 l) len) + 1 * 64) by lia.
    rewrite Nat.div_add, Nat.add_1_r by lia. cbn [blocks fold_left]. rewrite (firstn_eq 64 _ _ Lb), (skipn_eq 64 _ _ Lb). reflexivity.
Qed.
