(** Lemmas about the lexer. *)
From Verif Require Import Base M_Format M_Lexer S_Lexer.
Local Arguments B _ : simpl never.

Ltac digit_cases v H :=
  let k := fresh "k" in let E := fresh "E" in
  remember (N.to_nat v) as k eqn:E; assert (v = N.of_nat k) as -> by (subst k; symmetry; apply N2Nat.id); clear E;
  do 16 (destruct k as [|k]; [first [discriminate H | injection H as <-; vm_compute; auto]|]);
  try (destruct k; discriminate H).

Lemma hex_digit_val c v : hex_digit c v -> is_hex c = true /\ digit_of c = Z.of_N v /\ (v < 16)%N.
Proof. intros [H|H]; digit_cases v H. Qed.
Lemma octal_digit_val c v : octal_digit c v -> is_digit c = true /\ digit_of c = Z.of_N v /\ (v < 8)%N.
Proof. intros H; unfold octal_digit in H; digit_cases v H. Qed.
Lemma decimal_digit_val c v : decimal_digit c v -> is_digit c = true /\ digit_of c = Z.of_N v /\ (v < 10)%N.
Proof. intros H; unfold decimal_digit in H; digit_cases v H. Qed.
Lemma binary_digit_val c v : binary_digit c v -> is_digit c = true /\ digit_of c = Z.of_N v /\ (v < 2)%N.
Proof. intros H; unfold binary_digit in H; digit_cases v H. Qed.

Lemma ch_cval c : ch (cval c) = c.
Proof. apply ascii_nat_embedding. Qed.
Lemma is_digit_decimal c : is_digit c = true -> exists v, decimal_digit c v.
Proof.
  unfold is_digit, decimal_digit. rewrite andb_true_iff, !Nat.leb_le. intros [H1 H2].
  exists (N.of_nat (cval c - 48)). rewrite Nat2N.id. rewrite <- (ch_cval c) at 2.
  remember (cval c - 48) as k. replace (cval c) with (48 + k) by lia. assert (k < 10) by lia. clear Heqk H1 H2.
  do 10 (destruct k as [|k]; [reflexivity|]). lia.
Qed.
Lemma no_digit_first_iff t : no_digit_first t <-> is_digit (hd NUL t) = false.
Proof.
  unfold no_digit_first. split.
  - intros H. destruct (is_digit (hd NUL t)) eqn:E; [|reflexivity].
    destruct (is_digit_decimal _ E) as [v V]. now destruct (H _ _ V).
  - intros H c v V <-. apply decimal_digit_val in V as [V _]. congruence.
Qed.

Section NUMERAL.
Variables (digit : ascii -> N -> Prop) (base : N) (ok : ascii -> bool).
Hypothesis D : forall c v, digit c v -> ok c = true /\ digit_of c = Z.of_N v /\ (v < base)%N.
Lemma numeral_take ds v : numeral digit base ds v ->
  forall r, take_digits (Z.of_N base) (ds ++ r) 0 = take_digits (Z.of_N base) r (Z.of_N v).
Proof.
  induction 1 as [|ds v c d H IH Hd]; intros r; [reflexivity|].
  rewrite <- app_assoc, IH. destruct (D _ _ Hd) as (_ & E & L). cbn [app take_digits]. rewrite E.
  destruct (Z.ltb_spec (Z.of_N d) (Z.of_N base)); [|lia].
  f_equal. lia.
Qed.
Lemma numeral_ok ds v : numeral digit base ds v -> Forall (fun c => ok c = true) ds.
Proof.
  induction 1 as [|ds v c d H IH Hd]; [constructor|].
  apply Forall_app. split; [assumption|]. constructor; [apply (D _ _ Hd)|constructor].
Qed.
Lemma numeral_bound ds v : numeral digit base ds v -> (v < base ^ N.of_nat (length ds))%N.
Proof.
  induction 1 as [|ds v c d H IH Hd]; [cbn; lia|].
  destruct (D _ _ Hd) as (_ & _ & L). rewrite app_length. cbn [length].
  rewrite Nat.add_1_r, Nat2N.inj_succ, N.pow_succ_r'. nia.
Qed.
End NUMERAL.

Lemma last_cons {A} (d : A) ds c : last (d :: ds) c = last ds d.
Proof. revert d c. induction ds as [|e ds IH]; intros d c; [reflexivity|]. change (last (e :: ds) c = last (e :: ds) d). now rewrite !IH. Qed.
Lemma hexes_spec ds r : Forall (fun c => is_hex c = true) ds -> forall c num,
  hexes (length ds) (c :: ds ++ r) num = (last ds c :: r, Some (num ++ ds)).
Proof.
  induction ds as [|d ds IH]; intros F c num; cbn [length hexes app tl hd].
  - now rewrite app_nil_r.
  - inversion F; subst. replace (is_hex d) with true by auto. rewrite IH by assumption.
    rewrite <- app_assoc. cbn [app]. now rewrite ?last_cons, <- ?(last_cons d ds c).
Qed.
Lemma octals_spec ds r : Forall (fun c => is_digit c = true) ds -> forall c num n,
  length ds <= n -> (length ds = n \/ is_digit (hd NUL r) = false) ->
  octals n (c :: ds ++ r) num = (last ds c :: r, num ++ ds).
Proof.
  induction ds as [|d ds IH]; intros F c num n L X; destruct n as [|n]; cbn [length] in *; try lia.
  - cbn. now rewrite app_nil_r.
  - destruct X as [X|X]; [lia|]. cbn [octals app tl]. rewrite X. cbn. now rewrite app_nil_r.
  - inversion F; subst. cbn [octals app tl hd]. replace (is_digit d) with true by auto.
    rewrite IH by (try assumption; try lia; destruct X; auto; lia).
    rewrite <- app_assoc. cbn [app]. now rewrite ?last_cons, <- ?(last_cons d ds c).
Qed.

(** ** UTF-8 *)
Lemma lor_add p v k : (v < 2 ^ k)%N -> N.lor (p * 2 ^ k) v = (p * 2 ^ k + v)%N.
Proof.
  intros H. rewrite <- N.lxor_lor, <- N.add_nocarry_lxor; [reflexivity| |].
  all: apply N.bits_inj; intros i; rewrite N.land_spec, N.bits_0;
    destruct (N.lt_ge_cases i k) as [L|L];
    [rewrite N.mul_pow2_bits_low by assumption; reflexivity|
     rewrite andb_comm; destruct (N.eq_dec v 0) as [->|Z]; [now rewrite N.bits_0|];
     rewrite (N.bits_above_log2 v i); [reflexivity|];
     apply (N.lt_le_trans _ k); [apply N.log2_lt_pow2; lia|assumption]].
Qed.
Lemma low6 v : N.land v 63 = (v mod 64)%N.
Proof. apply (N.land_ones v 6). Qed.
Lemma utf8_tail_val v s : utf8_tail v s = byte (128 + (v / 2 ^ s) mod 64).
Proof.
  unfold utf8_tail, utf8_byte, byte. f_equal. rewrite low6, N.shiftr_div_pow2.
  apply (lor_add 1 _ 7). assert (((v / 2 ^ s) mod 64 < 64)%N) by (apply N.mod_lt; discriminate).
  change (2 ^ 7)%N with 128%N. lia.
Qed.
Lemma utf8_first p k v s : (v / 2 ^ s < 2 ^ k)%N -> utf8_byte (p * 2 ^ k) (N.shiftr v s) = byte (p * 2 ^ k + v / 2 ^ s).
Proof. intros H. unfold utf8_byte, byte. now rewrite N.shiftr_div_pow2, lor_add. Qed.
Lemma divs a b c : (b < c)%N -> ((a * c + b) / c = a /\ (a * c + b) mod c = b)%N.
Proof.
  intros H. split; symmetry; [apply (N.div_unique _ _ _ b)|apply (N.mod_unique _ _ a)]; lia.
Qed.

Lemma write_utf8_spec v u : is_utf8 v u -> write_utf8 v = Some u.
Proof.
  intros H. unfold write_utf8.
  destruct H as [(H & ->)|[(a & b & Ha & Hb & -> & Hv & ->)|[(a & b & c & Ha & Hb & Hc & -> & Hv & ->)|
                (a & b & c & d & Ha & Hb & Hc & Hd & -> & Hv & ->)]]].
  - destruct (N.leb_spec v 127); [reflexivity|lia].
  - destruct (N.leb_spec (a * 64 + b) 127); [lia|]. destruct (N.leb_spec (a * 64 + b) 2047); [|lia].
    rewrite !utf8_tail_val. change (192%N) with (6 * 2 ^ 5)%N at 1.
    destruct (divs a b 64 Hb) as [D1 D2].
    rewrite utf8_first; change (2 ^ 6)%N with 64%N; rewrite D1; [|change (2 ^ 5)%N with 32%N; lia].
    change (2 ^ 0)%N with 1%N. rewrite N.div_1_r, D2. reflexivity.
  - set (w := ((a * 64 + b) * 64 + c)%N) in *.
    destruct (N.leb_spec w 127); [lia|]. destruct (N.leb_spec w 2047); [lia|].
    destruct (N.leb_spec w 65535); [|lia].
    rewrite !utf8_tail_val. change (224%N) with (14 * 2 ^ 4)%N at 1.
    destruct (divs (a * 64 + b) c 64 Hc) as [D1 D2]. destruct (divs a b 64 Hb) as [D3 D4].
    fold w in D1, D2.
    assert (W1 : (w / 2 ^ 12 = a)%N).
    { change (2 ^ 12)%N with (64 * 64)%N. rewrite <- N.div_div by discriminate. now rewrite D1, D3. }
    rewrite utf8_first; rewrite W1; [|change (2 ^ 4)%N with 16%N; lia].
    change (2 ^ 6)%N with 64%N. change (2 ^ 0)%N with 1%N. rewrite N.div_1_r, D2, D1, D4. reflexivity.
  - set (w := (((a * 64 + b) * 64 + c) * 64 + d)%N) in *.
    destruct (N.leb_spec w 127); [lia|]. destruct (N.leb_spec w 2047); [lia|].
    destruct (N.leb_spec w 65535); [lia|]. destruct (N.leb_spec w 1114111); [|lia].
    rewrite !utf8_tail_val. change (240%N) with (30 * 2 ^ 3)%N at 1.
    destruct (divs ((a * 64 + b) * 64 + c) d 64 Hd) as [D1 D2].
    destruct (divs (a * 64 + b) c 64 Hc) as [D3 D4]. destruct (divs a b 64 Hb) as [D5 D6].
    fold w in D1, D2.
    assert (W1 : (w / 2 ^ 12 = a * 64 + b)%N).
    { change (2 ^ 12)%N with (64 * 64)%N. rewrite <- N.div_div by discriminate. now rewrite D1, D3. }
    assert (W2 : (w / 2 ^ 18 = a)%N).
    { change (2 ^ 18)%N with (2 ^ 12 * 64)%N. rewrite <- N.div_div by discriminate. now rewrite W1, D5. }
    rewrite utf8_first; rewrite W2; [|change (2 ^ 3)%N with 8%N; lia].
    change (2 ^ 6)%N with 64%N. change (2 ^ 0)%N with 1%N. rewrite N.div_1_r, D2, D1, W1, D4, D6. reflexivity.
Qed.

(** ** Reading a string *)
Definition same (l l' : lx) : Prop :=
  data_i l' = data_i l /\ paren l' = paren l /\ bracket l' = bracket l /\ curl l' = curl l /\ toks l' = toks l.
Lemma same_refl l : same l l.
Proof. repeat split. Qed.
Lemma same_trans a b c : same a b -> same b c -> same a c.
Proof. intros (A1 & A2 & A3 & A4 & A5) (B1 & B2 & B3 & B4 & B5). repeat split; congruence. Qed.

Lemma put_spec c l acc : exists l', put c (l, acc) = (l', acc ++ [c]) /\ rest l' = rest l /\ same l l'.
Proof. eexists. split; [reflexivity|]. repeat split. Qed.
Lemma puts_spec u : forall l acc, exists l', puts u (l, acc) = (l', acc ++ u) /\ rest l' = rest l /\ same l l'.
Proof.
  induction u as [|c u IH]; intros l acc.
  - exists l. split; [cbn; now rewrite app_nil_r|]. split; [reflexivity|apply same_refl].
  - destruct (put_spec c l acc) as (l1 & E & R & S). destruct (IH l1 (acc ++ [c])) as (l2 & E2 & R2 & S2).
    exists l2. split; [unfold puts in *; cbn [fold_left]; rewrite E, E2, <- app_assoc; reflexivity|].
    split; [congruence|eapply same_trans; eassumption].
Qed.

Definition steps (l : lx) (acc : bytes) (r : str_result) (t u : bytes) : Prop :=
  exists l', r = SCont (l', acc ++ u) /\ rest l' = t /\ same l l'.

(** the character that is current when [t] is still to be read *)
Definition steps_at (l : lx) (acc : bytes) (r : str_result) (t u : bytes) : Prop :=
  exists l', r = SCont (l', acc ++ u) /\ tl (rest l') = t /\ same l l'.

Lemma in_escapes e n : In (e, n) escapes -> find (fun p => ceqb (fst p) e) simple_escapes = Some (e, ch n).
Proof.
  unfold escapes. cbn [In]. intros H.
  repeat (destruct H as [H|H]; [injection H as <- <-; reflexivity|]). destruct H.
Qed.
Lemma in_hex_escapes k n : In (k, n) hex_escapes ->
  find (fun p => ceqb (fst p) k) simple_escapes = None /\ (ceqb k "x"%char || ceqb k "u"%char || ceqb k "U"%char) = true
  /\ (if ceqb k "x"%char then 2 else if ceqb k "u"%char then 4 else 8) = n.
Proof.
  unfold hex_escapes. cbn [In]. intros H.
  repeat (destruct H as [H|H]; [injection H as <- <-; repeat split; reflexivity|]). destruct H.
Qed.
Lemma digit_not_special c : is_digit c = true ->
  find (fun p => ceqb (fst p) c) simple_escapes = None /\ (ceqb c "x"%char || ceqb c "u"%char || ceqb c "U"%char) = false.
Proof.
  intros H. destruct (is_digit_decimal _ H) as [v V]. unfold decimal_digit in V. digit_cases v V.
Qed.

Lemma escape_steps body s : denotes body s -> forall l acc R,
  rest l = body ++ R -> is_digit (hd NUL R) = false -> hd NUL body = BSLASH ->
  exists t u s', denotes t s' /\ s = u ++ s' /\ length t < length body /\ incl t body
    /\ steps_at l acc (escape l acc) (t ++ R) u.
Proof.
  intros D l acc R E X HB. unfold escape, peek1, advance. rewrite E.
  destruct D as [|c t s Q1 Q2 Q3 Q4 D|e n t s I D|k n ds v u t s I L N U D|ds v t s L N V X2 D|c t s N1 N2 N3 N4 D].
  - discriminate HB.
  - cbn in HB. congruence.
  - cbn [app tl hd]. rewrite (in_escapes _ _ I).
    match goal with |- context [put ?a (?b, acc)] => destruct (put_spec a b acc) as (l1 & P1 & P2 & P3) end.
    rewrite P1. exists t, [ch n], s. repeat split; auto; [cbn; lia|intros x; cbn; tauto|].
    exists l1. cbn in P2. rewrite P2. repeat split; apply P3.
  - cbn [app tl hd]. destruct (in_hex_escapes _ _ I) as (F & G & H). rewrite F, G, H. clear F G H.
    unfold with_rest at 1. cbn [rest]. rewrite <- app_assoc.
    pose proof (numeral_ok _ _ _ hex_digit_val _ _ N) as OK. rewrite <- L, hexes_spec by assumption.
    cbn [app].
    assert (T : take_digits 16 ds 0 = (Z.of_N v, [])).
    { pose proof (numeral_take _ _ _ hex_digit_val _ _ N []) as T. rewrite app_nil_r in T. exact T. }
    rewrite T. cbn [fst]. rewrite N2Z.id, (write_utf8_spec _ _ U).
    match goal with |- context [puts u (?b, acc)] => destruct (puts_spec u b acc) as (l1 & P1 & P2 & P3) end.
    rewrite P1. exists t, u, s. repeat split; auto;
      [cbn; rewrite app_length; lia|intros x; cbn; rewrite in_app_iff; tauto|].
    exists l1. cbn in P2. rewrite P2. repeat split; apply P3.
  - destruct ds as [|d ds]; [cbn in L; lia|]. cbn [app tl hd].
    pose proof (numeral_ok _ _ _ octal_digit_val _ _ N) as OK. inversion OK as [|? ? Od OK']; subst.
    destruct (digit_not_special _ Od) as [F G]. rewrite F, G, Od. clear F G.
    rewrite <- (app_assoc ds t R). change (d :: ds ++ t ++ R) with ((d :: ds) ++ (t ++ R)).
    rewrite octals_spec; [|assumption|cbn in *; lia|].
    2:{ destruct X2 as [X2|X2]; [left; cbn in *; lia|right].
        apply no_digit_first_iff in X2. destruct t; [exact X|exact X2]. }
    cbn [app].
    assert (T : take_digits 8 (d :: ds) 0 = (Z.of_N v, [])).
    { pose proof (numeral_take _ _ _ octal_digit_val _ _ N []) as T. rewrite app_nil_r in T. exact T. }
    rewrite T. cbn [fst]. rewrite N2Z.id, N.mod_small by assumption.
    match goal with |- context [put ?a (?b, acc)] => destruct (put_spec a b acc) as (l1 & P1 & P2 & P3) end.
    rewrite P1. exists t, [byte v], s. repeat split; auto;
      [cbn; rewrite ?app_length; lia|intros x; cbn; rewrite in_app_iff; tauto|].
    exists l1. cbn in P2. rewrite P2. repeat split; apply P3.
  - cbn [app tl hd].
    assert (F : find (fun p => ceqb (fst p) c) simple_escapes = None).
    { destruct (find _ _) as [[e v]|] eqn:F; [|reflexivity].
      apply find_some in F as [F1 F2]. cbn [fst] in F2. apply ceqb_eq in F2 as ->.
      exfalso. cbn [In simple_escapes] in F1.
      repeat (destruct F1 as [F1|F1]; [injection F1 as <- <-; eapply N1; unfold escapes; cbn [In]; eauto 20|]). destruct F1. }
    rewrite F.
    assert (G : (ceqb c "x"%char || ceqb c "u"%char || ceqb c "U"%char) = false).
    { destruct (ceqb_spec c "x"%char) as [->|]; [edestruct N2; unfold hex_escapes; cbn; eauto|].
      destruct (ceqb_spec c "u"%char) as [->|]; [edestruct N2; unfold hex_escapes; cbn; eauto|].
      destruct (ceqb_spec c "U"%char) as [->|]; [edestruct N2; unfold hex_escapes; cbn; eauto|reflexivity]. }
    rewrite G.
    assert (K : is_digit c = false).
    { destruct (is_digit c) eqn:K; [|reflexivity]. destruct (is_digit_decimal _ K) as [v V]. now destruct (N3 v). }
    rewrite K. rewrite (proj2 (ceqb_neq c NUL)) by assumption.
    destruct (put_spec BSLASH l acc) as (l1 & P1 & P2 & P3). rewrite P1.
    match goal with |- context [put ?a (?b, ?d)] => destruct (put_spec a b d) as (l2 & Q1 & Q2 & Q3) end.
    rewrite Q1. exists t, [BSLASH; c], s. repeat split; auto; [cbn; lia|intros x; cbn; tauto|].
    exists l2. rewrite <- app_assoc. cbn [app]. cbn in Q2. rewrite Q2, P2, E. repeat split; try (apply Q3 || apply P3).
    all: destruct P3 as (A1 & A2 & A3 & A4 & A5), Q3 as (B1 & B2 & B3 & B4 & B5); cbn in *; congruence.
Qed.

Lemma string_loop_denotes m fs : forall fuel body s l acc R,
  denotes body s -> rest l = body ++ QUOTE :: R -> (fs = false \/ ~ In "@"%char body) -> length body < fuel ->
  exists l', string_loop m false fs fuel l acc = Some (true, l', acc ++ s) /\ rest l' = R /\ same l l'.
Proof.
  induction fuel as [|fuel IH]; intros body s l acc R D E At L; [lia|].
  cbn [string_loop]. unfold lex_string_char. rewrite E.
  destruct (ascii_dec (hd NUL body) BSLASH) as [HB|HB].
  - destruct (escape_steps _ _ D l acc (QUOTE :: R) E eq_refl HB) as (t & u & s' & D' & -> & Lt & In' & (l1 & S1 & S2 & S3)).
    destruct body as [|c body]; [discriminate HB|]. cbn in HB. subst c. cbn [app].
    change (ceqb BSLASH NL) with false. change (ceqb BSLASH BSLASH) with true. cbv iota.
    rewrite S1. destruct (IH t s' (advance l1) (acc ++ u) R D') as (l2 & T1 & T2 & T3).
    + unfold advance, with_rest. exact S2.
    + destruct At as [At|At]; [now left|right]. intros H. apply At. now apply In'.
    + cbn in *. lia.
    + exists l2. rewrite T1, <- app_assoc. split; [reflexivity|]. split; [assumption|].
      eapply same_trans; [exact S3|]. eapply same_trans; [|exact T3]. repeat split.
  - inversion D; subst; try (now destruct HB).
    + cbn [app]. change (ceqb QUOTE NL) with false. change (ceqb QUOTE BSLASH) with false.
      change (ceqb QUOTE NUL) with false. change (ceqb QUOTE QUOTE) with true. cbv iota.
      eexists. rewrite app_nil_r. split; [reflexivity|]. cbn. rewrite E. repeat split.
    + cbn [app]. rewrite (proj2 (ceqb_neq c NL)), (proj2 (ceqb_neq c BSLASH)), (proj2 (ceqb_neq c NUL)),
        (proj2 (ceqb_neq c QUOTE)) by assumption.
      replace (ceqb c "@"%char && fs && is_start (peek1 l)) with false.
      2:{ destruct At as [->|At]; [now rewrite andb_false_r|].
          rewrite (proj2 (ceqb_neq c "@"%char)); [reflexivity|]. intros ->. apply At. now left. }
      destruct (put_spec c l acc) as (l1 & P1 & P2 & P3). rewrite P1.
      match goal with H : denotes t ?x |- _ => destruct (IH t x (advance l1) (acc ++ [c]) R H) as (l2 & T1 & T2 & T3) end.
      * unfold advance, with_rest. cbn [rest]. now rewrite P2, E.
      * destruct At as [At|At]; [now left|right]. intros H'. apply At. now right.
      * cbn in *. lia.
      * exists l2. rewrite T1, <- app_assoc. split; [reflexivity|]. split; [assumption|].
        eapply same_trans; [exact P3|]. eapply same_trans; [|exact T3]. repeat split.
Qed.

Lemma escaped_denotes s : denotes (escaped s) s.
Proof.
  induction s as [|c s IH]; [constructor|]. cbn [escaped flat_map]. unfold escape_char.
  destruct (ceqb_spec c QUOTE) as [->|N1]; [apply (den_escape QUOTE 39); [cbn; tauto|assumption]|].
  destruct (ceqb_spec c BSLASH) as [->|N2]; [apply (den_escape BSLASH 92); [cbn; tauto|assumption]|].
  destruct (ceqb_spec c NL) as [->|N3]; [apply (den_escape "n"%char 10); [cbn; tauto|assumption]|].
  destruct (ceqb_spec c NUL) as [->|N4].
  - apply (den_octal (B "000") 0); [split; vm_compute; auto| |reflexivity|now left|assumption].
    apply (num_snoc _ _ (B "00") 0 "0"%char 0); [|reflexivity].
    apply (num_snoc _ _ (B "0") 0 "0"%char 0); [|reflexivity].
    apply (num_snoc _ _ [] 0 "0"%char 0); [constructor|reflexivity].
  - now constructor.
Qed.
