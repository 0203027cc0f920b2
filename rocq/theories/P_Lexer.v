(** Properties of the lexer of build files. *)
From Verif Require Import Base M_Format M_Lexer S_Lexer L_Lexer L_Source L_LexBuf.

(** [lexes m src ts]: lexing src succeeds with the tokens ts followed by the end of the file. *)
Definition lexes (m : mode) (src : bytes) (ts : list token) : Prop :=
  exists l, lexer_lex m src = Some (true, l) /\ toks l = ts ++ [plain tok_eof].

(** ** C48 *)
Lemma numeral_by (digit : ascii -> N -> Prop) base ps : Forall (fun p => digit (fst p) (snd p)) ps ->
  forall ds v, map fst ps = ds -> fold_left (fun v p => v * base + snd p)%N ps 0%N = v -> numeral digit base ds v.
Proof.
  induction ps as [|p ps IH] using rev_ind; intros F ds v <- <-; [constructor|].
  rewrite map_app, fold_left_app. cbn [map fold_left]. apply Forall_app in F as [F1 F2].
  constructor; [now apply IH|now inversion F2].
Qed.
Lemma lexes_one m txt t : format m = false -> txt <> [] -> reads m (txt ++ []) t [] -> lexes m txt [t].
Proof.
  intros Hf Ne R. unfold lexes, lexer_lex.
  destruct (R (start_lx txt)) as (l1 & T1 & T2 & T3 & T4 & T5 & T6); [cbn; now rewrite app_nil_r|].
  destruct txt as [|c txt]; [now destruct Ne|]. cbn [length tokenize]. rewrite T1.
  unfold tokenize_one. rewrite T2. cbn -[toks]. eexists. split; [reflexivity|]. cbn [push toks]. 
  cbn. rewrite T3. reflexivity.
Qed.
Lemma apart_end x : apart x [].
Proof. intros t a c r _ E. discriminate E. Qed.

(** Every byte string is the value of the literal made by escaping it. *)
Theorem C48_escaped_strings : forall fn s,
  lexes (mkMode false fn) (QUOTE :: escaped s ++ [QUOTE]) [mkTok tok_string s 0].
Proof.
  intros fn s. apply lexes_one; [reflexivity|discriminate|].
  apply reads_string; [reflexivity|apply escaped_denotes|apply apart_end].
Qed.
Print Assumptions C48_escaped_strings.
Example C48_escaped_strings_used :
  QUOTE :: escaped (B "it's \ " ++ [NL; NUL; ch 200]) ++ [QUOTE] = B "'it\'s \\ \n\000" ++ [ch 200] ++ B "'".
Proof. reflexivity. Qed.

(** Every literal denotes what the rules of the language say. *)
Theorem C48_literals_denote : forall fn body s, denotes body s ->
  lexes (mkMode false fn) (QUOTE :: body ++ [QUOTE]) [mkTok tok_string s 0].
Proof.
  intros fn body s D. apply lexes_one; [reflexivity|discriminate|].
  apply reads_string; [reflexivity|assumption|apply apart_end].
Qed.
Print Assumptions C48_literals_denote.
Example C48_literals_denote_used : denotes (B "a\t\x41\q\60") (B "a" ++ TAB :: B "A\q0").
Proof.
  apply den_char; try discriminate. apply (den_escape "t"%char 9); [cbn; tauto|].
  apply (den_unicode "x"%char 2 (B "41") 65 (B "A") (B "\q\60")).
  - cbn; tauto.
  - reflexivity.
  - apply (numeral_by _ _ [("4"%char, 4); ("1"%char, 1)]%N); try reflexivity. repeat constructor; left; reflexivity.
  - left. split; [lia|reflexivity].
  - apply den_other.
    + intros n H. repeat (destruct H as [H|H]; [discriminate H|]). exact H.
    + intros n H. repeat (destruct H as [H|H]; [discriminate H|]). exact H.
    + intros v H. unfold decimal_digit in H. apply nth_error_In in H. repeat (destruct H as [H|H]; [discriminate H|]). exact H.
    + discriminate.
    + apply (den_octal (B "60") 48 [] []); [split; vm_compute; auto| |reflexivity|right; intros c v H; vm_compute; intros <-|constructor].
      * apply (numeral_by _ _ [("6"%char, 6); ("0"%char, 0)]%N); try reflexivity. repeat constructor; reflexivity.
      * apply nth_error_In in H. repeat (destruct H as [H|H]; [discriminate H|]). exact H.
Qed.

(** Between three quotes everything up to the next three quotes stands for itself. *)
Theorem C48_raw_strings : forall fn s, raw s ->
  lexes (mkMode false fn) (three ++ s ++ three) [mkTok tok_string s 0].
Proof.
  intros fn s R. apply lexes_one; [reflexivity|discriminate|]. now apply reads_raw.
Qed.
Print Assumptions C48_raw_strings.
Example C48_raw_strings_used : raw (B "it's \n" ++ [NL]).
Proof.
  split; [intros H; repeat (destruct H as [H|H]; [discriminate H|]); exact H|].
  intros a b E. do 8 (destruct a as [|? a]; [discriminate E||(cbn; lia)|injection E as <- E]). vm_compute. lia.
Qed.

(** A text in UTF-8 *)
Inductive utf8_text : bytes -> Prop :=
| ut_nil : utf8_text []
| ut_char : forall v u t, is_character v -> is_utf8 v u -> utf8_text t -> utf8_text (u ++ t).

(** [unicode_literal k ds v src]: src is the literal of \x, \u or \U with the digits ds for v. *)
Definition unicode_literal (ds : bytes) (v : N) (src : bytes) : Prop :=
  exists k n, In (k, n) hex_escapes /\ length ds = n /\ numeral hex_digit 16 ds v
    /\ src = QUOTE :: BSLASH :: k :: ds ++ [QUOTE].

Lemma utf8_exists v : (v <= 1114111)%N -> exists u, is_utf8 v u.
Proof.
  intros H. destruct (N.lt_ge_cases v 128) as [A|A]; [exists [byte v]; left; auto|].
  assert (D : forall x, (x = x / 64 * 64 + x mod 64 /\ x mod 64 < 64)%N).
  { intros x. split; [rewrite N.mul_comm; apply N.div_mod; discriminate|apply N.mod_lt; discriminate]. }
  destruct (D v) as [D1 D2]. destruct (D (v / 64)%N) as [D3 D4]. destruct (D (v / 64 / 64)%N) as [D5 D6].
  destruct (N.lt_ge_cases v 2048) as [A2|A2].
  { eexists. right. left. exists (v / 64)%N, (v mod 64)%N. repeat split; auto.
    apply N.div_lt_upper_bound; lia. }
  destruct (N.lt_ge_cases v 65536) as [A3|A3].
  { eexists. right. right. left. exists (v / 64 / 64)%N, ((v / 64) mod 64)%N, (v mod 64)%N. repeat split; auto.
    - rewrite N.div_div by discriminate. apply N.div_lt_upper_bound; lia.
    - rewrite <- D3. exact D1. }
  eexists. right. right. right. exists (v / 64 / 64 / 64)%N, ((v / 64 / 64) mod 64)%N, ((v / 64) mod 64)%N, (v mod 64)%N.
  repeat split; auto.
  - rewrite !N.div_div by discriminate. apply N.div_lt_upper_bound; lia.
  - rewrite <- D5, <- D3. exact D1.
Qed.

(** Escapes of characters yield their UTF-8 encoding.  Missing: numbers of surrogates (see below). *)
Theorem C48_unicode_partial : forall fn ds v src, unicode_literal ds v src -> is_character v ->
  exists u, is_utf8 v u /\ utf8_text u /\ lexes (mkMode false fn) src [mkTok tok_string u 0].
Proof.
  intros fn ds v src (k & n & I & L & N & ->) C.
  destruct (utf8_exists v) as [u U]; [destruct C; lia|]. exists u. split; [assumption|]. split.
  - rewrite <- (app_nil_r u). econstructor; eauto. constructor.
  - change (QUOTE :: BSLASH :: k :: ds ++ [QUOTE]) with (QUOTE :: (BSLASH :: k :: ds) ++ [QUOTE]).
    apply C48_literals_denote. rewrite <- (app_nil_r ds), <- (app_nil_r u). econstructor; eauto. constructor.
Qed.
Print Assumptions C48_unicode_partial.
Example C48_unicode_used : unicode_literal (B "20aC") 8364 (B "'\u20aC'") /\ is_character 8364
  /\ is_utf8 8364 [ch 226; ch 130; ch 172].
Proof.
  split; [|split].
  - exists "u"%char, 4. split; [cbn; tauto|]. split; [reflexivity|]. split; [|reflexivity].
    apply (numeral_by _ _ [("2"%char, 2); ("0"%char, 0); ("a"%char, 10); ("C"%char, 12)]%N); try reflexivity.
    repeat constructor; try (left; reflexivity); right; reflexivity.
  - left. lia.
  - right. right. left. exists 2%N, 2%N, 44%N. repeat split; lia.
Qed.

(** The escape of a surrogate is accepted although no valid UTF-8 text encodes it. *)
Theorem C48_refuted : exists ds v src s, unicode_literal ds v src /\
  lexes (mkMode false false) src [mkTok tok_string s 0] /\ ~ utf8_text s.
Proof.
  exists (B "d800"), 55296%N, (B "'\ud800'"), [ch 237; ch 160; ch 128].
  assert (U : unicode_literal (B "d800") 55296 (B "'\ud800'")).
  { exists "u"%char, 4. split; [cbn; tauto|]. split; [reflexivity|]. split; [|reflexivity].
    apply (numeral_by _ _ [("d"%char, 13); ("8"%char, 8); ("0"%char, 0); ("0"%char, 0)]%N); try reflexivity.
    repeat constructor; left; reflexivity. }
  split; [exact U|]. split.
  - apply (C48_literals_denote false (B "\ud800")). destruct U as (k & n & _ & _ & N & _).
    apply (den_unicode "u"%char 4 (B "d800") 55296 [ch 237; ch 160; ch 128] [] []); [cbn; tauto|reflexivity|exact N| |constructor].
    right. right. left. exists 13%N, 32%N, 0%N. repeat split; lia.
  - intros T.
    assert (V : forall n k, (n < 256)%N -> byte n = ch k -> k < 256 -> N.to_nat n = k).
    { intros n k L E Lk. apply (f_equal nat_of_ascii) in E. unfold byte, ch in E. unfold nat_of_ascii in E.
      rewrite N_ascii_embedding in E by assumption. rewrite E. unfold ascii_of_nat. rewrite N_ascii_embedding by lia. apply Nat2N.id. }
    remember [ch 237; ch 160; ch 128] as q eqn:Q. destruct T as [|v u t C H T]; [discriminate Q|].
    destruct H as [(H & ->)|[(a & b & Ha & Hb & -> & Hv & ->)|[(a & b & c & Ha & Hb & Hc & -> & Hv & ->)|
                (a & b & c & d & Ha & Hb & Hc & Hd & -> & Hv & ->)]]]; cbn [app] in Q.
    + assert (E : byte v = ch 237) by congruence. apply V in E; lia.
    + assert (E : byte (192 + a) = ch 237) by congruence. apply V in E; lia.
    + assert (E : byte (224 + a) = ch 237) by congruence. apply V in E; [|lia|lia].
      assert (E2 : byte (128 + b) = ch 160) by congruence. apply V in E2; [|lia|lia].
      unfold is_character in C. lia.
    + assert (E : byte (240 + a) = ch 237) by congruence. apply V in E; lia.
Qed.
Print Assumptions C48_refuted.

(** ** C96: lexing writes only inside its buffer *)
(** The buffer has one byte more than the source; [hi] is one past the last byte written.
    Missing: the formatter's mode (see below). *)
Theorem C96_writes_in_buffer_partial : forall fn src ok l,
  lexer_lex (mkMode false fn) src = Some (ok, l) -> hi l <= length src + 1.
Proof. intros fn src ok l H. exact (lexer_room (mkMode false fn) src ok l eq_refl H). Qed.
Print Assumptions C96_writes_in_buffer_partial.
(** the bound is reached *)
Example C96_writes_in_buffer_used : exists l, lexer_lex (mkMode false false) (B "abc") = Some (true, l) /\ hi l = 4.
Proof. eexists. split; vm_compute; reflexivity. Qed.

(** In the formatter's mode, the text of every number and string is copied with a terminating NUL
    byte: two of them next to each other do not fit. *)
Theorem C96_refuted : exists src ok l,
  lexer_lex (mkMode true false) src = Some (ok, l) /\ length src + 1 < hi l.
Proof. exists (B "'a''b'"), true. eexists. split; [vm_compute; reflexivity|]. vm_compute. lia. Qed.
Print Assumptions C96_refuted.

(** ** C97: lexing ends, and the tokens end with the end of the file *)
Theorem C97_lexing_ends : forall m src,
  exists ok l ts, lexer_lex m src = Some (ok, l) /\ toks l = ts ++ [plain tok_eof].
Proof.
  intros m src. destruct (lexer_lex m src) as [[ok l]|] eqn:E; [|now destruct (lexer_ends m src)].
  destruct (tokenize_eof _ _ _ _ _ _ E) as [ts T]. eauto.
Qed.
Print Assumptions C97_lexing_ends.
Example C97_lexing_ends_used : exists l,
  lexer_lex (mkMode false false) (B "x = 'abc" ++ NL :: B "#") = Some (false, l) /\ length (toks l) = 3.
Proof. eexists. split; vm_compute; reflexivity. Qed.

(** ** C98: a text is read as the tokens it spells *)
Theorem C98_tokens_as_spelled : forall txt ts, source 0 0 0 ts txt -> lexes (mkMode false false) txt ts.
Proof. intros txt ts S. exact (lex_source (mkMode false false) eq_refl eq_refl _ _ S). Qed.
Print Assumptions C98_tokens_as_spelled.
Example C98_tokens_as_spelled_used :
  source 0 0 0 [mkTok tok_identifier (B "x1") 0; plain tok_plus_assign; plain tok_lbrack; mkTok tok_number [] 255; plain tok_comma;
                mkTok tok_string (B "b") 0; plain tok_rbrack; plain tok_eol; plain tok_not]
    (B "x1 +=[0xFF," ++ NL :: B " 'b'] # c" ++ NL :: B "not").
Proof.
  assert (A : forall (x : bytes) (c : ascii) (r : bytes), In c (B "[, ]") -> apart x (c :: r)).
  { intros x c r I t a c' r' _ E. injection E as -> ->.
    repeat (destruct I as [<-|I]; [repeat split; try (intros [_ X]; discriminate X)|]). destruct I. }
  change (B "x1 +=[0xFF," ++ NL :: B " 'b'] # c" ++ NL :: B "not")
    with (B "x1" ++ [" "%char] ++ B "+=" ++ "["%char :: B "0xFF" ++ B "," ++ NL :: [" "%char] ++ (QUOTE :: B "b" ++ [QUOTE])
           ++ "]"%char :: [" "%char] ++ "#"%char :: B " c" ++ NL :: B "not" ++ []).
  apply so_token; [apply sp_identifier| |].
  { split; [do 2 eexists; split; [reflexivity|split; [reflexivity|repeat constructor]]|].
    intros t I. unfold words in I. cbn [In] in I. repeat (destruct I as [E|I]; [discriminate E|]). destruct I. }
  { apply A. vm_compute. tauto. }
  apply so_blank; [apply bl_char; cbn; tauto|].
  apply so_token; [apply (sp_symbol (B "+=")); cbn; tauto|apply A; vm_compute; tauto|].
  apply so_lbrack. apply so_token; [|apply A; vm_compute; tauto|].
  { apply (sp_number (B "0xFF") 255). apply nt_hex; [cbn; tauto|discriminate| |reflexivity].
    apply (numeral_by _ _ [("F"%char, 15); ("F"%char, 15)]%N); try reflexivity. repeat constructor; right; reflexivity. }
  apply so_token; [apply (sp_symbol (B ",")); cbn; tauto| |].
  { intros t a c r E1 E2. injection E2 as <- <-. repeat split; intros [_ X]; discriminate X. }
  apply so_inside; [lia|]. apply so_blank; [apply bl_char; cbn; tauto|].
  apply so_token; [apply sp_string; apply (escaped_denotes (B "b"))|apply A; vm_compute; tauto|].
  apply so_rbrack. apply so_blank; [apply bl_char; cbn; tauto|].
  apply so_comment; [intros H; repeat (destruct H as [H|H]; [discriminate H|]); exact H
                    |intros H; repeat (destruct H as [H|H]; [discriminate H|]); exact H|eauto|].
  apply so_newline. apply so_token; [apply (sp_word (B "not")); cbn; tauto|apply apart_end|constructor].
Qed.
