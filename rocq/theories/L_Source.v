(** The lexer reads the tokens that a text spells. *)
From Verif Require Import Base M_Format M_Lexer S_Lexer L_Lexer.
Local Arguments B _ : simpl never.

Section MODE.
Variable m : mode.
Hypothesis Hf : format m = false.
Hypothesis Hg : functions m = false.

(** ** Blanks *)
Lemma with_rest_twice a b l : with_rest a (with_rest b l) = with_rest a l.
Proof. reflexivity. Qed.
Lemma skip_with s : forall com q l, skip_blanks m s com (with_rest q l) = skip_blanks m s com l.
Proof.
  assert (G : forall n s, length s <= n -> forall com q l, skip_blanks m s com (with_rest q l) = skip_blanks m s com l).
  { induction n as [|n IH]; intros s0 L com q l.
    - destruct s0; [|cbn in L; lia]. destruct com; cbn; unfold comment; rewrite ?Hf; reflexivity.
    - destruct s0 as [|c s0]; [destruct com; cbn; unfold comment; rewrite ?Hf; reflexivity|].
      cbn in L. destruct com as [text|]; cbn [skip_blanks].
      + destruct (ceqb c NUL || ceqb c NL); [unfold comment; rewrite Hf; reflexivity|]. apply IH. lia.
      + destruct (ceqb c "#"%char); [apply IH; lia|]. destruct (is_blank c); [apply IH; lia|].
        destruct (ceqb c BSLASH); [|reflexivity]. destruct s0 as [|d s0]; [reflexivity|].
        destruct (ceqb d NL); [|reflexivity]. apply IH. cbn in L. lia. }
  now apply (G (length s)).
Qed.
Lemma skip_blank x s l : blank x -> skip_blanks m (x ++ s) None l = skip_blanks m s None l.
Proof.
  intros [c H|]; [|reflexivity]. cbn in H. destruct H as [<-|[<-|[<-|[]]]]; reflexivity.
Qed.
Lemma skip_comment x s l : ~ In NL x -> ~ In NUL x -> (s = [] \/ exists r, s = NL :: r) ->
  skip_blanks m ("#"%char :: x ++ s) None l = skip_blanks m s None l.
Proof.
  intros H1 H2 E. cbn [skip_blanks]. change (ceqb "#" "#") with true. cbv iota.
  assert (G : forall x text, ~ In NL x -> ~ In NUL x -> skip_blanks m (x ++ s) (Some text) l = skip_blanks m s None l).
  { clear x H1 H2. intros x. induction x as [|c x IH]; intros text H1 H2.
    - destruct E as [->|[r ->]]; cbn; unfold comment; rewrite ?Hf; reflexivity.
    - cbn [app skip_blanks]. rewrite (proj2 (ceqb_neq c NUL)), (proj2 (ceqb_neq c NL)).
      + apply IH; intros H; [apply H1|apply H2]; now right.
      + intros ->. apply H1. now left.
      + intros ->. apply H2. now left. }
  now apply G.
Qed.
Definition solid (c : ascii) : Prop := ceqb c "#"%char = false /\ is_blank c = false /\ ceqb c BSLASH = false.
Lemma skip_solid c s l : solid c -> skip_blanks m (c :: s) None l = with_rest (c :: s) l.
Proof. intros (H1 & H2 & H3). cbn [skip_blanks]. now rewrite H1, H2, H3. Qed.

Lemma tokenize_skip l s fuel ok : skip_blanks m (rest l) None l = skip_blanks m s None l ->
  tokenize m fuel ok l = tokenize m fuel ok (with_rest s l).
Proof.
  intros H. destruct fuel as [|fuel]; [reflexivity|]. cbn [tokenize].
  assert (E : tokenize_one m l = tokenize_one m (with_rest s l)).
  { unfold tokenize_one. rewrite H. cbn [rest with_rest]. unfold with_rest at 2. cbn [rest].
    rewrite <- (skip_with s None s l). reflexivity. }
  now rewrite E.
Qed.

(** ** One token *)
Definition reads (s : bytes) (t : token) (r : bytes) : Prop :=
  forall l, rest l = s -> exists l', tokenize_one m l = Some (Cont l') /\ rest l' = r
    /\ toks l' = toks l ++ [t] /\ paren l' = paren l /\ bracket l' = bracket l /\ curl l' = curl l.

Lemma word_solid c : word_char c = true -> solid c.
Proof.
  intros H. unfold solid.
  destruct (ceqb_spec c "#"%char) as [->|]; [discriminate H|].
  destruct (ceqb_spec c BSLASH) as [->|]; [discriminate H|]. repeat split.
  unfold is_blank. destruct (ceqb_spec c CR) as [->|]; [discriminate H|].
  destruct (ceqb_spec c " "%char) as [->|]; [discriminate H|]. destruct (ceqb_spec c TAB) as [->|]; [discriminate H|reflexivity].
Qed.
Lemma inside_word c : is_inside c = word_char c.
Proof. unfold is_inside, is_start, word_char, letter. destruct (ceqb c "_"%char), (is_alpha c), (is_digit c); reflexivity. Qed.
Lemma start_letter c : is_start c = letter c.
Proof. unfold is_start, letter. now destruct (ceqb c "_"%char), (is_alpha c). Qed.
Lemma word_not_quote c : word_char c = true -> ceqb c QUOTE = false.
Proof. intros H. destruct (ceqb_spec c QUOTE) as [->|]; [discriminate H|reflexivity]. Qed.

Lemma span_all x r : Forall (fun c => word_char c = true) x -> word_char (hd NUL r) = false ->
  span is_inside (x ++ r) = (x, r).
Proof.
  intros F H. induction F as [|c x Hc F IH]; cbn [app span].
  - destruct r as [|c r]; [reflexivity|]. cbn in *. now rewrite inside_word, H.
  - now rewrite inside_word, Hc, IH.
Qed.
Lemma apart_word x c r : apart (x ++ [c]) r -> word_char c = true -> word_char (hd NUL r) = false.
Proof.
  intros A H. destruct r as [|d r]; [reflexivity|]. cbn [hd].
  destruct (A x c d r eq_refl eq_refl) as (N & _ & _). destruct (word_char d); [|reflexivity]. now destruct N.
Qed.
Lemma apart_quote x c r : apart (x ++ [c]) r -> In c ["f"%char; QUOTE] -> ceqb (hd NUL r) QUOTE = false.
Proof.
  intros A H. destruct r as [|d r]; [reflexivity|]. cbn [hd].
  destruct (A x c d r eq_refl eq_refl) as (_ & _ & N). destruct (ceqb_spec d QUOTE); [|reflexivity]. now destruct N.
Qed.
Lemma apart_eq x c r : apart (x ++ [c]) r -> In c (B "+=<>!") -> ceqb (hd NUL r) "="%char = false.
Proof.
  intros A H. destruct r as [|d r]; [reflexivity|]. cbn [hd].
  destruct (A x c d r eq_refl eq_refl) as (_ & N & _). destruct (ceqb_spec d "="%char); [|reflexivity]. now destruct N.
Qed.

(** words: identifiers and keywords *)
Lemma reads_word c x r : letter c = true -> Forall (fun c => word_char c = true) x -> apart (c :: x) r ->
  reads ((c :: x) ++ r) (match keyword m (c :: x) with Some t => plain t | None => mkTok tok_identifier (c :: x) 0 end) r.
Proof.
  intros Hc F A l E.
  assert (W : word_char c = true) by (unfold word_char; now rewrite Hc).
  assert (W2 : word_char (hd NUL r) = false).
  { assert (Fa : Forall (fun c => word_char c = true) (c :: x)) by now constructor.
    destruct (exists_last (l := c :: x) ltac:(discriminate)) as (y & d & Ey). rewrite Ey in *.
    apply (apart_word _ _ _ A). apply Forall_app in Fa as [_ Fa]. now inversion Fa. }
  unfold tokenize_one. rewrite E. cbn [app]. rewrite (skip_solid _ _ _ (word_solid _ W)).
  cbn [peek peek1 rest with_rest hd tl].
  assert (Q : ceqb c "f"%char && ceqb (hd NUL (x ++ r)) QUOTE = false).
  { destruct (ceqb_spec c "f"%char) as [->|]; [|reflexivity]. cbn [andb]. destruct x as [|d x].
    - apply (apart_quote [] "f"%char); [exact A|now left].
    - cbn. inversion F. now apply word_not_quote. }
  unfold peek, peek1. cbn [rest with_rest hd tl]. rewrite Q, (word_not_quote _ W), start_letter, Hc.
  unfold lex_identifier. cbn [rest with_rest].
  change (c :: x ++ r) with ((c :: x) ++ r). rewrite span_all by (try constructor; assumption).
  destruct (keyword m (c :: x)); (eexists; split; [reflexivity|]; cbn; rewrite ?E; repeat split; reflexivity).
Qed.

Lemma keyword_words x t : In (x, t) words ->
  keyword m x = Some t /\ exists c y, x = c :: y /\ letter c = true /\ Forall (fun c => word_char c = true) y.
Proof.
  unfold words. cbn [In]. intros H.
  repeat (destruct H as [H|H];
    [injection H as <- <-; split; [reflexivity|do 2 eexists; split; [reflexivity|split; [reflexivity|repeat constructor]]]|]).
  destruct H.
Qed.
Lemma keyword_identifier x : identifier x -> keyword m x = None.
Proof.
  intros [_ H]. unfold keyword. rewrite Hg. unfold kw_lookup.
  destruct (find _ keywords) as [[y t]|] eqn:F; [|reflexivity].
  apply find_some in F as [F1 F2]. cbn [fst] in F2. apply beqb_eq in F2 as ->.
  exfalso. apply (H t). cbn [In keywords] in F1. unfold words. cbn [In].
  repeat (destruct F1 as [F1|F1]; [injection F1 as <- <-; tauto|]). destruct F1.
Qed.

(** symbols *)
Lemma reads_symbol txt t r : In (txt, t) symbols -> apart txt r -> reads (txt ++ r) (plain t) r.
Proof.
  intros I A l E. unfold tokenize_one. rewrite E.
  unfold symbols in I. cbn [In] in I.
  repeat (destruct I as [I|I];
    [injection I as <- <-; unfold B in *; cbn [list_ascii_of_string app] in *;
     rewrite skip_solid by (repeat split; reflexivity);
     unfold peek, peek1, lex_other, symbol, peek, peek1; cbn [rest with_rest hd tl advance]; cbn -[ceqb hd];
     repeat match goal with |- context [ceqb (Ascii ?a ?b ?c ?d ?e ?f ?g ?h) ?y] =>
       let v := eval vm_compute in (ceqb (Ascii a b c d e f g h) y) in
       match v with true => change (ceqb (Ascii a b c d e f g h) y) with true
                  | false => change (ceqb (Ascii a b c d e f g h) y) with false end end;
     rewrite ?Hg; cbv iota; cbn [andb];
     try (rewrite (apart_eq [] _ r A) by (unfold B; cbn; tauto));
     eexists; split; [reflexivity|]; cbn; repeat split; try reflexivity|]).
  destruct I.
Qed.

(** numbers *)
Lemma digit_word c : is_digit c = true -> word_char c = true /\ letter c = false /\ ceqb c "f"%char = false.
Proof.
  intros H. destruct (is_digit_decimal _ H) as [v V]. unfold decimal_digit in V. digit_cases v V.
Qed.
Lemma hex_word c : is_hex c = true -> word_char c = true.
Proof.
  unfold is_hex, word_char, letter, is_alpha, is_lower, is_upper. intros H.
  apply orb_true_iff in H as [H|H]; [apply orb_true_iff in H as [H|H]|].
  - rewrite H. now rewrite orb_true_r.
  - apply andb_true_iff in H as [H1 H2]. apply Nat.leb_le in H1, H2.
    replace (97 <=? cval c) with true by (symmetry; apply Nat.leb_le; lia).
    replace (cval c <=? 122) with true by (symmetry; apply Nat.leb_le; lia). reflexivity.
  - apply andb_true_iff in H as [H1 H2]. apply Nat.leb_le in H1, H2.
    replace (65 <=? cval c) with true by (symmetry; apply Nat.leb_le; lia).
    replace (cval c <=? 90) with true by (symmetry; apply Nat.leb_le; lia). now rewrite orb_true_r.
Qed.
Lemma nonword_digit c : word_char c = false -> digit_of c = 99%Z.
Proof.
  unfold word_char, letter, is_alpha, digit_of. intros H.
  apply orb_false_iff in H as [H H2]. rewrite H2. apply orb_false_iff in H as [H _].
  apply orb_false_iff in H as [H3 H4]. now rewrite H3, H4.
Qed.
Lemma take_stop base r v : (base <= 16)%Z -> word_char (hd NUL r) = false -> take_digits base r v = (v, r).
Proof.
  intros L H. destruct r as [|c r]; [reflexivity|]. cbn [hd] in H. cbn [take_digits]. rewrite (nonword_digit _ H).
  destruct (Z.ltb_spec 99 base); [lia|reflexivity].
Qed.
Lemma digit_no_blank c : is_hex c = true -> c_isspace c = false /\ ceqb c "-"%char = false /\ ceqb c "+"%char = false.
Proof.
  intros H. unfold is_hex, is_digit, c_isspace in *.
  assert (L : 48 <= cval c).
  { rewrite !orb_true_iff, !andb_true_iff, !Nat.leb_le in H. lia. }
  split.
  - replace (cval c <=? 13) with false by (symmetry; apply Nat.leb_gt; lia).
    replace (cval c =? 32) with false by (symmetry; apply Nat.eqb_neq; lia). now rewrite andb_false_r.
  - split; [destruct (ceqb_spec c "-"%char) as [->|]|destruct (ceqb_spec c "+"%char) as [->|]]; try reflexivity;
      vm_compute in L; lia.
Qed.
Lemma is_hex_digit c : is_digit c = true -> is_hex c = true.
Proof. unfold is_hex. now intros ->. Qed.

Lemma strtol_numeral (digit : ascii -> N -> Prop) base ds v r :
  (forall c d, digit c d -> is_hex c = true /\ digit_of c = Z.of_N d /\ (d < base)%N) -> (base <= 16)%N ->
  ds <> [] -> numeral digit base ds v -> word_char (hd NUL r) = false ->
  strtol_base (Z.of_N base) (ds ++ r) = Some (Z.of_N v, r).
Proof.
  intros D Lb Ne Nu W. unfold strtol_base.
  pose proof (numeral_ok _ _ _ D _ _ Nu) as OK.
  destruct ds as [|d ds]; [now destruct Ne|]. inversion OK as [|? ? Od OK']; subst.
  destruct (digit_no_blank _ Od) as (S1 & S2 & S3).
  cbn [app dropw]. rewrite S1, S2, S3.
  match goal with |- context [starts_digit (Z.of_N base) ?X] => replace X with (d :: ds ++ r) end.
  2:{ destruct (ds ++ r) as [|x q] eqn:E; [reflexivity|].
      assert (X : ceqb x "x"%char || ceqb x "X"%char = false).
      { destruct ds as [|e ds].
        - cbn in E. subst r. cbn in W. destruct (ceqb_spec x "x"%char) as [->|]; [discriminate W|].
          destruct (ceqb_spec x "X"%char) as [->|]; [discriminate W|reflexivity].
        - injection E as -> <-. inversion OK' as [|? ? Oe _]; subst.
          destruct (ceqb_spec x "x"%char) as [->|]; [discriminate Oe|].
          destruct (ceqb_spec x "X"%char) as [->|]; [discriminate Oe|reflexivity]. }
      now rewrite X, !andb_false_r. }
  assert (T : take_digits (Z.of_N base) (d :: ds ++ r) 0 = (Z.of_N v, r)).
  { pose proof (numeral_take _ _ _ D _ _ Nu r) as T. cbn [app] in T. rewrite T. apply take_stop; [lia|assumption]. }
  assert (St : starts_digit (Z.of_N base) (d :: ds ++ r) = true).
  { cbn [starts_digit]. assert (exists u, digit d u) as [u Hu].
    { clear - Nu. remember (d :: ds) as q eqn:E. revert d ds E. induction Nu as [|qs w c u Nu IH Hc]; intros d ds E; [discriminate|].
      destruct qs as [|e qs]; cbn in E; [injection E as <- _; eauto|]. injection E as -> E. eapply IH. reflexivity. }
    destruct (D _ _ Hu) as (_ & E & L). rewrite E. apply Z.ltb_lt. lia. }
  rewrite St, T. reflexivity.
Qed.

Lemma number_from_reads base l r v start :
  strtol_base base (rest l) = Some (Z.of_N v, r) -> fits v ->
  number_from m start base l = Cont (push (mkTok tok_number [] (Z.of_N v)) (with_rest r l)).
Proof.
  intros E F. unfold number_from. rewrite E, Hf. unfold fits in F.
  change (2 ^ 63)%N with 9223372036854775808%N in F. unfold LONG_MIN, LONG_MAX.
  destruct (Z.ltb_spec (Z.of_N v) (-9223372036854775808)); [lia|].
  destruct (Z.ltb_spec 9223372036854775807 (Z.of_N v)); [lia|]. reflexivity.
Qed.

Lemma number_words txt v : number_text txt v ->
  Forall (fun c => word_char c = true) txt /\ exists c y, txt = c :: y /\ is_digit c = true.
Proof.
  intros [|d ds v0 N D F|x ds v0 I Ne D F|x ds v0 I Ne D F|x ds v0 I Ne D F].
  - split; [repeat constructor|]. do 2 eexists. split; reflexivity.
  - pose proof (numeral_ok _ _ _ decimal_digit_val _ _ D) as OK. split.
    + eapply Forall_impl; [|exact OK]. intros c H. now apply digit_word.
    + do 2 eexists. split; [reflexivity|]. now inversion OK.
  - pose proof (numeral_ok _ _ _ hex_digit_val _ _ D) as OK. split; [|do 2 eexists; split; reflexivity].
    constructor; [reflexivity|]. constructor; [destruct I as [<-|[<-|[]]]; reflexivity|].
    eapply Forall_impl; [|exact OK]. intros c H. now apply hex_word.
  - pose proof (numeral_ok _ _ _ octal_digit_val _ _ D) as OK. split; [|do 2 eexists; split; reflexivity].
    constructor; [reflexivity|]. constructor; [destruct I as [<-|[<-|[]]]; reflexivity|].
    eapply Forall_impl; [|exact OK]. intros c H. now apply digit_word.
  - pose proof (numeral_ok _ _ _ binary_digit_val _ _ D) as OK. split; [|do 2 eexists; split; reflexivity].
    constructor; [reflexivity|]. constructor; [destruct I as [<-|[<-|[]]]; reflexivity|].
    eapply Forall_impl; [|exact OK]. intros c H. now apply digit_word.
Qed.
Lemma apart_words x r : x <> [] -> Forall (fun c => word_char c = true) x -> apart x r -> word_char (hd NUL r) = false.
Proof.
  intros Ne F A. destruct (exists_last Ne) as (y & d & ->). apply (apart_word _ _ _ A).
  apply Forall_app in F as [_ F]. now inversion F.
Qed.

Lemma as_hex (digit : ascii -> N -> Prop) base : (forall c d, digit c d -> is_digit c = true /\ digit_of c = Z.of_N d /\ (d < base)%N) ->
  forall c d, digit c d -> is_hex c = true /\ digit_of c = Z.of_N d /\ (d < base)%N.
Proof. intros H c d X. destruct (H c d X) as (A & B1 & C). split; [now apply is_hex_digit|auto]. Qed.

Lemma number_reads txt v r l : number_text txt v -> apart txt r -> rest l = txt ++ r ->
  number m l = Cont (push (mkTok tok_number [] (Z.of_N v)) (with_rest r l)).
Proof.
  intros H A E. destruct (number_words _ _ H) as (W & c0 & y0 & E0 & D0).
  assert (Ne : txt <> []) by (rewrite E0; discriminate).
  pose proof (apart_words _ _ Ne W A) as Wr. clear c0 y0 E0 D0 Ne W.
  unfold number, peek, peek1. rewrite E.
  destruct H as [|d ds v N D F|x ds v I Ne D F|x ds v I Ne D F|x ds v I Ne D F].
  - unfold B in *. cbn [list_ascii_of_string app hd tl] in *. change (ceqb "0" "0") with true. cbv iota.
    assert (X : forall y, In y (B "XxBbOo") -> ceqb (hd NUL r) y = false).
    { intros y I. apply ceqb_neq. intros Ey. rewrite Ey in Wr. repeat (destruct I as [<-|I]; [discriminate Wr|]). destruct I. }
    rewrite !X by (unfold B; cbn; tauto). cbn [orb]. rewrite Hf. unfold advance. rewrite E. reflexivity.
  - cbn [app hd]. rewrite (proj2 (ceqb_neq d "0"%char)) by assumption.
    apply number_from_reads; [|assumption]. rewrite E.
    apply (strtol_numeral decimal_digit 10); [apply as_hex, decimal_digit_val|lia|discriminate|assumption|assumption].
  - cbn [app hd tl]. change (ceqb "0" "0") with true. cbv iota.
    assert (X : ceqb x "X"%char || ceqb x "x"%char = true) by (destruct I as [<-|[<-|[]]]; reflexivity).
    rewrite X. rewrite number_from_reads with (r := r) (v := v); [reflexivity| |assumption].
    cbn [rest with_rest skipn]. apply (strtol_numeral hex_digit 16); [apply hex_digit_val|lia|assumption|assumption|assumption].
  - cbn [app hd tl]. change (ceqb "0" "0") with true. cbv iota.
    assert (X : ceqb x "X"%char || ceqb x "x"%char = false /\ ceqb x "B"%char || ceqb x "b"%char = false
                /\ ceqb x "O"%char || ceqb x "o"%char = true) by (destruct I as [<-|[<-|[]]]; repeat split; reflexivity).
    destruct X as (X1 & X2 & X3). rewrite X1, X2, X3. rewrite number_from_reads with (r := r) (v := v); [reflexivity| |assumption].
    cbn [rest with_rest skipn]. apply (strtol_numeral octal_digit 8); [apply as_hex, octal_digit_val|lia|assumption|assumption|assumption].
  - cbn [app hd tl]. change (ceqb "0" "0") with true. cbv iota.
    assert (X : ceqb x "X"%char || ceqb x "x"%char = false /\ ceqb x "B"%char || ceqb x "b"%char = true)
      by (destruct I as [<-|[<-|[]]]; repeat split; reflexivity).
    destruct X as (X1 & X2). rewrite X1, X2. rewrite number_from_reads with (r := r) (v := v); [reflexivity| |assumption].
    cbn [rest with_rest skipn]. apply (strtol_numeral binary_digit 2); [apply as_hex, binary_digit_val|lia|assumption|assumption|assumption].
Qed.
Lemma reads_number txt v r : number_text txt v -> apart txt r -> reads (txt ++ r) (mkTok tok_number [] (Z.of_N v)) r.
Proof.
  intros H A l E. destruct (number_words _ _ H) as (W & c & y & -> & Dc).
  destruct (digit_word _ Dc) as (Wc & Lc & Fc).
  unfold tokenize_one. rewrite E. cbn [app]. rewrite (skip_solid _ _ _ (word_solid _ Wc)).
  unfold peek at 1 2 3 4. cbn [rest with_rest hd]. rewrite Fc, (word_not_quote _ Wc), start_letter, Lc, Dc. cbn [andb].
  rewrite (number_reads _ _ _ (with_rest (c :: y ++ r) l) H A eq_refl).
  eexists. split; [reflexivity|]. cbn. repeat split; reflexivity.
Qed.

(** strings *)
Lemma denotes_first body s : denotes body s -> hd NUL body <> QUOTE.
Proof. intros [| | | | |]; cbn; try discriminate; assumption. Qed.

Lemma reads_string body s r : denotes body s -> apart (QUOTE :: body ++ [QUOTE]) r ->
  reads ((QUOTE :: body ++ [QUOTE]) ++ r) (mkTok tok_string s 0) r.
Proof.
  intros D A l E. unfold tokenize_one. rewrite E. cbn [app]. rewrite <- app_assoc. cbn [app].
  rewrite skip_solid by (repeat split; reflexivity).
  unfold peek at 1 2. cbn [rest with_rest hd]. change (ceqb QUOTE "f") with false. change (ceqb QUOTE QUOTE) with true.
  cbn [andb]. unfold lex_string. cbn [rest with_rest]. rewrite Hf.
  assert (Sw : starts_with [QUOTE; QUOTE; QUOTE] (QUOTE :: body ++ QUOTE :: r) = false).
  { cbn [starts_with]. change (ceqb QUOTE QUOTE) with true. cbn [andb]. destruct body as [|c body].
    - cbn [app]. change (ceqb QUOTE QUOTE) with true. cbn [andb].
      pose proof (apart_quote [QUOTE] QUOTE r A ltac:(right; left; reflexivity)) as Q.
      destruct r as [|d r]; [reflexivity|]. cbn [hd] in Q. rewrite ceqb_sym, Q. reflexivity.
    - pose proof (denotes_first _ _ D) as Q. cbn [hd] in Q. cbn [app].
      rewrite (proj2 (ceqb_neq QUOTE c)) by congruence. reflexivity. }
  rewrite Sw. cbn [skipn negb andb].
  match goal with |- context [string_loop m false false ?f ?l0 []] =>
    destruct (string_loop_denotes m false f body s l0 [] r D) as (l1 & T1 & T2 & T3) end;
    [reflexivity|now left|cbn; rewrite app_length; cbn; lia|].
  rewrite T1. destruct T3 as (_ & P1 & P2 & P3 & P4).
  eexists. split; [reflexivity|]. cbn in *. repeat split; try assumption. now rewrite P4.
Qed.

Lemma raw_tail c s : raw (c :: s) -> raw s.
Proof.
  intros [N H]. split; [intros X; apply N; now right|].
  intros a b E. specialize (H (c :: a) b). cbn in H. rewrite E in H. specialize (H eq_refl). lia.
Qed.
Lemma string_loop_raw : forall s fuel l acc r, raw s -> rest l = s ++ three ++ r -> length s < fuel ->
  exists l', string_loop m true false fuel l acc = Some (true, l', acc ++ s) /\ rest l' = r /\ same l l'.
Proof.
  induction s as [|c s IH]; intros fuel l acc r Rw E L; (destruct fuel as [|fuel]; [cbn in L; lia|]);
    cbn [string_loop]; unfold lex_string_char; rewrite E.
  - cbn [app three]. change (ceqb QUOTE NL) with false. change (ceqb QUOTE BSLASH) with false.
    change (ceqb QUOTE NUL) with false. change (ceqb QUOTE QUOTE) with true. cbv iota.
    unfold peek1. rewrite E. cbn [app three tl hd skipn]. change (ceqb QUOTE QUOTE) with true. cbn [andb].
    eexists. rewrite app_nil_r. split; [reflexivity|]. cbn. rewrite E. repeat split.
  - cbn [app].
    assert (C : exists l1, (if ceqb c NL then SCont (put c (l, acc)) else if ceqb c BSLASH then SCont (put c (l, acc))
             else SCont (put c (l, acc))) = SCont (l1, acc ++ [c]) /\ rest l1 = rest l /\ same l l1).
    { destruct (put_spec c l acc) as (l1 & P1 & P2 & P3). exists l1. rewrite P1.
      destruct (ceqb c NL), (ceqb c BSLASH); auto. }
    assert (Nn : ceqb c NUL = false).
    { apply ceqb_neq. intros ->. apply (proj1 Rw). now left. }
    assert (Q : ceqb c QUOTE = true -> ceqb (peek1 l) QUOTE && ceqb (hd NUL (skipn 2 (c :: s ++ three ++ r))) QUOTE = false).
    { intros Ec. apply ceqb_eq in Ec as ->. unfold peek1. rewrite E. cbn [app tl skipn].
      destruct s as [|d [|e s]]; cbn [app three hd].
      - exfalso. pose proof (proj2 Rw [] [QUOTE] eq_refl) as X. cbn in X. lia.
      - cbn [tl skipn hd]. destruct (ceqb_spec d QUOTE) as [->|]; [|reflexivity].
        exfalso. pose proof (proj2 Rw [] [QUOTE; QUOTE] eq_refl) as X. cbn in X. lia.
      - cbn [tl skipn hd]. destruct (ceqb_spec d QUOTE) as [->|]; [|reflexivity]. destruct (ceqb_spec e QUOTE) as [->|]; [|reflexivity].
        exfalso. pose proof (proj2 Rw [] (s ++ three) eq_refl) as X. cbn in X. lia. }
    destruct (put_spec c l acc) as (l1 & P1 & P2 & P3).
    assert (G : string_loop m true false fuel (advance l1) (acc ++ [c]) =
                 (string_loop m true false fuel (advance l1) (acc ++ [c]))) by reflexivity.
    assert (K : exists l', string_loop m true false fuel (advance l1) (acc ++ [c]) = Some (true, l', acc ++ c :: s)
                  /\ rest l' = r /\ same l l').
    { destruct (IH fuel (advance l1) (acc ++ [c]) r (raw_tail _ _ Rw)) as (l2 & T1 & T2 & T3).
      - cbn. now rewrite P2, E.
      - cbn in L. lia.
      - exists l2. rewrite T1, <- app_assoc. split; [reflexivity|]. split; [assumption|].
        eapply same_trans; [exact P3|]. eapply same_trans; [|exact T3]. repeat split. }
    clear G C. destruct (ceqb c NL); [rewrite P1; exact K|]. destruct (ceqb c BSLASH); [rewrite P1; exact K|].
    rewrite Nn. destruct (ceqb c QUOTE) eqn:Eq.
    + rewrite Q by reflexivity. rewrite P1. exact K.
    + rewrite andb_false_r. cbn [andb]. rewrite P1. exact K.
Qed.
Lemma reads_raw s r : raw s -> reads ((three ++ s ++ three) ++ r) (mkTok tok_string s 0) r.
Proof.
  intros Rw l E. unfold tokenize_one. rewrite E. rewrite <- !app_assoc. cbn [three app].
  rewrite skip_solid by (repeat split; reflexivity).
  unfold peek at 1 2. cbn [rest with_rest hd]. change (ceqb QUOTE "f") with false. change (ceqb QUOTE QUOTE) with true.
  cbn [andb]. unfold lex_string. cbn [rest with_rest]. rewrite Hf.
  change (starts_with [QUOTE; QUOTE; QUOTE] (QUOTE :: QUOTE :: QUOTE :: s ++ QUOTE :: QUOTE :: QUOTE :: r)) with true.
  cbn [skipn negb andb].
  match goal with |- context [string_loop m true false ?f ?l0 []] =>
    destruct (string_loop_raw s f l0 [] r Rw) as (l1 & T1 & T2 & T3) end;
    [reflexivity|cbn; rewrite app_length; cbn; lia|].
  rewrite T1. destruct T3 as (_ & P1 & P2 & P3 & P4).
  eexists. split; [reflexivity|]. cbn in *. repeat split; try assumption. now rewrite P4.
Qed.

(** format strings *)
Lemma string_loop_skip : forall body s fuel l acc R, denotes body s -> rest l = body ++ R -> is_digit (hd NUL R) = false ->
  ~ In "@"%char body -> length body < fuel ->
  exists fuel' l', string_loop m false true fuel l acc = string_loop m false true fuel' l' (acc ++ s) /\ rest l' = R /\ same l l' /\ fuel <= fuel' + length body.
Proof.
  intros body s fuel. revert body s. induction fuel as [|fuel IH]; intros body s l acc R D E Nd At L; [lia|].
  destruct (list_eq_dec ascii_dec body []) as [->|Ne].
  { inversion D; subst. exists (S fuel), l. rewrite app_nil_r. split; [reflexivity|]. split; [exact E|]. split; [apply same_refl|cbn; lia]. }
  cbn [string_loop]. unfold lex_string_char. rewrite E.
  destruct (ascii_dec (hd NUL body) BSLASH) as [HB|HB].
  - destruct (escape_steps _ _ D l acc R E Nd HB) as (t & u & s' & D' & -> & Lt & In' & (l1 & S1 & S2 & S3)).
    destruct body as [|c body]; [discriminate HB|]. cbn in HB. subst c. cbn [app].
    change (ceqb BSLASH NL) with false. change (ceqb BSLASH BSLASH) with true. cbv iota.
    rewrite S1. destruct (IH t s' (advance l1) (acc ++ u) R D') as (f' & l2 & T1 & T2 & T3 & T4).
    + unfold advance, with_rest. exact S2.
    + exact Nd.
    + intros H. apply At. now apply In'.
    + cbn in *. lia.
    + exists f', l2. rewrite T1, <- app_assoc. split; [reflexivity|]. split; [assumption|]. split; [|cbn in *; lia].
      eapply same_trans; [exact S3|]. eapply same_trans; [|exact T3]. repeat split.
  - inversion D; subst; try (now destruct HB).
    + cbn [app]. rewrite (proj2 (ceqb_neq c NL)), (proj2 (ceqb_neq c BSLASH)), (proj2 (ceqb_neq c NUL)),
        (proj2 (ceqb_neq c QUOTE)) by assumption.
      replace (ceqb c "@"%char && true && is_start (peek1 l)) with false.
      2:{ rewrite (proj2 (ceqb_neq c "@"%char)); [reflexivity|]. intros ->. apply At. now left. }
      destruct (put_spec c l acc) as (l1 & P1 & P2 & P3). rewrite P1.
      match goal with H : denotes t ?x |- _ => destruct (IH t x (advance l1) (acc ++ [c]) R H) as (f' & l2 & T1 & T2 & T3 & T4) end.
      * unfold advance, with_rest. cbn [rest]. now rewrite P2, E.
      * exact Nd.
      * intros H'. apply At. now right.
      * cbn in *. lia.
      * exists f', l2. rewrite T1, <- app_assoc. split; [reflexivity|]. split; [assumption|]. split; [|cbn in *; lia].
        eapply same_trans; [exact P3|]. eapply same_trans; [|exact T3]. repeat split.
Qed.

Lemma string_loop_pieces : forall body us, pieces body us -> forall fuel l R, rest l = body ++ QUOTE :: R -> length body < fuel ->
  exists l' acc ts, string_loop m false true fuel l [] = Some (true, l', acc) /\ us = ts ++ [mkTok tok_string acc 0] /\ rest l' = R
    /\ toks l' = toks l ++ ts /\ paren l' = paren l /\ bracket l' = bracket l /\ curl l' = curl l.
Proof.
  induction 1 as [b s D At|b s x r ts D At Hx P IH]; intros fuel l R E L.
  - destruct (string_loop_denotes m true fuel b s l [] R D E (or_intror At) L) as (l' & T1 & T2 & (_ & T3 & T4 & T5 & T6)).
    exists l', s, []. rewrite app_nil_r. cbn [app] in T1. auto 10.
  - rewrite <- app_assoc in E. cbn [app] in E. rewrite <- app_assoc in E. cbn [app] in E.
    rewrite app_length in L. cbn [length] in L. rewrite app_length in L. cbn [length] in L.
    destruct (string_loop_skip b s fuel l [] _ D E eq_refl At) as (fuel' & l1 & T1 & T2 & (_ & T3 & T4 & T5 & T6) & T7); [lia|].
    rewrite T1. cbn [app]. destruct fuel' as [|fuel']; [lia|]. cbn [string_loop]. unfold lex_string_char. rewrite T2.
    change (ceqb "@" NL) with false. change (ceqb "@" BSLASH) with false. change (ceqb "@" NUL) with false. change (ceqb "@" QUOTE) with false.
    change (ceqb "@" "@") with true. cbv iota. cbn [andb].
    pose proof (keyword_identifier x Hx) as Kx. destruct Hx as [(c & x' & -> & Lc & Fx) _].
    unfold peek1. rewrite T2. cbn [tl hd app]. rewrite start_letter, Lc.
    unfold lex_identifier, advance. cbn [rest with_rest with_data push]. rewrite T2. cbn [tl].
    rewrite (span_all (c :: x') ("@"%char :: r ++ QUOTE :: R)) by first [reflexivity | constructor; [unfold word_char; now rewrite Lc|assumption]].
    rewrite Kx.
    match goal with |- context [string_loop m false true fuel' ?l0 []] => destruct (IH fuel' l0 R) as (l2 & acc & us & U1 & U2 & U3 & U4 & U5 & U6 & U7) end;
      [reflexivity|cbn [length] in *; lia|].
    exists l2, acc, (string_token s :: plain tok_plus :: plain tok_stringify :: mkTok tok_identifier (c :: x') 0 :: plain tok_plus :: us).
    split; [exact U1|]. split; [now rewrite U2|]. split; [exact U3|]. rewrite U4, U5, U6, U7. cbn. rewrite T6, <- !app_assoc. auto.
Qed.
Lemma reads_format body us r : pieces body us -> apart [QUOTE] r ->
  forall l, rest l = "f"%char :: QUOTE :: body ++ QUOTE :: r -> exists l', tokenize_one m l = Some (Cont l') /\ rest l' = r
    /\ toks l' = toks l ++ us /\ paren l' = paren l /\ bracket l' = bracket l /\ curl l' = curl l.
Proof.
  intros P A l E. unfold tokenize_one. rewrite E.
  rewrite skip_solid by (repeat split; reflexivity).
  unfold peek at 1, peek1 at 1. cbn [rest with_rest hd tl]. change (ceqb "f" "f") with true. change (ceqb QUOTE QUOTE) with true.
  cbn [andb]. unfold lex_string, advance. cbn [rest with_rest tl]. rewrite Hf.
  assert (Sw : starts_with [QUOTE; QUOTE; QUOTE] (QUOTE :: body ++ QUOTE :: r) = false).
  { cbn [starts_with]. change (ceqb QUOTE QUOTE) with true. cbn [andb].
    assert (F : body = [] \/ exists c b, body = c :: b /\ c <> QUOTE).
    { destruct P as [b s D _|b s x r' ts D _ _ _]; destruct b as [|c b]; auto.
      - right. exists c, b. split; [reflexivity|]. exact (denotes_first _ _ D).
      - right. eexists _, _. split; [reflexivity|discriminate].
      - right. eexists c, _. split; [reflexivity|]. exact (denotes_first _ _ D). }
    destruct F as [->|(c & b & -> & Nc)].
    - cbn [app]. change (ceqb QUOTE QUOTE) with true. cbn [andb].
      pose proof (apart_quote [] QUOTE r A ltac:(right; left; reflexivity)) as Q.
      destruct r as [|d r]; [reflexivity|]. cbn [hd] in Q. rewrite ceqb_sym, Q. reflexivity.
    - cbn [app]. rewrite (proj2 (ceqb_neq QUOTE c)) by congruence. reflexivity. }
  rewrite Sw. cbn [skipn negb andb].
  match goal with |- context [string_loop m false true ?f ?l0 []] =>
    destruct (string_loop_pieces body us P f l0 r) as (l1 & acc & ts & T1 & T2 & T3 & T4 & T5 & T6 & T7) end;
    [reflexivity|cbn; rewrite app_length; cbn; lia|].
  rewrite T1. eexists. split; [reflexivity|]. cbn in *. rewrite T2, T4, <- app_assoc. auto.
Qed.

Lemma reads_spelled x t r : spelled x t -> apart x r -> reads (x ++ r) t r.
Proof.
  intros [txt ty I|txt ty I|y I|txt v N|body s D|s Rw] A.
  - now apply reads_symbol.
  - destruct (keyword_words _ _ I) as (K & c & y & -> & Lc & F).
    pose proof (reads_word _ _ _ Lc F A) as R. now rewrite K in R.
  - pose proof (keyword_identifier _ I) as K. destruct I as [(c & z & -> & Lc & F) _].
    pose proof (reads_word _ _ _ Lc F A) as R. now rewrite K in R.
  - now apply reads_number.
  - now apply reads_string.
  - now apply reads_raw.
Qed.

(** ** Whole texts *)
Lemma spelled_nonempty x t : spelled x t -> 1 <= length x.
Proof.
  intros [txt ty I|txt ty I|y I|txt v N|body s D|s Rw]; try (cbn; lia).
  - unfold symbols in I. cbn [In] in I. repeat (destruct I as [E|I]; [injection E as <- <-; vm_compute; lia|]). destruct I.
  - destruct (keyword_words _ _ I) as (_ & c & y & -> & _). cbn. lia.
  - destruct I as [(c & z & -> & _) _]. cbn. lia.
  - destruct (number_words _ _ N) as (_ & c & y & -> & _). cbn. lia.
Qed.
Lemma blank_length x : blank x -> 1 <= length x.
Proof. intros []; cbn; lia. Qed.

Ltac concrete :=
  repeat match goal with |- context [ceqb ?x ?y] =>
    let v := eval vm_compute in (ceqb x y) in
    match v with true => change (ceqb x y) with true | false => change (ceqb x y) with false end end;
  repeat match goal with |- context [if is_start ?x then _ else _] => change (is_start x) with false; cbv iota
                       | |- context [if is_digit ?x then _ else _] => change (is_digit x) with false; cbv iota end;
  cbn -[tokenize ceqb].
Lemma tokenize_source p b c ts txt : source p b c ts txt -> forall l fuel ok,
  rest l = txt -> paren l = p -> bracket l = b -> curl l = c -> length txt < fuel ->
  exists l', tokenize m fuel ok l = Some (ok, l') /\ toks l' = toks l ++ ts ++ [plain tok_eof].
Proof.
  induction 1 as [p b c|p b c x ts txt Bl S IH|p b c x ts txt N1 N2 Nx S IH|ts txt S IH|p b c ts txt Po S IH
                 |p b c x t ts txt Sp A S IH|p b c body us ts txt Pi A S IH|p b c ts txt S IH|p b c ts txt S IH|p b c ts txt S IH|p b c ts txt S IH
                 |p b c ts txt S IH|p b c ts txt S IH]; intros l fuel ok E Ep Eb Ec L.
  1:{ destruct fuel as [|fuel]; [cbn in L; lia|]. cbn [tokenize]. unfold tokenize_one. rewrite E. cbn.
      eexists. split; [reflexivity|]. reflexivity. }
  1:{ rewrite (tokenize_skip l txt) by (rewrite E; now apply skip_blank).
      destruct (IH (with_rest txt l) fuel ok eq_refl Ep Eb Ec) as (l' & T1 & T2).
      - rewrite app_length in L. pose proof (blank_length _ Bl). lia.
      - exists l'. auto. }
  1:{ rewrite (tokenize_skip l txt) by (rewrite E; now apply skip_comment).
      destruct (IH (with_rest txt l) fuel ok eq_refl Ep Eb Ec) as (l' & T1 & T2).
      - cbn in L. rewrite app_length in L. lia.
      - exists l'. auto. }
  3:{ destruct fuel as [|fuel]; [lia|]. cbn [tokenize].
      destruct (reads_spelled _ _ _ Sp A l E) as (l1 & T1 & T2 & T3 & T4 & T5 & T6). rewrite T1.
      destruct (IH l1 fuel ok T2) as (l2 & U1 & U2); try congruence.
      - rewrite app_length in L. pose proof (spelled_nonempty _ _ Sp). lia.
      - exists l2. rewrite U1, U2, T3, <- !app_assoc. auto. }
  3:{ destruct fuel as [|fuel]; [lia|]. cbn [tokenize].
      destruct (reads_format _ _ _ Pi A l E) as (l1 & T1 & T2 & T3 & T4 & T5 & T6). rewrite T1.
      destruct (IH l1 fuel ok T2) as (l2 & U1 & U2); try congruence.
      - cbn [length] in L. rewrite app_length in L. cbn [length] in L. lia.
      - exists l2. rewrite U1, U2, T3, <- !app_assoc. auto. }
  all: destruct fuel as [|fuel]; [cbn in L; lia|]; cbn [tokenize]; unfold tokenize_one; rewrite E;
    rewrite skip_solid by (repeat split; reflexivity); unfold lex_other, peek, peek1; cbn [rest with_rest hd tl paren bracket curl];
    rewrite ?Ep, ?Eb, ?Ec; cbn -[tokenize ceqb].
  2:{ assert (X : ((0 <? p) || (0 <? b) || (0 <? c)) = true).
      { destruct p; [|reflexivity]. destruct b; [|reflexivity]. destruct c; [lia|reflexivity]. }
      change (ceqb NL "f") with false. change (ceqb NL QUOTE) with false. change (is_start NL) with false.
      change (is_digit NL) with false. change (ceqb NL NL) with true. cbv iota. cbn [andb].
      unfold Nat.ltb in X. cbn in X. rewrite X, Hf.
      match goal with |- context [tokenize m fuel ok ?l0] => destruct (IH l0 fuel ok) as (l2 & U1 & U2) end;
        try reflexivity; try assumption; [cbn in L; lia|]. exists l2. auto. }
  all: do 3 concrete;
     (match goal with IHs : forall _ _ _, _ -> _ |- context [tokenize _ ?fu ?o ?l0] => destruct (IHs l0 fu o) as (l2 & U1 & U2) end;
        [reflexivity|cbn; auto..|cbn in L; lia|]);
     exists l2; split; [exact U1|]; rewrite U2; cbn; now rewrite <- !app_assoc.
Qed.
Lemma lex_source ts txt : source 0 0 0 ts txt ->
  exists l, lexer_lex m txt = Some (true, l) /\ toks l = ts ++ [plain tok_eof].
Proof.
  intros S. unfold lexer_lex. destruct (tokenize_source _ _ _ _ _ S (start_lx txt) (Datatypes.S (Datatypes.S (length txt))) true) as (l & T1 & T2);
    try reflexivity; [lia|]. exists l. auto.
Qed.
End MODE.
