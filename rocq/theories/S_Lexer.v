(** What the texts of tokens mean.  Of the model only the type of tokens is used. *)
From Verif Require Import Base M_Lexer.

(** ** String literals *)
(** hexadecimal and octal numbers, most significant digit first *)
Definition hex_digit (c : ascii) (v : N) : Prop :=
  nth_error (B "0123456789abcdef") (N.to_nat v) = Some c \/ nth_error (B "0123456789ABCDEF") (N.to_nat v) = Some c.
Definition octal_digit (c : ascii) (v : N) : Prop := nth_error (B "01234567") (N.to_nat v) = Some c.
Definition decimal_digit (c : ascii) (v : N) : Prop := nth_error (B "0123456789") (N.to_nat v) = Some c.
Definition binary_digit (c : ascii) (v : N) : Prop := nth_error (B "01") (N.to_nat v) = Some c.
(** [numeral digit base ds v]: the digits ds denote the number v *)
Inductive numeral (digit : ascii -> N -> Prop) (base : N) : bytes -> N -> Prop :=
| num_nil : numeral digit base [] 0
| num_snoc : forall ds v c d, numeral digit base ds v -> digit c d -> numeral digit base (ds ++ [c]) (v * base + d).

(** The UTF-8 encoding of a number (RFC 3629, section 3, except that surrogates are not excluded) *)
Definition byte (n : N) : ascii := ascii_of_N n.
Definition is_utf8 (v : N) (bs : bytes) : Prop :=
  ((v < 128 /\ bs = [byte v])
   \/ (exists a b, a < 32 /\ b < 64 /\ v = a * 64 + b /\ 128 <= v /\ bs = [byte (192 + a); byte (128 + b)])
   \/ (exists a b c, a < 16 /\ b < 64 /\ c < 64 /\ v = (a * 64 + b) * 64 + c /\ 2048 <= v
                     /\ bs = [byte (224 + a); byte (128 + b); byte (128 + c)])
   \/ (exists a b c d, a < 8 /\ b < 64 /\ c < 64 /\ d < 64 /\ v = ((a * 64 + b) * 64 + c) * 64 + d
                       /\ 65536 <= v <= 1114111
                       /\ bs = [byte (240 + a); byte (128 + b); byte (128 + c); byte (128 + d)]))%N.
(** The numbers that are characters: surrogates are not. *)
Definition is_character (v : N) : Prop := (v < 55296 \/ 57343 < v <= 1114111)%N.

Definition escapes : list (ascii * nat) :=
  [(BSLASH, 92); (QUOTE, 39); ("a"%char, 7); ("b"%char, 8); ("f"%char, 12); ("r"%char, 13);
   ("t"%char, 9); ("v"%char, 11); ("n"%char, 10)].
Definition hex_escapes : list (ascii * nat) := [("x"%char, 2); ("u"%char, 4); ("U"%char, 8)].
Definition no_digit_first (t : bytes) : Prop := forall c v, decimal_digit c v -> hd NUL t <> c.

(** [denotes body s]: the literal whose text between the quotes is body denotes the string s. *)
Inductive denotes : bytes -> bytes -> Prop :=
| den_nil : denotes [] []
| den_char : forall c t s,
    c <> QUOTE -> c <> BSLASH -> c <> NL -> c <> NUL -> denotes t s -> denotes (c :: t) (c :: s)
| den_escape : forall e n t s, In (e, n) escapes -> denotes t s -> denotes (BSLASH :: e :: t) (ch n :: s)
| den_unicode : forall k n ds v u t s,
    In (k, n) hex_escapes -> length ds = n -> numeral hex_digit 16 ds v -> is_utf8 v u ->
    denotes t s -> denotes (BSLASH :: k :: ds ++ t) (u ++ s)
| den_octal : forall ds v t s,
    1 <= length ds <= 3 -> numeral octal_digit 8 ds v -> (v < 256)%N -> (length ds = 3 \/ no_digit_first t) ->
    denotes t s -> denotes (BSLASH :: ds ++ t) (byte v :: s)
| den_other : forall c t s,
    (forall n, ~ In (c, n) escapes) -> (forall n, ~ In (c, n) hex_escapes) ->
    (forall v, ~ decimal_digit c v) -> c <> NUL ->
    denotes t s -> denotes (BSLASH :: c :: t) (BSLASH :: c :: s).

(** How to write any string: quotes, backslashes, newlines and NUL bytes are escaped. *)
Definition escape_char (c : ascii) : bytes :=
  if ceqb c QUOTE then [BSLASH; QUOTE]
  else if ceqb c BSLASH then [BSLASH; BSLASH]
  else if ceqb c NL then BSLASH :: B "n"
  else if ceqb c NUL then BSLASH :: B "000"
  else [c].
Definition escaped (s : bytes) : bytes := flat_map escape_char s.

(** ** Blanks: spaces, tabs, carriage returns, and a newline after a backslash *)
Inductive blank : bytes -> Prop :=
| bl_char : forall c, In c [" "%char; TAB; CR] -> blank [c]
| bl_line : blank [BSLASH; NL].

(** ** Tokens *)
(** Symbols and keywords *)
Definition symbols : list (bytes * ttype) :=
  [(B ".", tok_dot); (B ",", tok_comma); (B ":", tok_colon); (B "?", tok_question_mark);
   (B "+", tok_plus); (B "-", tok_minus); (B "*", tok_star); (B "/", tok_slash); (B "%", tok_modulo);
   (B "=", tok_assign); (B "+=", tok_plus_assign);
   (B "==", tok_eq); (B "!=", tok_neq); (B ">", tok_gt); (B ">=", tok_geq); (B "<", tok_lt); (B "<=", tok_leq)].
Definition words : list (bytes * ttype) :=
  [(B "if", tok_if); (B "else", tok_else); (B "elif", tok_elif); (B "endif", tok_endif); (B "and", tok_and);
   (B "or", tok_or); (B "not", tok_not); (B "foreach", tok_foreach); (B "endforeach", tok_endforeach);
   (B "in", tok_in); (B "continue", tok_continue); (B "break", tok_break); (B "true", tok_true);
   (B "false", tok_false)].
(** Identifiers: letters, digits and underscores, not a digit first, and not a keyword *)
Definition letter (c : ascii) : bool := is_alpha c || ceqb c "_"%char.
Definition word_char (c : ascii) : bool := letter c || is_digit c.
Definition identifier (x : bytes) : Prop :=
  (exists c t, x = c :: t /\ letter c = true /\ Forall (fun c => word_char c = true) t)
  /\ forall t, ~ In (x, t) words.
(** Numbers: decimal without leading zeros, hexadecimal, octal and binary, that fit in 64 bits *)
Definition fits (v : N) : Prop := (v < 2 ^ 63)%N.
Inductive number_text : bytes -> N -> Prop :=
| nt_zero : number_text (B "0") 0
| nt_decimal : forall d ds v, d <> "0"%char -> numeral decimal_digit 10 (d :: ds) v -> fits v -> number_text (d :: ds) v
| nt_hex : forall x ds v, In x (B "xX") -> ds <> [] -> numeral hex_digit 16 ds v -> fits v ->
    number_text ("0"%char :: x :: ds) v
| nt_octal : forall x ds v, In x (B "oO") -> ds <> [] -> numeral octal_digit 8 ds v -> fits v ->
    number_text ("0"%char :: x :: ds) v
| nt_binary : forall x ds v, In x (B "bB") -> ds <> [] -> numeral binary_digit 2 ds v -> fits v ->
    number_text ("0"%char :: x :: ds) v.
(** Strings between three quotes: no escapes, and they end at the first three quotes *)
Definition three : bytes := [QUOTE; QUOTE; QUOTE].
Definition raw (s : bytes) : Prop :=
  ~ In NUL s /\ forall a b, s ++ three = a ++ three ++ b -> length s <= length a.

(** [spelled txt t]: the text txt spells the token t.  (Brackets and newlines are below.) *)
Inductive spelled : bytes -> token -> Prop :=
| sp_symbol : forall txt t, In (txt, t) symbols -> spelled txt (plain t)
| sp_word : forall txt t, In (txt, t) words -> spelled txt (plain t)
| sp_identifier : forall x, identifier x -> spelled x (mkTok tok_identifier x 0)
| sp_number : forall txt v, number_text txt v -> spelled txt (mkTok tok_number [] (Z.of_N v))
| sp_string : forall body s, denotes body s -> spelled (QUOTE :: body ++ [QUOTE]) (mkTok tok_string s 0)
| sp_raw : forall s, raw s -> spelled (three ++ s ++ three) (mkTok tok_string s 0).

(** Format strings: f'a@x@b' is the string 'a', the value of x as a string, and the string 'b'.
    [pieces body ts]: the tokens ts for the text body between the quotes *)
Definition string_token (s : bytes) : token := mkTok tok_string s 0.
Inductive pieces : bytes -> list token -> Prop :=
| ps_last : forall b s, denotes b s -> ~ In "@"%char b -> pieces b [string_token s]
| ps_value : forall b s x r ts, denotes b s -> ~ In "@"%char b -> identifier x -> pieces r ts ->
    pieces (b ++ "@"%char :: x ++ "@"%char :: r)
           (string_token s :: plain tok_plus :: plain tok_stringify :: mkTok tok_identifier x 0 :: plain tok_plus :: ts).

(** The text of a token and what follows are read separately: two words or numbers, an operator and
    an =, two string literals, or an f and a string literal do not touch. *)
Definition apart (txt r : bytes) : Prop :=
  forall t a c r', txt = t ++ [a] -> r = c :: r' ->
    ~ (word_char a = true /\ word_char c = true)
    /\ ~ (In a (B "+=<>!") /\ c = "="%char)
    /\ ~ (In a ["f"%char; QUOTE] /\ c = QUOTE).

(** [source p b c ts txt]: with p, b and c open parentheses, brackets and braces, the text txt is read
    as the tokens ts.  Newlines are tokens except inside brackets; comments extend to the end of the
    line. *)
Inductive source : nat -> nat -> nat -> list token -> bytes -> Prop :=
| so_end : forall p b c, source p b c [] []
| so_blank : forall p b c x ts txt, blank x -> source p b c ts txt -> source p b c ts (x ++ txt)
| so_comment : forall p b c x ts txt,
    ~ In NL x -> ~ In NUL x -> (txt = [] \/ exists r, txt = NL :: r) ->
    source p b c ts txt -> source p b c ts ("#"%char :: x ++ txt)
| so_newline : forall ts txt, source 0 0 0 ts txt -> source 0 0 0 (plain tok_eol :: ts) (NL :: txt)
| so_inside : forall p b c ts txt, 0 < p + b + c -> source p b c ts txt -> source p b c ts (NL :: txt)
| so_token : forall p b c x t ts txt,
    spelled x t -> apart x txt -> source p b c ts txt -> source p b c (t :: ts) (x ++ txt)
| so_format : forall p b c body us ts txt,
    pieces body us -> apart [QUOTE] txt -> source p b c ts txt -> source p b c (us ++ ts) ("f"%char :: QUOTE :: body ++ QUOTE :: txt)
| so_lparen : forall p b c ts txt, source (S p) b c ts txt -> source p b c (plain tok_lparen :: ts) ("("%char :: txt)
| so_rparen : forall p b c ts txt, source p b c ts txt -> source (S p) b c (plain tok_rparen :: ts) (")"%char :: txt)
| so_lbrack : forall p b c ts txt, source p (S b) c ts txt -> source p b c (plain tok_lbrack :: ts) ("["%char :: txt)
| so_rbrack : forall p b c ts txt, source p b c ts txt -> source p (S b) c (plain tok_rbrack :: ts) ("]"%char :: txt)
| so_lcurl : forall p b c ts txt, source p b (S c) ts txt -> source p b c (plain tok_lcurl :: ts) ("{"%char :: txt)
| so_rcurl : forall p b c ts txt, source p b c ts txt -> source p b (S c) (plain tok_rcurl :: ts) ("}"%char :: txt).
