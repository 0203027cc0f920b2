(** The lexer of build files: src/lang/lexer.c.

    The source is a byte string followed by a NUL byte that is not part of it (struct source,
    src/platform/filesystem.c); [rest] is the part of it from lexer->i on, so that src[i] is the head
    of [rest], or NUL when [rest] is empty.  Lines, columns and error messages are left out.  The token
    that is being read when the lexer fails is left out too: after a failure no token is used. *)
From Verif Require Import Base M_Format.

(** enum token_type, include/lang/lexer.h 16-79 *)
Inductive ttype :=
| tok_eof | tok_eol | tok_lparen | tok_rparen | tok_lbrack | tok_rbrack | tok_lcurl | tok_rcurl
| tok_dot | tok_comma | tok_colon | tok_question_mark
| tok_plus | tok_minus | tok_star | tok_slash | tok_modulo
| tok_assign | tok_plus_assign
| tok_eq | tok_neq | tok_gt | tok_geq | tok_lt | tok_leq
| tok_if | tok_else | tok_elif | tok_endif | tok_and | tok_or | tok_not | tok_foreach | tok_endforeach
| tok_in | tok_continue | tok_break
| tok_identifier | tok_string | tok_number | tok_true | tok_false
| tok_stringify | tok_func | tok_endfunc | tok_return | tok_bitor | tok_returntype
| tok_comment | tok_fmt_eol.
(** struct token, include/lang/lexer.h 81-91: [str] is dat.s with the length n, [num] is dat.n *)
Record token := mkTok { ty : ttype; str : bytes; num : Z }.
Definition plain (t : ttype) : token := mkTok t [] 0.

(** enum lexer_mode, include/lang/lexer.h 97-100 *)
Record mode := mkMode { format : bool; functions : bool }.

(** struct lexer, src/lang/lexer.c 19-36: [data_i] is the place of the next string in the buffer
    sdata->data, [hi] is one more than the greatest index of the buffer written so far (it is not part
    of the code's state: it is there to state that writes stay in the buffer). *)
Record lx := mkLx {
  rest : bytes; data_i : nat; hi : nat; paren : nat; bracket : nat; curl : nat; toks : list token
}.
Definition with_rest r l := mkLx r (data_i l) (hi l) (paren l) (bracket l) (curl l) (toks l).
Definition with_data d h l := mkLx (rest l) d h (paren l) (bracket l) (curl l) (toks l).
Definition with_enclosing p b c l := mkLx (rest l) (data_i l) (hi l) p b c (toks l).
Definition push (t : token) l := mkLx (rest l) (data_i l) (hi l) (paren l) (bracket l) (curl l) (toks l ++ [t]).

(** src/lang/lexer.c 135-148 advance: nothing happens at the end of the source *)
Definition advance (l : lx) : lx := with_rest (tl (rest l)) l.
(** src[i], src[i + 1] *)
Definition peek (l : lx) : ascii := hd NUL (rest l).
Definition peek1 (l : lx) : ascii := hd NUL (tl (rest l)).

(** src/lang/lexer.c 164-192 *)
Definition is_start (c : ascii) : bool := ceqb c "_"%char || is_alpha c.
Definition is_hex (c : ascii) : bool :=
  is_digit c || ((97 <=? cval c) && (cval c <=? 102)) || ((65 <=? cval c) && (cval c <=? 70)).
Definition is_inside (c : ascii) : bool := is_start c || is_digit c.

(** src/lang/lexer.c 194-203 copy_into_sdata: the text and a NUL byte *)
Definition copy_into_sdata (text : bytes) (l : lx) : lx :=
  let d := data_i l + length text + 1 in with_data d (Nat.max (hi l) d) l.

(** src/lang/lexer.c 205-263 keyword *)
Definition keywords : list (bytes * ttype) :=
  [(B "and", tok_and); (B "break", tok_break); (B "continue", tok_continue); (B "elif", tok_elif);
   (B "else", tok_else); (B "endforeach", tok_endforeach); (B "endif", tok_endif); (B "false", tok_false);
   (B "foreach", tok_foreach); (B "if", tok_if); (B "in", tok_in); (B "not", tok_not); (B "or", tok_or);
   (B "true", tok_true)].
Definition func_keywords : list (bytes * ttype) :=
  [(B "func", tok_func); (B "endfunc", tok_endfunc); (B "return", tok_return)].
Definition kw_lookup (table : list (bytes * ttype)) (s : bytes) : option ttype :=
  option_map snd (find (fun p => beqb (fst p) s) table).
Definition keyword (m : mode) (s : bytes) : option ttype :=
  match kw_lookup keywords s with
  | Some t => Some t
  | None => if functions m then kw_lookup func_keywords s else None
  end.

(** strtol of the C library in a base up to 16: blanks, a sign, in base 16 a prefix 0x that is followed
    by a digit, digits; [None]: there are no digits.  The value is not clamped here. *)
Definition digit_of (c : ascii) : Z :=
  (if is_digit c then Z.of_nat (cval c) - 48
   else if is_lower c then Z.of_nat (cval c) - 87
   else if is_upper c then Z.of_nat (cval c) - 55
   else 99)%Z.
Fixpoint take_digits (base : Z) (l : bytes) (acc : Z) : Z * bytes :=
  match l with
  | c :: l' => if (digit_of c <? base)%Z then take_digits base l' (acc * base + digit_of c)%Z else (acc, l)
  | [] => (acc, [])
  end.
Definition starts_digit (base : Z) (l : bytes) : bool :=
  match l with c :: _ => (digit_of c <? base)%Z | [] => false end.
Definition strtol_base (base : Z) (l : bytes) : option (Z * bytes) :=
  let l1 := dropw c_isspace l in
  let '(neg, l2) := match l1 with
                    | c :: r => if ceqb c "-"%char then (true, r)
                                else if ceqb c "+"%char then (false, r) else (false, l1)
                    | [] => (false, l1)
                    end in
  let l3 := match l2 with
            | z :: x :: r =>
                if (base =? 16)%Z && ceqb z "0"%char && (ceqb x "x"%char || ceqb x "X"%char) && starts_digit 16 r
                then r else l2
            | _ => l2
            end in
  if starts_digit base l3
  then let '(v, e) := take_digits base l3 0 in Some (if neg then (- v)%Z else v, e)
  else None.

(** enum lex_result, src/lang/lexer.c 38-42 *)
Inductive lex_result := Cont (l : lx) | Fail (l : lx) | Done (l : lx).

(** src/lang/lexer.c 265-331 number *)
Definition number_from (m : mode) (start : bytes) (base : Z) (l : lx) : lex_result :=
  match strtol_base base (rest l) with
  | None => Fail l
  | Some (v, e) =>
      if ((v <? LONG_MIN) || (LONG_MAX <? v))%Z then Fail l
      else
        let l := with_rest e l in
        if format m
        then let text := firstn (length start - length e) start in
             Cont (push (mkTok tok_number text 0) (copy_into_sdata text l))
        else Cont (push (mkTok tok_number [] v) l)
  end.
Definition number (m : mode) (l : lx) : lex_result :=
  let start := rest l in
  let skip2 := with_rest (skipn 2 start) l in
  if ceqb (peek l) "0"%char then
    let c := peek1 l in
    if ceqb c "X"%char || ceqb c "x"%char then number_from m start 16 skip2
    else if ceqb c "B"%char || ceqb c "b"%char then number_from m start 2 skip2
    else if ceqb c "O"%char || ceqb c "o"%char then number_from m start 8 skip2
    else
      let l := advance l in
      if format m then Cont (push (mkTok tok_number (B "0") 0) (copy_into_sdata (B "0") l))
      else Cont (push (mkTok tok_number [] 0) l)
  else number_from m start 10 l.

(** src/lang/lexer.c 333-352 lex_identifier *)
Definition lex_identifier (m : mode) (l : lx) : lx :=
  let '(id, r) := span is_inside (rest l) in
  let l := with_rest r l in
  match keyword m id with
  | Some t => push (plain t) l
  | None => push (mkTok tok_identifier id 0) (copy_into_sdata id l)
  end.

(** src/lang/lexer.c 354-402 write_utf8: the bytes written *)
Definition utf8_byte (pre : N) (v : N) : ascii := ascii_of_N (N.lor pre v).
Definition utf8_tail (v : N) (shift : N) : ascii := utf8_byte 128 (N.land (N.shiftr v shift) 63).
Definition write_utf8 (v : N) : option bytes :=
  (if v <=? 127 then Some [ascii_of_N v]
   else if v <=? 2047 then Some [utf8_byte 192 (N.shiftr v 6); utf8_tail v 0]
   else if v <=? 65535 then Some [utf8_byte 224 (N.shiftr v 12); utf8_tail v 6; utf8_tail v 0]
   else if v <=? 1114111
   then Some [utf8_byte 240 (N.shiftr v 18); utf8_tail v 12; utf8_tail v 6; utf8_tail v 0]
   else None)%N.

(** A string that is being read: the lexer and the bytes of the token so far (str and token->n).
    src/lang/lexer.c: str[token->n] = c; ++token->n *)
Definition put (c : ascii) (p : lx * bytes) : lx * bytes :=
  let '(l, acc) := p in
  (with_data (data_i l) (Nat.max (hi l) (data_i l + length acc + 1)) l, acc ++ [c]).
Definition puts (s : bytes) (p : lx * bytes) : lx * bytes := fold_left (fun p c => put c p) s p.

(** src/lang/lexer.c 475-484: [n] hexadecimal digits after the current character; on failure the place
    reached *)
Fixpoint hexes (n : nat) (s : bytes) (num : bytes) : bytes * option bytes :=
  match n with
  | 0 => (s, Some num)
  | S n => let c := hd NUL (tl s) in
           if is_hex c then hexes n (tl s) (num ++ [c]) else (s, None)
  end.
(** src/lang/lexer.c 499-505: up to [n] decimal digits after the current character *)
Fixpoint octals (n : nat) (s : bytes) (num : bytes) : bytes * bytes :=
  match n with
  | 0 => (s, num)
  | S n => let c := hd NUL (tl s) in
           if is_digit c then octals n (tl s) (num ++ [c]) else (s, num)
  end.

Inductive str_result := SCont (p : lx * bytes) | SDone (p : lx * bytes) | SFail (p : lx * bytes).
(** src/lang/lexer.c 425-523: a backslash in a string that is not multi-line *)
Definition simple_escapes : list (ascii * ascii) :=
  [(BSLASH, BSLASH); (QUOTE, QUOTE); ("a"%char, ch 7); ("b"%char, ch 8); ("f"%char, ch 12); ("r"%char, ch 13);
   ("t"%char, ch 9); ("v"%char, ch 11); ("n"%char, ch 10)].
Definition escape (l : lx) (acc : bytes) : str_result :=
  let c := peek1 l in
  match find (fun p => ceqb (fst p) c) simple_escapes with
  | Some (_, v) => SCont (put v (advance l, acc))
  | None =>
      if ceqb c "x"%char || ceqb c "u"%char || ceqb c "U"%char then
        let n := if ceqb c "x"%char then 2 else if ceqb c "u"%char then 4 else 8 in
        let '(r, num) := hexes n (rest (advance l)) [] in
        let l := with_rest r l in
        match num with
        | None => SFail (l, acc)
        | Some num =>
            match write_utf8 (Z.to_N (fst (take_digits 16 num 0))) with
            | None => SFail (l, acc)
            | Some bs => SCont (puts bs (l, acc))
            end
        end
      else if is_digit c then
        let '(r, num) := octals 3 (rest l) [] in
        SCont (put (ascii_of_N (Z.to_N (fst (take_digits 8 num 0)) mod 256)) (with_rest r l, acc))
      else if ceqb c NUL then SFail (l, acc)
      else let '(l, acc) := put BSLASH (l, acc) in SCont (put c (advance l, acc))
  end.

(** src/lang/lexer.c 404-622 lex_string_char.  The test of 573 (src[i] == '@') is always true: the
    closing @ is not looked for. *)
Definition lex_string_char (m : mode) (multiline fstring : bool) (l : lx) (acc : bytes) : str_result :=
  match rest l with
  | [] => SFail (l, acc)
  | c :: _ =>
      let next (r : str_result) :=
        match r with SCont (l, acc) => SCont (advance l, acc) | SDone (l, acc) => SDone (advance l, acc) | r => r end in
      if ceqb c NL then (if multiline then next (SCont (put c (l, acc))) else SFail (l, acc))
      else if ceqb c BSLASH then (if multiline then next (SCont (put c (l, acc))) else next (escape l acc))
      else if ceqb c NUL then SFail (l, acc)
      else if ceqb c QUOTE then
        if multiline then
          if ceqb (peek1 l) QUOTE && ceqb (hd NUL (skipn 2 (rest l))) QUOTE
          then next (SDone (advance (advance l), acc))
          else next (SCont (put c (l, acc)))
        else next (SDone (l, acc))
      else if ceqb c "@"%char && fstring && is_start (peek1 l) then
        let l := advance l in
        let l := with_data (data_i l + length acc + 1) (hi l) l in
        let l := push (mkTok tok_string acc 0) l in
        let l := push (plain tok_stringify) (push (plain tok_plus) l) in
        let l := advance (lex_identifier m l) in
        SCont (push (plain tok_plus) l, [])
      else next (SCont (put c (l, acc)))
  end.

(** src/lang/lexer.c 655-670: after a failure, up to the end of the string *)
Fixpoint recover (multiline : bool) (quotes : nat) (s : bytes) : bytes :=
  match s with
  | [] => []
  | c :: s' =>
      if ceqb c NUL || (negb multiline && ceqb c NL) then s
      else if ceqb c QUOTE then
        if (negb multiline) || (quotes =? 2) then s' else recover multiline (S quotes) s'
      else recover multiline quotes s'
  end.

(** src/lang/lexer.c 624-693 lex_string: its loop, and the function.  [None]: not enough fuel. *)
Fixpoint string_loop (m : mode) (multiline fstring : bool) (fuel : nat) (l : lx) (acc : bytes)
  : option (bool * lx * bytes) :=
  match fuel with
  | 0 => None
  | S fuel =>
      match lex_string_char m multiline fstring l acc with
      | SCont (l, acc) => string_loop m multiline fstring fuel l acc
      | SDone (l, acc) =>
          Some (true, with_data (data_i l) (Nat.max (hi l) (data_i l + length acc + 1)) l, acc)
      | SFail (l, acc) => Some (false, with_rest (recover multiline 0 (rest l)) l, acc)
      end
  end.
Definition lex_string (m : mode) (start : bytes) (l : lx) (fstring : bool) : option lex_result :=
  let data_start := data_i l in
  let multiline := starts_with [QUOTE; QUOTE; QUOTE] (rest l) in
  let l := with_rest (skipn (if multiline then 3 else 1) (rest l)) l in
  match string_loop m multiline (fstring && negb (format m)) (S (length (rest l))) l [] with
  | None => None
  | Some (ok, l, acc) =>
      let l := with_data (data_i l + length acc + 1) (hi l) l in
      let '(l, acc) :=
        if format m
        then let text := firstn (length start - length (rest l)) start in
             (copy_into_sdata text (with_data data_start (hi l) l), text)
        else (l, acc) in
      Some (if ok then Cont (push (mkTok tok_string acc 0) l) else Fail l)
  end.

(** src/lang/lexer.c 698-723: blanks, comments and continued lines *)
Definition is_blank (c : ascii) : bool := ceqb c CR || ceqb c " "%char || ceqb c TAB.
Definition comment (m : mode) (text : bytes) (l : lx) : lx :=
  if format m then push (mkTok tok_comment text 0) (copy_into_sdata text l) else l.
Fixpoint skip_blanks (m : mode) (s : bytes) (com : option bytes) (l : lx) : lx :=
  match com, s with
  | Some text, [] => with_rest [] (comment m text l)
  | Some text, c :: s' =>
      if ceqb c NUL || ceqb c NL then with_rest s (comment m text l)
      else skip_blanks m s' (Some (text ++ [c])) l
  | None, [] => with_rest [] l
  | None, c :: s' =>
      if ceqb c "#"%char then skip_blanks m s' (Some []) l
      else if is_blank c then skip_blanks m s' None l
      else if ceqb c BSLASH then
        match s' with
        | d :: s'' => if ceqb d NL then skip_blanks m s'' None l else with_rest s l
        | [] => with_rest s l
        end
      else with_rest s l
  end.

(** src/lang/lexer.c 737-880: tokens of one or two characters.  [Some (t, two)]: a token of type t. *)
Definition symbol (m : mode) (c d : ascii) : option (ttype * bool) :=
  if ceqb c "."%char then Some (tok_dot, false)
  else if ceqb c ","%char then Some (tok_comma, false)
  else if ceqb c ":"%char then Some (tok_colon, false)
  else if ceqb c "?"%char then Some (tok_question_mark, false)
  else if ceqb c "+"%char then if ceqb d "="%char then Some (tok_plus_assign, true) else Some (tok_plus, false)
  else if ceqb c "-"%char then
    if functions m && ceqb d ">"%char then Some (tok_returntype, true) else Some (tok_minus, false)
  else if ceqb c "*"%char then Some (tok_star, false)
  else if ceqb c "/"%char then Some (tok_slash, false)
  else if ceqb c "%"%char then Some (tok_modulo, false)
  else if ceqb c "="%char then if ceqb d "="%char then Some (tok_eq, true) else Some (tok_assign, false)
  else if ceqb c "!"%char then if ceqb d "="%char then Some (tok_neq, true) else None
  else if ceqb c ">"%char then if ceqb d "="%char then Some (tok_geq, true) else Some (tok_gt, false)
  else if ceqb c "<"%char then if ceqb d "="%char then Some (tok_leq, true) else Some (tok_lt, false)
  else if ceqb c "|"%char then if functions m then Some (tok_bitor, false) else None
  else None.
Definition lex_other (m : mode) (l : lx) : lex_result :=
  let c := peek l in
  let simple t l := Cont (advance (push (plain t) l)) in
  let p := paren l in let b := bracket l in let k := curl l in
  if ceqb c NL then
    if (0 <? p) || (0 <? b) || (0 <? k)
    then if format m then simple tok_fmt_eol l else Cont (advance l)
    else simple tok_eol l
  else if ceqb c "("%char then simple tok_lparen (with_enclosing (S p) b k l)
  else if ceqb c ")"%char then
    match p with 0 => Fail l | S p => simple tok_rparen (with_enclosing p b k l) end
  else if ceqb c "["%char then simple tok_lbrack (with_enclosing p (S b) k l)
  else if ceqb c "]"%char then
    match b with 0 => Fail l | S b => simple tok_rbrack (with_enclosing p b k l) end
  else if ceqb c "{"%char then simple tok_lcurl (with_enclosing p b (S k) l)
  else if ceqb c "}"%char then
    match k with 0 => Fail l | S k => simple tok_rcurl (with_enclosing p b k l) end
  else if ceqb c NUL then
    match rest l with [] => Done (push (plain tok_eof) l) | _ => Fail l end
  else match symbol m c (peek1 l) with
       | Some (t, two) => simple t (if two then advance l else l)
       | None => Fail l
       end.

(** src/lang/lexer.c 695-889 lexer_tokenize_one *)
Definition tokenize_one (m : mode) (l : lx) : option lex_result :=
  let l := skip_blanks m (rest l) None l in
  let c := peek l in
  if ceqb c "f"%char && ceqb (peek1 l) QUOTE then lex_string m (rest l) (advance l) true
  else if ceqb c QUOTE then lex_string m (rest l) l false
  else if is_start c then Some (Cont (lex_identifier m l))
  else if is_digit c then Some (number m l)
  else Some (lex_other m l).

(** src/lang/lexer.c 891-925 tokenize *)
Fixpoint tokenize (m : mode) (fuel : nat) (ok : bool) (l : lx) : option (bool * lx) :=
  match fuel with
  | 0 => None
  | S fuel =>
      match tokenize_one m l with
      | None => None
      | Some (Cont l) => tokenize m fuel ok l
      | Some (Fail l) => tokenize m fuel false (advance l)
      | Some (Done l) => Some (ok, l)
      end
  end.

(** src/lang/lexer.c 927-951 lexer_lex: the buffer has [data_len] bytes; the result is success and the
    final state.  The loop runs at most once for each byte and once for the end. *)
Definition data_len (src : bytes) : nat := length src + 1.
Definition start_lx (src : bytes) : lx := mkLx src 0 0 0 0 0 [].
Definition lexer_lex (m : mode) (src : bytes) : option (bool * lx) :=
  tokenize m (S (S (length src))) true (start_lx src).
