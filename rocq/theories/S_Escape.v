(** Specification for escaping: what a POSIX shell makes of a line of arguments, and which
    names can be written into a build file. *)
From Verif Require Import Base.

(** characters that, unquoted, do something other than stand for themselves *)
Definition sh_special (c : ascii) : bool := mem_char c (B "|&;<>()$`*?[" ++ [DQUOTE; NL]).
Definition sh_blank (c : ascii) : bool := ceqb c " "%char || ceqb c TAB.
(** special only at the start of a word: a comment, and a home directory *)
Definition sh_start_special (c : ascii) : bool := ceqb c "#"%char || ceqb c "~"%char.

(** The words of a line.  [cur] is the word being read, if any; [q] says whether we are inside
    single quotes.  [None]: the line uses shell syntax beyond words and quoting, or a quote is
    not closed. *)
Fixpoint sh_lex (q : bool) (cur : option bytes) (l : bytes) : option (list bytes) :=
  let word := match cur with Some w => w | None => [] end in
  match l with
  | [] => if q then None else Some (match cur with Some w => [w] | None => [] end)
  | c :: r =>
      if q then if ceqb c QUOTE then sh_lex false (Some word) r else sh_lex true (Some (word ++ [c])) r
      else if ceqb c QUOTE then sh_lex true (Some word) r
      else if ceqb c BSLASH then
        match r with
        | x :: r' => if ceqb x NL then sh_lex false cur r' else sh_lex false (Some (word ++ [x])) r'
        | [] => None
        end
      else if sh_blank c then
        match cur with Some w => option_map (cons w) (sh_lex false None r) | None => sh_lex false None r end
      else if sh_special c then None
      else if sh_start_special c && match cur with None => true | Some _ => false end then None
      else sh_lex false (Some (word ++ [c])) r
  end.
Definition sh_words (l : bytes) : option (list bytes) := sh_lex false None l.

(** nothing in the word needs quoting *)
Definition sh_plain (s : bytes) : bool :=
  match s with [] => false | c :: _ => negb (sh_start_special c) end &&
  forallb (fun c => negb (sh_special c || sh_blank c || ceqb c QUOTE || ceqb c BSLASH)) s.
(** contains one of: double quote, quote, dollar, blank, backslash, > < & # and newline *)
Definition sh_obvious (s : bytes) : Prop :=
  exists c, In c s /\ In c [DQUOTE; QUOTE; "$"%char; " "%char; BSLASH; ">"%char; "<"%char; "&"%char; "#"%char; NL].
