(** Reading the dependency files that compilers write: src/external/samurai/deps.c 140-153, 345-475.
    A file that is missing or cannot be read is not modelled.  char is signed: byte 255 is EOF, and
    isalnum is false for bytes above 127. *)
From Verif Require Import Base.

Inductive outcome (A : Type) := Ok (x : A) | Error | Exit | NoFuel.
Arguments Ok {A}. Arguments Error {A}. Arguments Exit {A}. Arguments NoFuel {A}.

(** an int: a character or EOF, [None] *)
Definition int_ := option ascii.
Definition is (d : ascii) (c : int_) : bool := match c with Some c => ceqb c d | None => false end.
Definition isblank (c : int_) : bool := is " " c || is TAB c.
Definition isspace (c : int_) : bool :=
  match c with Some c => ((9 <=? cval c) && (cval c <=? 13)) || ceqb c " " | None => false end.

(** 139-153 src_getc; the byte after the last one is NUL *)
Definition src_getc (s : bytes) : int_ * bytes :=
  match s with
  | [] => (None, [])
  | c :: s' =>
      match (if ceqb c CR then s' else []) with
      | d :: s'' => if ceqb d NL then (Some NL, s'') else (Some c, s')
      | [] => if cval c =? 255 then (None, s') else (Some c, s')
      end
  end.

(** 370: strchr also finds the NUL that ends its first argument *)
Definition name_char (c : int_) : bool :=
  match c with Some c => is_alnum c || mem_char c (B "$+,-./@\_") || ceqb c NUL | None => false end.
(** 374-380: how many backslashes there were, the character after them, and the buffer *)
Fixpoint slashes (fuel n : nat) (s buf : bytes) : outcome (nat * int_ * bytes * bytes) :=
  match fuel with
  | 0 => NoFuel
  | S fuel =>
      let '(c, s) := src_getc s in
      let n := S n in
      let buf := if Nat.even n then buf ++ [BSLASH] else buf in
      if is BSLASH c then slashes fuel n s buf else Ok (n, c, s, buf)
  end.
(** 384-386: how often the loop runs *)
Fixpoint pairs (n : nat) : nat :=
  match n with S (S n') => match n' with 0 => 0 | S _ => S (pairs n') end | _ => 0 end.
(** 369-404; [c] is the character that was read last, [s] what follows *)
Fixpoint word (fuel : nat) (c : int_) (s buf : bytes) : outcome (int_ * bytes * bytes) :=
  match fuel with
  | 0 => NoFuel
  | S fuel =>
      if name_char c then
        let add c buf := match c with Some c => buf ++ [c] | None => buf end in
        if is BSLASH c then
          match slashes (S (length s)) 0 s buf with
          | Ok (n, c, s, buf) =>
              if isblank c && Nat.odd n then let '(c', s) := src_getc s in word fuel c' s (add c buf)
              else
                let buf := buf ++ repeat BSLASH (pairs n) in
                if is "#" c then let '(c', s) := src_getc s in word fuel c' s (add c buf)
                else if is NL c then word fuel (Some " "%char) s buf
                else word fuel c s (buf ++ [BSLASH])
          | Error => Error | Exit => Exit | NoFuel => NoFuel
          end
        else if is "$" c then
          let '(c, s) := src_getc s in
          if negb (is "$" c) then Error
          else let '(c', s) := src_getc s in word fuel c' s (add c buf)
        else let '(c', s) := src_getc s in word fuel c' s (add c buf)
      else Ok (c, s, buf)
  end.
(** 422-424, 430-432: while (p(c)) c = src_getc() *)
Fixpoint skip_while (p : int_ -> bool) (fuel : nat) (c : int_) (s : bytes) : outcome (int_ * bytes) :=
  match fuel with
  | 0 => NoFuel
  | S fuel => if p c then let '(c, s) := src_getc s in skip_while p fuel c s else Ok (c, s)
  end.
(** 452-462 *)
Fixpoint skip_gap (fuel : nat) (c : int_) (s : bytes) : outcome (int_ * bytes) :=
  match fuel with
  | 0 => NoFuel
  | S fuel =>
      if is BSLASH c then
        let '(d, s) := src_getc s in
        if negb (is NL d) then Error else let '(c, s) := src_getc s in skip_gap fuel c s
      else if isblank c then let '(c, s) := src_getc s in skip_gap fuel c s
      else Ok (c, s)
  end.
(** 364-475 from the first character on.  [Error]: the label err; [Exit]: samu_fatal at 445 *)
Fixpoint rules (fuel : nat) (c : int_) (s : bytes) (sawcolon : bool) (out : option bytes) (deps : list bytes)
  : outcome (list bytes) :=
  match fuel with
  | 0 => NoFuel
  | S fuel =>
      match word (S (S (length s))) c s [] with
      | Ok (c, s, buf) =>
          let next c s sawcolon out deps :=
            match skip_gap (S (S (length s))) c s with
            | Ok (c, s) => rules fuel c s sawcolon out deps
            | Error => Error | Exit => Exit | NoFuel => NoFuel
            end in
          if sawcolon then
            if negb (isspace c) && (match c with Some _ => true | None => false end) then Error
            else
              let deps := match buf with [] => deps | _ => deps ++ [buf] end in
              match (if is NL c then
                       match skip_while (is NL) (S (S (length s))) c s with
                       | Ok (c, s) => Ok (false, c, s)
                       | Error => Error | Exit => Exit | NoFuel => NoFuel
                       end
                     else Ok (true, c, s)) with
              | Ok (sawcolon, c, s) =>
                  match c with
                  | None => Ok deps
                  | Some _ => next c s sawcolon out deps
                  end
              | Error => Error | Exit => Exit | NoFuel => NoFuel
              end
          else
            match skip_while isblank (S (S (length s))) c s with
            | Ok (c, s) =>
                match c with
                | None => Ok deps
                | Some _ =>
                    if negb (is ":" c) then Error
                    else if match out with Some o => negb (beqb o buf) | None => false end then Exit
                    else
                      let '(c, s) := src_getc s in
                      next c s true (match out with Some o => Some o | None => Some buf end) deps
                end
            | Error => Error | Exit => Exit | NoFuel => NoFuel
            end
      | Error => Error | Exit => Exit | NoFuel => NoFuel
      end
  end.
Definition depsparse (fuel : nat) (file : bytes) : outcome (list bytes) :=
  let '(c, s) := src_getc file in rules fuel c s false None [].
