(** Model of line iteration, TAP and ini parsing: src/formats/{lines,tap,ini}.c. *)
From Verif Require Import Base M_Str M_Format.

(** strchr(line, '\n') over the memory [m] from [line] on: the line and, if a newline came before
    a NUL, what follows it; [None]: neither is found before the end of the memory. *)
Fixpoint find_nl (m : bytes) : option (bytes * option bytes) :=
  match m with
  | [] => None
  | c :: m' => if ceqb c NL then Some ([], Some m')
               else if ceqb c NUL then Some ([], None)
               else match find_nl m' with Some (l, r) => Some (c :: l, r) | None => None end
  end.

(** lines.c 12-36.  The callback gets its state, the byte before the line ([None]: the line is
    at the start of the buffer) and the line; it returns its state and whether to go on, or
    [None] if it accesses memory outside the buffer.  The NUL written over each newline is the
    byte before the next line.  [None]: memory outside the buffer is accessed. *)
Fixpoint each_line_loop {S : Type} (fuel : nat) (cb : S -> option ascii -> bytes -> option (S * bool))
    (st : S) (prev : option ascii) (m : bytes) (off len : nat) : option S :=
  match fuel with
  | 0 => None
  | Datatypes.S f =>
      match find_nl m with
      | None => None
      | Some (line, Some rest) =>
          match cb st prev line with
          | None => None
          | Some (st, false) => Some st
          | Some (st, true) =>
              let off := off + length line + 1 in
              if len <=? off then Some st else each_line_loop f cb st (Some NUL) rest off len
          end
      | Some (line, None) =>
          match line with
          | [] => Some st
          | _ => match cb st prev line with Some (st, _) => Some st | None => None end
          end
      end
  end.
Definition each_line {S} (cb : S -> option ascii -> bytes -> option (S * bool)) (st : S) (mem : bytes) (len : nat) : option S :=
  each_line_loop (Datatypes.S (length mem)) cb st None mem 0 len.

(** tap.c 14-18 and include/formats/tap.h; the counters are uint32_t *)
Definition u32 (z : Z) : Z := (z mod 4294967296)%Z.
Record tap := { total : Z; pass : Z; fail : Z; skip : Z; have_plan : bool; bail_out : bool }.
Definition tap0 : tap := {| total := 0; pass := 0; fail := 0; skip := 0; have_plan := false; bail_out := false |}.
Definition set_plan (n : Z) (t : tap) := {| total := u32 n; pass := pass t; fail := fail t; skip := skip t; have_plan := true; bail_out := bail_out t |}.
Definition set_bail (t : tap) := {| total := total t; pass := pass t; fail := fail t; skip := skip t; have_plan := have_plan t; bail_out := true |}.
Definition add_pass (t : tap) := {| total := total t; pass := u32 (pass t + 1); fail := fail t; skip := skip t; have_plan := have_plan t; bail_out := bail_out t |}.
Definition add_fail (t : tap) := {| total := total t; pass := pass t; fail := u32 (fail t + 1); skip := skip t; have_plan := have_plan t; bail_out := bail_out t |}.
Definition add_skip (t : tap) := {| total := total t; pass := pass t; fail := fail t; skip := u32 (skip t + 1); have_plan := have_plan t; bail_out := bail_out t |}.
(** strstr: the text from the first occurrence on *)
Fixpoint strstr (s x : bytes) : option bytes :=
  if starts_with x s then Some s else match s with [] => None | _ :: s' => strstr s' x end.
Inductive directive := DNone | DTodo | DSkip.
(** tap.c 20-79 *)
Definition tap_point (t : tap) (ok : bool) (rest : bytes) : tap :=
  let d := match strstr rest (B " # ") with
           | Some s => let s := skipn 3 s in
                       if str_startswithi s (B "todo") then DTodo else if str_startswithi s (B "skip") then DSkip else DNone
           | None => DNone
           end in
  match d with
  | DSkip => add_skip t
  | _ => if ok then add_pass t else match d with DTodo => add_skip t | _ => add_fail t end
  end.
Definition tap_line_cb (t : tap) (l : bytes) : tap :=
  if str_startswith l (B "1..") && (3 <? length l) then
    match str_to_i (skipn 3 l) false with
    | Some n => if (0 <? n)%Z then set_plan n t else t
    | None => t
    end
  else if str_startswith l (B "Bail out!") then set_bail t
  else if str_startswith l (B "ok") then tap_point t true (skipn 2 l)
  else if str_startswith l (B "not ok") then tap_point t false (skipn 6 l)
  else t.
(** tap.c 81-93: the counters and [all_ok] *)
Definition tap_parse (mem : bytes) (len : nat) : option (tap * bool) :=
  match each_line (fun t _ l => Some (tap_line_cb t l, true)) tap0 mem len with
  | None => None
  | Some t =>
      let tot := if have_plan t then total t else u32 (pass t + skip t + fail t) in
      Some ({| total := tot; pass := pass t; fail := fail t; skip := skip t; have_plan := have_plan t; bail_out := bail_out t |},
            (tot =? u32 (pass t + skip t))%Z)
  end.

(** ini.c: one callback call: section, key and value (absent for a section line), line number *)
Record ini_call := { c_sect : option bytes; c_kv : option (bytes * bytes); c_line : nat }.
Record ini_st := { sect : option bytes; lineno : nat; success : bool; calls : list ini_call }.
(** blanks at the end of a text: what is left, and whether the text was blanks only *)
Fixpoint rtrim (l : bytes) : bytes :=
  match l with
  | [] => []
  | c :: l' => match rtrim l' with
               | [] => if is_whitespace c then [] else [c]
               | t => c :: t
               end
  end.
(** ini.c 41-106.  [ucb] says whether the user's callback accepts a call. *)
Definition ini_line_cb (comment : bytes) (keyval : bool) (ucb : ini_call -> bool) (st : ini_st) (prev : option ascii) (line : bytes) : option (ini_st * bool) :=
  let next st := Some ({| sect := sect st; lineno := lineno st + 1; success := success st; calls := calls st |}, true) in
  let bad st := Some ({| sect := sect st; lineno := lineno st; success := false; calls := calls st |}, false) in
  let call st s kv :=
    let c := {| c_sect := s; c_kv := kv; c_line := lineno st |} in
    let st := {| sect := s; lineno := lineno st; success := success st; calls := calls st ++ [c] |} in
    if ucb c then next st else bad st in
  match line with
  | [] => next st
  | c :: r =>
      if mem_char c comment || forallb is_whitespace line then next st
      else if negb keyval && ceqb c "["%char then
        match break_at "]"%char line with
        | (_, []) => bad st
        | (a, _ :: _) => call st (Some (skipn 1 a)) None
        end
      else
        match break_at "="%char line with
        | (_, []) => if keyval then next st else bad st
        | (k, _ :: v) =>
            let key := rtrim k in
            match key, prev with
            | [], None => None                      (* reads the byte before the buffer *)
            | [], Some p => if is_whitespace p then None else call st (sect st) (Some (key, rtrim (dropw is_whitespace v)))
            | _, _ => call st (sect st) (Some (key, rtrim (dropw is_whitespace v)))
            end
        end
  end.
(** ini.c 108-166: the buffer is a copy of the file's bytes, without a terminating NUL *)
Definition ini_run (comment : bytes) (keyval : bool) (ucb : ini_call -> bool) (file : bytes) : option (list ini_call * bool) :=
  match each_line (ini_line_cb comment keyval ucb) {| sect := None; lineno := 1; success := true; calls := [] |} file (length file) with
  | Some st => Some (calls st, success st)
  | None => None
  end.
Definition ini_parse := ini_run (B ";#") false.
Definition keyval_parse := ini_run (B "#") true.
