(** Specifications: the lines of a text, TAP lines and verdicts, ini files. *)
From Verif Require Import Base M_Format M_Formats S_Format.

(** [ls] are the lines of [text]: each is ended by a newline, except perhaps the last *)
Inductive lines_of : bytes -> list bytes -> Prop :=
| Lines_nil : lines_of [] []
| Lines_last : forall l, l <> [] -> ~ In NL l -> lines_of l [l]
| Lines_cons : forall l r ls, ~ In NL l -> lines_of r ls -> lines_of (l ++ NL :: r) (l :: ls).

(** A callback fed with lines one by one, until it says stop ([false]) or fails. *)
Fixpoint feed {S} (cb : S -> option ascii -> bytes -> option (S * bool)) (st : S) (prev : option ascii) (ls : list bytes) : option S :=
  match ls with
  | [] => Some st
  | l :: ls' => match cb st prev l with
                | None => None
                | Some (st', false) => Some st'
                | Some (st', true) => feed cb st' (Some NUL) ls'
                end
  end.

(** ** TAP *)
Definition begins (p l : bytes) : Prop := exists r, l = p ++ r.
(** the text after the first " # " *)
Definition directive_text (rest d : bytes) : Prop :=
  exists a, rest = a ++ B " # " ++ d /\ forall a' d', rest = a' ++ B " # " ++ d' -> length a <= length a'.
Definition lower (c : ascii) : ascii := if is_upper c then ch (cval c + 32) else c.
(** starts with the (lower case) word, in any case *)
Definition says (w d : bytes) : Prop := exists x y, d = x ++ y /\ map lower x = w.
Definition has_directive (w rest : bytes) : Prop := exists d, directive_text rest d /\ says w d.

Inductive tap_kind := Plan (n : Z) | Bail | Pass | Skip | Fail | Other.
Inductive tap_line : bytes -> tap_kind -> Prop :=
| T_plan : forall d z, reads_as d z -> (0 < z)%Z -> tap_line (B "1.." ++ d) (Plan (Z.min z LONG_MAX))
| T_bad_plan : forall d, (forall z, reads_as d z -> (z <= 0)%Z) -> tap_line (B "1.." ++ d) Other
| T_bail : forall r, tap_line (B "Bail out!" ++ r) Bail
| T_ok : forall r, ~ has_directive (B "skip") r -> tap_line (B "ok" ++ r) Pass
| T_ok_skip : forall r, has_directive (B "skip") r -> tap_line (B "ok" ++ r) Skip
| T_fail : forall r, ~ has_directive (B "skip") r -> ~ has_directive (B "todo") r -> tap_line (B "not ok" ++ r) Fail
| T_fail_skip : forall r, has_directive (B "skip") r \/ has_directive (B "todo") r -> tap_line (B "not ok" ++ r) Skip
| T_other : forall l, ~ begins (B "1..") l -> ~ begins (B "Bail out!") l -> ~ begins (B "ok") l -> ~ begins (B "not ok") l -> tap_line l Other.

Definition is_plan k := match k with Plan _ => true | _ => false end.
Definition is_ok k := match k with Pass | Skip => true | _ => false end.
Definition is_fail k := match k with Fail => true | _ => false end.
Definition count (f : tap_kind -> bool) (ks : list tap_kind) : Z := Z.of_nat (length (filter f ks)).
(** the last plan line counts *)
Fixpoint last_plan (ks : list tap_kind) : option Z :=
  match ks with
  | [] => None
  | k :: ks' => match last_plan ks' with Some n => Some n | None => match k with Plan n => Some n | _ => None end end
  end.

(** ** ini *)
Inductive ini_item := ISect (name : bytes) | IPair (key value : bytes) | INothing.
Definition ws (l : bytes) : Prop := Forall (fun c => is_whitespace c = true) l.
(** neither starts nor ends with a blank *)
Definition no_ws_start (l : bytes) : Prop := forall c r, l = c :: r -> is_whitespace c = false.
Definition no_ws_end (l : bytes) : Prop := forall r c, l = r ++ [c] -> is_whitespace c = false.
Inductive ini_line (keyval : bool) (comment : bytes) : bytes -> ini_item -> Prop :=
| I_blank : forall l, ws l -> ini_line keyval comment l INothing
| I_comment : forall c l, In c comment -> ini_line keyval comment (c :: l) INothing
| I_section : forall name r, keyval = false -> ~ In "["%char comment -> ~ In "]"%char name ->
    ini_line keyval comment ("["%char :: name ++ "]"%char :: r) (ISect name)
| I_pair : forall key w1 w2 value w3,
    key <> [] -> ~ In "="%char key -> (forall c r, key = c :: r -> ~ In c comment /\ (keyval = false -> c <> "["%char)) ->
    no_ws_end key -> ws w1 -> ws w2 -> no_ws_start value -> no_ws_end value -> ws w3 ->
    ini_line keyval comment (key ++ w1 ++ "="%char :: w2 ++ value ++ w3) (IPair key value)
| I_other : forall l, keyval = true -> ~ In "="%char l -> ini_line keyval comment l INothing.   (* only in key=value files *)
(** the calls a list of lines leads to *)
Fixpoint ini_events (s : option bytes) (n : nat) (items : list ini_item) : list ini_call :=
  match items with
  | [] => []
  | ISect name :: r => {| c_sect := Some name; c_kv := None; c_line := n |} :: ini_events (Some name) (n + 1) r
  | IPair k v :: r => {| c_sect := s; c_kv := Some (k, v); c_line := n |} :: ini_events s (n + 1) r
  | INothing :: r => ini_events s (n + 1) r
  end.
(** a line that is an error: a section without ']', or no '=' *)
Definition ini_bad (comment l : bytes) : Prop :=
  ~ ws l /\ (forall c r, l = c :: r -> ~ In c comment) /\
  ((exists r, l = "["%char :: r /\ ~ In "]"%char r) \/ ((forall r, l <> "["%char :: r) /\ ~ In "="%char l)).
