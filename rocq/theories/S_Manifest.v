(** What a build manifest says: how its statements are spelled, and what they mean.  Paths (is_abs, comps,
    walk, render) are in S_Path, the values of an edge's variables (defs, value) in S_Env, numbers in S_Format. *)
From Verif Require Import Base M_Escape S_Path S_Tree S_Env S_Format.

(** ** Spelling *)
Definition simple_char (c : ascii) : bool := is_alnum c || mem_char c (B "_-").
Definition name_char (c : ascii) : bool := is_alnum c || mem_char c (B "_-.").
Definition a_name (n : bytes) : Prop := n <> [] /\ forallb name_char n = true.

Definition eol (e : bytes) : Prop := e = [NL] \/ e = [CR; NL].
(** a space, or a line continued with a dollar sign *)
Definition blank (b : bytes) : Prop := b = B " " \/ exists e, eol e /\ b = B "$" ++ e.
Inductive blanks : bytes -> Prop :=
| bs_nil : blanks []
| bs_more b t : blank b -> blanks t -> blanks (b ++ t).
Definition begins_blank (t : bytes) : Prop := exists b r, blank b /\ t = b ++ r.

(** A value is a sequence of characters and of uses of variables. *)
Inductive atom := Chr (c : ascii) | Var (v : bytes).
(** a character that stands for itself; in a path a space, a colon and a bar end it *)
Definition plain (path : bool) (c : ascii) : bool :=
  negb (mem_char c [NUL; NL; CR; "$"%char; ch 255]) && negb (path && mem_char c (B " :|")).
Inductive written (path : bool) : list atom -> bytes -> Prop :=
| w_nil : written path [] []
| w_char c as' t : plain path c = true -> written path as' t -> written path (Chr c :: as') (c :: t)
| w_quoted c as' t : mem_char c (B "$ :") = true -> written path as' t -> written path (Chr c :: as') (B "$" ++ c :: t)
| w_var v as' t : forallb name_char v = true -> written path as' t -> written path (Var v :: as') (B "${" ++ v ++ B "}" ++ t)
| w_short v as' t : v <> [] -> forallb simple_char v = true -> (forall c r, t = c :: r -> simple_char c = false) ->
    written path as' t -> written path (Var v :: as') (B "$" ++ v ++ t)
| w_continued e b as' t : eol e -> blanks b -> t <> [] -> ~ begins_blank t ->
    written path as' t -> written path as' (B "$" ++ e ++ b ++ t).

(** a variable's name, an equals sign and its value *)
Inductive let_line : bytes * list atom -> bytes -> Prop :=
| let_intro n b b' v w e : a_name n -> blanks b -> blanks b' -> written false v w -> ~ begins_blank w -> eol e ->
    let_line (n, v) (n ++ b ++ B "=" ++ b' ++ w ++ e).
Inductive comment_line : bytes -> Prop :=
| comment_intro c e : (forall x, In x c -> x <> NL /\ x <> CR) -> eol e -> comment_line (B "#" ++ c ++ e).
(** the indented lines below a statement *)
Inductive block : list (bytes * list atom) -> bytes -> Prop :=
| bk_nil : block [] []
| bk_let b x w xs t : blanks b -> b <> [] -> let_line x w -> block xs t -> block (x :: xs) (b ++ w ++ t)
| bk_comment b w xs t : blanks b -> comment_line w -> block xs t -> block xs (b ++ w ++ t).
(** the lines between statements *)
Inductive filler : bytes -> Prop :=
| fi_nil : filler []
| fi_empty e t : eol e -> filler t -> filler (e ++ t)
| fi_comment w t : comment_line w -> filler t -> filler (w ++ t)
| fi_blank b e t : blanks b -> eol e -> filler t -> filler (B " " ++ b ++ e ++ t)
| fi_indented b w t : blanks b -> comment_line w -> filler t -> filler (B " " ++ b ++ w ++ t).

(** between paths there is at least a space: a line continued right after a path continues the path *)
Definition gap (b : bytes) : Prop := exists b', b = B " " ++ b' /\ blanks b'.
Inductive paths : list (list atom) -> bytes -> Prop :=
| ps_nil : paths [] []
| ps_more p w b ps t : p <> [] -> written true p w -> ~ begins_blank w -> gap b \/ b = [] /\ ps = [] -> paths ps t ->
    paths (p :: ps) (w ++ b ++ t).
(** [m] and paths, or nothing; a bar may not be followed by another one *)
Inductive section (m : bytes) : list (list atom) -> bytes -> Prop :=
| se_none : section m [] []
| se_some b ps w : blanks b -> paths ps w -> (b = [] -> ps <> []) -> section m ps (m ++ b ++ w).

Inductive stmt :=
| SVar (n : bytes) (v : list atom)
| SRule (n : bytes) (vs : list (bytes * list atom))
| SPool (n : bytes) (vs : list (bytes * list atom))
| SBuild (outs outimp : list (list atom)) (rule : bytes) (ins imp ord : list (list atom)) (vs : list (bytes * list atom))
| SDefault (ps : list (list atom)).
Definition words_of_the_language : list bytes := [B "build"; B "default"; B "include"; B "pool"; B "rule"; B "subninja"].

Inductive spelled : stmt -> bytes -> Prop :=
| sp_var n v w : ~ In n words_of_the_language -> let_line (n, v) w -> spelled (SVar n v) w
| sp_rule b n b' e vs w : blanks b -> b <> [] -> a_name n -> blanks b' -> eol e -> block vs w ->
    spelled (SRule n vs) (B "rule" ++ b ++ n ++ b' ++ e ++ w)
| sp_pool b n b' e vs w : blanks b -> b <> [] -> a_name n -> blanks b' -> eol e -> block vs w ->
    spelled (SPool n vs) (B "pool" ++ b ++ n ++ b' ++ e ++ w)
| sp_build b outs wo outimp wo' b' rule b'' ins wi imp wi' ord wi'' e vs w :
    blanks b -> b <> [] -> outs <> [] -> paths outs wo -> section (B "|") outimp wo' ->
    blanks b' -> a_name rule -> blanks b'' -> (b'' = [] -> ins = []) -> paths ins wi -> section (B "|") imp wi' ->
    section (B "||") ord wi'' -> eol e -> block vs w ->
    spelled (SBuild outs outimp rule ins imp ord vs)
      (B "build" ++ b ++ wo ++ wo' ++ B ":" ++ b' ++ rule ++ b'' ++ wi ++ wi' ++ wi'' ++ e ++ w)
| sp_default b ps w e : blanks b -> (b = [] -> ps = []) -> paths ps w -> eol e ->
    spelled (SDefault ps) (B "default" ++ b ++ w ++ e).
Inductive manifest : list stmt -> bytes -> Prop :=
| mf_nil f : filler f -> manifest [] f
| mf_more f s w ss t : filler f -> spelled s w -> manifest ss t -> manifest (s :: ss) (f ++ w ++ t).

(** ** Meaning *)
Definition expand (scopes : list (list (bytes * bytes))) (v : list atom) : bytes :=
  concat (map (fun a => match a with Chr c => [c] | Var x => or_empty (innermost scopes x) end) v).
(** consecutive characters taken together, as in S_Env *)
Fixpoint pieces_of (v : list atom) : list part :=
  match v with
  | [] => []
  | Var x :: v => PVar x :: pieces_of v
  | Chr c :: v => match pieces_of v with PStr s :: ps => PStr (c :: s) :: ps | ps => PStr [c] :: ps end
  end.

(** a path that does not go more than 60 names deep, and its canonical form *)
Definition canonical (p q : bytes) : Prop :=
  p <> [] /\ (forall k, length (snd (walk (firstn k (comps p)))) <= 60) /\
  (is_abs p = true -> walk (comps p) <> (0, [])) /\
  q = render (is_abs p) (repeat (B "..") (fst (walk (comps p))) ++ snd (walk (comps p))).
Definition places (scopes : list (list (bytes * bytes))) (ps : list (list atom)) (qs : list bytes) : Prop :=
  Forall2 (fun p q => canonical (expand scopes p) q) ps qs.

Record build := Build {
  b_outs : list bytes; b_outimp : list bytes;
  b_ins : list bytes; b_imp : list bytes; b_ord : list bytes;
  b_rule : bytes; b_vars : list (bytes * bytes); b_pool : option bytes }.
(** what has been said so far *)
Record said := Said {
  vars : list (bytes * bytes);
  rules : list (bytes * list (bytes * list part));
  builds : list build;
  defaults : list bytes;
  pools : list (bytes * Z) }.
Definition at_first : said := Said [] [(B "phony", [])] [] [] [(B "console", 1%Z)].

Definition all_outs (b : build) := b_outs b ++ b_outimp b.
Definition all_ins (b : build) := b_ins b ++ b_imp b ++ b_ord b.
(** the definitions the variables of a build see *)
Definition sees (s : said) (b : build) : defs :=
  Defs (b_ins b) (b_outs b) (b_vars b) (match last_value (rules s) (b_rule b) with Some vs => vs | None => [] end) [vars s].
Definition sets (n : bytes) (vs : list (bytes * list atom)) : Prop := exists v, In (n, v) vs /\ v <> [].
(** a version number major.minor..., or major alone *)
Definition version (v : bytes) (major minor : Z) : Prop :=
  exists a r, v = a ++ r /\ all_digits a /\ dec_value a = major /\ (major < 2 ^ 31)%Z /\
    (r = [] /\ minor = 0%Z \/
     exists c r', r = B "." ++ c ++ r' /\ all_digits c /\ dec_value c = minor /\ (minor < 2 ^ 31)%Z /\
       (forall x y, r' = x :: y -> is_digit x = false)).
Definition pool_depth (s : said) (vs : list (bytes * list atom)) (d : Z) : Prop :=
  Forall (fun x => fst x = B "depth" /\ all_digits (expand [vars s] (snd x)) /\
    (0 < dec_value (expand [vars s] (snd x)) < 2 ^ 31)%Z) vs /\
  exists v, last_value vs (B "depth") = Some v /\ d = dec_value (expand [vars s] v).

(** Quoting of paths in a variable's value plays no role for the names of pools: it is that of the command
    lines (C28). *)
Inductive step (quote : bytes -> bytes) (s : said) : stmt -> said -> Prop :=
| st_var n v :
    (n = B "ninja_required_version" ->
      exists a i, version (expand [vars s] v) a i /\ ((a < 1)%Z \/ a = 1%Z /\ (i <= 9)%Z)) ->
    step quote s (SVar n v) (Said (vars s ++ [(n, expand [vars s] v)]) (rules s) (builds s) (defaults s) (pools s))
| st_rule n vs :
    last_value (rules s) n = None -> sets (B "command") vs -> (sets (B "rspfile") vs <-> sets (B "rspfile_content") vs) ->
    step quote s (SRule n vs)
      (Said (vars s) (rules s ++ [(n, map (fun x => (fst x, pieces_of (snd x))) vs)]) (builds s) (defaults s) (pools s))
| st_pool n vs d :
    last_value (pools s) n = None -> pool_depth s vs d ->
    step quote s (SPool n vs) (Said (vars s) (rules s) (builds s) (defaults s) (pools s ++ [(n, d)]))
| st_build outs outimp rule ins imp ord vs b :
    last_value (rules s) rule <> None -> b_rule b = rule ->
    b_vars b = map (fun x => (fst x, expand [vars s] (snd x))) vs ->
    places [b_vars b; vars s] outs (b_outs b) -> places [b_vars b; vars s] outimp (b_outimp b) ->
    places [b_vars b; vars s] ins (b_ins b) -> places [b_vars b; vars s] imp (b_imp b) ->
    places [b_vars b; vars s] ord (b_ord b) ->
    NoDup (all_outs b) -> (forall p b', In p (all_outs b) -> In b' (builds s) -> ~ In p (all_outs b')) ->
    value quote (sees s b) (B "pool") (b_pool b) ->
    (forall p, b_pool b = Some p -> last_value (pools s) p <> None) ->
    step quote s (SBuild outs outimp rule ins imp ord vs) (Said (vars s) (rules s) (builds s ++ [b]) (defaults s) (pools s))
| st_default ps qs :
    places [vars s] ps qs -> (forall q, In q qs -> exists b, In b (builds s) /\ (In q (all_outs b) \/ In q (all_ins b))) ->
    step quote s (SDefault ps) (Said (vars s) (rules s) (builds s) (defaults s ++ qs) (pools s)).
Inductive steps (quote : bytes -> bytes) : said -> list stmt -> said -> Prop :=
| ss_nil s : steps quote s [] s
| ss_more s x s' xs s'' : step quote s x s' -> steps quote s' xs s'' -> steps quote s (x :: xs) s''.

(** ** Mistakes *)
Inductive wrong (quote : bytes -> bytes) (s : said) : stmt -> Prop :=
| wr_version v a i : version (expand [vars s] v) a i -> ((1 < a)%Z \/ a = 1%Z /\ (9 < i)%Z) ->
    wrong quote s (SVar (B "ninja_required_version") v)
| wr_rule_twice n vs : last_value (rules s) n <> None -> wrong quote s (SRule n vs)
| wr_no_command n vs : ~ sets (B "command") vs -> wrong quote s (SRule n vs)
| wr_rspfile n vs : ~ (sets (B "rspfile") vs <-> sets (B "rspfile_content") vs) -> wrong quote s (SRule n vs)
| wr_pool_twice n vs : last_value (pools s) n <> None -> wrong quote s (SPool n vs)
| wr_pool_variable n vs x : In x vs -> fst x <> B "depth" -> wrong quote s (SPool n vs)
| wr_no_depth n : wrong quote s (SPool n [])
| wr_no_rule outs outimp rule ins imp ord vs : last_value (rules s) rule = None ->
    wrong quote s (SBuild outs outimp rule ins imp ord vs)
| wr_outputs outs outimp rule ins imp ord vs own o : own = map (fun x => (fst x, expand [vars s] (snd x))) vs ->
    places [own; vars s] (outs ++ outimp) o ->
    (~ NoDup o \/ exists p b, In p o /\ In b (builds s) /\ In p (all_outs b)) ->
    wrong quote s (SBuild outs outimp rule ins imp ord vs)
| wr_pool outs outimp rule ins imp ord vs b :
    b_rule b = rule -> b_vars b = map (fun x => (fst x, expand [vars s] (snd x))) vs ->
    places [b_vars b; vars s] outs (b_outs b) -> places [b_vars b; vars s] ins (b_ins b) ->
    (circular (sees s b) (B "pool") \/
     exists p, value quote (sees s b) (B "pool") (Some p) /\ last_value (pools s) p = None) ->
    wrong quote s (SBuild outs outimp rule ins imp ord vs)
| wr_default ps qs q : places [vars s] ps qs -> In q qs ->
    (forall b, In b (builds s) -> ~ In q (all_outs b) /\ ~ In q (all_ins b)) -> wrong quote s (SDefault ps).
