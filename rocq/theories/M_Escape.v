(** Model of argument escaping (src/args.c, src/platform/posix/path.c), of the build file
    writer's use of it (src/backend/ninja), and of the build tool's scanner
    (src/external/samurai/scan.c) that reads the text back. *)
From Verif Require Import Base.

(** ** Writing *)
(** args.c 41-55 simple_escape over a NUL-free string; [None]: assert(false) on a newline *)
Fixpoint simple_escape (need : bytes) (esc : ascii) (s : bytes) : option bytes :=
  match s with
  | [] => Some []
  | c :: s' =>
      if mem_char c need then option_map (fun r => esc :: c :: r) (simple_escape need esc s')
      else if ceqb c NL then None
      else option_map (cons c) (simple_escape need esc s')
  end.
(** args.c 57-61 *)
Definition ninja_escape (s : bytes) : option bytes := simple_escape (B " :$") "$"%char s.
(** args.c 74-78 *)
Definition pkgconf_escape (s : bytes) : option bytes := simple_escape (B " ") BSLASH s.

(** platform/posix/path.c 31-66 shell_escape *)
Definition need_escaping : bytes := DQUOTE :: QUOTE :: "$"%char :: " "%char :: BSLASH :: B "><&#" ++ [NL].
Fixpoint shell_quote_body (s : bytes) : bytes :=
  match s with
  | [] => []
  | c :: s' => (if ceqb c QUOTE then [QUOTE; BSLASH; QUOTE; QUOTE] else [c]) ++ shell_quote_body s'
  end.
Definition shell_escape (s : bytes) : bytes :=
  match s with
  | [] => [QUOTE; QUOTE]
  | _ => if existsb (fun c => mem_char c need_escaping) s
         then QUOTE :: shell_quote_body s ++ [QUOTE]
         else s
  end.
(** args.c 63-72 *)
Definition shell_ninja_escape (s : bytes) : option bytes := simple_escape ["$"%char; NL] "$"%char (shell_escape s).

(** args.c 88-126 join_args: [i] counts, a blank is written unless the item is the last *)
Fixpoint join_args_loop (escape : bytes -> option bytes) (len i : nat) (acc : bytes) (l : list bytes) : option bytes :=
  match l with
  | [] => Some acc
  | s :: l' => match escape s with
               | None => None
               | Some e => join_args_loop escape len (i + 1) ((acc ++ e) ++ (if i <? len - 1 then B " " else [])) l'
               end
  end.
Definition join_args (escape : bytes -> option bytes) (l : list bytes) : option bytes := join_args_loop escape (length l) 0 [] l.
(** args.c 128-156 *)
Definition join_args_plain := join_args Some.
Definition join_args_shell := join_args (fun s => Some (shell_escape s)).
Definition join_args_ninja := join_args ninja_escape.
Definition join_args_shell_ninja := join_args shell_ninja_escape.

(** The build statements written by backend/ninja/build_target.c 93-100 and 237-249 and
    custom_target.c 173-180: outputs, rule, inputs, then optionally implicit and order-only
    inputs.  [None] for the implicit part means " | " is not written. *)
Definition write_edge (outs : list bytes) (rule : bytes) (ins : list bytes) (imp ord : option (list bytes)) : option bytes :=
  let part (pre : bytes) (p : option (list bytes)) :=
    match p with None => Some [] | Some l => option_map (app pre) (join_args_ninja l) end in
  match join_args_ninja outs, join_args_ninja ins, part (B " | ") imp, part (B " || ") ord with
  | Some o, Some i, Some im, Some od => Some (B "build " ++ o ++ B ": " ++ rule ++ B " " ++ i ++ im ++ od ++ [NL])
  | _, _, _, _ => None
  end.
(** the variable line under a build statement, build_target.c 110, custom_target.c 174 *)
Definition write_var (name : bytes) (args : list bytes) : option bytes :=
  option_map (fun v => B " " ++ name ++ B " = " ++ v ++ [NL]) (join_args_shell_ninja args).

(** ** The scanner *)
(** A scanner state is the text from the current character on.  The current character is a C
    int filled from a (signed) char, so the byte 255 looks like the end of the file.
    [None] is samu_scanerror. *)
Definition EOFB : ascii := ch 255.
Definition at_eof (l : bytes) : bool := match l with [] => true | c :: _ => ceqb c EOFB end.
(** scan.c 73-83 *)
Definition issimplevar (c : ascii) : bool := is_alnum c || ceqb c "_"%char || ceqb c "-"%char.
Definition isvar (c : ascii) : bool := issimplevar c || ceqb c "."%char.
(** scan.c 86-99 *)
Definition newline (l : bytes) : option (bool * bytes) :=
  match l with
  | c :: r =>
      if ceqb c CR then match r with x :: r' => if ceqb x NL then Some (true, r') else None | [] => None end
      else if ceqb c NL then Some (true, r) else Some (false, l)
  | [] => Some (false, l)
  end.
(** scan.c 101-117; at the end of the file the rewind makes '$' be read twice *)
Definition singlespace (l : bytes) : option (bool * bytes) :=
  match l with
  | c :: r =>
      if ceqb c "$"%char then
        match newline r with
        | None => None
        | Some (true, r') => Some (true, r')
        | Some (false, _) => Some (false, match r with [] => ["$"%char; "$"%char] | _ => l end)
        end
      else if ceqb c " "%char then Some (true, r) else Some (false, l)
  | [] => Some (false, l)
  end.
(** scan.c 119-127 *)
Fixpoint space_loop (fuel : nat) (any : bool) (l : bytes) : option (bool * bytes) :=
  match fuel with
  | 0 => None
  | S f => match singlespace l with
           | None => None
           | Some (true, r) => space_loop f true r
           | Some (false, r) => Some (any, r)
           end
  end.
Definition space (l : bytes) : option (bool * bytes) := space_loop (S (length l)) false l.
(** scan.c 139-152 and 205-210 *)
Definition scan_name (l : bytes) : option (bytes * bytes) :=
  let '(n, r) := span isvar l in
  match n with
  | [] => None
  | _ => match space r with Some (_, r') => Some (n, r') | None => None end
  end.

Inductive part := PStr (s : bytes) | PVar (v : bytes).
(** scan.c 212-230: a literal part is added only when the buffer is not empty *)
Definition flush (buf : bytes) (parts : list part) : list part :=
  match buf with [] => parts | _ => parts ++ [PStr buf] end.

(** scan.c 232-269 samu_escape, after the '$'; new buffer, parts and rest *)
Definition escape (buf : bytes) (parts : list part) (l : bytes) : option (bytes * list part * bytes) :=
  match l with
  | c :: r =>
      if at_eof l then None
      else if ceqb c "$"%char || ceqb c " "%char || ceqb c ":"%char then Some (buf ++ [c], parts, r)
      else if ceqb c "{"%char then
        let '(v, r') := span isvar r in
        match r' with
        | x :: r'' => if ceqb x "}"%char then Some ([], flush buf parts ++ [PVar v], r'') else None
        | [] => None
        end
      else if ceqb c CR || ceqb c NL then
        match newline l with
        | Some (_, r') => match space r' with Some (_, r'') => Some (buf, parts, r'') | None => None end
        | None => None
        end
      else
        let '(v, r') := span issimplevar l in
        match v with [] => None | _ => Some ([], flush buf parts ++ [PVar v], r') end
  | [] => None
  end.

(** scan.c 271-305 samu_scanstring *)
Fixpoint scan_loop (fuel : nat) (path : bool) (l buf : bytes) (parts : list part) : option (list part * bytes) :=
  match fuel with
  | 0 => None
  | S f =>
      match l with
      | [] => Some (flush buf parts, l)
      | c :: r =>
          if at_eof l then Some (flush buf parts, l)
          else if ceqb c "$"%char then
            match escape buf parts r with
            | Some (buf', parts', r') => scan_loop f path r' buf' parts'
            | None => None
            end
          else if path && (ceqb c ":"%char || ceqb c "|"%char || ceqb c " "%char) then Some (flush buf parts, l)
          else if ceqb c CR || ceqb c NL then Some (flush buf parts, l)
          else scan_loop f path r (buf ++ [c]) parts
      end
  end.
Definition scan_string (path : bool) (l : bytes) : option (list part * bytes) :=
  match scan_loop (S (length l)) path l [] [] with
  | None => None
  | Some (ps, r) =>
      if path then match space r with Some (_, r') => Some (ps, r') | None => None end
      else Some (ps, r)
  end.
(** scan.c 307-319 *)
Fixpoint scan_paths_loop (fuel : nat) (l : bytes) (acc : list (list part)) : option (list (list part) * bytes) :=
  match fuel with
  | 0 => None
  | S f => match scan_string true l with
           | None => None
           | Some ([], r) => Some (acc, r)
           | Some (ps, r) => scan_paths_loop f r (acc ++ [ps])
           end
  end.
Definition scan_paths (l : bytes) := scan_paths_loop (S (length l)) l [].
(** scan.c 321-328 *)
Definition scan_char (c : ascii) (l : bytes) : option bytes :=
  match l with
  | x :: r => if ceqb x c then match space r with Some (_, r') => Some r' | None => None end else None
  | [] => None
  end.
(** scan.c 330-348; [one] and [two] say which of '|' and '||' is allowed *)
Definition scan_pipe (one two : bool) (l : bytes) : option (nat * bytes) :=
  match l with
  | c :: r =>
      if ceqb c "|"%char then
        match r with
        | x :: r' => if ceqb x "|"%char
                     then if two then match space r' with Some (_, r'') => Some (2, r'') | None => None end else None
                     else if one then match space r with Some (_, r'') => Some (1, r'') | None => None end else None
        | [] => if one then Some (1, []) else None
        end
      else Some (0, l)
  | [] => Some (0, l)
  end.
Definition scan_newline (l : bytes) : option bytes :=
  match newline l with Some (true, r) => Some r | _ => None end.

(** env.c 106-123 samu_enveval with the variables given by [env]; an unset variable is empty *)
Definition eval_parts (env : bytes -> option bytes) (ps : list part) : bytes :=
  concat (map (fun p => match p with PStr s => s | PVar v => match env v with Some x => x | None => [] end end) ps).

Record edge_text := { e_outs : list (list part); e_outimp : list (list part); e_rule : bytes;
                      e_ins : list (list part); e_imp : list (list part); e_ord : list (list part) }.
Notation "'do' p <- a ; b" := (match a with Some p => b | None => None end) (at level 200, p pattern, a at level 100, b at level 200).
(** parse.c 77-101: what samu_parseedge reads up to the end of the line *)
Definition parse_edge (l : bytes) : option (edge_text * bytes) :=
  do (outs, l) <- scan_paths l;
  do (p, l) <- scan_pipe true false l;
  do (oimp, l) <- (if p =? 1 then scan_paths l else Some ([], l));
  match outs ++ oimp with
  | [] => None
  | _ =>
    do l <- scan_char ":"%char l;
    do (rule, l) <- scan_name l;
    do (ins, l) <- scan_paths l;
    do (p, l) <- scan_pipe true true l;
    do (imp, p, l) <- (if p =? 1 then do (imp, l) <- scan_paths l; do (p, l) <- scan_pipe false true l; Some (imp, p, l)
                       else Some ([], p, l));
    do (ord, l) <- (if p =? 2 then scan_paths l else Some ([], l));
    do l <- scan_newline l;
    Some ({| e_outs := outs; e_outimp := oimp; e_rule := rule; e_ins := ins; e_imp := imp; e_ord := ord |}, l)
  end.
(** scan.c 166-202 for a line that starts with a name: the keyword and the rest *)
Definition scan_keyword (l : bytes) : option (bytes * bytes) := scan_name l.
(** parse.c 26-33 samu_parselet after scan.c samu_scanname *)
Definition parse_let (l : bytes) : option (bytes * list part * bytes) :=
  do (n, l) <- scan_name l;
  do l <- scan_char "="%char l;
  do (v, l) <- scan_string false l;
  do l <- scan_newline l;
  Some (n, v, l).

(** ** The build tool's own quoting: graph.c 89-124 samu_nodepath with [escape] *)
Definition nodepath (p : bytes) : bytes :=
  if existsb (fun c => negb (is_alnum c) && negb (mem_char c (B "_+-./"))) p
  then QUOTE :: concat (map (fun c => if ceqb c QUOTE then [c; BSLASH; QUOTE; QUOTE] else [c]) p) ++ [QUOTE]
  else p.
(** env.c 147-171 samu_pathlist; [None]: NULL *)
Definition pathlist (nodes : list bytes) (sep : ascii) : option bytes :=
  match nodes with
  | [] => None
  | [n] => Some (nodepath n)
  | _ => let r := concat (map (fun n => nodepath n ++ [sep]) nodes) in Some (removelast r)
  end.

(** ** Flattened argument vectors: args.c 264-327, platform/run_cmd.c 31-49 *)
(** the bytes of the string object, with its final NUL *)
Definition join_args_argstr (l : list bytes) : bytes * nat := (concat (map (fun s => s ++ [NUL]) l) ++ [NUL], length l).
(** run_cmd.c 31-49; [None]: the vector is full (assert) or the text is overrun *)
Fixpoint argstr_pushall (p arg : bytes) (i argc : nat) (argv : list bytes) (max : nat) : option (list bytes) :=
  match p with
  | [] => None
  | c :: p' =>
      if ceqb c NUL then
        if max <=? length argv then None
        else if argc <=? i + 1 then Some (argv ++ [arg])
        else argstr_pushall p' [] (i + 1) argc (argv ++ [arg]) max
      else argstr_pushall p' (arg ++ [c]) i argc argv max
  end.
Definition argstr_to_argv (argstr : bytes) (argc : nat) (prepend : option bytes) : option (list bytes) :=
  match prepend with
  | Some a => argstr_pushall argstr [] 0 argc [a] (argc + 1)
  | None => argstr_pushall argstr [] 0 argc [] argc
  end.
(** args.c 293-327 env_to_envstr for the environment's dictionary *)
Definition env_to_envstr (d : list (bytes * bytes)) : bytes * nat :=
  (concat (map (fun '(k, v) => (k ++ [NUL]) ++ (v ++ [NUL])) d) ++ [NUL], length d).
(** the C string at [p] *)
Definition cstr_at (p : bytes) : bytes := fst (break_at NUL p).
(** posix/run_cmd.c 284-307: the setenv calls; [k] is the pointer to the key, None when NULL *)
Fixpoint envstr_calls (p : bytes) (k : option bytes) (i envc : nat) : option (list (bytes * bytes)) :=
  match p with
  | [] => None
  | c :: p' =>
      if ceqb c NUL then
        match k with
        | None => envstr_calls p' (Some []) i envc
        | Some key => if envc <=? i + 1 then Some [(key, cstr_at p')]
                      else option_map (cons (key, cstr_at p')) (envstr_calls p' None (i + 1) envc)
        end
      else envstr_calls p' (match k with Some key => Some (key ++ [c]) | None => None end) i envc
  end.
