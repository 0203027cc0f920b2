(** Model of the build file that muon writes for projects made of custom, run and alias targets
    (src/backend/ninja.c, src/backend/ninja/rules.c, custom_target.c and alias_target.c, the path and argument
    helpers of src/backend/common_args.c and src/args.c), and of the command that runs them, muon internal exe
    (src/main.c).  Projects that enable a language, with compiler and linker rules, are in M_Compile. *)
From Verif Require Import Base M_Path M_Escape M_Format.

(** an element of an array of names: a string object or a file object *)
Inductive item := IStr (s : bytes) | IFile (p : bytes).
(** include/lang/object.h struct obj_custom_target.  The arguments are strings, which is what
    process_custom_target_commandline makes of them; the environment is a dictionary of strings.  A target made by a
    generator has no name; a run target has no output. *)
Record custom := Custom {
  c_name : option bytes;
  c_in : option (list bytes);
  c_out : option (list bytes);
  c_args : list bytes;
  c_deps : list item;
  c_env : option (list (bytes * bytes));
  c_depfile : option bytes;
  c_capture : bool; c_feed : bool; c_stale : bool; c_console : bool; c_default : bool }.
(** what an alias may depend on: another alias, or a custom target given by its outputs and name *)
Inductive adep := AAlias (n : bytes) | ACustom (out : option (list bytes)) (n : bytes).
Inductive target := TCustom (c : custom) | TAlias (n : bytes) (deps : list adep).
(** struct project: its name in its superproject, whether it is usable, and its targets *)
Record proj := Proj { p_sub : option bytes; p_ok : bool; p_targets : list target }.
(** struct workspace: what the writer uses of it.  [wk_name] is the name of the main project, [wk_env_opts] the
    options taken from the environment as text, [wk_cmdline] the arguments muon setup was called with. *)
Record wk := Wk {
  wk_argv0 : bytes; wk_source_root : bytes; wk_build_root : bytes; wk_private : bytes;
  wk_name : bytes; wk_env_opts : list (bytes * bytes); wk_cmdline : list bytes; wk_regen_deps : list bytes;
  wk_projects : list proj }.

(** the files written besides build.ninja: an environment, or a list of arguments; their format is that of
    lang/serial.c (M_Serial) *)
Inductive data := DEnv (e : list (bytes * bytes)) | DArgs (a : list bytes).
(** the text, the data files in the order of writing, the counter custom_tgt_dat_sequence and wrote_default *)
Record out := Out { o_text : bytes; o_files : list (bytes * data); o_seq : N; o_default : bool }.

(** [None] is a failed assertion, here and below *)
Fixpoint all {A C} (f : A -> option C) (l : list A) : option (list C) :=
  match l with
  | [] => Some []
  | x :: l => match f x, all f l with Some y, Some ys => Some (y :: ys) | _, _ => None end
  end.

(** backend/common_args.c 640-671 relativize_paths_iter, of an array of files *)
Definition relativize (w : wk) (p : bytes) : option bytes := path_relative_to (wk_build_root w) p.
(** common_args.c 674-684 relativize_paths with [relativize_strings] false: strings stay *)
Definition relativize_item (w : wk) (i : item) : option bytes :=
  match i with IStr s => Some s | IFile p => relativize w p end.

(** lang/object.c 898-905 obj_array_dedup of strings *)
Definition dedup (l : list bytes) : list bytes :=
  fold_left (fun acc s => if existsb (beqb s) acc then acc else acc ++ [s]) l [].

(** backend/common_args.c 742-771 regenerate_build_command with [opts_only] false *)
Definition regenerate_build_command (w : wk) : option (list bytes) :=
  do cache <- path_join (wk_private w) (B "compiler_check_cache.dat");
  Some ([wk_argv0 w; B "-C"; wk_source_root w; B "setup"; B "-c"; cache]
    ++ map (fun '(k, v) => B "-D" ++ k ++ B "=" ++ v) (wk_env_opts w) ++ wk_cmdline w).

(** backend/ninja/rules.c 289-344 ninja_write_rules, before the rules of the projects *)
Definition write_head (w : wk) (need_phony : bool) : option bytes :=
  do regen <- regenerate_build_command w;
  do regen_cmd <- join_args_shell regen;
  do deps <- all (relativize w) (dedup (wk_regen_deps w));
  do deps_text <- join_args_ninja deps;
  Some (
    B "# This is the build file for project " ++ [DQUOTE] ++ wk_name w ++ [DQUOTE] ++ [NL]
    ++ B "# It is autogenerated by the muon build system." ++ [NL]
    ++ B "ninja_required_version = 1.7.1" ++ [NL]
    ++ B "builddir = .muon" ++ [NL] ++ [NL]
    ++ B "rule REGENERATE_BUILD" ++ [NL] ++ B " command = " ++ regen_cmd
    ++ [NL] ++ B " description = Regenerating build files." ++ [NL] ++ B " generator = 1" ++ [NL] ++ [NL]
    ++ B "build build.ninja: REGENERATE_BUILD " ++ deps_text ++ [NL] ++ B " pool = console" ++ [NL] ++ [NL]
    ++ B "rule CUSTOM_COMMAND" ++ [NL] ++ B " command = $COMMAND" ++ [NL] ++ B " description = $COMMAND" ++ [NL]
    ++ B " restat = 1" ++ [NL] ++ [NL]
    ++ B "rule CUSTOM_COMMAND_DEP" ++ [NL] ++ B " command = $COMMAND" ++ [NL] ++ B " description = $COMMAND" ++ [NL]
    ++ B " deps = gcc" ++ [NL] ++ B " depfile = $DEPFILE" ++ [NL] ++ B " restat = 1" ++ [NL] ++ [NL]
    ++ (if need_phony then B "build build_always_stale: phony" ++ [NL] ++ [NL] else [])).
(** rules.c 454; and ninja_write_rules when no project has a compiler *)
Definition targets_comment : bytes := B "# targets" ++ [NL] ++ [NL].
Definition write_rules (w : wk) (need_phony : bool) : option bytes :=
  do head <- write_head w need_phony; Some (head ++ targets_comment).

(** backend/ninja/custom_target.c 24-43: no argument contains a NUL or a newline *)
Definition args_are_escapable (args : list bytes) : bool :=
  forallb (fun s => negb (mem_char NUL s) && negb (mem_char NL s)) args.

(** custom_target.c 45-73 write_custom_target_dat; that the file can be written is assumed *)
Definition write_dat (w : wk) (c : custom) (d : data) (dir : bytes) (o : out) : option (bytes * out) :=
  do name <- c_name c;
  do dirpath <- path_join (wk_private w) dir;
  do p <- path_join dirpath (name ++ print_nat_dec (o_seq o) ++ B ".dat");
  Some (p, Out (o_text o) (o_files o ++ [(p, d)]) (o_seq o + 1) (o_default o)).

Definition first {A} (l : option (list A)) : option A := match l with Some (x :: _) => Some x | _ => None end.
(** custom_target.c 92-105 *)
Definition output_names (w : wk) (sub : option bytes) (c : custom) : option (list bytes) :=
  match c_out c with
  | Some ps => all (relativize w) ps
  | None => do n <- c_name c; Some [match sub with Some s => s ++ B "@@" ++ n | None => n end]
  end.
(** custom_target.c 112-129: the options that say where the output goes and where the input comes from *)
Definition stream_args (w : wk) (c : custom) : option (list bytes) :=
  do cap <- (if c_capture c then do p <- first (c_out c); do r <- relativize w p; Some [B "-c"; r] else Some []);
  do fd <- (if c_feed c then do p <- first (c_in c); do r <- relativize w p; Some [B "-f"; r] else Some []);
  Some (cap ++ fd).
(** custom_target.c 131-160 *)
Definition env_args (w : wk) (c : custom) (o : out) : option (list bytes * out) :=
  match c_env c with
  | Some e => do (p, o) <- write_dat w c (DEnv e) (B "custom_tgt_env") o; Some ([B "-e"; p], o)
  | None => Some ([], o)
  end.
Definition command_args (w : wk) (c : custom) (o : out) : option (list bytes * out) :=
  if args_are_escapable (c_args c) then Some (B "--" :: c_args c, o)
  else do (p, o) <- write_dat w c (DArgs (c_args c)) (B "custom_tgt_args") o; Some ([B "-a"; p], o).

(** custom_target.c 75-199 ninja_write_custom_tgt *)
Definition write_custom (w : wk) (sub : option bytes) (c : custom) (o : out) : option out :=
  do ins <- (match c_in c with Some ps => all (relativize w) ps | None => Some [] end);
  do outs <- output_names w sub c;
  do streams <- stream_args w c;
  do (envs, o) <- env_args w c o;
  do (args, o) <- command_args w c o;
  do deps <- all (relativize_item w) (c_deps c);
  do deps_text <- join_args_ninja (deps ++ (if c_stale c then [B "build_always_stale"] else []));
  do outs_text <- join_args_ninja outs;
  do ins_text <- join_args_ninja ins;
  do cmd_text <- join_args_shell_ninja ([wk_argv0 w; B "internal"; B "exe"] ++ streams ++ envs ++ args);
  do depfile_text <- (match c_depfile c with
                      | Some p => do r <- relativize w p; Some (B " DEPFILE = " ++ r ++ [NL])
                      | None => Some []
                      end);
  Some (Out (o_text o
    ++ B "build " ++ outs_text ++ B ": " ++ (match c_depfile c with Some _ => B "CUSTOM_COMMAND_DEP" | None => B "CUSTOM_COMMAND" end)
    ++ B " " ++ ins_text ++ B " | " ++ deps_text ++ [NL]
    ++ B " COMMAND = " ++ cmd_text ++ [NL]
    ++ depfile_text
    ++ (if c_console c then B " pool = console" ++ [NL] else [])
    ++ (if c_default c then B "default " ++ outs_text ++ [NL] else [])
    ++ [NL]) (o_files o) (o_seq o) (o_default o || c_default c)).

(** args.c 156-244 arr_to_args_iter with the modes of alias_target.c 27-29 *)
Definition alias_dep (w : wk) (d : adep) : option (list bytes) :=
  match d with
  | AAlias n => Some [n]
  | ACustom None n => Some [n]
  | ACustom (Some ps) _ => all (relativize w) ps
  end.
(** backend/ninja/alias_target.c 17-40 *)
Definition write_alias (w : wk) (n : bytes) (deps : list adep) (o : out) : option out :=
  do name <- ninja_escape n;
  do ds <- all (alias_dep w) deps;
  do text <- join_args_ninja (concat ds);
  Some (Out (o_text o ++ B "build " ++ name ++ B ": phony | " ++ text ++ [NL] ++ [NL]) (o_files o) (o_seq o) (o_default o)).

(** backend/ninja.c 59-104 write_tgt_iter over the targets of a project *)
Fixpoint write_targets (w : wk) (sub : option bytes) (ts : list target) (o : out) : option out :=
  match ts with
  | [] => Some o
  | TCustom c :: ts => do o <- write_custom w sub c o; write_targets w sub ts o
  | TAlias n deps :: ts => do o <- write_alias w n deps o; write_targets w sub ts o
  end.
(** ninja.c 130-144 *)
Fixpoint write_projects (w : wk) (ps : list proj) (o : out) : option out :=
  match ps with
  | [] => Some o
  | p :: ps => if p_ok p then do o <- write_targets w (p_sub p) (p_targets p) o; write_projects w ps o
               else write_projects w ps o
  end.
(** ninja.c 33-56 check_tgt_iter and 116-124 *)
Definition need_phony (ps : list proj) : bool :=
  existsb (fun p => p_ok p && existsb (fun t => match t with TCustom c => c_stale c | TAlias _ _ => false end) (p_targets p)) ps.
(** ninja.c 110-155 ninja_write_build *)
Definition write_build (w : wk) : option (bytes * list (bytes * data)) :=
  do rules <- write_rules w (need_phony (wk_projects w));
  do o <- write_projects w (wk_projects w) (Out rules [] 0 false);
  Some (o_text o ++ (if o_default o then [] else B "build muon_do_nothing: phony" ++ [NL] ++ B "default muon_do_nothing" ++ [NL]),
        o_files o).

(** ** muon internal exe *)
(** main.c 76-83 the options *)
Record exe_opts := EOpts { x_feed : option bytes; x_capture : option bytes; x_env : option bytes; x_args : option bytes; x_remove : option bytes }.
(** what happens in the end: a command is run, the usage is shown, or an error reported *)
Inductive exe_end :=
| Runs (argv : list bytes) (env : option (list (bytes * bytes))) (stdin : option bytes) (stdout : option bytes) (remove : option bytes)
| Usage
| Fails.
Definition set_opt (c : ascii) (v : bytes) (x : exe_opts) : exe_opts :=
  if ceqb c "f" then EOpts (Some v) (x_capture x) (x_env x) (x_args x) (x_remove x)
  else if ceqb c "c" then EOpts (x_feed x) (Some v) (x_env x) (x_args x) (x_remove x)
  else if ceqb c "e" then EOpts (x_feed x) (x_capture x) (Some v) (x_args x) (x_remove x)
  else if ceqb c "a" then EOpts (x_feed x) (x_capture x) (x_env x) (Some v) (x_remove x)
  else EOpts (x_feed x) (x_capture x) (x_env x) (x_args x) (Some v).
(** getopt as POSIX defines it, with the options of main.c 85 and include/opts.h 22-26: every option but h takes an
    argument, the rest of its word or the next word; [inl] is the end of main's switch with usage or failure *)
Fixpoint getopt (words : list bytes) (x : exe_opts) : exe_end + (exe_opts * list bytes) :=
  match words with
  | (d :: c :: r) :: words' =>
      if ceqb d "-" then
        if ceqb c "-" && match r with [] => true | _ => false end then inr (x, words')
        else if ceqb c "h" then inl Usage
        else if mem_char c (B "fceaR") then
          match r with
          | _ :: _ => getopt words' (set_opt c r x)
          | [] => match words' with
                  | v :: words'' => getopt words'' (set_opt c v x)
                  | [] => inl Fails
                  end
          end
        else inl Fails
      else inr (x, words)
  | _ => inr (x, words)
  end.
(** main.c 46-71 load_obj_from_serial_dump, of the data files [files]; the last writing counts *)
Fixpoint data_file (files : list (bytes * data)) (p : bytes) : option data :=
  match files with
  | [] => None
  | (q, d) :: files => match data_file files p with Some d' => Some d' | None => if beqb p q then Some d else None end
  end.
(** main.c 73-197 cmd_exe, up to the start of the command; the environment as posix/run_cmd.c sets it *)
Definition exe (files : list (bytes * data)) (words : list bytes) : exe_end :=
  match getopt words (EOpts None None None None None) with
  | inl e => e
  | inr (x, cmd) =>
      match cmd, x_args x with
      | [], None => Fails
      | _ :: _, Some _ => Fails
      | _, _ =>
          let env := match x_env x with
                     | None => Some None
                     | Some p => match data_file files p with
                                 | Some (DEnv e) => let '(s, n) := env_to_envstr e in option_map Some (envstr_calls s (Some []) 0 n)
                                 | _ => None
                                 end
                     end in
          let argv := match x_args x with
                      | None => Some cmd
                      | Some p => match data_file files p with
                                  | Some (DArgs a) => let '(s, n) := join_args_argstr a in argstr_to_argv s n None
                                  | _ => None
                                  end
                      end in
          match env, argv with
          | Some env, Some argv => Runs argv env (x_feed x) (x_capture x) (x_remove x)
          | _, _ => Fails
          end
      end
  end.
