(** Model of how a custom target is made: src/functions/kernel/custom_target.c, with coerce_executable (src/coerce.c
    233-280), the output mode of coerce_into_file (src/coerce.c 384-393), the generators of src/functions/generator.c
    52-175 and func_run_target (src/functions/kernel.c 1092-1139).  Inputs are the files coerce_files made of them
    (absolute paths); lists are already flattened (obj_array_foreach_flat); [None] is an error, or one of the
    assertions named in the comments. *)
From Verif Require Import Base M_Path M_Format M_Escape M_Backend.

(** what can be in a command: strings; files; build targets (the directory and name of what they build; for both_libs,
    those of the dynamic library); programs with their arguments, which may not have been found; custom targets by
    their outputs (a run target has none); compilers by their command; anything else *)
Inductive value :=
| VStr (s : bytes) | VFile (p : bytes) | VTarget (dir name : bytes) | VProg (found : bool) (cmd : list bytes)
| VCustom (outs : option (list bytes)) | VCompiler (cmd : list bytes) | VOther.

(** struct process_custom_target_commandline_opts (its [relativize] is always true), and what is used of the
    workspace and of the current project *)
Record cmd_opts := Opts {
  o_root : bytes; o_source : bytes; o_out_dir : bytes; o_cwd : bytes;
  o_name : option bytes; o_in : option (list bytes); o_out : option (list bytes); o_depfile : option bytes;
  o_gen_dir : option bytes; o_extra_valid : bool; o_extra : option (list bytes) }.

(** custom_target.c 48-79 str_relative_to_build_root; [i] is ctx->i *)
Definition rel_to_root (o : cmd_opts) (i : nat) (p : bytes) : option bytes :=
  if negb (path_is_absolute p) then Some p
  else do r <- path_relative_to (o_root o) p; if i =? 0 then path_executable r else Some r.

(** custom_target.c 34-46 prefix_plus_index *)
Definition prefix_plus_index (key prefix : bytes) : option Z :=
  if starts_with prefix key then str_to_i (skipn (length prefix) key) false else None.

(** what a placeholder gives: a path still to be made relative, or one of the other results of the callback;
    [KCrash] is an assertion: get_obj_array on no array, or the index of obj_array_index *)
Inductive key_result := KPath (p : bytes) | KNotFound | KError | KSkip | KCrash.
Definition of_path (p : option bytes) : key_result := match p with Some p => KPath p | None => KCrash end.
(** custom_target.c 143-145, 236-241: boundscheck, then obj_array_index; [arr] may be 0 *)
Definition key_index (arr : option (list bytes)) (z : Z) : key_result :=
  match arr with
  | None => KCrash
  | Some l => match interp_index_array l z with IdxOk p => KPath p | IdxErr => KError | IdxCrash => KCrash end
  end.
(** custom_target.c 196-220, 387-413: the name of the only input, without its extension if [base] *)
Definition in_name (ins : list bytes) (base : bool) : key_result :=
  match ins with
  | [p] => of_path (do n <- path_basename p; if base then path_without_ext n else Some n)
  | _ => KError
  end.
(** custom_target.c 81-247 format_cmd_arg_cb, without the str_relative_to_build_root at the end of each case *)
Definition cmd_key (o : cmd_opts) (key : bytes) : key_result :=
  if beqb key (B "INPUT") then match o_in o with Some _ => key_index (o_in o) 0 | None => KNotFound end
  else if beqb key (B "OUTPUT") then match o_out o with Some _ => key_index (o_out o) 0 | None => KNotFound end
  else if beqb key (B "OUTDIR") then match o_out o with Some _ => KPath (o_out_dir o) | None => KNotFound end
  else if beqb key (B "DEPFILE") then match o_depfile o with Some p => KPath p | None => KNotFound end
  else if beqb key (B "PLAINNAME") then match o_in o with Some l => in_name l false | None => KNotFound end
  else if beqb key (B "BASENAME") then match o_in o with Some l => in_name l true | None => KNotFound end
  else if beqb key (B "PRIVATE_DIR") then
    match o_out o, o_name o with
    | Some _, Some n => of_path (do p <- path_join (o_out_dir o) n; Some (p ++ B ".p"))
    | _, _ => KNotFound
    end
  else if beqb key (B "SOURCE_ROOT") then KPath (o_source o)
  else if beqb key (B "BUILD_ROOT") then KPath (o_root o)
  else if beqb key (B "BUILD_DIR") then match o_gen_dir o with Some p => KPath p | None => KNotFound end
  else if beqb key (B "CURRENT_SOURCE_DIR") then KPath (o_cwd o)
  else match prefix_plus_index key (B "INPUT") with
       | Some z => key_index (o_in o) z
       | None => match prefix_plus_index key (B "OUTPUT") with
                 | Some z => key_index (o_out o) z
                 | None => KSkip
                 end
       end.
Definition cmd_arg_cb (o : cmd_opts) (i : nat) (key : bytes) : cb_result :=
  match cmd_key o key with
  | KPath p => match rel_to_root o i p with Some t => CbFound t | None => CbError end
  | KNotFound => CbNotFound
  | KError | KCrash => CbError
  | KSkip => CbSkip
  end.
(** string_format runs until the text is used up; this many steps are enough (L_Custom) *)
Definition format_fuel (s : bytes) : nat := (length s + 2) * (length s + 2).
Definition formatted (cb : bytes -> cb_result) (s : bytes) : option bytes :=
  match string_format cb (format_fuel s) s with FOk t => Some t | _ => None end.

(** struct custom_target_cmd_fmt_ctx: the words so far, the files depended on, and [i] *)
Record cmd_state := St { st_words : list bytes; st_deps : list bytes; st_i : nat }.

(** custom_target.c 258-275 and 333-338: a file or program with the arguments it comes with *)
Definition fmt_exe (o : cmd_opts) (skip : bool) (p : bytes) (args : list bytes) (s : cmd_state) : option cmd_state :=
  do w <- rel_to_root o (st_i s) p;
  let deps := if skip then st_deps s else st_deps s ++ [w] in
  match args with
  | [] => Some (St (st_words s ++ [w]) deps (S (st_i s)))
  | _ => Some (St (st_words s ++ [w] ++ args) deps (st_i s))
  end.
Fixpoint fmt_files (o : cmd_opts) (skip : bool) (ps : list bytes) (s : cmd_state) : option cmd_state :=
  match ps with
  | [] => Some s
  | p :: ps' => do s <- fmt_exe o skip p [] s; fmt_files o skip ps' s
  end.
Definition bump (s : cmd_state) : cmd_state := St (st_words s) (st_deps s) (S (st_i s)).
(** custom_target.c 278-309: a string *)
Definition fmt_str (o : cmd_opts) (t : bytes) (s : cmd_state) : option cmd_state :=
  let plain := do w <- formatted (cmd_arg_cb o (st_i s)) t; Some (bump (St (st_words s ++ [w]) (st_deps s) (st_i s))) in
  let extra := if o_extra_valid o && beqb t (B "@EXTRA_ARGS@")
               then Some (bump (St (st_words s ++ match o_extra o with Some l => l | None => [] end) (st_deps s) (st_i s)))
               else plain in
  let outs := match o_out o with
              | Some l => if beqb t (B "@OUTPUT@") then do s <- fmt_files o true l s; Some (bump s) else extra
              | None => extra
              end in
  match o_in o with
  | Some l => if beqb t (B "@INPUT@") then fmt_files o true l s else outs
  | None => outs
  end.
Fixpoint fmt_strs (o : cmd_opts) (ts : list bytes) (s : cmd_state) : option cmd_state :=
  match ts with
  | [] => Some s
  | t :: ts' => do s <- fmt_str o t s; fmt_strs o ts' s
  end.
(** coerce.c 245-256: the relative path of what a build target builds *)
Definition target_exe (o : cmd_opts) (dir name : bytes) : option bytes :=
  do p <- path_join dir name; do r <- path_relative_to (o_root o) p; path_executable r.
(** custom_target.c 249-339 custom_target_cmd_fmt_iter *)
Definition fmt_value (o : cmd_opts) (v : value) (s : cmd_state) : option cmd_state :=
  match v with
  | VStr t => fmt_str o t s
  | VFile p => fmt_exe o false p [] s
  | VTarget dir name => do p <- target_exe o dir name; fmt_exe o false p [] s
  | VProg true (p :: args) => fmt_exe o false p args s
  | VProg _ _ => None                         (* not found; an empty command does not occur *)
  | VCustom (Some outs) => do s <- fmt_files o false outs s; Some (bump s)
  | VCustom None => None                      (* assertion: get_obj_array *)
  | VCompiler cmd => do s <- fmt_strs o cmd s; Some (bump s)
  | VOther => None
  end.
Fixpoint fmt_values (o : cmd_opts) (vs : list value) (s : cmd_state) : option cmd_state :=
  match vs with
  | [] => Some s
  | v :: vs' => do s <- fmt_value o v s; fmt_values o vs' s
  end.
(** custom_target.c 341-362 process_custom_target_commandline: the words and the files depended on *)
Definition process_commandline (o : cmd_opts) (vs : list value) : option (list bytes * list bytes) :=
  do s <- fmt_values o vs (St [] [] 0);
  match st_words s with [] => None | _ => Some (st_words s, st_deps s) end.

(** custom_target.c 364-420 format_cmd_output_cb; without inputs get_obj_array fails an assertion *)
Definition out_cb (ins : option (list bytes)) (key : bytes) : cb_result :=
  let give base := match ins with
                   | Some l => match in_name l base with KPath n => CbFound n | _ => CbError end
                   | None => CbError
                   end in
  if beqb key (B "PLAINNAME") then give false
  else if beqb key (B "BASENAME") then give true
  else CbNotFound.
(** coerce.c 384-393, then custom_target.c 422-440 custom_command_output_format_iter (and 535-553 for the depfile):
    the whole path is formatted, not only the name *)
Definition output_file (dir : bytes) (ins : option (list bytes)) (n : bytes) : option bytes :=
  if path_is_basename n then do p <- path_join dir n; formatted (out_cb ins) p else None.
Fixpoint output_files (dir : bytes) (ins : option (list bytes)) (ns : list bytes) : option (list bytes) :=
  match ns with
  | [] => Some []
  | n :: ns' => do p <- output_file dir ins n; do ps <- output_files dir ins ns'; Some (p :: ps)
  end.

(** struct make_custom_target_opts; [m_root] .. [m_cwd] are of the workspace and current project *)
Record make_opts := Make {
  m_root : bytes; m_source : bytes; m_build_dir : bytes; m_cwd : bytes;
  m_name : option bytes; m_in : option (list bytes); m_out : option (list bytes); m_dir : bytes;
  m_gen_dir : option bytes; m_command : list value; m_depfile : option bytes;
  m_extra_valid : bool; m_extra : option (list bytes); m_capture : bool; m_feed : bool }.
(** custom_target.c 471-590 make_custom_target.  The result has no environment and no flags besides capture and
    feed; its dependencies are strings. *)
Definition make_custom_target (m : make_opts) : option custom :=
  do outs <- match m_out m with
             | None => Some None
             | Some [] => None                          (* 512: output cannot be empty *)
             | Some ns => do ps <- output_files (m_dir m) (m_in m) ns; Some (Some ps)
             end;
  do dep <- match m_depfile m with
            | None => Some None
            | Some n => do p <- output_file (m_dir m) (m_in m) n; Some (Some p)
            end;
  do (words, deps) <- process_commandline
    (Opts (m_root m) (m_source m) (m_build_dir m) (m_cwd m) (m_name m) (m_in m) outs dep (m_gen_dir m)
       (m_extra_valid m) (m_extra m)) (m_command m);
  Some (Custom (m_name m) (m_in m) outs words (map IStr deps) None dep (m_capture m) (m_feed m) false false false).

(** ** custom_target() *)
(** the keyword arguments of custom_target(): [None] is one that is not given *)
Record custom_kw := Kw {
  k_name : option bytes; k_in : option (list bytes); k_out : list bytes; k_command : list value;
  k_capture : option bool; k_feed : option bool; k_depfile : option bytes; k_depend_files : list bytes; k_depends : list bytes;
  k_stale : option bool; k_default : option bool; k_always : option bool; k_console : option bool;
  k_install : option bool; k_install_dir : option nat;  (* how many entries install_dir has *)
  k_env : option (list (bytes * bytes)) }.
Definition set_true (x : option bool) : bool := match x with Some true => true | _ => false end.
(** custom_target.c 592-757 func_custom_target: the target added to the project.  What is put on the list of
    installed files is not modelled here; the dictionary of the environment is given. *)
Definition func_custom_target (root source build_dir cwd : bytes) (k : custom_kw) : option custom :=
  do name <- match k_name k with Some n => Some n | None => hd_error (k_out k) end;
  do c <- make_custom_target (Make root source build_dir cwd (Some name) (k_in k) (Some (k_out k)) build_dir None
            (k_command k) (k_depfile k) false None (set_true (k_capture k)) (set_true (k_feed k)));
  if set_true (k_console k) && set_true (k_capture k) then None
  else
    let installed := match k_install k with Some b => b | None => match k_install_dir k with Some _ => true | None => false end end in
    if installed && match k_install_dir k with Some (S _) => false | _ => true end then None
    else Some (Custom (c_name c) (c_in c) (c_out c) (c_args c)
           (c_deps c ++ map IFile (k_depend_files k) ++ map IFile (k_depends k)) (k_env k) (c_depfile c) (c_capture c) (c_feed c)
           (set_true (k_stale k) || set_true (k_always k)) (set_true (k_console k))
           (set_true (k_default k) || set_true (k_always k)
            || (installed && match k_default k with None => true | Some _ => false end))).

(** ** generators *)
(** struct obj_generator, and the part of struct obj_generated_list that process() gives *)
Record generator := Gen { g_out : list bytes; g_command : list value; g_depfile : option bytes; g_capture : bool; g_feed : bool }.
(** generator.c 52-118 generated_list_process_for_target_iter: the target for one input; [dir] is the private
    directory of the target that uses the list *)
Definition generate_one (root source build_dir cwd dir : bytes) (g : generator) (extra : option (list bytes))
    (preserve : option bytes) (src : bytes) : option custom :=
  do out_dir <- match preserve with
                | None => Some dir
                | Some base => do r <- path_relative_to base src; do d <- path_dirname r; path_join dir d
                end;
  make_custom_target (Make root source build_dir cwd None (Some [src]) (Some (g_out g)) out_dir (Some dir)
    (g_command g) (g_depfile g) true extra (g_capture g) (g_feed g)).
Fixpoint generate (root source build_dir cwd dir : bytes) (g : generator) (extra : option (list bytes))
    (preserve : option bytes) (srcs : list bytes) : option (list custom) :=
  match srcs with
  | [] => Some []
  | src :: srcs' =>
      do c <- generate_one root source build_dir cwd dir g extra preserve src;
      do cs <- generate root source build_dir cwd dir g extra preserve srcs'; Some (c :: cs)
  end.
(** generator.c 200-226: process() refuses sources outside preserve_path_from, which must be absolute *)
Definition process_ok (preserve : option bytes) (srcs : list bytes) : bool :=
  match preserve with
  | None => true
  | Some base => path_is_absolute base && forallb (fun s => match path_is_subpath base s with Some b => b | None => false end) srcs
  end.
