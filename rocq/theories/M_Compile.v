(** Model of how muon sorts the sources of a build target and names their objects (src/compilers.c 74-184,
    src/functions/kernel/build_target.c 76-239, src/functions/build_target.c 21-80), and of the build file it writes
    for projects with build targets (src/backend/ninja/rules.c, build_target.c) beside custom, run and alias targets
    (M_Backend). *)
From Verif Require Import Base M_Path M_Escape M_Format M_Toolchain M_Backend.

(** ** Languages *)
(** include/compilers.h 48-60 enum compiler_language, without null and count *)
Inductive lang := LC | LCHdr | LCpp | LCppHdr | LObj | LObjc | LAsm | LLlvm | LNasm.
Definition lang_eqb (a b : lang) : bool :=
  match a, b with
  | LC, LC | LCHdr, LCHdr | LCpp, LCpp | LCppHdr, LCppHdr | LObj, LObj | LObjc, LObjc | LAsm, LAsm | LLlvm, LLlvm | LNasm, LNasm => true
  | _, _ => false
  end.
(** compilers.c 74-85 *)
Definition lang_name (l : lang) : bytes :=
  match l with
  | LC => B "c" | LCHdr => B "c_hdr" | LCpp => B "cpp" | LCppHdr => B "cpp_hdr" | LObj => B "c_obj" | LObjc => B "objc"
  | LAsm => B "assembly" | LLlvm => B "llvm_ir" | LNasm => B "nasm"
  end.
(** compilers.c 109-119 compiler_language_exts, in the order of the enumeration *)
Definition lang_exts : list (lang * list bytes) :=
  [(LC, [B "c"]); (LCHdr, [B "h"]); (LCpp, [B "cc"; B "cpp"; B "cxx"; B "C"]); (LCppHdr, [B "hh"; B "hpp"; B "hxx"]);
   (LObj, [B "o"; B "obj"]); (LObjc, [B "m"; B "mm"; B "M"]); (LAsm, [B "S"]); (LLlvm, [B "ll"]); (LNasm, [B "asm"])].
(** strrchr: what follows the last dot *)
Fixpoint last_dot (s : bytes) : option bytes :=
  match s with
  | [] => None
  | c :: r => match last_dot r with Some e => Some e | None => if ceqb c "." then Some r else None end
  end.
Fixpoint find_ext (e : bytes) (l : list (lang * list bytes)) : option lang :=
  match l with
  | [] => None
  | (g, es) :: l => if existsb (beqb e) es then Some g else find_ext e l
  end.
(** compilers.c 121-142 filename_to_compiler_language *)
Definition language_of (s : bytes) : option lang := match last_dot s with Some e => find_ext e lang_exts | None => None end.
(** compilers.c 1180-1189 languages *)
Definition is_header (l : lang) : bool := match l with LCHdr | LCppHdr => true | _ => false end.
Definition is_linkable (l : lang) : bool := match l with LObj => true | _ => false end.
(** compilers.c 150-184 coalesce_link_languages; [None] is compiler_language_null *)
Definition coalesce (cur : option lang) (new : lang) : option lang :=
  match new with
  | LCHdr | LCppHdr | LLlvm => cur
  | LAsm => match cur with None => Some LAsm | Some _ => cur end
  | LNasm | LC | LObj | LObjc => match cur with None => Some LC | Some _ => cur end
  | LCpp => match cur with None | Some LC | Some LAsm => Some LCpp | Some _ => cur end
  end.

(** ** The sources of a target *)
(** functions/file.c 17-30 file_is_linkable *)
Definition ends_with (s suffix : bytes) : bool :=
  (length suffix <=? length s) && beqb (skipn (length s - length suffix) s) suffix.
Definition file_is_linkable (p : bytes) : bool :=
  existsb (ends_with p) [B ".a"; B ".dll"; B ".lib"; B ".so"; B ".dylib"].
(** what becomes of the files given as sources: libraries to link with, headers and unknown files that are generated
    (their names relative to the build directory), objects, compiled sources and their number by language *)
Record sorted := Sorted {
  so_link : list bytes; so_order : list bytes; so_objects : list bytes; so_src : list bytes; so_count : list (lang * nat) }.
Fixpoint count_up (l : lang) (d : list (lang * nat)) : list (lang * nat) :=
  match d with
  | [] => [(l, 1)]
  | (g, n) :: d => if lang_eqb l g then (g, S n) :: d else (g, n) :: count_up l d
  end.
(** functions/kernel/build_target.c 205-239 build_tgt_push_source_files_iter with 174-203 process_source_include (the
    directories it adds for headers are left out) *)
Definition push_source (build_root : bytes) (s : sorted) (p : bytes) : option sorted :=
  if file_is_linkable p then Some (Sorted (so_link s ++ [p]) (so_order s) (so_objects s) (so_src s) (so_count s))
  else match language_of p with
       | Some l =>
           if is_header l then
             do sub <- path_is_subpath build_root p;
             if sub then do r <- path_relative_to build_root p; Some (Sorted (so_link s) (so_order s ++ [r]) (so_objects s) (so_src s) (so_count s))
             else Some s
           else if is_linkable l then Some (Sorted (so_link s) (so_order s) (so_objects s ++ [p]) (so_src s) (so_count s))
           else Some (Sorted (so_link s) (so_order s) (so_objects s) (so_src s ++ [p]) (count_up l (so_count s)))
       | None =>
           do sub <- path_is_subpath build_root p;
           if sub then do r <- path_relative_to build_root p; Some (Sorted (so_link s) (so_order s ++ [r]) (so_objects s) (so_src s) (so_count s))
           else Some s
       end.
Fixpoint push_sources (build_root : bytes) (s : sorted) (ps : list bytes) : option sorted :=
  match ps with
  | [] => Some s
  | p :: ps => do s <- push_source build_root s p; push_sources build_root s ps
  end.
(** kernel/build_target.c 78-93 determine_linker_iter *)
Definition linker_from_source (cur : option lang) (p : bytes) : option lang :=
  match language_of p with Some l => coalesce cur l | None => cur end.
(** the part before the last dot; [None] if there is none, in which case the C code writes outside its buffer *)
Fixpoint before_last_dot (s : bytes) : option bytes :=
  match s with
  | [] => None
  | c :: r => match before_last_dot r with Some b => Some (c :: b) | None => if ceqb c "." then Some [] else None end
  end.
(** kernel/build_target.c 95-130 determine_linker_from_objects_iter; the outer [None] is undefined behaviour *)
Definition linker_from_object (cur : option lang) (p : bytes) : option (option lang) :=
  do base <- path_basename p;
  do stem <- before_last_dot base;
  Some (linker_from_source cur stem).
Fixpoint linker_from_objects (cur : option lang) (ps : list bytes) : option (option lang) :=
  match ps with
  | [] => Some cur
  | p :: ps => do cur <- linker_from_object cur p; linker_from_objects cur ps
  end.
(** kernel/build_target.c 132-165 build_tgt_determine_linker; [cur] is the language that the target's dependencies ask
    for, [langs] those of the project's compilers.  An inner [None] is an error. *)
Definition determine_linker (cur : option lang) (src objects : list bytes) (langs : list lang) : option (option lang) :=
  do cur <- linker_from_objects (fold_left linker_from_source src cur) objects;
  Some (match cur with
        | Some l => Some l
        | None => if existsb (lang_eqb LC) langs then Some LC else if existsb (lang_eqb LCpp) langs then Some LCpp else None
        end).

(** ** Build targets *)
(** struct obj_compiler: the compiler's command, its kind, and the static linker *)
Record comp := Comp { k_cmd : list bytes; k_type : ctype; k_linker : ltype; k_linker_cmd : list bytes; k_static : stype; k_static_cmd : list bytes }.
Inductive btype := Executable | StaticLib | SharedLib | SharedModule.
(** struct obj_build_target.  [b_flags] are the words that setup_compiler_args makes for a language (common_args.c
    210-446, of which M_Toolchain has the flags of the options), [b_link_flags] those that setup_linker_args and
    backend/ninja/build_target.c 212-218 make.  [b_count] is required_compilers as push_sources makes it. *)
Record btarget := BTarget {
  b_name : bytes; b_path : bytes; b_private : bytes; b_dir : bytes; b_cwd : bytes;
  b_type : btype; b_src : list bytes; b_count : list (lang * nat); b_objects : list bytes; b_order : list bytes;
  b_lang : lang; b_with : list bytes; b_whole : list bytes; b_depends : list item;
  b_flags : lang -> list bytes; b_link_flags : list bytes; b_default : bool }.
Inductive ctarget := COther (t : target) | CBuild (t : btarget).
(** struct project, with its compilers *)
Record cproj := CProj { cp_name : bytes; cp_sub : option bytes; cp_ok : bool; cp_comps : list (lang * comp); cp_targets : list ctarget }.
(** struct workspace: [cw_base] without its projects, which are [cw_projects] *)
Record cwk := CWk { cw_base : wk; cw_projects : list cproj }.
(** obj_dict_geti *)
Fixpoint geti {A} (d : list (lang * A)) (l : lang) : option A :=
  match d with
  | [] => None
  | (g, x) :: d => if lang_eqb l g then Some x else geti d l
  end.
(** the compilers of current_project: while the build file is written this is the main project *)
Definition main_comps (c : cwk) : list (lang * comp) := match cw_projects c with p :: _ => cp_comps p | [] => [] end.
(** compilers.c 1219, 1285 object_ext *)
Definition object_ext (t : ctype) : bytes := match t with msvc | clang_cl => B ".obj" | _ => B ".o" end.

(** functions/build_target.c 21-80 tgt_src_to_object_path *)
Definition object_base (w : wk) (t : btarget) (src : bytes) : option (option bytes) :=
  do s <- path_is_subpath (b_private t) src;
  if s then Some (Some (b_private t)) else
  do s <- path_is_subpath (b_dir t) src;
  if s then Some (Some (b_dir t)) else
  do s <- path_is_subpath (b_cwd t) src;
  if s then Some (Some (b_cwd t)) else
  do s <- path_is_subpath (wk_source_root w) src;
  if s then Some (Some (wk_source_root w)) else Some None.
Definition object_path (w : wk) (comps : list (lang * comp)) (t : btarget) (relative : bool) (src : bytes) : option bytes :=
  do private <- (if relative then path_relative_to (wk_build_root w) (b_private t) else Some (b_private t));
  do base <- object_base w t src;
  do rel <- (match base with
             | Some b => path_relative_to b src
             | None => do p <- path_copy src; Some (map (fun c => if ceqb c "/" then "_"%char else c) p)
             end);
  do res <- path_join private rel;
  let ext := match language_of res with
             | Some l => match geti comps l with Some k => object_ext (k_type k) | None => B ".o" end
             | None => B ".o"
             end in
  Some (res ++ ext).

(** ** Names of rules *)
(** rules.c 41-55 escape_rule *)
Definition escape_rule (s : bytes) : bytes := map (fun c => if is_alnum c || ceqb c "_" then c else "_"%char) s.
(** rules.c 28-39 uniqify_name; the name grows in every round, so that there are no more rounds than names *)
Fixpoint uniqify_from (fuel : nat) (x : N) (names : list bytes) (name : bytes) : option bytes :=
  if existsb (beqb name) names then
    match fuel with
    | O => None
    | S fuel => uniqify_from fuel (x + 1) names (name ++ print_nat_dec x)
    end
  else Some name.
Definition uniqify (names : list bytes) (name : bytes) : option (bytes * list bytes) :=
  do name <- uniqify_from (length names) 1 names name; Some (name, names ++ [name]).
(** the name of the rule for a language of a target, and whether it is the target's own *)
Definition rulemap := list (lang * (bytes * bool)).
(** the names taken (compiler_rule_arr), and the rules of the project that any of its targets can use *)
Record naming := Naming { na_taken : list bytes; na_generic : list (lang * bytes) }.
(** rules.c 223-261 name_compiler_rule_iter *)
Definition name_rule (prefix build_name : bytes) (l : lang) (count : nat) (n : naming) : option ((bytes * bool) * naming) :=
  if 2 <? count then
    do (name, taken) <- uniqify (na_taken n) (escape_rule (prefix ++ B "_" ++ lang_name l ++ B "_compiler_for_" ++ build_name));
    Some ((name, true), Naming taken (na_generic n))
  else match geti (na_generic n) l with
       | Some name => Some ((name, false), n)
       | None =>
           do (name, taken) <- uniqify (na_taken n) (escape_rule (prefix ++ B "_" ++ lang_name l ++ B "_compiler"));
           Some ((name, false), Naming taken (na_generic n ++ [(l, name)]))
       end.
Fixpoint name_langs (prefix build_name : bytes) (ls : list (lang * nat)) (n : naming) : option (rulemap * naming) :=
  match ls with
  | [] => Some ([], n)
  | (l, k) :: ls => do (r, n) <- name_rule prefix build_name l k n;
                    do (rs, n) <- name_langs prefix build_name ls n;
                    Some ((l, r) :: rs, n)
  end.
(** rules.c 263-279 name_compiler_rule_tgt_iter: the targets with the names of their rules *)
Fixpoint name_targets (prefix : bytes) (ts : list ctarget) (n : naming) : option (list (ctarget * rulemap) * naming) :=
  match ts with
  | [] => Some ([], n)
  | COther t :: ts => do (rs, n) <- name_targets prefix ts n; Some ((COther t, []) :: rs, n)
  | CBuild t :: ts => do (r, n) <- name_langs prefix (b_name t) (b_count t) n;
                      do (rs, n) <- name_targets prefix ts n;
                      Some ((CBuild t, r) :: rs, n)
  end.

(** ** Rules *)
(** push_args of what a table of M_Toolchain answers.  (The answers used here do not depend on earlier ones, C114.) *)
Definition answer (a : ask) : option (list bytes) := option_map fst (asks a at_start).
(** compilers.c 1255, 1284: whether the compiler writes dependencies, and how they are read *)
Definition deps_kind (t : ctype) : option bytes :=
  match t with gcc | clang | apple_clang => Some (B "gcc") | msvc | clang_cl => Some (B "msvc") | _ => None end.
(** rules.c 95-140 write_compiler_rule *)
Definition compiler_rule (args name : bytes) (l : lang) (k : comp) : option bytes :=
  do deps <- (match deps_kind (k_type k) with Some _ => answer (CompilerDeps (k_type k) (B "$out") (B "${out}.d")) | None => Some [] end);
  do out <- answer (Compiler1s (k_type k) output (B "$out"));
  do only <- answer (Compiler0 (k_type k) compile_only);
  do cmd <- join_args_plain (k_cmd k ++ [args] ++ deps ++ out ++ only ++ [B "$in"]);
  Some (B "rule " ++ name ++ [NL] ++ B " command = " ++ cmd ++ [NL]
    ++ (match deps_kind (k_type k) with
        | Some d => B " deps = " ++ d ++ [NL] ++ B " depfile = ${out}.d" ++ [NL]
        | None => []
        end)
    ++ B " description = compiling " ++ lang_name l ++ B " $out" ++ [NL] ++ [NL]).
(** common_args.c 449-475 build_target_args: the flags for each language of the target, which must have a compiler *)
Fixpoint target_args (comps : list (lang * comp)) (t : btarget) (ls : list (lang * nat)) : option (list (lang * bytes)) :=
  match ls with
  | [] => Some []
  | (l, _) :: ls => do _ <- geti comps l; do text <- join_args_shell_ninja (b_flags t l); do r <- target_args comps t ls; Some ((l, text) :: r)
  end.
(** rules.c 142-170 write_compiler_rule_iter over the compilers of the project *)
Fixpoint own_rules (comps : list (lang * comp)) (args : list (lang * bytes)) (rs : rulemap) : option bytes :=
  match comps with
  | [] => Some []
  | (l, k) :: comps =>
      do text <- (match geti rs l with
                  | Some (name, true) => do a <- geti args l; compiler_rule a name l k
                  | _ => Some []
                  end);
      do rest <- own_rules comps args rs;
      Some (text ++ rest)
  end.
(** rules.c 172-199 write_compiler_rule_tgt_iter over the targets *)
Fixpoint targets_rules (comps : list (lang * comp)) (ts : list (ctarget * rulemap)) : option bytes :=
  match ts with
  | [] => Some []
  | (COther _, _) :: ts => targets_rules comps ts
  | (CBuild t, rs) :: ts =>
      do args <- target_args comps t (b_count t);
      do text <- own_rules comps args rs;
      do rest <- targets_rules comps ts;
      Some (text ++ rest)
  end.
(** rules.c 201-213 write_generic_compiler_rule_iter *)
Fixpoint generic_rules (comps : list (lang * comp)) (generic : list (lang * bytes)) : option bytes :=
  match comps with
  | [] => Some []
  | (l, k) :: comps =>
      do text <- (match geti generic l with Some name => compiler_rule (B "$ARGS") name l k | None => Some [] end);
      do rest <- generic_rules comps generic;
      Some (text ++ rest)
  end.
(** rules.c 57-93 write_linker_rule_iter *)
Definition linker_rule (prefix : bytes) (l : lang) (k : comp) : option bytes :=
  do args <- (match k_type k with
              | msvc => do io <- answer (LinkerInputOutput (k_linker k) (B "$in") (B "$out"));
                        Some (k_linker_cmd k ++ [B "$ARGS"] ++ io ++ [B "$LINK_ARGS"])
              | _ => do out <- answer (Compiler1s (k_type k) output (B "$out"));
                     Some (k_cmd k ++ [B "$ARGS"] ++ out ++ [B "$in"; B "$LINK_ARGS"])
              end);
  do cmd <- join_args_plain args;
  Some (B "rule " ++ prefix ++ B "_" ++ lang_name l ++ B "_linker" ++ [NL] ++ B " command = " ++ cmd ++ [NL]
    ++ B " description = linking $out" ++ [NL] ++ [NL]).
Fixpoint linker_rules (prefix : bytes) (comps : list (lang * comp)) : option bytes :=
  match comps with
  | [] => Some []
  | (l, k) :: comps => do text <- linker_rule prefix l k; do rest <- linker_rules prefix comps; Some (text ++ rest)
  end.
(** rules.c 407-421: the compiler whose static linker is used *)
Fixpoint static_comp (comps : list (lang * comp)) (ls : list lang) : option comp :=
  match ls with
  | [] => None
  | l :: ls => match geti comps l with Some k => Some k | None => static_comp comps ls end
  end.
(** rules.c 406-450 *)
Definition static_rule (w : wk) (prefix : bytes) (comps : list (lang * comp)) : option bytes :=
  match static_comp comps [LC; LCpp; LObjc; LNasm] with
  | None => Some []
  | Some k =>
      do base <- answer (StaticBase (k_static k));
      do io <- answer (StaticInputOutput (k_static k) (B "$in") (B "$out"));
      do cmd <- join_args_plain ((match k_static k with
                                  | s_msvc => []
                                  | _ => [wk_argv0 w; B "internal"; B "exe"; B "-R"; B "$out"; B "--"]
                                  end) ++ k_static_cmd k ++ base ++ io);
      Some (B "rule " ++ prefix ++ B "_static_linker" ++ [NL] ++ B " command = " ++ cmd ++ [NL]
        ++ B " description = linking static $out" ++ [NL] ++ [NL])
  end.
(** a usable project with its prefix and the names of its rules *)
Record named := Named { nd_prefix : bytes; nd_proj : cproj; nd_targets : list (ctarget * rulemap) }.
(** rules.c 345-452 for one project *)
Definition project_rules (w : wk) (p : cproj) (prefixes taken : list bytes) : option (bytes * named * list bytes * list bytes) :=
  do (prefix, prefixes) <- uniqify prefixes (escape_rule (cp_name p));
  do (ts, n) <- name_targets prefix (cp_targets p) (Naming taken []);
  do own <- targets_rules (cp_comps p) ts;
  do generic <- generic_rules (cp_comps p) (na_generic n);
  do linkers <- linker_rules prefix (cp_comps p);
  do static <- static_rule w prefix (cp_comps p);
  Some (own ++ generic ++ linkers ++ static, Named prefix p ts, prefixes, na_taken n).
Fixpoint projects_rules (w : wk) (ps : list cproj) (prefixes taken : list bytes) : option (bytes * list named) :=
  match ps with
  | [] => Some ([], [])
  | p :: ps =>
      if cp_ok p then
        do (text, nd, prefixes, taken) <- project_rules w p prefixes taken;
        do (rest, nds) <- projects_rules w ps prefixes taken;
        Some (text ++ rest, nd :: nds)
      else projects_rules w ps prefixes taken
  end.

(** ** Build statements *)
(** build_target.c 153-169: the names of what must be there first, each once; more than one get a name of their own *)
Definition many_order (t : btarget) : bool := 1 <? length (dedup (b_order t)).
(** build_target.c 46-114 write_tgt_sources_iter over the sources; [imp] and [ord] are the names of implicit and
    order-only dependencies as text.  The object names are returned. *)
Fixpoint write_sources (c : cwk) (t : btarget) (comps : list (lang * comp)) (rs : rulemap) (imp ord : option bytes) (srcs : list bytes) : option (list bytes * bytes) :=
  match srcs with
  | [] => Some ([], [])
  | src :: srcs =>
      do l <- language_of src;
      do dest <- object_path (cw_base c) (main_comps c) t true src;
      do from <- path_relative_to (wk_build_root (cw_base c)) src;
      do (rule, special) <- geti rs l;
      do vars <- (if (special : bool) then Some [] else
                  do args <- target_args comps t (b_count t);
                  do a <- geti args l;
                  Some (B " ARGS = " ++ a ++ [NL]));
      do dest_text <- ninja_escape dest;
      do from_text <- ninja_escape from;
      do (objects, rest) <- write_sources c t comps rs imp ord srcs;
      Some (dest :: objects,
        B "build " ++ dest_text ++ B ": " ++ rule ++ B " " ++ from_text
        ++ (match imp with Some i => B " | " ++ i | None => [] end)
        ++ (match ord with Some o => B " || " ++ o | None => [] end) ++ [NL] ++ vars ++ rest)
  end.
(** build_target.c 116-260 ninja_write_build_tgt *)
Definition write_build_target (c : cwk) (nd : named) (t : btarget) (rs : rulemap) (o : out) : option out :=
  let w := cw_base c in
  let comps := cp_comps (nd_proj nd) in
  do path <- relativize w (b_path t);
  do path_text <- ninja_escape path;
  do _ <- geti comps (b_lang t);
  do withs <- all (relativize w) (b_with t);
  do wholes <- all (relativize w) (b_whole t);
  do order_text <- join_args_ninja (dedup (b_order t));
  let phony_text := if many_order t then B "build " ++ path_text ++ B "-order_deps: phony || " ++ order_text ++ [NL] else [] in
  let imp := if many_order t then Some (path_text ++ B "-order_deps") else None in
  let ord := if many_order t then None else match b_order t with [] => None | _ => Some order_text end in
  do objects <- all (relativize w) (b_objects t);
  do (compiled, sources_text) <- write_sources c t comps rs imp ord (b_src t);
  do depends <- all (relativize_item w) (b_depends t);
  let implicit := (if many_order t then [path ++ B "-order_deps"] else [])
                  ++ (match b_type t with StaticLib => [] | _ => withs ++ wholes end) ++ depends in
  do (kind, link) <- (match b_type t with
                      | StaticLib => Some (B "static", [])
                      | _ => do text <- join_args_shell_ninja (b_link_flags t);
                             Some (lang_name (b_lang t), [NL] ++ B " LINK_ARGS = " ++ text)
                      end);
  do objects_text <- join_args_ninja (objects ++ compiled);
  do implicit_text <- join_args_ninja implicit;
  Some (Out (o_text o ++ phony_text ++ sources_text
    ++ B "build " ++ path_text ++ B ": " ++ nd_prefix nd ++ B "_" ++ kind ++ B "_linker " ++ objects_text
    ++ (match implicit with [] => [] | _ => B " | " ++ implicit_text end)
    ++ (match ord with Some x => B " || " ++ x | None => [] end)
    ++ link
    ++ (if b_default t then [NL] ++ B "default " ++ path_text ++ [NL] else [])
    ++ [NL]) (o_files o) (o_seq o) (o_default o || b_default t)).
(** ninja.c 59-102 write_tgt_iter *)
Definition write_target (c : cwk) (nd : named) (t : ctarget * rulemap) (o : out) : option out :=
  match t with
  | (COther t, _) => write_targets (cw_base c) (cp_sub (nd_proj nd)) [t] o
  | (CBuild t, rs) => write_build_target c nd t rs o
  end.
Fixpoint write_ctargets (c : cwk) (nd : named) (ts : list (ctarget * rulemap)) (o : out) : option out :=
  match ts with
  | [] => Some o
  | t :: ts => do o <- write_target c nd t o; write_ctargets c nd ts o
  end.
Fixpoint write_nameds (c : cwk) (nds : list named) (o : out) : option out :=
  match nds with
  | [] => Some o
  | nd :: nds => do o <- write_ctargets c nd (nd_targets nd) o; write_nameds c nds o
  end.
(** ninja.c 33-56 check_tgt_iter and 116-124 *)
Definition needs_phony (ps : list cproj) : bool :=
  existsb (fun p => cp_ok p && existsb (fun t => match t with COther (TCustom c) => c_stale c | _ => false end) (cp_targets p)) ps.
(** ninja.c 108-154 ninja_write_build *)
Definition write_ninja (c : cwk) : option (bytes * list (bytes * data)) :=
  do head <- write_head (cw_base c) (needs_phony (cw_projects c));
  do (rules, nds) <- projects_rules (cw_base c) (cw_projects c) [] [];
  do o <- write_nameds c nds (Out (head ++ rules ++ targets_comment) [] 0 false);
  Some (o_text o ++ (if o_default o then [] else B "build muon_do_nothing: phony" ++ [NL] ++ B "default muon_do_nothing" ++ [NL]),
        o_files o).
