(** Model of the arguments of compilers and linkers beside those of options: include directories, arguments of
    dependencies, of targets, of libraries (src/backend/common_args.c 200-245, 346-625, 640-676;
    src/backend/ninja/build_target.c 147-150, 184-218; src/coerce.c 533-611).  Which directories exist is a parameter. *)
From Verif Require Import Base M_Path M_Escape M_Backend M_Compile M_Toolchain M_Link.

(** ** Include directories *)
(** an element of an array of include directories: a string, or a directory that is or is not a system directory *)
Inductive inc := IncStr (p : bytes) | IncDir (p : bytes) (system : bool).
Definition inc_path (i : inc) : bytes := match i with IncStr p | IncDir p _ => p end.
Definition inc_system (i : inc) : bool := match i with IncStr _ => false | IncDir _ s => s end.
(** object.c 431-491 obj_equal on them *)
Definition inc_same (a b : inc) : bool :=
  match a, b with
  | IncStr p, IncStr q => beqb p q
  | IncDir p s, IncDir q t => Bool.eqb s t && beqb p q
  | _, _ => false
  end.
(** object.c 882-905 obj_array_dedup *)
Definition dedup_inc (l : list inc) : list inc := fold_left (fun acc x => if existsb (inc_same x) acc then acc else acc ++ [x]) l [].
(** coerce.c 541-611 coerce_include_dirs: what include_directories() and include_directories: give; [None] is an error *)
Fixpoint coerce_incs (source build cwd : bytes) (exists_dir : bytes -> bool) (system : bool) (l : list (bytes + inc)) : option (list inc) :=
  match l with
  | [] => Some []
  | inr i :: l => do rest <- coerce_incs source build cwd exists_dir system l; Some (i :: rest)
  | inl p :: l =>
      do p <- (if path_is_absolute p then Some p else path_join cwd p);
      if exists_dir p then
        do sub <- path_is_subpath source p;
        do first <- (if sub then do r <- path_relative_to source p; do q <- path_join build r; Some [IncDir q system] else Some []);
        do rest <- coerce_incs source build cwd exists_dir system l;
        Some (first ++ IncDir p system :: rest)
      else None
  end.
(** common_args.c 206-245 setup_compiler_args_includes_iter, with paths made relative *)
Fixpoint include_asks (root : bytes) (exists_dir : bytes -> bool) (t : ctype) (l : list inc) : option (list ask) :=
  match l with
  | [] => Some []
  | i :: l =>
      do rest <- include_asks root exists_dir t l;
      if exists_dir (inc_path i) then
        do p <- (if path_is_absolute (inc_path i) then path_relative_to root (inc_path i) else Some (inc_path i));
        Some (Compiler1s t (if inc_system i then include_system else include) p :: rest)
      else Some rest
  end.

(** ** Compilers *)
(** what the flags of a target for one language depend on: its options, the global and the project's arguments, its
    private directory if it has generated includes, its include directories, those of the project, the arguments of
    its dependencies and its own *)
Record cflags := CFlags {
  k_options : options; k_more : list bytes; k_private : option bytes; k_incs : list inc; k_project : list inc; k_deps : list bytes;
  k_args : list bytes; k_pic : bool; k_pie : bool; k_visibility : option vis }.
(** common_args.c 365-418 setup_compiler_args_iter, 449-475 build_target_args.  (Project include directories that do not
    exist are an empty list.) *)
Definition compile_flags (root : bytes) (exists_dir : bytes -> bool) (t : ctype) (k : cflags) (g : statics) : outcome (list bytes * statics) :=
  match base_args t (k_options k) (k_more k) g with
  | Done (ws, g) =>
      let incs := dedup_inc (match k_private k with Some p => IncStr p :: k_incs k | None => k_incs k end) in
      let incs := dedup_inc (incs ++ k_project k) in
      match include_asks root exists_dir t incs with
      | None => Aborts
      | Some l =>
          match push_all l ws g with
          | Done (ws, g) =>
              push_all ((if k_pic k then [Compiler0 t pic] else []) ++ (if k_pie k then [Compiler0 t pie] else [])
                        ++ (match k_visibility k with Some v => [Visibility t v] | None => [] end)) (ws ++ k_deps k ++ k_args k) g
          | Refused => Refused
          | Aborts => Aborts
          end
      end
  | Refused => Refused
  | Aborts => Aborts
  end.

(** ** Linkers *)
(** common_args.c 666-676 relativize_paths *)
Fixpoint relativize_all (root : bytes) (l : list bytes) : option (list bytes) :=
  match l with
  | [] => Some []
  | p :: l => do r <- path_relative_to root p; do rest <- relativize_all root l; Some (r :: rest)
  end.
(** what the link flags of a target depend on: its type, what it takes from what it uses with its own arguments at the
    end of d_link, its options, the arguments of the option c_link_args or cpp_link_args, the global and the project's *)
Record lflags := LFlags {
  w_type : btype; w_pass : pass; w_export : bool; w_options : options; w_option_args : list bytes; w_global : list bytes; w_project : list bytes;
  w_soname : bytes }.
(** common_args.c 509-546 setup_optional_b_args_linker *)
Definition linker_b_asks (t : ltype) (o : options) : outcome (list ask) :=
  match (if beqb (o_pgo o) (B "off") then Done []
         else if beqb (o_pgo o) (B "generate") then Done [LinkerPgo t Generate]
         else if beqb (o_pgo o) (B "use") then Done [LinkerPgo t Use]
         else Aborts) with
  | Done p => Done (p ++ (if beqb (o_sanitize o) (B "none") then [] else [Linker1s t l_sanitize (o_sanitize o)])
                      ++ (if o_lto o then [Linker0 t l_enable_lto] else []))
  | Refused => Refused
  | Aborts => Aborts
  end.
(** a sequence of pushes: of what is asked for, or of strings *)
Inductive push := Ask (a : ask) | Strs (l : list bytes).
Fixpoint pushes (l : list push) (args : list bytes) (g : statics) : outcome (list bytes * statics) :=
  match l with
  | [] => Done (args, g)
  | Strs s :: l => pushes l (args ++ s) g
  | Ask a :: l => match asks a g with Some (ws, g) => pushes l (args ++ ws) g | None => Aborts end
  end.
Definition is_empty {A} (l : list A) : bool := match l with [] => true | _ => false end.
(** common_args.c 557-625 setup_linker_args for a target; ninja/build_target.c 147-150, 184-218 *)
Definition link_flags (root : bytes) (t : ltype) (w : lflags) (g : statics) : outcome (list bytes * statics) :=
  match relativize_all root (d_with (w_pass w)), relativize_all root (d_whole (w_pass w)), linker_b_asks t (w_options w) with
  | Some with', Some whole, Done b =>
      let with' := dedup with' in
      let whole := dedup whole in
      let missing := dedup (d_missing (w_pass w)) in
      pushes (
        [Ask (Linker0 t as_needed)]
        ++ (match w_type w with SharedModule => [] | _ => [Ask (Linker0 t no_undefined)] end)
        ++ (if w_export w then [Ask (Linker0 t export_dynamic)] else [])
        ++ map Ask b
        ++ [Strs (w_option_args w); Strs (w_global w); Strs (w_project w)]
        ++ map (fun p => Ask (Linker1s t rpath p)) (filter (fun p => negb (is_empty p)) (d_rpath (w_pass w)))
        ++ (if is_empty whole && is_empty with' && is_empty missing then [] else
            [Ask (Linker0 t start_group)]
            ++ (if is_empty whole then [] else [Ask (Linker0 t whole_archive); Strs whole; Ask (Linker0 t no_whole_archive)])
            ++ [Strs with'] ++ map (fun n => Ask (Linker1s t lib n)) missing ++ [Ask (Linker0 t end_group)])
        ++ (match w_type w with
            | SharedLib => [Ask (Linker0 t shared); Ask (Linker1s t soname (w_soname w))]
            | SharedModule => [Ask (Linker0 t shared); Ask (Linker1s t soname (w_soname w)); Ask (Linker0 t allow_shlib_undefined)]
            | Executable | StaticLib => []
            end)) (d_link (w_pass w)) g
  | None, _, _ | _, None, _ => Aborts
  | _, _, Refused => Refused
  | _, _, Aborts => Aborts
  end.
