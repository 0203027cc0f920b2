(** Model of what build targets and dependencies take from what they use: libraries to link with, arguments, include
    directories, generated headers, sources (src/functions/kernel/dependency.c 697-1197 declare_dependency,
    dep_process_*; src/functions/dependency.c 254-338 partial_dependency, as_system;
    src/functions/kernel/build_target.c 453-825 create_target).  The values a project makes are numbered in the order in
    which they are made; a value can only refer to earlier ones.  The arrays are modelled as lists: the code extends
    only arrays that belong to the value it is making (M_Array has arrays with their sharing). *)
From Verif Require Import Base M_Path M_Escape M_Backend M_Compile.

(** ** What is passed on *)
(** include/lang/object.h 200-224 struct build_dep without raw; an array that does not exist is empty.  An include
    directory is a path and whether it is a system directory. *)
Record pass := Pass {
  d_lang : option lang; d_whole : list bytes; d_with : list bytes; d_missing : list bytes; d_link : list bytes; d_compile : list bytes;
  d_incs : list (bytes * bool); d_sources : list bytes; d_objects : list bytes; d_order : list bytes; d_rpath : list bytes }.
Definition nothing : pass := Pass None [] [] [] [] [] [] [] [] [] [].
(** compilers.c 150-184 with [new] possibly null *)
Definition coalesce_opt (cur new : option lang) : option lang := match new with Some l => coalesce cur l | None => cur end.
(** dependency.c 937-983 merge_build_deps *)
Definition merge (src dest : pass) (dep : bool) : pass :=
  Pass (coalesce_opt (d_lang src) (d_lang dest))
       (d_whole dest ++ d_whole src) (d_with dest ++ d_with src) (d_missing dest ++ d_missing src) (d_link dest ++ d_link src)
       (if dep then d_compile dest ++ d_compile src else d_compile dest)
       (if dep then d_incs dest ++ d_incs src else d_incs dest)
       (if dep then d_sources dest ++ d_sources src else d_sources dest)
       (if dep then d_objects dest ++ d_objects src else d_objects dest)
       (d_order dest ++ d_order src) (d_rpath dest ++ d_rpath src).
(** dependency.c 985-1009 dedup_link_args_iter *)
Definition dedup_args (l : list bytes) : list bytes :=
  fold_left (fun acc s => if beqb s (B "-pthread") && existsb (beqb s) acc then acc else acc ++ [s]) l [].
(** object.c 898-905 obj_array_dedup of include directories, compared as in object.c 468-475 *)
Definition inc_eqb (a b : bytes * bool) : bool := Bool.eqb (snd a) (snd b) && beqb (fst a) (fst b).
Definition dedup_incs (l : list (bytes * bool)) : list (bytes * bool) :=
  fold_left (fun acc s => if existsb (inc_eqb s) acc then acc else acc ++ [s]) l [].
(** dependency.c 1011-1035 dedup_build_dep *)
Definition dedup_pass (d : pass) : pass :=
  Pass (d_lang d) (dedup (d_whole d)) (dedup (d_with d)) (dedup (d_missing d)) (dedup_args (d_link d)) (dedup_args (d_compile d))
       (dedup_incs (d_incs d)) (dedup (d_sources d)) (dedup (d_objects d)) (dedup (d_order d)) (dedup (d_rpath d)).

(** ** Values *)
(** struct obj_build_target: what it uses itself (dep_internal) and what it passes on (dep) *)
Record made := Made {
  m_type : btype; m_path : bytes; m_internal : pass; m_passed : pass; m_src : list bytes; m_objects : list bytes;
  m_count : list (lang * nat); m_depends : list item }.
Inductive thing :=
| VTarget (t : made)
| VBoth (dynamic : nat)
| VCustom (outputs : list bytes)
| VDep (found : bool) (d : pass).
(** an element of link_with or link_whole: a target, both libraries or a custom target, or the name of a file *)
Inductive litem := LThing (i : nat) | LFile (p : bytes).

(** ** Libraries *)
Definition push_library (whole : bool) (p : bytes) (d : pass) : pass :=
  if whole then Pass (d_lang d) (d_whole d ++ [p]) (d_with d) (d_missing d) (d_link d) (d_compile d) (d_incs d) (d_sources d) (d_objects d) (d_order d) (d_rpath d)
  else Pass (d_lang d) (d_whole d) (d_with d ++ [p]) (d_missing d) (d_link d) (d_compile d) (d_incs d) (d_sources d) (d_objects d) (d_order d) (d_rpath d).
Definition push_rpath (p : bytes) (d : pass) : pass :=
  Pass (d_lang d) (d_whole d) (d_with d) (d_missing d) (d_link d) (d_compile d) (d_incs d) (d_sources d) (d_objects d) (d_order d) (d_rpath d ++ [p]).
Definition is_static (t : btype) : bool := match t with StaticLib => true | _ => false end.
Definition is_executable (t : btype) : bool := match t with Executable => true | _ => false end.
(** dependency.c 1070-1105; build paths are absolute.  [None] is an error. *)
Definition link_target (whole : bool) (m : made) (d : pass) : option pass :=
  if whole && negb (is_static (m_type m)) then None else
  let d := if is_executable (m_type m) then d else push_library whole (m_path m) d in
  do d <- (if is_static (m_type m) then Some d else
           do dir <- path_dirname (m_path m);
           Some (if existsb (beqb dir) (d_rpath d) then d else push_rpath dir d));
  Some (merge (m_passed m) d false).
(** dependency.c 1043-1124 dep_process_link_with_iter; [seen] are the values met before.  (Strings and files that are
    met again are skipped too, which makes no difference because the result is deduplicated.) *)
Definition link_item (store : list thing) (whole : bool) (i : litem) (x : list nat * pass) : option (list nat * pass) :=
  let '(seen, d) := x in
  match i with
  | LFile p => Some (seen, push_library whole p d)
  | LThing i =>
      if existsb (Nat.eqb i) seen then Some (seen, d) else
      do d <- (match nth_error store i with
               | Some (VTarget m) => link_target whole m d
               | Some (VBoth j) => match nth_error store j with Some (VTarget m) => link_target whole m d | _ => None end
               | Some (VCustom ps) => Some (fold_left (fun d p => push_library whole p d) ps d)
               | _ => None
               end);
      Some (i :: seen, d)
  end.
Fixpoint link_items (store : list thing) (whole : bool) (l : list litem) (x : list nat * pass) : option (list nat * pass) :=
  match l with
  | [] => Some x
  | i :: l => do x <- link_item store whole i x; link_items store whole l x
  end.
(** dependency.c 1126-1163 dep_process_link_with and dep_process_link_whole, called when the argument is given *)
Definition process_links (store : list thing) (whole : bool) (l : option (list litem)) (d : pass) : option pass :=
  match l with
  | None => Some d
  | Some l => do x <- link_items store whole l ([], d); Some (dedup_pass (snd x))
  end.

(** ** Dependencies *)
(** dependency.c 1165-1184 dep_process_deps_iter *)
Definition use_dep (store : list thing) (i : nat) (x : list nat * pass) : option (list nat * pass) :=
  let '(seen, d) := x in
  if existsb (Nat.eqb i) seen then Some (seen, d) else
  match nth_error store i with
  | Some (VDep found s) => Some (i :: seen, if found then merge s d true else d)
  | _ => None
  end.
Fixpoint use_deps (store : list thing) (l : list nat) (x : list nat * pass) : option (list nat * pass) :=
  match l with
  | [] => Some x
  | i :: l => do x <- use_dep store i x; use_deps store l x
  end.
(** dependency.c 1186-1197 dep_process_deps *)
Definition process_deps (store : list thing) (l : option (list nat)) (d : pass) : option pass :=
  match l with
  | None => Some d
  | Some l => do x <- use_deps store l ([], d); Some (dedup_pass (snd x))
  end.

(** ** Declarations *)
(** The arguments of a build target as far as they matter here: [t_files] and [t_objs] are the files that its sources and
    objects are (coerce_files), [t_incs] the include directories it asks for with the implicit one (coerce_include_dirs),
    [t_langs] the languages of the project's compilers. *)
Record targ := Targ {
  t_type : btype; t_path : bytes; t_files : list bytes; t_objs : list bytes; t_with : option (list litem); t_whole : option (list litem);
  t_deps : option (list nat); t_incs : list (bytes * bool); t_implicit : bool; t_link_args : list bytes; t_rpaths : list bytes;
  t_depends : list item; t_langs : list lang }.
(** the arguments of declare_dependency *)
Record darg := Darg {
  a_with : option (list litem); a_whole : option (list litem); a_deps : option (list nat); a_incs : list (bytes * bool);
  a_link : list bytes; a_compile : list bytes; a_sources : list bytes; a_objects : list bytes }.
Record parts := Parts { want_compile : bool; want_includes : bool; want_link : bool; want_links : bool; want_sources : bool }.
Inductive decl :=
| DTarget (t : targ)
| DBoth (dynamic : nat)
| DCustom (outputs : list bytes)
| DDeclare (a : darg)
| DFound (d : pass) (** a dependency from elsewhere: a package, a library that was found *)
| DMissing
| DPartial (i : nat) (w : parts)
| DSystem (i : nat) (system : option bool). (** [None] is 'preserve' *)

(** dependency.c 719-831 func_declare_dependency *)
Definition declare (store : list thing) (a : darg) : option pass :=
  let d := Pass None [] [] [] (a_link a) (a_compile a) [] (a_sources a) (a_objects a) [] [] in
  do d <- process_links store false (a_with a) d;
  do d <- process_links store true (a_whole a) d;
  process_deps store (a_deps a)
    (Pass (d_lang d) (d_whole d) (d_with d) (d_missing d) (d_link d) (d_compile d) (d_incs d ++ a_incs a) (d_sources d) (d_objects d) (d_order d) (d_rpath d)).
(** kernel/build_target.c 174-203 process_source_include: the directories of generated headers *)
Fixpoint header_dirs (root : bytes) (ps : list bytes) : option (list (bytes * bool)) :=
  match ps with
  | [] => Some []
  | p :: ps =>
      do rest <- header_dirs root ps;
      if file_is_linkable p then Some rest else
      match language_of p with
      | Some l => if is_header l then do sub <- path_is_subpath root p;
                                      if sub then do dir <- path_dirname p; Some ((dir, false) :: rest) else Some rest
                  else Some rest
      | None => do sub <- path_is_subpath root p;
                if sub then do dir <- path_dirname p; Some ((dir, false) :: rest) else Some rest
      end
  end.
(** kernel/build_target.c 453-825 create_target; [None] is an error, or undefined behaviour in the names of objects *)
Definition create_target (root : bytes) (store : list thing) (t : targ) : option made :=
  do d <- process_links store false (t_with t) nothing;
  do d <- process_links store true (t_whole t) d;
  do d <- process_deps store (t_deps t) d;
  let objects := dedup (t_objs t ++ d_objects d) in
  do s <- push_sources root (Sorted [] [] [] [] []) (t_files t ++ d_sources d);
  do dirs <- (if t_implicit t then header_dirs root (t_files t ++ d_sources d) else Some []);
  let src := dedup (so_src s) in
  let objects := objects ++ so_objects s in
  if (match src, objects, t_whole t, t_type t with [], [], None, (Executable | SharedLib | SharedModule) => true | _, _, _, _ => false end) then None else
  do lang <- determine_linker (d_lang d) src objects (t_langs t);
  do lang <- lang;
  let d := Pass (Some lang) (d_whole d) (d_with d ++ so_link s) (d_missing d) (d_link d) (d_compile d) (t_incs t ++ d_incs d ++ dirs)
                (d_sources d) (d_objects d) (d_order d ++ so_order s) (d_rpath d ++ t_rpaths t) in
  let static := is_static (t_type t) in
  Some (Made (t_type t) (t_path t)
    (Pass (d_lang d) (d_whole d) (d_with d) (d_missing d) (d_link d ++ t_link_args t) (d_compile d) (d_incs d) (d_sources d) (d_objects d) (d_order d) (d_rpath d))
    (Pass (d_lang d) (if static then d_whole d else []) (if static then d_with d else []) (if static then d_missing d else [])
          (if static then d_link d else []) [] (d_incs d) [] [] (d_order d) (d_rpath d))
    src objects (so_count s) (t_depends t)).
(** functions/dependency.c 254-308 func_dependency_partial_dependency *)
Definition partial (w : parts) (d : pass) : pass :=
  Pass None (if want_links w then d_whole d else []) (if want_links w then d_with d else []) (if want_links w then d_missing d else [])
       (if want_link w then d_link d else []) (if want_compile w then d_compile d else []) (if want_includes w then d_incs d else [])
       (if want_sources w then d_sources d else []) [] [] [].
(** functions/dependency.c 310-338 func_dependency_as_system, with dependency.c 852-891 dep_process_includes *)
Definition as_system (system : option bool) (d : pass) : pass :=
  Pass (d_lang d) (d_whole d) (d_with d) (d_missing d) (d_link d) (d_compile d) (map (fun x => (fst x, match system with Some b => b | None => snd x end)) (d_incs d))
       (d_sources d) (d_objects d) (d_order d) (d_rpath d).
Definition step (root : bytes) (store : list thing) (x : decl) : option thing :=
  match x with
  | DTarget t => do m <- create_target root store t; Some (VTarget m)
  | DBoth j => match nth_error store j with Some (VTarget _) => Some (VBoth j) | _ => None end
  | DCustom ps => Some (VCustom ps)
  | DDeclare a => do d <- declare store a; Some (VDep true d)
  | DFound d => Some (VDep true d)
  | DMissing => Some (VDep false nothing)
  | DPartial i w => match nth_error store i with Some (VDep f d) => Some (VDep f (partial w d)) | _ => None end
  | DSystem i s => match nth_error store i with Some (VDep f d) => Some (VDep f (as_system s d)) | _ => None end
  end.
(** the values after all declarations of a project *)
Fixpoint run_decls (root : bytes) (store : list thing) (l : list decl) : option (list thing) :=
  match l with
  | [] => Some store
  | x :: l => do v <- step root store x; run_decls root (store ++ [v]) l
  end.
