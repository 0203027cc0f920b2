(** Model of pkgconfig.generate() (src/functions/modules/pkgconfig.c).

    Libraries are trees: what a target or dependency was declared with hangs below it.  Whether a
    file can be linked and lies in the source or build directory, and whether a custom target can
    be linked, is given with it.  The file is a record of lists; how they are written as lines
    (642-709), the description, version, url and conflicts, and uninstalled variables, which are
    ignored, are not modelled.  Strings are C strings. *)
From Verif Require Import Base M_Path M_Escape.
Local Arguments B _ : simpl never.

(** [Aborts] is a failed assertion *)
Inductive res (A : Type) := Good (a : A) | Bad | Aborts.
Arguments Good {A} _. Arguments Bad {A}. Arguments Aborts {A}.

Definition rbind {A C} (x : res A) (k : A -> res C) : res C :=
  match x with Good a => k a | Bad => Bad | Aborts => Aborts end.

(** the path functions always give a path (property C01) *)
Definition path {A} (x : option A) : res A := match x with Some a => Good a | None => Aborts end.

(** 24-27 enum pkgconf_visibility *)
Inductive vis := Pub | Priv.

Definition at_vis {A} (f : vis -> A) (v : vis) (a : A) : vis -> A :=
  fun v' => match v, v' with Pub, Pub | Priv, Priv => a | _, _ => f v' end.

Inductive ttype := Executable | Static | Shared.

(** What can be given as a library.  A both_libraries() object is its shared library (257-259).
    [pc] is the file that was generated for a target before. *)
Inductive lib :=
| LString (s : bytes)
| LFile (linkable internal : bool) (p : bytes)
| LTarget (ty : ttype) (installed : bool) (pc : option bytes) (name : bytes)
          (deps link_with link_whole : list lib)
| LCustom (linkable : bool) (out : bytes)
| LDeclared (found : bool) (args : list bytes) (link_with link_whole deps : list lib)
| LPackage (found : bool) (name : bytes)
| LThreads (found : bool)
| LExternal (found : bool) (files : list lib)
| LOther.                  (* frameworks and dependencies that are not found *)

(** 29-41 struct pkgconf_file while it is filled *)
Record acc := mkAcc {
  libs : vis -> list bytes;
  reqs : vis -> list bytes;
  internal : vis -> bool;
  exclude : list bytes;
  cflags : list bytes
}.

Definition acc0 : acc :=
  {| libs := fun _ => []; reqs := fun _ => []; internal := fun _ => false;
     exclude := []; cflags := [] |}.

Definition push_lib (v : vis) (w : bytes) (a : acc) : acc :=
  {| libs := at_vis (libs a) v (libs a v ++ [w]); reqs := reqs a; internal := internal a;
     exclude := exclude a; cflags := cflags a |}.
Definition push_req (v : vis) (w : bytes) (a : acc) : acc :=
  {| libs := libs a; reqs := at_vis (reqs a) v (reqs a v ++ [w]); internal := internal a;
     exclude := exclude a; cflags := cflags a |}.
Definition push_exclude (w : bytes) (a : acc) : acc :=
  {| libs := libs a; reqs := reqs a; internal := internal a; exclude := exclude a ++ [w];
     cflags := cflags a |}.
Definition push_cflags (ws : list bytes) (a : acc) : acc :=
  {| libs := libs a; reqs := reqs a; internal := internal a; exclude := exclude a;
     cflags := cflags a ++ ws |}.
Definition set_internal (v : vis) (a : acc) : acc :=
  {| libs := libs a; reqs := reqs a; internal := at_vis (internal a) v true;
     exclude := exclude a; cflags := cflags a |}.

(** 116-131: the word for a name; the prefix -l is never looked for, since such a name begins
    with a dash *)
Definition lname (s : bytes) : bytes :=
  match s with
  | "-"%char :: _ => s
  | _ => if starts_with (B "lib") s then B "-l" ++ skipn 3 s else B "-l" ++ s
  end.

(** 101-111: the name of a file up to its last dot *)
Definition file_lname (p : bytes) : res bytes :=
  rbind (path (path_basename p)) (fun b =>
  Good (lname (match last_index "."%char b 0 None with Some i => firstn i b | None => b end))).

(** str_endswith (src/lang/string.c 346-354) *)
Definition ends_with (suf s : bytes) : bool := starts_with (rev suf) (rev s).

(** 221-429 module_pkgconf_process_libs_iter and module_pkgconf_process_libs *)
Fixpoint process (v : vis) (whole : bool) (l : lib) (a : acc) {struct l} : res acc :=
  let all :=
    fix all (v : vis) (whole : bool) (ls : list lib) (a : acc) {struct ls} : res acc :=
      match ls with
      | [] => Good a
      | l :: ls => rbind (process v whole l a) (all v whole ls)
      end in
  match l with
  | LString s => Good (push_lib v (lname s) a)                              (* 229-237 *)
  | LFile linkable internal p =>                                            (* 238-256 *)
      if negb linkable then Bad
      else rbind (file_lname p) (fun w =>
           Good (push_lib v w (if internal then set_internal v a else a)))
  | LTarget ty installed pc name deps lw lh =>                              (* 260-312 *)
      match pc with
      | Some r => Good (push_req v r a)
      | None =>
          match ty with
          | Executable => Bad
          | _ =>
              let lv := match ty with Static => Pub | _ => Priv end in
              rbind (all Priv false deps a) (fun a =>
              rbind (all lv false lw a) (fun a =>
              rbind (all lv true lh a) (fun a =>
              let w := lname name in
              if whole then Good (push_exclude w a)
              else match ty, installed with
                   | Static, false => Good a
                   | _, _ => Good (push_lib v w (set_internal v a))
                   end)))
          end
      end
  | LDeclared found args lw lh deps =>                                      (* 320-349 *)
      if negb found then Good a
      else rbind (all v false lw (push_cflags args a)) (fun a =>
           rbind (all v true lh a) (fun a => all Priv false deps a))
  | LPackage found name => Good (if found then push_req v name a else a)    (* 350-353 *)
  | LThreads found =>                                                       (* 354-356 *)
      Good (if found then push_lib Priv (B "-pthread") a else a)
  | LExternal found files => if found then all v false files a else Good a  (* 357-367 *)
  | LOther => Good a                                                        (* 368-372 *)
  | LCustom linkable out =>                                                 (* 376-398 *)
      if negb linkable then Bad
      else if ends_with (B ".a") out then Good a
      else rbind (file_lname out) (fun w => Good (push_lib v w (set_internal v a)))
  end.

Fixpoint process_all (v : vis) (whole : bool) (ls : list lib) (a : acc) : res acc :=
  match ls with
  | [] => Good a
  | l :: ls => rbind (process v whole l a) (process_all v whole ls)
  end.

(** 139-197 module_pkgconf_process_reqs *)
Definition process_req (l : lib) (dest : list bytes) : res (list bytes) :=
  match l with
  | LString s => Good (dest ++ [s])
  | LTarget _ _ pc _ _ _ _ => match pc with Some r => Good (dest ++ [r]) | None => Bad end
  | LPackage found name => Good (if found then dest ++ [name] else dest)
  | LThreads _ => Good dest
  | LDeclared found _ _ _ _ => if found then Bad else Good dest
  | LExternal found _ => if found then Bad else Good dest
  | LOther => Good dest
  | LFile _ _ _ | LCustom _ _ => Bad
  end.

Fixpoint process_reqs (ls : list lib) (dest : list bytes) : res (list bytes) :=
  match ls with
  | [] => Good dest
  | l :: ls => rbind (process_req l dest) (process_reqs ls)
  end.

Definition mem (x : bytes) (l : list bytes) : bool := existsb (beqb x) l.

(** 612-640 module_pkgconf_remove_dups: the list and what is excluded after it *)
Fixpoint remove_dups (l ex : list bytes) : list bytes * list bytes :=
  match l with
  | [] => ([], ex)
  | x :: l =>
      if mem x ex then remove_dups l ex
      else let '(r, ex) := remove_dups l (ex ++ [x]) in (x :: r, ex)
  end.

(** 75-89 add_subdirs_includes_iter *)
Fixpoint subdirs_cflags (ds : list bytes) : res (list bytes) :=
  match ds with
  | [] => Good []
  | d :: ds =>
      rbind (if beqb d (B ".") then Good (B "-I${includedir}")
             else path (path_join (B "-I${includedir}") d)) (fun w =>
      rbind (subdirs_cflags ds) (fun r => Good (w :: r)))
  end.

(** ** Variables *)

(** 43-73 the directories, in order *)
Definition diropts : list bytes :=
  [B "prefix"; B "bindir"; B "datadir"; B "includedir"; B "infodir"; B "libdir"; B "libexecdir";
   B "localedir"; B "localstatedir"; B "mandir"; B "sbindir"; B "sharedstatedir"; B "sysconfdir"].

(** 59 the flags of the table: those with refd and those with added *)
Record dirs := mkDirs { refd : list bytes; added : list bytes }.

Definition var_ref (d : bytes) : bytes := B "${" ++ d ++ B "}".

(** 445-458 *)
Fixpoint look_at_dirs (ds : list bytes) (key val : bytes) (t : dirs) : dirs :=
  match ds with
  | [] => t
  | d :: ds =>
      let t := if beqb key d then {| refd := refd t; added := d :: added t |} else t in
      let t := if mem d (refd t) then t
               else if starts_with (var_ref d) val
                    then {| refd := d :: B "prefix" :: refd t; added := added t |}
                    else t in
      look_at_dirs ds key val t
  end.

(** 461-471 *)
Definition var_value (escape : bool) (val : bytes) : res bytes :=
  if escape then path (pkgconf_escape val) else Good val.

(** 431-472 module_pkgconf_declare_var *)
Definition declare_var (escape skip : bool) (kv : bytes * bytes) (t : dirs)
    : res (dirs * (bytes * bytes)) :=
  let '(key, val) := kv in
  if negb skip && mem key [B "prefix"; B "libdir"; B "includedir"] then Bad
  else
    let t := if skip then t else look_at_dirs diropts key val t in
    rbind (var_value escape val) (fun v => Good (t, (key, v))).

(** 488-569: the variables are given as strings or in a dictionary *)
Inductive vars := VList (l : list bytes) | VDict (l : list (bytes * bytes)).

(** 499-513 *)
Definition split_var (s : bytes) : res (bytes * bytes) :=
  match break_at "="%char s with
  | (k, _ :: v) => Good (k, v)
  | (_, []) => Bad
  end.

Fixpoint process_dict (escape dataonly : bool) (l : list (bytes * bytes)) (t : dirs)
    : res (dirs * list (bytes * bytes)) :=
  match l with
  | [] => Good (t, [])
  | kv :: l =>
      rbind (declare_var escape dataonly kv t) (fun '(t, d) =>
      rbind (process_dict escape dataonly l t) (fun '(t, ds) => Good (t, d :: ds)))
  end.

Fixpoint process_list (escape dataonly : bool) (l : list bytes) (t : dirs)
    : res (dirs * list (bytes * bytes)) :=
  match l with
  | [] => Good (t, [])
  | s :: l =>
      rbind (split_var s) (fun kv =>
      rbind (declare_var escape dataonly kv t) (fun '(t, d) =>
      rbind (process_list escape dataonly l t) (fun '(t, ds) => Good (t, d :: ds))))
  end.

Definition process_vars (escape dataonly : bool) (x : vars) (t : dirs) :=
  match x with
  | VList l => process_list escape dataonly l t
  | VDict l => process_dict escape dataonly l t
  end.

Section Options.
(** the values of the options of the current project *)
Variable opt : bytes -> bytes.

(** 474-486 module_pkgconf_declare_builtin_dir_var *)
Definition builtin_var (d : bytes) : res (bytes * bytes) :=
  rbind (var_value true (if beqb d (B "prefix") then opt d else B "${prefix}/" ++ opt d))
        (fun v => Good (d, v)).

Fixpoint builtin_vars (ds : list bytes) (t : dirs) : res (list (bytes * bytes)) :=
  match ds with
  | [] => Good []
  | d :: ds =>
      if mem d (refd t) && negb (mem d (added t))
      then rbind (builtin_var d) (fun kv => rbind (builtin_vars ds t) (fun r => Good (kv :: r)))
      else builtin_vars ds t
  end.

(** 571-605 module_pkgconf_prepend_libdir: the word *)
Definition libdir_word (install_dir : option bytes) : res bytes :=
  match install_dir with
  | None => Good (B "-L${libdir}")
  | Some d =>
      rbind (path (path_is_subpath (opt (B "prefix")) d)) (fun sub =>
      if sub then rbind (path (path_relative_to (opt (B "prefix")) d)) (fun r =>
                  Good (B "-L${prefix}/" ++ r))
      else if path_is_absolute d then Bad
      else Good (B "-L${prefix}/" ++ d))
  end.

(** ** generate() *)
Record call := mkCall {
  g_main : option lib;
  g_name : bytes;                   (* the name, or else that of the main library (802-806) *)
  g_libs : list lib;
  g_libs_private : list lib;
  g_subdirs : option (list bytes);
  g_requires : list lib;
  g_requires_private : list lib;
  g_cflags : list bytes;
  g_vars : vars;
  g_unescaped : vars;
  g_dataonly : bool;
  g_install_dir : option bytes
}.

Record file := mkFile {
  f_builtin : list (bytes * bytes);
  f_vars : list (bytes * bytes);
  f_reqs : vis -> list bytes;
  f_libs : vis -> list bytes;
  f_cflags : list bytes
}.

(** 831-850: what is processed, with its visibility *)
Definition given_libs (c : call) (a : acc) : res acc :=
  rbind (process_all Pub false (match g_main c with Some l => [l] | None => [] end) a) (fun a =>
  rbind (process_all Pub false (g_libs c) a) (fun a =>
  process_all Priv false (g_libs_private c) a)).

(** 857-863 *)
Definition with_dir (c : call) (internal : bool) (ws : list bytes) : res (list bytes) :=
  match ws with
  | [] => Good []
  | _ => if internal then rbind (libdir_word (g_install_dir c)) (fun w => Good (w :: ws))
         else Good ws
  end.

(** 711-964 func_module_pkgconfig_generate; [t] is the table, which lives as long as the program *)
Definition generate (c : call) (t : dirs) : res (dirs * file) :=
  rbind (match g_subdirs c with                                             (* 822-829 *)
         | Some ds => subdirs_cflags ds
         | None => Good [B "-I${includedir}"]
         end) (fun cf =>
  rbind (given_libs c (push_cflags cf acc0)) (fun a =>
  let '(rpub, ex) := remove_dups (reqs a Pub) (exclude a) in                (* 852-855 *)
  let '(lpub, ex) := remove_dups (libs a Pub) ex in
  let '(rpriv, ex) := remove_dups (reqs a Priv) ex in
  let '(lpriv, ex) := remove_dups (libs a Priv) ex in
  rbind (with_dir c (internal a Pub) lpub) (fun lpub =>
  rbind (with_dir c (internal a Priv) lpriv) (fun lpriv =>
  rbind (process_reqs (g_requires c) rpub) (fun rpub =>                     (* 865-877 *)
  rbind (process_reqs (g_requires_private c) rpriv) (fun rpriv =>
  let t := {| refd := if g_dataonly c then []                               (* 884-895 *)
                      else B "prefix" :: B "includedir"
                           :: match lpub ++ lpriv with [] => [] | _ => [B "libdir"] end;
              added := added t |} in
  rbind (process_vars true (g_dataonly c) (g_vars c) t) (fun '(t, vs1) =>
  rbind (process_vars false (g_dataonly c) (g_unescaped c) t) (fun '(t, vs2) =>
  rbind (builtin_vars diropts t) (fun bs =>                                 (* 911-917 *)
  Good (t, {| f_builtin := bs; f_vars := vs1 ++ vs2;
              f_reqs := fun v => match v with Pub => rpub | Priv => rpriv end;
              f_libs := fun v => match v with Pub => lpub | Priv => lpriv end;
              f_cflags := if g_dataonly c then []                           (* 700-702 *)
                          else cflags a ++ g_cflags c |})))))))))).
End Options.

(** all files of a configuration *)
Fixpoint generate_all (opt : bytes -> bytes) (cs : list call) (t : dirs) : res (dirs * list file) :=
  match cs with
  | [] => Good (t, [])
  | c :: cs => rbind (generate opt c t) (fun '(t, f) =>
               rbind (generate_all opt cs t) (fun '(t, fs) => Good (t, f :: fs)))
  end.

Definition dirs0 : dirs := {| refd := []; added := [] |}.
