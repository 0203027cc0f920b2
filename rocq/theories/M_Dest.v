(** Model of where the install functions put files: functions/kernel/install.c (install_subdir, install_man, install_symlink,
    install_emptydir, install_data, install_headers), install.c 82-258 (push_install_target, push_install_targets) and the
    part of coerce.c 345-480 that turns strings into files.
    Left out: install_tag (ignored by the code too), the checking of the arguments' types (C49), subprojects' options (the
    record [dirs] holds the values of the options for the project that calls), and the targets of executables and libraries
    (C127).  The functions below give the targets a call adds to the list of what is installed. *)
From Coq Require Import NArith.
From Verif Require Import Base M_Path M_Escape M_Install.

(** the values of the options prefix, datadir, includedir and mandir, the name of the project and its current directory *)
Record dirs := { d_prefix : bytes; d_data : bytes; d_include : bytes; d_man : bytes; d_project : bytes; d_cwd : bytes }.
(** arguments: strings, files (object.h struct obj_file: an absolute path), targets' outputs *)
Inductive item := IStr (s : bytes) | IFile (p : bytes).
Inductive source := SItem (i : item) | SOutputs (ps : list bytes).

(** a path operation that is undefined is an abort *)
Definition must {A} (o : option A) : res A := match o with Some a => ROk a | None => RCrash end.
Definition rbind {A C} (r : res A) (f : A -> res C) : res C := match r with ROk a => f a | RErr => RErr | RCrash => RCrash end.
Notation "'let!' x := e 'in' k" := (rbind e (fun x => k)) (at level 200, x name, e at level 100, k at level 200).

(** coerce.c 345-364 coerce_string_to_file *)
Definition string_to_file (cwd s : bytes) : option bytes :=
  do p <- (if path_is_absolute s then path_copy s else path_join cwd s);
  path_normalize true p.
Section FILES.
(** whether a path is that of a file (fs_file_exists) *)
Variable is_file : bytes -> bool.
Variable d : dirs.

(** coerce.c 366-427 coerce_into_file, with mode_input and fs_file_exists *)
Definition coerce_file (i : item) : res bytes :=
  match i with
  | IStr s => let! p := must (string_to_file (d_cwd d) s) in if is_file p then ROk p else RErr   (* 373-388 *)
  | IFile p => ROk p                                                                                (* 410-416 *)
  end.
(** coerce.c 429-472 coerce_into_files_iter, 474-500 _coerce_files; build targets and custom targets are their outputs *)
Fixpoint coerce_files (l : list source) : res (list bytes) :=
  match l with
  | [] => ROk []
  | SItem i :: l' => let! p := coerce_file i in let! ps := coerce_files l' in ROk (p :: ps)
  | SOutputs qs :: l' => let! ps := coerce_files l' in ROk (qs ++ ps)
  end.

(** install.c 82-137 push_install_target *)
Definition push_target (src dest : bytes) (mode : option (list mode_elem)) : res target :=
  let! perm := install_mode mode in                                                                 (* 90-118 *)
  let! full := (if path_is_absolute dest then ROk dest else must (path_join (d_prefix d) dest)) in  (* 120-130 *)
  ROk {| tkind := KDefault; tsrc := src; tdest := full; tperm := perm; tbuild := false; texdirs := []; texfiles := [] |}.
Definition of_kind (k : kind) (t : target) : target :=
  {| tkind := k; tsrc := tsrc t; tdest := tdest t; tperm := tperm t; tbuild := tbuild t; texdirs := texdirs t; texfiles := texfiles t |}.

(** install.c 160-232 push_install_targets_iter, where install_dir is one string *)
Definition push_one (dir : bytes) (mode : option (list mode_elem)) (preserve : bool) (i : item) : res target :=
  match i with
  | IStr s =>
      let! f := coerce_file i in                                                                    (* 190-192 *)
      if preserve then let! dest := must (path_join dir s) in push_target f dest mode               (* 198-203 *)
      else let! n := must (path_basename f) in let! dest := must (path_join dir n) in push_target f dest mode   (* 213-222 *)
  | IFile f =>
      if preserve then RErr                                                                         (* 206-209 *)
      else let! n := must (path_basename f) in let! dest := must (path_join dir n) in push_target f dest mode
  end.
Fixpoint each_of {A} (f : A -> res target) (l : list A) : res (list target) :=
  match l with [] => ROk [] | a :: l' => let! t := f a in let! ts := each_of f l' in ROk (t :: ts) end.
(** install.c 234-258 push_install_targets, where install_dirs is one string *)
Definition push_targets (items : list item) (dir : bytes) (mode : option (list mode_elem)) (preserve : bool) : res (list target) :=
  each_of (push_one dir mode preserve) items.
(** the same where install_dirs is an array (custom targets' outputs): [None] is [false] *)
Fixpoint push_zip (items : list item) (ds : list (option bytes)) (mode : option (list mode_elem)) : res (list target) :=
  match items, ds with
  | i :: items', Some dir :: ds' => let! t := push_one dir mode false i in let! ts := push_zip items' ds' mode in ROk (t :: ts)
  | _ :: items', None :: ds' => push_zip items' ds' mode                                            (* 178-180 *)
  | _, _ => ROk []
  end.
Definition push_targets_arr (items : list item) (ds : list (option bytes)) (mode : option (list mode_elem)) : res (list target) :=
  if Nat.eqb (length items) (length ds) then push_zip items ds mode else RErr.                      (* 248-255 *)

(** functions/kernel/install.c 267-287 install_data_rename_iter: what push_install_target says is not looked at *)
Fixpoint rename_each (dir : bytes) (mode : option (list mode_elem)) (files names : list bytes) : res (list target) :=
  match files, names with
  | f :: files', n :: names' =>
      let! dest := must (path_join dir n) in
      match push_target f dest mode with
      | RCrash => RCrash
      | RErr => rename_each dir mode files' names'
      | ROk t => let! ts := rename_each dir mode files' names' in ROk (t :: ts)
      end
  | [], _ => ROk []
  | _ :: _, [] => RCrash
  end.
(** the keyword arguments of install_data and install_headers; [None]: not given *)
Record data_args := { a_items : list item; a_sources : list item; a_dir : option bytes; a_mode : option (list mode_elem);
                      a_rename : option (list bytes); a_preserve : option bool }.
(** functions/kernel/install.c 289-371 func_install_data *)
Definition install_data (a : data_args) : res (list target) :=
  match a_rename a, a_preserve a with
  | Some _, Some _ => RErr                                                                          (* 316-319 *)
  | rename, preserve =>
      let! dir := (match a_dir a with Some s => ROk s | None => must (path_join (d_data d) (d_project d)) end) in
      let sources := a_items a ++ a_sources a in
      match rename with
      | Some names =>
          if Nat.eqb (length names) (length sources)
          then let! files := coerce_files (map SItem sources) in rename_each dir (a_mode a) files names
          else RErr
      | None => push_targets sources dir (a_mode a) (match preserve with Some b => b | None => false end)
      end
  end.
Record header_args := { h_items : list item; h_dir : option bytes; h_mode : option (list mode_elem);
                        h_subdir : option bytes; h_preserve : option bool }.
(** functions/kernel/install.c 373-421 func_install_headers *)
Definition install_headers (a : header_args) : res (list target) :=
  match h_dir a, h_subdir a with
  | Some _, Some _ => RErr
  | _, _ =>
      let base := match h_dir a with Some s => s | None => d_include d end in
      let! dir := (match h_subdir a with Some s => must (path_join base s) | None => ROk base end) in
      push_targets (h_items a) dir (h_mode a) (match h_preserve a with Some b => b | None => false end)
  end.

(** C strings: the text before the first dot, and after it *)
Fixpoint at_dot (s : bytes) : bytes * bytes :=
  match s with [] => ([], []) | c :: s' => if ceqb c "."%char then ([], s') else let '(x, y) := at_dot s' in (c :: x, y) end.
(** functions/kernel/install.c 93-136 install_man_iter; [default_dir] says that install_dir was not given *)
Definition man_one (dir : bytes) (default_dir : bool) (locale : option bytes) (mode : option (list mode_elem)) (src : bytes) : res target :=
  let! man := must (path_basename src) in
  match man with
  | [] => RCrash                                                                                    (* 102 *)
  | _ =>
      let len := length man - 1 in                                                                  (* 103 *)
      let c := nth len man NUL in
      if Nat.leb len 1 || negb (ceqb (nth (len - 1) man NUL) "."%char) || negb (is_digit c) then RErr   (* 105-108 *)
      else
        let dir' := if default_dir then dir ++ B "/man" ++ [c] else dir in                          (* 110-115 *)
        let name := match locale with
                    | Some lc => let '(x, y) := at_dot man in if starts_with lc y then x ++ B "." ++ [c] else man   (* 117-126 *)
                    | None => man
                    end in
        let! dest := must (path_join dir' name) in push_target src dest mode
  end.
(** functions/kernel/install.c 138-185 func_install_man *)
Definition install_man (l : list source) (dir : option bytes) (locale : option bytes) (mode : option (list mode_elem)) : res (list target) :=
  let! x := (match dir with
             | Some s => ROk (s, false, None)
             | None => match locale with
                       | Some lc => let! p := must (path_join (d_man d) lc) in ROk (p, true, Some lc)
                       | None => ROk (d_man d, true, None)
                       end
             end) in
  let! files := coerce_files l in
  each_of (man_one (fst (fst x)) (snd (fst x)) (snd x) mode) files.

(** functions/kernel/install.c 187-216 func_install_symlink *)
Definition install_symlink (name dir to : bytes) : res (list target) :=
  let! p := must (path_join dir name) in let! t := push_target to p None in ROk [of_kind KSymlink t].
(** functions/kernel/install.c 222-257 install_emptydir_iter, func_install_emptydir *)
Definition install_emptydir (names : list bytes) (mode : option (list mode_elem)) : res (list target) :=
  each_of (fun n => let! t := push_target [] n mode in ROk (of_kind KEmptydir t)) names.
(** what follows the first separator, if there is one *)
Fixpoint after_slash (s : bytes) : option bytes :=
  match s with [] => None | c :: s' => if ceqb c SEP then Some s' else after_slash s' end.
(** functions/kernel/install.c 20-81 func_install_subdir *)
Definition install_subdir (name dir : bytes) (mode : option (list mode_elem)) (exdirs exfiles : list bytes) (strip : bool) : res (list target) :=
  let! dest := (if strip then ROk dir
                else must (path_join dir (match after_slash name with Some tl => tl | None => name end))) in   (* 49-67 *)
  let! src := must (path_join (d_cwd d) name) in
  let! t := push_target src dest mode in
  ROk [{| tkind := KSubdir; tsrc := tsrc t; tdest := tdest t; tperm := tperm t; tbuild := false; texdirs := exdirs; texfiles := exfiles |}].
End FILES.
