(** Model of the path functions of the fs module (src/functions/modules/fs.c).

    A path is given as a string or as a file object, whose path is absolute.  The functions that
    look at the file system are modelled up to the path that they look at. *)
From Verif Require Import Base M_Path.
Local Arguments B _ : simpl never.

(** [Fails] is an error at the call, [Crash] a failed assertion *)
Inductive out (A : Type) := Gives (a : A) | Fails | Crash.
Arguments Gives {A} _. Arguments Fails {A}. Arguments Crash {A}.

Definition obind {A C} (x : out A) (k : A -> out C) : out C :=
  match x with Gives a => k a | Fails => Fails | Crash => Crash end.
Definition path {A} (x : option A) : out A := match x with Some a => Gives a | None => Crash end.

Inductive arg := AString (s : bytes) | AFile (s : bytes).

(** 22-26 enum fix_file_path_opts *)
Record fopts := mkOpts { allow_file : bool; expand : bool; noabs : bool }.

Section Where.
Variables (home : option bytes) (cwd : bytes).

(** 28-78 fix_file_path *)
Definition fix_file_path (x : arg) (o : fopts) : out bytes :=
  obind (match x with
         | AString s => Gives s
         | AFile s => if allow_file o then Gives s else Fails
         end) (fun s =>
  if mem_char NUL s then Fails                                             (* 50-52 *)
  else if beqb s [] then Fails                                             (* 53-56 *)
  else
    obind (if path_is_absolute s then path (path_copy s)                   (* 58-59 *)
           else match s, expand o with
                | "~"%char :: r, true =>                                   (* 61-68 *)
                    match home with
                    | Some h => path (path_join h r)
                    | None => Fails
                    end
                | _, _ => if noabs o then path (path_copy s)               (* 69-70 *)
                          else path (path_join cwd s)                      (* 71-73 *)
                end) (fun b =>
    path (path_normalize true b))).                                        (* 76 *)

(** 80-123: what exists(), is_file(), is_dir() (with [false]) and is_symlink() (with [true]) look
    at; 145-181 read(), 491-510 write() and 512-530 copy() look at it as is_symlink() does *)
Definition looks_at (file : bool) (x : arg) : out bytes :=
  fix_file_path x {| allow_file := file; expand := true; noabs := false |}.

(** 308-345 hash(), 347-374 size() *)
Definition reads (x : arg) : out bytes :=
  fix_file_path x {| allow_file := true; expand := false; noabs := false |}.

(** 125-143 func_module_fs_parent *)
Definition fs_parent (x : arg) : out bytes :=
  obind (fix_file_path x {| allow_file := true; expand := true; noabs := true |}) (fun p =>
  path (path_dirname p)).

(** 196-211 func_module_fs_expanduser *)
Definition fs_expanduser (s : bytes) : out bytes :=
  fix_file_path (AString s) {| allow_file := false; expand := true; noabs := false |}.

(** 213-230 func_module_fs_name *)
Definition fs_name (x : arg) : out bytes :=
  obind (fix_file_path x {| allow_file := true; expand := false; noabs := false |}) (fun p =>
  path (path_basename p)).

(** strrchr and cutting at the dot: 248-252 and 297-301 *)
Definition cut (s : bytes) : bytes :=
  match last_index "."%char s 0 None with Some i => firstn i s | None => s end.

(** 232-256 func_module_fs_stem *)
Definition fs_stem (x : arg) : out bytes := obind (fs_name x) (fun b => Gives (cut b)).

(** 284-306 func_module_replace_suffix *)
Definition fs_replace_suffix (x : arg) (suf : bytes) : out bytes :=
  obind (fix_file_path x {| allow_file := true; expand := false; noabs := true |}) (fun p =>
  Gives (cut p ++ suf)).

(** 376-399 func_module_fs_is_samepath *)
Definition fs_is_samepath (x y : arg) : out bool :=
  obind (reads x) (fun p => obind (reads y) (fun q => Gives (beqb p q))).
End Where.

(** 258-282 func_module_as_posix *)
Fixpoint fs_as_posix (s : bytes) : bytes :=
  match s with
  | [] => []
  | c :: s' =>
      if ceqb c BSLASH
      then "/"%char :: match s' with
                       | d :: s'' => if ceqb d BSLASH then fs_as_posix s'' else fs_as_posix s'
                       | [] => []
                       end
      else c :: fs_as_posix s'
  end.
