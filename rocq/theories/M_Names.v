(** Model of the names of build targets, the sonames of shared libraries and the symbolic links that are made and
    installed for them (src/functions/kernel/build_target.c 295-451, 702-720, 760-788; src/install.c 139-151;
    src/platform/posix/filesystem.c 294-309).  Strings are C strings.  A file system is a function from places (lists
    of names below the root); creating a link does not fail. *)
From Coq Require Import NArith.
From Verif Require Import Base M_Path M_Escape M_Compile.

Inductive system := Windows | Cygwin | Darwin | OtherSystem.
(** what a target is named after: its name, soversion:, version:, name_prefix: and name_suffix: *)
Record naming_args := NamingArgs { n_name : bytes; n_sover : option bytes; n_ver : option bytes; n_pre : option bytes; n_suff : option bytes }.
Definition windows_like (s : system) : bool := match s with Windows | Cygwin => true | _ => false end.
(** strchr(s, '.') and a NUL byte put there: what is before the first dot, and whether there is one *)
Definition before_dot (s : bytes) : bytes := fst (span (fun c => negb (ceqb c ".")) s).
Definition has_dot (s : bytes) : bool := existsb (fun c => ceqb c ".") s.
(** strncpy of at most [n] bytes into a buffer that is followed by a NUL byte *)
Definition cut (n : N) (s : bytes) : bytes := firstn (N.to_nat n) s.
(** strncpy to a buffer of 1024 bytes that is not cleared, with size 1023: unterminated ([None]) if the string fills it *)
Definition copy_1k (s : bytes) : option bytes := if (N.of_nat (length s) <? 1023)%N then Some s else None.

(** build_target.c 379-430: the prefix, the suffix, the version in a DLL's name, and the version at the end *)
Definition name_parts (sys : system) (t : btype) (a : naming_args) : option (bytes * option bytes * bytes * option bytes) :=
  match t with
  | Executable => Some ([], if windows_like sys then Some (B "exe") else None, [], None)
  | StaticLib => Some ((match sys with Cygwin => B "cyg" | _ => B "lib" end), Some (B "a"), [], None)
  | SharedLib | SharedModule =>
      let pref := match sys with Cygwin => B "cyg" | _ => B "lib" end in
      match sys with
      | Windows | Cygwin =>
          do v <- (match n_sover a, n_ver a with
                   | Some s, _ => copy_1k s
                   | None, Some v => do v <- copy_1k v; Some (if has_dot v then before_dot v else [])
                   | None, None => Some []
                   end);
          Some (pref, Some (B "dll"), v, None)
      | Darwin => Some (pref, Some (B "dylib"), [], None)
      | OtherSystem => Some (pref, Some (B "so"), [], match n_ver a with Some v => Some v | None => n_sover a end)
      end
  end.
Definition dotted (s : option bytes) : bytes := match s with Some s => B "." ++ s | None => [] end.
(** build_target.c 371-451 determine_target_build_name: the plain name, in a buffer of 2048 bytes, and the name of what is built *)
Definition build_names (sys : system) (t : btype) (a : naming_args) : option (bytes * bytes) :=
  do p <- name_parts sys t a;
  let '(pref, suff, ver_dll, ver_suff) := p in
  let pref := match n_pre a with Some p => p | None => pref end in
  let suff := match n_suff a with Some s => Some s | None => suff end in
  if windows_like sys then
    let plain := cut 2047 (pref ++ n_name a) in
    Some (plain, plain ++ (match ver_dll with [] => [] | _ => B "-" ++ ver_dll end) ++ dotted suff)
  else
    let plain := cut 2047 (pref ++ n_name a ++ dotted suff) in
    Some (plain, plain ++ dotted ver_suff).
(** build_target.c 295-314 setup_soname *)
Definition so_name (plain : bytes) (a : naming_args) : bytes :=
  plain ++ match n_sover a, n_ver a with
           | Some s, _ => B "." ++ cut 1022 s
           | None, Some v => B "." ++ before_dot (cut 1022 v)
           | None, None => []
           end.
(** build_target.c 316-335 setup_dllname *)
Definition dll_name (plain : bytes) (a : naming_args) : option bytes :=
  match n_sover a, n_ver a with
  | Some s, _ => Some (plain ++ B "-" ++ s ++ B ".dll")
  | None, Some v => do v <- copy_1k v; Some (if has_dot v then plain ++ B "-" ++ before_dot v ++ B ".dll" else plain ++ B ".dll")
  | None, None => Some (plain ++ B ".dll")
  end.

(** ** links *)
Definition place_of := list bytes.
Inductive entry := File (id : nat) | Link (target : bytes).
Definition files := place_of -> option entry.
Fixpoint same_place (a b : place_of) : bool :=
  match a, b with [], [] => true | x :: a, y :: b => beqb x y && same_place a b | _, _ => false end.
Definition put (p : place_of) (e : entry) (f : files) : files := fun q => if same_place q p then Some e else f q.
(** build_target.c 337-369 setup_shared_object_symlinks: the links to make, as paths with their targets *)
Definition links_of (dir plain build soname : bytes) : option (list (bytes * bytes)) :=
  do a <- (if beqb build soname then Some [] else do p <- path_join dir soname; Some [(p, build)]);
  do b <- (if beqb soname plain then Some [] else do p <- path_join dir plain; Some [(p, soname)]);
  Some (a ++ b).
(** filesystem.c 294-309 fs_make_symlink with force, for each; [at_place] is where a path leads *)
Definition make_links (at_place : bytes -> place_of) (l : list (bytes * bytes)) (f : files) : files :=
  fold_left (fun f x => put (at_place (fst x)) (Link (snd x)) f) l f.
(** build_target.c 579-582, 702-720: the name of what is built, the soname, and the links made in the build directory *)
Definition target_names (sys : system) (t : btype) (dir : bytes) (a : naming_args) : option (bytes * bytes * option bytes * list (bytes * bytes)) :=
  do n <- build_names sys t a;
  let '(plain, build) := n in
  match t with
  | Executable | StaticLib => Some (plain, build, None, [])
  | SharedLib | SharedModule =>
      if windows_like sys then do s <- dll_name plain a; Some (plain, build, Some s, [])
      else
        let s := so_name plain a in
        match t with
        | SharedLib => do l <- links_of dir plain build s; Some (plain, build, Some s, l)
        | _ => Some (plain, build, Some s, [])
        end
  end.
(** build_target.c 760-788, install.c 139-151: what is installed: the source and the destination of the library and of the links *)
Definition to_install (dir install_dir build : bytes) (links : list (bytes * bytes)) : option (list (bytes * bytes)) :=
  do s <- path_join dir build;
  do d <- path_join install_dir build;
  do rest <- fold_right (fun x acc => do acc <- acc; do b <- path_basename (fst x); do d <- path_join install_dir b; Some ((fst x, d) :: acc)) (Some []) links;
  Some ((s, d) :: rest).
(** filesystem.c 139-170 fs_copy_link, 172-243 fs_copy_file: files are copied, and links as links (the directories they are in are made
    before).  [None] if there is nothing to copy, and if a file is copied to the place of a link, which the code would
    follow.  DESTDIR is not modelled here (C58): [d] is the full destination. *)
Fixpoint install_all (at_place : bytes -> place_of) (l : list (bytes * bytes)) (f : files) : option files :=
  match l with
  | [] => Some f
  | (s, d) :: l =>
      do e <- f (at_place s);
      match e, f (at_place d) with
      | File _, Some (Link _) => None
      | _, _ => install_all at_place l (put (at_place d) e f)
      end
  end.
(** calls of shared_library() one after the other, each with its build directory *)
Fixpoint declare_all (sys : system) (at_place : bytes -> place_of) (l : list (bytes * naming_args)) (f : files) : option files :=
  match l with
  | [] => Some f
  | (dir, a) :: l => do r <- target_names sys SharedLib dir a; declare_all sys at_place l (make_links at_place (snd r) f)
  end.
