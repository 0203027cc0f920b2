(** Model of src/install.c (install_mode) and src/cmd_install.c (muon install). *)
From Verif Require Import Base M_Path.
From Coq Require Import NArith.
Local Open Scope N_scope.

(** ** install.c 21-80 rwx_to_perm *)
(** install.c 35-68: what one character does at position [i]: [None] is [return false], otherwise
    the bits or-ed into [*perm] in the switch. S_ISVTX = 01000, S_ISUID = 04000, S_ISGID = 02000. *)
Definition rwx_special (i : nat) (c : ascii) : option N :=
  if ceqb c "-" then Some 0
  else if ceqb c "t" || ceqb c "T" then if Nat.eqb i 8 then Some 512 else None
  else if ceqb c "s" || ceqb c "S" then
    if Nat.eqb i 2 then Some 2048 else if Nat.eqb i 5 then Some 1024 else None
  else if ceqb c "r" then if Nat.eqb i 0 || Nat.eqb i 3 || Nat.eqb i 6 then Some 0 else None
  else if ceqb c "w" then if Nat.eqb i 1 || Nat.eqb i 4 || Nat.eqb i 7 then Some 0 else None
  else if ceqb c "x" then if Nat.eqb i 2 || Nat.eqb i 5 || Nat.eqb i 8 then Some 0 else None
  else None.
(** install.c 69-71 *)
Definition rwx_bit (c : ascii) (bit : N) : N :=
  if ceqb c "-" || ceqb c "S" || ceqb c "T" then 0 else bit.
(** install.c 33-72: the loop; [bit] is shifted right once per character *)
Fixpoint rwx_loop (i : nat) (bit perm : N) (s : bytes) : option N :=
  match s with
  | [] => Some perm
  | c :: s' => match rwx_special i c with
               | None => None
               | Some b => rwx_loop (S i) (N.shiftr bit 1) (N.lor (N.lor perm b) (rwx_bit c bit)) s'
               end
  end.
(** install.c 21-80; the string is a C string (no NUL byte inside); [*perm] starts at 0 because
    make_obj clears new objects *)
Definition rwx_to_perm (s : bytes) : option N :=
  if Nat.eqb (length s) 9 then rwx_loop 0 256 0 s else None.

(** ** install.c 82-137 push_install_target, the treatment of install_mode *)
Inductive res (A : Type) := ROk (a : A) | RErr | RCrash.
Arguments ROk {A}. Arguments RErr {A}. Arguments RCrash {A}.
(** the element of install_mode looked at: a boolean, a string, or another type *)
Inductive mode_elem := MBool (b : bool) | MStr (s : bytes) | MOther.
(** install.c 90-117; [None] as a mode is install_mode not given; the result is [has_perm]/[perm].
    [obj_array_index] asserts that the index is in range (object.c 661). *)
Definition install_mode (mode : option (list mode_elem)) : res (option N) :=
  match mode with
  | None => ROk None
  | Some l =>
      if Nat.ltb 3 (length l) then RErr                              (* 93-96 *)
      else match l with
           | [] => RCrash                                            (* 103: assert fails *)
           | MBool _ :: _ => ROk None                                (* 105-107 *)
           | MStr s :: _ => match rwx_to_perm s with
                            | Some p => ROk (Some p)
                            | None => RErr
                            end                                      (* 108-114 *)
           | MOther :: _ => RErr                                     (* 115-116 *)
           end
  end.

(** ** cmd_install.c: muon install *)
(** File system and process actions; each is attempted, and succeeds or fails. *)
Inductive op :=
| MkdirP (p : bytes) | Mkdir (p : bytes) | ListDir (p : bytes)
| CopyFile (s d : bytes) | CopyDir (s d : bytes) | FixRpaths (d : bytes)
| Symlink (s d : bytes) | Chmod (d : bytes) (m : N)
| RunScript (cmd : list bytes) (env : list (bytes * bytes)).
Definition log := list (op * bool).
(** What lies below a directory that is installed with install_subdir. Simplification: directory
    contents are a finite tree that installing does not change. *)
Inductive tree := TFile | TDir (entries : list (bytes * tree)) | TSpecial.
(** The outside world: whether an action succeeds (depending on everything done before), what
    exists, and what source directories contain. *)
Record world := {
  does : log -> op -> bool;
  exists_ : log -> bytes -> bool;
  is_dir : log -> bytes -> bool;
  entries_of : bytes -> list (bytes * tree) }.

(** object.h 380-396 struct obj_install_target *)
Inductive kind := KDefault | KSubdir | KSymlink | KEmptydir.
Record target := { tkind : kind; tsrc : bytes; tdest : bytes; tperm : option N;
                   tbuild : bool; texdirs : list bytes; texfiles : list bytes }.
Record script := { can_dry_run : bool; cmdline : list bytes }.
(** args.h struct install_options *)
Record options := { destdir : option bytes; dry_run : bool }.

Section WORLD.
Variable w : world.

(** ir_cont ([true]) or ir_err ([false]), with the log; [None]: an assertion or an undefined path
    operation *)
Definition act (o : op) (l : log) : bool * log := let b := does w l o in (b, l ++ [(o, b)]).
Definition outcome := option (bool * log).
Definition fail (l : log) : outcome := Some (false, l).
Definition ok (l : log) : outcome := Some (true, l).
(** [if (!op) return ir_err; k] *)
Definition need (o : op) (l : log) (k : log -> outcome) : outcome :=
  let '(b, l') := act o l in if b then k l' else fail l'.
Definition need_ (r : outcome) (k : log -> outcome) : outcome :=
  match r with Some (true, l) => k l | _ => r end.
(** [if (has_perm && !fs_chmod(..)) return ir_err; return ir_cont] : cmd_install.c 94-98, 212-216 *)
Definition finish (d : bytes) (perm : option N) (l : log) : outcome :=
  match perm with
  | None => ok l | Some m => need (Chmod d m) l ok
  end.

(** platform/posix/filesystem.c 246-281 fs_dir_foreach over the entries of one directory: stops at
    the first error *)
Fixpoint each {A} (f : A -> log -> outcome) (xs : list A) (l : log) : outcome :=
  match xs with
  | [] => ok l
  | x :: xs' => need_ (f x l) (each f xs')
  end.

(** cmd_install.c 35-99 copy_subdir_iter; [root], [sbase], [dbase] as in struct copy_subdir_ctx.
    The path operations are those of M_Path. *)
Fixpoint copy_subdir (perm : option N) (exdirs exfiles : list bytes) (root : bytes)
    (name : bytes) (t : tree) (sbase dbase : bytes) (l : log) : outcome :=
  match path_join sbase name, path_join dbase name with
  | Some src, Some dest =>
      match path_relative_to root src with
      | None => None
      | Some rel =>
          match t with
          | TDir es =>                                               (* 47-75 *)
              if existsb (beqb rel) exdirs then ok l
              else
                let below l :=
                  need (ListDir src) l (fun l =>
                    need_ ((fix go es l := match es with
                                           | [] => ok l
                                           | (n, t') :: es' =>
                                               need_ (copy_subdir perm exdirs exfiles root n t' src dest l) (go es')
                                           end) es l)
                          (finish dest perm)) in
                if is_dir w l dest then below l else need (Mkdir dest) l below
          | TFile =>                                                 (* 76-88 *)
              if existsb (beqb rel) exfiles then ok l
              else need (CopyFile src dest) l (finish dest perm)
          | TSpecial => fail l                                       (* 89-92 *)
          end
      end
  | _, _ => None
  end.

(** cmd_install.c 118-123: [dest] below DESTDIR *)
Definition full_dest (dd : option bytes) (d : bytes) : option bytes :=
  match dd with None => Some d | Some dd => path_join_absolute dd d end.

(** cmd_install.c 108-217 install_iter *)
Definition install_iter (o : options) (dd : option bytes) (t : target) (l : log) : outcome :=
  if match tkind t with KSymlink | KEmptydir => false | _ => negb (path_is_absolute (tsrc t)) end
  then None                                                          (* 118 assert *)
  else match full_dest dd (tdest t) with
  | None => None
  | Some dest =>
      if dry_run o then ok l                                         (* 143-145 *)
      else
        let src := tsrc t in
        let into_dir k :=                                            (* 150-159 *)
          match path_dirname dest with
          | None => None
          | Some dir =>
              if exists_ w l dir && negb (is_dir w l dir) then fail l
              else need (MkdirP dir) l k
          end in
        match tkind t with
        | KDefault =>
            into_dir (fun l =>
              let rest l := if tbuild t then need (FixRpaths dest) l (finish dest (tperm t))
                            else finish dest (tperm t) l in          (* 172-176 *)
              if is_dir w l src then need (CopyDir src dest) l rest
              else need (CopyFile src dest) l rest)
        | KSymlink => into_dir (fun l => need (Symlink src dest) l (finish dest (tperm t)))
        | KSubdir =>
            need (MkdirP dest) l (fun l =>
              need (ListDir src) l (fun l =>
                need_ (each (fun e => copy_subdir (tperm t) (texdirs t) (texfiles t) src (fst e) (snd e) src dest)
                            (entries_of w src) l)
                      (finish dest (tperm t))))
        | KEmptydir => need (MkdirP dest) l (finish dest (tperm t))
        end
  end.

(** cmd_install.c 219-270 install_scripts_iter: a script that exits with a status other than 0 or
    cannot be started is one failed [RunScript]. Simplification: the variables added by
    set_default_environment_vars (functions/environment.c) are left out. *)
Definition install_script (o : options) (dd : option bytes) (prefix full_prefix : bytes) (s : script) (l : log) : outcome :=
  let env := (match dd with Some d => [(B "DESTDIR", d)] | None => [] end)
             ++ [(B "MESON_INSTALL_PREFIX", prefix); (B "MESON_INSTALL_DESTDIR_PREFIX", full_prefix)]
             ++ (if dry_run o && can_dry_run s then [(B "MESON_INSTALL_DRY_RUN", B "1")] else []) in
  if dry_run o && negb (can_dry_run s) then ok l
  else need (RunScript (cmdline s) env) l ok.

(** The contents of the install manifest written at configure time. *)
Record manifest := { targets : list target; scripts : list script; prefix : bytes }.
(** How opening and loading it goes: cmd_install.c 280-300. *)
Inductive opened := CannotOpen | CannotLoad | CannotClose | Loaded (m : manifest).

(** cmd_install.c 273-333 install_run; [cwd] is the current directory. Result: the value returned
    and the log. The results of both obj_array_foreach calls are dropped (325-326), and [ret] is
    already [true] at the two [goto ret]. *)
Definition install_run (o : options) (cwd : bytes) (f : opened) : option (bool * log) :=
  match f with
  | CannotOpen => Some (false, [])                                   (* 284-286 *)
  | CannotLoad | CannotClose => Some (true, [])                      (* 292-297 *)
  | Loaded m =>
      let go dd full :=
        match each (install_iter o dd) (targets m) [] with
        | None => None
        | Some (_, l) =>                                             (* 325 *)
            match each (install_script o dd (prefix m) full) (scripts m) l with
            | None => None
            | Some (_, l') => Some (true, l')                        (* 326-328 *)
            end
        end in
      match destdir o with
      | None => go None (prefix m)
      | Some d =>
          match path_make_absolute cwd d with
          | None => None
          | Some abs => match path_join_absolute abs (prefix m) with
                        | None => None
                        | Some full => go (Some abs) full
                        end
          end
      end
  end.
End WORLD.
