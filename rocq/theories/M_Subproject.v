(** Model of subproject() (src/functions/kernel/subproject.c 18-207), of the objects it returns
    (src/functions/subproject.c 14-66) and of the configuring of projects in projects
    (src/lang/eval.c 25-78).

    Simplifications: a project is what its meson.build does: the calls of subproject(), one after
    the other, whether the rest of it succeeds, and its version and variables at its end; what is
    in the file system and what becomes of wrap files (C142-C144) does not change; default options,
    build directories and messages are left out. *)
From Verif Require Import Base M_Path M_Version M_Feature.
Local Arguments B _ : simpl never.

Record call := { c_name : bytes; c_required : option kwarg; c_version : option (list bytes) }.
Record proj := { p_version : bytes; p_subdir : bytes;     (* subproject_dir of project() *)
                 p_calls : list call; p_ok : bool; p_vars : list (bytes * bytes) }.
Record world := {
  is_dir : bytes -> bool; is_file : bytes -> bool;
  wrapped : bytes -> option (option bytes);   (* wrap_handle of a wrap file: [None] if it fails, else the field directory *)
  build : bytes -> proj                       (* the meson.build of a directory *)
}.
(** struct obj_subproject that is found: its directory (for the id) and its variables *)
Record sub := { s_dir : bytes; s_vars : list (bytes * bytes) }.
(** wk->subprojects, the first counts; the directories whose meson.build was evaluated, in order *)
Record st := { subs : list (bytes * sub); entered : list bytes }.
(** [Done None] is an object that is not found *)
Inductive out (A : Type) := Done (a : A) | Failed | Diverged.
Arguments Done {A}. Arguments Failed {A}. Arguments Diverged {A}.

Fixpoint look {A} (n : bytes) (l : list (bytes * A)) : option A :=
  match l with [] => None | (k, v) :: l => if beqb n k then Some v else look n l end.

Definition bind {A C} (x : option A) (f : A -> option C) : option C := match x with Some a => f a | None => None end.

(** 18-80 subproject_prepare: the directory, if the subproject is there *)
Definition prepare (w : world) (cwd : bytes) : option bytes :=
  let has_build d := bind (path_join d (B "meson.build")) (fun src => if is_file w src then Some d else None) in
  if is_dir w cwd then has_build cwd
  else let wrap_path := cwd ++ B ".wrap" in
       if is_file w wrap_path
       then match wrapped w wrap_path with
            | None => None
            | Some None => has_build cwd
            | Some (Some dir) => bind (path_dirname cwd) (fun base => bind (path_join base dir) has_build)
            end
       else None.

(** the calls of a project: the first that fails ends it *)
Fixpoint calls (f : st -> call -> st * out (option sub)) (s : st) (l : list call) : st * out bool :=
  match l with
  | [] => (s, Done true)
  | c :: l => match f s c with
              | (s, Done _) => calls f s l
              | (s, Failed) => (s, Done false)
              | (s, Diverged) => (s, Diverged)
              end
  end.

(** 82-177 subproject, for a project in [root] with its directory of subprojects; eval.c 26-78 *)
Fixpoint subproject (fuel : nat) (w : world) (g : option state) (root subdir : bytes) (s : st) (c : call) : st * out (option sub) :=
  match fuel with
  | O => (s, Diverged)
  | S fuel =>
      match coerce_requirement g (c_required c) with
      | None => (s, Failed)
      | Some req =>
          let missing := match req with RRequired => Failed | _ => Done None end in
          match look (c_name c) (subs s) with
          | Some x => (s, Done (Some x))                                       (* 87-89 *)
          | None =>
              match req with
              | RSkip => (s, Done None)                                        (* 91-94 *)
              | _ =>
                  match bind (path_join root subdir) (fun d => bind (path_push d (c_name c)) (prepare w)) with
                  | None => (s, missing)                                       (* 115-122 *)
                  | Some dir =>
                      let p := build w dir in
                      match calls (subproject fuel w g dir (p_subdir p)) {| subs := subs s; entered := entered s ++ [dir] |} (p_calls p) with
                      | (s, Diverged) => (s, Diverged)
                      | (s, Done true) =>
                          let good := match c_version c with
                                      | None => true
                                      | Some reqs => match version_compare (p_version p) reqs with
                                                     | None => false
                                                     | Some b => b || match req with RRequired => false | _ => true end   (* 145-152 *)
                                                     end
                                      end in
                          if p_ok p && good
                          then let x := {| s_dir := dir; s_vars := p_vars p |} in
                               ({| subs := (c_name c, x) :: subs s; entered := entered s |}, Done (Some x))
                          else (s, missing)
                      | (s, _) => (s, missing)
                      end
                  end
              end
          end
      end
  end.

(** functions/subproject.c 14-51 subproject.get_variable(), with its fallback: [None] is an error *)
Definition get_variable (x : option sub) (name : bytes) (fallback : option bytes) : option bytes :=
  match x with
  | None => None
  | Some x => match look name (s_vars x) with Some v => Some v | None => fallback end
  end.
(** 53-64 subproject.found() *)
Definition found (x : option sub) : bool := match x with Some _ => true | None => false end.
