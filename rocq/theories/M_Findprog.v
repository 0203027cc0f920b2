(** Model of find_program() (src/functions/kernel.c 475-812), of looking for commands
    (src/platform/posix/filesystem.c 363-412) and of guessing versions (src/guess.c 13-47).

    Simplifications: what exists and what programs say of their version is given by a [world] and
    does not change; the overrides that a subproject makes are those it makes itself; a subproject
    never makes its directory fail; native: and messages are left out. *)
From Verif Require Import Base M_Path M_Version M_Feature.
Local Arguments B _ : simpl never.

(** what meson.override_find_program() was given: a program (found or not), an installation of
    python, a file or a target with the version of its project (src/functions/meson.c 280-316) *)
Inductive given := GProgram (found : bool) (cmd : list bytes) | GPython (cmd : list bytes)
  | GFile (path : bytes) (version : option bytes) | GTarget (name : bytes) (version : option bytes).

(** the object that find_program() returns *)
Inductive program := Command (cmd : list bytes) | Target (name : bytes).

Inductive mode := Nofallback | Forcefallback | Othermode.
Record world := {
  is_file : bytes -> bool;                     (* fs_file_exists *)
  is_exe : bytes -> bool;                      (* fs_exe_exists *)
  env_path : option bytes;                     (* PATH *)
  source_dir : bytes;                          (* current_project(wk)->cwd *)
  started_in : bytes;                          (* the directory of the process *)
  version_of : list bytes -> option bytes;     (* what a command says of its version *)
  provided : list (bytes * bytes);             (* wrap_provides_exes: program, subproject *)
  sub_overrides : bytes -> list (bytes * given);   (* what a subproject overrides *)
  wrap_mode : mode;
  samurai : bool; argv0 : bytes
}.
(** overrides, the first counts; subprojects that were configured, in order *)
Record st := { overrides : list (bytes * given); configured : list bytes }.

Inductive out (A : Type) := Ok (a : A) | Err | Crash.
Arguments Ok {A}. Arguments Err {A}. Arguments Crash {A}.

Fixpoint look {A} (n : bytes) (l : list (bytes * A)) : option A :=
  match l with [] => None | (k, v) :: l => if beqb n k then Some v else look n l end.

(** the positional argument: a string, or a file by its path *)
Inductive name := Str (n : bytes) | File (path : bytes).
Definition text (n : name) : bytes := match n with Str s => s | File p => p end.

(** filesystem.c 363-412 fs_find_cmd *)
Fixpoint find_dir (w : world) (n : bytes) (dirs : list bytes) : out (option bytes) :=
  match dirs with
  | [] => Ok None
  | d :: dirs => match path_push d n with
                 | None => Crash
                 | Some p => if is_exe w p then Ok (Some p) else find_dir w n dirs
                 end
  end.
Definition find_cmd (w : world) (n : bytes) : out (option bytes) :=
  if beqb n [] then Crash
  else if negb (path_is_basename n)
  then match path_make_absolute (started_in w) n with
       | None => Crash
       | Some p => Ok (if is_exe w p then Some p else None)
       end
  else match env_path w with
       | None => Ok None
       | Some e => find_dir w n (split_on ":"%char e)
       end.

Section CALL.
Variable w : world.
Variable req : requirement.
Variable versions : option (list bytes).
Variable dirs : list bytes.

(** 538-544: whether a version that is known is what was asked for *)
Definition good (over : option bytes) : out bool :=
  match versions, over with
  | Some reqs, Some v => match version_compare v reqs with Some b => Ok b | None => Err end
  | _, _ => Ok true
  end.

(** 505-560 find_program_check_override *)
Definition check_override (s : st) (n : bytes) : out (option program) :=
  let accept over p := match good over with
                       | Ok true => Ok (Some p) | Ok false => Ok None | Err => Err | Crash => Crash
                       end in
  match look n (overrides s) with
  | None => Ok None
  | Some (GFile p v) => accept v (Command [p])
  | Some (GTarget t v) => accept v (Target t)
  | Some (GPython _) => Crash
  | Some (GProgram false _) => Ok None
  | Some (GProgram true cmd) =>
      accept (match versions with Some _ => version_of w cmd | None => None end) (Command cmd)
  end.

(** functions/kernel/subproject.c 83-169 with requirement_auto *)
Definition configure (s : st) (sub : bytes) : st :=
  if existsb (beqb sub) (configured s) then s
  else {| overrides := sub_overrides w sub ++ overrides s; configured := configured s ++ [sub] |}.

(** 561-587 find_program_check_fallback *)
Definition check_fallback (s : st) (n : bytes) : st * out (option program) :=
  match look n (provided w) with
  | None => (s, Ok None)
  | Some sub => let s := configure s sub in (s, check_override s n)
  end.

(** 492-503 find_program_custom_dir_iter *)
Fixpoint custom_dir (n : bytes) (ds : list bytes) : out (option bytes) :=
  match ds with
  | [] => Ok None
  | d :: ds => match path_join d n with
               | None => Crash
               | Some p => if is_file w p then Ok (Some p) else custom_dir n ds
               end
  end.

(** 647-665 the places in the file system *)
Definition find_file (n : bytes) : out (option bytes) :=
  match custom_dir n dirs with
  | Ok None => match path_join (source_dir w) n with
               | None => Crash
               | Some p => if is_file w p then Ok (Some p) else find_cmd w n
               end
  | r => r
  end.

(** 698-726: a file that was found *)
Definition found_file (p : bytes) : out (option program) :=
  match versions with
  | None => Ok (Some (Command [p]))
  | Some reqs => match version_of w [p] with
                 | None => Ok None
                 | Some v => match version_compare v reqs with
                             | None => Err
                             | Some true => Ok (Some (Command [p]))
                             | Some false => Ok None
                             end
                 end
  end.

Definition orelse (r : st * out (option program)) (k : st -> st * out (option program)) : st * out (option program) :=
  match r with (s, Ok None) => k s | _ => r end.

(** 589-728 find_program *)
Definition find_program (s : st) (nm : name) : st * out (option program) :=
  let n := text nm in
  let string_only r := match nm with Str _ => r | File _ => (s, Ok None) end in
  orelse (string_only (s, check_override s n)) (fun s =>
  orelse (match nm, wrap_mode w with
          | Str _, Forcefallback => check_fallback s n
          | _, _ => (s, Ok None)
          end) (fun s =>
  match find_file n with
  | Crash => (s, Crash)
  | Err => (s, Err)
  | Ok (Some p) => (s, found_file p)
  | Ok None =>
      orelse (match nm, wrap_mode w, req with
              | Str _, Nofallback, _ => (s, Ok None)
              | Str _, _, RRequired => check_fallback s n
              | _, _, _ => (s, Ok None)
              end) (fun s =>
      match nm with
      | Str _ => if samurai w && (beqb n (B "ninja") || beqb n (B "samu"))
                 then (s, Ok (Some (Command [argv0 w; B "samu"]))) else (s, Ok None)
      | File _ => (s, Ok None)
      end)
  end)).

(** 730-740 find_program_iter, for each name *)
Fixpoint find_names (s : st) (ns : list name) : st * out (option program) :=
  match ns with
  | [] => (s, Ok None)
  | n :: ns => orelse (find_program s n) (fun s => find_names s ns)
  end.
End CALL.

(** the value of the call *)
Inductive value := Found (p : program) | Notfound | Disabler.

(** 742-812 func_find_program; that the search was ended by an error is not looked at (797) *)
Definition func_find_program (w : world) (g : option state) (required : option kwarg) (disabler : bool)
    (versions : option (list bytes)) (dirs : list bytes) (s : st) (ns : list name) : st * out value :=
  let none := if disabler then Disabler else Notfound in
  match coerce_requirement g required with
  | None => (s, Err)
  | Some RSkip => (s, Ok none)
  | Some req =>
      match find_names w req versions dirs s ns with
      | (s, Crash) => (s, Crash)
      | (s, Ok (Some p)) => (s, Ok (Found p))
      | (s, _) => (s, match req with RRequired => Err | _ => Ok none end)
      end
  end.

(** meson.c 280-316 func_meson_override_find_program *)
Definition override_find_program (n : bytes) (x : given) (s : st) : st :=
  {| overrides := (n, x) :: overrides s; configured := configured s |}.

(** guess.c 13-47 guess_version: the number of dots and the text of the best so far *)
Definition vchar (c : ascii) : bool := is_digit c || ceqb c "."%char.
Fixpoint span_v (s : bytes) : bytes * bytes :=
  match s with
  | [] => ([], [])
  | c :: t => if vchar c then let (a, b) := span_v t in (c :: a, b) else ([], s)
  end.
Definition dots (s : bytes) : nat := length (filter (fun c => ceqb c "."%char) s).
Fixpoint guess_from (fuel : nat) (s : bytes) (best : option bytes) (n : nat) : option bytes :=
  match fuel, s with
  | S fuel, c :: t =>
      match span_v s with
      | ([], _) => guess_from fuel t best n
      | (r, rest) => if n <? dots r then guess_from fuel rest (Some r) (dots r) else guess_from fuel rest best n
      end
  | _, _ => best
  end.
Definition guess_version (s : bytes) : option bytes := guess_from (S (length s)) s None 0.
