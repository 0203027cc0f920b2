(** Environment objects and how they reach a command: src/functions/environment.c, src/coerce.c
    21-122, src/args.c 293-327, src/platform/posix/run_cmd.c 284-307. *)
From Verif Require Import Base.

(** enum environment_set_mode, include/functions/environment.h. *)
Inductive set_mode := Set_ | Append | Prepend.

(** An action is an array of four objects: src/functions/environment.c 20-29, 124-133. *)
Record action := { mode : set_mode; key : bytes; val : bytes; sep : bytes }.

(** A dictionary of strings; obj_dict_set, src/lang/object.c 1246-1330, replaces the value of a
    key that is there and adds the key to the end otherwise. *)
Definition dict := list (bytes * bytes).
Fixpoint dict_index (d : dict) (k : bytes) : option bytes :=
  match d with
  | [] => None
  | (k', v) :: d => if beqb k' k then Some v else dict_index d k
  end.
Fixpoint dict_set (d : dict) (k v : bytes) : dict :=
  match d with
  | [] => [(k, v)]
  | (k', v') :: d => if beqb k' k then (k', v) :: d else (k', v') :: dict_set d k v
  end.

(** What can happen: an error of the build file, or the end of the program. *)
Inductive outcome (A : Type) := Ok (x : A) | Error | Abort.
Arguments Ok {A}. Arguments Error {A}. Arguments Abort {A}.
Definition bind {A B} (o : outcome A) (f : A -> outcome B) : outcome B :=
  match o with Ok x => f x | Error => Error | Abort => Abort end.
Notation "'do' x <- o ; e" := (bind o (fun x => e)) (at level 60, x pattern, right associativity).

(** get_cstr, src/lang/string.c 56-70: a string with a NUL byte ends the program. *)
Definition cstr (s : bytes) : outcome bytes := if mem_char NUL s then Abort else Ok s.

(** The environment a program has inherited; getenv takes a C string. *)
Definition environ := bytes -> option bytes.

(** evironment_to_dict_iter, src/functions/environment.c 18-61. *)
Definition to_dict_iter (env : environ) (d : dict) (a : action) : outcome dict :=
  match mode a with
  | Set_ => Ok (dict_set d (key a) (val a))
  | _ =>
      do old <- match dict_index d (key a) with
                | Some v => do v <- cstr v; Ok (Some v)
                | None => do k <- cstr (key a); Ok (env k)
                end;
      match old with
      | None => Ok (dict_set d (key a) (val a))
      | Some old =>
          do s <- cstr (sep a);
          do v <- cstr (val a);
          Ok (dict_set d (key a)
                match mode a with Append => old ++ s ++ v | _ => v ++ s ++ old end)
      end
  end.

(** environment_to_dict, src/functions/environment.c 63-74, of an environment object. *)
Fixpoint to_dict (env : environ) (d : dict) (l : list action) : outcome dict :=
  match l with
  | [] => Ok d
  | a :: l => do d <- to_dict_iter env d a; to_dict env d l
  end.

(** environment_set, src/functions/environment.c 108-135, with an array of values;
    ENV_PATH_SEP_STR, include/platform/path.h 22. *)
Definition environment_set (acts : list action) (m : set_mode) (k : bytes) (vals : list bytes) (s : option bytes) : list action :=
  let s := match s with Some s => s | None => B ":" end in
  acts ++ [{| mode := m; key := k; val := joinb s vals; sep := s |}].

(** The methods set(), append() and prepend(), src/functions/environment.c 137-178. *)
Record call := { c_mode : set_mode; c_key : bytes; c_vals : list bytes; c_sep : option bytes }.
Definition environment_call (acts : list action) (c : call) : outcome (list action) :=
  if length (c_vals c) =? 0 then Error
  else Ok (environment_set acts (c_mode c) (c_key c) (c_vals c) (c_sep c)).
Fixpoint environment_calls (acts : list action) (l : list call) : outcome (list action) :=
  match l with
  | [] => Ok acts
  | c :: l => do acts <- environment_call acts c; environment_calls acts l
  end.

(** env_to_envstr, src/args.c 293-327: the names and the values, each with a NUL byte after it,
    and their number. *)
Fixpoint envstr (d : dict) : bytes :=
  match d with
  | [] => []
  | (k, v) :: d => k ++ NUL :: v ++ NUL :: envstr d
  end.

(** The C string at the start of a buffer. *)
Fixpoint at_nul (s : bytes) : bytes :=
  match s with
  | [] => []
  | c :: s => if ceqb c NUL then [] else c :: at_nul s
  end.

(** setenv(3): a name that is empty or has a '=' in it is refused. *)
Definition setenv (e : environ) (k v : bytes) : outcome environ :=
  if (length k =? 0) || mem_char "="%char k then Error
  else Ok (fun k' => if beqb k k' then Some v else e k').

(** The loop of run_cmd_internal, src/platform/posix/run_cmd.c 288-306, with [p] the rest of the
    buffer, [k] the place of the current name; [n] is how many pairs are still to be set.  The byte
    after the buffer is NUL (make_str), reading further is [Abort]. *)
Fixpoint set_all (p : bytes) (k : option bytes) (n : nat) (e : environ) : outcome environ :=
  match p with
  | [] => Abort
  | c :: rest =>
      if ceqb c NUL then
        match k with
        | None => set_all rest (Some rest) n e
        | Some k =>
            match rest with
            | [] => Abort
            | _ =>
                do e <- setenv e (at_nul k) (at_nul rest);
                if n <=? 1 then Ok e else set_all rest None (n - 1) e
            end
        end
      else set_all rest k n e
  end.

(** The environment of a command that is run with the environment object [acts],
    src/args.c 312-327, src/platform/posix/run_cmd.c 284-312. *)
Definition child_environ (env : environ) (d : dict) : outcome environ :=
  let s := envstr d ++ [NUL] in
  set_all s (Some s) (length d) env.
Definition run_with (env : environ) (acts : list action) : outcome environ :=
  do d <- to_dict env [] acts; child_environ env d.

(** coerce_environment_iter, src/coerce.c 42-69. *)
Fixpoint split_eql (s : bytes) : option (bytes * bytes) :=
  match s with
  | [] => None
  | c :: s =>
      if ceqb c "="%char then Some ([], s)
      else match split_eql s with Some (k, v) => Some (c :: k, v) | None => None end
  end.
Definition coerce_iter (d : dict) (s : bytes) : outcome dict :=
  if mem_char NUL s then Error
  else match split_eql s with
       | None => Error
       | Some (k, v) => Ok (dict_set d k v)
       end.
Fixpoint coerce_list (d : dict) (l : list bytes) : outcome dict :=
  match l with
  | [] => Ok d
  | s :: l => do d <- coerce_iter d s; coerce_list d l
  end.

(** typecheck_environment_dict_iter, src/coerce.c 71-93. *)
Definition dict_ok (d : dict) : bool :=
  forallb (fun '(k, v) => negb (length k =? 0) && negb (mem_char NUL k) && negb (mem_char NUL v)
                            && negb (mem_char "="%char k)) d.

(** The values of env:, and the objects of a build file that they refer to:
    coerce_environment_from_kwarg, src/coerce.c 21-37, coerce_key_value_dict, 95-122. *)
Inductive object := ODict (d : dict) | OEnv (acts : list action).
Inductive arg := AList (l : list bytes) | ARef (o : nat).

(** environment_or_dict_set, src/functions/environment.c 76-90. *)
Definition or_dict_set (o : object) (k v : bytes) : object :=
  match o with
  | ODict d => ODict (dict_set d k v)
  | OEnv acts => OEnv (environment_set acts Set_ k [v] None)
  end.

(** set_default_environment_vars, src/functions/environment.c 92-106; [defaults] are the names and
    values it sets. *)
Definition set_defaults (defaults : list (bytes * bytes)) (o : object) : object :=
  fold_left (fun o '(k, v) => or_dict_set o k v) defaults o.

(** The result is the number of an object. *)
Definition coerce_environment (defaults : list (bytes * bytes)) (heap : list object) (a : option arg) : outcome (list object * nat) :=
  match a with
  | None => Ok (heap ++ [set_defaults defaults (ODict [])], length heap)
  | Some (AList l) =>
      do d <- coerce_list [] l;
      Ok (heap ++ [set_defaults defaults (ODict d)], length heap)
  | Some (ARef i) =>
      match nth_error heap i with
      | None => Abort
      | Some (OEnv acts) => Ok (upd i (set_defaults defaults (OEnv acts)) heap, i)
      | Some (ODict d) =>
          if dict_ok d then Ok (upd i (set_defaults defaults (ODict d)) heap, i) else Error
      end
  end.
