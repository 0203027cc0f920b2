(** Model of the arguments for all targets: add_project_arguments() and the like (src/functions/kernel.c
    247-427), the names of languages (src/compilers.c 75-107) and the use that is made of them when command
    lines are made (src/backend/common_args.c 339-351, 386-388, 591-601).

    Simplifications: lists are flattened and of strings (C92); what dependencies have to give (dep_process_deps) is
    given as three lists; dictionaries with numbers as keys are lists of keys and values. *)
From Verif Require Import Base.
Local Arguments B _ : simpl never.

(** compilers.c 75-86 compiler_language_names, in the order of the enumeration *)
Definition language_names : list bytes :=
  [B "null"; B "c"; B "c_hdr"; B "cpp"; B "cpp_hdr"; B "c_obj"; B "objc"; B "assembly"; B "llvm_ir"; B "nasm"].
(** compilers.c 95-107 s_to_compiler_language *)
Fixpoint index_of (s : bytes) (l : list bytes) (i : nat) : option nat :=
  match l with [] => None | x :: l => if beqb s x then Some i else index_of s l (S i) end.
Definition language (s : bytes) : option nat := index_of s language_names 0.

Definition dict := list (nat * list bytes).
(** obj_dict_geti, obj_dict_seti *)
Fixpoint geti (d : dict) (i : nat) : option (list bytes) :=
  match d with [] => None | (k, v) :: d => if k =? i then Some v else geti d i end.
(** kernel.c 247-257 get_project_argument_array, and pushing to what it gives *)
Fixpoint push (d : dict) (i : nat) (l : list bytes) : dict :=
  match d with [] => [(i, l)] | (k, v) :: d => if k =? i then (k, v ++ l) :: d else (k, v) :: push d i l end.

(** the dictionaries: for compiling, for linking, include directories *)
Inductive kind := Compile | Link | Include.
Record dicts := { d_compile : dict; d_link : dict; d_include : dict }.
Definition part (k : kind) (d : dicts) : dict := match k with Compile => d_compile d | Link => d_link d | Include => d_include d end.
Definition with_part (k : kind) (x : dict) (d : dicts) : dicts :=
  match k with
  | Compile => {| d_compile := x; d_link := d_link d; d_include := d_include d |}
  | Link => {| d_compile := d_compile d; d_link := x; d_include := d_include d |}
  | Include => {| d_compile := d_compile d; d_link := d_link d; d_include := x |}
  end.
(** wk->global_args and global_link_args; those of each project *)
Record st := { globals : dicts; projects : nat -> dicts }.
Definition no_dicts : dicts := {| d_compile := []; d_link := []; d_include := [] |}.
Definition empty : st := {| globals := no_dicts; projects := fun _ => no_dicts |}.

(** 281-299 add_arguments_iter for each language; the second is whether all went well *)
Fixpoint add_each (d : dict) (args langs : list bytes) : dict * bool :=
  match langs with
  | [] => (d, true)
  | l :: langs => match language l with None => (d, false) | Some i => add_each (push d i args) args langs end
  end.

Definition set_project (p : nat) (d : dicts) (s : st) : st :=
  {| globals := globals s; projects := fun q => if q =? p then d else projects s q |}.

(** 367-398 add_project_dependencies_iter for each language; [declared]: the project has a
    compiler for it (by the number of the language in the code; names and numbers are one to one) *)
Fixpoint add_deps (declared : bytes -> bool) (d : dicts) (c l i : list bytes) (langs : list bytes) : dicts :=
  match langs with
  | [] => d
  | x :: langs => match language x with
                  | None => d
                  | Some n => if declared x
                              then add_deps declared {| d_compile := push (d_compile d) n c; d_link := push (d_link d) n l; d_include := push (d_include d) n i |} c l i langs
                              else d
                  end
  end.

(** the calls: add_project_arguments and add_project_link_arguments, add_global_arguments and
    add_global_link_arguments, add_project_dependencies *)
Inductive op := AddProject (k : kind) (args langs : list bytes) | AddGlobal (k : kind) (args langs : list bytes)
  | AddDeps (compile link include langs : list bytes).

(** 301-359, 400-427: a call by project [p]; that adding dependencies was ended by an error is not looked at (425).
    There are no calls that add include directories alone; the model allows them. *)
Definition step (declared : nat -> bytes -> bool) (p : nat) (o : op) (s : st) : st * bool :=
  match o with
  | AddProject k args langs =>
      let (d, ok) := add_each (part k (projects s p)) args langs in (set_project p (with_part k d (projects s p)) s, ok)
  | AddGlobal k args langs =>
      if negb (p =? 0) then (s, false)
      else let (d, ok) := add_each (part k (globals s)) args langs in ({| globals := with_part k d (globals s); projects := projects s |}, ok)
  | AddDeps c l i langs => (set_project p (add_deps (declared p) (projects s p) c l i langs) s, true)
  end.
(** a history of calls, each by a project; a call that fails ends it *)
Fixpoint run (declared : nat -> bytes -> bool) (s : st) (h : list (nat * op)) : option st :=
  match h with
  | [] => Some s
  | (p, o) :: h => match step declared p o s with (s, true) => run declared s h | _ => None end
  end.

(** common_args.c 339-351, 386-388, 591-601: what is added to the command lines of a project *)
Definition words (s : st) (p : nat) (k : kind) (l : bytes) : option (list bytes) :=
  match language l with
  | None => None
  | Some i => let get d := match geti d i with Some v => v | None => [] end in
              Some (get (part k (globals s)) ++ get (part k (projects s p)))
  end.
