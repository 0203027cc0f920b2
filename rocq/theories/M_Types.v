(** Type checking: src/lang/typecheck.c, include/lang/typecheck.h, and the arguments of functions:
    src/functions/common.c 68-707.

    The values of the analyser (typeinfo objects, src/lang/analyze.c) are not modelled, and the
    interpreter is not analysing (analyze_function_opts is zero). *)
From Coq Require Import NArith.
From Verif Require Import Base.
Local Open Scope N_scope.

(** enum obj_type, include/lang/object.h 30-75: the numbers of the types. *)
Definition k_disabler : N := 2.
Definition k_file : N := 5.
Definition k_string : N := 8.
Definition k_array : N := 9.
Definition k_dict : N := 10.
Definition k_func : N := 32.
Definition obj_type_count : N := 34.

(** Objects: the null object (nothing returned), the disabler, arrays, dictionaries, and all others
    with their type and a number. *)
Inductive obj := ONull | ODisabler | OArray (l : list obj) | ODict (l : list (bytes * obj)) | OOther (k : N) (id : nat).
Definition get_obj_type (o : obj) : N :=
  match o with
  | ONull => 0 | ODisabler => k_disabler | OArray _ => k_array | ODict _ => k_dict | OOther k _ => k
  end.

(** Type tags, include/lang/typecheck.h 18-27, are 64-bit numbers. *)
Definition ALLOW_VOID : N := 2 ^ 59.
Definition COMPLEX : N := 2 ^ 60.
Definition GLOB : N := 2 ^ 61.
Definition LISTIFY : N := 2 ^ 62.
Definition TAG : N := 2 ^ 63.
Definition MASK : N := N.lor ALLOW_VOID (N.lor COMPLEX (N.lor GLOB (N.lor LISTIFY TAG))).
Definition has (t m : N) : bool := negb (N.land t m =? 0).        (* t & m *)
Definition has_all (t m : N) : bool := N.land t m =? m.          (* (t & m) == m *)

(** tc_array etc., include/lang/typecheck.h 42-74. *)
Definition tc (k : N) : N := N.lor TAG (2 ^ (k - 1)).
Definition tc_type_count : N := 32.
(** tc_any, include/lang/typecheck.h 76-84: all 32 bits. *)
Definition tc_any : N := N.lor TAG (2 ^ 32 - 1).

(** obj_type_to_tc_type, src/lang/typecheck.c 12-21. *)
Definition obj_type_to_tc_type (k : N) : N := if k =? 0 then TAG else tc k.

(** struct obj_typeinfo and make_complex_type, src/lang/typecheck.c 23-30; COMPLEX_TYPE etc.,
    include/lang/typecheck.h 38-40. *)
Definition table := list (N * N).
Definition ct_or : N := 0.
Definition ct_nested : N := 1.
Definition complex_type (idx ct : N) : N := N.lor idx (N.lor (N.shiftl ct 48) (N.lor COMPLEX TAG)).
Definition make_complex_type (tb : table) (ct : N) (ty sub : N) : N * table :=
  (complex_type (N.of_nat (length tb)) ct, tb ++ [(ty, sub)]).
Definition complex_index (t : N) : N := N.land t (2 ^ 32 - 1).
Definition complex_type_type (t : N) : N := N.land (N.shiftr t 48) 255.

(** [Abort]: a failed assertion or an internal error. *)
Inductive res := Yes | No | Abort | NoFuel.
(** obj_array_foreach and obj_dict_foreach: the elements until one is rejected. *)
Fixpoint all_yes (l : list res) : res :=
  match l with [] => Yes | Yes :: l => all_yes l | r :: _ => r end.

(** typecheck_complex_type, src/lang/typecheck.c 252-312. *)
Definition typecheck_simple (got type : N) : res :=
  let got := N.ldiff got TAG in
  if (got =? 0) && (has type ALLOW_VOID || (N.ldiff type MASK =? 0)) then Yes
  else if (got =? 0) && (type =? tc k_func) then Abort
  else
    let type := N.ldiff (N.lor type (tc k_disabler)) (N.lor TAG ALLOW_VOID) in
    if has got MASK || has type MASK then Abort
    else if ((got =? 0) && (type =? 0)) || has got type then Yes else No.
Fixpoint typecheck_complex (fuel : nat) (tb : table) (o : obj) (got type : N) : res :=
  match fuel with
  | O => NoFuel
  | S fuel =>
      if negb (has type COMPLEX) then typecheck_simple got type
      else match nth_error tb (N.to_nat (complex_index type)) with
           | None => Abort
           | Some (t, sub) =>
               if complex_type_type type =? ct_or then
                 match typecheck_complex fuel tb o got t with
                 | No => typecheck_complex fuel tb o got sub
                 | r => r
                 end
               else
                 match typecheck_complex fuel tb o got t with
                 | Yes =>
                     let elem (x : obj) := typecheck_complex fuel tb x (obj_type_to_tc_type (get_obj_type x)) sub in
                     if t =? tc k_array then match o with OArray l => all_yes (map elem l) | _ => Abort end
                     else if t =? tc k_dict then match o with ODict l => all_yes (map (fun kv => elem (snd kv)) l) | _ => Abort end
                     else Abort
                 | r => r
                 end
           end
  end.
(** typecheck_custom, src/lang/typecheck.c 314-342, and typecheck. *)
Definition typecheck (fuel : nat) (tb : table) (o : obj) (type : N) : res :=
  typecheck_complex fuel tb o (obj_type_to_tc_type (get_obj_type o))
    (if negb (has type TAG) then obj_type_to_tc_type type else type).

(** tc_exe, include/lang/typecheck.h 86-87. *)
Definition tc_exe : N := fold_left N.lor (map tc [8; 5; 16; 17; 12; 13; 29]) TAG.

(** The types of a signature: parse_type, src/lang/parser.c 373-445, after the tokens, and
    s_to_type_tag, src/lang/object.c 367-393.  [SName] is the name of one type (0 is void), and [SOr]
    the use of |.  The tables of the builtin functions are built from the same tags (| is then bitwise);
    [SAnyVoid] occurs only there (src/functions/kernel.c 1930, 2018, 2035). *)
Inductive syntax :=
| SName (k : N) | SAny | SExe | SAnyVoid | SList (t : syntax) | SDict (t : syntax) | SOr (a b : syntax).
Fixpoint parse_type (s : syntax) (tb : table) : N * table :=
  match s with
  | SName k => (obj_type_to_tc_type k, tb)
  | SAny => (tc_any, tb)
  | SExe => (tc_exe, tb)
  | SAnyVoid => (N.lor tc_any ALLOW_VOID, tb)
  | SList s => let '(t, tb) := parse_type s tb in make_complex_type tb ct_nested (tc k_array) t
  | SDict s => let '(t, tb) := parse_type s tb in make_complex_type tb ct_nested (tc k_dict) t
  | SOr a b =>
      let '(t, tb) := parse_type a tb in
      let '(u, tb) := parse_type b tb in
      if has u COMPLEX || has t COMPLEX then make_complex_type tb ct_or t u else (N.lor t u, tb)
  end.
(** The type of a parameter, parse_type at the top level: listify[..] and glob[..], possibly followed
    by | and another type. *)
Inductive top := TPlain (s : syntax) | TListify (s : syntax) | TGlob (s : syntax) | TListifyOr (s u : syntax).
Definition parse_top (p : top) (tb : table) : N * table :=
  match p with
  | TPlain s => parse_type s tb
  | TListify s => let '(t, tb) := parse_type s tb in (N.lor LISTIFY t, tb)
  | TGlob s => let '(t, tb) := parse_type s tb in (N.lor GLOB t, tb)
  | TListifyOr s u =>
      let '(t, tb) := parse_type s tb in
      let t := N.lor LISTIFY t in
      let '(u, tb) := parse_type u tb in
      if has u COMPLEX || has t COMPLEX then make_complex_type tb ct_or t u else (N.lor t u, tb)
  end.

(** ** Arguments *)
(** obj_array_foreach_flat, src/lang/object.c 527-563. *)
Fixpoint flat (o : obj) : list obj :=
  match o with
  | OArray l => (fix go (l : list obj) : list obj := match l with [] => [] | x :: l => flat x ++ go l end) l
  | _ => [o]
  end.
Definition is_disabler (o : obj) : bool := match o with ODisabler => true | _ => false end.

(** How the processing of arguments ends: [RDisabled] with disabler_among_args set. *)
Inductive outcome (A : Type) := ROk (a : A) | RErr | RDisabled | RAbort | RNoFuel.
Arguments ROk {A} _. Arguments RErr {A}. Arguments RDisabled {A}. Arguments RAbort {A}. Arguments RNoFuel {A}.
Definition bind {A C} (x : outcome A) (f : A -> outcome C) : outcome C :=
  match x with ROk a => f a | RErr => RErr | RDisabled => RDisabled | RAbort => RAbort | RNoFuel => RNoFuel end.
Definition of_res {A} (r : res) (a : A) : outcome A :=
  match r with Yes => ROk a | No => RErr | Abort => RAbort | NoFuel => RNoFuel end.

Section Args.
Variable fuel : nat.
Variable tb : table.
(** disabler_among_args_immunity *)
Variable immune : bool.

(** typecheck_function_arg, src/functions/common.c 303-370; the result is the new value. *)
Definition typecheck_function_arg (v : obj) (type : N) : outcome obj :=
  if negb immune && match v with
                    | ODisabler => true
                    | OArray _ => existsb is_disabler (flat v)
                    | _ => false
                    end
  then RDisabled
  else
    let array_of := has type LISTIFY in
    let type := N.ldiff type LISTIFY in
    if negb (has type TAG || (type <? obj_type_count)) then RAbort
    else if negb array_of then
      let v :=
        if (type =? k_file) || has_all type (tc k_file) then
          match v with
          | OArray [x] => if get_obj_type x =? k_file then x else v
          | _ => v
          end
        else v in
      of_res (typecheck fuel tb v type) v
    else
      match v with
      | OArray _ => of_res (all_yes (map (fun x => typecheck fuel tb x type) (flat v))) (OArray (flat v))
      | _ => of_res (typecheck fuel tb v type) (OArray [v])
      end.

(** An argument of a call: its keyword, if it has one, and its value, if it can be evaluated
    (interp_args_interp_node, src/functions/common.c 70-82; what the evaluation does is not
    modelled). *)
Definition arg := (option bytes * option obj)%type.
Definition eval_arg (v : option obj) : outcome obj := match v with Some v => ROk v | None => RErr end.

(** The parameters of a function. *)
Record kwarg := mkKw { key : bytes; ktype : N; required : bool; kval : option obj }.

(** process_kwarg, src/functions/common.c 374-401. *)
Fixpoint find_kw (l : list kwarg) (kw : bytes) (i : nat) : option (nat * kwarg) :=
  match l with
  | [] => None
  | k :: l => if beqb kw (key k) then Some (i, k) else find_kw l kw (S i)
  end.
Definition process_kwarg (l : list kwarg) (kw : bytes) (v : obj) : outcome (list kwarg) :=
  match find_kw l kw 0 with
  | None => RErr
  | Some (i, k) =>
      bind (typecheck_function_arg v (ktype k)) (fun v =>
        match kval k with
        | Some _ => RErr
        | None => ROk (upd i (mkKw (key k) (ktype k) (required k) (Some v)) l)
        end)
  end.
Fixpoint process_kwarg_dict (l : list kwarg) (d : list (bytes * obj)) : outcome (list kwarg) :=
  match d with
  | [] => ROk l
  | (k, v) :: d => bind (process_kwarg l k v) (fun l => process_kwarg_dict l d)
  end.
(** interp_args, src/functions/common.c 587-637: the keyword arguments; [l] is NULL or the table. *)
Fixpoint kwargs_loop (l : list kwarg) (args : list arg) : outcome (list kwarg) :=
  match args with
  | [] => ROk l
  | (None, _) :: _ => RErr
  | (Some kw, v) :: args =>
      bind (eval_arg v) (fun v =>
      bind (if beqb kw (B "kwargs") then
              match typecheck fuel tb v k_dict with
              | Yes => match v with ODict d => process_kwarg_dict l d | _ => RAbort end
              | r => of_res r l
              end
            else process_kwarg l kw v) (fun l => kwargs_loop l args))
  end.
(** 588, 625-633 and 636-645: all arguments are used up, all required keywords are there. *)
Definition kwargs_end (kws : option (list kwarg)) (args : list arg) : outcome (list kwarg) :=
  match kws with
  | Some l =>
      bind (kwargs_loop l args) (fun l =>
        if existsb (fun k => required k && match kval k with None => true | _ => false end) l then RErr else ROk l)
  | None => match args with [] => ROk [] | _ => RErr end
  end.

(** The loop of a glob argument, src/functions/common.c 512-556; [acc] are the values so far. *)
Fixpoint glob_loop (type : N) (args : list arg) (acc : list obj) : outcome (list obj * list arg) :=
  match args with
  | [] => ROk (acc, [])
  | (Some _, _) :: _ => ROk (acc, args)
  | (None, v) :: args =>
      bind (eval_arg v) (fun v =>
        if (get_obj_type v =? k_array) && negb ((type =? tc_any) || (type =? k_array) || has_all type (tc k_array)) then
          bind (typecheck_function_arg v (N.lor LISTIFY type)) (fun v =>
            match v with OArray l => glob_loop type args (acc ++ l) | _ => RAbort end)
        else
          bind (typecheck_function_arg v type) (fun v => glob_loop type args (acc ++ [v])))
  end.
(** The required positional arguments, src/functions/common.c 489-583 with stage 0. *)
Fixpoint positional_loop (types : list N) (args : list arg) (acc : list obj) : outcome (list obj * list arg) :=
  match types with
  | [] => ROk (acc, args)
  | type :: types =>
      if has type GLOB then
        match types with
        | _ :: _ => RAbort
        | [] =>
            if has type LISTIFY then RAbort
            else bind (glob_loop (N.ldiff type GLOB) args []) (fun '(l, args) => ROk (acc ++ [OArray l], args))
        end
      else
        match args with
        | [] => RErr
        | (Some _, _) :: _ => RErr
        | (None, v) :: args =>
            bind (eval_arg v) (fun v =>
            bind (typecheck_function_arg v type) (fun v => positional_loop types args (acc ++ [v])))
        end
  end.
(** The optional ones, with stage 1. *)
Fixpoint optional_loop (types : list N) (args : list arg) (acc : list (option obj)) : outcome (list (option obj) * list arg) :=
  match types with
  | [] => ROk (acc, args)
  | type :: types =>
      if has type GLOB then RAbort
      else
        match args with
        | [] => ROk (acc ++ map (fun _ => None) (type :: types), [])
        | (Some _, _) :: _ => ROk (acc ++ map (fun _ => None) (type :: types), args)
        | (None, v) :: args =>
            bind (eval_arg v) (fun v =>
            bind (typecheck_function_arg v type) (fun v => optional_loop types args (acc ++ [Some v])))
        end
  end.
(** interp_args, src/functions/common.c 471-707.  [opts] and [kws] may be NULL. *)
Definition interp_args (pos : list N) (opts : option (list N)) (kws : option (list kwarg)) (args : list arg)
  : outcome (list obj * list (option obj) * list kwarg) :=
  if match opts with Some _ => existsb (fun t => has t GLOB) pos | None => false end then RAbort
  else
  bind (positional_loop pos args []) (fun '(p, args) =>
  bind (optional_loop match opts with Some l => l | None => [] end args []) (fun '(o, args) =>
  bind (kwargs_end kws args) (fun k => ROk (p, o, k)))).
End Args.
