(** Model of the interpreter's core: src/lang/interpreter.c, the calling convention of
    src/functions/common.c, obj_equal (src/lang/object.c 395-491) and the kernel functions about
    variables, disablers and ranges (src/functions/kernel.c).

    Simplifications.  Arrays and dictionaries are lists; that the code's linked cells and tables
    behave as lists is C36 and C37.  Scopes and scope stacks have stores of their own: they are
    dictionary and array objects too, but no value of the language refers to them.  A literal
    makes a new object instead of reusing the one in the syntax tree; scalars are never changed.
    Keys of dictionaries are strings, and iterating makes a new string object for each.  Functions
    take positional arguments of any type only.  Methods and kernel functions other than the ones
    below are parameters ([other], [method]): they may make new objects and return one, or fail.
    A function's result is declared to be of any type, or not declared (then it must return
    nothing).  Chains of calls and indices are nested expressions.  The analyzer, the debugger, subdir_done and f-strings are left out. *)
From Verif Require Import Base M_Path M_Format M_Formats.

Inductive arith := ArAdd | ArSub | ArMod | ArMul | ArDiv.
Inductive cmp := CEq | CNe | CIn | CNotIn | CLt | CLe | CGt | CGe.
Inductive expr :=
| ENum (n : Z) | EStr (s : bytes) | EBool (b : bool) | EVar (x : bytes)
| EArr (es : list expr) | EDict (kvs : list (expr * expr))
| ENot (e : expr) | EAnd (a b : expr) | EOr (a b : expr) | ECmp (op : cmp) (a b : expr)
| ETernary (c a b : expr) | ENeg (e : expr) | EArith (op : arith) (a b : expr)
| EIndex (a i : expr) | ECall (f : bytes) (args : list expr) | EMethod (e : expr) (m : bytes) (args : list expr).
(** an elseif is an if inside the else block *)
Inductive stmt :=
| SExpr (e : expr) | SAssign (x : bytes) (e : expr) | SPlusAssign (x : bytes) (e : expr)
| SIf (c : expr) (t f : list stmt)
| SForeach (x : bytes) (e : expr) (body : list stmt)
| SForeach2 (k v : bytes) (e : expr) (body : list stmt)
| SBreak | SContinue | SReturn (e : expr)
| SFunc (f : bytes) (params : list bytes) (result : bool) (body : list stmt).

Inductive obj :=
| ONull | ODisabler | OBool (b : bool) | ONum (n : Z) | OStr (s : bytes)
| OArr (l : list nat) | ODict (l : list (bytes * nat))
| OFunc (params : list bytes) (result : bool) (body : list stmt) (stack : nat).

Inductive loop_ctl := loop_norm | loop_breaking | loop_continuing.
Definition env := list (bytes * nat).

Record state := mkState {
  heap : list obj;                 (* the objects, by id *)
  scopes : list env;               (* the scope dictionaries *)
  stacks : list (list nat);        (* the scope stacks, outermost scope first *)
  cur : nat;                       (* current_project(wk)->scope_stack *)
  ctl : loop_ctl;                  (* wk->loop_ctl *)
  returning : bool; returned : nat;
  among : bool;                    (* common.c disabler_among_args *)
  an : list (bool * nat)           (* common.c 796 static an[64]: is the type ARG_TYPE_NULL, and val *)
}.
Definition with_heap h s := mkState h (scopes s) (stacks s) (cur s) (ctl s) (returning s) (returned s) (among s) (an s).
Definition with_scopes e s := mkState (heap s) e (stacks s) (cur s) (ctl s) (returning s) (returned s) (among s) (an s).
Definition with_stacks e s := mkState (heap s) (scopes s) e (cur s) (ctl s) (returning s) (returned s) (among s) (an s).
Definition with_cur c s := mkState (heap s) (scopes s) (stacks s) c (ctl s) (returning s) (returned s) (among s) (an s).
Definition with_ctl c s := mkState (heap s) (scopes s) (stacks s) (cur s) c (returning s) (returned s) (among s) (an s).
Definition with_return b r s := mkState (heap s) (scopes s) (stacks s) (cur s) (ctl s) b r (among s) (an s).
Definition with_among b s := mkState (heap s) (scopes s) (stacks s) (cur s) (ctl s) (returning s) (returned s) b (an s).
Definition with_an a s := mkState (heap s) (scopes s) (stacks s) (cur s) (ctl s) (returning s) (returned s) (among s) a.

(** include/lang/workspace.h 55-59 *)
Definition disabler_id : nat := 1.
(** workspace.c 131-158 *)
Definition start_state : state :=
  mkState [ONull; ODisabler; OBool true; OBool false] [[]] [[0]] 0 loop_norm false 0 false
          (repeat (false, 0) 64).

(** [Ok]: the function returned true; [Err]: it returned false after reporting an error; [Crash]:
    undefined behaviour or a failed assertion. *)
Inductive res (A : Type) := Ok (s : state) (a : A) | Err (s : state) | Crash | OutOfFuel.
Arguments Ok {A}. Arguments Err {A}. Arguments Crash {A}. Arguments OutOfFuel {A}.
Definition M (A : Type) := state -> res A.
Definition ret {A} (a : A) : M A := fun s => Ok s a.
Definition bind {A B} (m : M A) (f : A -> M B) : M B := fun s =>
  match m s with Ok s a => f a s | Err s => Err s | Crash => Crash | OutOfFuel => OutOfFuel end.
Definition fail {A} : M A := fun s => Err s.
Definition crash {A} : M A := fun _ => Crash.
Definition get : M state := fun s => Ok s s.
Definition put (f : state -> state) : M unit := fun s => Ok (f s) tt.
Notation "'let*' x := a 'in' b" := (bind a (fun x => b)) (at level 200, x pattern, a at level 100, b at level 200).
Notation "a ;; b" := (bind a (fun _ => b)) (at level 199, right associativity).

Definition obj_at (s : state) (o : nat) : obj := nth o (heap s) ONull.
Definition look (o : nat) : M obj := fun s => Ok s (obj_at s o).
(** object.c 201-256 make_obj and the setters *)
Definition make (x : obj) : M nat := fun s => Ok (with_heap (heap s ++ [x]) s) (length (heap s)).
Definition store (o : nat) (x : obj) : M unit := put (fun s => with_heap (upd o x (heap s)) s).
Definition make_many (l : list obj) : M unit := put (fun s => with_heap (heap s ++ l) s).

(** ** Equality *)
Definition dict_lookup {A} (l : list (bytes * A)) (k : bytes) : option A :=
  option_map snd (find (fun p => beqb (fst p) k) l).
(** object.c 430-491 obj_equal, 401-428 its iterators; [None]: the values are nested too deeply
    for [fuel].  Files, feature options and include directories are not modelled. *)
Fixpoint equal (fuel : nat) (s : state) (l r : nat) : option bool :=
  match fuel with
  | 0 => None
  | S fuel =>
      if l =? r then Some true else
      match obj_at s l, obj_at s r with
      | OStr a, OStr b => Some (beqb a b)
      | ONum a, ONum b => Some (a =? b)%Z
      | OBool a, OBool b => Some (Bool.eqb a b)
      | OArr a, OArr b =>
          if length a =? length b then
            (fix iter (a b : list nat) : option bool :=
               match a, b with
               | x :: a, y :: b =>
                   match equal fuel s x y with Some true => iter a b | r => r end
               | _, _ => Some true
               end) a b
          else Some false
      | ODict a, ODict b =>
          if length a =? length b then
            (fix iter (a : list (bytes * nat)) : option bool :=
               match a with
               | [] => Some true
               | (k, x) :: a =>
                   match dict_lookup b k with
                   | None => Some false
                   | Some y => match equal fuel s x y with Some true => iter a | r => r end
                   end
               end) a
          else Some false
      | _, _ => Some false
      end
  end.

(** ** Variables *)
(** interpreter.c 101-138: the last scope that has the name *)
Definition scope_at (s : state) (i : nat) : env := nth i (scopes s) [].
Fixpoint find_scope (s : state) (x : bytes) (stack : list nat) (found : option (nat * nat)) : option (nat * nat) :=
  match stack with
  | [] => found
  | i :: stack =>
      find_scope s x stack (match dict_lookup (scope_at s i) x with Some o => Some (i, o) | None => found end)
  end.
Definition get_local_variable (s : state) (x : bytes) : option (nat * nat) :=
  find_scope s x (nth (cur s) (stacks s) []) None.
Definition get_variable (s : state) (x : bytes) : option nat := option_map snd (get_local_variable s x).
(** the dictionary operations of scopes and values *)
Definition dict_set {A} (l : list (bytes * A)) (k : bytes) (v : A) : list (bytes * A) :=
  if existsb (fun p => beqb (fst p) k) l
  then map (fun p => if beqb (fst p) k then (k, v) else p) l
  else l ++ [(k, v)].
Definition dict_del {A} (l : list (bytes * A)) (k : bytes) : list (bytes * A) :=
  filter (fun p => negb (beqb (fst p) k)) l.
Definition dict_merge {A} (l m : list (bytes * A)) : list (bytes * A) :=
  fold_left (fun l p => dict_set l (fst p) (snd p)) m l.
Definition set_in_scope (i : nat) (x : bytes) (o : nat) : M unit :=
  put (fun s => with_scopes (upd i (dict_set (scope_at s i) x o) (scopes s)) s).
(** interpreter.c 173-195 assign_variable with assign_local: the innermost scope *)
Definition assign_local (x : bytes) (o : nat) : M unit := fun s =>
  match rev (nth (cur s) (stacks s) []) with
  | [] => Crash
  | i :: _ => set_in_scope i x o s
  end.
(** ... with assign_reassign: the scope that has the name *)
Definition reassign (x : bytes) (o : nat) : M unit := fun s =>
  match get_local_variable s x with
  | None => Crash
  | Some (i, _) => set_in_scope i x o s
  end.
(** interpreter.c 197-206 unassign_variable *)
Definition unassign (x : bytes) : M unit := fun s =>
  match get_local_variable s x with
  | None => Ok s tt
  | Some (i, _) => put (fun s => with_scopes (upd i (dict_del (scope_at s i) x) (scopes s)) s) s
  end.
(** interpreter.c 138-158 scope_stack_dup: new scopes with the same bindings *)
Definition scope_stack_dup : M nat := fun s =>
  let l := nth (cur s) (stacks s) [] in
  let n := length (scopes s) in
  Ok (with_stacks (stacks s ++ [seq n (length l)]) (with_scopes (scopes s ++ map (scope_at s) l) s))
     (length (stacks s)).
(** interpreter.c 160-165 push_local_scope *)
Definition push_local_scope : M unit := put (fun s =>
  with_stacks (upd (cur s) (nth (cur s) (stacks s) [] ++ [length (scopes s)]) (stacks s))
    (with_scopes (scopes s ++ [[]]) s)).
(** interpreter.c 167-171 pop_local_scope *)
Definition pop_local_scope : M unit := put (fun s =>
  with_stacks (upd (cur s) (removelast (nth (cur s) (stacks s) [])) (stacks s)) s).

(** ** Numbers *)
Definition in_i64 (z : Z) : bool := ((- 2 ^ 63 <=? z) && (z <? 2 ^ 63))%Z.
(** interpreter.c 441-484; the result is not a number of the language when C's is undefined:
    INT64_MIN % -1 is *)
Definition num_arith (op : arith) (a b : Z) : option Z :=
  match op with
  | ArAdd => Some (a + b)%Z
  | ArSub => Some (a - b)%Z
  | ArMul => Some (a * b)%Z
  | ArDiv => if (b =? 0)%Z then None else Some (Z.quot a b)
  | ArMod =>
      if (b =? 0)%Z then None
      else if ((a =? - 2 ^ 63) && (b =? -1))%Z then Some (2 ^ 63)%Z else Some (Z.rem a b)
  end.

Section Interp.
(** builtins that only look at their arguments: name -> (types of the arguments, the function
    from the objects and the argument ids to the objects made and the result) *)
Definition builtin := (list (obj -> bool) * (list obj -> list nat -> option (list obj * nat)))%type.
Variable other : bytes -> option builtin.
(** methods, by the receiver; its id is the first argument *)
Variable method : obj -> bytes -> option builtin.

(** typecheck.c 252-312 typecheck_complex_type for simple types: the disabler is always allowed *)
Definition has_type (t : obj -> bool) (x : obj) : bool :=
  match x with ONull => false | ODisabler => true | _ => t x end.
Definition t_any (x : obj) : bool := true.
Definition t_num (x : obj) : bool := match x with ONum _ => true | _ => false end.
Definition t_str (x : obj) : bool := match x with OStr _ => true | _ => false end.

(** common.c 291-302, object.c 526-566 obj_array_foreach_flat: is the disabler among the elements
    of the flattened array?  [None]: nested too deeply *)
Fixpoint flat_disabler (fuel : nat) (s : state) (o : nat) : option bool :=
  match fuel with
  | 0 => None
  | S fuel =>
      match obj_at s o with
      | OArr l =>
          (fix iter (l : list nat) : option bool :=
             match l with
             | [] => Some false
             | x :: l =>
                 match flat_disabler fuel s x, iter l with
                 | Some a, Some b => Some (a || b)
                 | _, _ => None
                 end
             end) l
      | _ => Some (o =? disabler_id)
      end
  end.

(** kernel.c 1864-1901 func_range_common after the arguments are evaluated *)
Definition u32_max : Z := (2 ^ 32 - 1)%Z.
Definition range_params (l : list Z) : option (Z * Z * Z) :=
  let ok lo n := ((lo <=? n) && (n <=? u32_max))%Z in
  match l with
  | [n] => if ok 0%Z n then Some (0%Z, n, 1%Z) else None
  | [a; b] => if ok 0%Z a && ok a b then Some (a, b, 1%Z) else None
  | a :: b :: c :: _ => if ok 0%Z a && ok a b && ok 1%Z c then Some (a, b, c) else None
  | [] => None
  end.
(** kernel.c 1914-1920 the loop of func_range; uint32_t i *)
Fixpoint range_list (fuel : nat) (i stop step : Z) : option (list Z) :=
  match fuel with
  | 0 => None
  | S fuel =>
      if (i <? stop)%Z then
        option_map (cons i) (range_list fuel ((i + step) mod 2 ^ 32)%Z stop step)
      else Some []
  end.

Section Node.
(** the interpreter itself, with less fuel *)
Variable fuel : nat.
Variable E : expr -> M nat.              (* wk->interp_node on an expression *)
Variable Bk : list stmt -> M nat.        (* ... on a block *)

(** typecheck of a value followed by get_obj_bool/number/str (object.c 27-35): the type check lets
    the disabler through and the getter aborts the process *)
Definition bool_of (o : nat) : M bool :=
  let* x := look o in match x with OBool b => ret b | ODisabler => crash | _ => fail end.
Definition num_of (o : nat) : M Z :=
  let* x := look o in match x with ONum n => ret n | ODisabler => crash | _ => fail end.
Definition str_of (o : nat) : M bytes :=
  let* x := look o in match x with OStr b => ret b | ODisabler => crash | _ => fail end.

(** common.c 303-370 typecheck_function_arg, without the list types; [immune] is
    disabler_among_args_immunity *)
Definition check_arg (immune : bool) (t : obj -> bool) (o : nat) : M unit := fun s =>
  match (if immune then Some false else flat_disabler fuel s o) with
  | None => OutOfFuel
  | Some true => Err (with_among true s)
  | Some false => if has_type t (obj_at s o) then Ok s tt else Err s
  end.

(** interpreter.c 592-641 interp_array *)
Fixpoint eval_list (es : list expr) : M (list nat) :=
  match es with
  | [] => ret []
  | e :: es => let* o := E e in let* l := eval_list es in ret (o :: l)
  end.
(** interpreter.c 643-702 interp_dict, adding to the dictionary [d]; a disabler as a key aborts here
    at once, in the code when the key is first compared with another *)
Fixpoint eval_dict (kvs : list (expr * expr)) (d : list (bytes * nat)) : M (list (bytes * nat)) :=
  match kvs with
  | [] => ret d
  | (ke, ve) :: kvs =>
      let* k := E ke in let* ks := str_of k in
      let* v := E ve in
      if existsb (fun p => beqb (fst p) ks) d then fail
      else eval_dict kvs (dict_set d ks v)
  end.

(** interpreter.c 390-532 interp_arithmetic; [plusassign]: change the left operand in place *)
Definition arithmetic (op : arith) (plusassign : bool) (nl nr : expr) : M nat :=
  let* l := E nl in
  let* r := E nr in
  if (l =? disabler_id) || (r =? disabler_id) then ret disabler_id else
  let* lo := look l in
  let* ro := look r in
  match lo with
  | OStr a =>
      match ro with
      | OStr b =>
          match op with
          | ArAdd => make (OStr (a ++ b))
          | ArDiv =>
              if mem_char NUL a || mem_char NUL b then fail
              else match path_join a b with Some p => make (OStr p) | None => crash end
          | _ => fail
          end
      | _ => fail
      end
  | ONum a =>
      match ro with
      | ONum b =>
          match num_arith op a b with
          | Some z => if in_i64 z then make (ONum z) else crash
          | None => fail
          end
      | _ => fail
      end
  | OArr a =>
      match op with
      | ArAdd =>
          let* d := (if plusassign then ret l else make (OArr a)) in
          store d (OArr (a ++ match ro with OArr b => b | _ => [r] end)) ;;
          ret d
      | _ => fail
      end
  | ODict a =>
      match ro, op with
      | ODict b, ArAdd =>
          if plusassign then store l (ODict (dict_merge a b)) ;; ret l
          else make (ODict (dict_merge a b))
      | _, _ => fail
      end
  | _ => fail
  end.

(** interpreter.c 761-860 interp_comparison *)
Definition comparison (op : cmp) (nl nr : expr) : M nat :=
  let* l := E nl in
  let* r := E nr in
  if (l =? disabler_id) || (r =? disabler_id) then ret disabler_id else
  let eq s := equal fuel s l r in
  let* b :=
    match op with
    | CEq => fun s => match eq s with Some b => Ok s b | None => OutOfFuel end
    | CNe => fun s => match eq s with Some b => Ok s (negb b) | None => OutOfFuel end
    | CIn | CNotIn =>
        let* ro := look r in
        let* b :=
          match ro with
          | OArr a => fun s =>
              (fix scan (a : list nat) : res bool :=
                 match a with
                 | [] => Ok s false
                 | x :: a => match equal fuel s l x with
                             | Some true => Ok s true
                             | Some false => scan a
                             | None => OutOfFuel
                             end
                 end) a
          | ODict d => let* k := str_of l in ret (existsb (fun p => beqb (fst p) k) d)
          | OStr t => let* k := str_of l in ret (match strstr t k with Some _ => true | None => false end)
          | _ => fail
          end in
        ret (match op with CNotIn => negb b | _ => b end)
    | _ =>
        let* a := num_of l in
        let* b := num_of r in
        ret (match op with
             | CLt => (a <? b)%Z | CLe => (a <=? b)%Z | CGt => (b <? a)%Z | _ => (b <=? a)%Z
             end)
    end in
  make (OBool b).

(** interpreter.c 264-347 interp_index *)
Definition index (a i : expr) : M nat :=
  let* l := E a in
  let* r := E i in
  let* lo := look l in
  match lo with
  | ODisabler => ret disabler_id
  | OArr xs =>
      let* n := num_of r in
      let '(n, ok) := bounds_adjust (Z.of_nat (length xs)) n in
      if ok then (if (n <? 0)%Z then crash else ret (nth (Z.to_nat n) xs 0)) else fail
  | ODict d =>
      let* k := str_of r in
      match dict_lookup d k with Some v => ret v | None => fail end
  | OStr t =>
      let* n := num_of r in
      let '(n, ok) := bounds_adjust (Z.of_nat (length t)) n in
      if ok then (if (n <? 0)%Z then crash else make (OStr (firstn 1 (skipn (Z.to_nat n) t)))) else fail
  | _ => fail
  end.

(** common.c 471-707 interp_args for required positional arguments of the types [ts] and then
    optional ones of the types [os], kept on the C stack *)
Fixpoint local_args (immune : bool) (ts os : list (obj -> bool)) (args : list expr) : M (list nat) :=
  match ts, args with
  | t :: ts, e :: args =>
      let* o := E e in
      check_arg immune t o ;;
      let* l := local_args immune ts os args in ret (o :: l)
  | _ :: _, [] => fail                    (* missing arguments *)
  | [], _ =>
      (fix optional (os : list (obj -> bool)) (args : list expr) : M (list nat) :=
         match os, args with
         | t :: os, e :: args =>
             let* o := E e in
             check_arg immune t o ;;
             let* l := optional os args in ret (o :: l)
         | _, [] => ret []
         | [], _ :: _ => fail             (* too many arguments *)
         end) os args
  end.

(** common.c 471-707 interp_args on the static array of func_obj_eval, from position [i] on: the
    end of the parameters is the entry whose type is ARG_TYPE_NULL when it is reached *)
Fixpoint static_args (args : list expr) (i : nat) : M unit :=
  let* s := get in
  if fst (nth i (an s) (true, 0)) then
    match args with [] => ret tt | _ => fail end      (* 593-606 non-kwarg after kwargs *)
  else
    match args with
    | [] => fail
    | e :: args =>
        let* o := E e in
        put (fun s => with_an (upd i (fst (nth i (an s) (true, 0)), o) (an s)) s) ;;
        check_arg false t_any o ;;
        let* s := get in
        (* 323 assert: the type of the entry is a type *)
        if fst (nth i (an s) (true, 0)) then crash else static_args args (i + 1)
    end.
Fixpoint assign_params (params : list bytes) (vals : list nat) : M unit :=
  match params, vals with
  | p :: params, v :: vals => assign_local p v ;; assign_params params vals
  | _, _ => ret tt
  end.
(** common.c 709-785 func_obj_call *)
Definition func_obj_call (params : list bytes) (result : bool) (body : list stmt) (stack : nat)
    (vals : list nat) : M nat :=
  let* s0 := get in
  let old := cur s0 in
  put (with_cur stack) ;;
  push_local_scope ;;
  assign_params params vals ;;
  put (with_return false 0) ;;
  (* 756 ret; the cleanup below is done in either case *)
  fun s =>
    let cleanup s :=
      with_cur old (with_stacks (upd (cur s) (removelast (nth (cur s) (stacks s) [])) (stacks s))
        (with_return false 0 s)) in
    match Bk body s with
    | Ok s _ =>
        let r := returned s in
        (* 763-766 *)
        if (if result then negb (r =? 0) else (r =? 0) || (r =? disabler_id))
        then Ok (cleanup s) r else Err (cleanup s)
    | Err s => Err (cleanup s)
    | Crash => Crash
    | OutOfFuel => OutOfFuel
    end.
(** common.c 787-866 func_obj_eval *)
Definition func_obj_eval (f : nat) (args : list expr) : M nat :=
  let* fo := look f in
  match fo with
  | OFunc params result body stack =>
      let n := length params in
      if 64 <=? n + 1 then crash else
      put (fun s => with_an (repeat (false, 0) n ++ [(true, 0)] ++ skipn (n + 1) (an s)) s) ;;
      static_args args 0 ;;
      let* s := get in
      func_obj_call params result body stack (map snd (firstn n (an s)))
  | _ => fail
  end.

(** common.c 1070-1080 the end of builtin_run *)
Definition absorb (m : M nat) : M nat := fun s =>
  match m s with
  | Err s => if among s then Ok (with_among false s) disabler_id else Err s
  | r => r
  end.

(** kernel.c 1864-1901 func_range_common *)
Fixpoint nums_of (l : list nat) : M (list Z) :=
  match l with
  | [] => ret []
  | o :: l => let* n := num_of o in let* ns := nums_of l in ret (n :: ns)
  end.
Definition range_args (args : list expr) : M (option (Z * Z * Z)) :=
  let* l := local_args false [t_num] [t_num; t_num; t_num] args in
  let* ns := nums_of l in
  ret (range_params ns).

(** the kernel functions modelled; [None]: the name is not one of them *)
Definition kernel (f : bytes) (args : list expr) : option (M nat) :=
  (* kernel.c 1640-1649 *)
  if beqb f (B "disabler") then Some (local_args false [] [] args ;; ret disabler_id)
  (* kernel.c 1624-1638 *)
  else if beqb f (B "is_disabler") then
    Some (let* l := local_args true [t_any] [] args in make (OBool (nth 0 l 0 =? disabler_id)))
  (* kernel.c 1651-1664 *)
  else if beqb f (B "set_variable") then
    Some (let* l := local_args true [t_str; t_any] [] args in
          let* x := str_of (nth 0 l 0) in
          assign_local x (nth 1 l 0) ;; ret 0)
  (* kernel.c 1666-1685 *)
  else if beqb f (B "unset_variable") then
    Some (let* l := local_args false [t_str] [] args in
          let* x := str_of (nth 0 l 0) in
          let* s := get in
          match get_variable s x with Some _ => unassign x ;; ret 0 | None => fail end)
  (* kernel.c 1687-1716 *)
  else if beqb f (B "get_variable") then
    Some (let* l := local_args true [t_any] [t_any] args in
          if nth 0 l 0 =? disabler_id then ret disabler_id else
          let* x := str_of (nth 0 l 0) in
          let* s := get in
          match get_variable s x, l with
          | Some o, _ => ret o
          | None, [_; d] => ret d
          | None, _ => fail
          end)
  (* kernel.c 1718-1731 *)
  else if beqb f (B "is_variable") then
    Some (let* l := local_args true [t_str] [] args in
          let* x := str_of (nth 0 l 0) in
          let* s := get in
          make (OBool (match get_variable s x with Some _ => true | None => false end)))
  (* kernel.c 1903-1921 *)
  else if beqb f (B "range") then
    Some (let* l := range_args args in
          match l with
          | None => fail
          | Some (start, stop, step) => fun s =>
              match range_list fuel start stop step with
              | None => OutOfFuel
              | Some zs =>
                  let n := length (heap s) in
                  Ok (with_heap (heap s ++ map ONum zs ++ [OArr (seq n (length zs))]) s) (n + length zs)
              end
          end)
  else match other f with
       | Some (ts, g) =>
           Some (let* l := local_args false ts [] args in
                 fun s => match g (heap s) l with
                          | Some (new, o) => Ok (with_heap (heap s ++ new) s) o
                          | None => Err s
                          end)
       | None => None
       end.

(** interpreter.c 210-246 interp_func and common.c 956-1082 builtin_run *)
Definition call (f : bytes) (args : list expr) : M nat :=
  match kernel f args with
  | Some m => absorb m
  | None =>
      let* o := E (EVar f) in
      let* x := look o in
      match x with
      | OFunc _ _ _ _ => absorb (func_obj_eval o args)
      | ODisabler | ONull => crash  (* 231 lets the disabler through and builtin_run takes the
                                       arguments for a name; typecheck.c 262 asserts *)
      | _ => fail
      end
  end.
(** interpreter.c 248-263 interp_method, common.c 956-1082 builtin_run *)
Definition method_call (e : expr) (m : bytes) (args : list expr) : M nat :=
  let* r := E e in
  if r =? 0 then fail else
  let* x := look r in
  match x with
  | OFunc _ _ _ _ => crash                  (* 977: the name is taken for the arguments *)
  | ODisabler =>
      (* functions/disabler.c: the only method is found() *)
      if beqb m (B "found") then absorb (local_args false [] [] args ;; make (OBool false))
      else ret disabler_id
  | _ =>
      match method x m with
      | None => fail
      | Some (ts, g) =>
          absorb (let* l := local_args false ts [] args in
                  fun s => match g (heap s) (r :: l) with
                           | Some (new, o) => Ok (with_heap (heap s ++ new) s) o
                           | None => Err s
                           end)
      end
  end.

(** interpreter.c 1162-1356 interp_node, expressions *)
Definition node_expr (e : expr) : M nat :=
  match e with
  | ENum n => make (ONum n)
  | EStr t => make (OStr t)
  | EBool b => make (OBool b)
  | EVar x => fun s => match get_variable s x with Some o => Ok s o | None => Err s end
  | EArr es => let* l := eval_list es in make (OArr l)
  | EDict kvs => let* d := eval_dict kvs [] in make (ODict d)
  (* 704-720 *)
  | ENot e =>
      let* o := E e in
      if o =? disabler_id then ret disabler_id else
      let* b := bool_of o in make (OBool (negb b))
  (* 722-759 *)
  | EAnd a b =>
      let* o := E a in
      if o =? disabler_id then ret disabler_id else
      let* c := bool_of o in
      if negb c then make (OBool false) else
      let* o := E b in
      if o =? disabler_id then ret disabler_id else
      let* c := bool_of o in make (OBool c)
  | EOr a b =>
      let* o := E a in
      if o =? disabler_id then ret disabler_id else
      let* c := bool_of o in
      if c then make (OBool true) else
      let* o := E b in
      if o =? disabler_id then ret disabler_id else
      let* c := bool_of o in make (OBool c)
  | ECmp op a b => comparison op a b
  (* 862-878 *)
  | ETernary c a b =>
      let* o := E c in
      if o =? disabler_id then ret disabler_id else
      let* c := bool_of o in if c then E a else E b
  (* 370-388 *)
  | ENeg e =>
      let* o := E e in
      if o =? disabler_id then ret disabler_id else
      let* n := num_of o in
      if in_i64 (- n) then make (ONum (- n)) else crash
  | EArith op a b => arithmetic op false a b
  | EIndex a i => index a i
  | ECall f args => call f args
  | EMethod e m args => method_call e m args
  end.

(** interpreter.c 930-961 interp_foreach_common; [true]: go on with the next element *)
Definition foreach_common (body : list stmt) : M bool :=
  match body with
  | [] => ret false
  | _ =>
      Bk body ;;
      let* s := get in
      match ctl s with
      | loop_continuing => put (with_ctl loop_norm) ;; ret true
      | loop_breaking => put (with_ctl loop_norm) ;; ret false
      | loop_norm => ret true
      end
  end.
(** object.c 500-528 obj_array_foreach over the array [arr] from element [i] on; the cell after
    the current one is looked up after the body has run *)
Fixpoint foreach_array (f : nat) (x : bytes) (body : list stmt) (arr i : nat) : M unit :=
  match f with
  | 0 => fun _ => OutOfFuel
  | S f =>
      let* o := look arr in
      match o with
      | OArr l =>
          match nth_error l i with
          | None => ret tt
          | Some v =>
              assign_local x v ;;
              let* go := foreach_common body in
              if go then foreach_array f x body arr (i + 1) else ret tt
          end
      | _ => crash
      end
  end.
(** object.c 1047-1098 obj_dict_foreach; what happens when the loop's body changes the keys of
    the dictionary it runs over depends on the representation and is not modelled ([Crash]) *)
Fixpoint foreach_dict (k v : bytes) (body : list stmt) (dict : nat) (ks : list bytes) (todo : list bytes) : M unit :=
  match todo with
  | [] => ret tt
  | key :: todo =>
      let* o := look dict in
      match o with
      | ODict l =>
          if negb (length l =? length ks) then crash else
          match dict_lookup l key with
          | None => crash
          | Some val =>
              let* ko := make (OStr key) in
              assign_local k ko ;;
              assign_local v val ;;
              let* go := foreach_common body in
              if go then foreach_dict k v body dict ks todo else ret tt
          end
      | _ => crash
      end
  end.
(** interpreter.c 1000-1032 the loop over range(); uint32_t i *)
Fixpoint foreach_range (f : nat) (x : bytes) (body : list stmt) (i stop step : Z) : M unit :=
  match f with
  | 0 => fun _ => OutOfFuel
  | S f =>
      if (i <? stop)%Z then
        let* o := make (ONum i) in
        assign_local x o ;;
        let* go := foreach_common body in
        if go then foreach_range f x body ((i + step) mod 2 ^ 32)%Z stop step else ret tt
      else ret tt
  end.

(** interpreter.c 1162-1356 interp_node, statements *)
Definition node_stmt (st : stmt) : M nat :=
  match st with
  | SExpr e => E e
  (* 534-576: arrays and dictionaries are copied, one level deep *)
  | SAssign x e =>
      let* o := E e in
      let* v := look o in
      let* o := match v with OArr _ | ODict _ => make v | _ => ret o end in
      if o =? 0 then fail else
      assign_local x o ;; ret 0
  (* 578-590 *)
  | SPlusAssign x e =>
      let* o := arithmetic ArAdd true (EVar x) e in
      reassign x o ;; ret 0
  (* 880-922 *)
  | SIf c t f =>
      let* o := E c in
      if o =? disabler_id then ret disabler_id else
      let* b := bool_of o in
      if b then Bk t else match f with [] => ret 0 | _ => Bk f end
  (* 982-1036 *)
  | SForeach x (ECall f args) body =>
      if beqb f (B "range") then
        let* r := range_args args in
        match r with
        | None => fail
        | Some (start, stop, step) =>
            put (with_ctl loop_norm) ;;
            foreach_range fuel x body start stop step ;; ret 0
        end
      else
        let* it := E (ECall f args) in
        let* o := look it in
        match o with
        | OArr _ => put (with_ctl loop_norm) ;; foreach_array fuel x body it 0 ;; ret 0
        | _ => fail
        end
  (* 1038-1066 *)
  | SForeach x e body =>
      let* it := E e in
      let* o := look it in
      match o with
      | OArr _ => put (with_ctl loop_norm) ;; foreach_array fuel x body it 0 ;; ret 0
      | _ => fail
      end
  (* 1067-1090 *)
  | SForeach2 k v e body =>
      let* it := E e in
      let* o := look it in
      match o with
      | ODict l =>
          put (with_ctl loop_norm) ;; foreach_dict k v body it (map fst l) (map fst l) ;; ret 0
      | _ => fail
      end
  | SBreak => put (with_ctl loop_breaking) ;; ret 0
  | SContinue => put (with_ctl loop_continuing) ;; ret 0
  (* 1263-1267 *)
  | SReturn e =>
      let* o := E e in
      put (with_return true o) ;; ret 0
  (* 1094-1144 *)
  | SFunc f params result body =>
      let* stack := scope_stack_dup in
      let* o := make (OFunc params result body stack) in
      assign_local f o ;; ret o
  end.

(** interpreter.c 1205-1256 the block loop; the value of the last statement is the block's *)
Fixpoint node_block (S1 : stmt -> M nat) (b : list stmt) (last : nat) : M nat :=
  match b with
  | [] => ret last
  | st :: b => let* o := S1 st in node_block S1 b o
  end.
End Node.

(** interpreter.c 1170-1173: nothing is evaluated while a break, continue or return is pending *)
Definition guarded (m : M nat) : M nat := fun s =>
  match ctl s with
  | loop_norm => if returning s then Ok s 0 else m s
  | _ => Ok s 0
  end.

Inductive node := NExpr (e : expr) | NStmt (st : stmt) | NBlock (b : list stmt).
(** interpreter.c 1162-1356 interp_node *)
Fixpoint interp (fuel : nat) (n : node) : M nat :=
  match fuel with
  | 0 => fun _ => OutOfFuel
  | S fuel =>
      let E e := interp fuel (NExpr e) in
      let Bk b := interp fuel (NBlock b) in
      guarded
        (match n with
         | NExpr e => node_expr fuel E Bk e
         | NStmt st => node_stmt fuel E Bk st
         | NBlock b => node_block (fun st => interp fuel (NStmt st)) b 0
         end)
  end.
(** running a program *)
Definition run (fuel : nat) (prog : list stmt) : res nat := interp fuel (NBlock prog) start_state.
End Interp.
