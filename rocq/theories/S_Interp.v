(** What a build file's values and statements mean, without the interpreter's objects. *)
From Verif Require Import Base M_Interp.

(** ** Values *)
(** Trees; two values of other kinds (functions, disablers) are the same when they are the same
    object. *)
Inductive value :=
| VBool (b : bool) | VNum (n : Z) | VStr (s : bytes)
| VArr (l : list value) | VDict (l : list (bytes * value))
| VOther (o : nat).

Definition is_other (x : obj) : Prop :=
  match x with ONull | ODisabler | OFunc _ _ _ _ => True | _ => False end.

(** the object [o] of the heap [h] is the value [v] *)
Inductive denotes (h : list obj) : nat -> value -> Prop :=
| dn_bool o b : nth_error h o = Some (OBool b) -> denotes h o (VBool b)
| dn_num o n : nth_error h o = Some (ONum n) -> denotes h o (VNum n)
| dn_str o t : nth_error h o = Some (OStr t) -> denotes h o (VStr t)
| dn_arr o l vs :
    nth_error h o = Some (OArr l) -> Forall2 (denotes h) l vs -> denotes h o (VArr vs)
| dn_dict o l kvs :
    nth_error h o = Some (ODict l) -> NoDup (map fst l) ->
    Forall2 (fun p q => fst p = fst q /\ denotes h (snd p) (snd q)) l kvs -> denotes h o (VDict kvs)
| dn_other o x : nth_error h o = Some x -> is_other x -> denotes h o (VOther o).

(** structural equality; the order of a dictionary's entries does not count *)
Inductive same : value -> value -> Prop :=
| same_bool b : same (VBool b) (VBool b)
| same_num n : same (VNum n) (VNum n)
| same_str t : same (VStr t) (VStr t)
| same_arr l m : Forall2 same l m -> same (VArr l) (VArr m)
| same_dict l m :
    (forall k v, In (k, v) l -> exists w, In (k, w) m /\ same v w) ->
    (forall k w, In (k, w) m -> exists v, In (k, v) l /\ same v w) ->
    same (VDict l) (VDict m)
| same_other o : same (VOther o) (VOther o).

(** no dictionary in the value has a key twice *)
Inductive keyed : value -> Prop :=
| keyed_bool b : keyed (VBool b)
| keyed_num n : keyed (VNum n)
| keyed_str t : keyed (VStr t)
| keyed_arr l : Forall keyed l -> keyed (VArr l)
| keyed_dict l : NoDup (map fst l) -> Forall (fun p => keyed (snd p)) l -> keyed (VDict l)
| keyed_other o : keyed (VOther o).

Section Eval.
Variable other : bytes -> option builtin.
Variable method : obj -> bytes -> option builtin.
Notation interp := (interp other method).

(** ** Evaluation without fuel *)
(** the expression, statement or block ends, and does so in state [s'] with result [o] *)
Definition evaluates (n : node) (s s' : state) (o : nat) : Prop :=
  exists fuel, interp fuel n s = Ok s' o.
Definition errs (n : node) (s s' : state) : Prop := exists fuel, interp fuel n s = Err s'.
Definition crashes (n : node) (s : state) : Prop := exists fuel, interp fuel n s = Crash.
Definition diverges (n : node) (s : state) : Prop := forall fuel, interp fuel n s = OutOfFuel.

(** no break, continue or return is pending *)
Definition idle (s : state) : Prop := ctl s = loop_norm /\ returning s = false.
(** the state [s] with the objects [l] made *)
Definition made (l : list obj) (s : state) : state := with_heap (heap s ++ l) s.

(** ** Sequential meaning of a loop *)
(** running the body for the items in turn: [bind] puts the item in the loop's variable; a
    pending continue ends the pass through the body, a pending break the loop; after each pass but
    the last the state satisfies [keep] *)
Inductive runs {A} (keep : state -> Prop) (bind : A -> state -> option state) (body : list stmt) :
  list A -> state -> state -> Prop :=
| runs_done s : runs keep bind body [] s s
| runs_next x xs s s1 s2 o s3 :
    bind x s = Some s1 -> evaluates (NBlock body) s1 s2 o -> ctl s2 <> loop_breaking -> keep s2 ->
    runs keep bind body xs (with_ctl loop_norm s2) s3 -> runs keep bind body (x :: xs) s s3
| runs_break x xs s s1 s2 o :
    bind x s = Some s1 -> evaluates (NBlock body) s1 s2 o -> ctl s2 = loop_breaking ->
    runs keep bind body (x :: xs) s (with_ctl loop_norm s2).
End Eval.

(** ** What a piece of program may do *)
Definition kernel_names : list bytes :=
  [B "disabler"; B "is_disabler"; B "set_variable"; B "unset_variable"; B "get_variable";
   B "is_variable"; B "range"].
Section Allowed.
Variable other : bytes -> option builtin.
(** a function that a build file defined itself is called *)
Definition user_call (f : bytes) : Prop := ~ In f kernel_names /\ other f = None.
(** may the piece call set_variable or assign with =; use +=; call unset_variable; call functions
    that a build file defined? *)
Variable assigns plus unsets calls : bool.
Inductive okE : expr -> Prop :=
| okE_num n : okE (ENum n)
| okE_str t : okE (EStr t)
| okE_bool b : okE (EBool b)
| okE_var x : okE (EVar x)
| okE_arr es : Forall okE es -> okE (EArr es)
| okE_dict kvs : Forall (fun p => okE (fst p) /\ okE (snd p)) kvs -> okE (EDict kvs)
| okE_not e : okE e -> okE (ENot e)
| okE_and a b : okE a -> okE b -> okE (EAnd a b)
| okE_or a b : okE a -> okE b -> okE (EOr a b)
| okE_cmp op a b : okE a -> okE b -> okE (ECmp op a b)
| okE_tern c a b : okE c -> okE a -> okE b -> okE (ETernary c a b)
| okE_neg e : okE e -> okE (ENeg e)
| okE_arith op a b : okE a -> okE b -> okE (EArith op a b)
| okE_index a i : okE a -> okE i -> okE (EIndex a i)
| okE_call f args :
    (f = B "set_variable" -> assigns = true) -> (f = B "unset_variable" -> unsets = true) ->
    (user_call f -> calls = true) -> Forall okE args -> okE (ECall f args)
| okE_method e m args : okE e -> Forall okE args -> okE (EMethod e m args).
Inductive okS : stmt -> Prop :=
| okS_expr e : okE e -> okS (SExpr e)
| okS_assign x e : assigns = true -> okE e -> okS (SAssign x e)
| okS_plus x e : plus = true -> okE e -> okS (SPlusAssign x e)
| okS_if c t f : okE c -> Forall okS t -> Forall okS f -> okS (SIf c t f)
| okS_foreach x e body : assigns = true -> okE e -> Forall okS body -> okS (SForeach x e body)
| okS_foreach2 k v e body : assigns = true -> okE e -> Forall okS body -> okS (SForeach2 k v e body)
| okS_break : okS SBreak
| okS_continue : okS SContinue
| okS_return e : okE e -> okS (SReturn e)
| okS_func f ps r body : assigns = true -> Forall okS body -> okS (SFunc f ps r body).
End Allowed.

(** ** Variables *)
(** the variable has the value in the state; it is not defined *)
Definition has_value (s : state) (x : bytes) (v : value) : Prop :=
  exists o, get_variable s x = Some o /\ denotes (heap s) o v.
Definition undefined (s : state) (x : bytes) : Prop := get_variable s x = None.
Definition scalar (v : value) : Prop :=
  match v with VArr _ | VDict _ => False | _ => True end.

Section Forms.
Variable other : bytes -> option builtin.
(** expressions that only compute: no assignment, no call of a build file's own function *)
Definition quiet : expr -> Prop := okE other false false false.
(** expressions that may call functions, but assign nothing themselves *)
Definition pure : expr -> Prop := okE other false false true.
(** statements without += and without unset_variable *)
Definition plain : stmt -> Prop := okS other true false false true.

(** the current scope stack exists, scope stacks refer to scopes that exist, and functions to scope
    stacks that exist *)
Definition well_formed (s : state) : Prop :=
  cur s < length (stacks s) /\
  (forall st i, In st (stacks s) -> In i st -> i < length (scopes s)) /\
  (forall o ps r body st, nth_error (heap s) o = Some (OFunc ps r body st) -> st < length (stacks s)).
(** ... and all the functions there are have plain bodies *)
Definition plain_functions (s : state) : Prop :=
  forall o ps r body st, nth_error (heap s) o = Some (OFunc ps r body st) -> Forall plain body.
(** the scopes of the top level belong to no function *)
Definition own_scopes (s : state) : Prop :=
  (forall o ps r body st, nth_error (heap s) o = Some (OFunc ps r body st) -> st <> 0) /\
  (forall j i, j <> 0 -> In i (nth j (stacks s) []) -> In i (nth 0 (stacks s) []) -> False).
End Forms.

(** the innermost scope gives the name [x] the object [o] *)
Definition innermost (x : bytes) (o : nat) (s : state) : option state :=
  match rev (nth (cur s) (stacks s) []) with
  | [] => None
  | i :: _ => Some (with_scopes (upd i (dict_set (nth i (scopes s) []) x o) (scopes s)) s)
  end.
(** ** Loops *)
(** the objects at which foreach puts its variables: the elements of an array themselves; a new
    string for the key of a dictionary and its value; a new number for an element of a range *)
Definition on_key (k v : bytes) (p : bytes * nat) (s : state) : option state :=
  match innermost k (length (heap s)) (made [OStr (fst p)] s) with
  | Some s1 => innermost v (snd p) s1
  | None => None
  end.
Definition on_number (x : bytes) (n : Z) (s : state) : option state :=
  innermost x (length (heap s)) (made [ONum n] s).
(** start, start + step, ... as far as it is below stop *)
Definition counts (start stop step : Z) (l : list Z) : Prop :=
  (forall k n, nth_error l k = Some n -> n = (start + Z.of_nat k * step)%Z /\ (n < stop)%Z) /\
  (stop <= start + Z.of_nat (length l) * step)%Z.

(** ** Builtins *)
Definition not_func (x : obj) : Prop := match x with OFunc _ _ _ _ => False | _ => True end.
(** the builtins left open do not make functions *)
Definition tame (b : builtin) : Prop :=
  forall h l new o, snd b h l = Some (new, o) -> Forall not_func new.

(** ** Arguments *)
(** the disabler, or an array that contains it, at any depth *)
Inductive disabled : value -> Prop :=
| disabled_self : disabled (VOther disabler_id)
| disabled_in l : Exists disabled l -> disabled (VArr l).
Section Args.
Variable other : bytes -> option builtin.
Variable method : obj -> bytes -> option builtin.
Notation evaluates := (evaluates other method).
(** the object is a value of the type, and holds no disabler; object 1 is the disabler *)
Definition accepted (t : obj -> bool) (s : state) (o : nat) : Prop :=
  nth_error (heap s) disabler_id = Some ODisabler /\
  exists v x, denotes (heap s) o v /\ ~ disabled v /\
    nth_error (heap s) o = Some x /\ x <> ONull /\ t x = true.
(** the arguments are evaluated in turn and accepted *)
Inductive arguments : list (obj -> bool) -> list expr -> state -> state -> list nat -> Prop :=
| arguments_nil s : arguments [] [] s s []
| arguments_cons t ts e es s s1 o s2 os :
    evaluates (NExpr e) s s1 o -> accepted t s1 o -> arguments ts es s1 s2 os ->
    arguments (t :: ts) (e :: es) s s2 (o :: os).
(** ... until one is, or holds, a disabler *)
Inductive stopped : list (obj -> bool) -> list expr -> state -> state -> Prop :=
| stopped_here t ts e es s s1 o v :
    evaluates (NExpr e) s s1 o -> denotes (heap s1) o v -> disabled v ->
    stopped (t :: ts) (e :: es) s s1
| stopped_later t ts e es s s1 o s2 :
    evaluates (NExpr e) s s1 o -> accepted t s1 o -> stopped ts es s1 s2 ->
    stopped (t :: ts) (e :: es) s s2.
End Args.

(** ** For the examples: the language without further builtins, and the state after a program *)
Definition none (f : bytes) : option builtin := None.
Definition no_methods (x : obj) (m : bytes) : option builtin := None.
Definition after (p : list stmt) : state :=
  match run none no_methods 60 p with Ok s _ => s | _ => start_state end.
