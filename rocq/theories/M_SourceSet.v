(** Source sets: src/functions/source_set.c.

    The rules of all source sets of a workspace are kept in a heap; an item of a rule is a source,
    a dependency or a reference to another source set.  Arguments are taken to be flat lists of
    items, which is what interp_args makes of them (TYPE_TAG_GLOB, TYPE_TAG_LISTIFY:
    src/functions/common.c 471-707). *)
From Coq Require Import ZArith.
From Verif Require Import Base.

(** Items: src/functions/source_set.c 74-85, 142-176.  Targets and dependencies are the same
    object if they have the same number. *)
Inductive item :=
| Str (s : bytes)
| File (s : bytes)
| Custom (id : nat)
| Generated (id : nat)
| Dep (id : nat)
| Set_ (id : nat).

(** Conditions: src/functions/source_set.c 82 (tc_string | tc_dependency). *)
Inductive cond := Key (k : bytes) | Found (dep : nat).

(** Values of configurations: src/functions/source_set.c 205-217. *)
Inductive cvalue := CBool (b : bool) | CStr (s : bytes) | CNum (n : Z) | COther.

(** A rule is an array of three objects, each may be the null object: src/functions/source_set.c 50-55. *)
Record rule := { when : option (list cond); if_true : option (list item); if_false : option (list item) }.

(** include/lang/object.h struct obj_source_set. *)
Record sset := { rules : list rule; frozen : bool }.

Definition heap := list sset.

(** A configuration, src/functions/source_set.c 334-344: a dictionary. *)
Definition conf := list (bytes * cvalue).

Fixpoint index (c : conf) (k : bytes) : option cvalue :=
  match c with
  | [] => None
  | (k', v) :: c => if beqb k' k then Some v else index c k
  end.

(** obj_equal, src/lang/object.c 431-491, on items. *)
Definition item_eqb (a b : item) : bool :=
  match a, b with
  | Str s, Str t => beqb s t
  | File s, File t => beqb s t
  | Custom i, Custom j => i =? j
  | Generated i, Generated j => i =? j
  | Dep i, Dep j => i =? j
  | Set_ i, Set_ j => i =? j
  | _, _ => false
  end.

(** obj_array_dedup, src/lang/object.c 882-905; the table of object numbers only makes it faster. *)
Fixpoint dedup (res l : list item) : list item :=
  match l with
  | [] => res
  | x :: l => dedup (if existsb (item_eqb x) res then res else res ++ [x]) l
  end.

(** enum source_set_collect_mode, src/functions/source_set.c 125-128. *)
Inductive mode := Sources | Dependencies.

(** The fields [res] and [match] of struct source_set_collect_ctx, src/functions/source_set.c
    130-140. *)
Record ctx := { res : list item; matched : bool }.
Definition push (x : item) (c : ctx) : ctx := {| res := res c ++ [x]; matched := matched c |}.
Definition set_match (b : bool) (c : ctx) : ctx := {| res := res c; matched := b |}.

(** How an iteration ends: [Deep] is running out of stack (here: of fuel), [Unreachable] an
    assertion. *)
Inductive outcome := Cont (c : ctx) | Fail (c : ctx) | Unreachable | Deep.

Section Collect.
(** The state of the workspace and the parameters of a collection: src/functions/source_set.c
    130-140.  [found] is dep_flag_found of the dependencies. *)
Variable found : nat -> bool.
Variable h : heap.
Variable m : mode.
Variable strict : bool.
Variable cf : option conf.

(** source_set_rule_match_iter, src/functions/source_set.c 178-234, iterated over the conditions. *)
Fixpoint rule_match (l : list cond) (c : ctx) : outcome :=
  match l with
  | [] => Cont c
  | Found d :: l => if found d then rule_match l c else Cont (set_match false c)
  | Key k :: l =>
      match cf with
      | None => rule_match l c
      | Some cf =>
          match index cf k with
          | None => if strict then Fail c else Cont (set_match false c)
          | Some COther => Unreachable
          | Some (CBool b) => if b then rule_match l c else Cont (set_match false c)
          | Some (CStr s) => if 0 <? length s then rule_match l c else Cont (set_match false c)
          | Some (CNum n) => if (n >? 0)%Z then rule_match l c else Cont (set_match false c)
          end
      end
  end.

(** source_set_collect_when_deps_iter, src/functions/source_set.c 236-244. *)
Fixpoint when_deps (l : list cond) (c : ctx) : ctx :=
  match l with
  | [] => c
  | Found d :: l => when_deps l (push (Dep d) c)
  | Key _ :: l => when_deps l c
  end.

(** source_set_collect_iter, src/functions/source_set.c 142-176, iterated over the items; [nested]
    collects from another source set. *)
Fixpoint collect_items (nested : nat -> ctx -> outcome) (l : list item) (c : ctx) : outcome :=
  match l with
  | [] => Cont c
  | x :: l =>
      match x with
      | Str _ | File _ | Custom _ | Generated _ =>
          collect_items nested l match m with Sources => push x c | Dependencies => c end
      | Dep _ => collect_items nested l match m with Sources => c | Dependencies => push x c end
      | Set_ i => match nested i c with Cont c => collect_items nested l c | o => o end
      end
  end.

(** The result of an inner iteration is not looked at: src/functions/source_set.c 264, 268. *)
Definition ignore (o : outcome) : outcome := match o with Fail c => Cont c | o => o end.

(** source_set_collect_rules_iter, src/functions/source_set.c 246-273. *)
Definition collect_rule (nested : nat -> ctx -> outcome) (r : rule) (c : ctx) : outcome :=
  let c := set_match true c in
  match match when r with Some w => rule_match w c | None => Cont c end with
  | Cont c =>
      match match if_true r with
            | Some l =>
                if matched c then
                  let c := match m, when r with Dependencies, Some w => when_deps w c | _, _ => c end in
                  ignore (collect_items nested l c)
                else Cont c
            | None => Cont c
            end with
      | Cont c =>
          match if_false r with
          | Some l =>
              if match cf with None => true | Some _ => negb (matched c) end
              then ignore (collect_items nested l c) else Cont c
          | None => Cont c
          end
      | o => o
      end
  | o => o
  end.

Fixpoint collect_rules (nested : nat -> ctx -> outcome) (l : list rule) (c : ctx) : outcome :=
  match l with
  | [] => Cont c
  | r :: l => match collect_rule nested r c with Cont c => collect_rules nested l c | o => o end
  end.

(** Collecting from the source set [i], src/functions/source_set.c 164-169. *)
Fixpoint collect_set (fuel : nat) (i : nat) (c : ctx) : outcome :=
  match fuel with
  | O => Deep
  | S fuel =>
      match nth_error h i with
      | Some ss => collect_rules (collect_set fuel) (rules ss) c
      | None => Unreachable
      end
  end.
End Collect.

(** What a call gives. *)
Inductive answer (A : Type) := Good (x : A) | Error | Abort | Overflow.
Arguments Good {A}. Arguments Error {A}. Arguments Abort {A}. Arguments Overflow {A}.

(** source_set_collect, src/functions/source_set.c 275-296. *)
Definition collect (found : nat -> bool) (fuel : nat) (h : heap) (i : nat) (cf : option conf) (m : mode) (strict : bool)
  : answer (list item) :=
  match collect_set found h m strict cf fuel i {| res := []; matched := false |} with
  | Cont c => Good (dedup [] (res c))
  | Fail _ => Error
  | Unreachable => Abort
  | Deep => Overflow
  end.

Definition update (h : heap) (i : nat) (f : sset -> sset) : heap :=
  match nth_error h i with Some s => upd i (f s) h | None => h end.
Definition freeze (s : sset) : sset := {| rules := rules s; frozen := true |}.
Definition add_rule (r : rule) (s : sset) : sset := {| rules := rules s ++ [r]; frozen := frozen s |}.

(** source_set_freeze_nested_iter, src/functions/source_set.c 15-22, over the items of a rule. *)
Fixpoint freeze_nested (l : list item) (h : heap) : heap :=
  match l with
  | [] => h
  | Set_ i :: l => freeze_nested l (update h i freeze)
  | _ :: l => freeze_nested l h
  end.

(** source_set_add_rule, src/functions/source_set.c 24-58; [pos] are the positional arguments. *)
Definition source_set_add_rule (h : heap) (i : nat) (pos : list item) (r : rule) : answer heap :=
  let given {A} (o : option A) := match o with Some _ => true | None => false end in
  if (0 <? length pos) && (given (when r) || given (if_true r) || given (if_false r)) then Error
  else
    let r := if 0 <? length pos then {| when := None; if_true := Some pos; if_false := None |} else r in
    let h := match if_true r with Some l => freeze_nested l h | None => h end in
    Good (update h i (add_rule r)).

(** The types the two methods take, src/functions/source_set.c 74-85, 103-112. *)
Definition is_source (x : item) : bool := match x with Dep _ | Set_ _ => false | _ => true end.
Definition is_dep (x : item) : bool := match x with Dep _ => true | _ => false end.
(** a value is an object that exists *)
Definition is_set (h : heap) (x : item) : bool := match x with Set_ i => i <? length h | _ => false end.
Definition all_of (f : item -> bool) (o : option (list item)) : bool :=
  match o with Some l => forallb f l | None => true end.

(** func_source_set_add, src/functions/source_set.c 71-98, after interp_args (here: the test of the
    types of the items); source_set_check_not_frozen, 60-69. *)
Definition add (h : heap) (i : nat) (pos : list item) (r : rule) : answer heap :=
  if forallb (fun x => is_source x || is_dep x) pos && all_of (fun x => is_source x || is_dep x) (if_true r)
     && all_of is_source (if_false r) then
    match nth_error h i with
    | Some s => if frozen s then Error else source_set_add_rule h i pos r
    | None => Abort
    end
  else Error.

(** func_source_set_add_all, src/functions/source_set.c 100-123. *)
Definition add_all (h : heap) (i : nat) (pos : list item) (w : option (list cond)) (t : option (list item)) : answer heap :=
  if forallb (is_set h) pos && all_of (is_set h) t then
    match nth_error h i with
    | Some s => if frozen s then Error
                else source_set_add_rule h i pos {| when := w; if_true := t; if_false := None |}
    | None => Abort
    end
  else Error.

(** func_source_set_apply, src/functions/source_set.c 318-367. *)
Definition apply (found : nat -> bool) (fuel : nat) (h : heap) (i : nat) (c : conf) (strict : bool)
  : heap * answer (list item * list item) :=
  let h := update h i freeze in
  (h, match collect found fuel h i (Some c) Sources strict with
      | Good s =>
          match collect found fuel h i (Some c) Dependencies strict with
          | Good d => Good (s, d)
          | Error => Error | Abort => Abort | Overflow => Overflow
          end
      | Error => Error | Abort => Abort | Overflow => Overflow
      end).

(** func_source_set_all_sources, func_source_set_all_dependencies, src/functions/source_set.c
    298-316. *)
Definition all_sources (found : nat -> bool) (fuel : nat) (h : heap) (i : nat) : answer (list item) :=
  collect found fuel h i None Sources true.
Definition all_dependencies (found : nat -> bool) (fuel : nat) (h : heap) (i : nat) : answer (list item) :=
  collect found fuel h i None Dependencies true.

(** What a build file can do to source sets: create one (src/functions/modules/sourceset.c), add
    to one, apply one. *)
Inductive command :=
| Create
| Add (i : nat) (pos : list item) (r : rule)
| AddAll (i : nat) (pos : list item) (w : option (list cond)) (t : option (list item))
| Apply (i : nat) (c : conf) (strict : bool).

(** One command; an error ends the configuration of the project, the state is that before it. *)
Definition step (h : heap) (c : command) : heap :=
  match c with
  | Create => h ++ [{| rules := []; frozen := false |}]
  | Add i pos r => match add h i pos r with Good h => h | _ => h end
  | AddAll i pos w t => match add_all h i pos w t with Good h => h | _ => h end
  | Apply i c s => update h i freeze
  end.
Definition run (cs : list command) (h : heap) : heap := fold_left step cs h.
