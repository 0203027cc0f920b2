(** What the rules of a source set say. *)
From Coq Require Import ZArith.
From Verif Require Import Base M_SourceSet.

Section Spec.
(** which dependencies were found, the configuration, and the rules of every source set *)
Variable found : nat -> Prop.
Variable value : bytes -> cvalue -> Prop.
Variable rules_of : nat -> rule -> Prop.

(** values that count as true *)
Definition truthy (v : cvalue) : Prop :=
  match v with CBool b => b = true | CStr s => s <> [] | CNum n => (0 < n)%Z | COther => False end.
Definition holds (c : cond) : Prop :=
  match c with Key k => exists v, value k v /\ truthy v | Found d => found d end.
Definition conditions (r : rule) : list cond := match when r with Some l => l | None => [] end.
Definition applies (r : rule) : Prop := forall c, In c (conditions r) -> holds c.
Definition among (x : item) (l : option (list item)) : Prop := exists l', l = Some l' /\ In x l'.
Definition nested (x : item) : Prop := exists i, x = Set_ i.

(** the items a source set stands for: those of the rules that apply, with the dependencies these
    rules ask for, the alternatives of the other rules, and those of the sets of rules that apply *)
Inductive picked : nat -> item -> Prop :=
| p_true s r x : rules_of s r -> applies r -> among x (if_true r) -> ~ nested x -> picked s x
| p_when s r d : rules_of s r -> applies r -> if_true r <> None -> In (Found d) (conditions r) -> picked s (Dep d)
| p_false s r x : rules_of s r -> ~ applies r -> among x (if_false r) -> picked s x
| p_set s r t x : rules_of s r -> applies r -> among (Set_ t) (if_true r) -> picked t x -> picked s x.

(** the source sets that are parts of a source set, itself included *)
Inductive part : nat -> nat -> Prop :=
| part_self s : part s s
| part_set s r t u : rules_of s r -> among (Set_ t) (if_true r) -> part t u -> part s u.
End Spec.

(** the rules of the sets of a heap, the pairs of a configuration *)
Definition has_rule (h : heap) (s : nat) (r : rule) : Prop := exists ss, nth_error h s = Some ss /\ In r (rules ss).
Definition has_value (c : conf) (k : bytes) (v : cvalue) : Prop :=
  exists before after, c = before ++ (k, v) :: after /\ ~ In k (map fst before).
Definition in_conf (c : conf) (k : bytes) : Prop := In k (map fst c).

(** histories in which no source set is added to itself *)
Definition no_self_add (c : command) : Prop :=
  match c with
  | AddAll i pos _ t => ~ In (Set_ i) pos /\ ~ among (Set_ i) t
  | _ => True
  end.
Definition is_source_item (x : item) : Prop := match x with Dep _ | Set_ _ => False | _ => True end.
Definition is_dependency (x : item) : Prop := exists d, x = Dep d.

(** everything a source set and its parts mention *)
Inductive mentioned (rules_of : nat -> rule -> Prop) : nat -> item -> Prop :=
| m_true s r x : rules_of s r -> among x (if_true r) -> ~ nested x -> mentioned rules_of s x
| m_when s r d : rules_of s r -> if_true r <> None -> In (Found d) (conditions r) -> mentioned rules_of s (Dep d)
| m_false s r x : rules_of s r -> among x (if_false r) -> mentioned rules_of s x
| m_set s r t x : rules_of s r -> among (Set_ t) (if_true r) -> mentioned rules_of t x -> mentioned rules_of s x.

(** a rule of which a condition cannot be decided, because the configuration does not have the key *)
Definition undecided (found : nat -> Prop) (c : conf) (r : rule) : Prop :=
  exists before k after, conditions r = before ++ Key k :: after
    /\ (forall x, In x before -> holds found (has_value c) x) /\ ~ in_conf c k.
