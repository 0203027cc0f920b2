(** What a variable of a build edge stands for, in terms of the definitions as written. *)
From Verif Require Import Base M_Escape S_Tree.

(** The definitions an edge sees, each in the order in which they were given: its own, those of
    its rule, and those of the enclosing scopes from inside out. *)
Record defs := Defs {
  inputs : list bytes;         (** explicit inputs *)
  outputs : list bytes;        (** explicit outputs *)
  own : list (bytes * bytes);
  rule : list (bytes * list part);
  scopes : list (list (bytes * bytes))
}.

Definition built_in (var : bytes) : Prop := var = B "in" \/ var = B "in_newline" \/ var = B "out".

(** Paths separated by [sep]; nothing for no paths.  [show] is the quoting. *)
Definition listed (show : bytes -> bytes) (sep : ascii) (paths : list bytes) : option bytes :=
  match paths with [] => None | _ => Some (joinb [sep] (map show paths)) end.

(** The definition in the innermost scope that has one. *)
Fixpoint innermost (ss : list (list (bytes * bytes))) (var : bytes) : option bytes :=
  match ss with
  | [] => None
  | s :: ss' => match last_value s var with Some v => Some v | None => innermost ss' var end
  end.

Definition or_empty (v : option bytes) : bytes := match v with Some s => s | None => [] end.

Inductive value (show : bytes -> bytes) (d : defs) : bytes -> option bytes -> Prop :=
| v_in : value show d (B "in") (listed show " " (inputs d))
| v_in_newline : value show d (B "in_newline") (listed show NL (inputs d))
| v_out : value show d (B "out") (listed show " " (outputs d))
| v_own var v : ~ built_in var -> last_value (own d) var = Some v -> value show d var (Some v)
| v_rule var ps s : ~ built_in var -> last_value (own d) var = None -> last_value (rule d) var = Some ps ->
    text show d ps s -> value show d var (Some s)
| v_scope var : ~ built_in var -> last_value (own d) var = None -> last_value (rule d) var = None ->
    value show d var (innermost (scopes d) var)
with text (show : bytes -> bytes) (d : defs) : list part -> bytes -> Prop :=
| t_nil : text show d [] []
| t_str s ps t : text show d ps t -> text show d (PStr s :: ps) (s ++ t)
| t_var v x ps t : value show d v x -> text show d ps t -> text show d (PVar v :: ps) (or_empty x ++ t).

(** The value of [x] is given by the rule, and mentions [y]. *)
Definition mentions (d : defs) (x y : bytes) : Prop :=
  ~ built_in x /\ last_value (own d) x = None /\ exists ps, last_value (rule d) x = Some ps /\ In (PVar y) ps.

Inductive reaches (d : defs) : bytes -> bytes -> Prop :=
| r_one x y : mentions d x y -> reaches d x y
| r_more x y z : mentions d x y -> reaches d y z -> reaches d x z.

(** Evaluating [var] leads to a variable defined in terms of itself. *)
Definition circular (d : defs) (var : bytes) : Prop :=
  exists z, (z = var \/ reaches d var z) /\ reaches d z z.
