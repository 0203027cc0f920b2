(** Model of build variables: src/external/samurai/env.c (the search trees are modelled in
    M_Tree, parsed strings and the quoting of paths in M_Escape). *)
From Verif Require Import Base M_Tree M_Escape.

(** env.c 18-23: the bindings of a scope; rules are not needed here *)
Definition scope := tree bytes.

(** env.c 44-48 and 80-84: samu_addvar and samu_envaddvar for a sequence of bindings added to
    an empty environment (samu_mkenv, 50-63) *)
Definition mkscope (bs : list (bytes * bytes)) : option scope := insert_all Leaf bs.
(** env.c 173-189: samu_mkrule and samu_ruleaddvar *)
Definition mkrule (bs : list (bytes * list part)) : option (tree (list part)) := insert_all Leaf bs.

(** env.c 65-78 samu_envvar; the list holds the scope and its parents, inside out *)
Fixpoint envvar (env : list scope) (var : bytes) : option bytes :=
  match env with
  | [] => None
  | s :: env' => match treefind s var with Some v => Some v | None => envvar env' var end
  end.

(** env.c 106-123 samu_enveval with samu_merge (86-104): an unset variable is empty *)
Definition enveval (env : list scope) (str : list part) : bytes := eval_parts (envvar env) str.

(** env.c 147-171 samu_pathlist with samu_nodepath (graph.c 89-124) without quoting; with
    quoting it is [M_Escape.pathlist] *)
Definition plain_pathlist (nodes : list bytes) (sep : ascii) : option bytes :=
  match nodes with
  | [] => None
  | [n] => Some n
  | _ => let r := concat (map (fun n => n ++ [sep]) nodes) in Some (removelast r)
  end.

(** include/external/samurai/ctx.h 89-125: the parts of an edge that matter for variables.
    [e_parents] is e->env->parent and its parents. *)
Record edge := Edge {
  e_in : list bytes; e_inimpidx : nat;
  e_out : list bytes; e_outimpidx : nat;
  e_own : scope;
  e_rulevars : tree (list part);
  e_parents : list scope
}.

Inductive result := Val (v : option bytes) | Cycle (var : bytes) | Fuel.

Fixpoint tsize {V} (t : tree V) : nat :=
  match t with Leaf => 0 | Node l _ _ _ r => S (tsize l + tsize r) end.

(** env.c 216-221 and 223: evaluate the pieces and join them *)
Definition pieces (get : bytes -> result) :=
  fix go (ps : list part) : result :=
    match ps with
    | [] => Val (Some [])
    | p :: ps' =>
      match (match p with PStr s => Val (Some s) | PVar v => get v end) with
      | Val x =>
        match go ps' with
        | Val (Some y) => Val (Some ((match x with Some s => s | None => [] end) ++ y))
        | r => r
        end
      | r => r
      end
    end.

(** env.c 191-224 samu_edgevar.  The code marks a rule variable while it is being evaluated;
    here [marked] lists the marked ones. *)
Fixpoint edgevar_at (fuel : nat) (e : edge) (escape : bool) (marked : list bytes) (var : bytes) : result :=
  let paths := if escape then pathlist else plain_pathlist in
  if beqb var (B "in") then Val (paths (firstn (e_inimpidx e) (e_in e)) " "%char)
  else if beqb var (B "in_newline") then Val (paths (firstn (e_inimpidx e) (e_in e)) NL)
  else if beqb var (B "out") then Val (paths (firstn (e_outimpidx e) (e_out e)) " "%char)
  else
    match treefind (e_own e) var with
    | Some v => Val (Some v)
    | None =>
      match treefind (e_rulevars e) var with
      | None => Val (envvar (e_parents e) var)
      | Some str =>
        if existsb (beqb var) marked then Cycle var
        else
          match fuel with
          | 0 => Fuel
          | S fuel' => pieces (edgevar_at fuel' e escape (var :: marked)) str
          end
      end
    end.

Definition edgevar (e : edge) (escape : bool) (var : bytes) : result :=
  edgevar_at (S (tsize (e_rulevars e))) e escape [] var.
