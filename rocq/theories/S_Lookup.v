(** What the documentation says of dependency(), independently of the code. *)
From Verif Require Import Base S_Version M_Feature S_Feature M_Lookup.

(** What a project does, in order: look for dependencies and override dependencies. *)
Inductive op := Look (k : call) | Override (n : bytes) (d : dep) (static : bool).
Definition empty : st := {| c_static := []; c_shared := []; o_static := []; o_shared := []; configured := []; events := [] |}.
Definition step (w : world) (g : option state) (s : st) (o : op) : st :=
  match o with Look k => fst (dependency w g k s) | Override n d b => override_dependency n d b s end.
Definition run (w : world) (g : option state) (ops : list op) (s : st) : st := fold_left (step w g) ops s.

(** the keyword required *)
Definition disabled (g : option state) (k : call) : Prop := exists fo, k_required k = Some (KFeature fo) /\ seen g fo Disabled.
Definition required (g : option state) (k : call) : Prop :=
  k_required k = None \/ k_required k = Some (KBool true) \/ exists fo, k_required k = Some (KFeature fo) /\ seen g fo Enabled.
Definition optional (g : option state) (k : call) : Prop :=
  k_required k = Some (KBool false) \/ exists fo, k_required k = Some (KFeature fo) /\ seen g fo Auto.
(** a version that meets what the call asks for *)
Definition meets (k : call) (v : bytes) : Prop :=
  match k_version k with None => True | Some reqs => reqs <> [] /\ Forall (requirement_holds v) reqs end.
(** the call asks for static libraries *)
Definition wants_static (k : call) : bool := match k_static k with Some true => true | _ => false end.
(** [n] is not one of the names that mean something else than a package *)
Definition ordinary (n : bytes) : Prop := ~ In n [B "threads"; B "curses"; B "appleframeworks"; []].
(** a package of the system *)
Definition package (n : bytes) (static : bool) (v : bytes) : dep := {| dp_from := FromSystem n static; dp_version := Some v; dp_found := true |}.
Definition suits (w : world) (k : call) (n v : bytes) : Prop := pkg w n (wants_static k) = Some v /\ meets k v.
(** the call may use a subproject: allow_fallback says so, or it is not given and there is a fallback or the dependency is required *)
Definition falls_back (g : option state) (k : call) : Prop :=
  k_allow k = Some true \/ k_allow k = None /\ (required g k \/ exists n l, k_fallback k = Some (n :: l)).
(** nothing is known of a name yet *)
Definition is_new (s : st) (n : bytes) : Prop :=
  forall d, ~ In (n, d) (c_static s ++ c_shared s ++ o_static s ++ o_shared s).
(** the name is looked for in subprojects first *)
Definition forced (w : world) (n : bytes) : Prop := wrap w = Forcefallback \/ In n (force_for w).
(** a subproject has been configured *)
Definition is_configured (s : st) (n : bytes) : Prop := exists vars, In (n, vars) (configured s).
(** the dependencies that the project and its subprojects offer in place of those of the system *)
Definition offered (w : world) (ops : list op) (d : dep) : Prop :=
  (exists n b, In (Override n d b) ops)
  \/ exists n opts sp, subs w n opts = Some sp /\ exists m, In (m, d) (s_static sp ++ s_shared sp) \/ In (m, VDep d) (s_vars sp).
(** dependencies that need not be looked for *)
Definition built_in (d : dep) : Prop := match dp_from d with Threads | Frameworks _ => True | _ => False end.
(** what a fallback is configured with: the options of the call, and the kind of library it asks for *)
Definition options_for (k : call) (opts : list bytes) : Prop :=
  match k_static k with
  | None => opts = k_defaults k
  | Some b => let o := B (if b then "default_library=static" else "default_library=shared") in
              In o (k_defaults k) /\ opts = k_defaults k \/ ~ In o (k_defaults k) /\ opts = k_defaults k ++ [o]
  end.
(** the fallback of a name: the keyword, or what a wrap file provides, or the subproject of that name *)
Inductive fallback_of (w : world) (k : call) (n : bytes) : list bytes -> Prop :=
| fo_given fb : k_fallback k = Some fb -> fallback_of w k n fb
| fo_wrap fb l1 l2 : k_fallback k = None -> provides w = l1 ++ (n, fb) :: l2 -> (forall f, ~ In (n, f) l1) -> fallback_of w k n fb
| fo_name : k_fallback k = None -> (forall f, ~ In (n, f) (provides w)) -> fallback_of w k n [n].
(** the dependency that a subproject offers under a name, to a call that asks for static, shared or any libraries: the static one first *)
Definition offers (k : call) (sp : sub) (n : bytes) (d : dep) : Prop :=
  let first l := exists l1 l2 : list (bytes * dep), l = l1 ++ (n, d) :: l2 /\ forall e, ~ In (n, e) l1 in
  match k_static k with
  | Some true => first (s_static sp)
  | Some false => first (s_shared sp)
  | None => first (s_static sp) \/ (forall e, ~ In (n, e) (s_static sp)) /\ first (s_shared sp)
  end.
(** the variable of a subproject *)
Definition variable (sp : sub) (v : bytes) (d : dep) : Prop :=
  exists l1 l2, s_vars sp = l1 ++ (v, VDep d) :: l2 /\ forall e, ~ In (v, e) l1.
