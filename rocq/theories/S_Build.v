(** What a user of the bundled ninja expects of a build, in terms of the build
    graph, the time stamps and what is seen of the build from outside. *)

From Coq Require Import List Bool Arith ZArith NArith.
From Verif Require Import M_Build.
Import ListNotations.

(** ** Graphs *)

(** The parser links nodes and edges both ways: an edge is the generator of
    exactly its outputs, it is recorded as user of a node once for each time
    it lists it as input, and there is at least one output (parse.c 65-140,
    graph.c 118-127). *)
Record well_formed (g : graph) : Prop := {
  wf_gen : forall n e, gen g n = Some e <-> In n (outs g e);
  wf_outs : forall e, NoDup (outs g e);
  wf_uses : forall n e, count_occ Nat.eq_dec (uses g n) e = count_occ Nat.eq_dec (ins g e) n;
  wf_edges : forall n e, gen g n = Some e -> e < nedges g;
  wf_depth : forall p, (0 < depth g p)%Z
}.

(** Edge [e] has an input that edge [d] produces. *)
Definition needs (g : graph) (e d : nat) : Prop :=
  exists n, In n (ins g e) /\ gen g n = Some d.

(** ... directly or through other edges. *)
Inductive depends (g : graph) : nat -> nat -> Prop :=
| dep_one e d : needs g e d -> depends g e d
| dep_more e m d : needs g e m -> depends g m d -> depends g e d.

(** The edges that take part in building the given targets. *)
Inductive wanted (g : graph) (targets : list nat) : nat -> Prop :=
| wanted_target n e : In n targets -> gen g n = Some e -> wanted g targets e
| wanted_needed e d : wanted g targets e -> needs g e d -> wanted g targets d.

(** ** Out-of-date outputs and edges *)

(** Inputs that are not order-only. *)
Definition normal_ins (g : graph) (e : nat) : list nat := firstn (inorder g e) (ins g e).

(** Some input that is not order-only was modified after time [t]. *)
Definition input_after (g : graph) (fs : files) (e : nat) (t : Z) : Prop :=
  exists i u, In i (normal_ins g e) /\ mtime fs i = Some u /\ (t < u)%Z.

(** Output [n] of [e] has to be made again, whatever happens to other
    edges. *)
Inductive output_old (g : graph) (fs : files) (e n : nat) : Prop :=
| old_phony : phony g e = true -> ins g e = [] -> mtime fs n = None -> output_old g fs e n
| old_missing : phony g e = false -> mtime fs n = None -> output_old g fs e n
| old_input t : phony g e = false -> mtime fs n = Some t -> input_after g fs e t ->
    restat g e = false \/ logmtime fs n = None -> output_old g fs e n
| old_recorded l : phony g e = false -> logmtime fs n = Some l -> input_after g fs e l -> output_old g fs e n
| old_unrecorded : phony g e = false -> generator g e = false -> logmtime fs n = None -> output_old g fs e n
| old_command : phony g e = false -> generator g e = false -> cmdhash g e <> loghash fs n -> output_old g fs e n.

Definition self_old (g : graph) (fs : files) (e : nat) : Prop :=
  deps_lost g e = true \/ exists n, In n (outs g e) /\ output_old g fs e n.

Inductive outdated (g : graph) (fs : files) : nat -> Prop :=
| outdated_self e : self_old g fs e -> outdated g fs e
| outdated_input e n d : In n (normal_ins g e) -> gen g n = Some d -> outdated g fs d -> outdated g fs e.

(** ** Outcomes of a build *)

Definition succeeded (tr : list event) (e : nat) : Prop := exists u, In (Finish e true u) tr.

(** The command of [e] ended with an error or could not be started. *)
Definition failed (tr : list event) (e : nat) : Prop :=
  (exists u, In (Finish e false u) tr) \/ In (StartFailed e) tr.

(** Node [n] has the content it had before the build: it is a source, its
    edge was up to date, the command of its edge left it alone (restat), or
    all inputs of its edge are unchanged and it was not out of date
    itself. *)
Inductive unchanged (g : graph) (fs : files) (tr : list event) : nat -> Prop :=
| unchanged_source n : gen g n = None -> unchanged g fs tr n
| unchanged_clean n e : gen g n = Some e -> ~ outdated g fs e -> unchanged g fs tr n
| unchanged_restat n e u : gen g n = Some e -> restat g e = true -> In (Finish e true u) tr -> In n u -> unchanged g fs tr n
| unchanged_inputs n e : gen g n = Some e -> ~ self_old g fs e ->
    (forall m, In m (ins g e) -> unchanged g fs tr m) -> unchanged g fs tr n.

(** An edge that need not run although it looked out of date. *)
Definition unneeded (g : graph) (fs : files) (tr : list event) (e : nat) : Prop :=
  ~ self_old g fs e /\ forall n, In n (ins g e) -> unchanged g fs tr n.

(** ** Running jobs *)

(** Edges started and not yet ended, in a history. *)
Fixpoint running_after (tr : list event) (now : list nat) : list nat :=
  match tr with
  | [] => now
  | Start e :: tr' => running_after tr' (e :: now)
  | StartFailed _ :: tr' => running_after tr' now
  | Finish e _ _ :: tr' => running_after tr' (remove Nat.eq_dec e now)
  end.
Definition running_in (tr : list event) : list nat := running_after tr [].

Definition in_pool (g : graph) (p : nat) (e : nat) : bool :=
  match pool g e with Some q => q =? p | None => false end.

(** Commands started, and number of failures, in a history. *)
Fixpoint starts (tr : list event) : list nat :=
  match tr with
  | [] => []
  | Start e :: tr' => e :: starts tr'
  | _ :: tr' => starts tr'
  end.

Definition is_failure (ev : event) : bool :=
  match ev with StartFailed _ => true | Finish _ ok _ => negb ok | Start _ => false end.
Definition failures (tr : list event) : nat := length (filter is_failure tr).

(** ** Requests that cannot be met *)

(** Files that have to exist or be made. *)
Definition requested (g : graph) (targets : list nat) (n : nat) : Prop :=
  In n targets \/ exists e, wanted g targets e /\ In n (ins g e).

Definition has_cycle (g : graph) (targets : list nat) : Prop :=
  exists e, wanted g targets e /\ depends g e e.

Definition missing_source (g : graph) (fs : files) (targets : list nat) : Prop :=
  exists n, requested g targets n /\ gen g n = None /\ mtime fs n = None.

(** ** The end of a build *)

(** Nothing more can happen after [cs]. *)
Definition ended (g : graph) (fs : files) (o : opts) (d0 : nat -> bool) (targets : list nat) (cs : list choice) : Prop :=
  forall c, run g fs o d0 targets (cs ++ [c]) = Off.
