(** Model of the build scheduler of the bundled ninja implementation:
    src/external/samurai/build.c lines 32-525, with the data structures of
    include/external/samurai/ctx.h lines 67-171.

    Nodes (files), edges (build statements) and pools are numbered.  What the
    scheduler is given:

    - a [graph]: the parsed manifest after samu_depsload (deps.c 477-512) has
      added the recorded header dependencies to every edge.  The code loads
      these lazily, when buildadd first reaches the edge, and always before
      it looks at the edge's inputs, so loading them up front makes no
      difference to the rest of buildadd;
    - [files]: the modification times and the build log, as read by
      samu_nodestat and samu_loginit.  [None] stands for
      SAMU_MTIME_MISSING;
    - the outside world during the build, as a list of [choice]s: whether a
      job could be started, which running job ended next, with what
      result, and which outputs kept their modification time.

    Not modelled: status output, the -d explain messages, response files,
    the deps and build logs written by edgedone (modelled in M_Logs), and
    rebuilding of the manifest itself (samu.c 229-244). *)

From Coq Require Import List Bool Arith ZArith NArith Lia.
Import ListNotations.

(** include/external/samurai/ctx.h lines 67-86 and 89-125, the fields set by
    the parser.  [ins] lists explicit, implicit and order-only inputs in this
    order, [inorder] is the index of the first order-only one.  [deps_lost]
    says that samu_depsload found no usable dependency record.  [cmdhash] is
    the value computed by samu_edgehash (graph.c 156-179).  Field [depth] is
    the [maxjobs] of a pool (ctx.h 143-149). *)
Record graph := Graph {
  nedges : nat;
  ins : nat -> list nat;
  inorder : nat -> nat;
  outs : nat -> list nat;
  gen : nat -> option nat;
  uses : nat -> list nat;
  phony : nat -> bool;
  generator : nat -> bool;
  restat : nat -> bool;
  pool : nat -> option nat;
  depth : nat -> Z;
  cmdhash : nat -> N;
  deps_lost : nat -> bool
}.

(** ctx.h lines 71-79: modification time, and time and command hash found in
    the build log. *)
Record files := Files {
  mtime : nat -> option Z;
  logmtime : nat -> option Z;
  loghash : nat -> N
}.

(** Ghost state: where an edge is in its life.  It is written next to the
    code's own updates and never read by the model. *)
Inductive stage :=
| Unused | Adding | UpToDate | Waiting | Ready | Running | Finished | Failed | Pruned.

(** ctx.h lines 106-119.  The counters are size_t in the code; a counter that
    would wrap below 0 is negative here, which is equally different
    from 0. *)
Record est := Est {
  f_work : bool; f_cycle : bool; f_in : bool; f_out : bool;
  nblock : Z; nprune : Z
}.

(** Ghost state: what an observer of the build sees. *)
Inductive event :=
| Start (e : nat)
| StartFailed (e : nat)
| Finish (e : nat) (ok : bool) (unchanged : list nat).

(** ctx.h lines 143-156 and the locals of samu_build (build.c 440-442).  The
    job slots are kept as the list of running edges: which slot a job sits in
    only affects the order in which ended jobs are noticed, and that order is
    left to the outside world. *)
Record state := State {
  es : nat -> est;
  dirty : nat -> bool;
  work : list nat;
  pnum : nat -> Z;
  pwork : nat -> list nat;
  ntotal : Z;
  running : list nat;
  numfail : nat;
  stages : nat -> stage;
  trace : list event
}.

Definition upf {A} (f : nat -> A) (k : nat) (v : A) : nat -> A :=
  fun x => if x =? k then v else f x.

Definition set_es f st := State f (dirty st) (work st) (pnum st) (pwork st) (ntotal st) (running st) (numfail st) (stages st) (trace st).
Definition set_dirty d st := State (es st) d (work st) (pnum st) (pwork st) (ntotal st) (running st) (numfail st) (stages st) (trace st).
Definition set_work w st := State (es st) (dirty st) w (pnum st) (pwork st) (ntotal st) (running st) (numfail st) (stages st) (trace st).
Definition set_pnum p st := State (es st) (dirty st) (work st) p (pwork st) (ntotal st) (running st) (numfail st) (stages st) (trace st).
Definition set_pwork p st := State (es st) (dirty st) (work st) (pnum st) p (ntotal st) (running st) (numfail st) (stages st) (trace st).
Definition set_ntotal n st := State (es st) (dirty st) (work st) (pnum st) (pwork st) n (running st) (numfail st) (stages st) (trace st).
Definition set_running r st := State (es st) (dirty st) (work st) (pnum st) (pwork st) (ntotal st) r (numfail st) (stages st) (trace st).
Definition set_numfail n st := State (es st) (dirty st) (work st) (pnum st) (pwork st) (ntotal st) (running st) n (stages st) (trace st).
Definition set_stages s st := State (es st) (dirty st) (work st) (pnum st) (pwork st) (ntotal st) (running st) (numfail st) s (trace st).
Definition set_trace t st := State (es st) (dirty st) (work st) (pnum st) (pwork st) (ntotal st) (running st) (numfail st) (stages st) t.

Definition upd_es (e : nat) (f : est -> est) (st : state) : state :=
  set_es (upf (es st) e (f (es st e))) st.
Definition to_stage (e : nat) (s : stage) (st : state) : state :=
  set_stages (upf (stages st) e s) st.
Definition emit (ev : event) (st : state) : state :=
  set_trace (trace st ++ [ev]) st.

(** Results: [Fatal] is samu_fatal (the process exits), [Fuel] says that the
    bound on the recursion was too small, [Off] that the choice is not
    possible in this state. *)
Inductive res (A : Type) := Ok (a : A) | Fatal | Fuel | Off.
Arguments Ok {A}. Arguments Fatal {A}. Arguments Fuel {A}. Arguments Off {A}.

Definition bind {A B} (r : res A) (k : A -> res B) : res B :=
  match r with Ok a => k a | Fatal => Fatal | Fuel => Fuel | Off => Off end.

(** FLAG_DIRTY, ctx.h line 116. *)
Definition f_dirty (s : est) : bool := f_in s || f_out s.

(** build.c lines 41-46 (samu_isnewer).  Only the modification time of the
    newest input is kept. *)
Definition isnewer (newest : option Z) (t : Z) : bool :=
  match newest with Some u => (u >? t)%Z | None => false end.

(** build.c lines 48-95 (samu_isdirty). *)
Definition isdirty (g : graph) (fs : files) (n : nat) (newest : option Z) (e : nat) : bool :=
  if phony g e then
    match ins g e, mtime fs n with
    | [], None => true
    | _, _ => false
    end
  else
    match mtime fs n with
    | None => true
    | Some t =>
      if isnewer newest t && (negb (restat g e) || match logmtime fs n with None => true | Some _ => false end)
      then true
      else
        let changed := if generator g e then false
                       else negb (cmdhash g e =? loghash fs n)%N in
        match logmtime fs n with
        | None => if negb (generator g e) then true else changed
        | Some l =>
          if match newest with Some u => (l <? u)%Z | None => false end then true
          else changed
        end
    end.

(** build.c lines 97-111 (samu_queue). *)
Definition queue (g : graph) (e : nat) (st : state) : state :=
  let front st := set_work (e :: work st) st in
  let st := to_stage e Ready st in
  match pool g e with
  | Some p =>
    if phony g e then front st
    else if (pnum st p =? depth g p)%Z
         then set_pwork (upf (pwork st) p (e :: pwork st p)) st
         else front (set_pnum (upf (pnum st) p (pnum st p + 1)%Z) st)
  | None => front st
  end.

(** build.c lines 144-155: the loop over the inputs; [i] is the index. *)
Definition inputs_loop (g : graph) (fs : files) (add : nat -> state -> res state) (e : nat) :=
  fix go (ns : list nat) (i : nat) (newest : option Z) (st : state) : res (state * option Z) :=
    match ns with
    | [] => Ok (st, newest)
    | n :: ns' =>
      bind (add n st) (fun st =>
        let '(st, newest) :=
          if i <? inorder g e then
            ((if dirty st n
              then upd_es e (fun s => Est (f_work s) (f_cycle s) true (f_out s) (nblock s) (nprune s)) st
              else st),
             match mtime fs n with
             | None => newest
             | Some t => if isnewer newest t then newest else Some t
             end)
          else (st, newest) in
        let blocked :=
          dirty st n || match gen g n with
                        | Some e' => (nblock (es st e') >? 0)%Z
                        | None => false
                        end in
        let st := if blocked
                  then upd_es e (fun s => Est (f_work s) (f_cycle s) (f_in s) (f_out s) (nblock s + 1)%Z (nprune s)) st
                  else st in
        go ns' (S i) newest st)
    end.

(** build.c lines 159-165: look for an outdated output. *)
Fixpoint outputs_loop (g : graph) (fs : files) (e : nat) (newest : option Z) (ns : list nat) (st : state) : state :=
  match ns with
  | [] => st
  | n :: ns' =>
    if f_out (es st e) then st
    else
      let st := if isdirty g fs n newest e
                then upd_es e (fun s => Est (f_work s) (f_cycle s) (f_in s) true (nblock s) (nprune s))
                            (set_dirty (upf (dirty st) n true) st)
                else st in
      outputs_loop g fs e newest ns' st
  end.

Definition mark_all (v : bool) (ns : list nat) (st : state) : state :=
  fold_left (fun st n => set_dirty (upf (dirty st) n v) st) ns st.

(** build.c lines 156-186: the part of samu_buildadd after the inputs. *)
Definition finish_add (g : graph) (fs : files) (e : nat) (newest : option Z) (st : state) : state :=
  let st := outputs_loop g fs e newest (outs g e) st in
  let st := if f_dirty (es st e) then mark_all true (outs g e) st else st in
  let st := if f_out (es st e) then st
            else upd_es e (fun s => Est (f_work s) (f_cycle s) (f_in s) (f_out s) (nblock s) (nblock s)) st in
  let st := to_stage e (if (nblock (es st e) =? 0)%Z then UpToDate else Waiting) st in
  let st := if f_dirty (es st e) then
              let st := if (nblock (es st e) =? 0)%Z then queue g e st else st in
              if phony g e then st else set_ntotal (ntotal st + 1)%Z st
            else st in
  upd_es e (fun s => Est (f_work s) false (f_in s) (f_out s) (nblock s) (nprune s)) st.

(** build.c lines 134-142. *)
Definition begin_add (g : graph) (e : nat) (st : state) : state :=
  let st := upd_es e (fun s => Est true true (f_in s) (f_out s) (nblock s) (nprune s)) (to_stage e Adding st) in
  let st := mark_all false (outs g e) st in
  let st := if deps_lost g e then
              let st := match outs g e with
                        | n :: _ => set_dirty (upf (dirty st) n true) st
                        | [] => st
                        end in
              upd_es e (fun s => Est (f_work s) (f_cycle s) (f_in s) true (nblock s) (nprune s)) st
            else st in
  upd_es e (fun s => Est (f_work s) (f_cycle s) (f_in s) (f_out s) 0%Z (nprune s)) st.

(** build.c lines 113-187 (samu_buildadd). *)
Fixpoint buildadd (g : graph) (fs : files) (fuel : nat) (n : nat) (st : state) : res state :=
  match gen g n with
  | None =>
    match mtime fs n with
    | None => Fatal
    | Some _ => Ok (set_dirty (upf (dirty st) n false) st)
    end
  | Some e =>
    if f_cycle (es st e) then Fatal
    else if f_work (es st e) then Ok st
    else
      match fuel with
      | O => Fuel
      | S fuel' =>
        bind (inputs_loop g fs (buildadd g fs fuel') e (ins g e) 0 None (begin_add g e st))
             (fun r => Ok (finish_add g fs e (snd r) (fst r)))
      end
  end.

(** build.c lines 322-345 (samu_nodedone); [each] applies a step to every
    element of an array. *)
Definition each (f : nat -> state -> res state) :=
  fix go (l : list nat) (st : state) : res state :=
    match l with
    | [] => Ok st
    | x :: l' => bind (f x st) (go l')
    end.

Fixpoint nodedone (g : graph) (fuel : nat) (n : nat) (prune : bool) (st : state) : res state :=
  match fuel with
  | O => Fuel
  | S fuel' =>
    each (fun e st =>
      let s := es st e in
      if negb (f_work s) then Ok st
      else
        let may_prune := negb (if prune then f_out s else f_dirty s) in
        let np := if may_prune then (nprune s - 1)%Z else nprune s in
        let st := upd_es e (fun s => Est (f_work s) (f_cycle s) (f_in s) (f_out s) (nblock s) np) st in
        if may_prune && (np =? 0)%Z then
          bind (each (fun o => nodedone g fuel' o true) (outs g e) (to_stage e Pruned st)) (fun st =>
          Ok (if f_dirty s && negb (phony g e)
              then set_ntotal (ntotal st - 1)%Z st else st))
        else
          let nb := (nblock s - 1)%Z in
          let st := upd_es e (fun s => Est (f_work s) (f_cycle s) (f_in s) (f_out s) nb (nprune s)) st in
          Ok (if (nb =? 0)%Z then queue g e st else st))
      (uses g n) st
  end.

(** Recursion bound used below: one more than the number of edges. *)
Definition node_fuel (g : graph) : nat := S (nedges g).

(** build.c lines 347-384: samu_shouldprune and the loop of samu_edgedone;
    [same n] says that the modification time of output [n] did not change. *)
Definition edgedone (g : graph) (e : nat) (same : nat -> bool) (st : state) : res state :=
  each (fun n => nodedone g (node_fuel g) n (restat g e && same n)) (outs g e) st.

(** build.c lines 397-435 (samu_jobdone). *)
Definition jobdone (g : graph) (e : nat) (ok : bool) (same : nat -> bool) (st : state) : res state :=
  let st := match pool g e with
            | Some p =>
              match pwork st p with
              | new :: rest => set_work (new :: work st) (set_pwork (upf (pwork st) p rest) st)
              | [] => set_pnum (upf (pnum st) p (pnum st p - 1)%Z) st
              end
            | None => st
            end in
  if ok then edgedone g e same (to_stage e Finished st)
  else Ok (to_stage e Failed st).

(** What happens next: the front edge of the work queue is taken (and its
    command can be started or not), or a running job ends. *)
Inductive choice :=
| Take (started : bool)
| End_ (e : nat) (ok : bool) (same : nat -> bool).

Definition remove_one (e : nat) :=
  fix go (l : list nat) : list nat :=
    match l with
    | [] => []
    | x :: l' => if x =? e then l' else x :: go l'
    end.

(** include/external/samurai/ctx.h lines 40-44. *)
Record opts := Opts { maxjobs : nat; maxfail : nat; dryrun : bool }.

(** build.c lines 455-486 (one round of the inner loop of samu_build) and
    496-513 (one ended job). *)
Definition step (g : graph) (o : opts) (st : state) (c : choice) : res state :=
  match c with
  | Take started =>
    if (length (running st) <? maxjobs o) && (numfail st <? maxfail o) then
      match work st with
      | [] => Off
      | e :: rest =>
        let st := set_work rest st in
        if phony g e || dryrun o then
          each (fun n => nodedone g (node_fuel g) n false) (outs g e) (to_stage e Finished st)
        else if started then
          Ok (emit (Start e) (to_stage e Running (set_running (running st ++ [e]) st)))
        else Ok (emit (StartFailed e) (to_stage e Failed (set_numfail (S (numfail st)) st)))
      end
    else Off
  | End_ e ok same =>
    if existsb (Nat.eqb e) (running st) then
      let unchanged := if ok && restat g e then filter same (outs g e) else [] in
      let st := emit (Finish e ok unchanged) (set_running (remove_one e (running st)) st) in
      bind (jobdone g e ok same st) (fun st =>
      Ok (if ok then st else set_numfail (S (numfail st)) st))
    else Off
  end.

Fixpoint steps (g : graph) (o : opts) (st : state) (cs : list choice) : res state :=
  match cs with
  | [] => Ok st
  | c :: cs' => bind (step g o st c) (fun st => steps g o st cs')
  end.

(** build.c lines 454 and 488: the loop of samu_build is left when nothing
    can be taken from the queue and no job is running. *)
Definition loop_ends (o : opts) (st : state) : bool :=
  match running st, work st with
  | [], [] => true
  | [], _ :: _ => negb ((0 <? maxjobs o) && (numfail st <? maxfail o))
  | _ :: _, _ => false
  end.

(** samu.c lines 246-256: add the targets.  Before, no edge has a flag set
    and nothing is queued; the dirty flags of nodes are whatever the
    allocator left there (graph.c 46-56 does not set them). *)
Definition init (d0 : nat -> bool) : state :=
  State (fun _ => Est false false false false 0 0) d0 [] (fun _ => 0%Z) (fun _ => []) 0 [] 0 (fun _ => Unused) [].

Definition add_targets (g : graph) (fs : files) (targets : list nat) (st : state) : res state :=
  each (buildadd g fs (S (nedges g))) targets st.

(** build.c lines 437-525 (samu_build) up to the point reached after the
    choices [cs]. *)
Definition samu_build (g : graph) (o : opts) (st : state) (cs : list choice) : res state :=
  if (ntotal st =? 0)%Z then match cs with [] => Ok st | _ :: _ => Off end
  else steps g o st cs.

Definition run (g : graph) (fs : files) (o : opts) (d0 : nat -> bool) (targets : list nat) (cs : list choice) : res state :=
  bind (add_targets g fs targets (init d0)) (fun st => samu_build g o st cs).

(** build.c lines 516-523: a build with failures ends in samu_fatal. *)
Definition build_succeeded (st : state) : bool := numfail st =? 0.
