(** Specification of a test run, in terms of the sequence of jobs started and finished. *)
From Verif Require Import Base M_Test.

(** The jobs running after a sequence of events. *)
Fixpoint running_from (r : list (nat * test)) (es : list event) : list (nat * test) :=
  match es with
  | [] => r
  | Start j t :: es' => running_from (r ++ [(j, t)]) es'
  | Finish j _ :: es' => running_from (filter (fun x => negb (Nat.eqb (fst x) j)) r) es'
  end.
Definition running (es : list event) : list (nat * test) := running_from [] es.
(** A test that may not run in parallel runs alone. *)
Definition exclusive (r : list (nat * test)) : Prop :=
  forall j t, In (j, t) r -> parallel t = false -> r = [(j, t)].
(** The jobs started, in order. *)
Fixpoint started (es : list event) : list (nat * test) :=
  match es with
  | [] => []
  | Start j t :: es' => (j, t) :: started es'
  | _ :: es' => started es'
  end.
(** The jobs finished, in order. *)
Fixpoint finishes (es : list event) : list (nat * ending) :=
  match es with
  | [] => []
  | Finish j e :: es' => (j, e) :: finishes es'
  | _ :: es' => finishes es'
  end.

(** The documented verdict on one test: exit status 0 or 77 is a pass; a TAP test needs a clean stream
    and exit status 0; should_fail turns pass and failure around; a test that cannot be run, is killed
    by a signal or runs out of time has not passed. *)
Definition passes (t : test) (e : ending) : Prop :=
  match e with
  | EExited code tap_ok => if tap t then tap_ok = true /\ code = 0%Z else code = 0%Z \/ code = 77%Z
  | _ => False
  end.
Definition as_expected (t : test) (e : ending) : Prop := if should_fail t then ~ passes t e else passes t e.

(** Every process ends at some time, and stays ended until it is collected. *)
Definition all_end (poll : nat -> nat -> polled) : Prop :=
  forall j, exists r0, forall r, r0 <= r -> match poll r j with PRunning _ => False | _ => True end.
(** What has happened up to the point a run has reached. *)
Definition history (p : progress) : list event := match p with Ended _ c | Midway _ c => events c end.
(** The results recorded so far. *)
Definition recorded (p : progress) : list (nat * test * status) := match p with Ended _ c | Midway _ c => results c end.
(** The exit status muon test would report. *)
Definition success (p : progress) : bool := match p with Ended _ c | Midway _ c => verdict c end.

(** A command line argument is [name] or [project:name]; an empty part stands for any. *)
Definition names (glob : bytes -> bytes -> bool) (spec proj : bytes) (t : test) : Prop :=
  (~ In ":"%char spec /\ (spec = [] \/ glob spec (tname t) = true)) \/
  (exists p n, spec = p ++ ":"%char :: n /\ ~ In ":"%char p /\ (p = [] \/ p = proj) /\ (n = [] \/ glob n (tname t) = true)).
