(** Model of the test runner: src/cmd_test.c. *)
From Verif Require Import Base.

(** The parts of struct obj_test (include/lang/object.h) the runner looks at. *)
Record test := { tname : bytes; parallel : bool; should_fail : bool; tap : bool }.

(** cmd_test.c 28-34 enum test_result_status, without "running" *)
Inductive status := SOk | SFailed | STimedout | SSkipped.

(** What run_cmd_collect and the timer report about a job when it is polled: it still runs
    ([over]: its time limit is reached), it could not be collected or died from a signal, or it
    exited with a code; [tap_ok] is the verdict of tap_parse on its output (formats/tap.c, see
    M_Formats). *)
Inductive polled := PRunning (over : bool) | PError | PExited (code : Z) (tap_ok : bool).

(** How a job ended. *)
Inductive ending := EExited (code : Z) (tap_ok : bool) | EError | ETimedout | ENotStarted.
(** Observable events. Every started job has its own number. *)
Inductive event := Start (job : nat) (t : test) | Finish (job : nat) (e : ending).

(** A busy entry of [ctx->jobs] (cmd_test.c 36-47); a free one is [None]. *)
Record job := { jid : nat; jtest : test; jtimedout : bool }.
Definition slot := option job.
(** struct run_test_ctx (cmd_test.c 49-80), without the fields used for display; [events] and [njobs]
    (how many jobs were started) and [round] (how often collect_tests was called) are ghosts. *)
Record ctx := { busy_jobs : nat; serial : bool; results : list (nat * test * status);
                errors : nat; expect_fail : nat; skipped : nat; total : nat;
                events : list event; njobs : nat; round : nat }.

Section RUNNER.
(** opts->jobs, opts->fail_fast *)
Variable jobs : nat.
Variable fail_fast : bool.
(** the outside world: the result of polling a job in a round, and whether run_cmd can start it *)
Variable poll : nat -> nat -> polled.
Variable starts : nat -> bool.

(** cmd_test.c 496-522 check_test_result_tap and check_test_result_exitcode. [res->status] is still
    test_result_status_running = 0 when the former is called, see 535-541. *)
Definition check (t : test) (code : Z) (tap_ok : bool) : status :=
  if tap t then if tap_ok then SOk else SFailed
  else if Z.eqb code 0 then SOk else if Z.eqb code 77 then SSkipped else SFailed.

(** cmd_test.c 214-231: print_test_progress counts a finished test *)
Definition is_error (s : status) : bool := match s with SFailed | STimedout => true | _ => false end.
Definition record_result (j : nat) (t : test) (s : status) (e : ending) (c : ctx) : ctx :=
  {| busy_jobs := busy_jobs c; serial := serial c; results := results c ++ [(j, t, s)];
     errors := if is_error s then S (errors c) else errors c; expect_fail := expect_fail c;
     skipped := skipped c; total := S (total c);
     events := events c ++ [Finish j e]; njobs := njobs c; round := round c |}.
(** cmd_test.c 597-604: free_slot *)
Definition free_slot (t : test) (c : ctx) : ctx :=
  {| busy_jobs := busy_jobs c - 1; serial := if parallel t then serial c else false; results := results c;
     errors := errors c; expect_fail := expect_fail c; skipped := skipped c; total := total c;
     events := events c; njobs := njobs c; round := round c |}.
(** 516, 584 *)
Definition count_more (sk ef : bool) (c : ctx) : ctx :=
  {| busy_jobs := busy_jobs c; serial := serial c; results := results c; errors := errors c;
     expect_fail := if ef then S (expect_fail c) else expect_fail c;
     skipped := if sk then S (skipped c) else skipped c; total := total c;
     events := events c; njobs := njobs c; round := round c |}.

(** cmd_test.c 565-595, case run_cmd_finished *)
Definition finished (j : job) (code : Z) (tap_ok : bool) (c : ctx) : ctx :=
  let t := jtest j in
  let st := check t code tap_ok in
  let sk := match st with SSkipped => true | _ => false end in
  let st := match st with SFailed => if should_fail t then SOk else SFailed | _ => st end in
  let ef := match st with SFailed => false | _ => should_fail t end in
  record_result (jid j) t st (EExited code tap_ok) (count_more sk ef c).

(** cmd_test.c 530-611: the loop of collect_tests over the slots *)
Fixpoint collect_slots (r : nat) (slots : list slot) (c : ctx) : list slot * ctx :=
  match slots with
  | [] => ([], c)
  | None :: rest => let '(rest', c') := collect_slots r rest c in (None :: rest', c')   (* 531-533 *)
  | Some j :: rest =>
      let next c :=                                                    (* 605-608 *)
        if fail_fast && negb (Nat.eqb (errors c) 0) then (None :: rest, c)
        else let '(rest', c') := collect_slots r rest c in (None :: rest', c') in
      match poll r (jid j) with
      | PRunning over =>                                               (* 548-560 *)
          let j' := {| jid := jid j; jtest := jtest j; jtimedout := jtimedout j || over |} in
          let '(rest', c') := collect_slots r rest c in (Some j' :: rest', c')
      | PError =>                                                      (* 561-565; 540-546 *)
          next (free_slot (jtest j)
                 (if jtimedout j then record_result (jid j) (jtest j) STimedout ETimedout c
                  else record_result (jid j) (jtest j) SFailed EError c))
      | PExited code ok =>
          next (free_slot (jtest j)
                 (if jtimedout j then record_result (jid j) (jtest j) STimedout ETimedout c
                  else finished j code ok c))
      end
  end.
(** cmd_test.c 524-612 collect_tests *)
Definition collect_tests (slots : list slot) (c : ctx) : list slot * ctx :=
  let '(slots', c') := collect_slots (round c) slots c in
  (slots', {| busy_jobs := busy_jobs c'; serial := serial c'; results := results c'; errors := errors c';
              expect_fail := expect_fail c'; skipped := skipped c'; total := total c';
              events := events c'; njobs := njobs c'; round := S (round c') |}).

(** cmd_test.c 624-629 *)
Fixpoint free_index (slots : list slot) : option nat :=
  match slots with
  | [] => None
  | None :: _ => Some 0
  | Some _ :: rest => option_map S (free_index rest)
  end.
(** cmd_test.c 643-680: take the slot and start the command *)
Definition start_test (i : nat) (t : test) (slots : list slot) (c : ctx) : list slot * ctx :=
  let j := njobs c in
  let c1 := {| busy_jobs := S (busy_jobs c); serial := serial c; results := results c; errors := errors c;
               expect_fail := expect_fail c; skipped := skipped c; total := total c;
               events := events c ++ [Start j t]; njobs := S j; round := round c |} in
  if starts j then (upd i (Some {| jid := j; jtest := t; jtimedout := false |}) slots, c1)
  else (upd i None slots,                                              (* 671-679 *)
        record_result j t SFailed ENotStarted
          {| busy_jobs := busy_jobs c1 - 1; serial := serial c1; results := results c1; errors := errors c1;
             expect_fail := expect_fail c1; skipped := skipped c1; total := total c1;
             events := events c1; njobs := njobs c1; round := round c1 |}).
Definition set_serial (b : bool) (c : ctx) : ctx :=
  {| busy_jobs := busy_jobs c; serial := b; results := results c; errors := errors c;
     expect_fail := expect_fail c; skipped := skipped c; total := total c;
     events := events c; njobs := njobs c; round := round c |}.
(** The state a loop has reached: [Ended], or, when the fuel is used up, in the middle of it. *)
Inductive progress := Ended (slots : list slot) (c : ctx) | Midway (slots : list slot) (c : ctx).
Definition and_then (p : progress) (k : list slot -> ctx -> progress) : progress :=
  match p with Ended s c => k s c | Midway _ _ => p end.
(** cmd_test.c 614-680 push_test. The body of the loop decides whether the test can start now. *)
Fixpoint push_test (fuel : nat) (t : test) (slots : list slot) (c : ctx) : progress :=
  match fuel with
  | 0 => Midway slots c
  | S fuel =>
      let cont := let '(slots', c') := collect_tests slots c in push_test fuel t slots' c' in
      let start i c := let '(slots', c') := start_test i t slots c in Ended slots' c' in
      if serial c && negb (Nat.eqb (busy_jobs c) 0) then cont          (* 620-622 *)
      else if parallel t then
        match free_index slots with
        | Some i => start i c
        | None => cont
        end
      else if Nat.eqb (busy_jobs c) 0 then start 0 (set_serial true c)   (* 631-636 *)
      else cont
  end.

(** cmd_test.c 682-729 run_test over all tests of a project (obj_array_foreach stops at ir_done) *)
Fixpoint run_tests (fuel : nat) (ts : list test) (slots : list slot) (c : ctx) : progress :=
  match ts with
  | [] => Ended slots c
  | t :: ts' =>
      if fail_fast && negb (Nat.eqb (errors c) 0) then Ended slots c
      else and_then (push_test fuel t slots c) (run_tests fuel ts')
  end.
(** cmd_test.c 878-881 *)
Fixpoint drain (fuel : nat) (slots : list slot) (c : ctx) : progress :=
  if Nat.eqb (busy_jobs c) 0 then Ended slots c
  else match fuel with
       | 0 => Midway slots c
       | S fuel => let '(slots', c') := collect_tests slots c in drain fuel slots' c'
       end.
(** cmd_test.c 832-888 run_project_tests and its callers: one list of tests per project, those selected
    in the order produced by obj_array_sort; [ir_done] (874-876) ends the iteration over the projects *)
Fixpoint run_projects (fuel : nat) (ps : list (list test)) (slots : list slot) (c : ctx) : progress :=
  match ps with
  | [] => Ended slots c
  | [] :: ps' => run_projects fuel ps' slots c                         (* 852-854 *)
  | p :: ps' =>
      and_then (run_tests fuel p slots c) (fun slots c =>
        if fail_fast && negb (Nat.eqb (errors c) 0) then Ended slots c
        else and_then (drain fuel slots c) (run_projects fuel ps'))
  end.
(** cmd_test.c 890-1021 tests_run: the context is cleared, [ctx.jobs] has opts->jobs free entries *)
Definition start_ctx : ctx :=
  {| busy_jobs := 0; serial := false; results := []; errors := 0; expect_fail := 0; skipped := 0; total := 0;
     events := []; njobs := 0; round := 0 |}.
Definition run_all (fuel : nat) (ps : list (list test)) : progress :=
  run_projects fuel ps (repeat None jobs) start_ctx.
(** cmd_test.c 979-1013: the value returned *)
Definition verdict (c : ctx) : bool := forallb (fun r => negb (is_error (snd r))) (results c).
End RUNNER.

(** ** Selecting tests by name on the command line *)
Section SELECT.
(** str_eql_glob (lang/string.c, see M_Str) *)
Variable glob : bytes -> bytes -> bool.
(** cmd_test.c 735-771: does one command line argument select a test called [name]? [proj] is
    ctx->proj_name. *)
Definition spec_matches (spec proj name : bytes) : bool :=
  let '(p, n) := match break_at ":" spec with
                 | (_, []) => ([], spec)                               (* 755-757 *)
                 | (a, _ :: b) => (a, b)                               (* 750-754 *)
                 end in
  (match p with [] => true | _ => beqb p proj end) &&                  (* 760-762 *)
  (match n with [] => true | _ => glob n name end).                    (* 764-766 *)
Definition test_matches (specs : list bytes) (proj : bytes) (t : test) : bool :=
  match specs with [] => true | _ => existsb (fun s => spec_matches s proj (tname t)) specs end.
(** cmd_test.c 832-872: the tests of a project are selected (844) before ctx->proj_name is set to its
    name (865), and it is only set if any were selected. Simplification: no suites, one category. *)
Fixpoint select (specs : list bytes) (cur : bytes) (projects : list (bytes * list test)) : list (bytes * list test) :=
  match projects with
  | [] => []
  | (n, ts) :: rest =>
      let sel := filter (test_matches specs cur) ts in
      (n, sel) :: select specs (match sel with [] => cur | _ => n end) rest
  end.
(** cmd_test.c 445-485 load_test_setup, when no project has test setups: proj_name is left at the
    last project *)
Definition selected (specs : list bytes) (projects : list (bytes * list test)) : list (bytes * list test) :=
  select specs (fst (last projects ([], []))) projects.
End SELECT.
