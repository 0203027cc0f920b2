(** Properties of the build scheduler (C64-C69, C83-C85). *)
From Coq Require Import List Bool Arith ZArith NArith Lia.
From Verif Require Import M_Build S_Build L_Build L_Sched.
Import ListNotations.

(** ** A small project

    Two objects are compiled, both in a pool of depth 1, and linked; a phony
    edge [all] names the result.  Nodes: 0 a.c, 1 b.c, 2 a.o, 3 b.o, 4 app,
    5 all. *)
Definition ex_g : graph := {|
  nedges := 4;
  ins := fun e => match e with 0 => [0] | 1 => [1] | 2 => [3; 2] | 3 => [4] | _ => [] end;
  inorder := fun e => match e with 0 => 1 | 1 => 1 | 2 => 2 | 3 => 1 | _ => 0 end;
  outs := fun e => match e with 0 => [2] | 1 => [3] | 2 => [4] | 3 => [5] | _ => [] end;
  gen := fun n => match n with 2 => Some 0 | 3 => Some 1 | 4 => Some 2 | 5 => Some 3 | _ => None end;
  uses := fun n => match n with 0 => [0] | 1 => [1] | 2 => [2] | 3 => [2] | 4 => [3] | _ => [] end;
  phony := fun e => e =? 3;
  generator := fun _ => false;
  restat := fun e => e =? 1;
  pool := fun e => if e <? 2 then Some 0 else None;
  depth := fun _ => 1%Z;
  cmdhash := fun e => N.of_nat (10 + e);
  deps_lost := fun _ => false |}.

(** Everything was built at time 10; then both sources were edited. *)
Definition ex_fs : files := {|
  mtime := fun n => match n with 0 => Some 20%Z | 1 => Some 20%Z | 2 => Some 10%Z | 3 => Some 10%Z | 4 => Some 10%Z | _ => None end;
  logmtime := fun n => match n with 2 => Some 10%Z | 3 => Some 10%Z | 4 => Some 10%Z | _ => None end;
  loghash := fun n => match n with 2 => 10%N | 3 => 11%N | 4 => 12%N | _ => 0%N end |}.

Definition ex_o := Opts 4 1 false.
Definition ex_d0 (_ : nat) := false.

(** What is compared in the examples. *)
Definition ex_view (o : opts) (r : res state) : option (list event * bool * list bool) :=
  match r with Ok st => Some (trace st, loop_ends o st, map (dirty st) [2; 3; 4; 5]) | _ => None end.
Lemma ex_view_ok : forall o r t l d, ex_view o r = Some (t, l, d) ->
  exists st, r = Ok st /\ trace st = t /\ loop_ends o st = l /\ map (dirty st) [2; 3; 4; 5] = d.
Proof. intros o [st| | |] t l d H; try discriminate. exists st. cbn [ex_view] in H. injection H as <- <- <-. auto. Qed.
Definition ex_done := [true; true; true; true].

Lemma ex_ok : well_formed ex_g.
Proof.
  split.
  - intros n e. do 6 (destruct n as [|n]; [do 4 (destruct e as [|e]; [cbn; intuition congruence|]); cbn; intuition congruence|]).
    do 4 (destruct e as [|e]; [cbn; intuition congruence|]). cbn. intuition congruence.
  - intros e. do 4 (destruct e as [|e]; [repeat constructor; cbn; intuition congruence|]). constructor.
  - intros n e. do 6 (destruct n as [|n]; [do 4 (destruct e as [|e]; [reflexivity|]); reflexivity|]).
    do 4 (destruct e as [|e]; [reflexivity|]). reflexivity.
  - intros n e. do 6 (destruct n as [|n]; [cbn; intros H; inversion H; lia|]). discriminate.
  - reflexivity.
Qed.

(** b.o is compiled again but comes out the same; then the program is linked. *)
Definition ex_all := [Take true; End_ 1 true (fun _ => true); Take true; End_ 0 true (fun _ => false);
                   Take true; End_ 2 true (fun _ => false); Take true].
Example ex_build_all : ex_view ex_o (run ex_g ex_fs ex_o ex_d0 [5] ex_all) =
  Some ([Start 1; Finish 1 true [3]; Start 0; Finish 0 true []; Start 2; Finish 2 true []], true, ex_done).
Proof. vm_compute. reflexivity. Qed.

(** b.c does not compile. *)
Definition ex_fail1 := [Take true; End_ 1 false (fun _ => false)].
Example ex_build_fail1 : ex_view (Opts 4 2 false) (run ex_g ex_fs (Opts 4 2 false) ex_d0 [5] (ex_fail1 ++ [Take true; End_ 0 true (fun _ => false)])) =
  Some ([Start 1; Finish 1 false []; Start 0; Finish 0 true []], true, ex_done).
Proof. vm_compute. reflexivity. Qed.

Lemma ex_needs_20 : needs ex_g 2 0. Proof. exists 2. cbn. auto. Qed.
Lemma ex_needs_21 : needs ex_g 2 1. Proof. exists 3. cbn. auto. Qed.
Lemma ex_wanted_2 : wanted ex_g [5] 2.
Proof.
  apply (wanted_needed _ _ 3).
  - apply (wanted_target _ _ 5); [now left|reflexivity].
  - exists 4. cbn. auto.
Qed.
Lemma ex_wanted_0 : wanted ex_g [5] 0. Proof. apply (wanted_needed _ _ 2); [apply ex_wanted_2|apply ex_needs_20]. Qed.
Lemma ex_outdated_0 : outdated ex_g ex_fs 0.
Proof.
  apply outdated_self. right. exists 2. split; [now left|]. apply (old_input _ _ _ _ 10%Z); try reflexivity.
  - exists 0, 20%Z. cbn. auto with zarith.
  - now left.
Qed.
Lemma ex_outdated_2 : outdated ex_g ex_fs 2.
Proof. apply (outdated_input _ _ 2 2 0); [cbn; auto|reflexivity|apply ex_outdated_0]. Qed.

(** ** C64: a command starts only when its inputs are ready *)
Theorem C64_inputs_are_ready : forall g fs o d0 targets cs st, well_formed g ->
  run g fs o d0 targets cs = Ok st ->
  forall before e after, trace st = before ++ Start e :: after ->
  forall d, depends g e d ->
    ~ In (Start d) after /\
    (In (Start d) before -> succeeded before d) /\
    (outdated g fs d -> phony g d = false -> succeeded before d \/ unneeded g fs before d).
Proof.
  intros g fs o d0 targets cs st WF E before e after H d D. pose proof (run_inv g fs o targets WF d0 cs) as R.
  rewrite E in R. destruct R as (st0 & _ & I & T & _). now apply (T_order _ _ _ _ T before e after).
Qed.

Example C64_example : exists st, run ex_g ex_fs ex_o ex_d0 [5] ex_all = Ok st /\
  trace st = [Start 1; Finish 1 true [3]; Start 0; Finish 0 true []] ++ Start 2 :: [Finish 2 true []] /\
  depends ex_g 2 0 /\ outdated ex_g ex_fs 0.
Proof.
  destruct (ex_view_ok _ _ _ _ _ ex_build_all) as (st & E & H & _). exists st. rewrite H. split; [exact E|]. split; [reflexivity|].
  split; [apply dep_one, ex_needs_20|apply ex_outdated_0].
Qed.

(** ** C65: no command is started twice *)
Theorem C65_at_most_once : forall g fs o d0 targets cs st, well_formed g ->
  run g fs o d0 targets cs = Ok st -> NoDup (starts (trace st)).
Proof.
  intros g fs o d0 targets cs st WF E. pose proof (run_inv g fs o targets WF d0 cs) as R.
  rewrite E in R. destruct R as (st0 & _ & I & T & _). apply (T_nodup _ _ _ _ T).
Qed.

Example C65_example : exists st, run ex_g ex_fs ex_o ex_d0 [5] ex_all = Ok st /\ starts (trace st) = [1; 0; 2].
Proof. destruct (ex_view_ok _ _ _ _ _ ex_build_all) as (st & E & H & _). exists st. rewrite H. auto. Qed.

(** ** C66: limits *)
Theorem C66_limits : forall g fs o d0 targets cs st, well_formed g ->
  run g fs o d0 targets cs = Ok st ->
  forall before after, trace st = before ++ after ->
    length (running_in before) <= maxjobs o /\
    forall p, (Z.of_nat (length (filter (in_pool g p) (running_in before))) <= depth g p)%Z.
Proof.
  intros g fs o d0 targets cs st WF E. pose proof (run_inv g fs o targets WF d0 cs) as R.
  rewrite E in R. destruct R as (st0 & _ & I & T & _). apply (T_limit _ _ _ _ T).
Qed.

(** Both limits are reached: after the first command one job of the pool runs;
    the second job of the pool cannot be taken although there are four job
    slots. *)
Example C66_example : exists st, run ex_g ex_fs ex_o ex_d0 [5] [Take true] = Ok st /\
  filter (in_pool ex_g 0) (running_in (trace st)) = [1] /\ depth ex_g 0 = 1%Z /\
  run ex_g ex_fs ex_o ex_d0 [5] [Take true; Take true] = Off.
Proof.
  assert (V : ex_view ex_o (run ex_g ex_fs ex_o ex_d0 [5] [Take true]) = Some ([Start 1], false, ex_done)) by (vm_compute; reflexivity).
  destruct (ex_view_ok _ _ _ _ _ V) as (st & E & H & _). exists st. rewrite H. split; [exact E|].
  split; [|split]; vm_compute; reflexivity.
Qed.

(** ** C67: builds end, with all work done *)
Lemma settled_end : forall g fs o d0 targets cs st, well_formed g ->
  run g fs o d0 targets cs = Ok st -> ended g fs o d0 targets cs ->
  0 < maxjobs o -> dryrun o = false -> failures (trace st) < maxfail o ->
  (forall e, ~ In (StartFailed e) (trace st)) ->
  forall e, wanted g targets e -> outdated g fs e -> phony g e = false ->
  (forall d, depends g e d -> ~ failed (trace st) d) ->
  succeeded (trace st) e \/ unneeded g fs (trace st) e \/ failed (trace st) e.
Proof.
  intros g fs o d0 targets cs st WF E En Mj Dr Mf NS e We Oe Pe ND. pose proof (run_inv g fs o targets WF d0 cs) as R.
  rewrite E in R. destruct R as (st0 & E0 & I & T & _ & Z).
  pose proof (plan_total g fs o targets WF d0 st0 e E0 We Oe Pe) as NZ.
  assert (Stuck : forall c, step g o st c = Off).
  { intros c. specialize (En c). unfold run in En, E. rewrite E0 in En, E. cbn [bind] in En, E. unfold samu_build in En, E.
    destruct (Z.eqb_spec (ntotal st0) 0); [contradiction|]. rewrite steps_snoc, E in En. exact En. }
  rewrite <- (T_numfail _ _ _ _ T) in Mf.
  destruct (stuck_ends g fs o targets WF st Stuck I T Mj Mf) as [Rn Wk].
  assert (NL : no_leak o st) by (split; auto).
  pose proof (ended_settled g fs o targets WF st I T Rn Wk NL (plan_rank g fs o targets WF d0 st0 E0) e We ND) as S.
  assert (Fw : f_work (es st e) = true) by now apply (S_wanted _ _ _ _ (I_static _ _ _ _ _ _ I)).
  assert (Fd : f_dirty (es st e) = true) by now apply (S_dirty _ _ _ _ (I_static _ _ _ _ _ _ I)).
  pose proof (I_hot _ _ _ _ _ _ I e) as H.
  destruct S as [S|[S|[S|S]]]; rewrite S in H.
  - congruence.
  - left. now apply (T_done _ _ _ _ T).
  - right. right. now apply (T_fail _ _ _ _ T).
  - right. left. destruct H as [H1 H2]. split.
    + intros X. apply (S_out _ _ _ _ (I_static _ _ _ _ _ _ I)) in X; congruence.
    + apply H2. unfold f_dirty in Fd. now rewrite H1, orb_false_r in Fd.
Qed.

Lemma failures_none : forall tr, failures tr = 0 -> forall e, ~ failed tr e.
Proof.
  intros tr F e H. unfold failures in F. destruct (filter is_failure tr) as [|x l] eqn:X; [|discriminate].
  assert (Y : forall ev, In ev tr -> is_failure ev = false).
  { intros ev Hev. destruct (is_failure ev) eqn:Z; auto. assert (W : In ev []) by (rewrite <- X; now apply filter_In). contradiction. }
  destruct H as [[u H]|H]; apply Y in H; discriminate.
Qed.

Theorem C67_all_work_is_done : forall g fs o d0 targets cs st, well_formed g ->
  run g fs o d0 targets cs = Ok st -> ended g fs o d0 targets cs ->
  0 < maxjobs o -> 0 < maxfail o -> dryrun o = false ->
  (forall e, ~ failed (trace st) e) ->
  forall e, wanted g targets e -> outdated g fs e -> phony g e = false ->
  succeeded (trace st) e \/ unneeded g fs (trace st) e.
Proof.
  intros g fs o d0 targets cs st WF E En Mj Mf Dr NF e We Oe Pe.
  assert (F0 : failures (trace st) = 0).
  { unfold failures. destruct (filter is_failure (trace st)) as [|x l] eqn:X; [reflexivity|].
    assert (H : In x (filter is_failure (trace st))) by (rewrite X; now left). apply filter_In in H as [H H'].
    destruct x as [a|a|a [] u]; try discriminate; exfalso; apply (NF a); [now right|]. left. now exists u. }
  destruct (settled_end g fs o d0 targets cs st WF E En Mj Dr) with (e := e) as [H|[H|H]]; auto; [lia| |].
  - intros x H. apply (NF x). now right.
  - now apply NF in H.
Qed.

Theorem C67_no_endless_build : forall g fs o d0 targets cs st, well_formed g ->
  run g fs o d0 targets cs = Ok st -> length cs <= 2 * nedges g.
Proof.
  intros g fs o d0 targets cs st WF E. pose proof (run_inv g fs o targets WF d0 cs) as R.
  rewrite E in R. destruct R as (st0 & _ & I & T & L & _). pose proof (todo_le g st0). lia.
Qed.

(** The loop of the code is left exactly when nothing more can happen. *)
Theorem C67_the_loop_ends_when_nothing_can_happen : forall g fs o d0 targets cs st, well_formed g ->
  run g fs o d0 targets cs = Ok st -> (exists e, wanted g targets e /\ outdated g fs e /\ phony g e = false) ->
  (loop_ends o st = true <-> ended g fs o d0 targets cs).
Proof.
  intros g fs o d0 targets cs st WF E (e & We & Oe & Pe). pose proof (run_inv g fs o targets WF d0 cs) as R.
  rewrite E in R. destruct R as (st0 & E0 & I & T & _ & _).
  pose proof (plan_total g fs o targets WF d0 st0 e E0 We Oe Pe) as NZ.
  assert (St : forall c, run g fs o d0 targets (cs ++ [c]) = step g o st c).
  { intros c. unfold run in *. rewrite E0 in *. cbn [bind] in *. unfold samu_build in *.
    destruct (Z.eqb_spec (ntotal st0) 0); [contradiction|]. rewrite steps_snoc, E. reflexivity. }
  unfold ended. split.
  - intros L c. rewrite St. unfold loop_ends in L. destruct (running st) as [|r rs] eqn:Rn; [|discriminate].
    destruct c as [b|x ok same]; cbn [step]; rewrite Rn.
    + cbn [length]. destruct (work st) as [|w ws]; [now destruct (_ && _)|].
      apply negb_true_iff in L. now rewrite L.
    + reflexivity.
  - intros S. unfold loop_ends. destruct (running st) as [|r rs] eqn:Rn.
    + destruct (work st) as [|w ws] eqn:Wk; [reflexivity|].
      destruct ((0 <? maxjobs o) && (numfail st <? maxfail o)) eqn:L; [|reflexivity]. exfalso.
      pose proof (step_inv g fs o targets WF st (Take true) I T) as X. rewrite <- St, S in X. apply X.
      apply andb_true_iff in L as [L1 L2]. apply Nat.ltb_lt in L1, L2. rewrite Rn, Wk. cbn. split; auto. split; [auto|discriminate].
    + exfalso. pose proof (step_inv g fs o targets WF st (End_ r true (fun _ => false)) I T) as X. rewrite <- St, S in X. apply X.
      rewrite Rn. now left.
Qed.

Example C67_example : exists st, run ex_g ex_fs ex_o ex_d0 [5] ex_all = Ok st /\ ended ex_g ex_fs ex_o ex_d0 [5] ex_all /\
  (forall e, ~ failed (trace st) e) /\ wanted ex_g [5] 2 /\ outdated ex_g ex_fs 2 /\ phony ex_g 2 = false.
Proof.
  destruct (ex_view_ok _ _ _ _ _ ex_build_all) as (st & E & H & L & _). exists st. split; [exact E|]. split.
  - apply (C67_the_loop_ends_when_nothing_can_happen _ _ _ _ _ _ st ex_ok E).
    + exists 2. split; [apply ex_wanted_2|]. split; [apply ex_outdated_2|reflexivity].
    + exact L.
  - split; [|split; [apply ex_wanted_2|split; [apply ex_outdated_2|reflexivity]]].
    rewrite H. apply failures_none. reflexivity.
Qed.

(** ** C68: nothing that depends on a failed command is started *)
Theorem C68_dependents_are_not_started : forall g fs o d0 targets cs st, well_formed g ->
  run g fs o d0 targets cs = Ok st ->
  forall e d, depends g e d -> failed (trace st) d -> ~ In (Start e) (trace st) /\ ~ In (StartFailed e) (trace st).
Proof.
  intros g fs o d0 targets cs st WF E e d D F. pose proof (run_inv g fs o targets WF d0 cs) as R.
  rewrite E in R. destruct R as (st0 & _ & I & T & _). apply (T_fail _ _ _ _ T) in F.
  assert (K : stages st e = Running \/ stages st e = Finished \/ stages st e = Failed -> False).
  { intros S. destruct (settled_deps g fs o targets st [] e d I) as [_ U]; auto.
    - apply (stage_work g fs o targets st []); auto. destruct S as [S|[S|S]]; congruence.
    - destruct S as [S|[S|S]]; congruence.
    - rewrite F in U. discriminate. }
  split; intros H.
  - apply K. now apply (T_start _ _ _ _ T).
  - apply K. right. right. apply (T_fail _ _ _ _ T). now right.
Qed.

(** Once the number of failures has reached the limit nothing is started. *)
Theorem C68_nothing_starts_after_too_many_failures : forall g fs o d0 targets cs st, well_formed g ->
  run g fs o d0 targets cs = Ok st ->
  forall before e after, trace st = before ++ Start e :: after -> failures before < maxfail o.
Proof.
  intros g fs o d0 targets cs st WF E. pose proof (run_inv g fs o targets WF d0 cs) as R.
  rewrite E in R. destruct R as (st0 & _ & I & T & _). apply (T_stop _ _ _ _ T).
Qed.

(** The build is reported as successful exactly when nothing failed. *)
Theorem C68_failures_are_reported : forall g fs o d0 targets cs st, well_formed g ->
  run g fs o d0 targets cs = Ok st ->
  (build_succeeded st = true <-> forall e, ~ failed (trace st) e).
Proof.
  intros g fs o d0 targets cs st WF E. pose proof (run_inv g fs o targets WF d0 cs) as R.
  rewrite E in R. destruct R as (st0 & _ & I & T & _). unfold build_succeeded. rewrite Nat.eqb_eq, (T_numfail _ _ _ _ T). split.
  - apply failures_none.
  - intros NF. unfold failures. destruct (filter is_failure (trace st)) as [|x l] eqn:X; [reflexivity|].
    assert (H : In x (filter is_failure (trace st))) by (rewrite X; now left). apply filter_In in H as [H H'].
    destruct x as [a|a|a [] u]; try discriminate; exfalso; apply (NF a); [now right|]. left. now exists u.
Qed.

Example C68_example : exists st, run ex_g ex_fs (Opts 4 2 false) ex_d0 [5] ex_fail1 = Ok st /\
  depends ex_g 2 1 /\ failed (trace st) 1 /\ trace st = [Start 1; Finish 1 false []].
Proof.
  assert (V : ex_view (Opts 4 2 false) (run ex_g ex_fs (Opts 4 2 false) ex_d0 [5] ex_fail1) = Some ([Start 1; Finish 1 false []], false, ex_done))
    by (vm_compute; reflexivity).
  destruct (ex_view_ok _ _ _ _ _ V) as (st & E & H & _). exists st. rewrite H. split; [exact E|].
  split; [apply dep_one, ex_needs_21|]. split; [|reflexivity]. left. exists []. cbn. auto.
Qed.

(** ** C69: what is out of date *)
Theorem C69_out_of_date_outputs : forall g fs o d0 targets st, well_formed g ->
  run g fs o d0 targets [] = Ok st ->
  forall e n, wanted g targets e -> In n (outs g e) -> (dirty st n = true <-> outdated g fs e).
Proof.
  intros g fs o d0 targets st WF E e n We Hn. unfold run in E. pose proof (plan_spec g fs o targets WF d0) as P.
  destruct (add_targets g fs targets (init d0)) as [st0| | |]; try discriminate. cbn [bind] in E.
  assert (st0 = st) by (unfold samu_build in E; destruct (_ =? 0)%Z; cbn in E; congruence). subst st0.
  destruct P as (D & C & W & _). apply W in We. pose proof (D_ok _ _ _ _ _ D e We) as K.
  rewrite (K_dirty _ _ _ _ K n Hn). now apply (dirty_outdated g fs o targets st D).
Qed.

Example C69_example : exists st, run ex_g ex_fs ex_o ex_d0 [5] [] = Ok st /\
  map (dirty st) [2; 3; 4; 5] = [true; true; true; true].
Proof.
  assert (V : ex_view ex_o (run ex_g ex_fs ex_o ex_d0 [5] []) = Some ([], false, ex_done)) by (vm_compute; reflexivity).
  destruct (ex_view_ok _ _ _ _ _ V) as (st & E & _ & _ & H). exists st. auto.
Qed.
Example C69_example_clean : exists st,
  run ex_g {| mtime := fun n => if n =? 5 then None else Some 10%Z; logmtime := logmtime ex_fs; loghash := loghash ex_fs |}
      ex_o ex_d0 [5] [] = Ok st /\
  map (dirty st) [2; 3; 4; 5] = [false; false; false; false].
Proof.
  match goal with |- exists st, ?r = Ok st /\ _ =>
    assert (V : ex_view ex_o r = Some ([], true, [false; false; false; false])) by (vm_compute; reflexivity) end.
  destruct (ex_view_ok _ _ _ _ _ V) as (st & E & _ & _ & H). exists st. auto.
Qed.

(** ** C83: failures do not keep independent work from being done *)
Theorem C83_independent_work_is_done_partial : forall g fs o d0 targets cs st, well_formed g ->
  run g fs o d0 targets cs = Ok st -> ended g fs o d0 targets cs ->
  0 < maxjobs o -> dryrun o = false -> failures (trace st) < maxfail o ->
  (forall e, ~ In (StartFailed e) (trace st)) ->
  forall e, wanted g targets e -> outdated g fs e -> phony g e = false ->
  (forall d, depends g e d -> ~ failed (trace st) d) ->
  succeeded (trace st) e \/ unneeded g fs (trace st) e \/ failed (trace st) e.
Proof. exact settled_end. Qed.

(** A command that cannot be started keeps its place in the pool: the other
    compilation, which does not depend on it, never runs. *)
Theorem C83_independent_work_is_done_refuted : exists g fs o d0 targets cs st, well_formed g /\
  run g fs o d0 targets cs = Ok st /\ ended g fs o d0 targets cs /\
  0 < maxjobs o /\ dryrun o = false /\ failures (trace st) < maxfail o /\
  exists e, wanted g targets e /\ outdated g fs e /\ phony g e = false /\
  (forall d, depends g e d -> ~ failed (trace st) d) /\
  ~ (succeeded (trace st) e \/ unneeded g fs (trace st) e \/ failed (trace st) e).
Proof.
  exists ex_g, ex_fs, (Opts 4 2 false), ex_d0, [5], [Take false].
  assert (V : ex_view (Opts 4 2 false) (run ex_g ex_fs (Opts 4 2 false) ex_d0 [5] [Take false]) = Some ([StartFailed 1], true, ex_done))
    by (vm_compute; reflexivity).
  destruct (ex_view_ok _ _ _ _ _ V) as (st & E & Tr & L & _).
  exists st. split; [apply ex_ok|]. split; [exact E|]. split.
  { apply (C67_the_loop_ends_when_nothing_can_happen _ _ _ _ _ _ st ex_ok E).
    - exists 2. split; [apply ex_wanted_2|]. split; [apply ex_outdated_2|reflexivity].
    - exact L. }
  split; [cbn; lia|]. split; [reflexivity|]. rewrite Tr. split; [cbn; lia|].
  exists 0. split; [apply ex_wanted_0|]. split; [apply ex_outdated_0|]. split; [reflexivity|]. split.
  - intros d D. exfalso. assert (X : forall d', ~ needs ex_g 0 d').
    { intros d' (n & Hn & G). cbn in Hn. destruct Hn as [<-|[]]. discriminate. }
    inversion D as [? ? N|? ? ? N]; now apply X in N.
  - intros [[u H]|[[H _]|H]].
    + cbn in H. intuition discriminate.
    + apply H. pose proof ex_outdated_0 as O. inversion O as [? S|? n d Hn G _]; subst; auto.
      cbn in Hn. destruct Hn as [<-|[]]. discriminate.
    + destruct H as [[u H]|H]; cbn in H; intuition discriminate.
Qed.

(** The hypotheses of the positive part can be met: b.c does not compile, a.c
    does. *)
Example C83_example : exists st, let cs := ex_fail1 ++ [Take true; End_ 0 true (fun _ => false)] in
  run ex_g ex_fs (Opts 4 2 false) ex_d0 [5] cs = Ok st /\ ended ex_g ex_fs (Opts 4 2 false) ex_d0 [5] cs /\
  failures (trace st) = 1 /\ failed (trace st) 1 /\ succeeded (trace st) 0.
Proof.
  cbv zeta.
  destruct (ex_view_ok _ _ _ _ _ ex_build_fail1) as (st & E & H & L & _). exists st. split; [exact E|]. split.
  { apply (C67_the_loop_ends_when_nothing_can_happen _ _ _ _ _ _ st ex_ok E).
    - exists 2. split; [apply ex_wanted_2|]. split; [apply ex_outdated_2|reflexivity].
    - exact L. }
  rewrite H. split; [reflexivity|]. split.
  - left. exists []. cbn. auto.
  - exists []. cbn. auto.
Qed.

(** ** C84: only out-of-date commands that were asked for are run *)
Theorem C84_only_needed_commands_run : forall g fs o d0 targets cs st, well_formed g ->
  run g fs o d0 targets cs = Ok st ->
  forall e, In (Start e) (trace st) -> wanted g targets e /\ outdated g fs e /\ phony g e = false /\ dryrun o = false.
Proof.
  intros g fs o d0 targets cs st WF E e H. pose proof (run_inv g fs o targets WF d0 cs) as R.
  rewrite E in R. destruct R as (st0 & _ & I & T & _). destruct (T_start _ _ _ _ T e H) as (S & P & D).
  assert (Fw : f_work (es st e) = true).
  { apply (stage_work g fs o targets st []); auto. destruct S as [S|[S|S]]; congruence. }
  pose proof (I_hot _ _ _ _ _ _ I e) as X.
  assert (Fd : f_dirty (es st e) = true) by (destruct S as [S|[S|S]]; rewrite S in X; auto).
  split; [now apply (S_wanted _ _ _ _ (I_static _ _ _ _ _ _ I))|].
  split; [now apply (S_dirty _ _ _ _ (I_static _ _ _ _ _ _ I))|]. auto.
Qed.

Example C84_example : exists st, run ex_g ex_fs ex_o ex_d0 [5] ex_all = Ok st /\ In (Start 0) (trace st).
Proof. destruct (ex_view_ok _ _ _ _ _ ex_build_all) as (st & E & H & _). exists st. rewrite H. split; [exact E|cbn; auto]. Qed.

(** ** C85: what makes a build impossible *)
Theorem C85_refused_builds : forall g fs o d0 targets, well_formed g ->
  (run g fs o d0 targets [] = Fatal <-> has_cycle g targets \/ missing_source g fs targets) /\
  (run g fs o d0 targets [] <> Fatal -> exists st, run g fs o d0 targets [] = Ok st).
Proof.
  intros g fs o d0 targets WF. pose proof (plan_spec g fs o targets WF d0) as P. unfold run.
  destruct (add_targets g fs targets (init d0)) as [st| | |] eqn:E; cbn [bind]; try contradiction.
  - destruct P as (_ & _ & _ & B).
    assert (S : samu_build g o st [] = Ok st) by (unfold samu_build; now destruct (_ =? 0)%Z).
    rewrite S. split; [|eauto]. split; [discriminate|]. intros H. exfalso. exact (B H).
  - split; [split; auto|congruence].
Qed.

(** ... and no build is refused later on. *)
Theorem C85_no_late_refusal : forall g fs o d0 targets st cs, well_formed g ->
  run g fs o d0 targets [] = Ok st ->
  run g fs o d0 targets cs <> Fatal /\ run g fs o d0 targets cs <> Fuel.
Proof.
  intros g fs o d0 targets st cs WF E.
  pose proof (run_inv g fs o targets WF d0 cs) as R.
  destruct (run g fs o d0 targets cs) as [s| | |] eqn:X; split; try discriminate; try contradiction.
  exfalso. destruct (C85_refused_builds g fs o d0 targets WF) as [H _].
  assert (run g fs o d0 targets [] = Fatal) by (apply H; exact R). congruence.
Qed.

Example C85_example : run ex_g {| mtime := fun _ => None; logmtime := logmtime ex_fs; loghash := loghash ex_fs |} ex_o ex_d0 [5] [] = Fatal.
Proof. vm_compute. reflexivity. Qed.
Example C85_example_fine : exists st, run ex_g ex_fs ex_o ex_d0 [5] [] = Ok st.
Proof. destruct C69_example as (st & E & _). eauto. Qed.

Print Assumptions C64_inputs_are_ready.
Print Assumptions C65_at_most_once.
Print Assumptions C66_limits.
Print Assumptions C67_all_work_is_done.
Print Assumptions C67_no_endless_build.
Print Assumptions C67_the_loop_ends_when_nothing_can_happen.
Print Assumptions C68_dependents_are_not_started.
Print Assumptions C68_nothing_starts_after_too_many_failures.
Print Assumptions C68_failures_are_reported.
Print Assumptions C69_out_of_date_outputs.
Print Assumptions C83_independent_work_is_done_partial.
Print Assumptions C83_independent_work_is_done_refuted.
Print Assumptions C84_only_needed_commands_run.
Print Assumptions C85_refused_builds.
Print Assumptions C85_no_late_refusal.
