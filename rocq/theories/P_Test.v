(** C59, C60, C61: scheduling and verdict of muon test. *)
From Verif Require Import Base M_Test S_Test L_Test.
From Coq Require Import Permutation.

(** ** C59 *)
(** At every moment of every run, finished or not: a test that may not run in parallel runs alone,
    and no more tests run than were asked for. *)
Theorem C59_serial_tests_alone : forall jobs fail_fast poll starts fuel ps, 1 <= jobs ->
  forall past future, history (run_all jobs fail_fast poll starts fuel ps) = past ++ future ->
  exclusive (running past) /\ length (running past) <= jobs.
Proof.
  intros jobs ff poll starts fuel ps L past future E.
  destruct (run_all_inv jobs ff poll starts L fuel ps) as [H _].
  apply (I_ok _ _ _ H past future). rewrite <- E. now destruct (run_all jobs ff poll starts fuel ps).
Qed.
Print Assumptions C59_serial_tests_alone.

Definition T (n : string) (p sf tp : bool) : test := {| tname := B n; parallel := p; should_fail := sf; tap := tp |}.
Definition C59_tests : list (list test) :=
  [[T "a" true false false; T "b" true false false; T "c" false false false; T "d" true true false]; []; [T "e" true false true]].
(** job [n] takes [n] rounds and exits with status [n] *)
Definition C59_poll (r j : nat) : polled := if r <? 2 * j + 1 then PRunning false else PExited (if j =? 3 then 1 else 0) true.
Example C59_ex : exists s c,
  run_all 2 false C59_poll (fun _ => true) 20 C59_tests = Ended s c /\ verdict c = true /\
  events c = [Start 0 (T "a" true false false); Start 1 (T "b" true false false); Finish 0 (EExited 0 true); Finish 1 (EExited 0 true);
              Start 2 (T "c" false false false); Finish 2 (EExited 0 true); Start 3 (T "d" true true false);
              Finish 3 (EExited 1 true); Start 4 (T "e" true false true); Finish 4 (EExited 0 true)].
Proof. eexists _, _. split; [vm_compute; reflexivity|]. split; vm_compute; reflexivity. Qed.

(** ** C60 *)
(** Without fail-fast, and if every process ends: the run ends, it has started the tests of all
    projects in order, each as a job of its own, exactly one result is recorded for each, and no job
    is left running. *)
Theorem C60_each_test_once : forall jobs poll starts ps, 1 <= jobs -> all_end poll ->
  exists n s c, (forall fuel, n <= fuel -> run_all jobs false poll starts fuel ps = Ended s c) /\
    map snd (started (events c)) = concat ps /\
    NoDup (map fst (started (events c))) /\
    Permutation (map fst (results c)) (started (events c)) /\
    Permutation (map fst (finishes (events c))) (map fst (started (events c))) /\
    running (events c) = [].
Proof.
  intros jobs poll starts ps L A.
  destruct (run_projects_ends jobs poll starts L A ps _ _ (inv_initial jobs L)) as (n & s & c & E).
  exists n, s, c. split; [exact E|].
  destruct (run_all_inv jobs false poll starts L n ps) as [H H2].
  unfold run_all in H, H2. rewrite (E n (Nat.le_refl _)) in H, H2. cbn [reached fst snd] in H. destruct (H2 eq_refl) as [S0 B0].
  assert (Lv : live s = []) by (apply length_zero_iff_nil; rewrite <- (I_busy _ _ _ H); exact B0).
  assert (All := I_all _ _ _ H). rewrite Lv, app_nil_r in All.
  repeat split.
  - exact S0.
  - rewrite (I_num _ _ _ H). apply seq_NoDup.
  - exact All.
  - assert (R := I_res _ _ _ H).
    assert (Em : map fst (finishes (events c)) = map fst (map fst (results c))).
    { clear - R. induction R as [|r f rs fs [X _] R IH]; [reflexivity|]. cbn [map]. now rewrite IH, X. }
    rewrite Em. now apply Permutation_map.
  - assert (Rn := I_run _ _ _ H). rewrite Lv in Rn. apply Permutation_nil. now apply Permutation_sym.
Qed.
Print Assumptions C60_each_test_once.
Example C60_ex : all_end C59_poll.
Proof. intros j. exists (2 * j + 1). intros r Hr. unfold C59_poll. destruct (Nat.ltb_spec r (2 * j + 1)); [lia|exact I]. Qed.

(** ** C61 *)
(** The exact rule the code implements: a should_fail test is fine whenever it exits at all, and the
    exit status of a TAP test does not matter. *)
Definition accepted (t : test) (e : ending) : Prop :=
  match e with
  | EExited code tap_ok => should_fail t = true \/ (if tap t then tap_ok = true else code = 0%Z \/ code = 77%Z)
  | _ => False
  end.
Lemma status_accepted : forall t e, is_error (status_of t e) = false <-> accepted t e.
Proof.
  intros t [code ok| | |]; cbn [status_of accepted is_error]; try (split; [discriminate|intros []]).
  unfold check. destruct (tap t); destruct (should_fail t); cbn [andb].
  - destruct ok; cbn; split; auto.
  - destruct ok; cbn; split; auto; try discriminate. intros [H|H]; discriminate.
  - destruct (Z.eqb_spec code 0), (Z.eqb_spec code 77); cbn; split; auto.
  - destruct (Z.eqb_spec code 0), (Z.eqb_spec code 77); cbn; split; auto; try discriminate. intros [H|[H|H]]; [discriminate|contradiction|contradiction].
Qed.
Theorem C61_rule : forall jobs fail_fast poll starts fuel ps, 1 <= jobs ->
  let p := run_all jobs fail_fast poll starts fuel ps in
  success p = true <-> (forall j t e, In (j, t) (started (history p)) -> In (j, e) (finishes (history p)) -> accepted t e).
Proof.
  intros jobs ff poll starts fuel ps L p. destruct (run_all_inv jobs ff poll starts L fuel ps) as [H _]. fold p in H.
  assert (X : forall s c, Inv jobs s c -> verdict c = true <-> (forall j t e, In (j, t) (started (events c)) -> In (j, e) (finishes (events c)) -> accepted t e)).
  { clear. intros s c H. assert (R := I_res _ _ _ H). assert (All := I_all _ _ _ H). assert (Num := I_num _ _ _ H).
    assert (ND : NoDup (map fst (started (events c)))) by (rewrite Num; apply seq_NoDup).
    assert (Inj : forall j t t', In (j, t) (started (events c)) -> In (j, t') (started (events c)) -> t = t').
    { revert ND. generalize (started (events c)). induction l as [|[j0 t0] l IH]; intros N j t t' H1 H2; [destruct H1|]. cbn in N. inversion N as [|? ? Nn N']; subst.
      destruct H1 as [E1|H1], H2 as [E2|H2].
      - congruence.
      - injection E1 as -> ->. exfalso. apply Nn. apply (in_map fst) in H2. exact H2.
      - injection E2 as -> ->. exfalso. apply Nn. apply (in_map fst) in H1. exact H1.
      - eapply IH; eauto. }
    assert (Sub : forall r, In r (results c) -> In (fst r) (started (events c))).
    { intros r Hr. eapply Permutation_in; [exact All|]. apply in_or_app. left. now apply in_map. }
    unfold verdict. rewrite forallb_forall. split.
    - intros V j t e Hs Hf.
      assert (exists r, In r (results c) /\ fst (fst r) = j /\ snd r = status_of (snd (fst r)) e) as (r & Hr & E1 & E2).
      { clear - R Hf. induction R as [|r f rs fs [X Y] R IH]; [destruct Hf|]. destruct Hf as [->|Hf].
        - exists r. cbn in *. split; [now left|auto].
        - destruct (IH Hf) as (r' & Hr & Z). exists r'. split; [now right|exact Z]. }
      specialize (V r Hr). assert (snd (fst r) = t).
      { apply (Inj j); [|exact Hs]. specialize (Sub r Hr). destruct r as [[j' t'] st]. cbn in *. now subst. }
      apply status_accepted. rewrite <- H0, <- E2. now destruct (is_error (snd r)).
    - intros A r Hr.
      assert (exists f, In f (finishes (events c)) /\ fst (fst r) = fst f /\ snd r = status_of (snd (fst r)) (snd f)) as (f & Hf & E1 & E2).
      { clear - R Hr. induction R as [|r' f rs fs [X Y] R IH]; [destruct Hr|]. destruct Hr as [->|Hr].
        - exists f. split; [now left|auto].
        - destruct (IH Hr) as (f' & Hf & Z). exists f'. split; [now right|exact Z]. }
      assert (Ac : accepted (snd (fst r)) (snd f)).
      { apply (A (fst f)); [|now destruct f]. rewrite <- E1. specialize (Sub r Hr). now destruct (fst r). }
      apply status_accepted in Ac. now rewrite E2, Ac. }
  destruct p as [s c|s c]; apply (X s c H).
Qed.
Print Assumptions C61_rule.
(** For ordinary tests judged by their exit status that is the documented rule. *)
Theorem C61_verdict_partial : forall jobs fail_fast poll starts fuel ps, 1 <= jobs ->
  (forall t, In t (concat ps) -> should_fail t = false /\ tap t = false) ->
  let p := run_all jobs fail_fast poll starts fuel ps in
  success p = true <-> (forall j t e, In (j, t) (started (history p)) -> In (j, e) (finishes (history p)) -> as_expected t e).
Proof.
  intros jobs ff poll starts fuel ps L Pl p.
  assert (Sub : forall t, In t (map snd (started (history p))) -> In t (concat ps)).
  { intros t Ht. destruct (run_projects_from jobs ff poll starts L fuel ps _ _ (inv_initial jobs L) t) as [X|X]; [|destruct X|exact X].
    unfold tests_started. fold (run_all jobs ff poll starts fuel ps). fold p. destruct p; exact Ht. }
  pose proof (C61_rule jobs ff poll starts fuel ps L) as R. fold p in R. cbn zeta in R.
  rewrite R. assert (X : forall t e, In t (concat ps) -> accepted t e <-> as_expected t e).
  { intros t e Hi. destruct (Pl t Hi) as [E1 E2]. unfold as_expected, accepted, passes. rewrite E1, E2.
    destruct e; try tauto. split; [intros [H|H]; [discriminate|exact H]|auto]. }
  split; intros H j t e Hs Hf; specialize (H j t e Hs Hf); (apply X in H; [exact H|]); apply Sub; apply (in_map snd) in Hs; exact Hs.
Qed.
Print Assumptions C61_verdict_partial.

Definition C61_poll (code : Z) (tap_ok : bool) (r j : nat) : polled := PExited code tap_ok.
Example C61_ex : success (run_all 2 false (C61_poll 77 false) (fun _ => true) 9 [[T "a" true false false; T "b" false false false]]) = true /\
  success (run_all 2 false (C61_poll 2 false) (fun _ => true) 9 [[T "a" true false false]]) = false.
Proof. vm_compute. auto. Qed.
(** The rule is not the documented one: a should_fail test that passes, and a TAP test that exits with
    an error after a clean stream, count as success; a should_fail test that dies from a signal or runs
    out of time counts as a failure. *)
Theorem C61_verdict_refuted :
  (exists t e, success (run_all 1 false (C61_poll 0 true) (fun _ => true) 9 [[t]]) = true /\
     In (0, e) (finishes (history (run_all 1 false (C61_poll 0 true) (fun _ => true) 9 [[t]]))) /\ should_fail t = true /\ ~ as_expected t e) /\
  (exists t e, success (run_all 1 false (C61_poll 1 true) (fun _ => true) 9 [[t]]) = true /\
     In (0, e) (finishes (history (run_all 1 false (C61_poll 1 true) (fun _ => true) 9 [[t]]))) /\ should_fail t = false /\ ~ as_expected t e) /\
  (exists t e, success (run_all 1 false (fun _ _ => PError) (fun _ => true) 9 [[t]]) = false /\
     In (0, e) (finishes (history (run_all 1 false (fun _ _ => PError) (fun _ => true) 9 [[t]]))) /\ as_expected t e).
Proof.
  split; [|split].
  - exists (T "x" true true false), (EExited 0 true). split; [vm_compute; reflexivity|]. split; [vm_compute; auto|]. split; [reflexivity|].
    intros H. apply H. left. reflexivity.
  - exists (T "x" true false true), (EExited 1 true). split; [vm_compute; reflexivity|]. split; [vm_compute; auto|]. split; [reflexivity|].
    intros H. cbn in H. destruct H as [_ H]. discriminate H.
  - exists (T "x" true true false), EError. split; [vm_compute; reflexivity|]. split; [vm_compute; auto|]. intros H. exact H.
Qed.
Print Assumptions C61_verdict_refuted.

(** ** C82 *)
Lemma spec_matches_names : forall glob spec proj t, spec_matches glob spec proj (tname t) = true <-> names glob spec proj t.
Proof.
  intros glob spec proj t. unfold spec_matches, names. destruct (break_at ":" spec) as [a b] eqn:E.
  assert (Ea := break_at_app _ _ _ _ E). assert (Na := break_at_notin _ _ _ _ E).
  destruct (break_at_rest _ _ _ _ E) as [->|[b' ->]].
  - rewrite app_nil_r in Ea. subst a. cbn [andb]. split.
    + intros H. left. split; [exact Na|]. destruct spec; auto.
    + intros [[_ [->|H]]|(p & n & E1 & _)]; [reflexivity|destruct spec; auto|]. exfalso. apply Na. rewrite E1. apply in_or_app. right. now left.
  - rewrite andb_true_iff. split.
    + intros [H1 H2]. right. exists a, b'. repeat split; [exact Ea|exact Na| |].
      * destruct a; [now left|]. right. now apply beqb_eq in H1.
      * destruct b'; [now left|now right].
    + intros [[H _]|(p & n & E1 & Np & H1 & H2)].
      * exfalso. apply H. rewrite Ea. apply in_or_app. right. now left.
      * assert (a = p /\ b' = n) as [<- <-].
        { rewrite Ea in E1. clear - E1 Na Np. revert p Np E1. induction a as [|x a IH]; intros [|y p] Np E1; cbn in E1.
          - injection E1 as ->. auto.
          - injection E1 as <- _. exfalso. apply Np. now left.
          - injection E1 as -> _. exfalso. apply Na. now left.
          - injection E1 as -> E1. destruct (IH (fun H => Na (or_intror H)) p (fun H => Np (or_intror H)) E1) as [-> ->]. auto. }
        split; [destruct H1 as [->| ->]; [reflexivity|destruct proj; [reflexivity|apply beqb_refl]]|destruct H2 as [->|H2]; [reflexivity|destruct b'; auto]].
Qed.
(** With a single project, the tests selected are those an argument names (all without arguments). *)
Theorem C82_selection_partial : forall glob specs name tests,
  exists sel, selected glob specs [(name, tests)] = [(name, sel)] /\
  forall t, In t sel <-> In t tests /\ (specs = [] \/ exists s, In s specs /\ names glob s name t).
Proof.
  intros glob specs name tests. eexists. split; [reflexivity|]. intros t. rewrite filter_In. unfold test_matches. cbn [last fst].
  destruct specs as [|s0 specs]; [tauto|]. rewrite existsb_exists.
  split; intros [H1 H2]; (split; [exact H1|]).
  - right. destruct H2 as (s & Hs & H2). exists s. split; [exact Hs|]. now apply spec_matches_names.
  - destruct H2 as [H2|(s & Hs & H2)]; [discriminate H2|]. exists s. split; [exact Hs|]. now apply spec_matches_names.
Qed.
Print Assumptions C82_selection_partial.
Example C82_ex : selected beqb [B "main:a"; B "b"] [(B "main", [T "a" true false false; T "b" true false false; T "c" true false false])]
  = [(B "main", [T "a" true false false; T "b" true false false])].
Proof. vm_compute. reflexivity. Qed.
(** With a subproject the wrong project's test is selected. *)
Theorem C82_selection_refuted : exists t t',
  selected beqb [B "sub:a"] [(B "main", [t]); (B "sub", [t'])] = [(B "main", [t]); (B "sub", [])] /\
  names beqb (B "sub:a") (B "sub") t' /\ ~ names beqb (B "sub:a") (B "main") t.
Proof.
  exists (T "a" true false false), (T "a" true true false). split; [vm_compute; reflexivity|].
  split; [apply spec_matches_names; vm_compute; reflexivity|]. intros H. apply spec_matches_names in H. vm_compute in H. discriminate H.
Qed.
Print Assumptions C82_selection_refuted.
