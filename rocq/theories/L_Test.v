(** Invariants of the test runner. *)
From Verif Require Import Base M_Test S_Test.
From Coq Require Import Permutation.

(** ** Traces *)
Lemma running_from_app : forall a b r, running_from r (a ++ b) = running_from (running_from r a) b.
Proof. induction a as [|[j t|j e] a IH]; intros b r; cbn [app running_from]; auto. Qed.
Lemma running_start : forall es j t, running (es ++ [Start j t]) = running es ++ [(j, t)].
Proof. intros. unfold running. rewrite running_from_app. reflexivity. Qed.
Lemma running_finish : forall es j e, running (es ++ [Finish j e]) = filter (fun x => negb (Nat.eqb (fst x) j)) (running es).
Proof. intros. unfold running. rewrite running_from_app. reflexivity. Qed.
Lemma started_app : forall a b, started (a ++ b) = started a ++ started b.
Proof. induction a as [|[j t|j e] a IH]; intros b; cbn [app started]; rewrite ?IH; reflexivity. Qed.
Lemma finishes_app : forall a b, finishes (a ++ b) = finishes a ++ finishes b.
Proof. induction a as [|[j t|j e] a IH]; intros b; cbn [app finishes]; rewrite ?IH; reflexivity. Qed.
Definition well_run (n : nat) (es : list event) : Prop :=
  forall a b, es = a ++ b -> exclusive (running a) /\ length (running a) <= n.
Lemma well_run_snoc : forall n es e, well_run n es ->
  exclusive (running (es ++ [e])) -> length (running (es ++ [e])) <= n -> well_run n (es ++ [e]).
Proof.
  intros n es e W X L a b E. destruct b as [|x b].
  - rewrite app_nil_r in E. subst a. auto.
  - assert (exists b', x :: b = b' ++ [e] /\ es = a ++ b') as (b' & _ & ->).
    { destruct (exists_last (l := x :: b) ltac:(discriminate)) as (b' & y & Eb). rewrite Eb in E. rewrite app_assoc in E.
      apply app_inj_tail in E. destruct E as [-> ->]. eauto. }
    eapply W. reflexivity.
Qed.

(** ** Live jobs *)
Fixpoint live (slots : list slot) : list (nat * test) :=
  match slots with
  | [] => []
  | None :: r => live r
  | Some j :: r => (jid j, jtest j) :: live r
  end.
Lemma live_app : forall a b, live (a ++ b) = live a ++ live b.
Proof. induction a as [|[j|] a IH]; intros b; cbn [app live]; rewrite ?IH; reflexivity. Qed.
Lemma live_repeat : forall n, live (repeat None n) = [].
Proof. induction n; auto. Qed.
Lemma live_length : forall s, length (live s) <= length s.
Proof. induction s as [|[j|] s IH]; cbn [live length]; lia. Qed.
Lemma free_index_split : forall s i, free_index s = Some i ->
  exists a b, s = a ++ None :: b /\ length a = i.
Proof.
  induction s as [|[j|] s IH]; intros i H; cbn [free_index] in H; [discriminate| |].
  - destruct (free_index s) as [k|]; [|discriminate]. injection H as <-. destruct (IH k eq_refl) as (a & b & -> & <-).
    exists (Some j :: a), b. auto.
  - injection H as <-. exists [], s. auto.
Qed.
Lemma free_index_none : forall s, free_index s = None -> length (live s) = length s.
Proof.
  induction s as [|[j|] s IH]; intros H; cbn [free_index live length] in *; [reflexivity| |discriminate].
  destruct (free_index s); [discriminate|]. now rewrite IH.
Qed.
Lemma live_nil_slots : forall s, live s = [] -> s = repeat None (length s).
Proof. induction s as [|[j|] s IH]; intros H; cbn [live length repeat] in *; [reflexivity|discriminate|]. now rewrite <- IH. Qed.
Lemma upd_split : forall (a : list slot) x y b, upd (length a) y (a ++ x :: b) = a ++ y :: b.
Proof. induction a as [|z a IH]; intros x y b; cbn [length app upd]; [reflexivity|]. now rewrite IH. Qed.

(** the status the runner derives from how a test ended *)
Definition status_of (t : test) (e : ending) : status :=
  match e with
  | EExited code ok => match check t code ok with SFailed => if should_fail t then SOk else SFailed | s => s end
  | EError | ENotStarted => SFailed
  | ETimedout => STimedout
  end.
Definition errs (l : list (nat * test * status)) : nat := length (filter (fun r => is_error (snd r)) l).

Record Inv (n : nat) (slots : list slot) (c : ctx) : Prop := {
  I_len : length slots = n;
  I_run : Permutation (running (events c)) (live slots);
  I_busy : busy_jobs c = length (live slots);
  I_nodup : NoDup (map fst (live slots));
  I_serial : forall j t, In (j, t) (live slots) -> parallel t = false -> live slots = [(j, t)] /\ serial c = true;
  I_ok : well_run n (events c);
  I_num : map fst (started (events c)) = seq 0 (njobs c);
  I_all : Permutation (map fst (results c) ++ live slots) (started (events c));
  I_res : Forall2 (fun r f => fst (fst r) = fst f /\ snd r = status_of (snd (fst r)) (snd f)) (results c) (finishes (events c));
  I_err : errors c = errs (results c)
}.
Lemma errs_app : forall a b, errs (a ++ b) = errs a + errs b.
Proof. intros. unfold errs. now rewrite filter_app, app_length. Qed.

Lemma filter_out : forall j (a b : list (nat * test)) t, NoDup (map fst (a ++ (j, t) :: b)) ->
  filter (fun x => negb (Nat.eqb (fst x) j)) (a ++ (j, t) :: b) = a ++ b.
Proof.
  intros j a b t N. rewrite map_app in N. cbn [map fst] in N. apply NoDup_remove_2 in N. rewrite <- map_app in N.
  rewrite filter_app. cbn [filter fst]. rewrite Nat.eqb_refl. cbn [negb]. rewrite <- filter_app.
  revert N. generalize (a ++ b). induction l as [|x l IH]; intros N; [reflexivity|]. cbn [filter].
  destruct (Nat.eqb_spec (fst x) j); cbn [negb]; [exfalso; apply N; left; exact e|]. f_equal. apply IH. intros H. apply N. now right.
Qed.
Lemma perm_filter : forall A (f : A -> bool) l l', Permutation l l' -> Permutation (filter f l) (filter f l').
Proof.
  intros A f l l' P. induction P; cbn [filter]; [constructor| | |eapply perm_trans; eauto].
  - destruct (f x); auto.
  - destruct (f x), (f y); auto. apply perm_swap.
Qed.
Lemma exclusive_perm : forall l l', Permutation l l' -> exclusive l' -> exclusive l.
Proof.
  intros l l' P X j t H Hp. assert (H' : In (j, t) l') by (eapply Permutation_in; eauto).
  rewrite (X j t H' Hp) in P. apply Permutation_sym in P. now apply Permutation_length_1_inv in P.
Qed.

(** A live job ends. [c'] is [c] after the result was recorded and the slot freed. *)
Lemma inv_finish : forall n a j b c e c',
  Inv n (a ++ Some j :: b) c ->
  busy_jobs c' = busy_jobs c - 1 ->
  results c' = results c ++ [(jid j, jtest j, status_of (jtest j) e)] ->
  errors c' = (if is_error (status_of (jtest j) e) then S (errors c) else errors c) ->
  events c' = events c ++ [Finish (jid j) e] -> njobs c' = njobs c ->
  Inv n (a ++ None :: b) c'.
Proof.
  intros n a j b c e c' [Hlen Hrun Hbusy Hnd Hser Hok Hnum Hall Hres Herr] E1 E3 E4 E5 E6.
  rewrite live_app in *. cbn [live] in *.
  assert (R : Permutation (running (events c')) (live a ++ live b)).
  { rewrite E5, running_finish. rewrite <- (filter_out (jid j) (live a) (live b) (jtest j) Hnd). now apply perm_filter. }
  assert (Alone : forall j' t', In (j', t') (live a ++ live b) -> parallel t' = true).
  { intros j' t' Hin. destruct (parallel t') eqn:Ep; [reflexivity|]. exfalso.
    assert (Hin' : In (j', t') (live a ++ (jid j, jtest j) :: live b)) by (rewrite in_app_iff in *; cbn; tauto).
    destruct (Hser j' t' Hin' Ep) as [El _]. apply (f_equal (@length _)) in El. rewrite app_length in El. cbn [length] in El.
    rewrite in_app_iff in Hin. destruct (live a), (live b); cbn in *; try lia; intuition. }
  constructor.
  - rewrite app_length in *. cbn [length] in *. exact Hlen.
  - rewrite live_app. exact R.
  - rewrite live_app, E1, Hbusy. cbn [live]. rewrite !app_length. cbn [length]. lia.
  - rewrite live_app. cbn [live]. rewrite map_app in *. cbn [map fst] in Hnd. now apply NoDup_remove_1 in Hnd.
  - intros j' t' Hin Ep. rewrite live_app in Hin. cbn [live] in Hin. now rewrite (Alone _ _ Hin) in Ep.
  - rewrite E5. apply well_run_snoc; [exact Hok| |].
    + eapply exclusive_perm; [rewrite <- E5; exact R|]. intros j' t' Hin Ep. now rewrite (Alone _ _ Hin) in Ep.
    + rewrite <- E5. rewrite (Permutation_length R), app_length.
      assert (length (live a) <= length a) by apply live_length. assert (length (live b) <= length b) by apply live_length.
      rewrite app_length in Hlen. cbn [length] in Hlen. lia.
  - rewrite E5, E6, started_app. cbn [started]. now rewrite app_nil_r.
  - rewrite E3, E5, started_app, map_app, live_app. cbn [started map fst live]. rewrite app_nil_r.
    eapply perm_trans; [|exact Hall]. rewrite <- app_assoc. apply Permutation_app_head. cbn [app].
    apply Permutation_middle.
  - rewrite E3, E5, finishes_app. cbn [finishes]. apply Forall2_app; [exact Hres|]. constructor; [|constructor]. auto.
  - rewrite E4, E3, errs_app, Herr. cbv [errs]. cbn [filter snd].
    destruct (is_error (status_of (jtest j) e)); cbn [length]; lia.
Qed.
Lemma inv_same_job : forall n a j b c j', Inv n (a ++ Some j :: b) c -> jid j' = jid j -> jtest j' = jtest j -> Inv n (a ++ Some j' :: b) c.
Proof.
  intros n a j b c j' [] E1 E2.
  assert (El : live (a ++ Some j' :: b) = live (a ++ Some j :: b)) by (rewrite !live_app; cbn [live]; now rewrite E1, E2).
  constructor; rewrite ?El; auto. rewrite app_length in *. exact I_len0.
Qed.

(** the part of the context which nothing but [round] depends on *)
Lemma inv_round : forall n s c c', Inv n s c -> busy_jobs c' = busy_jobs c -> serial c' = serial c -> results c' = results c ->
  errors c' = errors c -> events c' = events c -> njobs c' = njobs c -> Inv n s c'.
Proof. intros n s c c' [] E1 E2 E3 E4 E5 E6. constructor; rewrite ?E1, ?E2, ?E3, ?E4, ?E5, ?E6; auto. Qed.

Section RUNNER.
Variables (jobs : nat) (fail_fast : bool) (poll : nat -> nat -> polled) (starts : nat -> bool).

Lemma finish_poll : forall a j b c p,
  (match p with PRunning _ => False | _ => True end) ->
  Inv jobs (a ++ Some j :: b) c ->
  Inv jobs (a ++ None :: b) (free_slot (jtest j)
      match p with
      | PExited code ok => if jtimedout j then record_result (jid j) (jtest j) STimedout ETimedout c else finished j code ok c
      | _ => if jtimedout j then record_result (jid j) (jtest j) STimedout ETimedout c
             else record_result (jid j) (jtest j) SFailed EError c end).
Proof.
  intros a j b c p Hp H. destruct p as [over| |code ok]; [destruct Hp| |].
  - destruct (jtimedout j); [eapply (inv_finish _ _ _ _ _ ETimedout)|eapply (inv_finish _ _ _ _ _ EError)]; try exact H; reflexivity.
  - destruct (jtimedout j).
    + eapply (inv_finish _ _ _ _ _ ETimedout); try exact H; reflexivity.
    + eapply (inv_finish _ _ _ _ _ (EExited code ok)); try exact H; try reflexivity;
        unfold finished; cbn [free_slot results errors record_result count_more status_of]; destruct (check (jtest j) code ok); reflexivity.
Qed.

Lemma collect_slots_inv : forall r rest pre c, Inv jobs (pre ++ rest) c ->
  forall rest' c', collect_slots fail_fast poll r rest c = (rest', c') ->
  Inv jobs (pre ++ rest') c' /\ njobs c' = njobs c /\ started (events c') = started (events c).
Proof.
  intros r. induction rest as [|[j|] rest IH]; intros pre c H rest' c' E; cbn [collect_slots] in E.
  - injection E as <- <-. auto.
  - assert (Next : forall c1, njobs c1 = njobs c -> started (events c1) = started (events c) -> Inv jobs (pre ++ None :: rest) c1 ->
      (if fail_fast && negb (Nat.eqb (errors c1) 0) then (None :: rest, c1)
       else let '(rest', c') := collect_slots fail_fast poll r rest c1 in (None :: rest', c')) = (rest', c') ->
      Inv jobs (pre ++ rest') c' /\ njobs c' = njobs c /\ started (events c') = started (events c)).
    { intros c1 N1 S1 H1 E1. destruct (fail_fast && negb (Nat.eqb (errors c1) 0)).
      - injection E1 as <- <-. auto.
      - destruct (collect_slots fail_fast poll r rest c1) as [r2 c2] eqn:E2. injection E1 as <- <-.
        assert (H2 : Inv jobs ((pre ++ [None]) ++ rest) c1) by (rewrite <- app_assoc; exact H1).
        specialize (IH _ _ H2 _ _ E2). rewrite <- app_assoc in IH. cbn [app] in IH. rewrite N1, S1 in IH. exact IH. }
    pose proof (finish_poll pre j rest c (poll r (jid j))) as FP.
    destruct (poll r (jid j)) as [over| |code ok].
    + destruct (collect_slots fail_fast poll r rest c) as [r2 c2] eqn:E2. injection E as <- <-.
      apply (inv_same_job _ _ _ _ _ {| jid := jid j; jtest := jtest j; jtimedout := jtimedout j || over |}) in H; [|reflexivity|reflexivity].
      set (j1 := {| jid := jid j; jtest := jtest j; jtimedout := jtimedout j || over |}) in *.
      assert (H1 : Inv jobs ((pre ++ [Some j1]) ++ rest) c) by (rewrite <- app_assoc; exact H).
      specialize (IH _ _ H1 _ _ E2). rewrite <- app_assoc in IH. exact IH.
    + apply (Next _) in E; [exact E| | |apply FP; [exact I|exact H]]; destruct (jtimedout j); cbn; rewrite ?started_app, ?app_nil_r; reflexivity.
    + apply (Next _) in E; [exact E| | |apply FP; [exact I|exact H]]; destruct (jtimedout j); cbn; rewrite ?started_app, ?app_nil_r; reflexivity.
  - destruct (collect_slots fail_fast poll r rest c) as [r2 c2] eqn:E2. injection E as <- <-.
    assert (H1 : Inv jobs ((pre ++ [None]) ++ rest) c) by (rewrite <- app_assoc; exact H).
    specialize (IH _ _ H1 _ _ E2). rewrite <- app_assoc in IH. exact IH.
Qed.
Lemma collect_inv : forall slots c slots' c', Inv jobs slots c -> collect_tests fail_fast poll slots c = (slots', c') ->
  Inv jobs slots' c' /\ started (events c') = started (events c).
Proof.
  intros slots c slots' c' H E. unfold collect_tests in E. destruct (collect_slots fail_fast poll (round c) slots c) as [s1 c1] eqn:E1.
  injection E as <- <-. destruct (collect_slots_inv _ slots [] c H _ _ E1) as (H1 & N1 & S1). split; [|exact S1].
  eapply inv_round; [exact H1|reflexivity..].
Qed.

Lemma inv_start : forall a b t c slots' c', Inv jobs (a ++ None :: b) c ->
  (if parallel t then serial c && negb (Nat.eqb (busy_jobs c) 0) = false else busy_jobs c = 0 /\ serial c = true) ->
  start_test starts (length a) t (a ++ None :: b) c = (slots', c') ->
  Inv jobs slots' c' /\ started (events c') = started (events c) ++ [(njobs c, t)].
Proof.
  intros a b t c slots' c' [Hlen Hrun Hbusy Hnd Hser Hok Hnum Hall Hres Herr] Can E.
  rewrite live_app in *. cbn [live] in *. unfold start_test in E.
  assert (Lt : length (live a ++ live b) < jobs).
  { rewrite app_length. assert (length (live a) <= length a) by apply live_length. assert (length (live b) <= length b) by apply live_length.
    rewrite app_length in Hlen. cbn [length] in Hlen. lia. }
  assert (Fresh : ~ In (njobs c) (map fst (live a ++ live b))).
  { intros Hin. apply in_map_iff in Hin. destruct Hin as ((j & t') & Ej & Hin). cbn in Ej. subst j.
    assert (Hs : In (njobs c, t') (started (events c))) by (eapply Permutation_in; [exact Hall|apply in_or_app; now right]).
    apply (in_map fst) in Hs. rewrite Hnum in Hs. apply in_seq in Hs. cbn in Hs. lia. }
  assert (Par : parallel t = true -> forall j' t', In (j', t') (live a ++ live b) -> parallel t' = true).
  { intros Ep j' t' Hin. rewrite Ep in Can. destruct (parallel t') eqn:Ep'; [reflexivity|].
    destruct (Hser j' t' Hin Ep') as [El Es]. rewrite Hbusy, El, Es in Can. discriminate Can. }
  assert (Ser : parallel t = false -> live a ++ live b = []).
  { intros Ep. rewrite Ep in Can. destruct Can as [Can _]. rewrite Hbusy in Can. now apply length_zero_iff_nil. }
  assert (R1 : Permutation (running (events c ++ [Start (njobs c) t])) (live a ++ (njobs c, t) :: live b)).
  { rewrite running_start. eapply perm_trans; [apply Permutation_app_tail; exact Hrun|]. rewrite <- app_assoc.
    apply Permutation_app_head. apply Permutation_sym. apply Permutation_cons_append. }
  assert (X1 : exclusive (live a ++ (njobs c, t) :: live b)).
  { intros j' t' Hin Ep. destruct (parallel t) eqn:Ept.
    - apply in_app_or in Hin. destruct Hin as [Hin|[Ej|Hin]].
      + rewrite (Par eq_refl j' t') in Ep; [discriminate|apply in_or_app; now left].
      + injection Ej as _ <-. congruence.
      + rewrite (Par eq_refl j' t') in Ep; [discriminate|apply in_or_app; now right].
    - specialize (Ser eq_refl). apply app_eq_nil in Ser. destruct Ser as [Ea Eb]. rewrite Ea, Eb in *. cbn in *.
      destruct Hin as [Ej|[]]. now rewrite Ej. }
  assert (W1 : well_run jobs (events c ++ [Start (njobs c) t])).
  { apply well_run_snoc; [exact Hok| |].
    - eapply exclusive_perm; [exact R1|exact X1].
    - rewrite (Permutation_length R1). rewrite !app_length in *. cbn [length]. lia. }
  assert (IA : forall tm, Inv jobs (a ++ Some {| jid := njobs c; jtest := t; jtimedout := tm |} :: b)
     {| busy_jobs := S (busy_jobs c); serial := serial c; results := results c; errors := errors c;
        expect_fail := expect_fail c; skipped := skipped c; total := total c;
        events := events c ++ [Start (njobs c) t]; njobs := S (njobs c); round := round c |}).
  { intros tm. constructor; cbn [busy_jobs serial results errors events njobs]; rewrite ?live_app; cbn [live jid jtest].
    - rewrite app_length in *. exact Hlen.
    - exact R1.
    - rewrite Hbusy, !app_length. cbn [length]. lia.
    - rewrite map_app in *. cbn [map fst]. apply (NoDup_Add (Add_app _ _ _)). auto.
    - intros j' t' Hin Ep. split; [now apply X1|]. destruct (parallel t) eqn:Ept; [|now destruct Can].
      exfalso. specialize (X1 j' t' Hin Ep). apply in_app_or in Hin. destruct Hin as [Hin|[Ej|Hin]].
      + rewrite (Par eq_refl j' t') in Ep; [discriminate|apply in_or_app; now left].
      + injection Ej as _ <-. congruence.
      + rewrite (Par eq_refl j' t') in Ep; [discriminate|apply in_or_app; now right].
    - exact W1.
    - rewrite started_app, map_app, Hnum. cbn [started map fst]. rewrite seq_S. reflexivity.
    - rewrite started_app. cbn [started]. eapply perm_trans; [|apply Permutation_app_tail; exact Hall].
      rewrite <- !app_assoc. apply Permutation_app_head. apply Permutation_app_head. apply Permutation_cons_append.
    - rewrite finishes_app. cbn [finishes]. rewrite app_nil_r. exact Hres.
    - exact Herr. }
  destruct (starts (njobs c)).
  - injection E as <- <-. rewrite upd_split. split; [apply IA|]. cbn [events]. rewrite started_app. reflexivity.
  - injection E as <- <-. rewrite upd_split. split.
    + eapply (inv_finish _ _ _ _ _ ENotStarted); [exact (IA false)|reflexivity..].
    + cbn. rewrite !started_app. cbn [started]. now rewrite app_nil_r.
Qed.

Definition reached (p : progress) : list slot * ctx := match p with Ended s c | Midway s c => (s, c) end.
Lemma collect_round : forall slots c slots' c', collect_tests fail_fast poll slots c = (slots', c') -> njobs c' = njobs c /\ round c' = S (round c).
Proof.
  intros slots c slots' c' E. unfold collect_tests in E. destruct (collect_slots fail_fast poll (round c) slots c) as [s1 c1] eqn:E1.
  injection E as <- <-. cbn [njobs round].
  assert (X : forall r sl c s1 c1, collect_slots fail_fast poll r sl c = (s1, c1) -> njobs c1 = njobs c /\ round c1 = round c).
  { clear. intros r. induction sl as [|[j|] sl IH]; intros c s1 c1 E; cbn [collect_slots] in E.
    - injection E as <- <-. auto.
    - destruct (poll r (jid j)) as [over| |code ok].
      + destruct (collect_slots fail_fast poll r sl c) as [r2 c2] eqn:E2. injection E as <- <-. eauto.
      + match type of E with (if fail_fast && negb (Nat.eqb (errors ?x) 0) then _ else _) = _ => set (c0 := x) in * end.
        assert (N : njobs c0 = njobs c /\ round c0 = round c) by (unfold c0; destruct (jtimedout j); auto).
        destruct (fail_fast && negb (Nat.eqb (errors c0) 0)); [injection E as <- <-; exact N|].
        destruct (collect_slots fail_fast poll r sl c0) as [r2 c2] eqn:E2. injection E as <- <-. apply IH in E2. intuition congruence.
      + match type of E with (if fail_fast && negb (Nat.eqb (errors ?x) 0) then _ else _) = _ => set (c0 := x) in * end.
        assert (N : njobs c0 = njobs c /\ round c0 = round c) by (unfold c0, finished; destruct (jtimedout j); auto).
        destruct (fail_fast && negb (Nat.eqb (errors c0) 0)); [injection E as <- <-; exact N|].
        destruct (collect_slots fail_fast poll r sl c0) as [r2 c2] eqn:E2. injection E as <- <-. apply IH in E2. intuition congruence.
    - destruct (collect_slots fail_fast poll r sl c) as [r2 c2] eqn:E2. injection E as <- <-. eauto. }
  destruct (X _ _ _ _ _ E1). auto.
Qed.

Hypothesis some_job : 1 <= jobs.
(** the tests started so far *)
Definition tests_started (c : ctx) : list test := map snd (started (events c)).

Lemma push_inv : forall fuel t slots c, Inv jobs slots c ->
  let p := push_test fail_fast poll starts fuel t slots c in
  Inv jobs (fst (reached p)) (snd (reached p)) /\
  match p with
  | Ended _ c' => tests_started c' = tests_started c ++ [t]
  | Midway _ c' => tests_started c' = tests_started c
  end.
Proof.
  induction fuel as [|fuel IH]; intros t slots c H; cbn [push_test]; [cbn; auto|].
  assert (Cont : let p := (let '(slots', c') := collect_tests fail_fast poll slots c in push_test fail_fast poll starts fuel t slots' c') in
    Inv jobs (fst (reached p)) (snd (reached p)) /\
    match p with
    | Ended _ c' => tests_started c' = tests_started c ++ [t]
    | Midway _ c' => tests_started c' = tests_started c
    end).
  { destruct (collect_tests fail_fast poll slots c) as [s1 c1] eqn:E1. destruct (collect_inv _ _ _ _ H E1) as [H1 S1].
    specialize (IH t s1 c1 H1). cbn zeta in *. unfold tests_started in *. rewrite S1 in IH. exact IH. }
  assert (Start : forall a b c1, slots = a ++ None :: b -> Inv jobs slots c1 ->
    (if parallel t then serial c1 && negb (Nat.eqb (busy_jobs c1) 0) = false else busy_jobs c1 = 0 /\ serial c1 = true) ->
    events c1 = events c ->
    let p := (let '(slots', c') := start_test starts (length a) t slots c1 in Ended slots' c') in
    Inv jobs (fst (reached p)) (snd (reached p)) /\
    match p with
    | Ended _ c' => tests_started c' = tests_started c ++ [t]
    | Midway _ c' => tests_started c' = tests_started c
    end).
  { intros a b c1 -> H1 Can Ev. destruct (start_test starts (length a) t (a ++ None :: b) c1) as [s2 c2] eqn:E2.
    destruct (inv_start _ _ _ _ _ _ H1 Can E2) as [H2 S2]. cbn. split; [exact H2|]. unfold tests_started. rewrite S2, map_app, Ev. reflexivity. }
  destruct (serial c && negb (Nat.eqb (busy_jobs c) 0)) eqn:Es; [exact Cont|].
  destruct (parallel t) eqn:Ep.
  - destruct (free_index slots) as [i|] eqn:Ef; [|exact Cont]. apply free_index_split in Ef. destruct Ef as (a & b & Esl & <-).
    apply (Start a b c Esl H Es eq_refl).
  - destruct (Nat.eqb_spec (busy_jobs c) 0) as [E0|]; [|exact Cont].
    assert (Hb : live slots = []) by (apply length_zero_iff_nil; rewrite <- E0; symmetry; apply (I_busy _ _ _ H)).
    assert (Hl := I_len _ _ _ H). apply live_nil_slots in Hb. destruct slots as [|x rest]; [cbn in Hl; lia|].
    cbn [length repeat] in Hb. injection Hb as -> _.
    refine (Start [] rest (set_serial true c) eq_refl _ _ eq_refl).
    + destruct H as [Hlen Hrun Hbusy Hnd Hser Hok Hnum Hall Hres Herr]. constructor; auto.
      intros j' t' Hin Ep'. destruct (Hser j' t' Hin Ep'). auto.
    + auto.
Qed.

Lemma run_tests_inv : forall fuel ts slots c, Inv jobs slots c ->
  let p := run_tests fail_fast poll starts fuel ts slots c in
  Inv jobs (fst (reached p)) (snd (reached p)) /\
  match p with
  | Ended _ c' => fail_fast = false -> tests_started c' = tests_started c ++ ts
  | Midway _ c' => True
  end.
Proof.
  induction ts as [|t ts IH]; intros slots c H; cbn [run_tests]; [cbn; rewrite app_nil_r; auto|].
  destruct (fail_fast && negb (Nat.eqb (errors c) 0)) eqn:Ef.
  - cbn. split; [exact H|]. intros E. now rewrite E in Ef.
  - destruct (push_inv fuel t slots c H) as [Hp Hs]. destruct (push_test fail_fast poll starts fuel t slots c) as [s1 c1|s1 c1]; cbn [and_then].
    + destruct (IH s1 c1 Hp) as [H2 S2]. split; [exact H2|]. destruct (run_tests fail_fast poll starts fuel ts s1 c1); [|exact I].
      intros E. rewrite (S2 E), Hs, <- app_assoc. reflexivity.
    + auto.
Qed.
Lemma drain_inv : forall fuel slots c, Inv jobs slots c ->
  let p := drain fail_fast poll fuel slots c in
  Inv jobs (fst (reached p)) (snd (reached p)) /\ tests_started (snd (reached p)) = tests_started c /\
  match p with Ended _ c' => busy_jobs c' = 0 | _ => True end.
Proof.
  induction fuel as [|fuel IH]; intros slots c H; cbn [drain]; destruct (Nat.eqb_spec (busy_jobs c) 0) as [E0|]; cbn; auto.
  destruct (collect_tests fail_fast poll slots c) as [s1 c1] eqn:E1. destruct (collect_inv _ _ _ _ H E1) as [H1 S1].
  specialize (IH s1 c1 H1). cbn zeta in IH. unfold tests_started in *. rewrite S1 in IH. exact IH.
Qed.
Lemma run_projects_inv : forall fuel ps slots c, Inv jobs slots c ->
  let p := run_projects fail_fast poll starts fuel ps slots c in
  Inv jobs (fst (reached p)) (snd (reached p)) /\
  match p with
  | Ended _ c' => fail_fast = false -> tests_started c' = tests_started c ++ concat ps /\ (busy_jobs c = 0 -> busy_jobs c' = 0)
  | Midway _ c' => True
  end.
Proof.
  intros fuel. induction ps as [|[|t ts] ps IH]; intros slots c H.
  - cbn. rewrite app_nil_r. auto.
  - cbn [run_projects concat app]. apply IH. exact H.
  - cbn [run_projects]. destruct (run_tests_inv fuel (t :: ts) slots c H) as [H1 S1].
    destruct (run_tests fail_fast poll starts fuel (t :: ts) slots c) as [s1 c1|s1 c1]; cbn [and_then]; [|auto].
    destruct (fail_fast && negb (Nat.eqb (errors c1) 0)) eqn:Ef.
    + cbn. split; [exact H1|]. intros E. now rewrite E in Ef.
    + destruct (drain_inv fuel s1 c1 H1) as (H2 & S2 & B2). destruct (drain fail_fast poll fuel s1 c1) as [s2 c2|s2 c2]; cbn [and_then]; [|auto].
      destruct (IH s2 c2 H2) as [H3 S3]. split; [exact H3|]. destruct (run_projects fail_fast poll starts fuel ps s2 c2) as [s3 c3|]; [|exact I].
      intros E. destruct (S3 E) as [S4 B4]. cbn [reached snd] in S2. rewrite S4, S2, (S1 E), <- app_assoc. split; [reflexivity|]. intros _. apply B4. exact B2.
Qed.
(** only tests from the lists are started *)
Definition starts_from (c c' : ctx) (ts : list test) : Prop :=
  forall t, In t (tests_started c') -> In t (tests_started c) \/ In t ts.
Lemma run_tests_from : forall fuel ts slots c, Inv jobs slots c ->
  starts_from c (snd (reached (run_tests fail_fast poll starts fuel ts slots c))) ts.
Proof.
  induction ts as [|t ts IH]; intros slots c H; cbn [run_tests]; [left; assumption|].
  destruct (fail_fast && negb (Nat.eqb (errors c) 0)); [left; assumption|].
  destruct (push_inv fuel t slots c H) as [Hp Hs]. destruct (push_test fail_fast poll starts fuel t slots c) as [s1 c1|s1 c1]; cbn [and_then].
  - intros x Hx. destruct (IH s1 c1 Hp x Hx) as [X|X]; [|right; now right]. rewrite Hs in X. apply in_app_or in X.
    destruct X as [X|[<-|[]]]; [now left|right; now left].
  - intros x Hx. left. cbn [reached snd] in Hx. now rewrite Hs in Hx.
Qed.
Lemma run_projects_from : forall fuel ps slots c, Inv jobs slots c ->
  starts_from c (snd (reached (run_projects fail_fast poll starts fuel ps slots c))) (concat ps).
Proof.
  intros fuel. induction ps as [|[|t ts] ps IH]; intros slots c H.
  - left. assumption.
  - cbn [run_projects concat app]. apply IH. exact H.
  - cbn [run_projects concat]. destruct (run_tests_inv fuel (t :: ts) slots c H) as [H1 S1]. pose proof (run_tests_from fuel (t :: ts) slots c H) as F1.
    assert (Wk : forall c', starts_from c c' (t :: ts) -> starts_from c c' ((t :: ts) ++ concat ps)).
    { intros c' F x Hx. destruct (F x Hx); [now left|right; apply in_or_app; now left]. }
    destruct (run_tests fail_fast poll starts fuel (t :: ts) slots c) as [s1 c1|s1 c1]; cbn [and_then]; [|now apply Wk].
    destruct (fail_fast && negb (Nat.eqb (errors c1) 0)) eqn:Ef; [now apply Wk|].
    destruct (drain_inv fuel s1 c1 H1) as (H2 & S2 & _). cbn [reached snd] in F1.
    destruct (drain fail_fast poll fuel s1 c1) as [s2 c2|s2 c2]; cbn [and_then]; cbn [reached snd] in S2.
    + intros x Hx. destruct (IH s2 c2 H2 x Hx) as [X|X]; [|right; apply in_or_app; now right].
      rewrite S2 in X. now apply (Wk c1).
    + intros x Hx. cbn [reached snd] in Hx. rewrite S2 in Hx. now apply (Wk c1).
Qed.
Lemma inv_initial : Inv jobs (repeat None jobs) start_ctx.
Proof.
  constructor; cbn; rewrite ?live_repeat; auto.
  - apply repeat_length.
  - constructor.
  - intros ? ? [].
  - intros a b E. symmetry in E. apply app_eq_nil in E. destruct E as [-> ->]. cbn. split; [intros ? ? []|lia].
Qed.
Lemma run_all_inv : forall fuel ps,
  let p := run_all jobs fail_fast poll starts fuel ps in
  Inv jobs (fst (reached p)) (snd (reached p)) /\
  match p with
  | Ended _ c' => fail_fast = false -> tests_started c' = concat ps /\ busy_jobs c' = 0
  | Midway _ c' => True
  end.
Proof.
  intros fuel ps. unfold run_all. destruct (run_projects_inv fuel ps _ _ inv_initial) as [H1 S1]. split; [exact H1|].
  destruct (run_projects fail_fast poll starts fuel ps (repeat None jobs) start_ctx); [|exact I]. intros E. destruct (S1 E) as [X Y]. split; [exact X|]. apply Y. reflexivity.
Qed.
End RUNNER.

(** ** Every run ends if every process does *)
Section ENDS.
Variables (jobs : nat) (poll : nat -> nat -> polled) (starts : nat -> bool).
Hypothesis some_job : 1 <= jobs.
Hypothesis ends : all_end poll.
Definition still (r : nat) (x : nat * test) : bool := match poll r (fst x) with PRunning _ => true | _ => false end.

Lemma collect_slots_live : forall r slots c slots' c', collect_slots false poll r slots c = (slots', c') ->
  live slots' = filter (still r) (live slots).
Proof.
  intros r. induction slots as [|[j|] slots IH]; intros c slots' c' E; cbn [collect_slots] in E.
  - injection E as <- <-. reflexivity.
  - cbn [live filter]. unfold still at 1. cbn [fst]. cbn [andb] in E.
    destruct (poll r (jid j)) as [over| |code ok];
      (match type of E with context [collect_slots false poll r slots ?x] => destruct (collect_slots false poll r slots x) as [r2 c2] eqn:E2 end;
       injection E as <- <-; cbn [live jid jtest]; rewrite (IH _ _ _ E2); reflexivity).
  - destruct (collect_slots false poll r slots c) as [r2 c2] eqn:E2. injection E as <- <-. cbn [live]. eauto.
Qed.
Lemma collect_live : forall slots c slots' c', collect_tests false poll slots c = (slots', c') ->
  live slots' = filter (still (round c)) (live slots).
Proof.
  intros slots c slots' c' E. unfold collect_tests in E. destruct (collect_slots false poll (round c) slots c) as [s1 c1] eqn:E1.
  injection E as <- <-. eapply collect_slots_live. exact E1.
Qed.
(** all jobs in [l] have ended in round [R] and later *)
Definition over_by (R : nat) (l : list (nat * test)) : Prop := forall x r, In x l -> R <= r -> still r x = false.
Lemma over_exists : forall l, exists R, over_by R l.
Proof.
  induction l as [|x l [R IH]]; [exists 0; intros ? ? []|]. destruct (ends (fst x)) as [r0 H]. exists (max R r0).
  intros y r [<-|Hy] Hr; [|apply IH; [exact Hy|lia]]. unfold still. specialize (H r ltac:(lia)). destruct (poll r (fst x)); [destruct H|reflexivity|reflexivity].
Qed.
Lemma over_filter : forall R l f, over_by R l -> over_by R (filter f l).
Proof. intros R l f H x r Hx. apply H. apply filter_In in Hx. tauto. Qed.
Lemma over_now : forall R l r, over_by R l -> R <= r -> filter (still r) l = [].
Proof.
  intros R l r H Hr. induction l as [|x l IH]; [reflexivity|]. cbn [filter]. rewrite (H x r (or_introl eq_refl) Hr). apply IH.
  intros y r' Hy. apply H. now right.
Qed.

Lemma push_mono : forall fuel t slots c s' c', push_test false poll starts fuel t slots c = Ended s' c' ->
  forall fuel', fuel <= fuel' -> push_test false poll starts fuel' t slots c = Ended s' c'.
Proof.
  induction fuel as [|fuel IH]; intros t slots c s' c' H fuel' L; [discriminate H|]. destruct fuel' as [|fuel']; [lia|].
  cbn [push_test] in *. destruct (collect_tests false poll slots c) as [s1 c1].
  repeat match goal with |- context [if ?b then _ else _] => destruct b end; try exact H; try (apply IH; [exact H|lia]).
  destruct (free_index slots); [exact H|]. apply IH; [exact H|lia].
Qed.
Lemma push_ends : forall m R t slots c, Inv jobs slots c -> over_by R (live slots) -> R <= round c + m ->
  exists s' c', push_test false poll starts (m + 2) t slots c = Ended s' c'.
Proof.
  assert (Idle : forall n t slots c, Inv jobs slots c -> live slots = [] -> exists s' c', push_test false poll starts (S n) t slots c = Ended s' c').
  { intros n t slots c H E. cbn [push_test]. assert (E0 : busy_jobs c = 0) by (rewrite (I_busy _ _ _ H), E; reflexivity).
    rewrite E0. cbn [Nat.eqb negb]. rewrite andb_false_r. destruct (parallel t).
    - destruct (free_index slots) as [i|] eqn:Ef.
      + destruct (start_test starts i t slots c). eauto.
      + apply free_index_none in Ef. rewrite E, (I_len _ _ _ H) in Ef. cbn in Ef. lia.
    - destruct (start_test starts 0 t slots (set_serial true c)). eauto. }
  induction m as [|m IH]; intros R t slots c H Ho L.
  - change (0 + 2) with (S 1). remember 1 as k eqn:Ek. cbn [push_test].
    destruct (collect_tests false poll slots c) as [s1 c1] eqn:E1.
    assert (Cont : exists s' c', push_test false poll starts k t s1 c1 = Ended s' c').
    { subst k. destruct (collect_inv jobs false poll _ _ _ _ H E1) as [H1 _]. apply (Idle 0); [exact H1|].
      rewrite (collect_live _ _ _ _ E1). apply (over_now R); [exact Ho|lia]. }
    repeat match goal with |- context [if ?b then _ else _] => destruct b end; try exact Cont.
    + destruct (free_index slots) as [i|]; [|exact Cont]. destruct (start_test starts i t slots c). eauto.
    + destruct (start_test starts 0 t slots (set_serial true c)). eauto.
  - change (S m + 2) with (S (m + 2)). cbn [push_test].
    destruct (collect_tests false poll slots c) as [s1 c1] eqn:E1.
    assert (Cont : exists s' c', push_test false poll starts (m + 2) t s1 c1 = Ended s' c').
    { destruct (collect_inv jobs false poll _ _ _ _ H E1) as [H1 _]. apply (IH R); [exact H1| |].
      - rewrite (collect_live _ _ _ _ E1). now apply over_filter.
      - destruct (collect_round false poll _ _ _ _ E1) as [_ ->]. lia. }
    repeat match goal with |- context [if ?b then _ else _] => destruct b end; try exact Cont.
    + destruct (free_index slots) as [i|]; [|exact Cont]. destruct (start_test starts i t slots c). eauto.
    + destruct (start_test starts 0 t slots (set_serial true c)). eauto.
Qed.
Lemma push_ends_ : forall t slots c, Inv jobs slots c ->
  exists n s' c', Inv jobs s' c' /\ forall fuel, n <= fuel -> push_test false poll starts fuel t slots c = Ended s' c'.
Proof.
  intros t slots c H. destruct (over_exists (live slots)) as [R HR].
  destruct (push_ends R R t slots c H HR ltac:(lia)) as (s' & c' & E). exists (R + 2), s', c'.
  pose proof (push_inv jobs false poll starts some_job (R + 2) t slots c H) as [X _]. rewrite E in X.
  split; [exact X|]. intros fuel L. eapply push_mono; eauto.
Qed.
Lemma run_tests_ends : forall ts slots c, Inv jobs slots c ->
  exists n s' c', Inv jobs s' c' /\ forall fuel, n <= fuel -> run_tests false poll starts fuel ts slots c = Ended s' c'.
Proof.
  induction ts as [|t ts IH]; intros slots c H; [exists 0, slots, c; auto|].
  destruct (push_ends_ t slots c H) as (n1 & s1 & c1 & H1 & E1). destruct (IH s1 c1 H1) as (n2 & s2 & c2 & H2 & E2).
  exists (max n1 n2), s2, c2. split; [exact H2|]. intros fuel L. cbn [run_tests andb]. rewrite E1 by lia. cbn [and_then]. apply E2. lia.
Qed.
Lemma drain_mono : forall fuel slots c s' c', drain false poll fuel slots c = Ended s' c' ->
  forall fuel', fuel <= fuel' -> drain false poll fuel' slots c = Ended s' c'.
Proof.
  induction fuel as [|fuel IH]; intros slots c s' c' H fuel' L.
  - destruct fuel'; cbn [drain] in *; destruct (Nat.eqb (busy_jobs c) 0); [exact H|discriminate|exact H|discriminate].
  - destruct fuel' as [|fuel']; [lia|]. cbn [drain] in *. destruct (Nat.eqb (busy_jobs c) 0); [exact H|].
    destruct (collect_tests false poll slots c) as [s1 c1]. apply IH; [exact H|lia].
Qed.
Lemma drain_ends : forall m R slots c, Inv jobs slots c -> over_by R (live slots) -> R <= round c + m ->
  exists s' c', drain false poll (S m) slots c = Ended s' c'.
Proof.
  induction m as [|m IH]; intros R slots c H Ho L; cbn [drain].
  - destruct (Nat.eqb (busy_jobs c) 0); [eauto|]. destruct (collect_tests false poll slots c) as [s1 c1] eqn:E1.
    destruct (collect_inv jobs false poll _ _ _ _ H E1) as [H1 _].
    assert (E0 : busy_jobs c1 = 0). { rewrite (I_busy _ _ _ H1), (collect_live _ _ _ _ E1), (over_now R); [reflexivity|exact Ho|lia]. }
    rewrite E0. cbn. eauto.
  - destruct (Nat.eqb (busy_jobs c) 0); [eauto|]. destruct (collect_tests false poll slots c) as [s1 c1] eqn:E1.
    destruct (collect_inv jobs false poll _ _ _ _ H E1) as [H1 _].
    change (exists s' c', drain false poll (S m) s1 c1 = Ended s' c').
    apply (IH R); [exact H1| |].
    + rewrite (collect_live _ _ _ _ E1). now apply over_filter.
    + destruct (collect_round false poll _ _ _ _ E1) as [_ ->]. lia.
Qed.
Lemma drain_ends_ : forall slots c, Inv jobs slots c ->
  exists n s' c', Inv jobs s' c' /\ forall fuel, n <= fuel -> drain false poll fuel slots c = Ended s' c'.
Proof.
  intros slots c H. destruct (over_exists (live slots)) as [R HR].
  destruct (drain_ends R R slots c H HR ltac:(lia)) as (s' & c' & E). exists (S R), s', c'.
  pose proof (drain_inv jobs false poll (S R) slots c H) as [X _]. rewrite E in X.
  split; [exact X|]. intros fuel L. eapply drain_mono; eauto.
Qed.
Lemma run_projects_ends : forall ps slots c, Inv jobs slots c ->
  exists n s' c', forall fuel, n <= fuel -> run_projects false poll starts fuel ps slots c = Ended s' c'.
Proof.
  induction ps as [|[|t ts] ps IH]; intros slots c H; [exists 0, slots, c; auto| |].
  - destruct (IH slots c H) as (n & s' & c' & E). exists n, s', c'. exact E.
  - destruct (run_tests_ends (t :: ts) slots c H) as (n1 & s1 & c1 & H1 & E1).
    destruct (drain_ends_ s1 c1 H1) as (n2 & s2 & c2 & H2 & E2). destruct (IH s2 c2 H2) as (n3 & s3 & c3 & E3).
    exists (max n1 (max n2 n3)), s3, c3. intros fuel L. cbn [run_projects andb]. rewrite E1 by lia. cbn [and_then]. rewrite E2 by lia. apply E3. lia.
Qed.
End ENDS.
