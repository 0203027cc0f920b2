(** Properties of the dependency log. *)
From Verif Require Import Base M_Deps S_Deps L_Deps.
From Coq Require Import NArith ZArith Lia.

(** C70.  A log cut at any byte can be loaded, and every record of dependencies that was complete
    is used for its output. *)
Theorem C70_complete_records_are_recovered : forall hd rs k, well_formed rs ->
  exists w, depsinit hd (firstn k (log_of rs)) = Ok w /\
    forall p m d ds, hd p = true -> recorded (complete_in k rs) p = Some (m, d :: ds) ->
      depsload p w = Ok (Some (m, d :: ds)).
Proof.
  intros hd rs k Wf. destruct (depsinit_ok hd rs k Wf) as (w & rs' & H & (I & TL & Oi & Q & T & O)).
  destruct (loaded_entries hd _ (well_formed_cut k _ Wf)) as (_ & _ & _ & LO). exists w. split; [exact H|].
  intros p m d ds Hp Hr. destruct (T p m (d :: ds)) as (i & Hi & He). { rewrite LO. unfold dependencies. rewrite Hr. now rewrite Hp. }
  unfold depsload. rewrite Hi, He. reflexivity.
Qed.
Print Assumptions C70_complete_records_are_recovered.

(** Nothing is used for other outputs, unless they are dependencies themselves. *)
Theorem C70_nothing_else_is_recovered_partial : forall hd rs k w p, well_formed rs ->
  depsinit hd (firstn k (log_of rs)) = Ok w ->
  (recorded (complete_in k rs) p = None \/ exists m, recorded (complete_in k rs) p = Some (m, [])) ->
  (forall q m ds, recorded (complete_in k rs) q = Some (m, ds) -> ~ In p ds) ->
  depsload p w = Ok None.
Proof.
  intros hd rs k w p Wf H Hp Hn. destruct (depsinit_ok hd rs k Wf) as (w' & rs' & H' & (I & TL & Oi & Q & T & O)).
  assert (w' = w) by congruence. subst w'. set (kept := complete_in k rs) in *.
  destruct (loaded_entries hd _ (well_formed_cut k _ Wf)) as (_ & _ & _ & LO). fold kept in LO.
  unfold depsload. assert (N : id_of p (order w) = None); [|now rewrite N]. apply id_of_none. intros K.
  destruct (O p K) as [K1|(e & K1 & K2)].
  - rewrite LO in K1. unfold dependencies in K1. destruct Hp as [Hp|[m Hp]]; rewrite Hp in K1; congruence.
  - apply in_map_iff in K1. destruct K1 as (q & <- & Hq). unfold E in K2. fold (recorded kept q) in K2.
    destruct (recorded kept q) as [[m ds]|] eqn:R; [|contradiction]. cbn [deps] in K2. destruct (hd q); [|contradiction]. now apply (Hn q m ds).
Qed.
Print Assumptions C70_nothing_else_is_recovered_partial.

(** What is missing: an output without dependencies of its own, which is a dependency of another
    one, may get the dependencies of that one; here it comes to depend on itself. *)
Definition ex_stale : list record := [NodeR (B "b.h"); DepR 0 3 []; NodeR (B "a.o"); DepR 1 5 [0]].
Theorem C70_nothing_else_is_recovered_refuted :
  exists rs p m d w, well_formed rs /\ depsinit (fun _ => true) (log_of rs) = Ok w /\
    recorded rs p = Some (m, []) /\
    depsload p w = Ok (Some (d, [p])) /\ (m < d)%Z.
Proof.
  exists ex_stale, (B "b.h"), 3%Z, 5%Z.
  eexists. refine (conj _ (conj _ (conj _ (conj _ _)))).
  - split.
    + repeat split; cbn; try lia; try (constructor; lia); try constructor.
      * exists (B "b."), "h"%char. split; [reflexivity|discriminate].
      * exists (B "a."), "o"%char. split; [reflexivity|discriminate].
      * lia.
      * constructor.
    + cbn. repeat constructor; cbn; intuition discriminate.
  - vm_compute. reflexivity.
  - reflexivity.
  - vm_compute. reflexivity.
  - lia.
Qed.
Print Assumptions C70_nothing_else_is_recovered_refuted.

(** Everything that is ever written is a log of that kind, whatever file was there before; so the
    theorems above apply wherever a run of the program is interrupted. *)
Theorem C70_what_is_written : forall hd file facts w, Forall fact_ok facts -> session hd file facts = Ok w ->
  exists rs, well_formed rs /\ out w = log_of rs.
Proof.
  intros hd file facts w F H. unfold session in H. destruct (depsinit hd file) as [w0| |] eqn:D; try discriminate. cbn [bind] in H.
  destruct (depsinit_inv _ _ _ D) as (es & rs & _ & (I & _)). destruct (record_all_wf _ _ _ _ I F H) as (rs' & (I1 & _ & I3 & I4)).
  exists rs'. split; [split; assumption|assumption].
Qed.
Print Assumptions C70_what_is_written.

(** C86.  After a run that started from a log cut at any byte, the log has the dependencies
    recorded in the run, and those of all other outputs that still have an edge that records
    dependencies.  The outputs that were built had dependencies in the log, or are not
    dependencies themselves. *)
Theorem C86_the_log_is_updated_partial : forall hd rs k facts w, well_formed rs -> Forall fact_ok facts ->
  NoDup (map (fun r => fst (fst r)) facts) -> (* every output is built once *)
  (forall p m ds, In (p, m, ds) facts ->
     (exists m' d ds', recorded (complete_in k rs) p = Some (m', d :: ds') /\ hd p = true) \/
     (forall q m' ds', recorded (complete_in k rs) q = Some (m', ds') \/ In (q, m', ds') facts -> ~ In p ds')) ->
  session hd (firstn k (log_of rs)) facts = Ok w ->
  exists rs', well_formed rs' /\ out w = log_of rs' /\
    (forall p m ds, In (p, m, ds) facts -> recorded rs' p = Some (m, ds)) /\
    (forall p, ~ In p (map (fun r => fst (fst r)) facts) ->
       recorded rs' p = dependencies hd (complete_in k rs) p).
Proof.
  intros hd rs k facts w Wf F N Hf H. unfold session in H.
  destruct (depsinit_ok hd rs k Wf) as (w0 & rs0 & D & (I & TL & Oi & Q & T & O)). rewrite D in H. cbn [bind] in H.
  set (kept := complete_in k rs) in *. destruct (loaded_entries hd _ (well_formed_cut k _ Wf)) as (_ & _ & _ & LO). fold kept in LO.
  destruct (record_all_ok (dependencies hd kept) facts w0 rs0 w I F N) as (rs' & (I1 & I2 & I3 & I4) & A & C); auto.
  - intros p m ds _. now rewrite Q, LO.
  - intros p m ds _. destruct (dependencies hd kept p) as [[m' ds']|] eqn:Dp; [right|now left].
    destruct (T p m' ds') as (i & Hi & He). { now rewrite LO. } exists i, m', ds'. auto.
  - intros p m ds Hp Dp. destruct (Hf p m ds Hp) as [(m' & d & ds' & K & K2)|K]; [unfold dependencies in Dp; rewrite K, K2 in Dp; discriminate|].
    split; [|intros; eapply K; right; eassumption]. intros X. destruct (O p X) as [K1|(e & K1 & K2)].
    + apply K1. rewrite LO. exact Dp.
    + apply in_map_iff in K1. destruct K1 as (q & <- & Hq). unfold E in K2. fold (recorded kept q) in K2.
      destruct (recorded kept q) as [[m' ds']|] eqn:R; [|contradiction]. cbn [deps] in K2. destruct (hd q); [|contradiction]. apply (K q m' ds'); auto.
  - exists rs'. refine (conj (conj I3 I4) (conj I1 (conj A _))). intros p Hp. rewrite C by assumption. now rewrite Q, LO.
Qed.
Print Assumptions C86_the_log_is_updated_partial.

(** What is missing: an output without dependencies so far, which is a dependency itself.  Its new
    dependencies are compared with those of another output, and here not recorded; or with
    memory that was never set. *)
Theorem C86_the_log_is_updated_refuted :
  (exists rs p m ds w rs', well_formed rs /\ session (fun _ => true) (log_of rs) [(p, m, ds)] = Ok w /\
     out w = log_of rs' /\ fact_ok (p, m, ds) /\ well_formed rs' /\ recorded rs' p = None) /\
  (exists p q m, Forall fact_ok [(p, m, [q]); (q, m, [p])] /\
     session (fun _ => true) [] [(p, m, [q]); (q, m, [p])] = Undefined).
Proof.
  split.
  - exists ex_stale, (B "b.h"), 5%Z, [B "b.h"]. eexists. exists [NodeR (B "a.o"); NodeR (B "b.h"); DepR 0 5 [1]].
    assert (PA : path_ok (B "a.o")) by (exists (B "a."), "o"%char; split; [reflexivity|discriminate]).
    assert (PB : path_ok (B "b.h")) by (exists (B "b."), "h"%char; split; [reflexivity|discriminate]).
    refine (conj _ (conj _ (conj _ (conj _ (conj _ _))))).
    + split; [|cbn; repeat constructor; cbn; intuition discriminate].
      repeat split; cbn; try lia; try (constructor; lia); try assumption; try constructor; try lia; try constructor.
    + vm_compute. reflexivity.
    + vm_compute. reflexivity.
    + refine (conj PB (conj _ _)); [constructor; [exact PB|constructor]|lia].
    + split; [|cbn; repeat constructor; cbn; intuition discriminate].
      repeat split; cbn; try lia; try (constructor; lia); try assumption; try constructor; try lia; try constructor.
    + reflexivity.
  - exists (B "a.o"), (B "b.h"), 5%Z.
    assert (PA : path_ok (B "a.o")) by (exists (B "a."), "o"%char; split; [reflexivity|discriminate]).
    assert (PB : path_ok (B "b.h")) by (exists (B "b."), "h"%char; split; [reflexivity|discriminate]).
    split; [|vm_compute; reflexivity].
    repeat constructor; try assumption; lia.
Qed.
Print Assumptions C86_the_log_is_updated_refuted.

(** ** A case *)
Definition ex_log : list record :=
  [NodeR (B "a.o"); NodeR (B "a.c"); NodeR (B "a.h"); DepR 0 5 [1; 2]; NodeR (B "b.o"); DepR 3 6 [2]].
Example ex_log_wf : well_formed ex_log.
Proof.
  split.
  - repeat split; cbn; try lia; try (constructor; lia); repeat constructor; try lia.
    + exists (B "a."), "o"%char. split; [reflexivity|discriminate].
    + exists (B "a."), "c"%char. split; [reflexivity|discriminate].
    + exists (B "a."), "h"%char. split; [reflexivity|discriminate].
    + exists (B "b."), "o"%char. split; [reflexivity|discriminate].
  - cbn. repeat constructor; cbn; intuition discriminate.
Qed.
(** the log is 108 bytes long; without its last byte, one record is missing *)
Example ex_log_cut :
  length (log_of ex_log) = 108 /\
  recorded (complete_in 107 ex_log) (B "a.o") = Some (5%Z, [B "a.c"; B "a.h"]) /\
  recorded (complete_in 107 ex_log) (B "b.o") = None /\
  recorded (complete_in 108 ex_log) (B "b.o") = Some (6%Z, [B "a.h"]) /\
  recorded (complete_in 60 ex_log) (B "a.o") = None.
Proof. vm_compute. tauto. Qed.
(** b.o is built again and a new output c.o is built *)
Example ex_session :
  exists w, session (fun _ => true) (firstn 107 (log_of ex_log))
     [(B "b.o", 9%Z, [B "b.c"; B "a.h"]); (B "c.o", 8%Z, [B "c.c"])] = Ok w /\
  out w = log_of [NodeR (B "a.o"); NodeR (B "a.c"); NodeR (B "a.h"); DepR 0 5 [1; 2];
     NodeR (B "b.o"); NodeR (B "b.c"); DepR 3 9 [4; 2]; NodeR (B "c.o"); NodeR (B "c.c"); DepR 5 8 [6]].
Proof. eexists. split; vm_compute; reflexivity. Qed.
