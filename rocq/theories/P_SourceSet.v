(** Properties of source sets. *)
From Coq Require Import ZArith Lia.
From Verif Require Import Base M_SourceSet S_SourceSet L_SourceSet.

Lemma frozen_rules h i j r : has_rule (update h i freeze) j r <-> has_rule h j r.
Proof. apply ext_rules, ext_freeze. Qed.

Lemma collect_good found h m strict cf fuel i c : collect_set found h m strict cf fuel i {| res := []; matched := false |} = Cont c ->
  collect found fuel h i cf m strict = Good (dedup [] (res c)).
Proof. unfold collect. now intros ->. Qed.

Section History.
Variable found : nat -> bool.
Variable cs : list command.
Hypothesis cs_ok : Forall no_self_add cs.
Notation h := (run cs []).

(** C56, the part that holds: whatever rules were added before, apply() ends and gives exactly
    the sources and the dependencies that the rules say, each once -- if no set was added to
    itself, and if a strict application finds all keys in the configuration. *)
Theorem C56_apply_selects_partial : forall i (c : conf) strict fuel,
  i < length h ->
  (forall k v, In (k, v) c -> v <> COther) ->
  (strict = true -> forall u, part (has_rule h) i u -> forall r, has_rule h u r -> forall k, In (Key k) (conditions r) -> in_conf c k) ->
  length cs < fuel ->
  exists srcs deps, snd (apply found fuel h i c strict) = Good (srcs, deps) /\ NoDup srcs /\ NoDup deps
    /\ (forall x, In x srcs <-> picked (fun d => found d = true) (has_value c) (has_rule h) i x /\ is_source_item x)
    /\ (forall x, In x deps <-> picked (fun d => found d = true) (has_value c) (has_rule h) i x /\ is_dependency x).
Proof.
  intros i c strict fuel Hi Hc Hs Hf. unfold apply. cbn [snd].
  set (h' := update h i freeze).
  assert (I : inv h' (length cs)).
  { apply inv_ext with h; [apply ext_freeze|]. exact (run_inv cs [] 0 inv_empty cs_ok). }
  destruct I as [O T (rank & B & R)].
  assert (HR : forall j r, has_rule h' j r <-> has_rule h j r) by (intros; apply frozen_rules).
  assert (G : forall m, good found c h' m (collect_set found h' m strict (Some c) fuel) i).
  { intros m. apply collect_set_ok with rank; try assumption.
    - intros j r t H A. split; [|now apply R with r]. apply frozen_lt. now apply T with j r.
    - specialize (B i). lia.
    - subst h'. now rewrite update_length.
    - intros u P St r H k. apply HR in H. apply Hs with u; [assumption| |assumption]. apply part_ext with (has_rule h'); [|assumption]. intros; now apply HR. }
  assert (P : forall x, picked (fun d => found d = true) (has_value c) (has_rule h') i x <-> picked (fun d => found d = true) (has_value c) (has_rule h) i x).
  { intros x. split; apply picked_ext; intros; now apply HR. }
  clearbody h'.
  destruct (G Sources {| res := []; matched := false |}) as (c1 & o1 & E1 & R1 & I1). cbn in R1.
  destruct (G Dependencies {| res := []; matched := false |}) as (c2 & o2 & E2 & R2 & I2). cbn in R2.
  exists (dedup [] (res c1)), (dedup [] (res c2)). split; [erewrite collect_good by exact E1; erewrite collect_good by exact E2; reflexivity|].
  split; [apply dedup_nodup; constructor|]. split; [apply dedup_nodup; constructor|].
  split; intros x; rewrite dedup_in, <- P.
  - rewrite R1, I1. cbn. tauto.
  - rewrite R2, I2. cbn. tauto.
Qed.

(** C87, the part that holds: all_sources() and all_dependencies() give everything that is
    mentioned, if the dependencies in the conditions were found. *)
Theorem C87_everything_is_listed_partial : forall i fuel,
  i < length h ->
  (forall u, part (has_rule h) i u -> forall r, has_rule h u r -> forall d, In (Found d) (conditions r) -> found d = true) ->
  length cs < fuel ->
  exists srcs deps, all_sources found fuel h i = Good srcs /\ all_dependencies found fuel h i = Good deps /\ NoDup srcs /\ NoDup deps
    /\ (forall x, In x srcs <-> mentioned (has_rule h) i x /\ is_source_item x)
    /\ (forall x, In x deps <-> mentioned (has_rule h) i x /\ is_dependency x).
Proof.
  intros i fuel Hi Hs Hf. unfold all_sources, all_dependencies.
  pose proof (run_inv cs [] 0 inv_empty cs_ok) as [O T (rank & B & R)].
  assert (G : forall m, all_good h m (collect_set found h m true None fuel) i).
  { intros m. apply all_set_ok with rank; try assumption.
    - intros j r t H A. split; [|now apply R with r]. apply frozen_lt. now apply T with j r.
    - specialize (B i). cbn in B. lia. }
  destruct (G Sources {| res := []; matched := false |}) as (c1 & o1 & E1 & R1 & I1). cbn in R1.
  destruct (G Dependencies {| res := []; matched := false |}) as (c2 & o2 & E2 & R2 & I2). cbn in R2.
  exists (dedup [] (res c1)), (dedup [] (res c2)). split; [now apply collect_good|]. split; [now apply collect_good|].
  split; [apply dedup_nodup; constructor|]. split; [apply dedup_nodup; constructor|].
  split; intros x; rewrite dedup_in.
  - rewrite R1, I1. cbn. tauto.
  - rewrite R2, I2. cbn. tauto.
Qed.
End History.
Print Assumptions C56_apply_selects_partial.
Print Assumptions C87_everything_is_listed_partial.

(** C56: a set that was applied, or that was added to another set, never changes: nothing can be
    added to it, its rules stay as they are, and applying it gives what it gave. *)
Theorem C56_frozen_sets_never_change : forall cs1 cs2 i,
  let h := run cs1 [] in let h' := run (cs1 ++ cs2) [] in
  (exists ss, nth_error h i = Some ss /\ frozen ss = true) ->
  (forall pos r, add h' i pos r = Error) /\ (forall pos w t, add_all h' i pos w t = Error)
  /\ (forall r, has_rule h' i r <-> has_rule h i r)
  /\ forall found fuel c strict, snd (apply found fuel h' i c strict) = snd (apply found fuel h i c strict).
Proof.
  intros cs1 cs2 i h h' F.
  assert (h' = run cs2 h) as E by (unfold h', h, run; apply fold_left_app).
  pose proof (run_targets cs1 [] targets_empty) as T. fold h in T.
  pose proof (run_keeps cs2 h) as K. rewrite <- E in K. clearbody h h'. clear E.
  destruct (K i F) as [F' R].
  split; [|split; [|split]].
  - intros pos r. unfold add. destruct (_ && _ && _); [|reflexivity]. destruct F' as (ss & -> & ->). reflexivity.
  - intros pos w t. unfold add_all. destruct (_ && _); [|reflexivity]. destruct F' as (ss & -> & ->). reflexivity.
  - intros r. unfold has_rule. destruct F as (ss & E & _), F' as (ss' & E' & _). rewrite E, E' in *. cbn in R. injection R as R.
    split; intros (s & [= <-] & H); [exists ss|exists ss']; (split; [reflexivity|]); congruence.
  - intros found fuel c strict. unfold apply. cbn [snd].
    assert (S : forall m, collect_set found (update h' i freeze) m strict (Some c) fuel i {| res := []; matched := false |}
              = collect_set found (update h i freeze) m strict (Some c) fuel i {| res := []; matched := false |}).
    { intros m. apply collect_set_stable.
      - apply targets_ext with h; [apply ext_freeze|assumption].
      - intros j Fj. destruct (Nat.eq_dec i j) as [<-|N].
        + split; [apply ext_frozen with h'; [apply ext_freeze|assumption]|]. rewrite !nth_update, Nat.eqb_refl.
          destruct F as (ss & E & _), F' as (ss' & E' & _). rewrite E, E' in *. exact R.
        + assert (is_frozen h j) as Fj'.
          { destruct Fj as (s & Es & Fs). rewrite nth_update in Es. destruct (Nat.eqb_spec i j); [contradiction|]. now exists s. }
          destruct (K j Fj') as [K1 K2]. split; [apply ext_frozen with h'; [apply ext_freeze|assumption]|].
          rewrite !nth_update. destruct (Nat.eqb_spec i j); [contradiction|]. assumption.
      - apply ext_frozen with h; [apply ext_freeze|assumption]. }
    unfold collect. now rewrite !S.
Qed.
Print Assumptions C56_frozen_sets_never_change.

(** C56: applying a set, and adding it to another one, freezes it. *)
Theorem C56_used_sets_are_frozen : forall cs i,
  let h := run cs [] in i < length h ->
  (forall c strict, exists ss, nth_error (run (cs ++ [Apply i c strict]) []) i = Some ss /\ frozen ss = true)
  /\ (forall j pos w t h', add_all h j pos w t = Good h' -> In (Set_ i) pos \/ among (Set_ i) t ->
      exists ss, nth_error h' i = Some ss /\ frozen ss = true).
Proof.
  intros cs i h L. split.
  - intros c strict. unfold run. rewrite fold_left_app. fold (run cs []). fold h. cbn [fold_left step].
    destruct (nth_error h i) as [ss|] eqn:E; [|apply nth_error_None in E; lia].
    exists (freeze ss). rewrite nth_update, Nat.eqb_refl, E. split; reflexivity.
  - intros j pos w t h' A H. unfold add_all in A. destruct (_ && _) eqn:C; [|discriminate].
    destruct (nth_error h j) as [sj|] eqn:Ej; [|discriminate]. destruct (frozen sj); [discriminate|].
    apply source_set_add_rule_ok in A as (r' & h1 & -> & X & Fr & Hr & _). apply add_rule_frozen.
    apply Fr; [|assumption]. destruct Hr as [[-> ->]|[-> E]]; cbn in *.
    + destruct H as [[]|H]. assumption.
    + destruct H as [H|(l & -> & _)]; [now exists pos|discriminate].
Qed.
Print Assumptions C56_used_sets_are_frozen.

(** C56: a strict application of a set that has no other sets in it fails exactly if a key that a
    rule needs to be decided is missing in the configuration. *)
Theorem C56_strict_application_needs_the_keys : forall found cs i (c : conf) fuel,
  let h := run cs [] in
  i < length h -> 0 < fuel ->
  (forall k v, In (k, v) c -> v <> COther) ->
  (forall r t, has_rule h i r -> ~ among (Set_ t) (if_true r) /\ ~ among (Set_ t) (if_false r)) ->
  (exists r, has_rule h i r /\ undecided (fun d => found d = true) c r) <-> snd (apply found fuel h i c true) = Error.
Proof.
  intros found cs i c fuel h Hi Hf Hc Flat. unfold apply. cbn [snd]. unfold collect. destruct fuel as [|fuel]; [lia|]. cbn [collect_set].
  rewrite nth_update, Nat.eqb_refl. destruct (nth_error h i) as [ss|] eqn:E; [|apply nth_error_None in E; lia]. cbn [option_map freeze rules].
  assert (HR : forall r, In r (rules ss) <-> has_rule h i r).
  { intros r. split; [intros H; exists ss; tauto|]. intros (ss' & E' & H). congruence. }
  assert (Fl : forall r, In r (rules ss) -> flat r) by (intros r H t; apply HR in H; now apply Flat).
  destruct (collect_rules_strict found c Hc Sources (collect_set found (update h i freeze) Sources true (Some c) fuel) _ Fl {| res := []; matched := false |})
    as [[(c1 & ->) N]|[(c1 & ->) (r & I & U)]].
  - destruct (collect_rules_strict found c Hc Dependencies (collect_set found (update h i freeze) Dependencies true (Some c) fuel) _ Fl {| res := []; matched := false |})
      as [[(c2 & ->) N2]|[(c2 & ->) (r & I & U)]].
    + split; [|discriminate]. intros (r & I & U). exfalso. apply (N r); [now apply HR|assumption].
    + exfalso. now apply (N r).
  - split; [reflexivity|]. intros _. exists r. split; [now apply HR|assumption].
Qed.
Print Assumptions C56_strict_application_needs_the_keys.

(** a set with a rule of each kind and another set in it *)
Definition ex_history : list command :=
  [ Create; Create;
    Add 0 [Str (B "a.c"); Dep 7] {| when := None; if_true := None; if_false := None |};
    Add 0 [] {| when := Some [Key (B "X"); Found 3]; if_true := Some [Str (B "x.c"); Str (B "a.c")]; if_false := Some [Str (B "n.c")] |};
    Add 0 [] {| when := Some [Key (B "Y")]; if_true := Some [Str (B "y.c")]; if_false := Some [Str (B "z.c")] |};
    AddAll 1 [] (Some [Key (B "X")]) (Some [Set_ 0]);
    Add 1 [Str (B "m.c")] {| when := None; if_true := None; if_false := None |} ].
Definition ex_conf : conf := [(B "X", CBool true); (B "Y", CNum 0)].
Example ex_apply : snd (apply (fun d => d =? 3) 8 (run ex_history []) 1 ex_conf true)
  = Good ([Str (B "a.c"); Str (B "x.c"); Str (B "z.c"); Str (B "m.c")], [Dep 7; Dep 3]).
Proof. vm_compute. reflexivity. Qed.
Example ex_meets : Forall no_self_add ex_history /\ 1 < length (run ex_history []) /\ (forall k v, In (k, v) ex_conf -> v <> COther)
  /\ forall u r k, has_rule (run ex_history []) u r -> In (Key k) (conditions r) -> in_conf ex_conf k.
Proof.
  split; [|split; [|split]].
  - repeat constructor; cbn; [easy|]. intros (l & [= <-] & [[=]|[]]).
  - vm_compute. lia.
  - intros k v [[= <- <-]|[[= <- <-]|[]]]; discriminate.
  - intros u r k (ss & E & H) K. vm_compute in E.
    destruct u as [|[|u]]; [| |destruct u; discriminate]; injection E as <-; cbn in H.
    + destruct H as [<-|[<-|[<-|[]]]]; cbn in K; [destruct K|destruct K as [[= <-]|[[=]|[]]]; now left|destruct K as [[= <-]|[]]; right; now left].
    + destruct H as [<-|[<-|[]]]; cbn in K; [destruct K as [[= <-]|[]]; now left|destruct K].
Qed.
Example ex_frozen : (exists ss, nth_error (run ex_history []) 0 = Some ss /\ frozen ss = true)
  /\ (exists ss, nth_error (run ex_history []) 1 = Some ss /\ frozen ss = false).
Proof. split; eexists; split; vm_compute; reflexivity. Qed.
Example ex_strict : snd (apply (fun d => d =? 3) 8 (run ex_history []) 0 [(B "X", CBool true)] true) = Error
  /\ snd (apply (fun d => d =? 3) 8 (run ex_history []) 0 [(B "X", CBool true)] false) = Good ([Str (B "a.c"); Str (B "x.c"); Str (B "z.c")], [Dep 7; Dep 3]).
Proof. split; vm_compute; reflexivity. Qed.
Example ex_all : all_sources (fun d => d =? 3) 8 (run ex_history []) 1
  = Good [Str (B "a.c"); Str (B "x.c"); Str (B "n.c"); Str (B "y.c"); Str (B "z.c"); Str (B "m.c")].
Proof. vm_compute. reflexivity. Qed.

(** C56 as it stands is false: the error that a set inside of another one lacks a key is dropped,
    and with it the sources of the rules that follow; and a set that was added to itself is
    collected without end. *)
Definition bad_history : list command :=
  [ Create; Create;
    Add 0 [] {| when := Some [Key (B "X")]; if_true := Some [Str (B "x.c")]; if_false := None |};
    Add 0 [] {| when := Some [Key (B "Y")]; if_true := Some [Str (B "y.c")]; if_false := None |};
    AddAll 1 [Set_ 0] None None ].
Theorem C56_refuted :
  (snd (apply (fun _ => true) 9 (run bad_history []) 1 [(B "Y", CBool true)] true) = Good ([], [])
   /\ picked (fun _ => True) (has_value [(B "Y", CBool true)]) (has_rule (run bad_history [])) 1 (Str (B "y.c")))
  /\ (forall fuel (c : conf), snd (apply (fun _ => true) fuel (run [Create; AddAll 0 [Set_ 0] None None] []) 0 c true) = Overflow).
Proof.
  split; [split; [vm_compute; reflexivity|]|].
  - eapply p_set with (t := 0).
    + eexists. split; [vm_compute; reflexivity|]. now left.
    + intros c H. vm_compute in H. destruct H.
    + exists [Set_ 0]. split; [reflexivity|now left].
    + eapply p_true.
      * eexists. split; [vm_compute; reflexivity|]. right. now left.
      * intros c [<-|[]]. exists (CBool true). split; [|reflexivity]. exists [], []. split; [reflexivity|easy].
      * eexists. split; [reflexivity|now left].
      * intros (j & [=]).
  - intros fuel c. unfold apply. cbn [snd]. unfold collect.
    assert (forall fuel m x, collect_set (fun _ => true) (update (run [Create; AddAll 0 [Set_ 0] None None] []) 0 freeze) m true (Some c) fuel 0 x = Deep) as D.
    { induction fuel0 as [|f IH]; intros m x; [reflexivity|]. cbn. rewrite IH. reflexivity. }
    now rewrite D.
Qed.
Print Assumptions C56_refuted.

(** C87 as it stands is false: the sources of a rule whose dependency was not found are missing. *)
Theorem C87_refuted : exists cs i,
  all_sources (fun _ => false) 9 (run cs []) i = Good [] /\ mentioned (has_rule (run cs [])) i (Str (B "a.c")).
Proof.
  exists [Create; Add 0 [] {| when := Some [Found 0]; if_true := Some [Str (B "a.c")]; if_false := None |}], 0.
  split; [vm_compute; reflexivity|].
  eapply m_true.
  - eexists. split; [vm_compute; reflexivity|]. now left.
  - eexists. split; [reflexivity|now left].
  - intros (j & [=]).
Qed.
Print Assumptions C87_refuted.
